(** Which way an imputing split sends missing values, and averaged missing nodes, in exact arithmetic. *)
From Coq Require Import List Arith NArith Lia Bool Permutation Reals Lra Sorting.
From Flocq Require Import Core.Raux.
From Verif Require Import Prelude Float FloatX FloatLaws FloatMono Data DataProofs Utils UtilsX Binning
  Histogram HistogramProofs HistogramX PivotProofs Pivot3Proofs Node Splitter SplitProofs EvalProofs Tree GrowProofs GrowInv
  GrowStep TreeWf TreeProofs FitProofs FitSplits PathProofs RouteX RouteFit NoPanic GrowWeights GrowMono Bracket MissTree.
Import ListNotations.
Local Open Scope R_scope.

(** Quality of a leaf holding the rows [rows]. *)
Definition score (p : @SplitParams XF) (grad hess : list xr) (rows : list nat) : xr :=
  let g := Fin (sumR (map (fun i => val (nth i grad (Fin 0))) rows)) in
  let h := Fin (sumR (map (fun i => val (nth i hess (Fin 0))) rows)) in
  @gain_given_weight XF (sp_l2 p) g h (@weight XF (sp_l1 p) (sp_l2 p) (sp_max_delta_step p) g h).

(** Where a row of the training data lies with respect to a split. *)
Definition side_of_row (data : Matrix xr) (missing : xr) (f : nat) (sv : xr) (d : side) (i : nat) : bool :=
  match m_get data i f with
  | None => false
  | Some v => match @is_missing XF v missing, d with
              | Some true, Mi => true
              | Some false, Le => xlt v sv
              | Some false, Ri => negb (xlt v sv)
              | _, _ => false
              end
  end.

Lemma weight_fin : forall (l1 mds : xr) l2 g h, xle (Fin 0) l1 = true -> 0 < l2 -> 0 <= h -> xfin mds ->
  xfin (@weight XF l1 (Fin l2) mds (Fin g) (Fin h)).
Proof.
  intros l1 mds l2 g h H1 H2 H3 [m ->]. unfold weight.
  assert (L : xfin (@l1_regularization XF (Fin g) l1)).
  { unfold l1_regularization. destruct l1 as [l| | |]; try discriminate; cbn; repeat rcase; eexists; reflexivity. }
  destruct L as [r Hr]. rewrite Hr. cbn [fneg fdiv fadd fcar f32 XF XOps xadd].
  rewrite xdiv_fin by lra. cbn [xneg].
  match goal with |- context [if ?b then _ else _] => destruct b end; [|eexists; reflexivity].
  unfold fcopysign. cbn [XOps]. unfold xcopysign. cbn [xabs].
  match goal with |- context [if ?b then _ else _] => destruct b end; eexists; reflexivity.
Qed.

Lemma ggw_fin : forall l2 g h (w : xr), xfin w -> xfin (@gain_given_weight XF (Fin l2) (Fin g) (Fin h) w).
Proof. intros l2 g h w [x ->]. unfold gain_given_weight. cbn. eexists; reflexivity. Qed.

Section Dir.
Variables (S : Sorts) (data : Matrix xr) (sw : list xr) (nbins : nat) (missing : xr) (bd : @BinnedData XF).
Variables (policy : GrowPolicy) (pick : pick_fn) (p : @SplitParams XF) (t : @Train XF) (index : list nat).
Variables (max_leaves max_depth : nat) (sm : SampleMethod) (l2 : R).
Notation s := (Imputer p).
Hypothesis TD : trained S data sw nbins missing bd s t index sm.
Hypotheses (HH : forall x : xr, In x (tr_hess t) -> xle (Fin 0) x = true) (HL1 : xle (Fin 0) (sp_l1 p) = true)
  (HL2 : sp_l2 p = Fin l2) (PL2 : 0 < l2) (HD : xfin (sp_max_delta_step p)).
Notation sc := (score p (tr_grad t) (tr_hess t)).

Lemma score_fin : forall rows, xfin (sc rows).
Proof.
  intros rows. unfold score. rewrite HL2. apply ggw_fin. apply weight_fin; auto. apply sumR_nonneg.
  apply (hess_nonneg S data sw nbins missing bd s t index sm TD HH).
Qed.

Lemma score_perm : forall a b, Permutation a b -> sc a = sc b.
Proof. intros a b P. unfold score. rewrite !(sum_perm _ _ _ P). reflexivity. Qed.

Lemma score_sums : forall rows g h, sumR (map (gR (tr_grad t)) rows) = g -> sumR (map (hR (tr_hess t)) rows) = h ->
  sc rows = @gain_given_weight XF (sp_l2 p) (Fin g) (Fin h) (@weight XF (sp_l1 p) (sp_l2 p) (sp_max_delta_step p) (Fin g) (Fin h)).
Proof. intros rows g h <- <-. reflexivity. Qed.

Theorem fit_missing_side : forall nodes st, @tree_fit XF policy pick s t index max_leaves max_depth sm = Some (nodes, st) ->
  forall k n, nth_error nodes k = Some n -> n_is_leaf n = false -> get_constraint s (n_split_feature n) = None ->
  let rows := filter (fun i => passes nodes (fun f => m_get data i f) missing k) index in
  let part d := filter (side_of_row data missing (n_split_feature n) (n_split_value n) d) rows in
  (n_missing n = n_left n \/ n_missing n = n_right n) /\
  (n_missing n = n_left n <->
   val (sc (part Le)) + val (sc (part Ri ++ part Mi)) < val (sc (part Le ++ part Mi)) + val (sc (part Ri))).
Proof.
  intros nodes st H k n Hk Hl HC rows part.
  destruct (fit_routed_in S data sw nbins missing bd policy pick s t index max_leaves max_depth sm TD _ _ H)
    as (root & g & fcols & ccols & HR & I & RT & AG & LN & ND & FP & CELL & HI).
  destruct (fit_account _ _ _ _ _ _ _ _ _ _ H) as (_ & _ & _ & _ & _ & _ & CLN & _).
  assert (EN : nodes = g_nodes st) by (injection CLN; auto).
  pose proof Hk as Hk'. rewrite EN in Hk'.
  destruct (INV_node _ _ _ _ _ _ _ I _ _ Hk') as (x & Hx & Ex & E2 & V).
  assert (P : Permutation (grows x) rows).
  { pose proof (node_rows t fcols ccols data missing index CELL g RT ND) as NR.
    rewrite (iv_grows _ _ _ _ _ _ _ I) in NR. specialize (NR (incl_refl _) x Hx).
    etransitivity; [exact NR|]. rewrite Ex.
    apply Permutation_refl'. apply filter_ext. intros i. unfold gpasses, passes. rewrite FP. reflexivity. }
  destruct (gnode_leaf s t max_depth x V) as [si HS]; [rewrite <- E2; auto|].
  destruct (gsplit_best _ _ _ _ _ V HS) as [HB Hml].
  destruct (gsplit_node _ _ _ _ _ V HS) as (_ & EF & EV & _). rewrite <- E2 in EF, EV.
  destruct (routed_node t fcols ccols g RT _ Hx) as [[SG SH] HO].
  destruct (best_split_admissible _ _ _ _ HB) as (kk & j & [f ms bins bin Hf Hcol Hb HCD]).
  destruct (candidate_inv _ _ _ _ _ _ _ _ _ HCD) as (le & ri & mi & HE & Ef & Ev & Eb & Em & _).
  rewrite (HO Hml) in Hcol. pose proof (nth_error_Some_lt _ _ Hb) as Hj.
  assert (RO : rows_ok t (grows x)).
  { intros i Hi. apply (Permutation_in _ P) in Hi. apply filter_In in Hi. destruct Hi as [Hi _].
    rewrite (td_data _ _ _ _ _ _ _ _ _ _ TD). apply (td_index _ _ _ _ _ _ _ _ _ _ TD). auto. }
  destruct (col_sums t fcols ccols HI (td_grad_fin _ _ _ _ _ _ _ _ _ _ TD) (td_hess_fin _ _ _ _ _ _ _ _ _ _ TD) (grows x) kk f ms bins j RO Hf Hcol)
    as (C1 & C2 & C3 & C4 & _ & C6); [lia|]. specialize (C6 _ Hb). rewrite <- Ev in C6.
  set (pt d := filter (on_side (fcol fcols f) (j + 1) d) (grows x)) in *.
  assert (PP : forall d, Permutation (pt d) (part d)).
  { intros d. unfold pt, part. etransitivity; [apply Permutation_filter; exact P|]. apply Permutation_refl'. apply filter_ext_in.
    intros i Hi. unfold rows in Hi. apply filter_In in Hi. destruct Hi as [Hi _].
    destruct (CELL i f Hi (nth_error_In _ _ Hf)) as (v & m & M1 & M2 & M3 & M4).
    unfold on_side, side_of, side_of_row. rewrite EF, EV, Ef, M1, M2.
    destruct (Nat.eqb_spec (nth i (fcol fcols f) 0%nat) 0) as [Z|Z].
    - assert (m = true) as -> by tauto. destruct d; reflexivity.
    - assert (m = false) as -> by (destruct m; auto; exfalso; tauto). specialize (M4 eq_refl _ _ C6).
      destruct (Nat.ltb_spec (nth i (fcol fcols f) 0%nat) (j + 1)) as [Q|Q].
      + rewrite (proj1 M4 Q). destruct d; reflexivity.
      + destruct (xlt v (si_value si)) eqn:X; [exfalso; pose proof (proj2 M4 eq_refl); lia|]. destruct d; reflexivity. }
  rewrite <- (score_perm _ _ (PP Le)), <- (score_perm _ _ (PP Ri)),
    <- (score_perm _ _ (Permutation_app (PP Ri) (PP Mi))), <- (score_perm _ _ (Permutation_app (PP Le) (PP Mi))).
  assert (SD : (si_missing si = MRight -> n_missing n = n_right n) /\ (si_missing si = MLeft -> n_missing n = n_left n) /\
     n_left n <> n_right n).
  { rewrite E2. clear - V HS. inversion V as [n0 rows0 E|p0 n0 rows0 si0 mr l r sub lh rh E0 E1 E2 E3 E4 PP0 S0 N1 N2|n0 rows0 si0 m l r sub mh lh rh mi ml E1 E2 E3 E4 PP0 S0]; subst.
    - discriminate.
    - simpl in HS. injection HS as <-. destruct S0 as [f0 _ HM _ _ _]. rewrite HM. simpl. destruct mr; repeat split; try discriminate; lia.
    - exfalso. destruct S0 as [? ? ? ? ? ? HS0]. discriminate. }
  destruct SD as (SD1 & SD2 & SD3).
  assert (RS : forall w : nat -> R, sumR (map w (grows x)) - sumR (map w (pt Le)) - sumR (map w (pt Mi)) = sumR (map w (pt Ri))).
  { intros w. rewrite (sides_total w (fcol fcols f) (j + 1) (grows x)). unfold pt. lra. }
  rewrite C1, C2, C3, C4, SG, SH in HE. change (@fsub (@f32 XF)) with xsub in HE. rewrite !xsub_fin, !RS in HE.
  cbn [evaluate_split] in HE. injection HE as HE. apply imputer_inv in HE.
  assert (HC' : get_constraint s f = None) by (rewrite <- Ef, <- EF; exact HC).
  assert (AP : forall d1 d2 (w : nat -> R), sumR (map w (pt d1 ++ pt d2)) = sumR (map w (pt d1)) + sumR (map w (pt d2)))
    by (intros; rewrite map_app, sumR_app; reflexivity).
  destruct (score_fin (pt Le)) as [a Ha]. destruct (score_fin (pt Ri)) as [b Hb'].
  destruct (score_fin (pt Ri ++ pt Mi)) as [c Hc]. destruct (score_fin (pt Le ++ pt Mi)) as [d Hd].
  rewrite Ha, Hb', Hc, Hd. cbn [val].
  assert (LW : @left_wins XF p (Fin (sumR (map (gR (tr_grad t)) (pt Le)))) (Fin (sumR (map (hR (tr_hess t)) (pt Le))))
     (Fin (sumR (map (gR (tr_grad t)) (pt Ri)))) (Fin (sumR (map (hR (tr_hess t)) (pt Ri))))
     (Fin (sumR (map (gR (tr_grad t)) (pt Mi)))) (Fin (sumR (map (hR (tr_hess t)) (pt Mi)))) (sn_lower (groot x)) (sn_upper (groot x)) (get_constraint s f)
     = Rlt_bool (c - b) (d - a)).
  { rewrite HC'. unfold left_wins, mr_gain, ml_gain, mr_weight, ml_weight, cweight, constrained_weight, cull_gain.
    change (@fadd (@f32 XF)) with xadd. cbn [xadd].
    rewrite (score_sums (pt Le ++ pt Mi) _ _ (AP Le Mi _) (AP Le Mi _)) in Hd. rewrite (score_sums (pt Ri ++ pt Mi) _ _ (AP Ri Mi _) (AP Ri Mi _)) in Hc.
    rewrite (score_sums (pt Le) _ _ eq_refl eq_refl) in Ha. rewrite (score_sums (pt Ri) _ _ eq_refl eq_refl) in Hb'.
    change (fcar (@f32 XF)) with xr in *. rewrite Ha, Hb', Hc, Hd. reflexivity. }
  remember (le, ri, mi) as e eqn:Ee. destruct HE as [ES|ES EW|ES EW]; injection Ee as _ _ Ei; rewrite Em, <- Ei in SD1, SD2.
  - specialize (SD1 eq_refl). split; auto. split; [congruence|]. intros LT. exfalso.
    unfold sees_missing in ES. apply orb_false_iff in ES. destruct ES as [Z1 Z2].
    apply negb_false_iff in Z1. apply negb_false_iff in Z2.
    change (Req_bool (sumR (map (gR (tr_grad t)) (pt Mi))) 0 = true) in Z1. change (Req_bool (sumR (map (hR (tr_hess t)) (pt Mi))) 0 = true) in Z2.
    assert (Z : sumR (map (gR (tr_grad t)) (pt Mi)) = 0 /\ sumR (map (hR (tr_hess t)) (pt Mi)) = 0).
    { split; [destruct (Req_boolP (sumR (map (gR (tr_grad t)) (pt Mi))) 0) as [[_ Q]|[Q _]]|
              destruct (Req_boolP (sumR (map (hR (tr_hess t)) (pt Mi))) 0) as [[_ Q]|[Q _]]]; auto; congruence. }
    destruct Z as [Z3 Z4].
    assert (Q1 : sc (pt Le ++ pt Mi) = sc (pt Le)).
    { rewrite (score_sums (pt Le ++ pt Mi) _ _ (AP Le Mi _) (AP Le Mi _)), Z3, Z4, !Rplus_0_r. symmetry. apply score_sums; reflexivity. }
    assert (Q2 : sc (pt Ri ++ pt Mi) = sc (pt Ri)).
    { rewrite (score_sums (pt Ri ++ pt Mi) _ _ (AP Ri Mi _) (AP Ri Mi _)), Z3, Z4, !Rplus_0_r. symmetry. apply score_sums; reflexivity. }
    rewrite Ha, Hd in Q1. rewrite Hb', Hc in Q2. injection Q1 as ->. injection Q2 as ->. lra.
  - specialize (SD2 eq_refl). split; auto. split; auto. intros _. pose proof (eq_trans (eq_sym LW) EW) as LW'.
    destruct (Rlt_boolP (c - b) (d - a)) as [[_ Q]|[Q _]]; [lra|congruence].
  - specialize (SD1 eq_refl). split; auto. split; [congruence|]. intros LT. exfalso. pose proof (eq_trans (eq_sym LW) EW) as LW'.
    destruct (Rlt_boolP (c - b) (d - a)) as [[Q _]|[_ Q]]; [congruence|lra].
Qed.
End Dir.

(** The usual formula without L1 regularisation and step limit. *)
Lemma score_plain : forall (p : @SplitParams XF) l2 grad hess rows, sp_l1 p = Fin 0 -> sp_max_delta_step p = Fin 0 -> sp_l2 p = Fin l2 ->
  let g := sumR (map (fun i => val (nth i grad (Fin 0))) rows) in
  let h := sumR (map (fun i => val (nth i hess (Fin 0))) rows) in
  h + l2 <> 0 -> val (score p grad hess rows) = g * g / (h + l2).
Proof.
  intros p l2 grad hess rows E1 E2 E3 g h N. unfold score. rewrite E1, E2, E3. fold g h.
  unfold gain_given_weight, weight, l1_regularization, lit. cbn [f32 XF XOps feq fzero xeq].
  rewrite Req_bool_true by reflexivity. cbn [fadd fdiv XOps xadd fneg fmul fofnat xofnat negb andb].
  rewrite xdiv_fin by auto. cbn. field. auto.
Qed.

Section Avg.
Variables (policy : GrowPolicy) (pick : pick_fn) (t : @Train XF) (index : list nat) (max_leaves max_depth : nat) (sm : SampleMethod).
Variables (p : @SplitParams XF) (term : list nat) (force : bool).

Lemma xadd_0 : forall x, xadd x (Fin 0) = x.
Proof. intros [a| | |]; simpl; auto. f_equal. lra. Qed.

Theorem fit_average_weights : forall nodes st,
  @tree_fit XF policy pick (Branch p term AverageLeafWeight force) t index max_leaves max_depth sm = Some (nodes, st) ->
  forall n, In n nodes -> n_is_leaf n = false ->
  exists l r m, nth_error nodes (n_left n) = Some l /\ nth_error nodes (n_right n) = Some r /\ nth_error nodes (n_missing n) = Some m /\
    if n_is_leaf m
    then n_weight m = n_weight n /\
         n_weight n = xdiv (xadd (xmul (n_weight r) (n_hess r)) (xmul (n_weight l) (n_hess l))) (xadd (n_hess l) (n_hess r))
    else n_weight n = xdiv (xadd (xadd (xmul (n_weight r) (n_hess r)) (xmul (n_weight l) (n_hess l))) (xmul (n_weight m) (n_hess m)))
                           (xadd (xadd (n_hess l) (n_hess r)) (n_hess m)).
Proof.
  intros nodes st H n Hn Hl.
  pose proof (fun n Hn => @fit_averaged XF policy pick t index max_leaves max_depth sm p term AverageLeafWeight force eq_refl nodes st H n Hn) as AV.
  pose proof (fit_well_formed _ _ _ _ _ _ _ _ _ _ H) as WF.
  assert (W : forall i a x, averages nodes i a -> nth_error nodes i = Some x -> n_weight x = a).
  { intros i a x A Hx. pose proof (wf_num _ WF _ _ Hx) as Hi. destruct (n_is_leaf x) eqn:E.
    - inversion A; subst; match goal with E' : nth_error nodes _ = Some ?y |- _ => rewrite Hx in E'; injection E' as <- end; [reflexivity| |]; congruence.
    - destruct (AV x (nth_error_In _ _ Hx) E) as (b & B & EB & _). rewrite Hi in B. rewrite EB. apply (averages_det _ _ _ B). auto. }
  apply In_nth_error in Hn. destruct Hn as [k Hk]. pose proof (wf_num _ WF _ _ Hk) as Hi.
  destruct (AV n (nth_error_In _ _ Hk) Hl) as (a & A & EA & EM). rewrite Hi in A.
  change (to32 a) with a in EA.
  inversion A as [i x Hx Lx|i x ln rn mn la ra Hx Lx E1 E2 E3 E4 A1 A2|i x ln rn mn la ra ma Hx Lx E1 E2 E3 E4 A1 A2 A3]; subst i;
    rewrite Hk in Hx; injection Hx as <-; [congruence| |]; exists ln, rn, mn; (do 3 (split; [assumption|])); rewrite E4.
  - split; [auto|]. rewrite EA, (W _ _ _ A1 E1), (W _ _ _ A2 E2).
    rewrite <- H1. change (@fadd (@f64 XF)) with xadd. change (@fmul (@f64 XF)) with xmul. change (@fdiv (@f64 XF)) with xdiv.
    change (fzero (@f64 XF)) with (Fin 0). replace (xmul (Fin 0) (Fin 0)) with (Fin 0) by (simpl; f_equal; lra). rewrite !xadd_0. reflexivity.
  - rewrite EA, (W _ _ _ A1 E1), (W _ _ _ A2 E2), (W _ _ _ A3 E3). rewrite <- H1. reflexivity.
Qed.
End Avg.
