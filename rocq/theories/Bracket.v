(** force_children_to_bound_parent: the children bracket the parent; when the assertion cannot fail. *)
From Coq Require Import List Arith NArith Lia Bool Permutation Reals Lra Sorting.
From Verif Require Import Prelude Float FloatX FloatLaws FloatMono Data DataProofs Utils UtilsX Binning
  Histogram HistogramProofs HistogramX PivotProofs Pivot3Proofs Node Splitter SplitProofs EvalProofs Tree GrowProofs GrowInv
  GrowStep TreeWf TreeProofs FitProofs FitSplits PathProofs RouteX RouteFit NoPanic GrowWeights GrowMono.
Import ListNotations.

(** [w] lies between [a] and [b] *)
Definition brackets (F : FloatOps) (a b w : fcar F) : Prop :=
  (flt F w a = false /\ flt F b w = false) \/ (flt F w b = false /\ flt F a w = false).

Section Any.
Context {FS : Floats}.
Variable tame : fcar (@f32 FS) -> Prop.
Hypotheses (OL : OrdLaws (@f32 FS)) (SL : SubLaws (@f32 FS)) (ML : MonoLaws (@f32 FS) tame).

Lemma between_brackets : forall a b w : F32, between a b w = true -> brackets f32 a b w.
Proof.
  intros a b w H. unfold between in H. unfold brackets.
  destruct (b <? a)%f32; apply andb_prop in H; destruct H as [H1 H2]; apply (ord_le_nlt OL) in H1; apply (ord_le_nlt OL) in H2; auto.
Qed.

Lemma btp_between : forall w a b : F32, let r := bound_to_parent w a b in
  fisnan f32 (fst r) = false -> fisnan f32 (snd r) = false -> between (fst r) (snd r) w = true.
Proof.
  intros w a b r. unfold r, bound_to_parent. clear r.
  destruct (between a b w) eqn:B; [auto|]. unfold between in B.
  destruct (b <? a)%f32 eqn:E1.
  - destruct (ol_lt_nan _ OL _ _ E1) as [Nb Na]. destruct (a <? w)%f32 eqn:E2; simpl; intros N1 N2; unfold between.
    + assert (E3 : (b <? w)%f32 = true) by (eapply (ord_lt_le_trans OL); eauto; apply (ord_lt_le OL); auto).
      rewrite E3, (ol_le_refl _ OL) by auto. rewrite (ord_lt_le OL _ _ E3). reflexivity.
    + assert (E3 : (w <=? a)%f32 = true) by (apply (ord_nlt_le OL); auto). rewrite E3 in B. simpl in B.
      assert (E4 : (w <? b)%f32 = true) by (apply (ord_nle_lt OL); auto).
      rewrite (ord_lt_le_trans OL w b a E4 (ord_lt_le OL _ _ E1)), E3, (ol_le_refl _ OL) by auto. reflexivity.
  - destruct (b <? w)%f32 eqn:E2; simpl; intros N1 N2; unfold between.
    + destruct (ol_lt_nan _ OL _ _ E2) as [Nb _].
      assert (E3 : (a <? w)%f32 = true) by (apply (ord_le_lt_trans OL) with (y := b); auto; apply (ord_nlt_le OL); auto).
      rewrite (ord_le_nlt OL a w) by (apply (ord_lt_le OL); auto).
      rewrite (ord_lt_le OL _ _ E3), (ol_le_refl _ OL) by auto. reflexivity.
    + rewrite E2. rewrite (ol_le_refl _ OL) by auto. simpl. apply (ord_nlt_le OL); auto.
Qed.

Variables (s : Splitter) (t : Train) (max_depth : nat).
Notation p := (params s).

Lemma facts_nan : forall node si, split_facts s node si -> fisnan f32 (ni_weight (si_left si)) = false /\ fisnan f32 (ni_weight (si_right si)) = false.
Proof.
  intros node si F. destruct (sf_gain_l _ _ _ F) as [G1 E1]. destruct (sf_gain_r _ _ _ F) as [G2 E2].
  rewrite E1 in G1. rewrite E2 in G2. split; eapply (ml_gain_nan _ _ ML); eauto.
Qed.

Lemma facts_bracket : forall node si, split_facts s node si -> forces s = true ->
  brackets f32 (ni_weight (si_left si)) (ni_weight (si_right si)) (sn_weight node).
Proof.
  intros node si F HF. destruct (facts_nan _ _ F) as [N1 N2]. destruct (sf_weights _ _ _ F) as [E _]. rewrite HF in E.
  apply between_brackets.
  match type of E with _ = bound_to_parent ?w ?a ?b => pose proof (btp_between w a b) as B end.
  rewrite <- E in B. simpl in B. apply B; auto.
Qed.

(** C25 for trees *)
Theorem fit_brackets : forall policy pick index max_leaves sm nodes st,
  tree_fit policy pick s t index max_leaves max_depth sm = Some (nodes, st) ->
  forces s = true -> (forall q term f, s <> Branch q term AverageLeafWeight f) -> (fzero f32 <=? sp_learning_rate p)%f32 = true ->
  forall n l r, In n nodes -> n_is_leaf n = false -> nth_error nodes (n_left n) = Some l -> nth_error nodes (n_right n) = Some r ->
  brackets f32 (n_weight l) (n_weight r) (n_weight n).
Proof.
  intros policy pick index max_leaves sm nodes st H HF NL HLR n l r Hn Hlf Hl Hr.
  pose proof H as H'. apply fit_account in H'. destruct H' as (root & g & HR & I & L & P & C & S).
  assert (EN : nodes = g_nodes st).
  { clear - C NL HF. unfold clean_up_splits in C. destruct s as [q|q term treat force]; [congruence|].
    destruct treat; congruence. }
  clear C. subst nodes. apply In_nth_error in Hn. destruct Hn as [i Hi].
  destruct (INV_node _ _ _ _ _ _ _ I _ _ Hi) as (x & Hx & E & -> & V).
  destruct (gnode_leaf s t max_depth _ V Hlf) as [si HS]. destruct (gsplit_best _ _ _ _ _ V HS) as [HB _].
  pose proof (facts_bracket _ _ (chosen_facts s tame OL SL ML _ _ _ HB) HF) as B.
  destruct (gsplit_children _ _ _ _ _ V HS) as (gl & gr & Hil & Hir & El & Er & _ & _ & Wl & Wr).
  rewrite <- Wl, <- Wr in B.
  assert (KID : forall k m, In k (gchildren x) -> nth_error (g_nodes st) (gnum k) = Some m -> n_weight m = (sn_weight (groot k) * sp_learning_rate p)%f32).
  { intros k m Hk Hm. assert (Hkg : In k (gall g)) by (eapply gall_trans; eauto; apply gchildren_all; auto).
    rewrite (gall_agree s _ _ (iv_agree _ _ _ _ _ _ _ I) _ Hkg) in Hm. injection Hm as <-.
    apply (gnode_facts s t max_depth k). apply (gall_valid s t max_depth g); auto. apply (iv_valid _ _ _ _ _ _ _ I). }
  rewrite El in Hl. rewrite Er in Hr. rewrite (KID gl l Hil Hl), (KID gr r Hir Hr).
  destruct (gnode_facts s t max_depth x V) as (_ & _ & _ & -> & _).
  unfold brackets in *. destruct B as [[B1 B2]|[B1 B2]]; [left|right]; split; apply (ml_mul _ _ ML); auto.
Qed.

(** *** When the assertion cannot fail *)
Definition all_or_none : Prop := (forall f, In f (tr_cols t) -> constrained s f) \/ (forall f, In f (tr_cols t) -> ~ constrained s f).
Definition calm (n : SplittableNode) : Prop := fisnan f32 (sn_weight n) = false /\ inb n /\
  ((forall f, In f (tr_cols t) -> ~ constrained s f) -> sn_lower n = fninf f32 /\ sn_upper n = finf f32).
Hypotheses (NA : no_average s) (HL2 : (fzero f32 <=? sp_l2 p)%f32 = true) (HMW : (fzero f32 <=? sp_min_leaf_weight p)%f32 = true)
  (AON : all_or_none).

Lemma chosen_col : forall node si, best_split s node (tr_cols t) = Some (Some si) -> In (si_feature si) (tr_cols t).
Proof.
  intros node si HB. destruct (best_split_admissible _ _ _ _ HB) as (k & j & [f missing bins bin Hf _ _ HC]).
  destruct (candidate_inv _ _ _ _ _ _ _ _ _ HC) as (l & r & m & _ & F1 & _). rewrite F1. eapply nth_error_In; eauto.
Qed.

Lemma calm_child : forall x c, gvalid s t max_depth x -> In c (gchildren x) -> calm (groot x) -> calm (groot c).
Proof.
  intros x c V Hc (C1 & C2 & C3). destruct (gchildren_of _ _ _ _ _ V Hc) as (si & HS & CO).
  destruct (gsplit_best _ _ _ _ _ V HS) as [HB _]. pose proof (chosen_facts s tame OL SL ML _ _ _ HB) as F.
  pose proof (chosen_col _ _ HB) as Hcol. destruct (facts_nan _ _ F) as [N1 N2].
  split; [|split].
  - destruct CO as [c' E1 E2 E3 E4|c' E1 E2 E3 E4|c' q term treat force i Hq Hi E1 E2 E3 E4]; rewrite E1; auto.
    pose proof (sf_missing _ _ _ F) as M. rewrite Hq in M. destruct M as (i' & HM' & _ & G1 & G2 & _).
    assert (i' = i) by (destruct Hi as [X|X], HM' as [X'|X']; rewrite X in X'; try discriminate; injection X'; auto). subst i'.
    unfold missing_info_of. destruct treat; simpl; auto; rewrite G2 in G1; apply (ml_gain_nan _ _ ML) in G1; auto.
  - destruct AON as [A|A].
    + apply (constrained_child s t max_depth tame OL SL ML NA HL2 HMW x c si V Hc HS (A _ Hcol) C2).
    + destruct (free_child s t max_depth tame OL SL ML x c si V Hc HS (A _ Hcol)) as [E1 E2]. destruct (C3 A) as [F1 F2].
      apply (inb_free tame OL ML); congruence.
  - intros A. destruct (free_child s t max_depth tame OL SL ML x c si V Hc HS (A _ Hcol)) as [E1 E2]. destruct (C3 A) as [F1 F2]. split; congruence.
Qed.

Lemma inb_between : forall lo up w : F32, (lo <=? up)%f32 = true -> (w <? lo)%f32 = false -> (up <? w)%f32 = false -> fisnan f32 w = false ->
  between lo up w = true.
Proof.
  intros lo up w H1 H2 H3 N. destruct (ol_le_nan _ OL _ _ H1) as [N1 N2]. unfold between. rewrite (ord_le_nlt OL _ _ H1).
  rewrite (ord_nlt_le OL lo w), (ord_nlt_le OL w up) by auto. reflexivity.
Qed.

(** A calm node never aborts where the candidate weights are numbers. *)
Lemma calm_eval : forall node f lg lh rg rh mg mh, calm node -> In f (tr_cols t) ->
  let c := get_constraint s f in
  fisnan f32 (cweight p lg lh (sn_lower node) (sn_upper node) c) = false ->
  fisnan f32 (cweight p rg rh (sn_lower node) (sn_upper node) c) = false ->
  evaluate_split s lg lh rg rh mg mh (sn_lower node) (sn_upper node) (sn_weight node) c <> None.
Proof.
  intros node f lg lh rg rh mg mh (C1 & (B1 & B2 & B3) & C3) Hf c NL NR E.
  assert (EB : exists q term treat force, s = Branch q term treat force) by (destruct s; [discriminate|eauto]).
  destruct EB as (q & term & treat & force & Es).
  assert (W : forall w, w = sn_weight node \/ w = cweight p lg lh (sn_lower node) (sn_upper node) c \/
     w = cweight p rg rh (sn_lower node) (sn_upper node) c -> between (sn_lower node) (sn_upper node) w = true).
  { assert (CW : forall g h, fisnan f32 (cweight p g h (sn_lower node) (sn_upper node) c) = false ->
       between (sn_lower node) (sn_upper node) (cweight p g h (sn_lower node) (sn_upper node) c) = true).
    { intros g h N. destruct AON as [A|A].
      - destruct (cweight_in s OL g h _ _ c (A _ Hf) B1). apply inb_between; auto.
      - destruct (C3 A) as [F1 F2]. apply inb_between; auto; [rewrite F1; apply (ml_ninf _ _ ML)|rewrite F2; apply (ml_inf _ _ ML)]. }
    intros w [->|[->| ->]]; auto. apply inb_between; auto. }
  rewrite Es in E. cbn [evaluate_split] in E. apply branch_panics in E. destruct E as [-> E].
  unfold branch_weights in E. assert (EP : params s = q) by (rewrite Es; reflexivity). rewrite EP in W.
  match type of E with context [bound_to_parent ?w ?a ?b] => destruct (btp_cases w a b) as [X Y]; destruct (bound_to_parent w a b) as [a' b'] end.
  simpl in X, Y. cbv beta iota zeta in E. rewrite (W a' X), (W b' Y) in E. discriminate.
Qed.
End Any.

(** *** Exact arithmetic *)
Section Exact.
Local Open Scope R_scope.

Lemma weight_number : forall (l1 mds : xr) l2 g h, xle (Fin 0) l1 = true -> 0 < l2 -> 0 <= h ->
  xisnan (@weight XF l1 (Fin l2) mds (Fin g) (Fin h)) = false.
Proof.
  intros l1 mds l2 g h H1 H2 H3. unfold weight.
  assert (L : xfin (@l1_regularization XF (Fin g) l1)).
  { unfold l1_regularization. destruct l1 as [l| | |]; try discriminate; cbn; repeat rcase; eexists; reflexivity. }
  destruct L as [r Hr]. rewrite Hr. cbn [fneg fdiv fadd fcar f32 XF XOps xadd].
  rewrite xdiv_fin by lra. cbn [xneg].
  match goal with |- context [if ?b then _ else _] => destruct b eqn:E end; [|reflexivity].
  apply andb_prop in E. destruct E as [_ E]. cbn in E. unfold fcopysign. cbn [XOps]. unfold xcopysign.
  destruct mds as [m| | |]; cbn in E |- *; try discriminate;
  match goal with |- context [if ?b then _ else _] => destruct b end; reflexivity.
Qed.

Lemma sumR_nonneg : forall (w : nat -> R) rows, (forall i, 0 <= w i) -> 0 <= sumR (map w rows).
Proof. intros w rows H. induction rows as [|i rows IH]; simpl; [lra|]. specialize (H i). unfold sumR in *. simpl. lra. Qed.

Lemma cweight_number : forall p l2 (lo up : xr) g h c, xle (Fin 0) (@sp_l1 XF p) = true -> @sp_l2 XF p = Fin l2 -> 0 < l2 -> 0 <= h ->
  xisnan lo = false -> xisnan up = false -> xisnan (@cweight XF p (Fin g) (Fin h) lo up c) = false.
Proof.
  intros p l2 lo up g h c H1 H2 H3 H4 N1 N2. unfold cweight, constrained_weight. rewrite H2.
  pose proof (weight_number (sp_l1 p) (sp_max_delta_step p) l2 g h H1 H3 H4) as W. change (fcar f32) with xr in *.
  set (w := weight _ _ _ _ _) in *. clearbody w.
  destruct c as [c|]; [destruct c|]; auto;
  repeat match goal with |- context [if ?b then _ else _] => destruct b end; auto.
Qed.

Variables (S : Sorts) (data : Matrix xr) (sw : list xr) (nbins : nat) (missing : xr) (bd : @BinnedData XF).
Variables (policy : GrowPolicy) (pick : pick_fn) (s : @Splitter XF) (t : @Train XF) (index : list nat).
Variables (max_leaves max_depth : nat) (sm : SampleMethod).
Hypothesis TD : trained S data sw nbins missing bd s t index sm.
Variable l2 : R.
Hypotheses (HH : forall x : xr, In x (tr_hess t) -> xle (Fin 0) x = true) (HL1 : xle (Fin 0) (@sp_l1 XF (params s)) = true)
  (HL2 : @sp_l2 XF (params s) = Fin l2) (PL2 : 0 < l2) (NA : no_average s) (AON : all_or_none s t).

Lemma hess_nonneg : forall i, 0 <= hR (tr_hess t) i.
Proof.
  intros i. unfold hR. change (@hof XF (tr_hess t) i) with (nth i (tr_hess t) (Fin 0)).
  destruct (nth_in_or_default i (tr_hess t) (Fin 0)) as [Hin|E].
  - pose proof (HH _ Hin) as L. pose proof (td_hess_fin _ _ _ _ _ _ _ _ _ _ TD _ Hin) as [r Hr].
    match type of Hr with ?x = _ => change (xle (Fin 0) x = true) in L; change (0 <= val x) end.
    rewrite Hr in L |- *. simpl in L |- *. rcase; auto; discriminate.
  - match type of E with ?x = _ => change (0 <= val x) end. rewrite E. simpl. lra.
Qed.

(** Growing a tree with force_children_to_bound_parent does not abort. *)
Theorem forced_fit_total : exists nodes st, @tree_fit XF policy pick s t index max_leaves max_depth sm = Some (nodes, st).
Proof.
  apply (fit_total_if S data sw nbins missing bd policy pick s t index max_leaves max_depth sm TD).
  intros fcols ccols root st g node rows HI HR I Hin Hml RO [SG SH] HSP.
  destruct (td_mlw _ _ _ _ _ _ _ _ _ _ TD) as (mlw & ML & MP).
  assert (L2 : (fzero f32 <=? sp_l2 (params s))%f32 = true) by (rewrite HL2; cbn; rcase; auto; lra).
  assert (MW : (fzero f32 <=? sp_min_leaf_weight (params s))%f32 = true) by (rewrite ML; cbn; rcase; auto; lra).
  assert (CALM : calm s t node).
  { change node with (groot (GL node rows)).
    refine (ghost_ind s t max_depth (calm s t) _ g (iv_valid _ _ _ _ _ _ _ I) _ _ Hin).
    - intros x c Vx Hc HC. eapply (@calm_child XF x_tame x_ord_laws x_sub_laws x_mono_laws s t max_depth NA L2 MW AON); eauto.
    - rewrite (iv_root _ _ _ _ _ _ _ I).
      destruct (root_sums_ok S data sw nbins missing bd s t index sm TD root HR) as [RG RH].
      assert (B : sn_lower root = fninf f32 /\ sn_upper root = finf f32 /\ sn_weight root = weight (sp_l1 (params s)) (sp_l2 (params s)) (sp_max_delta_step (params s)) (sn_grad root) (sn_hess root)).
      { unfold root_node in HR. inv_bind HR. destruct v as [[gs hs] so]. inv_bind HR. injection HR as <-. auto. }
      destruct B as (B1 & B2 & B3). split; [|split; auto].
      + rewrite B3, RG, RH, HL2. apply weight_number; auto. apply sumR_nonneg. apply hess_nonneg.
      + apply (@inb_free XF x_tame x_ord_laws x_mono_laws); auto. }
  intros k f m bins j bin Hk Hcol Hb cg ch. rewrite HSP in Hcol.
  pose proof (nth_error_Some_lt _ _ Hb) as Hj.
  destruct (col_sums t fcols ccols HI (td_grad_fin _ _ _ _ _ _ _ _ _ _ TD) (td_hess_fin _ _ _ _ _ _ _ _ _ _ TD) rows k f m bins j RO Hk Hcol)
    as (C1 & C2 & C3 & C4 & _); [lia|].
  pose proof CALM as (_ & (B1 & _) & _). destruct (ol_le_nan _ x_ord_laws _ _ B1) as [N1 N2].
  assert (RS : forall w : nat -> R, sumR (map w rows) - sumR (map w (filter (on_side (fcol fcols f) (j + 1) Le) rows))
     - sumR (map w (filter (on_side (fcol fcols f) (j + 1) Mi) rows)) = sumR (map w (filter (on_side (fcol fcols f) (j + 1) Ri) rows))).
  { intros w. rewrite (sides_total w (fcol fcols f) (j + 1) rows). lra. }
  apply (@calm_eval XF x_tame x_ord_laws x_mono_laws s t NA L2 MW AON); auto.
  - eapply nth_error_In; eauto.
  - unfold cg, ch. rewrite C3, C4. apply (cweight_number _ l2); auto. apply sumR_nonneg. apply hess_nonneg.
  - unfold cg, ch. rewrite C1, C2, C3, C4, SG, SH. change (@fsub (@f32 XF)) with xsub. rewrite !xsub_fin, !RS.
    apply (cweight_number _ l2); auto. apply sumR_nonneg. apply hess_nonneg.
Qed.
End Exact.
