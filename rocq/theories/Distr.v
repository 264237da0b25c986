(** Exact arithmetic: a tree depends on the training rows only through the total weight of each kind of row. *)
From Coq Require Import List Arith NArith Lia Bool Permutation Reals Lra Sorting.
From Verif Require Import Prelude Float FloatX FloatLaws Data DataProofs Utils Histogram HistogramProofs HistogramX
  PivotProofs Pivot3Proofs Node Splitter SplitProofs EvalProofs Tree GrowProofs GrowInv GrowStep TreeWf TreeProofs
  FitProofs FitSplits PathProofs RouteX RouteFit Sim Recode.
Import ListNotations.
Local Open Scope R_scope.

(** what a node keeps apart from the positions of its rows and its histogram *)
Record nsim {FS : Floats} (n n' : SplittableNode) : Prop := mkNsim {
  ns_num : sn_num n' = sn_num n; ns_weight : sn_weight n' = sn_weight n; ns_gain : sn_gain n' = sn_gain n;
  ns_grad : sn_grad n' = sn_grad n; ns_hess : sn_hess n' = sn_hess n; ns_depth : sn_depth n' = sn_depth n;
  ns_value : sn_split_value n' = sn_split_value n; ns_feature : sn_split_feature n' = sn_split_feature n;
  ns_sgain : sn_split_gain n' = sn_split_gain n; ns_missing : sn_missing_node n' = sn_missing_node n;
  ns_left : sn_left_child n' = sn_left_child n; ns_right : sn_right_child n' = sn_right_child n;
  ns_lower : sn_lower n' = sn_lower n; ns_upper : sn_upper n' = sn_upper n;
  ns_leaf : sn_is_leaf n' = sn_is_leaf n; ns_ml : sn_is_missing_leaf n' = sn_is_missing_leaf n }.

Section NSim.
Context {FS : Floats}.
Lemma nsim_search : forall n n', nsim n n' -> search_same n n'.
Proof. intros n n' []. constructor; auto. Qed.
Lemma nsim_as_node : forall n n' lr, nsim n n' -> as_node n' lr = as_node n lr.
Proof. intros n n' lr []. unfold as_node. congruence. Qed.
Lemma nsim_parent : forall n n' lr m l r si, nsim n n' ->
  make_parent_node (as_node n' lr) (update_children n' m l r si) = make_parent_node (as_node n lr) (update_children n m l r si).
Proof.
  intros n n' lr m l r si N. rewrite (nsim_as_node _ _ lr N). unfold make_parent_node, update_children. simpl.
  unfold get_split_gain. rewrite (ns_gain _ _ N). reflexivity.
Qed.
Lemma nsim_info : forall num h h' d a b a' b' i, nsim (from_node_info num h d a b i) (from_node_info num h' d a' b' i).
Proof. intros. constructor; reflexivity. Qed.
Lemma nsim_missing : forall n n' b, nsim n n' -> nsim (set_missing_leaf n b) (set_missing_leaf n' b).
Proof. intros n n' b []. constructor; simpl; auto. Qed.

Lemma map_si_id : forall o : option (option SplitInfo), option_map (option_map (map_si (fun _ v => v))) o = o.
Proof. intros [[[]|]|]; reflexivity. Qed.

(** *** The node taken next *)
Definition pop_pos (policy : GrowPolicy) (pick : pick_fn) (step : nat) (l : list SplittableNode) : nat :=
  match policy with DepthWise => 0%nat | LossGuide => (pick step l mod length l)%nat end.
Lemma pop_node_pos : forall policy pick step l n rest, pop_node policy pick step l = Some (n, rest) ->
  nth_error l (pop_pos policy pick step l) = Some n /\
  rest = firstn (pop_pos policy pick step l) l ++ skipn (Datatypes.S (pop_pos policy pick step l)) l.
Proof.
  intros policy pick step [|a l] n rest H; [discriminate|]. unfold pop_node, pop_pos in *. destruct policy.
  - injection H as <- <-. auto.
  - cbv zeta in H. inv_bind H. injection H as <- <-. auto.
Qed.
Lemma pop_pos_sim : forall policy pick step l l', gain_based pick -> Forall2 nsim l l' ->
  pop_pos policy pick step l' = pop_pos policy pick step l.
Proof.
  intros policy pick step l l' GB F. unfold pop_pos. destruct policy; auto.
  rewrite (Forall2_length _ _ _ _ _ F). f_equal. apply GB. induction F as [|x y l l' N F IH]; simpl; auto.
  rewrite (ns_num _ _ N), (ns_gain _ _ N), IH. reflexivity.
Qed.
End NSim.

Section One.
Variables (s : @Splitter XF) (t : @Train XF) (fcols : list (list nat)) (ccols : list (list xr)).
Notation bcol := (fcol fcols).

Lemma leaf_facts : forall g, routed t fcols ccols g -> rows_ok t (grows g) -> forall n rows, In (n, rows) (gleaves g) ->
  sums_ok t n rows /\ hist_ok t fcols ccols n rows /\ rows_ok t rows.
Proof.
  induction g as [n0 rows0|n0 rows0 si mr l IHl r IHr|n0 rows0 si m IHm l IHl r IHr]; cbn [routed grows groot gleaves]; intros R RO n rows Hin.
  - destruct Hin as [E|[]]. injection E as <- <-. destruct R as [[A B] _]. auto.
  - destruct R as (_ & _ & P & _ & _ & Rl & Rr). apply in_app_iff in Hin.
    destruct Hin as [Hin|Hin]; [apply IHl|apply IHr]; auto; intros i Hi; apply RO; apply (Permutation_in _ (Permutation_sym P));
      apply in_app_iff; auto.
  - destruct R as (_ & _ & P & _ & _ & _ & Rm & Rl & Rr). rewrite !in_app_iff in Hin.
    destruct Hin as [Hin|[Hin|Hin]]; [apply IHm|apply IHl|apply IHr]; auto; intros i Hi; apply RO; apply (Permutation_in _ (Permutation_sym P));
      rewrite !in_app_iff; auto.
Qed.

Lemma perm_filter2 : forall (p : nat -> bool) rows L R, Permutation rows (L ++ R) ->
  (forall i, In i L -> p i = true) -> (forall i, In i R -> p i = false) ->
  Permutation L (filter p rows) /\ Permutation R (filter (fun i => negb (p i)) rows).
Proof.
  intros p rows L R P HL HR. split; symmetry.
  - rewrite (filter_perm p _ _ P), filter_app, (filter_all _ _ L), (filter_none _ _ R), app_nil_r; auto.
  - rewrite (filter_perm _ _ _ P), filter_app, (filter_none _ _ L), (filter_all _ _ R); auto; intros i Hi; rewrite ?HL, ?HR by auto; auto.
Qed.

Definition is_side (d e : side) : bool := match d, e with Mi, Mi | Le, Le | Ri, Ri => true | _, _ => false end.
Lemma perm_filter3 : forall (p : nat -> side) rows M L R, Permutation rows (M ++ L ++ R) ->
  (forall i, In i M -> p i = Mi) -> (forall i, In i L -> p i = Le) -> (forall i, In i R -> p i = Ri) ->
  Permutation M (filter (fun i => is_side (p i) Mi) rows) /\ Permutation L (filter (fun i => is_side (p i) Le) rows) /\
  Permutation R (filter (fun i => is_side (p i) Ri) rows).
Proof.
  intros p rows M L R P HM HL HR.
  repeat split; symmetry; rewrite (filter_perm _ _ _ P), !filter_app.
  - rewrite filter_all, (filter_none _ _ L), (filter_none _ _ R), !app_nil_r; auto; intros i Hi; rewrite ?HM, ?HL, ?HR by auto; auto.
  - rewrite (filter_none _ _ M), filter_all, (filter_none _ _ R), ?app_nil_r; auto; intros i Hi; rewrite ?HM, ?HL, ?HR by auto; auto.
  - rewrite (filter_none _ _ M), (filter_none _ _ L), filter_all; auto; intros i Hi; rewrite ?HM, ?HL, ?HR by auto; auto.
Qed.
End One.

Section Distr.
Variables (s : @Splitter XF) (t t' : @Train XF) (max_depth : nat) (fcols fcols' : list (list nat)) (ccols : list (list xr)).
Hypothesis HI : @hist_inputs XF (tr_data t) (tr_cuts t) (tr_grad t) (tr_hess t) (tr_cols t) fcols ccols.
Hypothesis HI' : @hist_inputs XF (tr_data t') (tr_cuts t') (tr_grad t') (tr_hess t') (tr_cols t') fcols' ccols.
Hypothesis HC : tr_cols t' = tr_cols t.
Hypothesis FG : forall x : xr, In x (tr_grad t) -> xfin x.
Hypothesis FH : forall x : xr, In x (tr_hess t) -> xfin x.
Hypothesis FG' : forall x : xr, In x (tr_grad t') -> xfin x.
Hypothesis FH' : forall x : xr, In x (tr_hess t') -> xfin x.
Hypothesis CL : forall c, In c ccols -> (N.of_nat (length c) <= 65536)%N.
Variable mlw : R.
Hypothesis ML : sp_min_leaf_weight (params s) = Fin mlw.
Hypothesis MP : 0 < mlw.

(** The kind of a row determines its bins and, up to its weight, its gradient and hessian. *)
Variables (Key : Type) (K K' : nat -> Key) (w w' : nat -> R) (B : nat -> Key -> nat) (gam eta : Key -> R).
Notation nrows := (m_rows (tr_data t)).
Notation nrows' := (m_rows (tr_data t')).
Hypothesis BK : forall f i, In f (tr_cols t) -> (i < nrows)%nat -> nth i (fcol fcols f) 0%nat = B f (K i).
Hypothesis BK' : forall f i, In f (tr_cols t) -> (i < nrows')%nat -> nth i (fcol fcols' f) 0%nat = B f (K' i).
Hypothesis GK : forall i, (i < nrows)%nat -> gR (tr_grad t) i = w i * gam (K i) /\ hR (tr_hess t) i = w i * eta (K i).
Hypothesis GK' : forall i, (i < nrows')%nat -> gR (tr_grad t') i = w' i * gam (K' i) /\ hR (tr_hess t') i = w' i * eta (K' i).
Hypothesis WP : forall i, (i < nrows)%nat -> 0 < w i.
Hypothesis WP' : forall i, (i < nrows')%nat -> 0 < w' i.

(** the same total weight of each kind *)
Definition deq (rows rows' : list nat) : Prop := forall phi : Key -> R,
  sumR (map (fun i => w i * phi (K i)) rows) = sumR (map (fun i => w' i * phi (K' i)) rows').

Lemma sum_filter_zero : forall (v : nat -> R) (p : nat -> bool) l,
  sumR (map v (filter p l)) = sumR (map (fun i => if p i then v i else 0) l).
Proof.
  intros v p l. induction l as [|i l IH]; cbn [filter map]; auto. rewrite (sumR_cons (if p i then v i else 0)), <- IH.
  destruct (p i); cbn [map]; rewrite ?sumR_cons; lra.
Qed.
Lemma deq_filter : forall (p : Key -> bool) rows rows', deq rows rows' ->
  deq (filter (fun i => p (K i)) rows) (filter (fun i => p (K' i)) rows').
Proof.
  intros p rows rows' D phi. rewrite !sum_filter_zero. pose proof (D (fun k => if p k then phi k else 0)) as E.
  rewrite (map_ext (fun i => if p (K i) then _ else _) (fun i => w i * (if p (K i) then phi (K i) else 0))) by (intros i; destruct (p (K i)); lra).
  rewrite E. f_equal. apply map_ext. intros i; destruct (p (K' i)); lra.
Qed.
Lemma deq_perm : forall a b a' b', Permutation a b -> Permutation a' b' -> deq b b' -> deq a a'.
Proof. intros a b a' b' P P' D phi. rewrite (sum_perm _ _ _ P), (sum_perm _ _ _ P'). apply D. Qed.

Lemma pos_sum : forall (v : nat -> R) n l, (forall i, In i l -> (i < n)%nat) -> (forall i, (i < n)%nat -> 0 < v i) ->
  (length l =? 0)%nat = false -> 0 < sumR (map (fun i => v i * 1) l).
Proof.
  intros v n l HL HP E. destruct l as [|i l]; [discriminate|]. clear E.
  assert (Z : 0 <= sumR (map (fun i => v i * 1) l)).
  { induction l as [|j l IH]; [simpl; lra|]. cbn [map]. rewrite sumR_cons. specialize (IH ltac:(intros x [->|Hx]; apply HL; simpl; auto)).
    pose proof (HP j ltac:(apply HL; simpl; auto)). lra. }
  cbn [map]. rewrite sumR_cons. pose proof (HP i ltac:(apply HL; simpl; auto)). lra.
Qed.
Lemma deq_empty : forall rows rows', rows_ok t rows -> rows_ok t' rows' -> deq rows rows' ->
  (length rows' =? 0)%nat = (length rows =? 0)%nat.
Proof.
  intros rows rows' RO RO' D. specialize (D (fun _ => 1)). cbv beta in D.
  destruct (length rows =? 0)%nat eqn:E; destruct (length rows' =? 0)%nat eqn:E'; auto; exfalso.
  - pose proof (pos_sum w' nrows' rows' RO' WP' E'). destruct rows; [simpl in D; lra|discriminate].
  - pose proof (pos_sum w nrows rows RO WP E). destruct rows'; [simpl in D; lra|discriminate].
Qed.

Lemma sum_kind : forall (v u : nat -> R) (a : Key -> R) k n l, (forall i, In i l -> (i < n)%nat) ->
  (forall i, (i < n)%nat -> v i = u i * a (k i)) -> sumR (map v l) = sumR (map (fun i => u i * a (k i)) l).
Proof. intros v u a k n l HL HV. f_equal. apply map_ext_in. intros i Hi. apply HV, HL; auto. Qed.

Lemma deq_sums : forall rows rows', rows_ok t rows -> rows_ok t' rows' -> deq rows rows' ->
  sumR (map (gR (tr_grad t')) rows') = sumR (map (gR (tr_grad t)) rows) /\
  sumR (map (hR (tr_hess t')) rows') = sumR (map (hR (tr_hess t)) rows).
Proof.
  intros rows rows' RO RO' D. split.
  - rewrite (sum_kind _ w gam K nrows rows RO) by (intros; apply GK; auto).
    rewrite (sum_kind _ w' gam K' nrows' rows' RO') by (intros; apply GK'; auto). symmetry. apply D.
  - rewrite (sum_kind _ w eta K nrows rows RO) by (intros; apply GK; auto).
    rewrite (sum_kind _ w' eta K' nrows' rows' RO') by (intros; apply GK'; auto). symmetry. apply D.
Qed.

Notation spec := (@hist_spec XF (tr_data t) (tr_cuts t) (tr_grad t) (tr_hess t) (tr_cols t) fcols ccols).
Notation spec' := (@hist_spec XF (tr_data t') (tr_cuts t') (tr_grad t') (tr_hess t') (tr_cols t') fcols' ccols).

Lemma ro_filter : forall tt rows p, rows_ok tt rows -> rows_ok tt (filter p rows).
Proof. intros tt rows p RO i Hi. apply filter_In in Hi. apply RO. tauto. Qed.

Lemma spec_sim : forall rows rows', rows_ok t rows -> rows_ok t' rows' -> deq rows rows' ->
  @hist_rel XF (fun _ v => v) (tr_cols t) (spec rows) (spec' rows').
Proof.
  intros rows rows' RO RO' D idx f Hf.
  assert (Hin : In f (tr_cols t)) by (eapply nth_error_In; eauto).
  exists (@feature_bins XF (fcol fcols f) (@ccol XF ccols f) rows (@gof XF (tr_grad t)) (@hof XF (tr_hess t))).
  exists (@feature_bins XF (fcol fcols' f) (@ccol XF ccols f) rows' (@gof XF (tr_grad t')) (@hof XF (tr_hess t'))).
  split; [apply (hist_col_lookup _ _ _ _ _ _ _ rows idx f Hf)|].
  split; [apply hist_col_lookup; rewrite HC; auto|].
  rewrite (feature_bins_X _ _ _ _ FG FH), (feature_bins_X _ _ _ _ FG' FH').
  assert (FE : forall b, filter (in_bin (fcol fcols f) b) rows = filter (fun i => (B f (K i) =? b)%nat) rows).
  { intros b. apply filter_ext_in. intros i Hi.
    destruct (fcol_ok _ _ _ _ _ _ _ HI f (hi_bound _ _ _ _ _ _ _ HI f Hin)) as [_ LF].
    rewrite in_bin_eq by (rewrite LF; apply RO; auto). rewrite BK by (auto; apply RO; auto). reflexivity. }
  assert (FE' : forall b, filter (in_bin (fcol fcols' f) b) rows' = filter (fun i => (B f (K' i) =? b)%nat) rows').
  { intros b. apply filter_ext_in. intros i Hi. assert (Hin' : In f (tr_cols t')) by (rewrite HC; auto).
    destruct (fcol_ok _ _ _ _ _ _ _ HI' f (hi_bound _ _ _ _ _ _ _ HI' f Hin')) as [_ LF].
    rewrite in_bin_eq by (rewrite LF; apply RO'; auto). rewrite BK' by (auto; apply RO'; auto). reflexivity. }
  match goal with |- col_rel _ _ ?a ?b => assert (E : b = a) end.
  { apply map_ext. intros b. rewrite FE, FE'.
    destruct (deq_sums (filter (fun i => (B f (K i) =? b)%nat) rows) (filter (fun i => (B f (K' i) =? b)%nat) rows'))
      as [-> ->]; auto using ro_filter. apply (deq_filter (fun k => (B f k =? b)%nat)); auto. }
  rewrite E. split; auto. rewrite map_id. reflexivity.
Qed.

Lemma best_same : forall n n' rows rows', @nsim XF n n' -> rows_ok t rows -> rows_ok t' rows' -> deq rows rows' ->
  hist_ok t fcols ccols n rows -> hist_ok t' fcols' ccols n' rows' -> sn_is_missing_leaf n = false ->
  best_split s n' (tr_cols t') = best_split s n (tr_cols t).
Proof.
  intros n n' rows rows' N RO RO' D H H' M. rewrite HC.
  rewrite (best_split_rel (fun _ v => v) (tr_cols t) s n n' (nsim_search _ _ N)); [apply map_si_id|].
  rewrite (H M), H' by (rewrite (ns_ml _ _ N); auto). apply spec_sim; auto.
Qed.

(** *** Ghost trees *)
Inductive gsim : gtree -> gtree -> Prop :=
| gs_l : forall n n' rows rows', nsim n n' -> deq rows rows' -> gsim (GL n rows) (GL n' rows')
| gs_2 : forall n n' rows rows' si mr l l' r r', nsim n n' -> gsim l l' -> gsim r r' ->
    gsim (GB2 n rows si mr l r) (GB2 n' rows' si mr l' r')
| gs_3 : forall n n' rows rows' si m m' l l' r r', nsim n n' -> gsim m m' -> gsim l l' -> gsim r r' ->
    gsim (GB3 n rows si m l r) (GB3 n' rows' si m' l' r').

Lemma gsim_root : forall g g', gsim g g' -> nsim (groot g) (groot g').
Proof. intros g g' []; auto. Qed.
Lemma gsim_expand : forall k x x' g g', gsim x x' -> gsim g g' -> gsim (gexpand k x g) (gexpand k x' g').
Proof.
  intros k x x' g g' X G. induction G; simpl.
  - rewrite (ns_num _ _ H). destruct (sn_num n =? k)%nat; auto. constructor; auto.
  - constructor; auto.
  - constructor; auto.
Qed.
Lemma gsim_leaves : forall g g', gsim g g' ->
  Forall2 (fun y y' => nsim (fst y) (fst y') /\ deq (snd y) (snd y')) (gleaves g) (gleaves g').
Proof.
  intros g g' G. induction G; simpl; repeat (apply Forall2_app; auto). constructor; auto.
Qed.
Lemma gsim_nodes : forall nodes nodes' g g', gsim g g' -> agree s nodes g -> agree s nodes' g' ->
  forall i, In i (gnums g) -> nth_error nodes' i = nth_error nodes i.
Proof.
  intros nodes nodes' g g' G.
  assert (GN : forall a b, gsim a b -> gnum b = gnum a) by (intros a b H; unfold gnum; apply ns_num, gsim_root; auto).
  induction G; simpl; intros A A' i Hi.
  - destruct Hi as [<-|[]]. rewrite A. rewrite (ns_num _ _ H) in A'. rewrite A'. f_equal. apply nsim_as_node; auto.
  - destruct A as (A & A1 & A2). destruct A' as (A' & A1' & A2'). destruct Hi as [<-|Hi].
    + rewrite A. rewrite (ns_num _ _ H) in A'. rewrite A'. f_equal. rewrite (GN _ _ G1), (GN _ _ G2). apply nsim_parent; auto.
    + apply in_app_iff in Hi. destruct Hi; auto.
  - destruct A as (A & A0 & A1 & A2). destruct A' as (A' & A0' & A1' & A2'). destruct Hi as [<-|Hi].
    + rewrite A. rewrite (ns_num _ _ H) in A'. rewrite A'. f_equal. rewrite (GN _ _ G1), (GN _ _ G2), (GN _ _ G3). apply nsim_parent; auto.
    + rewrite !in_app_iff in Hi. destruct Hi as [?|[?|?]]; auto.
Qed.

(** one split on both sides *)
Lemma fresh_sim : forall k x x', @nsim XF (groot x) (groot x') -> rows_ok t (grows x) -> rows_ok t' (grows x') ->
  deq (grows x) (grows x') -> routed t fcols ccols x -> routed t' fcols' ccols x' ->
  gvalid s t max_depth x -> gvalid s t' max_depth x' -> fresh s k x -> fresh s k x' -> gsim x x'.
Proof.
  intros k x x' N RO RO' D R R' V V' F F'.
  destruct F as [n rows si mr ln L rn R0 E1 E2 T|n rows si mn M ln L rn R0 E0 E1 E2 T];
    destruct F' as [n' rows' si' mr' ln' L' rn' R0' E1' E2' T'|n' rows' si' mn' M' ln' L' rn' R0' E0' E1' E2' T']; try congruence.
  - inversion_clear V as [|p a1 a2 a3 a4 a5 a6 sub lh rh Hs Hm Hlf Hd Hlen Hp SP N1 N2 GL1 GR1 V1 V2|].
    inversion_clear V' as [|p' a1 a2 a3 a4 a5 a6 sub' lh' rh' Hs' Hm' Hlf' Hd' Hlen' Hp' SP' N1' N2' GL1' GR1' V1' V2'|].
    cbn [groot grows gnum] in *. destruct R as ([_ HH] & SR & P & QL & QR & _). destruct R' as ([_ HH'] & SR' & P' & QL' & QR' & _).
    cbn [groot grows] in *.
    destruct SP as [f SP1 SP2 _ _ _]. destruct SP' as [f' SP1' SP2' _ _ _].
    rewrite (best_same n n' rows rows' N RO RO' D HH HH' Hm) in SP1'. rewrite SP1 in SP1'. injection SP1' as <-.
    assert (mr' = mr) as -> by (rewrite SP2 in SP2'; destruct mr, mr'; congruence).
    destruct SR as (SF & _).
    destruct (perm_filter2 (fun i => goes_left (si_bin si) mr (nth i (fcol fcols (si_feature si)) 0%nat)) rows L R0 P QL QR) as [PL PR].
    destruct (perm_filter2 (fun i => goes_left (si_bin si) mr (nth i (fcol fcols' (si_feature si)) 0%nat)) rows' L' R0' P' QL' QR') as [PL' PR'].
    assert (FE : forall q : bool -> bool, filter (fun i => q (goes_left (si_bin si) mr (nth i (fcol fcols (si_feature si)) 0%nat))) rows =
       filter (fun i => q (goes_left (si_bin si) mr (B (si_feature si) (K i)))) rows).
    { intros q. apply filter_ext_in. intros i Hi. rewrite BK by auto. auto. }
    assert (FE' : forall q : bool -> bool, filter (fun i => q (goes_left (si_bin si) mr (nth i (fcol fcols' (si_feature si)) 0%nat))) rows' =
       filter (fun i => q (goes_left (si_bin si) mr (B (si_feature si) (K' i)))) rows').
    { intros q. apply filter_ext_in. intros i Hi. rewrite BK' by auto. auto. }
    pose proof (FE (fun b => b)) as FE1. pose proof (FE' (fun b => b)) as FE1'. cbv beta in FE1, FE1', PL, PL', PR, PR'.
    rewrite FE1 in PL. rewrite (FE negb) in PR. rewrite FE1' in PL'. rewrite (FE' negb) in PR'.
    unfold gnum in *. cbn [groot] in *.
    constructor; auto; constructor.
    + rewrite GL1, GL1', E1, E1', (ns_depth _ _ N). apply nsim_info.
    + eapply deq_perm; [exact PL|exact PL'|]. apply (deq_filter (fun k => goes_left (si_bin si) mr (B (si_feature si) k))); auto.
    + rewrite GR1, GR1', E2, E2', (ns_depth _ _ N). apply nsim_info.
    + eapply deq_perm; [exact PR|exact PR'|]. apply (deq_filter (fun k => negb (goes_left (si_bin si) mr (B (si_feature si) k)))); auto.
  - inversion_clear V as [| |a1 a2 a3 a4 a5 a6 sub mh lh rh mi ml Hm Hlf Hd Hlen Hp SP N0 N1 N2 GM1 GL1 GR1 V0 V1 V2].
    inversion_clear V' as [| |a1 a2 a3 a4 a5 a6 sub' mh' lh' rh' mi' ml' Hm' Hlf' Hd' Hlen' Hp' SP' N0' N1' N2' GM1' GL1' GR1' V0' V1' V2'].
    cbn [groot grows gnum] in *. destruct R as ([_ HH] & SR & P & QM & QL & QR & _). destruct R' as ([_ HH'] & SR' & P' & QM' & QL' & QR' & _).
    cbn [groot grows] in *.
    destruct SP as [f p term treat force i0 ES SP1 SP2 SP3 _ _ _]. destruct SP' as [f' p' term' treat' force' i0' ES' SP1' SP2' SP3' _ _ _].
    rewrite (best_same n n' rows rows' N RO RO' D HH HH' Hm) in SP1'. rewrite SP1 in SP1'. injection SP1' as <-.
    rewrite ES in ES'. injection ES' as <- <- <- <-.
    destruct SR as (SF & _).
    destruct (perm_filter3 (fun i => side_of (si_bin si) (nth i (fcol fcols (si_feature si)) 0%nat)) rows M L R0 P QM QL QR) as (PM & PL & PR).
    destruct (perm_filter3 (fun i => side_of (si_bin si) (nth i (fcol fcols' (si_feature si)) 0%nat)) rows' M' L' R0' P' QM' QL' QR') as (PM' & PL' & PR').
    assert (FE : forall d, filter (fun i => is_side (side_of (si_bin si) (nth i (fcol fcols (si_feature si)) 0%nat)) d) rows =
       filter (fun i => is_side (side_of (si_bin si) (B (si_feature si) (K i))) d) rows).
    { intros q. apply filter_ext_in. intros i Hi. rewrite BK by auto. auto. }
    assert (FE' : forall d, filter (fun i => is_side (side_of (si_bin si) (nth i (fcol fcols' (si_feature si)) 0%nat)) d) rows' =
       filter (fun i => is_side (side_of (si_bin si) (B (si_feature si) (K' i))) d) rows').
    { intros q. apply filter_ext_in. intros i Hi. rewrite BK' by auto. auto. }
    cbv beta in PM, PL, PR, PM', PL', PR'. rewrite FE in PM, PL, PR. rewrite FE' in PM', PL', PR'.
    assert (DD : forall d, deq (filter (fun i => is_side (side_of (si_bin si) (B (si_feature si) (K i))) d) rows)
       (filter (fun i => is_side (side_of (si_bin si) (B (si_feature si) (K' i))) d) rows')).
    { intros d. apply (deq_filter (fun k => is_side (side_of (si_bin si) (B (si_feature si) k)) d)); auto. }
    assert (DM : deq M M') by (eapply deq_perm; [exact PM|exact PM'|apply DD]).
    assert (RM : rows_ok t M) by (intros i Hi; apply RO; apply (Permutation_in _ (Permutation_sym P)); rewrite !in_app_iff; auto).
    assert (RM' : rows_ok t' M') by (intros i Hi; apply RO'; apply (Permutation_in _ (Permutation_sym P')); rewrite !in_app_iff; auto).
    pose proof (deq_empty M M' RM RM' DM) as EM.
    assert (ml' = ml /\ i0' = i0) as [-> ->].
    { destruct SP2 as [[Q1 Q2]|[Q1 Q2]], SP2' as [[Q1' Q2']|[Q1' Q2']]; rewrite Q1 in Q1'; try discriminate; injection Q1' as ->; split; auto.
      - rewrite Q2, Q2', EM. reflexivity.
      - congruence. }
    assert (MI : missing_info_of treat n' i0 = missing_info_of treat n i0).
    { destruct treat; auto. simpl. rewrite (ns_weight _ _ N). reflexivity. }
    unfold gnum in *. cbn [groot] in *.
    constructor; auto; constructor; auto.
    + rewrite GM1, GM1', E0, E0', (ns_depth _ _ N), SP3, SP3', MI. apply nsim_missing, nsim_info.
    + rewrite GL1, GL1', E1, E1', (ns_depth _ _ N). apply nsim_info.
    + eapply deq_perm; [exact PL|exact PL'|apply DD].
    + rewrite GR1, GR1', E2, E2', (ns_depth _ _ N). apply nsim_info.
    + eapply deq_perm; [exact PR|exact PR'|apply DD].
Qed.

(** *** The growing loop on both sides *)
Section Grow.
Variables (root root' : @SplittableNode XF) (index index' : list nat).
Hypothesis RO : rows_ok t index.
Hypothesis RO' : rows_ok t' index'.
Hypothesis SO : sums_ok t root index.
Hypothesis SO' : sums_ok t' root' index'.
Hypothesis HO : hist_ok t fcols ccols root index.
Hypothesis HO' : hist_ok t' fcols' ccols root' index'.

Definition sim (st st' : @Grow XF) : Prop := exists g g',
  INV s t max_depth root index st g /\ INV s t' max_depth root' index' st' g' /\ gsim g g' /\
  Forall2 nsim (g_pending st) (g_pending st') /\ g_n_nodes st' = g_n_nodes st /\ g_n_leaves st' = g_n_leaves st.

Lemma inv_routed : forall st g, INV s t max_depth root index st g -> routed t fcols ccols g.
Proof.
  intros st g I. eapply (gvalid_routed s t max_depth fcols ccols HI FG FH CL mlw ML MP).
  - apply (iv_valid _ _ _ _ _ _ _ I).
  - rewrite (iv_grows _ _ _ _ _ _ _ I); auto.
  - rewrite (iv_grows _ _ _ _ _ _ _ I), (iv_root _ _ _ _ _ _ _ I); auto.
  - rewrite (iv_grows _ _ _ _ _ _ _ I), (iv_root _ _ _ _ _ _ _ I); auto.
Qed.
Lemma inv_routed' : forall st g, INV s t' max_depth root' index' st g -> routed t' fcols' ccols g.
Proof.
  intros st g I. eapply (gvalid_routed s t' max_depth fcols' ccols HI' FG' FH' CL mlw ML MP).
  - apply (iv_valid _ _ _ _ _ _ _ I).
  - rewrite (iv_grows _ _ _ _ _ _ _ I); auto.
  - rewrite (iv_grows _ _ _ _ _ _ _ I), (iv_root _ _ _ _ _ _ _ I); auto.
  - rewrite (iv_grows _ _ _ _ _ _ _ I), (iv_root _ _ _ _ _ _ _ I); auto.
Qed.

Lemma leaf_pair : forall g g' n rows n' rows', gsim g g' -> NoDup (map (fun y => sn_num (fst y)) (gleaves g')) ->
  In (n, rows) (gleaves g) -> In (n', rows') (gleaves g') -> sn_num n' = sn_num n -> deq rows rows'.
Proof.
  intros g g' n rows n' rows' G ND H H' E. pose proof (gsim_leaves _ _ G) as F. revert ND H H'. clear - F E.
  induction F as [|[a ra] [b rb] l l' [N D] F IH]; simpl; intros ND H H'; [tauto|].
  simpl in N, D. inversion ND as [|? ? N1 N2]; subst.
  assert (X : forall y, In y l -> exists y', In y' l' /\ sn_num (fst y') = sn_num (fst y)).
  { clear - F. induction F as [|y y' l l' [N D] F IH]; intros z Hz; simpl in *; [tauto|].
    destruct Hz as [->|Hz]; [exists y'; split; auto; apply (ns_num _ _ N)|]. destruct (IH z Hz) as (z' & A & B). eauto. }
  destruct H as [H|H]; destruct H' as [H'|H'].
  - injection H as -> ->. injection H' as -> ->. auto.
  - injection H as -> ->. exfalso. apply N1. rewrite (ns_num _ _ N), <- E. apply (in_map (fun y => sn_num (fst y)) _ _ H').
  - injection H' as -> ->. exfalso. destruct (X _ H) as (y' & A & B). simpl in B. apply N1. rewrite E, <- B.
    apply (in_map (fun y => sn_num (fst y)) _ _ A).
  - apply IH; auto.
Qed.

Lemma done_same : forall n n' rows rows', nsim n n' -> rows_ok t rows -> rows_ok t' rows' -> deq rows rows' ->
  hist_ok t fcols ccols n rows -> hist_ok t' fcols' ccols n' rows' -> (done s t max_depth n <-> done s t' max_depth n').
Proof.
  intros n n' rows rows' N R R' D H H'. unfold done. rewrite (ns_ml _ _ N), (ns_depth _ _ N).
  destruct (sn_is_missing_leaf n) eqn:M; [tauto|].
  rewrite (best_same n n' rows rows' N R R' D H H' M). tauto.
Qed.

Lemma valid_not_done : forall tt x, gvalid s tt max_depth x -> gleaves x <> [(groot x, grows x)] -> ~ done s tt max_depth (groot x).
Proof.
  intros tt x V NL [D|[D|D]]; inversion V; subst; simpl in *; try congruence; try lia.
  - match goal with H : split2 _ _ _ _ _ _ _ _ _ _ |- _ => destruct H end. congruence.
  - match goal with H : split3 _ _ _ _ _ _ _ _ _ _ _ _ _ |- _ => destruct H end. congruence.
Qed.
Lemma fresh_leaves : forall k x, fresh s k x -> gleaves x <> [(groot x, grows x)].
Proof. intros k x []; simpl; discriminate. Qed.

Lemma sim_step : forall st st' p1 n p2 p1' n' p2' u u', sim st st' ->
  g_pending st = p1 ++ n :: p2 -> g_pending st' = p1' ++ n' :: p2' -> length p1' = length p1 ->
  grow_node s t max_depth n (with_pending st (p1 ++ p2)) = Some u ->
  grow_node s t' max_depth n' (with_pending st' (p1' ++ p2')) = Some u' -> sim u u'.
Proof.
  intros st st' p1 n p2 p1' n' p2' u u' (g & g' & I & I' & G & FP & NN & NL) EP EP' LP H H'.
  assert (FF : Forall2 nsim p1 p1' /\ nsim n n' /\ Forall2 nsim p2 p2').
  { rewrite EP, EP' in FP. clear - FP LP. revert p1' LP FP. induction p1 as [|a p1 IH]; intros [|b p1'] LP FP; simpl in *; try discriminate.
    - inversion FP; subst. auto.
    - inversion FP; subst. destruct (IH p1') as (A & B0 & C); auto. }
  destruct FF as (F1 & N & F2).
  assert (F12 : Forall2 nsim (p1 ++ p2) (p1' ++ p2')) by (apply Forall2_app; auto).
  assert (Hn : In n (g_pending st)) by (rewrite EP; apply in_app_iff; right; left; auto).
  assert (Hn' : In n' (g_pending st')) by (rewrite EP'; apply in_app_iff; right; left; auto).
  destruct (iv_pending _ _ _ _ _ _ _ I n Hn) as [Lf _]. destruct (iv_pending _ _ _ _ _ _ _ I' n' Hn') as [Lf' _].
  apply in_map_iff in Lf. destruct Lf as ([n0 rows] & E0 & Lf). simpl in E0. subst n0.
  apply in_map_iff in Lf'. destruct Lf' as ([n0 rows'] & E0 & Lf'). simpl in E0. subst n0.
  pose proof (inv_routed _ _ I) as R. pose proof (inv_routed' _ _ I') as R'.
  assert (RG : rows_ok t (grows g)) by (rewrite (iv_grows _ _ _ _ _ _ _ I); auto).
  assert (RG' : rows_ok t' (grows g')) by (rewrite (iv_grows _ _ _ _ _ _ _ I'); auto).
  destruct (leaf_facts t fcols ccols g R RG n rows Lf) as (S1 & H1 & R1).
  destruct (leaf_facts t' fcols' ccols g' R' RG' n' rows' Lf') as (S1' & H1' & R1').
  destruct (INV_leaf_unique s t max_depth _ _ _ _ I) as [ND NDL].
  destruct (INV_leaf_unique s t' max_depth _ _ _ _ I') as [ND' NDL'].
  assert (D : deq rows rows') by (eapply leaf_pair; eauto; apply (ns_num _ _ N)).
  pose proof (done_same n n' rows rows' N R1 R1' D H1 H1') as DS.
  assert (UR : forall gg (m : @SplittableNode XF) ra rb, NoDup (map (fun y => sn_num (fst y)) (gleaves gg)) -> In (m, ra) (gleaves gg) -> In (m, rb) (gleaves gg) -> ra = rb).
  { intros gg m ra rb. induction (gleaves gg) as [|[a r] l IH]; simpl; intros NDg Ha Hb; [tauto|].
    inversion NDg as [|? ? Q1 Q2]; subst. destruct Ha as [Ha|Ha], Hb as [Hb|Hb].
    - congruence.
    - injection Ha as -> ->. exfalso. apply Q1. apply (in_map (fun y => sn_num (fst y)) _ _ Hb).
    - injection Hb as -> ->. exfalso. apply Q1. apply (in_map (fun y => sn_num (fst y)) _ _ Ha).
    - auto. }
  destruct (INV_step_full _ _ _ _ _ _ _ _ _ _ _ I EP H) as [(Dn & Iu & Pu & Nu & Lu)|(ra & x & Ha & X1 & X2 & X3 & X4 & X5 & X6 & X7 & X8 & X9)];
  destruct (INV_step_full _ _ _ _ _ _ _ _ _ _ _ I' EP' H') as [(Dn' & Iu' & Pu' & Nu' & Lu')|(ra' & x' & Ha' & X1' & X2' & X3' & X4' & X5' & X6' & X7' & X8' & X9')].
  - exists g, g'. rewrite Pu, Pu', Nu, Nu', Lu, Lu'. auto 10.
  - exfalso. apply (valid_not_done _ _ X3' (fresh_leaves _ _ X4')). rewrite X1'. apply DS; auto.
  - exfalso. apply (valid_not_done _ _ X3 (fresh_leaves _ _ X4)). rewrite X1. apply DS; auto.
  - assert (EA : ra = rows) by (apply (UR g n); auto). assert (EA' : ra' = rows') by (apply (UR g' n'); auto). rewrite EA in X2. rewrite EA' in X2'.
    assert (RX : routed t fcols ccols x).
    { eapply (gvalid_routed s t max_depth fcols ccols HI FG FH CL mlw ML MP); eauto; rewrite ?X1, ?X2; auto. }
    assert (RX' : routed t' fcols' ccols x').
    { eapply (gvalid_routed s t' max_depth fcols' ccols HI' FG' FH' CL mlw ML MP); eauto; rewrite ?X1', ?X2'; auto. }
    assert (GX : gsim x x').
    { apply (fresh_sim (g_n_nodes st)); auto; rewrite ?X1, ?X2, ?X1', ?X2'; auto. rewrite <- NN. auto. }
    exists (gexpand (sn_num n) x g), (gexpand (sn_num n') x' g'). split; auto. split; auto.
    assert (FL := gsim_leaves _ _ GX).
    assert (LX : length (gleaves x') = length (gleaves x)) by (symmetry; eapply Forall2_length; eauto).
    split; [rewrite (ns_num _ _ N); apply gsim_expand; auto|]. split; [|split].
    + rewrite X6, X6'. apply Forall2_app; auto. clear - FL. induction FL as [|y y' l l' [A _] F IH]; simpl; auto.
      rewrite (ns_ml _ _ A). destruct (negb (sn_is_missing_leaf (fst y))); auto.
    + rewrite X7, X7', NN, LX. reflexivity.
    + rewrite X8, X8', NL, LX. reflexivity.
Qed.

Lemma nth_cut : forall A (l : list A) i x, nth_error l i = Some x -> l = firstn i l ++ x :: skipn (Datatypes.S i) l /\ length (firstn i l) = i.
Proof.
  intros A l. induction l as [|a l IH]; intros [|i] x H; simpl in *; try discriminate.
  - injection H as ->. auto.
  - destruct (IH i x H) as [E L]. rewrite <- E, L. auto.
Qed.

Lemma loop_sim : forall policy pick ml fuel st st' u u', gain_based pick -> sim st st' ->
  grow_loop fuel policy pick s t ml max_depth st = Some u -> grow_loop fuel policy pick s t' ml max_depth st' = Some u' -> sim u u'.
Proof.
  intros policy pick ml fuel. induction fuel as [|fu IH]; intros st st' u u' GB S H H'; pose proof S as (g & g' & I & I' & G & FP & NN & NL);
    cbn [grow_loop] in *.
  - rewrite NL in H'. destruct FP; [injection H as <-; injection H' as <-; auto|].
    destruct (ml <? g_n_leaves st + new_leaves_added s)%nat; [|discriminate]. injection H as <-; injection H' as <-; auto.
  - rewrite NL in H'. destruct (g_pending st) as [|a l] eqn:EP.
    { inversion FP; subst. assert (g_pending st' = []) as E by congruence. rewrite E in H'. injection H as <-; injection H' as <-; auto. }
    destruct (g_pending st') as [|a' l'] eqn:EP'; [inversion FP|].
    destruct (ml <? g_n_leaves st + new_leaves_added s)%nat; [injection H as <-; injection H' as <-; auto|].
    inv_bind H. destruct v as [n rest]. inv_bind H'. destruct v as [n' rest'].
    apply pop_node_pos in E. destruct E as [E1 E2]. apply pop_node_pos in E0. destruct E0 as [E1' E2'].
    rewrite (pop_pos_sim policy pick _ _ _ GB FP) in E1', E2'.
    set (i := pop_pos policy pick (Datatypes.S fu) (a :: l)) in *.
    destruct (nth_cut _ _ _ _ E1) as [C1 C2]. destruct (nth_cut _ _ _ _ E1') as [C1' C2'].
    inv_bind H. inv_bind H'. subst rest rest'.
    eapply IH; [exact GB| |exact H|exact H'].
    eapply sim_step; [exact S|rewrite EP; exact C1|rewrite EP'; exact C1'|rewrite C2, C2'; auto|exact E|].
    unfold with_pending. rewrite NL. exact E0.
Qed.

Lemma sim_nodes : forall st st', sim st st' -> g_nodes st' = g_nodes st.
Proof.
  intros st st' (g & g' & I & I' & G & _ & NN & _).
  assert (L : length (g_nodes st) = g_n_nodes st) by apply (iv_len _ _ _ _ _ _ _ I).
  assert (L' : length (g_nodes st') = g_n_nodes st) by (rewrite <- NN; apply (iv_len _ _ _ _ _ _ _ I')).
  apply list_ext_nth. intros i. destruct (Nat.lt_ge_cases i (g_n_nodes st)) as [Hi|Hi].
  - eapply gsim_nodes; [exact G|apply (iv_agree _ _ _ _ _ _ _ I)|apply (iv_agree _ _ _ _ _ _ _ I')|].
    apply (Permutation_in _ (Permutation_sym (iv_nums _ _ _ _ _ _ _ I))). apply in_seq. lia.
  - assert (nth_error (g_nodes st) i = None) as -> by (apply nth_error_None; lia). apply nth_error_None. lia.
Qed.
End Grow.

(** *** The whole tree *)
Theorem tree_sim : forall sm policy pick ml nodes st nodes' st', gain_based pick -> sm = SNone ->
  deq (seq 0 nrows) (seq 0 nrows') ->
  (forall root, @root_node XF s t (seq 0 nrows) sm = Some root -> sums_ok t root (seq 0 nrows)) ->
  (forall root, @root_node XF s t' (seq 0 nrows') sm = Some root -> sums_ok t' root (seq 0 nrows')) ->
  @tree_fit XF policy pick s t (seq 0 nrows) ml max_depth sm = Some (nodes, st) ->
  @tree_fit XF policy pick s t' (seq 0 nrows') ml max_depth sm = Some (nodes', st') -> nodes' = nodes.
Proof.
  intros sm policy pick ml nodes st nodes' st' GB SM D RS RS' H H'. unfold tree_fit in H, H'.
  inv_bind H. rename v into root. inv_bind H. rename v into u. inv_bind H. injection H as E' <-. rename v into nds.
  inv_bind H'. rename v into root'. inv_bind H'. rename v into u'. inv_bind H'. injection H' as E'' <-. rename v into nds'.
  assert (RO : rows_ok t (seq 0 nrows)) by (intros i Hi; apply in_seq in Hi; lia).
  assert (RO' : rows_ok t' (seq 0 nrows')) by (intros i Hi; apply in_seq in Hi; lia).
  pose proof (RS _ E) as SO. pose proof (RS' _ E2) as SO'.
  assert (HO : hist_ok t fcols ccols root (seq 0 nrows)).
  { intros _. eapply (@root_hist XF s t (seq 0 nrows) sm fcols ccols HI); auto. }
  assert (HO' : hist_ok t' fcols' ccols root' (seq 0 nrows')).
  { intros _. eapply (@root_hist XF s t' (seq 0 nrows') sm fcols' ccols HI'); auto. }
  assert (NR : nsim root root').
  { destruct SO as [S1 S2], SO' as [S1' S2']. destruct (deq_sums _ _ RO RO' D) as [D1 D2]. clear HO HO'.
    rewrite D1 in S1'. rewrite D2 in S2'. rewrite <- S1 in S1'. rewrite <- S2 in S2'.
    unfold root_node in E, E2. inv_bind E. destruct v as [[gs hs] so]. inv_bind E. injection E as <-.
    inv_bind E2. destruct v0 as [[gs' hs'] so']. inv_bind E2. injection E2 as <-. cbn [snode_new sn_grad sn_hess] in S1', S2'.
    rewrite S1', S2'. constructor; reflexivity. }
  assert (R0 : forall tt ix r, @root_node XF s tt ix sm = Some r -> sn_num r = 0%nat /\ sn_is_leaf r = true /\ sn_is_missing_leaf r = false /\
             sn_start r = 0%nat /\ sn_stop r = length ix).
  { intros tt ix r HR. unfold root_node in HR. inv_bind HR. destruct v as [[gs hs] so]. inv_bind HR. injection HR as <-. auto. }
  destruct (R0 _ _ _ E) as (A1 & A2 & A3 & A4 & A5). destruct (R0 _ _ _ E2) as (A1' & A2' & A3' & A4' & A5').
  assert (SI : sim root root' (seq 0 nrows) (seq 0 nrows') (grow_init s root (seq 0 nrows)) (grow_init s root' (seq 0 nrows'))).
  { exists (GL root (seq 0 nrows)), (GL root' (seq 0 nrows')). split; [apply INV_init; auto|]. split; [apply INV_init; auto|].
    split; [constructor; auto|]. simpl. auto. }
  pose proof (loop_sim root root' _ _ RO RO' SO SO' HO HO' policy pick ml _ _ _ _ _ GB SI E0 E3) as SU.
  apply sim_nodes in SU; auto. rewrite SU in *. congruence.
Qed.
End Distr.
