(** Growing a tree never panics on valid inputs (exact arithmetic, without
    force_children_to_bound_parent, whose assertion can fail). *)
From Coq Require Import List Arith NArith Lia Bool Permutation Reals Lra Sorting.
From Verif Require Import Prelude Float FloatX FloatLaws Data DataProofs OrdProofs Utils UtilsX Binning BinningProofs CutProofs BinMatrix
  Histogram HistogramProofs HistogramX PivotProofs Pivot3Proofs Node Splitter SplitProofs EvalProofs Tree GrowProofs GrowInv
  GrowStep TreeWf TreeProofs FitProofs FitSplits PathProofs RouteX RouteFit.
Import ListNotations.

Definition never_forces {FS : Floats} (s : Splitter) : Prop :=
  match s with Imputer _ => True | Branch _ _ _ force => force = false end.

Section Total.
Context {FS : Floats}.
Variables (s : Splitter) (t : Train) (fcols : list (list nat)) (ccols : list (list F64)).
Hypothesis HI : hist_inputs (tr_data t) (tr_cuts t) (tr_grad t) (tr_hess t) (tr_cols t) fcols ccols.
Notation nrows := (m_rows (tr_data t)).

(** No candidate of the node fails the assertion of force_children_to_bound_parent. *)
Definition never_aborts_at (node : SplittableNode) : Prop := forall k f m bins j bin,
  nth_error (tr_cols t) k = Some f -> j_get_col (sn_hist node) k = Some (m :: bins) -> nth_error bins j = Some bin ->
  let cg := left_sum gradient_sum bins j in let ch := left_sum hessian_sum bins j in
  evaluate_split s cg ch (sn_grad node - cg - gradient_sum m)%f32 (sn_hess node - ch - hessian_sum m)%f32
    (gradient_sum m) (hessian_sum m) (sn_lower node) (sn_upper node) (sn_weight node) (get_constraint s f) <> None.

Lemma never_forces_aborts : never_forces s -> forall node, never_aborts_at node.
Proof.
  intros NF node k f m bins j bin _ _ _ cg ch E. destruct s as [p|p term treat force]; cbn [evaluate_split] in E; [discriminate|].
  apply branch_panics in E. destruct E as [E _]. simpl in NF. congruence.
Qed.

Lemma candidate_total : forall node f missing bin i cg ch,
  evaluate_split s cg ch (sn_grad node - cg - gradient_sum missing)%f32 (sn_hess node - ch - hessian_sum missing)%f32
    (gradient_sum missing) (hessian_sum missing) (sn_lower node) (sn_upper node) (sn_weight node) (get_constraint s f) <> None ->
  exists c, candidate s node f missing bin i cg ch = Some c.
Proof.
  intros node f missing bin i cg ch NE. unfold candidate. cbv zeta.
  match goal with |- context [evaluate_split s ?a ?b ?c ?d ?e ?g ?h ?k ?l ?m] => destruct (evaluate_split s a b c d e g h k l m) as [ev|] eqn:E end.
  - cbn [bind]. destruct ev as [[[l r] m]|]; [|eauto]. destruct (_ <=? _)%f32; [eauto|].
    destruct (child_bounds _ _ _ _ _); eauto.
  - congruence.
Qed.

Lemma cands_total : forall node f missing bins i cg ch,
  (forall j bin, nth_error bins j = Some bin -> exists c, candidate s node f missing bin (i + j)
      (fold_left (fun a b => (a + gradient_sum b)%f32) (firstn j bins) cg)
      (fold_left (fun a b => (a + hessian_sum b)%f32) (firstn j bins) ch) = Some c) ->
  exists cs, cands s node f missing bins i cg ch = Some cs.
Proof.
  intros node f missing. induction bins as [|bin bins IH]; intros i cg ch H; cbn [cands]; [eauto|].
  destruct (H 0 bin eq_refl) as [c Hc]. simpl in Hc. rewrite Nat.add_0_r in Hc. rewrite Hc. cbn [bind].
  destruct (IH (i + 1) (cg + gradient_sum bin)%f32 (ch + hessian_sum bin)%f32) as [cs Hcs]; [|rewrite Hcs; cbn [bind]; eauto].
  intros j b Hb. destruct (H (S j) b Hb) as [c' Hc']. exists c'. replace (i + 1 + j) with (i + S j) by lia. exact Hc'.
Qed.

Lemma best_split_total : forall node, never_aborts_at node ->
  (forall k f, nth_error (tr_cols t) k = Some f -> exists m bins, j_get_col (sn_hist node) k = Some (m :: bins)) ->
  exists r, best_split s node (tr_cols t) = Some r.
Proof.
  intros node NA H. unfold best_split. generalize (fzero (@f32 FS)) as bg. generalize (@None SplitInfo) as best.
  assert (G : forall rest pre, tr_cols t = pre ++ rest -> forall best bg, exists r,
     best_split_loop s node rest (length pre) bg best = Some r).
  { induction rest as [|f rest IH]; intros pre E best bg; cbn [best_split_loop]; [eauto|].
    assert (Hk : nth_error (tr_cols t) (length pre) = Some f).
    { rewrite E, nth_error_app2, Nat.sub_diag by lia. reflexivity. }
    destruct (H (length pre) f Hk) as (m & bins & Hc).
    unfold best_feature_split. rewrite Hc. cbn [bind]. rewrite feature_loop_cands.
    destruct (cands_total node f m bins 0 (fzero f32) (fzero f32)) as [cs Hcs].
    { intros j bin Hb. apply candidate_total. apply (NA _ _ _ _ _ _ Hk Hc Hb). }
    rewrite Hcs. cbn [bind].
    specialize (IH (pre ++ [f])). rewrite app_length in IH. simpl in IH. rewrite <- app_assoc in IH. simpl in IH.
    destruct (fold_left better (somes cs) None) as [info|]; [destruct (_ <? _)%f32|]; apply IH; auto. }
  intros best bg. apply (G _ []). reflexivity.
Qed.

Lemma slice_in : forall (index : list nat) a b sub, slice index a b = Some sub -> incl sub index.
Proof.
  intros index a b sub H i Hi. apply slice_Some in H. destruct H as (_ & _ & _ & ->).
  rewrite !in_app_iff. auto.
Qed.

Lemma hist_of_total : forall index a b, (forall i, In i index -> i < nrows) -> a <= b -> b <= length index ->
  exists h, (let* sub := slice index a b in hist_of t sub) = Some h.
Proof.
  intros index a b HR Hab Hb. destruct (slice_total index Hab Hb) as [sub Hs]. rewrite Hs. cbn [bind].
  unfold hist_of. rewrite (hist_new_sorted _ _ _ _ _ _ _ HI); [eauto|].
  intros i Hi. apply HR. eapply slice_in; eauto.
Qed.

Lemma handle_imputer_total : forall si n node index sub (mr : bool),
  si_missing si = (if mr then MRight else MLeft) -> si_feature si < m_cols (tr_data t) ->
  slice index (sn_start node) (sn_stop node) = Some sub -> sub <> [] -> (forall i, In i index -> i < nrows) ->
  exists r, handle_imputer t si n node index = Some r.
Proof.
  intros si n node index sub mr HM Hf HS HN HR. unfold handle_imputer.
  replace (match si_missing si with MLeft => Some false | MRight => Some true | _ => None end) with (Some mr)
    by (rewrite HM; destruct mr; reflexivity).
  cbn [bind]. rewrite HS. cbn [bind].
  destruct (fcol_ok _ _ _ _ _ _ _ HI _ Hf) as [FC LF]. rewrite FC. cbn [bind].
  destruct (pivot_on_split_main (fcol fcols (si_feature si)) (si_bin si) mr sub) as (sub' & k & E & P & Hk & _); auto.
  { intros i Hi. rewrite LF. apply HR. eapply slice_in; eauto. }
  rewrite E. cbn [bind]. pose proof (slice_Some _ _ _ HS) as (S1 & S2 & S3 & _).
  destruct (Nat.leb_spec k (sn_stop node - sn_start node)); [|lia].
  assert (PI : Permutation index (splice index (sn_start node) sub')) by (eapply splice_perm; eauto).
  assert (HR' : forall i, In i (splice index (sn_start node) sub') -> i < nrows).
  { intros i Hi. apply HR. apply (Permutation_in _ (Permutation_sym PI)); auto. }
  pose proof (Permutation_length PI) as LI.
  destruct (hist_of_total (splice index (sn_start node) sub') (sn_start node) (k + sn_start node)) as [lh Hl]; auto; try lia.
  destruct (hist_of_total (splice index (sn_start node) sub') (k + sn_start node) (sn_stop node)) as [rh Hr]; auto; try lia.
  cbv zeta. rewrite Hl, Hr. cbn [bind]. destruct (_ <? _); cbn [bind]; eauto.
Qed.

Lemma handle_branch_total : forall p term treat si n node index sub i,
  (si_missing si = MBranch i \/ si_missing si = MLeaf i) -> si_feature si < m_cols (tr_data t) -> 0 < si_bin si ->
  slice index (sn_start node) (sn_stop node) = Some sub -> sub <> [] -> (forall i, In i index -> i < nrows) ->
  exists r, handle_branch p term treat t si n node index = Some r.
Proof.
  intros p term treat si n node index sub i0 HM Hf Hb HS HN HR. unfold handle_branch.
  cbv zeta. cbn [update_children sn_start sn_stop sn_hist sn_depth].
  assert (exists ml, (match si_missing si with
     | MBranch i => Some (existsb (Nat.eqb (si_feature si)) term, i) | MLeaf i => Some (true, i) | _ => None end) = Some (ml, i0)) as [ml ->].
  { destruct HM as [->| ->]; eauto. }
  cbn [bind]. rewrite HS. cbn [bind].
  destruct (fcol_ok _ _ _ _ _ _ _ HI _ Hf) as [FC LF]. rewrite FC. cbn [bind].
  destruct (pivot3_main (fcol fcols (si_feature si)) (si_bin si) Hb sub) as (sub' & m & k & E & P & Hk & _); auto.
  { intros i Hi. rewrite LF. apply HR. eapply slice_in; eauto. }
  rewrite E. cbn [bind]. pose proof (slice_Some _ _ _ HS) as (S1 & S2 & S3 & _).
  destruct (Nat.leb_spec k (sn_stop node - sn_start node)); [|lia].
  destruct (Nat.leb_spec (sn_stop node - sn_start node - k + m) (sn_stop node - sn_start node)); [|lia].
  assert (PI : Permutation index (splice index (sn_start node) sub')) by (eapply splice_perm; eauto).
  assert (HR' : forall i, In i (splice index (sn_start node) sub') -> i < nrows).
  { intros i Hi. apply HR. apply (Permutation_in _ (Permutation_sym PI)); auto. }
  pose proof (Permutation_length PI) as LI.
  destruct (hist_of_total (splice index (sn_start node) sub') (sn_start node) (m + sn_start node)) as [mh Hm]; auto; try lia.
  destruct (hist_of_total (splice index (sn_start node) sub') (m + sn_start node) (k + sn_start node)) as [lh Hl]; auto; try lia.
  destruct (hist_of_total (splice index (sn_start node) sub') (k + sn_start node) (sn_stop node)) as [rh Hr]; auto; try lia.
  rewrite Hm, Hl, Hr. cbn [bind].
  match goal with |- context [if ?a =? 0 then _ else _] => destruct (a =? 0) end;
    repeat (match goal with |- context [if ?a =? ?b then _ else _] => destruct (a =? b) end); cbn [bind]; eauto.
Qed.

(** The root. *)
Lemma root_total : forall index sm, length (tr_grad t) = nrows -> length (tr_hess t) = nrows ->
  (forall i, In i index -> i < nrows) -> (sm = SNone -> index = seq 0 nrows) ->
  exists root, root_node s t index sm = Some root.
Proof.
  intros index sm LG LH HR HN. unfold root_node.
  assert (exists g h so, root_sums (tr_grad t) (tr_hess t) index sm = Some (g, h, so) /\ so = negb (match sm with SNone => true | _ => false end))
    as (g & h & so & E & Eso).
  { unfold root_sums.
    destruct (mapM_total (nth_error (tr_grad t)) index) as [gl Hg].
    { intros i Hi. apply nth_error_lt. rewrite LG. auto. }
    destruct (mapM_total (nth_error (tr_hess t)) index) as [hl Hh].
    { intros i Hi. apply nth_error_lt. rewrite LH. auto. }
    rewrite Hg, Hh. cbn [bind]. destruct sm; eauto 10. }
  rewrite E. cbn [bind]. destruct sm; cbn [negb] in Eso; subst so.
  - rewrite (HN eq_refl), (hist_new_unsorted _ _ _ _ _ _ _ HI). cbn [bind]. eauto.
  - rewrite (hist_new_sorted _ _ _ _ _ _ _ HI) by auto. cbn [bind]. eauto.
  - rewrite (hist_new_sorted _ _ _ _ _ _ _ HI) by auto. cbn [bind]. eauto.
Qed.
End Total.

Section Reach.
Context {FS : Floats}.
Variables (s : Splitter) (t : Train) (max_leaves max_depth : nat).

Lemma INV_nsteps : forall root index0 k a b g, nsteps s t max_leaves max_depth k a b ->
  INV s t max_depth root index0 a g -> exists g', INV s t max_depth root index0 b g'.
Proof.
  intros root index0 k a b g H. revert g. induction H as [st|k a b c HS H IH]; intros g I; [eauto|].
  destruct (INV_step s t max_leaves max_depth root index0 a b g I HS) as (g' & I' & _). eauto.
Qed.
End Reach.

Section Main.
Local Open Scope R_scope.
Variables (S : Sorts) (data : Matrix xr) (sw : list xr) (nbins : nat) (missing : xr) (bd : @BinnedData XF).
Variables (policy : GrowPolicy) (pick : pick_fn) (s : @Splitter XF) (t : @Train XF) (index : list nat).
Variables (max_leaves max_depth : nat) (sm : SampleMethod).
Hypothesis TD : trained S data sw nbins missing bd s t index sm.

Theorem fit_total_if :
  (forall fcols ccols root st g node rows,
     @hist_inputs XF (tr_data t) (tr_cuts t) (tr_grad t) (tr_hess t) (tr_cols t) fcols ccols ->
     @root_node XF s t index sm = Some root -> INV s t max_depth root index st g -> In (GL node rows) (gall g) ->
     sn_is_missing_leaf node = false -> rows_ok t rows -> sums_ok t node rows ->
     sn_hist node = @hist_spec XF (tr_data t) (tr_cuts t) (tr_grad t) (tr_hess t) (tr_cols t) fcols ccols rows ->
     never_aborts_at s t node) ->
  exists nodes st, @tree_fit XF policy pick s t index max_leaves max_depth sm = Some (nodes, st).
Proof.
  intros NAB. destruct (@tree_fit XF policy pick s t index max_leaves max_depth sm) as [[nodes st]|] eqn:EF; [eauto|]. exfalso.
  pose proof TD as [SS HB NB NBM LD LW HV HW HP TDd TDc CS CM LG LH FG FH HIX NS (mlw & ML & MP)].
  assert (NM : fisnan (@f64 XF) (fmax (@f64 XF)) = false) by reflexivity.
  assert (HV' : forall j x, In x (@col_values XF data sw missing j) -> fle (@f64 XF) x (fmax (@f64 XF)) = true).
  { intros j x Hx. apply (o_lt_le _ x_ord_laws). apply (HV j x Hx). }
  destruct (@bin_hist_inputs XF x_ord_laws S data sw nbins missing bd (tr_grad t) (tr_hess t) (tr_cols t)) as (fcols & ccols & HI0 & CL);
    auto.
  assert (HI : @hist_inputs XF (tr_data t) (tr_cuts t) (tr_grad t) (tr_hess t) (tr_cols t) fcols ccols) by (rewrite TDd, TDc; auto).
  assert (NR : m_rows (tr_data t) = m_rows data) by (rewrite TDd; reflexivity).
  assert (HIX' : forall i, In i index -> (i < m_rows (tr_data t))%nat) by (rewrite NR; auto).
  assert (CL' : forall c, In c ccols -> (N.of_nat (length c) <= 65536)%N).
  { assert (NN : forall k, (k <= nbins + 2)%nat -> (N.of_nat k <= 65536)%N) by lia.
    intros c Hc. apply NN. exact (CL c Hc). }
  apply fit_None in EF. destruct EF as [EF|(root & k & st & p1 & node & p2 & HR & HS & Hp & HL & HG)].
  - destruct (root_total s t fcols ccols HI index sm) as [root Hr];
      [exact (eq_trans LG (eq_sym NR))|exact (eq_trans LH (eq_sym NR))|exact HIX'|rewrite NR; exact NS|congruence].
  - destruct (root_node_facts _ _ _ _ _ HR) as (A1 & A2 & A3 & A4 & A5 & A6).
    destruct (INV_nsteps s t max_leaves max_depth root index k _ _ _ HS (INV_init s t max_depth root index A1 A2 A3 A4 A5)) as [g I].
    assert (R : routed t fcols ccols g).
    { eapply (gvalid_routed s t max_depth fcols ccols HI FG FH CL' mlw ML MP); auto.
      - apply (iv_valid _ _ _ _ _ _ _ I).
      - rewrite (iv_grows _ _ _ _ _ _ _ I). intros i Hi. auto.
      - rewrite (iv_root _ _ _ _ _ _ _ I), (iv_grows _ _ _ _ _ _ _ I). eapply root_sums_ok; eauto.
      - intros _. rewrite (iv_root _ _ _ _ _ _ _ I), (iv_grows _ _ _ _ _ _ _ I).
        eapply (root_hist s t index sm fcols ccols HI); eauto. rewrite NR; auto. }
    assert (Hin : In node (g_pending st)) by (rewrite Hp; apply in_or_app; right; left; auto).
    destruct (iv_pending _ _ _ _ _ _ _ I node Hin) as [Hlf Hml].
    apply in_map_iff in Hlf. destruct Hlf as ((node', rows) & E & Hlf). simpl in E. subst node'.
    pose proof Hlf as Hall. apply gleaves_gall in Hall.
    destruct (routed_node t fcols ccols g R _ Hall) as [SO HO]. simpl in SO, HO.
    destruct (iv_rows _ _ _ _ _ _ _ I _ _ Hlf) as (sub & HSl & PS).
    assert (HRI : forall i, In i (g_index st) -> (i < m_rows (tr_data t))%nat).
    { intros i Hi. apply HIX'. apply (Permutation_in _ (Permutation_sym (iv_index _ _ _ _ _ _ _ I))). auto. }
    assert (RO : rows_ok t rows).
    { intros i Hi. apply HRI. eapply (slice_in _ _ _ _ HSl). apply (Permutation_in _ PS). auto. }
    unfold grow_node in HG. cbn [with_pending g_nodes g_pending g_index g_n_nodes g_n_leaves] in HG.
    destruct (max_depth <? sn_depth node + 1)%nat; [discriminate|]. cbv zeta in HG.
    unfold split_node in HG.
    destruct (best_split_total s t node (NAB _ _ _ _ _ _ _ HI HR I Hall Hml RO SO (HO Hml))) as [[si|] HBS].
    { intros j f Hf. rewrite (HO Hml). rewrite (hist_col_lookup _ _ _ _ _ _ _ rows j f Hf).
      assert (Hc : (f < m_cols (tr_data t))%nat) by (apply (hi_bound _ _ _ _ _ _ _ HI); eapply nth_error_In; eauto).
      destruct (ccol_ok _ _ _ _ _ _ _ HI f Hc) as [_ NE]. unfold feature_bins.
      destruct (length (@ccol XF ccols f)) eqn:EL; [destruct (@ccol XF ccols f); [congruence|discriminate]|].
      cbn [seq map]. eauto. }
    + rewrite HBS in HG. cbn [bind] in HG.
      destruct (best_split_admissible _ _ _ _ HBS) as (kk & j & A).
      pose proof (admissible_cover _ _ _ _ _ _ A) as [_ CR].
      destruct (split_sums s t fcols ccols HI FG FH CL' mlw ML node rows kk j si RO SO (HO Hml) A) as (S1 & S2 & S3 & S4).
      assert (Hc : (si_feature si < m_cols (tr_data t))%nat) by (apply (hi_bound _ _ _ _ _ _ _ HI); eapply nth_error_In; eauto).
      assert (NE : rows <> []).
      { intros ->. rewrite ML in CR. destruct s as [p|p term treat force].
        - destruct S4 as (mr & _ & _ & _ & _ & M5). apply (fin_not_lt _ _ _ M5) in CR. cbn in CR. lra.
        - destruct S4 as (i' & _ & _ & _ & _ & _ & _ & M6). apply (fin_not_lt _ _ _ M6) in CR. cbn in CR. lra. }
      assert (NS' : sub <> []).
      { intros ->. apply Permutation_sym, Permutation_nil in PS. auto. }
      assert (HT : exists r, handle_split_info s t si (g_n_nodes st) node (g_index st) = Some r).
      { destruct s as [p|p term treat force]; cbn [handle_split_info].
        - destruct S4 as (mr & HM & _). eapply (@handle_imputer_total XF); eauto.
        - destruct S4 as (i' & HM & _). eapply (@handle_branch_total XF); eauto. lia. }
      destruct HT as [[[new node'] index'] HT]. rewrite HT in HG. cbn [bind] in HG.
      destruct new as [|c0 new]; [discriminate|].
      assert (LN : (sn_num node < length (g_nodes st))%nat).
      { rewrite (iv_len _ _ _ _ _ _ _ I). apply gleaves_nums in Hlf. simpl in Hlf.
        apply (Permutation_in _ (iv_nums _ _ _ _ _ _ _ I)) in Hlf. apply in_seq in Hlf. lia. }
      destruct (nth_error_lt (g_nodes st) LN) as [old Ho]. rewrite Ho in HG. cbn [bind] in HG.
      destruct (update_total (g_nodes st) (make_parent_node old node') LN) as [nodes' Hn]. rewrite Hn in HG. discriminate.
    + rewrite HBS in HG. cbn [bind] in HG. discriminate.
Qed.

Theorem fit_never_panics : never_forces s -> exists nodes st, @tree_fit XF policy pick s t index max_leaves max_depth sm = Some (nodes, st).
Proof. intros NF. apply fit_total_if. intros. apply never_forces_aborts. auto. Qed.
End Main.
