(** Growing a tree never panics, whatever the arithmetic (rounding, infinities and NaN included):
    a node that no training row reaches always has a histogram built directly from its (empty)
    list of rows, so all its sums are zero, every candidate split is turned down and the pivot is
    never called on an empty slice. *)
From Coq Require Import List Arith NArith Lia Bool Permutation Sorting.
From Verif Require Import Prelude Float Data DataProofs Utils Histogram HistogramProofs PivotProofs Pivot3Proofs
  Node Splitter SplitProofs EvalProofs Tree GrowProofs GrowInv GrowStep TreeWf TreeProofs FitProofs FitSplits NoPanic.
Import ListNotations.

(** All that is asked of the arithmetic: zero stays zero. *)
Record ZeroLaws (FS : Floats) : Prop := mkZL {
  zl_narrow : to32 (fzero (@f64 FS)) = fzero (@f32 FS);
  zl_add : fadd (@f32 FS) (fzero f32) (fzero f32) = fzero f32;
  zl_eq : feq (@f32 FS) (fzero f32) (fzero f32) = true }.

Section Any.
Context {FS : Floats}.
Hypothesis ZL : ZeroLaws FS.
Variables (s : Splitter) (t : Train) (max_leaves max_depth : nat) (index : list nat) (sm : SampleMethod).
Variables (fcols : list (list nat)) (ccols : list (list F64)).
Hypothesis HI : hist_inputs (tr_data t) (tr_cuts t) (tr_grad t) (tr_hess t) (tr_cols t) fcols ccols.
Hypothesis CL : forall c, In c ccols -> (N.of_nat (length c) <= 65536)%N.
Notation nrows := (m_rows (tr_data t)).
Hypothesis HIX : forall i, In i index -> i < nrows.
Hypothesis HNS : sm = SNone -> index = seq 0 nrows.

(** A side with no weight at all is turned down. *)
Definition rejects_empty : Prop :=
  match s with
  | Imputer p => sp_allow_missing_splits p = false \/ (fzero f32 <? sp_min_leaf_weight p)%f32 = true
  | Branch _ _ _ _ => True
  end.
Hypothesis RE : rejects_empty.
Notation spec := (hist_spec (tr_data t) (tr_cuts t) (tr_grad t) (tr_hess t) (tr_cols t) fcols ccols).

Lemma empty_bins : forall f cuts g h b, In b (feature_bins f cuts [] g h) -> gradient_sum b = fzero f32 /\ hessian_sum b = fzero f32.
Proof.
  intros f cuts g h b H. unfold feature_bins in H. apply in_map_iff in H. destruct H as (k & <- & _).
  cbn. rewrite !(zl_narrow _ ZL). auto.
Qed.

Lemma zero_fold : forall (sel : Bin F32 -> F32) l, (forall b, In b l -> sel b = fzero f32) ->
  fold_left (fun a b => (a + sel b)%f32) l (fzero f32) = fzero f32.
Proof.
  intros sel. induction l as [|b l IH]; intros H; simpl; auto. rewrite (H b) by (left; auto).
  rewrite (zl_add _ ZL). apply IH. intros c Hc. apply H. right; auto.
Qed.

Lemma firstn_incl : forall A (l : list A) j, incl (firstn j l) l.
Proof. intros A l j x H. rewrite <- (firstn_skipn j l). apply in_app_iff. auto. Qed.

(** A node over no rows is never split. *)
Lemma empty_unsplit : forall node si, sn_hist node = spec [] -> best_split s node (tr_cols t) <> Some (Some si).
Proof.
  intros node si HH HB. destruct (best_split_admissible _ _ _ _ HB) as (k & j & [f missing bins bin Hf Hcol Hb HC]).
  rewrite HH in Hcol. rewrite (hist_col_lookup _ _ _ _ _ _ _ [] k f Hf) in Hcol.
  assert (Z : forall b, In b (missing :: bins) -> gradient_sum b = fzero f32 /\ hessian_sum b = fzero f32).
  { intros b Hi. injection Hcol as Hcol. rewrite <- Hcol in Hi. eapply empty_bins; eauto. }
  unfold left_sum in HC. rewrite !zero_fold in HC.
  2-3: intros b Hi; apply firstn_incl in Hi; apply Z; right; auto.
  unfold candidate in HC. destruct (Z missing (or_introl eq_refl)) as [-> ->] in HC.
  inv_bind HC. destruct v as [[[l r] m]|]; [|discriminate]. clear HC.
  unfold rejects_empty in RE. destruct s as [p|p term treat force]; cbn [evaluate_split] in E.
  - injection E as E. unfold evaluate_split_imputer in E. rewrite !(zl_eq _ ZL) in E. cbn [andb orb] in E.
    destruct RE as [A|A].
    + rewrite A in E. discriminate.
    + destruct (sp_allow_missing_splits p); [|discriminate]. cbn [negb andb orb] in E.
      cbn [negb orb] in E. rewrite A, orb_true_r in E. discriminate.
  - unfold evaluate_split_branch in E. rewrite !(zl_eq _ ZL) in E. discriminate.
Qed.

Lemma hist_of_empty : forall h, hist_of t [] = Some h -> h = spec [].
Proof.
  intros h H. unfold hist_of in H. rewrite (hist_new_sorted _ _ _ _ _ _ _ HI) in H by (intros i []). congruence.
Qed.

(** Every node over no rows has the histogram of no rows. *)
Lemma gvalid_empty : forall g, gvalid s t max_depth g ->
  (sn_is_missing_leaf (groot g) = false -> grows g = [] -> sn_hist (groot g) = spec []) ->
  forall x, In x (gall g) -> sn_is_missing_leaf (groot x) = false -> grows x = [] -> sn_hist (groot x) = spec [].
Proof.
  intros g V. induction V as [n rows Hl|p0 n rows si mr l r sub lh rh E0 E1 E2 E3 E4 P S N1 N2 GL' GR' V1 IH1 V2 IH2
                             |n rows si m l r sub mh lh rh mi ml E1 E2 E3 E4 P S N1 N2 N3 GM' GL' GR' V0 IH0 V1 IH1 V2 IH2];
    simpl; intros HL x Hx.
  - destruct Hx as [<-|[]]. auto.
  - destruct Hx as [<-|Hx]; [auto|]. destruct S as [f HB _ _ HP HH]. apply pivot_perm in HP.
    assert (PP : Permutation rows (grows l ++ grows r)) by (etransitivity; eauto).
    assert (NE : grows l = [] -> grows r = [] -> False).
    { intros Q1 Q2. rewrite Q1, Q2 in PP. apply Permutation_sym, Permutation_nil in PP.
      apply (empty_unsplit n si (HL E1 PP)). auto. }
    assert ((grows l = [] -> lh = spec []) /\ (grows r = [] -> rh = spec [])) as [LL LR].
    { destruct HH as [H1 H2 H3|H1 H2 H3]; split; intros Q.
      - rewrite Q in H1. apply hist_of_empty; auto.
      - exfalso. apply NE; auto. destruct (grows l); auto. rewrite Q in H3. simpl in H3. lia.
      - exfalso. apply NE; auto. destruct (grows r); auto. rewrite Q in H3. simpl in H3. lia.
      - rewrite Q in H1. apply hist_of_empty; auto. }
    apply in_app_iff in Hx. destruct Hx as [Hx|Hx].
    + apply IH1; auto. rewrite GL'; simpl; auto.
    + apply IH2; auto. rewrite GR'; simpl; auto.
  - destruct Hx as [<-|Hx]; [auto|]. destruct S as [f p' term treat force i _ HB HM _ _ HP HH]. apply pivot3_perm in HP.
    assert (PP : Permutation rows (grows m ++ grows l ++ grows r)) by (etransitivity; eauto).
    assert (NE : grows m = [] -> grows l = [] -> grows r = [] -> False).
    { intros Q0 Q1 Q2. rewrite Q0, Q1, Q2 in PP. apply Permutation_sym, Permutation_nil in PP.
      apply (empty_unsplit n si (HL E1 PP)). auto. }
    assert ((ml = false -> grows m = [] -> mh = spec []) /\ (grows l = [] -> lh = spec []) /\ (grows r = [] -> rh = spec [])) as (LM & LL & LR).
    { split; [|split].
      - intros HF HE. exfalso. destruct HM as [[_ HM]|[_ HM]]; [|congruence]. rewrite HE in HM. simpl in HM. rewrite orb_true_r in HM. congruence.
      - intros Q. destruct HH as [HE HME [H1 H2 H3|H1 H2 H3]|HE H1 H2 H3|HE H1 H2 H3 H4|HE H1 H2 H3].
        + rewrite Q in H1. apply hist_of_empty; auto.
        + exfalso. apply NE; auto. destruct (grows r); auto. rewrite Q in H3. simpl in H3. lia.
        + rewrite Q in H1. apply hist_of_empty; auto.
        + congruence.
        + rewrite Q in H2. apply hist_of_empty; auto.
      - intros Q. destruct HH as [HE HME [H1 H2 H3|H1 H2 H3]|HE H1 H2 H3|HE H1 H2 H3|HE H1 H2 H3 H4].
        + exfalso. apply NE; auto. destruct (grows l); auto. rewrite Q in H3. simpl in H3. lia.
        + rewrite Q in H1. apply hist_of_empty; auto.
        + rewrite Q in H2. apply hist_of_empty; auto.
        + rewrite Q in H2. apply hist_of_empty; auto.
        + congruence. }
    rewrite !in_app_iff in Hx. destruct Hx as [Hx|[Hx|Hx]].
    + apply IH0; auto. rewrite GM'; simpl; auto.
    + apply IH1; auto. rewrite GL'; simpl; auto.
    + apply IH2; auto. rewrite GR'; simpl; auto.
Qed.

Theorem fit_never_panics_any : forall policy pick, never_forces s ->
  exists nodes st, tree_fit policy pick s t index max_leaves max_depth sm = Some (nodes, st).
Proof.
  intros policy pick NF. destruct (tree_fit policy pick s t index max_leaves max_depth sm) as [[nodes st]|] eqn:EF; [eauto|]. exfalso.
  apply fit_None in EF. destruct EF as [EF|(root & k & st & p1 & node & p2 & HR & HS & Hp & HL & HG)].
  - destruct (root_total s t fcols ccols HI index sm) as [root Hr];
      [exact (hi_grad _ _ _ _ _ _ _ HI)|exact (hi_hess _ _ _ _ _ _ _ HI)|exact HIX|exact HNS|congruence].
  - destruct (root_node_facts _ _ _ _ _ HR) as (A1 & A2 & A3 & A4 & A5 & A6).
    destruct (INV_nsteps s t max_leaves max_depth root index k _ _ _ HS (INV_init s t max_depth root index A1 A2 A3 A4 A5)) as [g I].
    pose proof (root_hist s t index sm fcols ccols HI HIX HNS root HR) as RH.
    assert (Hin : In node (g_pending st)) by (rewrite Hp; apply in_or_app; right; left; auto).
    destruct (iv_pending _ _ _ _ _ _ _ I node Hin) as [Hlf Hml].
    apply in_map_iff in Hlf. destruct Hlf as ((node', rows) & E & Hlf). simpl in E. subst node'.
    pose proof Hlf as Hall. apply gleaves_gall in Hall.
    assert (LY : layout (tr_data t) (tr_cuts t) (tr_cols t) ccols (sn_hist node)).
    { apply (gvalid_layout s t index max_depth fcols ccols HI HIX g (iv_valid _ _ _ _ _ _ _ I)) with (x := GL node rows); auto.
      - rewrite (iv_grows _ _ _ _ _ _ _ I). apply incl_refl.
      - intros _. rewrite (iv_root _ _ _ _ _ _ _ I), RH. eapply layout_spec; eauto. }
    assert (EM : rows = [] -> sn_hist node = spec []).
    { intros Q. apply (gvalid_empty g (iv_valid _ _ _ _ _ _ _ I)) with (x := GL node rows); auto.
      intros _ Q'. rewrite (iv_root _ _ _ _ _ _ _ I), RH. rewrite (iv_grows _ _ _ _ _ _ _ I) in Q'. rewrite Q'. reflexivity. }
    destruct (iv_rows _ _ _ _ _ _ _ I _ _ Hlf) as (sub & HSl & PS).
    assert (HRI : forall i, In i (g_index st) -> i < nrows).
    { intros i Hi. apply HIX. apply (Permutation_in _ (Permutation_sym (iv_index _ _ _ _ _ _ _ I))). auto. }
    unfold grow_node in HG. cbn [with_pending g_nodes g_pending g_index g_n_nodes g_n_leaves] in HG.
    destruct (max_depth <? sn_depth node + 1); [discriminate|]. cbv zeta in HG. unfold split_node in HG.
    destruct (best_split_total s t node (never_forces_aborts s t NF node)) as [[si|] HBS].
    { intros j f Hf. destruct (layout_lookup _ _ _ _ _ _ _ HI _ LY _ _ Hf) as (col & Hc & Hm). rewrite Hc.
      destruct col; [discriminate|eauto]. }
    + rewrite HBS in HG. cbn [bind] in HG.
      assert (NS' : sub <> []).
      { intros ->. apply Permutation_sym, Permutation_nil in PS. apply (empty_unsplit node si (EM PS)). auto. }
      destruct (best_split_admissible _ _ _ _ HBS) as (kk & j & A).
      destruct (admissible_cut s t fcols ccols HI node kk j si LY A) as (C1 & C2 & C3).
      assert (Hc : si_feature si < m_cols (tr_data t)) by (apply (hi_bound _ _ _ _ _ _ _ HI); eapply nth_error_In; eauto).
      assert (PB : 0 < si_bin si).
      { rewrite C3. apply nth_error_Some_lt in C2. rewrite removelast_firstn_len, firstn_length in C2.
        assert (LC : (N.of_nat (length (ccol ccols (si_feature si))) <= 65536)%N).
        { apply CL. unfold ccol. apply nth_In. rewrite (hi_ccols _ _ _ _ _ _ _ HI). auto. }
        unfold as_u16. destruct (fits_u16 (j + 1)) eqn:FU; [lia|].
        exfalso. unfold fits_u16 in FU. apply N.ltb_ge in FU. lia. }
      assert (HT : exists r, handle_split_info s t si (g_n_nodes st) node (g_index st) = Some r).
      { destruct A as [f missing bins bin Hf Hcol Hb HC]. apply candidate_inv in HC.
        destruct HC as (l & r & m & EV & _ & _ & _ & HC & _). destruct s as [p|p term treat force]; cbn [handle_split_info].
        - assert (exists mr : bool, si_missing si = if mr then MRight else MLeft) as [mr HM].
          { rewrite HC. cbn [evaluate_split] in EV. injection EV as EV. apply imputer_inv in EV. inversion EV; subst; [exists true|exists false|exists true]; auto. }
          eapply handle_imputer_total; eauto.
        - assert (exists i, si_missing si = MBranch i \/ si_missing si = MLeaf i) as [i HM].
          { rewrite HC. cbn [evaluate_split] in EV. apply branch_inv in EV. destruct EV as [EV _]. injection EV as _ _ ->. destruct (_ && _); eauto. }
          eapply handle_branch_total; eauto. }
      destruct HT as [[[new node'] index'] HT]. rewrite HT in HG. cbn [bind] in HG.
      destruct new as [|c0 new]; [discriminate|].
      assert (LN : sn_num node < length (g_nodes st)).
      { rewrite (iv_len _ _ _ _ _ _ _ I). apply gleaves_nums in Hlf. simpl in Hlf.
        apply (Permutation_in _ (iv_nums _ _ _ _ _ _ _ I)) in Hlf. apply in_seq in Hlf. lia. }
      destruct (nth_error_lt (g_nodes st) LN) as [old Ho]. rewrite Ho in HG. cbn [bind] in HG.
      destruct (update_total (g_nodes st) (make_parent_node old node') LN) as [nodes' Hn]. rewrite Hn in HG. discriminate.
    + rewrite HBS in HG. cbn [bind] in HG. discriminate.
Qed.
End Any.
