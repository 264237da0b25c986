(** A column with a single known value: at most one candidate split, with nothing to its left. *)
From Coq Require Import List Arith Lia Bool Permutation Sorting.
From Verif Require Import Prelude Float FloatLaws OrdProofs Data DataProofs Utils Binning BinningProofs CutProofs BinMatrix Histogram HistogramProofs Node
  Splitter SplitProofs Tree Objective Metric Sampler Booster HistBinned FitModel Rescale RescaleFit Recode Twin Widen WidenFit.
Import ListNotations.

Section Constant.
Context {FS : Floats}.
Hypotheses (OL : OrdLaws (@f64 FS)).

(** The column takes one value where it is not missing, and no cell makes the missing-value test panic. *)
Definition one_value (missing : F64) (col : list F64) : Prop :=
  (forall v, In v col -> exists m, is_missing v missing = Some m) /\
  (forall v v', In v col -> In v' col -> is_missing v missing = Some false -> is_missing v' missing = Some false -> (v =? v')%f64 = true).

Lemma dedup_all_eq : forall x l, (forall v, In v l -> (v =? x)%f64 = true) -> dedup_from x l = [].
Proof. intros x. induction l as [|v l IH]; intros H; simpl; auto. rewrite H by (simpl; auto). apply IH. intros. apply H. simpl; auto. Qed.

Lemma const_cuts : forall S col sw pcts missing, SortSpec S -> one_value missing col -> length sw = length col ->
  exists cc, col_cuts S col sw pcts missing = Some cc /\ cc <> [] /\ length cc <= 2 /\
    (forall v, In v col -> is_missing v missing = Some false -> exists x r, cc = x :: r /\ (x =? v)%f64 = true) /\
    ((forall v, In v col -> is_missing v missing = Some true) -> length cc = 1).
Proof.
  intros S col sw pcts missing SS [HM HV] LS. unfold col_cuts.
  assert (exists kept, split_missing col sw missing = Some kept) as [kept EK].
  { unfold split_missing. destruct (mapM_total (fun vw : F64 * F64 => is_missing (fst vw) missing) (combine col sw)) as [fl ->].
    - intros [x w0] Hx. apply in_combine_l in Hx. auto.
    - simpl. eauto. }
  rewrite EK. cbn [bind]. destruct (split_missing_spec OL _ _ _ _ EK) as [-> _].
  assert (NV := observed_nums col sw missing). set (vs := map fst (observed col sw missing)) in *.
  assert (IN : forall v, In v vs -> In v col /\ is_missing v missing = Some false).
  { intros v Hv. apply in_map_iff in Hv. destruct Hv as ([x w0] & <- & Hx). apply filter_In in Hx. destruct Hx as [H1 H2]. simpl in *.
    apply in_combine_l in H1. split; auto. destruct (HM x H1) as [m Em]. rewrite Em. f_equal.
    rewrite (is_missing_bin OL _ _ _ Em) in H2. destruct m; auto; discriminate. }
  unfold percentiles_or_value. rewrite existsb_nums, andb_false_r by auto.
  destruct (sort_vals_sorted S _ SS NV) as (sorted & -> & P & _ & _). cbn [bind].
  assert (IS : forall v, In v sorted -> In v col /\ is_missing v missing = Some false).
  { intros v Hv. apply IN. eapply Permutation_in; eauto. }
  assert (exists c, dedup sorted = c /\ length c <= 1 /\ (forall v, In v sorted -> exists x, c = [x] /\ In x sorted)) as (c & EC & LC & HC).
  { destruct sorted as [|x r]; simpl; [exists []; simpl; split; [auto|split; [lia|intros ? []]]|].
    exists [x]. rewrite dedup_all_eq.
    - simpl. split; auto. split; [lia|]. intros v _. exists x. auto.
    - intros v Hv. destruct (IS x) as [A1 A2]; [simpl; auto|]. destruct (IS v) as [B1 B2]; [simpl; auto|]. apply HV; auto. }
  rewrite EC. replace (length c <=? length pcts + 1) with true by (symmetry; apply Nat.leb_le; lia). cbn [bind].
  eexists. split; [reflexivity|].
  assert (OB : forall v, In v col -> is_missing v missing = Some false -> In v sorted).
  { intros v Hv Em. apply (Permutation_in _ (Permutation_sym P)). apply In_nth_error in Hv. destruct Hv as [k Hk].
    destruct (nth_error_lt sw (i := k)) as [w0 Hw]; [rewrite LS; eapply nth_error_Some_lt; eauto|].
    apply in_map_iff. exists (v, w0). split; auto. apply filter_In. split.
    - eapply nth_error_In. apply nth_error_combine; eauto.
    - simpl. rewrite (is_missing_bin OL _ _ _ Em). reflexivity. }
  destruct c as [|x [|]]; [|simpl in LC|simpl in LC; lia].
  - simpl. split; [discriminate|]. split; [lia|]. split; auto.
    intros v Hv Em. destruct (HC v (OB _ Hv Em)) as (x & ? & _). discriminate.
  - simpl. assert (IX : In x sorted).
    { destruct sorted as [|x' r]; [discriminate|]. simpl in EC. injection EC as -> _. simpl; auto. }
    destruct (IS x IX) as [X1 X2].
    split; [discriminate|]. split; [destruct (_ =? _)%f64; simpl; lia|]. split.
    + intros v Hv Em. eexists _, _. split; [reflexivity|]. apply HV; auto.
    + intros HT. rewrite HT in X2 by auto. discriminate.
Qed.

Lemma const_bin : forall cc v missing, cc <> [] -> length cc <= 2 -> exists b, map_bin cc v missing = Some (Some b).
Proof.
  intros cc v missing NC LC. unfold map_bin. destruct (_ || _)%bool; eauto.
  destruct cc as [|x [|z [|]]]; [tauto| | |simpl in LC; lia]; simpl.
  - destruct (_ <=? _)%f64; simpl; eauto.
  - destruct (z <=? v)%f64; simpl; eauto. destruct (x <=? v)%f64; simpl; eauto.
Qed.
(** a known value is not put in the bin of the missing values *)
Lemma const_known : forall cc v missing b, length cc <= 2 -> (exists x r, cc = x :: r /\ (x =? v)%f64 = true) ->
  is_missing v missing = Some false -> map_bin cc v missing = Some (Some b) -> b <> 0.
Proof.
  intros cc v missing b LC (x & r & -> & EX) EM H. unfold map_bin in H. 
  pose proof (is_missing_bin OL _ _ _ EM) as Q. unfold bin_missing in Q. rewrite Q in H. apply (o_eq _ OL) in EX. destruct EX as [EX _].
  destruct r as [|z [|]]; [| |simpl in LC; lia]; simpl in H.
  - rewrite EX in H. simpl in H. injection H as <-. discriminate.
  - destruct (z <=? v)%f64; simpl in H; [injection H as <-; discriminate|]. rewrite EX in H. simpl in H. injection H as <-. discriminate.
Qed.

Lemma filter_none : forall A (f : A -> bool) l, (forall x, In x l -> f x = false) -> filter f l = [].
Proof. intros A f. induction l as [|x l IH]; intros H; simpl; auto. rewrite H by (simpl; auto). apply IH. intros. apply H. simpl; auto. Qed.

(** When the search cannot use a column with a single value. *)
Definition no_use (p : Params) (col : list F64) : Prop :=
  p_create_missing_branch p = true \/ p_allow_missing_splits p = false \/
  (forall v, In v col -> is_missing v (p_missing p) = Some true) \/
  ((forall v, In v col -> is_missing v (p_missing p) = Some false) /\ (fzero f32 <? p_min_leaf_weight p)%f32 = true).

Hypothesis Z0 : (fzero f32 =? fzero f32)%f32 = true.
Hypothesis ZC : to32 (fzero f64) = fzero f32.
Hypothesis ZA : (fzero f32 + fzero f32)%f32 = fzero f32.
Hypothesis ZS : (fzero f32 - fzero f32)%f32 = fzero f32.

Section Column.
Variables (p : Params) (data' : Matrix F64) (C : nat) (bd' : BinnedData) (ccols : list (list F64)) (cc : list F64).
Hypotheses (HS : m_cols data' = S C) (LL : length ccols = C) (LC : length cc <= 2) (NCC : cc <> []).
Notation cuts' := (ccols ++ [cc]).

Lemma best_none : forall n, best_feature_split (splitter_of p) n C C = Some None ->
  best_split (splitter_of p) n (seq 0 C ++ [C]) = best_split (splitter_of p) n (seq 0 C).
Proof.
  intros n H. unfold best_split. change (fzero (@f32 FS)) with (gain_of None). rewrite (best_loop_snoc (splitter_of p) C [] C eq_refl).
  destruct (best_split_loop (splitter_of p) n (seq 0 C) 0 (gain_of None) None) as [r|]; simpl; auto.
  rewrite seq_length, H. reflexivity.
Qed.

Definition zeroed (h : HistogramMatrix) : Prop := layout (binned data' bd') (b_cuts bd') (seq 0 C ++ [C]) cuts' h /\
  exists m r, j_get_col h C = Some (m :: r) /\ gradient_sum m = fzero f32 /\ hessian_sum m = fzero f32.

Lemma single_quiet :
  p_create_missing_branch p = true \/ p_allow_missing_splits p = false \/ length cc = 1 \/
  ((forall k b, m_get (binned data' bd') k C = Some b -> k < m_rows data' -> b <> 0) /\ (fzero f32 <? p_min_leaf_weight p)%f32 = true) ->
  quiet p data' C bd' cuts'.
Proof.
  intros HN grad hess fc HI.
  assert (HK : nth_error (seq 0 C ++ [C]) C = Some C) by (rewrite nth_error_app2 by (rewrite seq_length; lia); rewrite seq_length, Nat.sub_diag; reflexivity).
  assert (EC : ccol cuts' C = cc) by (unfold ccol; rewrite app_nth2 by lia; rewrite LL, Nat.sub_diag; reflexivity).
  set (lay := layout (binned data' bd') (b_cuts bd') (seq 0 C ++ [C]) cuts').
  assert (LK : forall h, lay h -> exists m r, j_get_col h C = Some (m :: r) /\ length r = length cc - 1).
  { intros h L. destruct (layout_lookup _ _ _ _ _ _ _ HI h L C C HK) as (col & E1 & E2). rewrite EC in E2.
    pose proof (f_equal (@length _) E2) as E3. simpl in E3. rewrite map_length, removelast_firstn_len, firstn_length in E3.
    destruct col as [|m r]; [discriminate|]. exists m, r. split; auto. simpl in E3. lia. }
  assert (CASE : (p_create_missing_branch p = true \/ p_allow_missing_splits p = false \/ length cc = 1) \/
    ((forall k b, m_get (binned data' bd') k C = Some b -> k < m_rows data' -> b <> 0) /\ (fzero f32 <? p_min_leaf_weight p)%f32 = true)) by tauto.
  destruct CASE as [HA|[HB HW]].
  - exists lay. split; [|split; [|split]].
    + intros; apply layout_parent_child; auto.
    + intros; apply layout_parent_two; auto.
    + intros; apply (layout_spec _ _ _ _ _ _ _ HI).
    + intros n L. apply best_none. destruct (LK _ L) as (m & r & E1 & E2). unfold best_feature_split. rewrite E1. cbn [bind].
      destruct r as [|x [|]]; simpl in E2; [reflexivity| |lia]. simpl. unfold candidate, evaluate_split, splitter_of.
      destruct HA as [->|[HA|HA]]; [| |lia].
      * unfold evaluate_split_branch. rewrite Z0. reflexivity.
      * destruct (p_create_missing_branch p).
        -- unfold evaluate_split_branch. rewrite Z0. reflexivity.
        -- unfold evaluate_split_imputer. rewrite Z0. simpl. rewrite HA. reflexivity.
  - exists zeroed. split; [|split; [|split]].
    + intros q h (L1 & m & r & P1 & P2 & P3) (L2 & m' & r' & Q1 & Q2 & Q3). split; [apply layout_parent_child; auto|].
      pose proof (layout_length _ _ _ _ _ _ L1 L2) as LN. destruct L1 as (_ & F1 & _). destruct L2 as (_ & F2 & _).
      rewrite col_one by congruence. rewrite P1, Q1. simpl. eexists _, _. split; [reflexivity|]. simpl. rewrite P2, P3, Q2, Q3. auto.
    + intros q a b (L1 & m & r & P1 & P2 & P3) (L2 & m' & r' & Q1 & Q2 & Q3) (L3 & m'' & r'' & R1 & R2 & R3). split; [apply layout_parent_two; auto|].
      pose proof (layout_length _ _ _ _ _ _ L1 L2) as LN. pose proof (layout_length _ _ _ _ _ _ L1 L3) as LN3.
      destruct L1 as (_ & F1 & _). destruct L2 as (_ & F2 & _). destruct L3 as (_ & F3 & _).
      rewrite col_two by congruence. rewrite P1, Q1, R1. simpl. eexists _, _. split; [reflexivity|]. simpl.
      rewrite P2, P3, Q2, Q3, R2, R3, ZA. auto.
    + intros L. split; [apply (layout_spec _ _ _ _ _ _ _ HI)|].
      rewrite (hist_col_lookup _ _ _ _ _ _ _ _ _ _ HK). rewrite EC. unfold feature_bins.
      destruct (length cc) eqn:EL; [destruct cc; [tauto|discriminate]|]. simpl seq. simpl map. eexists _, _. split; [reflexivity|]. simpl.
      assert (FE : filter (in_bin (fcol fc C) 0) L = []).
      { apply filter_none. intros i _. unfold in_bin. destruct (nth_error (fcol fc C) i) as [b0|] eqn:EB; auto.
        apply Nat.eqb_neq. intros ->. 
        assert (EF : nth_error fc C = Some (fcol fc C)).
        { unfold fcol. apply nth_error_nth'. pose proof (hi_cols _ _ _ _ _ _ _ HI) as LF. simpl in LF. lia. }
        destruct (hi_col _ _ _ _ _ _ _ HI _ _ EF) as [G1 G2].
        assert (Li : i < m_rows data') by (simpl in G2; rewrite <- G2; eapply nth_error_Some_lt; eauto).
        unfold m_get_col, m_get_col_slice in G1. rewrite (slice_nth _ _ _ G1) in EB by (unfold m_item_index; simpl; lia).
        refine (HB i 0 _ Li eq_refl). rewrite <- EB. unfold m_get. f_equal. unfold m_item_index. simpl. lia. }
      rewrite FE. simpl. unfold sum64. simpl. rewrite ZC. auto.
    + intros n (L & m & r & P1 & P2 & P3). apply best_none. destruct (LK _ L) as (m0 & r0 & E1 & E2). rewrite P1 in E1. injection E1 as <- <-.
      unfold best_feature_split. rewrite P1. cbn [bind]. destruct r as [|x [|]]; simpl in E2; [reflexivity| |lia].
      simpl. unfold candidate, evaluate_split, splitter_of. rewrite P2, P3.
      destruct (p_create_missing_branch p).
      * unfold evaluate_split_branch. rewrite Z0. reflexivity.
      * unfold evaluate_split_imputer. rewrite Z0. simpl.
        destruct (p_allow_missing_splits p); simpl; auto. rewrite HW, orb_true_r. reflexivity.
Qed.
End Column.

Theorem fit_constant : forall E b data y w es es' b' col,
  length (m_data data) = m_rows data * m_cols data -> m_index data = seq 0 (m_rows data) ->
  length y = m_rows data -> length w = m_rows data ->
  (forall k, gain_based (e_pick E k)) -> (p_colsample_bytree (gb_params b) =? fone f64)%f64 = true ->
  SortSpec (e_sorts E) -> length col = m_rows data -> one_value (p_missing (gb_params b)) col -> no_use (gb_params b) col ->
  evals_wide (m_cols data) es es' ->
  fit E b data y w es = Some (b', None) ->
  fit E b (append_col data col) y w es' = Some (b', None).
Proof.
  intros E b data y w es es' b' col LD HX LY LW GB CS SS LC OV NU EW H.
  destruct (const_cuts (e_sorts E) col w (bin_pcts (p_nbins (gb_params b))) (p_missing (gb_params b)) SS OV (eq_trans LW (eq_sym LC)))
    as (cc & ECC & NCC & L2 & KN & AM).
  refine (fit_wide E b data y w es es' b' col cc LD HX LY LW GB CS LC EW H ECC _ _).
  - intros k v _. apply const_bin; auto.
  - intros bd' ccols EB LL J'. apply single_quiet; auto.
    destruct NU as [NU|[NU|[NU|[NU HW]]]]; auto. right. right. right. split; auto.
    intros k b0 Hb Hk. simpl in Hk.
    destruct (bin_matrix_spec _ _ _ _ _ _ EB) as (ccols2 & J2 & _ & _ & _ & LB & HK).
    assert (EC2 : nth_error ccols2 (m_cols data) = Some cc).
    { rewrite <- (jrep_get_col _ _ _ J2), (jrep_get_col _ _ _ J'), nth_error_app2, LL, Nat.sub_diag by lia. reflexivity. }
    assert (HV := append_get_last data col LD LC k Hk). destruct (nth_error_lt col (i := k)) as [v Hv]; [lia|]. rewrite Hv in HV.
    unfold m_get in HV. destruct (HK _ _ HV) as (cc' & n & K1 & K2 & K3).
    assert (D : m_item_index (append_col data col) k (m_cols data) / m_rows (append_col data col) = m_cols data).
    { unfold m_item_index. simpl. rewrite Nat.div_add by lia. rewrite Nat.add_0_r, Nat.div_small by lia. reflexivity. }
    rewrite D in K1. assert (cc' = cc) by congruence. subst cc'.
    assert (n = b0). { unfold m_get in Hb. simpl in Hb. unfold m_item_index in *. simpl in *. congruence. } subst n.
    apply nth_error_In in Hv. refine (const_known cc v _ b0 L2 (KN v Hv (NU v Hv)) (NU v Hv) K2).
Qed.
End Constant.
