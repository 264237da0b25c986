(** Property C106: floating-point training on whole-number weights.  Squared loss, weights that are positive
    integers with a total of at most 2^24, any labels: the recorded covers are exact. *)
From Coq Require Import ZArith NArith List Arith Lia Bool String Permutation Sorting.
From Flocq Require Import IEEE754.BinarySingleNaN.
From Verif Require Import Prelude Float FloatX FloatI FloatLaws OrdProofs Data DataProofs Utils Binning BinningProofs BinMatrix BinningX PropBinning Histogram
  HistogramProofs Node Splitter SplitProofs Tree TreeWf TreeProofs FitProofs PathProofs RouteFit PropTree Objective Metric Sampler SamplerProofs Booster BoostProofs
  PredictProofs FitModel FitAny PropPredict CountRoute CountFit CountI CountModel.
Import ListNotations.
Local Notation length := List.length.
Local Open Scope nat_scope.

Section IEEE.
Variables (iexp iln iln1p : b64 -> b64).
Notation FI := (IF iexp iln iln1p).
Notation int64 n := (fofnat IOps64 n).
Notation int32 n := (fofnat IOps32 n).

(** *** One tree, on any gradients (C20 and C21 in floating point) *)
Section Tree.
Variables (weight_of : nat -> nat) (S : @Sorts FI) (data : Matrix b64) (sw : list b64) (nbins : nat) (missing : b64) (bd : @BinnedData FI).
Variables (policy : GrowPolicy) (pick : @pick_fn FI) (s : @Splitter FI) (t : @Train FI) (index : list nat).
Variables (max_leaves max_depth : nat) (sm : SampleMethod).
Hypothesis CT : @counted FI T24 weight_of S data sw nbins missing bd s t index sm.
Notation fit := (@tree_fit FI policy pick s t index max_leaves max_depth sm).

Theorem C106_routes : forall nodes st, fit = Some (nodes, st) ->
  Permutation index (g_index st) /\
  exists ranges, tiles ranges 0 (length index) /\ NoDup (map fst ranges) /\
    (forall i, In i (map fst ranges) <-> exists n, nth_error nodes i = Some n /\ n_is_leaf n = true) /\
    forall k a b pos i, In (k, (a, b)) ranges -> a <= pos < b -> nth_error (g_index st) pos = Some i ->
      exists n, @predict_leaf FI nodes data i missing = Some n /\ n_num n = k.
Proof.
  exact (@CountFit.fit_routes FI i64_ord_laws i64_nonneg_laws eq_refl eq_refl T24 (i_count_laws iexp iln iln1p) weight_of S data sw nbins missing bd
    policy pick s t index max_leaves max_depth sm CT).
Qed.

Theorem C106_tree_cover : forall nodes st, fit = Some (nodes, st) -> forall k n, nth_error nodes k = Some n ->
  n_hess n = int32 (list_sum (map weight_of (filter (fun i => @passes FI nodes (fun f => m_get data i f) missing k) index))).
Proof.
  exact (@CountFit.fit_cover FI i64_ord_laws i64_nonneg_laws eq_refl eq_refl T24 (i_count_laws iexp iln iln1p) weight_of S data sw nbins missing bd
    policy pick s t index max_leaves max_depth sm CT).
Qed.
End Tree.

(** *** A whole fit *)
Section Fit.
Variables (E : @Env FI) (b b' : @Booster FI) (data : Matrix b64) (y : list b64) (weights : list nat) (es : option (list (@EvalData FI))).
Notation p := (gb_params b).
Notation w := (map (fun n => int64 n) weights).
Notation row i := (fun f => m_get data i f).
Hypothesis NB : p_nbins p <> 0 /\ (N.of_nat (p_nbins p) <= 65534)%N.
Hypothesis MP : (fzero (@f32 FI) <? p_min_leaf_weight p)%f32 = true.
Hypothesis OB : p_objective p = SquaredLoss.
Hypothesis NG : p_sample_method p <> SGoss.
Hypotheses (AD : @able_data FI p data y w) (AE : @able_env FI E p) (C : @clean FI b).
Hypothesis PW : forall n, In n weights -> 0 < n.
Hypothesis TW : (N.of_nat (list_sum weights) <= 2 ^ 24)%N.
Hypothesis HFIT : @fit FI E b data y w es = Some (b', None).
Notation USE f := (f FI i64_ord_laws i64_nonneg_laws eq_refl eq_refl T24 (i_count_laws iexp iln iln1p) E b b' data y weights es NB MP OB NG AD AE C PW TW HFIT).

(** The cover of every node is the total weight of the sampled rows passing it. *)
Theorem C106_cover : forall t, In t (gb_trees b') -> exists chosen,
  (p_sample_method p = SNone -> chosen = seq 0 (m_rows data)) /\ NoDup chosen /\ (forall i, In i chosen -> i < m_rows data) /\
  forall k n, nth_error t k = Some n ->
  n_hess n = int32 (list_sum (map (fun i => nth i weights 0) (filter (fun i => @passes FI t (row i) (p_missing p) k) chosen))).
Proof. exact (USE (@count_covers)). Qed.

Theorem C106_leaf_cover : p_sample_method p = SNone -> forall t n, In t (gb_trees b') -> In n t -> n_is_leaf n = true ->
  n_hess n = int32 (list_sum (map (fun i => nth i weights 0) (filter (fun i =>
    match @predict_leaf FI t data i (p_missing p) with Some m => n_num m =? n_num n | None => false end) (seq 0 (m_rows data))))).
Proof. exact (USE (@count_leaf_cover)). Qed.

(** Every split sends a training row to each side. *)
Theorem C106_separates : forall t n c, In t (gb_trees b') -> In n t -> n_is_leaf n = false -> c = n_left n \/ c = n_right n ->
  exists i x, i < m_rows data /\ @passes FI t (row i) (p_missing p) c = true /\
    m_get data i (n_split_feature n) = Some x /\ @get_child_idx FI n x (p_missing p) = Some c.
Proof. exact (USE (@count_separates)). Qed.

Theorem C106_constant_column : forall f, (forall i j, i < m_rows data -> j < m_rows data -> m_get data i f = m_get data j f) ->
  forall t n, In t (gb_trees b') -> In n t -> n_is_leaf n = false -> n_split_feature n <> f.
Proof. exact (USE (@count_constant_column)). Qed.
(** Without a branch for missing values a tree has at most one leaf per row.  When min_leaf_weight exceeds every whole
    number below k, a tree that splits has at most total weight / k leaves. *)
Theorem C106_leaves_rows : p_create_missing_branch p = false -> 0 < m_rows data ->
  forall t, In t (gb_trees b') -> length (filter (fun n => n_is_leaf n) t) <= m_rows data.
Proof. exact (USE (@count_leaves_rows)). Qed.

Theorem C106_leaves_weight : p_create_missing_branch p = false -> forall t, In t (gb_trees b') -> 1 < length t ->
  forall k, (forall c, c < k -> flt (@f32 FI) (int32 c) (p_min_leaf_weight p) = true) ->
  length (filter (fun n => n_is_leaf n) t) * k <= list_sum weights.
Proof. exact (USE (@count_leaves_weight)). Qed.
End Fit.
End IEEE.

(** *** A case: labels in thirds, whose gradients round, a missing cell, and rows that stand for up to five. *)
Definition exw_data : Matrix b64 := matrix_new
  (map z64 [1; 2; 3; 4; 5; 6; 7]%Z ++ [fnan IOps64] ++ map z64 [5; 1; 5; 1; 3; 3; 2; 9]%Z) 8 2.
Definition exw_y : list b64 := map (fun z => q64 z 3) [1; 2; 10; 11; -7; 5; 4; 8]%Z.
Definition exw_weights : list nat := [1; 2; 3; 1; 2; 1; 1; 5].
Definition exw_params : @Params IE := @mkParams IE SquaredLoss 3 (q32 1 3) 3 10 (z32 0) (z32 1) (z32 0) (z32 0) (z32 2) 64
  true true None (z32 1) (z64 1) (z64 1) (z64 1) 7%N (fnan IOps64) false SNone DepthWise None None true [] TNone 0 false.
Definition exw_new : @Booster IE := @mkBooster IE exw_params (z64 0) None None None [] [].
Notation exw_w := (map (fun n => fofnat IOps64 n) exw_weights).
Definition exw_out : @Booster IE := fst (get (exw_new, None) (@fit IE exb_env exw_new exw_data exw_y exw_w None)).

Lemma exw_fitted : @fit IE exb_env exw_new exw_data exw_y exw_w None = Some (exw_out, None).
Proof.
  assert (G : forall (o : option (@Booster IE * option ForustError)) d, is_some o = true -> snd (get d o) = None -> o = Some (fst (get d o), None)).
  { intros [[q e]|] d H1 H2; simpl in *; [congruence|discriminate]. }
  refine (G _ _ _ _); vm_compute; reflexivity.
Qed.
Lemma exw_able : @able_data IE exw_params exw_data exw_y exw_w /\ @able_env IE exb_env exw_params /\ @clean IE exw_new.
Proof.
  split; [|split].
  - assert (V : forallb (fun v : b64 => fisnan IOps64 v || flt IOps64 v (fmax IOps64))%bool (m_data exw_data) = true) by (vm_compute; reflexivity).
    rewrite forallb_forall in V. constructor; auto.
    + split; [reflexivity|]. split; [reflexivity|]. intros v Hv. left. reflexivity.
    + intros v Hv HM. specialize (V v Hv). apply orb_true_iff in V. destruct V as [V|V]; [|exact V].
      exfalso. unfold is_missing in HM. simpl in HM. simpl in V. rewrite V in HM. discriminate.
  - constructor; simpl; try discriminate.
    + apply isorts_spec. apply i64_ord_laws.
    + left. vm_compute. reflexivity.
  - intros _. split; reflexivity.
Qed.

(** The three trees have splits, so the theorems say something about them. *)
Example exw_splits : map (fun t => length (filter (fun n => negb (n_is_leaf n)) t)) (gb_trees exw_out) = [3; 4; 4].
Proof. vm_compute. reflexivity. Qed.
Example exw_cover : forall t n, In t (gb_trees exw_out) -> In n t -> n_is_leaf n = true ->
  n_hess n = fofnat IOps32 (list_sum (map (fun i => nth i exw_weights 0) (filter (fun i =>
    match @predict_leaf IE t exw_data i (fnan IOps64) with Some m => n_num m =? n_num n | None => false end) (seq 0 8)))).
Proof.
  destruct exw_able as (A1 & A2 & A3).
  refine (C106_leaf_cover idf idf idf exb_env exw_new exw_out exw_data exw_y exw_weights None _ _ eq_refl _ A1 A2 A3 _ _ exw_fitted eq_refl).
  - split; [discriminate|vm_compute; discriminate].
  - vm_compute. reflexivity.
  - discriminate.
  - intros n Hn. simpl in Hn. lia.
  - vm_compute. discriminate.
Qed.
(** With min_leaf_weight 2 and a total weight of 16 there are at most eight leaves. *)
Example exw_leaves : forall t, In t (gb_trees exw_out) -> length (filter (fun n => n_is_leaf n) t) * 2 <= 16.
Proof.
  destruct exw_able as (A1 & A2 & A3). intros t Ht.
  refine (C106_leaves_weight idf idf idf exb_env exw_new exw_out exw_data exw_y exw_weights None _ _ eq_refl _ A1 A2 A3 _ _ exw_fitted eq_refl t Ht _ 2 _).
  - split; [discriminate|vm_compute; discriminate].
  - vm_compute. reflexivity.
  - discriminate.
  - intros n Hn. simpl in Hn. lia.
  - vm_compute. discriminate.
  - assert (V : forallb (fun t => 1 <? length t) (gb_trees exw_out) = true) by (vm_compute; reflexivity).
    rewrite forallb_forall in V. apply Nat.ltb_lt. exact (V t Ht).
  - intros c Hc. destruct c as [|[|c]]; [vm_compute; reflexivity|vm_compute; reflexivity|lia].
Qed.
(** Each of its trees was grown under the hypotheses of C106_routes and C106_tree_cover. *)
Example exw_counted : forall t, In t (gb_trees exw_out) -> exists bd k tr index st,
  @counted IE T24 (fun i => nth i exw_weights 0) (e_sorts exb_env) exw_data exw_w 64 (fnan IOps64) bd (splitter_of exw_params) tr index SNone /\
  @tree_fit IE DepthWise (e_pick exb_env k) (splitter_of exw_params) tr index 10 3 SNone = Some (t, st).
Proof.
  destruct exw_able as (A1 & A2 & A3). intros t Ht.
  assert (H1 : p_nbins (gb_params exw_new) <> 0 /\ (N.of_nat (p_nbins (gb_params exw_new)) <= 65534)%N) by (split; [discriminate|vm_compute; discriminate]).
  assert (H2 : (fzero (@f32 IE) <? p_min_leaf_weight (gb_params exw_new))%f32 = true) by (vm_compute; reflexivity).
  assert (H3 : p_sample_method (gb_params exw_new) <> SGoss) by discriminate.
  assert (H4 : forall n, In n exw_weights -> 0 < n) by (intros n Hn; simpl in Hn; lia).
  assert (H5 : (N.of_nat (list_sum exw_weights) <= T24)%N) by (vm_compute; discriminate).
  pose proof (@count_grown IE i64_ord_laws T24 (i_count_laws idf idf idf) exb_env exw_new exw_out exw_data exw_y exw_weights None
    H1 H2 eq_refl H3 A1 A2 A3 H4 H5 exw_fitted t Ht) as Q.
  destruct Q as (bd & k & chosen & grad & cols & st & CT & HF & _).
  exact (ex_intro _ bd (ex_intro _ k (ex_intro _ _ (ex_intro _ chosen (ex_intro _ st (conj CT HF)))))).
Qed.

Print Assumptions C106_routes.
Print Assumptions C106_tree_cover.
Print Assumptions C106_cover.
Print Assumptions C106_leaf_cover.
Print Assumptions C106_separates.
Print Assumptions C106_constant_column.
Print Assumptions C106_leaves_rows.
Print Assumptions C106_leaves_weight.
