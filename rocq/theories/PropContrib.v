(** Properties C29 (contributions), C32-C34, C37-C40, C58: contributions, partial dependence,
    importances, dumps and missing values in predictions. *)
From Coq Require Import ZArith List Arith Lia Bool String Permutation Reals Lra.
From Verif Require Import Prelude Float FloatX FloatI Data DataProofs Utils UtilsX Binning BinningX PropBinning Histogram Node Splitter
  Tree TreeWf PathProofs PropTree Objective Metric Sampler Contrib Booster PredictProofs BoostProofs FitModel PropPredict
  ContribProofs ContribX ImportProofs DependX WfCheck.
Import ListNotations.

Section Any.
Context {FS : Floats}.

(** *** C29, contributions *)
Theorem C29_row_alone_contributions : forall sh sh' b data data' m par par' i i' row r r',
  m_index data = seq 0 (m_rows data) -> m_index data' = seq 0 (m_rows data') -> m_cols data = m_cols data' ->
  i < m_rows data -> i' < m_rows data' -> m_get_row data i = Some row -> m_get_row data' i' = Some row ->
  predict_contributions sh b data m par = Some r -> predict_contributions sh' b data' m par' = Some r' ->
  forall k, k <= m_cols data -> nth_error r (i * (m_cols data + 1) + k) = nth_error r' (i' * (m_cols data + 1) + k).
Proof. exact contributions_row_only. Qed.

(** *** C30, contributions: no panic (the shapley method is treated with C35) *)
Theorem C30_contributions_total : forall sh b data m par, m <> CShapley ->
  (m = CProbabilityChange -> p_objective (gb_params b) = LogLoss) ->
  m_index data = seq 0 (m_rows data) ->
  (forall t, In t (gb_trees b) -> well_formed t /\ forall f, tree_features t f -> f < m_cols data) ->
  match gb_pred b with Some n => n <= List.length (gb_trees b) | None => True end ->
  List.length (m_data data) = m_rows data * m_cols data ->
  (forall v, In v (m_data data) -> valid_cell (p_missing (gb_params b)) v) ->
  exists r, predict_contributions sh b data m par = Some r.
Proof. exact contributions_total. Qed.

(** *** C32, C33: each cell, for every arithmetic.  [weight_at t k] is the weight of node k; [average_at t k]
    the cover-weighted average of the leaves below it; [path_changes t phi row missing f] lists
    phi(child) - phi(parent) for the splits on f along the path of the row. *)
Theorem C32_C33_cells : forall sh b data m par r ts phi, (m = CWeight /\ phi = weight_at \/ m = CAverage /\ phi = average_at) ->
  m_index data = seq 0 (m_rows data) -> prediction_trees b = Some ts ->
  (forall t, In t ts -> well_formed t /\ forall f, tree_features t f -> f < m_cols data) ->
  predict_contributions sh b data m par = Some r -> forall i row, i < m_rows data -> m_get_row data i = Some row ->
  nth_error r (i * (m_cols data + 1) + m_cols data) =
    Some (fold_left (fadd f64) (map (fun t => phi t 0) ts) (fzero f64 + gb_base_score b)%f64) /\
  forall f, f < m_cols data -> nth_error r (i * (m_cols data + 1) + f) =
    Some (fold_left (fadd f64) (flat_map (fun t => path_changes t (phi t) (nth_error row) (p_missing (gb_params b)) f) ts) (fzero f64)).
Proof. exact followed_contributions. Qed.

Theorem C33_average : forall nodes k n, well_formed nodes -> nth_error nodes k = Some n ->
  average_at nodes k =
    if n_is_leaf n then to64 (n_weight n)
    else let share c := match nth_error nodes c with Some m => (to64 (n_hess m) * average_at nodes c)%f64 | None => fzero f64 end in
         ((if has_missing_branch n then share (n_left n) + share (n_right n) + share (n_missing n)
           else share (n_left n) + share (n_right n)) / to64 (n_hess n))%f64.
Proof. exact average_at_eq. Qed.

(** *** C34: each feature cell, for every arithmetic *)
Theorem C34_cells : forall sh b data par r ts,
  m_index data = seq 0 (m_rows data) -> prediction_trees b = Some ts ->
  predict_contributions sh b data CProbabilityChange par = Some r -> forall i row, i < m_rows data -> m_get_row data i = Some row ->
  forall f, f < m_cols data -> nth_error r (i * (m_cols data + 1) + f) =
    Some (fold_left (fadd f64) (prob_changes ts (gb_base_score b) (nth_error row) (p_missing (gb_params b)) f) (fzero f64)).
Proof. exact probability_contributions. Qed.

(** *** C37.  [step_difference] spells out the difference of each method for one split passed. *)
Theorem C37_difference_contributions : forall sh b data m par r ts, is_difference m = true ->
  m_index data = seq 0 (m_rows data) -> prediction_trees b = Some ts ->
  (forall t, In t ts -> well_formed t /\ forall f, tree_features t f -> f < m_cols data) ->
  predict_contributions sh b data m par = Some r -> forall i row, i < m_rows data -> m_get_row data i = Some row ->
  nth_error r (i * (m_cols data + 1) + m_cols data) = Some (fzero f64 + gb_base_score b)%f64 /\
  forall f, f < m_cols data -> nth_error r (i * (m_cols data + 1) + f) =
    Some (fold_left (fadd f64) (flat_map (fun t => row_differences m t (nth_error row) (p_missing (gb_params b)) f) ts) (fzero f64)).
Proof. exact difference_contributions'. Qed.

Theorem C37_missing_branch_adds_nothing : forall m nodes a n,
  nth_error nodes a = Some n -> n_missing n <> n_left n -> n_missing n <> n_right n ->
  step_difference m nodes a (n_missing n) = [].
Proof.
  intros m nodes a n H L R. unfold step_difference. rewrite H. destruct (nth_error nodes (n_missing n)); auto.
  apply Nat.eqb_neq in L, R. rewrite L, R, Nat.eqb_refl. reflexivity.
Qed.

(** *** C39, for every arithmetic: values as sums in the order of the visits; with two features or
    more, a NaN value makes the normalised importance panic. *)
Theorem C39_importance : forall b m, (forall t, In t (gb_trees b) -> well_formed t) ->
  exists imp vs, calculate_feature_importance b m false = Some imp /\ Permutation vs (flat_map split_nodes (gb_trees b)) /\
    NoDup (map fst imp) /\
    forall k v, In (k, v) imp <-> on_feature k vs <> [] /\ v = importance_of m (on_feature k vs).
Proof. exact importance_raw. Qed.

Theorem C39_normalised : forall b m imp, calculate_feature_importance b m false = Some imp ->
  calculate_feature_importance b m true =
    (let* sorted := sort_f32 (map snd imp) in Some (map (fun '(k, v) => (k, (v / fsum f32 sorted)%f32)) imp)) /\
  (forall sorted, sort_f32 (map snd imp) = Some sorted -> Permutation sorted (map snd imp)) /\
  (1 < List.length imp -> (exists k v, In (k, v) imp /\ fisnan f32 v = true) -> calculate_feature_importance b m true = None).
Proof. exact importance_normalised. Qed.

(** *** C40: one line per node, in the order of [out] *)
Theorem C40_dump : forall nodes, well_formed nodes -> exists out, tree_dump nodes = Some out /\ Permutation out nodes /\
  (forall p c np nc, nth_error nodes p = Some np -> n_is_leaf np = false -> c = n_left np \/ c = n_right np \/ c = n_missing np ->
     nth_error nodes c = Some nc -> n_depth nc = n_depth np + 1 /\ exists a b d, out = a ++ np :: b ++ nc :: d).
Proof. exact dump_lines. Qed.

(** *** C58.  [cell_missing missing v]: v is the missing value. *)
Theorem C58_child : forall n v missing,
  (fisnan f64 missing = false -> fisnan f64 v = true -> get_child_idx n v missing = None) /\
  (valid_cell missing v -> get_child_idx n v missing =
     Some (if cell_missing missing v then n_missing n else if (v <? n_split_value n)%f64 then n_left n else n_right n)).
Proof. exact child_spec. Qed.

Theorem C58_missing_pattern : forall nodes missing row row', (forall f, same_cell missing (row f) (row' f)) ->
  forall fuel i, walk fuel nodes row missing i = walk fuel nodes row' missing i.
Proof. exact missing_pattern. Qed.

Theorem C58_path_follows : forall nodes missing row fuel i l, path fuel nodes row missing i = Some l ->
  forall a b, In (a, b) (steps l) -> exists n v, nth_error nodes a = Some n /\ row (n_split_feature n) = Some v /\
    b = if cell_missing missing v then n_missing n else if (v <? n_split_value n)%f64 then n_left n else n_right n.
Proof. exact path_follows. Qed.

Theorem C58_nan_rejected : forall nodes missing row fuel i l, fisnan f64 missing = false -> path fuel nodes row missing i = Some l ->
  forall k n v, In k l -> nth_error nodes k = Some n -> n_is_leaf n = false -> row (n_split_feature n) = Some v -> fisnan f64 v = false.
Proof. exact nan_rejected. Qed.
End Any.

Section Exact.
Local Open Scope R_scope.
Variables (b : @Booster XF) (data : Matrix (fcar (@f64 XF))) (ts : list (list (@Node XF))) (base : R).
Hypotheses (HI : m_index data = seq 0 (m_rows data)) (LD : List.length (m_data data) = (m_rows data * m_cols data)%nat)
  (HT : prediction_trees b = Some ts) (HB : gb_base_score b = Fin base) (FW : forall t, In t ts -> finite_weights t).

(** *** C32 *)
Theorem C32_weight_sums : forall shs sh par par' preds r, @predict XF shs b data par = Some preds ->
  @predict_contributions XF sh b data CWeight par' = Some r -> forall i, (i < m_rows data)%nat ->
  exists cs, List.length cs = (m_cols data + 1)%nat /\
    slice r (i * (m_cols data + 1)) (i * (m_cols data + 1) + (m_cols data + 1)) = Some (map Fin cs) /\
    nth_error preds i = Some (Fin (sumR cs)).
Proof. exact (weight_sums b data ts base HI LD HT HB FW). Qed.

(** *** C33 *)
Theorem C33_average_sums : (forall t, In t ts -> well_formed t /\ finite_covers t) ->
  forall shs sh par par' preds r, @predict XF shs b data par = Some preds ->
  @predict_contributions XF sh b data CAverage par' = Some r -> forall i, (i < m_rows data)%nat ->
  exists cs, List.length cs = (m_cols data + 1)%nat /\
    slice r (i * (m_cols data + 1)) (i * (m_cols data + 1) + (m_cols data + 1)) = Some (map Fin cs) /\
    nth_error preds i = Some (Fin (sumR cs)).
Proof. exact (average_sums b data ts base HI LD HT HB FW). Qed.

(** *** C34 *)
Theorem C34_probability_sums : forall shs sh par par' preds r, @predict XF shs b data par = Some preds ->
  @predict_contributions XF sh b data CProbabilityChange par' = Some r -> forall i, (i < m_rows data)%nat ->
  exists cs p, List.length cs = (m_cols data + 1)%nat /\
    slice r (i * (m_cols data + 1)) (i * (m_cols data + 1) + (m_cols data + 1)) = Some (map Fin cs) /\
    nth_error preds i = Some (Fin p) /\ sumR cs = 1 / (1 + exp (- p)).
Proof. exact (probability_sums b data ts base HI LD HT HB FW). Qed.
End Exact.

(** *** C38.  [tree_shape t x]: x is the tree that the node list t represents; [shares f missing v x]
    gives each leaf of x with its product of shares. *)
Section Depend.
Local Open Scope R_scope.
Theorem C38_partial_dependence : forall sh b f v base ts, gb_base_score b = Fin base -> @prediction_trees XF b = Some ts ->
  (forall t, In t ts -> well_formed t /\ finite_weights t /\ covers_ok f t) -> @valid_cell XF (p_missing (gb_params b)) v ->
  exists xs, Forall2 tree_shape ts xs /\
    @value_partial_dependence XF sh b f v = Some (Fin (sumR (map (fun x => expectation (shares f (p_missing (gb_params b)) v x)) xs) + base)).
Proof. exact partial_dependence_X. Qed.

Theorem C38_between_leaves : forall sh b f v base ts lo hi r, gb_base_score b = Fin base -> @prediction_trees XF b = Some ts ->
  (forall t, In t ts -> well_formed t /\ finite_weights t /\ covers_positive t) -> @valid_cell XF (p_missing (gb_params b)) v ->
  (forall t n, In t ts -> In n t -> n_is_leaf n = true -> lo t <= val (n_weight n) <= hi t) ->
  @value_partial_dependence XF sh b f v = Some r -> exists d, r = Fin d /\ base + sumR (map lo ts) <= d <= base + sumR (map hi ts).
Proof. exact partial_dependence_bounds. Qed.

Theorem C38_unused_feature : forall sh sh' b f v v' ts base, gb_base_score b = Fin base -> @prediction_trees XF b = Some ts ->
  (forall t, In t ts -> well_formed t /\ finite_weights t /\ covers_ok f t /\ ~ tree_features t f) ->
  @valid_cell XF (p_missing (gb_params b)) v -> @valid_cell XF (p_missing (gb_params b)) v' ->
  @value_partial_dependence XF sh b f v = @value_partial_dependence XF sh' b f v'.
Proof. exact partial_dependence_indep. Qed.

(** *** C39, exact arithmetic *)
Theorem C39_importance_exact : forall b m, (forall t, In t (gb_trees b) -> well_formed t) ->
  (forall t n, In t (gb_trees b) -> In n t -> n_is_leaf n = false -> xfin (n_split_gain n) /\ xfin (n_hess n)) ->
  exists imp, @calculate_feature_importance XF b m false = Some imp /\ NoDup (map fst imp) /\
    (forall k v, In (k, v) imp <-> splits_on b k <> [] /\ v = Fin (importance_value m (splits_on b k))) /\
    exists imp', @calculate_feature_importance XF b m true = Some imp' /\ map fst imp' = map fst imp /\
      (sumR (map (fun kv => val (snd kv)) imp) <> 0 ->
       (forall k v, In (k, v) imp -> In (k, Fin (val v / sumR (map (fun kv => val (snd kv)) imp))) imp') /\
       exists ws, map snd imp' = map Fin ws /\ sumR ws = 1).
Proof. exact importance_X. Qed.
End Depend.

(** *** Examples: a hand-made exact booster.  The first tree splits on feature 0 with a separate missing
    branch, then on feature 1 with missing values going right. *)
Section XExample.
Local Open Scope R_scope.
Definition xleaf k (w h : R) d : @Node XF :=
  @mkNode XF k (Fin w) (Fin h) d (Fin 0) 0 (Fin 0) 0 0 0 true.
Definition xsplit k (w h : R) d (v : R) f (g : R) m l r : @Node XF :=
  @mkNode XF k (Fin w) (Fin h) d (Fin v) f (Fin g) m l r false.
Definition xt1 : list (@Node XF) :=
  [xsplit 0 1 6 0 2 0 10 1 2 3; xleaf 1 5 1 1; xleaf 2 (-1) 2 1; xsplit 3 2 3 1 7 1 4 5 4 5; xleaf 4 1 2 2; xleaf 5 4 1 2].
Definition xt2 : list (@Node XF) := [xsplit 0 0 6 0 3 1 8 1 1 2; xleaf 1 (-2) 4 1; xleaf 2 3 2 1].
Definition xp (o : ObjectiveType) : @Params XF :=
  @mkParams XF o 2 (Fin 1) 5 10 (Fin 0) (Fin 1) (Fin 0) (Fin 0) (Fin 1) 4 false true None (Fin 1) (Fin 1) (Fin 1) (Fin 1) 0%N
    XNaN true SNone DepthWise None None false [] TNone 0 false.
Definition xb : @Booster XF := @mkBooster XF (xp LogLoss) (Fin (1/2)) None None None [xt1; xt2] [].
Definition xdata : Matrix (fcar (@f64 XF)) := matrix_new [Fin 1; Fin 3; XNaN; Fin 9; XNaN; Fin 2] 3 2.


Lemma xt_wf : forall t, In t [xt1; xt2] -> well_formed t.
Proof. intros t [<-|[<-|[]]]; apply wfb_sound; vm_compute; reflexivity. Qed.
Lemma xt_features : forall t, In t [xt1; xt2] -> forall f, tree_features t f -> (f < 2)%nat.
Proof.
  intros t [<-|[<-|[]]] f (n & HIn & Hn & Hf); simpl in HIn; repeat (destruct HIn as [<-|HIn]; [simpl in Hn, Hf; subst; try discriminate; lia|]); destruct HIn.
Qed.
Lemma xt_weights : forall t, In t [xt1; xt2] -> finite_weights t.
Proof. intros t [<-|[<-|[]]] n HIn; simpl in HIn; repeat (destruct HIn as [<-|HIn]; [eexists; reflexivity|]); destruct HIn. Qed.
Lemma xt_covers : forall t, In t [xt1; xt2] -> finite_covers t.
Proof.
  intros t [<-|[<-|[]]] n HIn; simpl in HIn;
    repeat (destruct HIn as [<-|HIn]; [split; [eexists; reflexivity|simpl; intros; try discriminate; lra]|]); destruct HIn.
Qed.
Lemma xt_positive : forall t, In t [xt1; xt2] -> covers_positive t.
Proof.
  intros t [<-|[<-|[]]]; (split; intros n HIn; simpl in HIn);
    repeat (destruct HIn as [<-|HIn]; [first [split; [eexists; reflexivity|unfold hs; simpl; lra]
      |unfold child_total, has_missing_branch, hs; simpl; intros; try discriminate; lra]|]); destruct HIn.
Qed.
Lemma xcells : forall v : fcar (@f64 XF), @valid_cell XF (p_missing (gb_params xb)) v.
Proof. intros v. left. reflexivity. Qed.

(** the hypotheses of C32, C33, C34 hold and both computations succeed *)
Example xb_contributions :
  m_index xdata = seq 0 (m_rows xdata) /\ List.length (m_data xdata) = (m_rows xdata * m_cols xdata)%nat /\
  @prediction_trees XF xb = Some [xt1; xt2] /\ gb_base_score xb = Fin (1/2) /\
  (forall t, In t [xt1; xt2] -> well_formed t /\ finite_weights t /\ finite_covers t) /\
  (exists preds, @predict XF (fun _ => Seq) xb xdata false = Some preds) /\
  forall m, m <> CShapley -> exists r, @predict_contributions XF Seq xb xdata m false = Some r.
Proof.
  split; [reflexivity|]. split; [reflexivity|]. split; [reflexivity|]. split; [reflexivity|]. split.
  { intros t Ht. split; [apply xt_wf|split; [apply xt_weights|apply xt_covers]]; auto. }
  assert (W : forall t, In t (gb_trees xb) -> well_formed t /\ forall f, tree_features t f -> (f < m_cols xdata)%nat).
  { intros t Ht. split; [apply xt_wf|apply xt_features]; auto. }
  split.
  - destruct (@predict_total XF (fun _ => Seq) xb xdata false eq_refl W I eq_refl (fun v _ => xcells v)) as (p & Hp & _). eauto.
  - intros m Hm. exact (@contributions_total XF Seq xb xdata m false Hm (fun _ => eq_refl) eq_refl W I eq_refl (fun v _ => xcells v)).
Qed.

(** the first row, method Weight: 1/2 + 1 + 0 + (-1 - 1) + (3 - 0) *)
Example xb_weight_row : forall sh par preds, @predict XF (fun _ => sh) xb xdata par = Some preds ->
  nth_error preds 0 = Some (Fin (1/2 + -1 + 3)).
Proof.
  intros sh par preds H. rewrite (predict_X xb xdata [xt1; xt2] (1/2) eq_refl eq_refl eq_refl eq_refl xt_weights (fun _ => sh) par preds 0
    [Fin 1; Fin 9] [xleaf 2 (-1) 2 1; xleaf 2 3 2 1]); auto.
  - do 2 f_equal. unfold sumR. simpl. lra.
  - simpl. lia.
  - repeat constructor; simpl; repeat (rdec; simpl; try reflexivity); try lra.
Qed.

(** C38, C39 *)
Example xb_dependence : forall v, @valid_cell XF (p_missing (gb_params xb)) v /\
  (forall t, In t [xt1; xt2] -> well_formed t /\ finite_weights t /\ covers_positive t /\ covers_ok 0 t /\ covers_ok 7 t /\ ~ tree_features t 7).
Proof.
  intros v. split; [apply xcells|]. intros t Ht. split; [apply xt_wf; auto|]. split; [apply xt_weights; auto|]. split; [apply xt_positive; auto|].
  split; [apply positive_ok; apply xt_positive; auto|]. split; [apply positive_ok; apply xt_positive; auto|].
  intros F. apply (xt_features t Ht) in F. lia.
Qed.
Example xb_importance :
  splits_on xb 0 = [xsplit 0 1 6 0 2 0 10 1 2 3] /\ splits_on xb 1 = [xsplit 3 2 3 1 7 1 4 5 4 5; xsplit 0 0 6 0 3 1 8 1 1 2] /\
  importance_value ITotalGain (splits_on xb 1) = 4 + 8 /\ importance_value IGain (splits_on xb 1) = 6.
Proof. split; [reflexivity|]. split; [reflexivity|]. unfold importance_value, sumR. simpl. split; lra. Qed.
End XExample.

(** the fitted IEEE booster of PropPredict.v: contributions by every method exist, the dump has a line per node *)
Section IExample.
Notation eb := (exb_out (exb_new None true) None).
Example exb_contributions :
  forallb (fun m => is_some (@predict_contributions IE Seq eb ex_data m false))
    [CWeight; CAverage; CBranchDifference; CMidpointDifference; CModeDifference; CShapley] = true /\
  forallb wfb (gb_trees eb) = true /\ is_some (@prediction_trees IE eb) = true /\
  map (fun t => option_map (map n_num) (@tree_dump IE t)) (gb_trees eb) = repeat (Some [0; 1; 2; 3; 4; 5; 6]) 4 /\
  is_some (@calculate_feature_importance IE eb IGain true) = true.
Proof. split; [vm_compute; reflexivity|]. split; [vm_compute; reflexivity|]. split; [vm_compute; reflexivity|]. split; vm_compute; reflexivity. Qed.
(** rows of ex_data hold missing cells; the paths of two of them *)
Example exb_paths :
  map (fun i => match m_get_row ex_data i, nth_error (gb_trees eb) 0 with
    | Some row, Some t => @full_path IE t (nth_error row) (p_missing (gb_params eb)) | _, _ => None end) [0; 2]
  = [Some [0; 3; 5]; Some [0; 1]].
Proof. vm_compute. reflexivity. Qed.
End IExample.

Print Assumptions C29_row_alone_contributions.
Print Assumptions C30_contributions_total.
Print Assumptions C32_C33_cells.
Print Assumptions C33_average.
Print Assumptions C34_cells.
Print Assumptions C37_difference_contributions.
Print Assumptions C37_missing_branch_adds_nothing.
Print Assumptions C39_importance.
Print Assumptions C39_normalised.
Print Assumptions C40_dump.
Print Assumptions C58_child.
Print Assumptions C58_missing_pattern.
Print Assumptions C58_path_follows.
Print Assumptions C58_nan_rejected.
Print Assumptions C32_weight_sums.
Print Assumptions C33_average_sums.
Print Assumptions C34_probability_sums.
Print Assumptions C38_partial_dependence.
Print Assumptions C38_between_leaves.
Print Assumptions C38_unused_feature.
Print Assumptions C39_importance_exact.
