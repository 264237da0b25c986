(** Two boosters with the same trees, base score and iteration choice, whose `missing` values recognise
    the same entries, answer every prediction alike. *)
From Coq Require Import List Arith Bool String.
From Verif Require Import Prelude Float Data Utils Histogram HistogramProofs Node Splitter Tree Objective Metric Sampler Contrib Booster PredictProofs Serde SerdeProofs.
Import ListNotations.

Lemma bind_ext : forall A B (x : option A) (k k' : A -> option B), (forall v, k v = k' v) -> bind x k = bind x k'.
Proof. intros A B [v|] k k' H; simpl; auto. Qed.

Section Predict.
Context {FS : Floats}.
Variables (m m' : F64).
Hypothesis MM : forall v, is_missing v m' = is_missing v m.

Lemma child_mm : forall n v, get_child_idx n v m' = get_child_idx n v m.
Proof. intros. unfold get_child_idx. now rewrite MM. Qed.

Lemma walk_mm : forall fuel nodes row i, walk fuel nodes row m' i = walk fuel nodes row m i.
Proof.
  induction fuel; simpl; intros; auto. apply bind_ext. intros n. destruct (n_is_leaf n); auto.
  apply bind_ext. intros v. rewrite child_mm. apply bind_ext. auto.
Qed.

Lemma contrib_walk_mm : forall fuel nodes row d i c, contrib_walk fuel nodes row m' d i c = contrib_walk fuel nodes row m d i c.
Proof.
  induction fuel; simpl; intros; auto. apply bind_ext. intros n. destruct (n_is_leaf n); auto.
  apply bind_ext. intros v. rewrite child_mm. apply bind_ext. intros ch. apply bind_ext. intros x. apply bind_ext. auto.
Qed.

Lemma shap_mm : forall fuel nodes row i d p z o f c,
  tree_shap fuel nodes row m' i d p z o f c = tree_shap fuel nodes row m i d p z o f c.
Proof.
  induction fuel; cbn [tree_shap]; intros; auto. apply bind_ext. intros n. apply bind_ext. intros p'.
  destruct (n_is_leaf n); auto. apply bind_ext. intros v. rewrite child_mm. apply bind_ext. intros ch.
  apply bind_ext. intros k. apply bind_ext. intros [[[iz io] q] d']. apply foldM_ext. intros s [j ci] _.
  apply bind_ext. auto.
Qed.

Lemma pd_mm : forall fuel nodes i f v p, partial_dependence fuel nodes i f v p m' = partial_dependence fuel nodes i f v p m.
Proof.
  induction fuel; simpl; intros; auto. apply bind_ext. intros n. destruct (n_is_leaf n); auto.
  destruct (n_split_feature n =? f).
  - rewrite child_mm. apply bind_ext. auto.
  - apply bind_ext. intros l. apply bind_ext. intros r. apply bind_ext. intros mc.
    destruct (has_missing_branch n); rewrite ?IHfuel; auto.
Qed.

Lemma par_map_mm : forall A B sh (f g : A -> option B) l, (forall x, f x = g x) -> par_map sh f l = par_map sh g l.
Proof. induction sh; simpl; intros f g l H; [now apply mapM_ext|]. now rewrite (IHsh1 f g), (IHsh2 f g). Qed.

Lemma tree_predict_mm : forall par sh nodes data, tree_predict_any par sh nodes data m' = tree_predict_any par sh nodes data m.
Proof.
  intros. unfold tree_predict_any, tree_predict, tree_predict_parallel, predict_leaf.
  destruct par; [apply par_map_mm|apply mapM_ext]; intros; now rewrite walk_mm.
Qed.
Lemma leaf_indices_mm : forall sh nodes data, tree_predict_leaf_indices sh nodes data m' = tree_predict_leaf_indices sh nodes data m.
Proof. intros. apply par_map_mm. intros. unfold predict_leaf. now rewrite walk_mm. Qed.

Variables (b b' : Booster).
Hypotheses (Mb : p_missing (gb_params b) = m) (Mb' : p_missing (gb_params b') = m').
Hypotheses (Hb : gb_base_score b' = gb_base_score b) (Ht : gb_trees b' = gb_trees b) (Hp : gb_pred b' = gb_pred b).
Hypotheses (Ho : p_objective (gb_params b') = p_objective (gb_params b)) (Hpar : p_parallel (gb_params b') = p_parallel (gb_params b)).

Lemma trees_mm : prediction_trees b' = prediction_trees b.
Proof. unfold prediction_trees. now rewrite Hp, Ht. Qed.

Lemma predict_mm : forall shs data par, predict shs b' data par = predict shs b data par.
Proof.
  intros. unfold predict. rewrite trees_mm, Hb, Mb, Mb'. apply bind_ext. intros ts. apply foldM_ext.
  intros s [k t] _. now rewrite tree_predict_mm.
Qed.

Lemma predict_leaf_mm : forall shs data, predict_leaf_indices shs b' data = predict_leaf_indices shs b data.
Proof.
  intros. unfold predict_leaf_indices. rewrite trees_mm, Mb, Mb'. apply bind_ext. intros ts.
  erewrite mapM_ext; [reflexivity|]. intros [k t] _. apply leaf_indices_mm.
Qed.

Lemma for_rows_mm : forall A par sh data (f g : list F64 -> option (list A)), (forall r, f r = g r) ->
  for_rows par sh data f = for_rows par sh data g.
Proof.
  intros A par sh data f g H. unfold for_rows. destruct par; [erewrite par_map_mm|erewrite mapM_ext]; try reflexivity;
    intros; apply bind_ext; auto.
Qed.

Lemma contributions_mm : forall sh data me par, predict_contributions sh b' data me par = predict_contributions sh b data me par.
Proof.
  intros. unfold predict_contributions, predict_contributions_average, predict_contributions_probability, predict_contributions_tree_alone.
  rewrite Ho, trees_mm. destruct me;
    try (cbn [row_method bind]; apply for_rows_mm; intros r; unfold contrib_row_alone; rewrite trees_mm, Hb, Mb, Mb';
         apply bind_ext; intros ts; apply foldM_ext; intros s t _).
  - unfold contrib_weight. apply bind_ext; intros; apply bind_ext; intros. now rewrite contrib_walk_mm.
  - apply bind_ext; intros ?; apply bind_ext; intros ?. apply for_rows_mm; intros r. unfold contrib_row_average. rewrite trees_mm, Hb, Mb, Mb'. apply bind_ext; intros ts.
    apply foldM_ext; intros s [t w] _. unfold contrib_average. apply bind_ext; intros; apply bind_ext; intros. now rewrite contrib_walk_mm.
  - unfold contrib_branch_difference. now rewrite contrib_walk_mm.
  - unfold contrib_midpoint_difference. now rewrite contrib_walk_mm.
  - unfold contrib_mode_difference. now rewrite contrib_walk_mm.
  - destruct (p_objective (gb_params b)); [|reflexivity]. apply for_rows_mm; intros r. unfold contrib_row_probability. rewrite trees_mm, Hb, Mb, Mb'. apply bind_ext; intros ts.
    erewrite foldM_ext; [reflexivity|]. intros [a s] t _. unfold contrib_probability_change.
    apply bind_ext; intros; apply bind_ext; intros. now rewrite contrib_walk_mm.
  - unfold contrib_shapley. apply bind_ext; intros; apply bind_ext; intros. now rewrite shap_mm.
Qed.

Lemma partial_dependence_mm : forall sh f v, value_partial_dependence sh b' f v = value_partial_dependence sh b f v.
Proof.
  intros. unfold value_partial_dependence. rewrite trees_mm, Hb, Mb, Mb', Hpar. apply bind_ext; intros ts.
  erewrite mapM_ext; [reflexivity|]. intros t _. unfold tree_value_partial_dependence. now rewrite pd_mm.
Qed.

Lemma importance_mm : forall me nm, calculate_feature_importance b' me nm = calculate_feature_importance b me nm.
Proof. intros. unfold calculate_feature_importance. now rewrite Ht. Qed.
End Predict.

Section Reload.
Context {FS : Floats}.

Lemma loaded_missing_same : forall x v, fisnan f64 (fnan f64) = true -> is_finite f64 x = true \/ fisnan f64 x = true ->
  is_missing v (loaded_missing x) = is_missing v x.
Proof.
  intros x v N H. unfold loaded_missing. destruct (is_finite f64 x) eqn:E; auto.
  destruct H as [H|H]; [discriminate|]. unfold is_missing. now rewrite N, H.
Qed.
End Reload.
