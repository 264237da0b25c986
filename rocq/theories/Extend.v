(** A fit of k iterations is the start of a fit of n >= k iterations. *)
From Coq Require Import List Arith Lia Bool.
From Verif Require Import Prelude Float Data Utils Binning Histogram Node Splitter Tree Objective Metric Sampler Booster PredictProofs BoostProofs FitModel.
Import ListNotations.

Section Extend.
Context {FS : Floats}.

(** The same options with another number of iterations. *)
Definition p_iters (n : nat) (p : Params) : Params :=
  mkParams (p_objective p) n (p_learning_rate p) (p_max_depth p) (p_max_leaves p) (p_l1 p) (p_l2 p) (p_gamma p) (p_max_delta_step p)
    (p_min_leaf_weight p) (p_nbins p) (p_parallel p) (p_allow_missing_splits p) (p_monotone_constraints p) (p_subsample p) (p_top_rate p)
    (p_other_rate p) (p_colsample_bytree p) (p_seed p) (p_missing p) (p_create_missing_branch p) (p_sample_method p) (p_grow_policy p)
    (p_evaluation_metric p) (p_early_stopping_rounds p) (p_initialize_base_score p) (p_terminate_missing_features p)
    (p_missing_node_treatment p) (p_log_iterations p) (p_force_children_to_bound_parent p).
Definition b_iters (n : nat) (b : Booster) : Booster :=
  mkBooster (p_iters n (gb_params b)) (gb_base_score b) (gb_history b) (gb_best b) (gb_pred b) (gb_trees b) (gb_metadata b).
Definition l_iters (n : nat) (l : Loop) : Loop :=
  mkLoop (b_iters n (l_booster l)) (l_yhat l) (l_grad l) (l_hess l) (l_evals l) (l_best_metric l) (l_rng l) (l_stop l).

Lemma eval_iters : forall E p k nodes i n sets j s, eval_loop E (p_iters k p) nodes i j n sets s = eval_loop E p nodes i j n sets s.
Proof.
  intros E p k nodes i n. induction sets as [|[[[d y] w] yh] sets IH]; intros j s; [reflexivity|]. cbn [eval_loop].
  change (update_predictions (p_iters k p)) with (update_predictions p).
  change (get_metric (p_iters k p)) with (get_metric p). change (p_early_stopping_rounds (p_iters k p)) with (p_early_stopping_rounds p).
  destruct (update_predictions _ _ _ _ _) as [yh'|]; [cbn [bind]|reflexivity].
  destruct (metric_fn _ _ _ _ _) as [m|]; [cbn [bind]|reflexivity]. rewrite IH. reflexivity.
Qed.

Lemma step_iters : forall E data y w bd i k l,
  boost_step E data y w bd i (l_iters k l) = option_map (l_iters k) (boost_step E data y w bd i l).
Proof.
  intros E data y w bd i k l. unfold boost_step. cbn [l_iters l_booster b_iters gb_params l_rng l_grad l_hess l_yhat l_evals gb_history gb_best gb_pred l_best_metric l_stop gb_base_score gb_trees gb_metadata].
  change (sample_index E (p_iters k (gb_params (l_booster l)))) with (sample_index E (gb_params (l_booster l))).
  destruct (sample_index _ _ _ _ _ _) as [[[[chosen grad] hess] n]|]; [cbn [bind]|reflexivity].
  change (column_sample E (p_iters k (gb_params (l_booster l)))) with (column_sample E (gb_params (l_booster l))).
  destruct (column_sample _ _ _ _) as [cols n'].
  change (splitter_of (p_iters k (gb_params (l_booster l)))) with (splitter_of (gb_params (l_booster l))).
  change (update_predictions (p_iters k (gb_params (l_booster l)))) with (update_predictions (gb_params (l_booster l))).
  cbn [p_iters p_grow_policy p_max_leaves p_max_depth p_sample_method p_objective].
  destruct (tree_fit _ _ _ _ _ _ _ _) as [[nodes st]|]; [cbn [bind]|reflexivity].
  destruct (update_predictions _ _ _ _ _) as [yhat|]; [cbn [bind]|reflexivity].
  destruct (l_evals l) as [sets|].
  - change (mkParams _ _ _ _ _ _ _ _ _ _ _ _ _ _ _ _ _ _ _ _ _ _ _ _ _ _ _ _ _ _) with (p_iters k (gb_params (l_booster l))).
    rewrite eval_iters. destruct (eval_loop _ _ _ _ _ _ _ _) as [[[sets' ms] s]|]; [cbn [bind]|reflexivity].
    destruct (r_append_row _ _) as [h|]; [cbn [bind]|reflexivity].
    destruct (if s_stop s then _ else _) as [g h']. reflexivity.
  - cbn [bind s_stop]. destruct (if l_stop l then _ else _) as [g h']. reflexivity.
Qed.

Lemma loop_iters : forall E data y w bd k is l,
  boost_loop E data y w bd is (l_iters k l) = option_map (l_iters k) (boost_loop E data y w bd is l).
Proof.
  intros E data y w bd k. induction is as [|i is IH]; intros l; [reflexivity|]. cbn [boost_loop]. rewrite step_iters.
  destruct (boost_step _ _ _ _ _ _ _) as [l'|]; [cbn [option_map bind]|reflexivity]. cbn [l_iters l_stop]. destruct (l_stop l'); [reflexivity|apply IH].
Qed.

Lemma start_iters : forall E k b data y w es,
  fit_start E (b_iters k b) data y w es = option_map (fun x => (fst x, l_iters k (snd x))) (fit_start E b data y w es).
Proof.
  intros E k b data y w es. unfold fit_start.
  replace (match gb_trees (b_iters k b) with [] => b_iters k b | _ => reset (b_iters k b) end)
    with (b_iters k (match gb_trees b with [] => b | _ => reset b end)) by (cbn [b_iters gb_trees]; destruct (gb_trees b); reflexivity).
  set (c := match gb_trees b with [] => b | _ => reset b end). 
  cbn [b_iters gb_params p_iters p_initialize_base_score p_objective p_nbins p_missing gb_base_score gb_history gb_best gb_pred gb_trees gb_metadata].
  destruct (if p_initialize_base_score (gb_params c) then _ else _) as [base|]; [cbn [bind]|reflexivity].
  destruct (calc_grad_hess _ _ _ _) as [g h]. destruct (bin_matrix _ _ _ _ _) as [bd|]; reflexivity.
Qed.

Lemma loop_app : forall E data y w bd a b l, l_stop l = false ->
  boost_loop E data y w bd (a ++ b) l =
  (let* l1 := boost_loop E data y w bd a l in if l_stop l1 then Some l1 else boost_loop E data y w bd b l1).
Proof.
  intros E data y w bd. induction a as [|i a IH]; intros b l H; cbn [app boost_loop bind].
  - rewrite H. reflexivity.
  - destruct (boost_step _ _ _ _ _ _ _) as [l'|]; [cbn [bind]|reflexivity]. destruct (l_stop l') eqn:S1; [cbn [bind]; rewrite S1; reflexivity|]. auto.
Qed.

(** What later iterations leave alone. *)
Definition extends (b b' : Booster) : Prop :=
  gb_params b' = gb_params b /\ gb_base_score b' = gb_base_score b /\ gb_metadata b' = gb_metadata b /\
  (exists ts, gb_trees b' = gb_trees b ++ ts) /\
  match gb_history b with
  | None => True
  | Some h => exists h' more, gb_history b' = Some h' /\ r_data h' = r_data h ++ more /\ r_cols h' = r_cols h /\ r_rows h <= r_rows h'
  end.

Lemma extends_refl : forall b, extends b b.
Proof.
  intros b. do 3 (split; [reflexivity|]). split; [exists []; rewrite app_nil_r; reflexivity|].
  destruct (gb_history b) as [h|]; auto. exists h, []. rewrite app_nil_r. auto.
Qed.
Lemma extends_trans : forall a b c, extends a b -> extends b c -> extends a c.
Proof.
  intros a b c (A1 & A2 & A3 & (ts & A4) & A5) (B1 & B2 & B3 & (us & B4) & B5).
  split; [congruence|]. split; [congruence|]. split; [congruence|]. split; [exists (ts ++ us); rewrite B4, A4, app_assoc; reflexivity|].
  destruct (gb_history a) as [h|]; auto. destruct A5 as (h' & m & E1 & E2 & E3 & E4). rewrite E1 in B5.
  destruct B5 as (h2 & m2 & F1 & F2 & F3 & F4). exists h2, (m ++ m2). rewrite F2, E2, app_assoc. split; auto. split; auto. split; [congruence|lia].
Qed.

Lemma step_extends : forall E data y w bd i l l', boost_step E data y w bd i l = Some l' -> 
  extends (l_booster l) (l_booster l') /\ length (gb_trees (l_booster l')) = length (gb_trees (l_booster l)) + 1.
Proof.
  intros E data y w bd i l l' H. unfold boost_step in H. inv_bind H. destruct v as [[[chosen grad] hess] n].
  destruct (column_sample _ _ _ _) as [cols n']. inv_bind H. destruct v as [nodes st]. inv_bind H. rename v into yhat. inv_bind H.
  destruct v as [[hist evals] s]. destruct (if s_stop s then _ else _) as [g h]. injection H as <-. cbn [l_booster gb_trees].
  split; [|rewrite app_length; reflexivity].
  do 3 (split; [reflexivity|]). split; [exists [nodes]; reflexivity|]. cbn [gb_history].
  destruct (gb_history (l_booster l)) as [h0|]; auto. destruct (l_evals l) as [sets|].
  - inv_bind E3. destruct v as [[sets' ms] s']. inv_bind E3. injection E3 as <- <- <-. unfold r_append_row in E5.
    destruct (_ =? _)%nat; [discriminate|]. destruct (_ =? _)%nat; [|discriminate]. injection E5 as <-.
    do 2 eexists. split; [reflexivity|]. cbn [r_data r_cols r_rows]. split; [reflexivity|]. split; [reflexivity|lia].
  - injection E3 as <- <- <-. exists h0, []. rewrite app_nil_r. auto.
Qed.
Lemma loop_extends : forall E data y w bd is l l', boost_loop E data y w bd is l = Some l' ->
  extends (l_booster l) (l_booster l') /\ length (gb_trees (l_booster l')) <= length (gb_trees (l_booster l)) + length is /\
  (l_stop l' = false -> length (gb_trees (l_booster l')) = length (gb_trees (l_booster l)) + length is).
Proof.
  intros E data y w bd. induction is as [|i is IH]; intros l l' H; cbn [boost_loop] in H.
  - injection H as <-. split; [apply extends_refl|]. simpl. lia.
  - inv_bind H. rename v into l1. destruct (step_extends _ _ _ _ _ _ _ _ E0) as [X1 X2]. destruct (l_stop l1) eqn:S1.
    + injection H as <-. split; [exact X1|]. simpl. split; [lia|congruence].
    + destruct (IH _ _ H) as (Y1 & Y2 & Y3). split; [eapply extends_trans; eauto|]. simpl. split; [lia|intros Q; specialize (Y3 Q); lia].
Qed.

Theorem fit_prefix : forall E b data y w es n k bn, k <= n ->
  fit E (b_iters n b) data y w es = Some (bn, None) ->
  exists bk, fit E (b_iters k b) data y w es = Some (bk, None) /\
    extends bk (b_iters k bn) /\ gb_trees bk = firstn k (gb_trees bn) /\
    (length (gb_trees bn) <= k -> bk = b_iters k bn \/ length (gb_trees bn) = k).
Proof.
  intros E b data y w es n k bn Hk H. unfold fit in *. destruct (validate_inputs y w es); [discriminate|].
  inv_bind H. injection H as ->. unfold fit_trees in *. rewrite start_iters in *.
  destruct (fit_start E b data y w es) as [[bd l]|] eqn:ES; [cbn [option_map bind fst snd] in *|discriminate].
  cbn [b_iters gb_params p_iters p_iterations] in *.
  rewrite loop_iters in *.
  assert (ST : l_stop l = false /\ gb_trees (l_booster l) = []).
  { unfold fit_start in ES. inv_bind ES. destruct (calc_grad_hess _ _ _ _) as [g h]. inv_bind ES. injection ES as _ <-. split; [reflexivity|].
    cbn [l_booster gb_trees]. destruct (gb_trees b) eqn:Q; [exact Q|reflexivity]. }
  destruct ST as [ST TR].
  replace n with (k + (n - k)) in E0 by lia. rewrite seq_app, (loop_app _ _ _ _ _ _ _ _ ST) in E0.
  destruct (boost_loop E data y w bd (seq 0 k) l) as [lk|] eqn:EL; [cbn [bind option_map] in *|discriminate].
  eexists. split; [reflexivity|]. cbn [l_iters l_booster].
  destruct (loop_extends _ _ _ _ _ _ _ _ EL) as (X1 & X2 & X3). rewrite TR, seq_length in *. simpl in X2, X3.
  destruct (l_stop lk) eqn:SK; cbn [bind option_map] in E0.
  - injection E0 as <-. cbn [l_iters l_booster].
    split; [exact (extends_refl _)|]. cbn [b_iters gb_trees]. split; [symmetry; apply firstn_all2; exact X2|]. intros _. left. reflexivity.
  - destruct (boost_loop E data y w bd (seq (0 + k) (n - k)) lk) as [ln|] eqn:EN; cbn [bind option_map] in E0; [|discriminate].
    injection E0 as <-. cbn [l_iters l_booster].
    destruct (loop_extends _ _ _ _ _ _ _ _ EN) as (Y1 & Y2 & Y3). specialize (X3 eq_refl).
    destruct Y1 as (Z1 & Z2 & Z3 & (ts & Z4) & Z5).
    split; [|split].
    + split; [cbn [b_iters gb_params p_iters]; rewrite Z1; reflexivity|]. split; [exact Z2|]. split; [exact Z3|]. split; [exists ts; exact Z4|exact Z5].
    + cbn [b_iters gb_trees]. rewrite Z4, firstn_app, X3, Nat.sub_diag, firstn_O, app_nil_r. symmetry. apply firstn_all2. lia.
    + cbn [b_iters gb_trees]. rewrite Z4, app_length. intros Q. right. lia.
Qed.
End Extend.
