(** Properties C10 (training and prediction), C28-C31, C41-C45: the booster. *)
From Coq Require Import ZArith List Arith Lia Bool String.
From Verif Require Import Prelude Float FloatX FloatI FloatLaws OrdProofs Data Utils Binning BinningX PropBinning Histogram Node Splitter
  Tree TreeWf PropTree Objective Metric Sampler Contrib Booster PredictProofs BoostProofs FitModel.
Import ListNotations.

Section Any.
Context {FS : Floats}.

(** *** C10: schedules and the parallel switch change no result *)
Theorem C10_parallel_fit : forall E sh c b data y w es,
  fit (with_shapes E sh) (with_parallel b c) data y w es =
  option_map (fun '(b', e) => (with_parallel b' c, e)) (fit E b data y w es).
Proof. exact fit_parallel_serial. Qed.

Theorem C10_parallel_predict : forall shs shs' b data par par',
  predict shs b data par = predict shs' b data par'.
Proof. intros. rewrite !predict_serial. reflexivity. Qed.

Theorem C10_parallel_leaf_indices : forall shs shs' b data,
  predict_leaf_indices shs b data = predict_leaf_indices shs' b data.
Proof. intros. rewrite !predict_leaf_indices_serial. reflexivity. Qed.

Theorem C10_parallel_contributions : forall sh b data m par,
  predict_contributions sh b data m par = predict_contributions Seq b data m false.
Proof. exact predict_contributions_serial. Qed.

(** *** C28 *)
Theorem C28_prediction_is_leaf_sum : forall shs shs' b data par preds,
  m_index data = seq 0 (m_rows data) -> (forall t, In t (gb_trees b) -> well_formed t) ->
  predict shs b data par = Some preds ->
  exists ts ls, ts = firstn (match gb_pred b with Some n => n | None => List.length (gb_trees b) end) (gb_trees b) /\
    predict_leaf_indices shs' b data = Some ls /\ List.length preds = m_rows data /\
    List.length ls = List.length ts * m_rows data /\
    forall i, i < m_rows data -> exists leaves,
      List.length leaves = List.length ts /\
      (forall k t n, nth_error ts k = Some t -> nth_error leaves k = Some n ->
         n_is_leaf n = true /\ exists j, nth_error ls (k * m_rows data + i) = Some j /\ nth_error t j = Some n) /\
      nth_error preds i = Some (fold_left (fun acc n => (acc + to64 (n_weight n))%f64) leaves (gb_base_score b)).
Proof. exact predict_is_leaf_sum. Qed.

(** *** C29 *)
Theorem C29_row_alone_predict : forall shs shs' b data data' par par' i i' p p',
  m_index data = seq 0 (m_rows data) -> m_index data' = seq 0 (m_rows data') ->
  i < m_rows data -> i' < m_rows data' -> (forall f, m_get data i f = m_get data' i' f) ->
  predict shs b data par = Some p -> predict shs' b data' par' = Some p' ->
  nth_error p i = nth_error p' i'.
Proof. exact predict_row_only. Qed.

Theorem C29_row_alone_leaves : forall shs shs' b data data' i i' p p' k,
  m_index data = seq 0 (m_rows data) -> m_index data' = seq 0 (m_rows data') ->
  i < m_rows data -> i' < m_rows data' -> (forall f, m_get data i f = m_get data' i' f) ->
  predict_leaf_indices shs b data = Some p -> predict_leaf_indices shs' b data' = Some p' ->
  (exists ts, prediction_trees b = Some ts /\ k < List.length ts) ->
  nth_error p (k * m_rows data + i) = nth_error p' (k * m_rows data' + i').
Proof. exact leaf_indices_row_only. Qed.

(** *** C30.  [clean b]: a booster without trees has no recorded history; new boosters are clean and
    fits keep boosters clean. *)
Theorem C30_fitted_predicts : forall E b data y w es b' shs data' par, clean b -> gb_trees b <> [] \/ gb_pred b = None ->
  (p_colsample_bytree (gb_params b) =? fone f64)%f64 = true \/ RngSpec (e_rng E (p_seed (gb_params b))) ->
  fit E b data y w es = Some (b', None) ->
  m_index data' = seq 0 (m_rows data') -> m_cols data <= m_cols data' ->
  List.length (m_data data') = m_rows data' * m_cols data' ->
  (forall v, In v (m_data data') -> fisnan f64 (p_missing (gb_params b)) = true \/ fisnan f64 v = false) ->
  exists preds, predict shs b' data' par = Some preds /\ List.length preds = m_rows data' /\
  exists ls, predict_leaf_indices shs b' data' = Some ls.
Proof. exact fitted_predicts. Qed.

Theorem C30_clean : (forall p v b, booster_new p v = inl b -> clean b /\ gb_pred b = None) /\
  (forall E b data y w es b' e, clean b -> fit E b data y w es = Some (b', e) -> clean b').
Proof.
  split; [|exact fit_clean]. intros p v b H. destruct (new_is_empty p v b H) as (_ & _ & _ & H1 & H2 & H3 & _).
  split; auto. intros _. auto.
Qed.

(** *** C31 *)
Theorem C31_history_is_metric : forall E b data y w es b' shs par, clean b ->
  fit E b data y w (Some es) = Some (b', None) -> gb_trees b' <> [] ->
  (forall d ey ew, In (d, ey, ew) es -> List.length ey = m_rows d) ->
  exists h, gb_history b' = Some h /\ r_rows h = List.length (gb_trees b') /\ r_cols h = List.length es /\
    forall k j d ey ew, k < List.length (gb_trees b') -> nth_error es j = Some (d, ey, ew) ->
    exists yh m, predict shs (model_prefix b' (k + 1)) d par = Some yh /\
      metric_fn (e_auc E) (get_metric (gb_params b)) ey yh ew = Some m /\ r_get h k j = Some m.
Proof. exact history_is_metric. Qed.

Theorem C31_trees_follow_predictions : forall E b data y w es b' shs par, clean b -> List.length y = m_rows data ->
  fit E b data y w es = Some (b', None) ->
  exists bd, bin_matrix (e_sorts E) data w (p_nbins (gb_params b)) (p_missing (gb_params b)) = Some bd /\
  forall k t, nth_error (gb_trees b') k = Some t ->
  exists yhat n chosen grad hess n' cols n'' st,
    predict shs (model_prefix b' k) data par = Some yhat /\
    sample_index E (gb_params b) n (m_index data) (fst (calc_grad_hess (p_objective (gb_params b)) y yhat w))
      (snd (calc_grad_hess (p_objective (gb_params b)) y yhat w)) = Some (chosen, grad, hess, n') /\
    column_sample E (gb_params b) n' (m_cols data) = (cols, n'') /\
    tree_fit (p_grow_policy (gb_params b)) (e_pick E k) (splitter_of (gb_params b))
      (mkTrain (matrix_new (b_data bd) (m_rows data) (m_cols data)) (b_cuts bd) grad hess cols) chosen
      (p_max_leaves (gb_params b)) (p_max_depth (gb_params b)) (p_sample_method (gb_params b)) = Some (t, st).
Proof. exact trees_follow_predictions. Qed.

(** *** C42: [fresh] is a new booster with the same parameters. *)
Theorem C42_refit_forgets : forall E b fresh v data y w es,
  clean b -> gb_trees b <> [] \/ gb_pred b = None ->
  booster_new (gb_params b) v = inl fresh -> p_initialize_base_score (gb_params b) = true \/ v = gb_base_score b ->
  validate_inputs y w es = None ->
  fit E b data y w es = option_map (fun '(m, e) => (with_meta m (gb_metadata b), e)) (fit E fresh data y w es).
Proof.
  intros E b fresh v data y w es C HP HN HV V. unfold fit. rewrite V.
  rewrite (refit_fresh E b fresh v data y w es C HP HN HV). destruct (fit_trees E fresh data y w es); reflexivity.
Qed.

(** *** C43 *)
Theorem C43_rejects_bad_inputs : forall E b data y w es,
  (bad_inputs y w es -> exists e, fit E b data y w es = Some (b, Some e)) /\
  (forall b' e, fit E b data y w es = Some (b', Some e) -> bad_inputs y w es /\ b' = b).
Proof. exact fit_rejects. Qed.

(** *** C44 *)
Theorem C44_tree_count : forall E b data y w es b', clean b -> fit E b data y w es = Some (b', None) ->
  List.length (gb_trees b') <= p_iterations (gb_params b) /\
  (p_early_stopping_rounds (gb_params b) = None \/ es = None -> List.length (gb_trees b') = p_iterations (gb_params b)) /\
  gb_params b' = gb_params b /\ gb_metadata b' = gb_metadata b /\
  (p_initialize_base_score (gb_params b) = false -> gb_base_score b' = gb_base_score b) /\
  (p_initialize_base_score (gb_params b) = true -> calc_init (p_objective (gb_params b)) y w = Some (gb_base_score b')) /\
  (gb_trees b <> [] \/ gb_pred b = None ->
     match gb_pred b' with Some n => n <= List.length (gb_trees b') | None => True end).
Proof. exact tree_count. Qed.

(** *** C45 *)
Theorem C45_new_is_empty : forall p v b, booster_new p v = inl b ->
  gb_params b = p /\ gb_base_score b = v /\ gb_trees b = [] /\ gb_history b = None /\ gb_best b = None /\
  gb_pred b = None /\ gb_metadata b = [].
Proof. exact new_is_empty. Qed.
End Any.

Section IEEE.
Variables (iexp iln iln1p : b64 -> b64).
Notation I := (IF iexp iln iln1p).

Lemma i_not_above : forall prec emax Hp Hm, not_above_inf (IOps prec emax Hp Hm).
Proof. intros prec emax Hp Hm [[|]|[|]| |[|] m e H]; reflexivity. Qed.

Theorem C45_new_validates : forall (p : @Params I) v,
  let ok32 (x : fcar (@f32 I)) := fisnan (@f32 I) x = false /\ flt (@f32 I) x (fzero (@f32 I)) = false in
  let ok64 (x : fcar (@f64 I)) := fisnan (@f64 I) x = false /\ flt (@f64 I) x (fzero (@f64 I)) = false in
  (exists b, booster_new p v = inl b) <->
  ok32 (p_learning_rate p) /\ ok32 (p_l1 p) /\ ok32 (p_l2 p) /\ ok32 (p_gamma p) /\ ok32 (p_max_delta_step p) /\
  ok32 (p_min_leaf_weight p) /\ ok32 (p_subsample p) /\ ok64 (p_top_rate p) /\ ok64 (p_other_rate p) /\ ok64 (p_colsample_bytree p).
Proof. exact (@new_validates I (i_not_above _ _ _ _) (i_not_above _ _ _ _)). Qed.

(** *** C41 *)
Theorem C41_early_stopping : forall (E : @Env I) b data y w es b' r,
  clean b -> p_early_stopping_rounds (gb_params b) = Some r -> 0 < p_iterations (gb_params b) ->
  fit E b data y w (Some es) = Some (b', None) ->
  exists h best, gb_history b' = Some h /\ r_rows h = List.length (gb_trees b') /\ r_cols h = List.length es /\
    0 < r_rows h /\ List.length (r_data h) = r_rows h * r_cols h /\
    gb_best b' = Some best /\ gb_pred b' = Some (best + 1) /\
    exists ms, List.length ms = r_rows h /\
      (forall i, i < r_rows h -> nth_error ms i = r_get h i (r_cols h - 1)) /\
      first_best (gb_params b) ms (r_rows h - 1) best /\
      (forall i, i < r_rows h - 1 -> ~ should_stop (gb_params b) r ms i) /\
      (r_rows h < p_iterations (gb_params b) -> should_stop (gb_params b) r ms (r_rows h - 1)).
Proof. exact (@early_stopping I i64_ord_laws). Qed.
End IEEE.

(** *** A run: five rows, two columns, squared loss, at most four trees, stop after one round
    without progress; the second evaluation set has the targets negated, so it only gets worse. *)
Definition exb_params (rounds : option nat) (init : bool) : @Params IE :=
  @mkParams IE SquaredLoss 4 (q32 1 2) 5 10 (z32 0) (z32 1) (z32 0) (z32 0) (z32 1) 2
    true false None (z32 1) (z64 1) (z64 1) (z64 1) 7%N (fnan IOps64) true SNone DepthWise None rounds init [] TNone 0 false.
Definition exb_env : @Env IE :=
  @mkEnv IE (fun _ => @mkRng IE (fun _ => z32 0) (fun _ => z64 0) (fun _ a l => firstn a l)) (@isorts IE)
    (fun v => seq 0 (List.length v)) (fun v => seq 0 (List.length v)) (fun _ => ex_pick) (fun _ _ => SplitAt 2 Seq Seq).
Definition exb_y : list b64 := map z64 [-3; 2; 1; -4; 2]%Z.
Definition exb_neg : list b64 := map z64 [3; -2; -1; 4; -2]%Z.
Definition exb_new (rounds : option nat) (init : bool) : @Booster IE := @mkBooster IE (exb_params rounds init) (z64 0) None None None [] [].
Notation exb_fit b es := (@fit IE exb_env b ex_data exb_y ex_sw es).
Definition exb_sets : list (@EvalData IE) := [(ex_data, exb_y, ex_sw); (ex_data, exb_neg, ex_sw)].
Definition exb_out (b : @Booster IE) es : @Booster IE := fst (get (b, None) (exb_fit b es)).

Lemma exb_some : forall b es, match exb_fit b es with Some (_, None) => true | _ => false end = true ->
  exb_fit b es = Some (exb_out b es, None).
Proof. intros b es. unfold exb_out. destruct (exb_fit b es) as [[b' [e|]]|]; simpl; try discriminate. reflexivity. Qed.

(** all four trees without early stopping; two with it, the first being the best *)
Example exb_run :
  exb_fit (exb_new None true) None = Some (exb_out (exb_new None true) None, None) /\
  map (@List.length _) (gb_trees (exb_out (exb_new None true) None)) = [7; 7; 7; 7] /\
  exb_fit (exb_new (Some 1) false) (Some exb_sets) = Some (exb_out (exb_new (Some 1) false) (Some exb_sets), None) /\
  map (@List.length _) (gb_trees (exb_out (exb_new (Some 1) false) (Some exb_sets))) = [7; 7] /\
  gb_best (exb_out (exb_new (Some 1) false) (Some exb_sets)) = Some 0 /\
  gb_pred (exb_out (exb_new (Some 1) false) (Some exb_sets)) = Some 1 /\
  (forall r i, clean (exb_new r i)).
Proof.
  split; [apply exb_some; vm_compute; reflexivity|]. split; [vm_compute; reflexivity|].
  split; [apply exb_some; vm_compute; reflexivity|]. split; [vm_compute; reflexivity|].
  split; [vm_compute; reflexivity|]. split; [vm_compute; reflexivity|]. intros r i _. auto.
Qed.

(** C28, C29: predictions and leaves of that model on its training data *)
Example exb_predict :
  let b := exb_out (exb_new None true) None in
  is_some (@predict IE (fun _ => SplitAt 3 Seq Seq) b ex_data true) = true /\
  @predict_leaf_indices IE (fun _ => Seq) b ex_data =
    Some [5; 2; 1; 5; 6;  5; 2; 1; 5; 6;  5; 2; 1; 5; 6;  5; 2; 1; 5; 6] /\
  m_index ex_data = seq 0 (m_rows ex_data).
Proof. split; [vm_compute; reflexivity|]. split; vm_compute; reflexivity. Qed.

(** C42, C43, C45: parameters accepted; refused ones; a weight that is refused *)
Example exb_checks :
  @booster_new IE (exb_params (Some 1) false) (z64 0) = inl (exb_new (Some 1) false) /\
  (exists e, @fit IE exb_env (exb_new None true) ex_data exb_y (map z64 [1; 1; -1; 1; 1]%Z) None = Some (exb_new None true, Some e)) /\
  @validate_inputs IE exb_y ex_sw (Some exb_sets) = None.
Proof.
  assert (V : is_some (@validate_parameters IE (exb_params (Some 1) false)) = false) by (vm_compute; reflexivity).
  split; [|split].
  - unfold booster_new. destruct (@validate_parameters IE (exb_params (Some 1) false)); [discriminate|reflexivity].
  - apply (proj1 (@C43_rejects_bad_inputs IE exb_env (exb_new None true) ex_data exb_y (map z64 [1; 1; -1; 1; 1]%Z) None)).
    right. left. exists (z64 (-1)). split; [right; right; left; reflexivity|]. right. vm_compute. reflexivity.
  - vm_compute. reflexivity.
Qed.

(** C44, as stated: a prediction_iteration set by the user before the first fit survives it, and
    may name more trees than were trained; then every prediction panics. *)
Theorem C44_user_iteration_survives_refuted : exists (E : @Env IE) b data y w b' shs,
  clean b /\ fit E b data y w None = Some (b', None) /\
  gb_pred b' = Some 10 /\ List.length (gb_trees b') = 4 /\ predict shs b' data false = None.
Proof.
  exists exb_env, (@set_prediction_iteration IE (exb_new None true) (Some 9)), ex_data, exb_y, ex_sw,
    (exb_out (@set_prediction_iteration IE (exb_new None true) (Some 9)) None), (fun _ => Seq).
  split; [intros _; auto|]. split; [apply exb_some; vm_compute; reflexivity|].
  split; [vm_compute; reflexivity|]. split; [vm_compute; reflexivity|].
  match goal with |- ?p = None => assert (V : is_some p = false) by (vm_compute; reflexivity); destruct p; [discriminate|reflexivity] end.
Qed.

(** C31, C44: an empty list of evaluation sets makes fit panic (the history has no columns) *)
Theorem C44_no_evaluation_sets_panics_refuted : exists (E : @Env IE) b data y w, fit E b data y w (Some []) = None.
Proof.
  exists exb_env, (exb_new None true), ex_data, exb_y, ex_sw.
  assert (V : is_some (exb_fit (exb_new None true) (Some [])) = false) by (vm_compute; reflexivity).
  destruct (exb_fit (exb_new None true) (Some [])); [discriminate|reflexivity].
Qed.

Print Assumptions C10_parallel_fit.
Print Assumptions C10_parallel_predict.
Print Assumptions C10_parallel_leaf_indices.
Print Assumptions C10_parallel_contributions.
Print Assumptions C28_prediction_is_leaf_sum.
Print Assumptions C29_row_alone_predict.
Print Assumptions C29_row_alone_leaves.
Print Assumptions C30_fitted_predicts.
Print Assumptions C30_clean.
Print Assumptions C31_history_is_metric.
Print Assumptions C31_trees_follow_predictions.
Print Assumptions C41_early_stopping.
Print Assumptions C42_refit_forgets.
Print Assumptions C43_rejects_bad_inputs.
Print Assumptions C44_tree_count.
Print Assumptions C44_user_iteration_survives_refuted.
Print Assumptions C44_no_evaluation_sets_panics_refuted.
Print Assumptions C45_new_is_empty.
Print Assumptions C45_new_validates.
