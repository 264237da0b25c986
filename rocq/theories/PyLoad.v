(** Saving, loading, pickling and cloning the Python object. *)
From Coq Require Import List Arith NArith ZArith Bool String Lia Permutation.
From Verif Require Import Prelude Float Data DataProofs Utils Binning Histogram Node Splitter Tree Objective Metric Sampler Contrib Booster
  PredictProofs BoostProofs FitModel TrainMore Serde SerdeProofs SerdePredict PyWrap PyNames PyProofs PyState.
Import ListNotations.

Section Load.
Context {FS : Floats}.
Variables (jc : @Codec FS) (pc : PyCodec).

(** *** Two Python objects that cannot be told apart by any question *)
Record same_answers (m m' : PyModel) : Prop := {
  sa_predict : forall shs X par, py_predict shs m' X par = py_predict shs m X par;
  sa_contributions : forall sh X me par, py_predict_contributions sh m' X me par = py_predict_contributions sh m X me par;
  sa_leaves : forall shs X, py_predict_leaf_indices shs m' X = py_predict_leaf_indices shs m X;
  sa_pd : forall sh X f ex, py_partial_dependence sh m' X f ex = py_partial_dependence sh m X f ex;
  sa_importance : forall me nm, py_importance m' me nm = py_importance m me nm;
  sa_importances : py_feature_importances m' = py_feature_importances m;
  sa_history : py_evaluation_history m' = py_evaluation_history m;
  sa_best : gb_best (py_booster m') = gb_best (py_booster m);
  sa_base : gb_base_score (py_booster m') = gb_base_score (py_booster m);
  sa_meta : forall k, get_metadata (py_booster m') k = get_metadata (py_booster m) k;
  sa_names : py_names m' = py_names m; sa_n : py_n_features m' = py_n_features m }.

Lemma same_answers_of : forall m m', let b := py_booster m in let b' := py_booster m' in
  gb_trees b' = gb_trees b -> gb_base_score b' = gb_base_score b -> gb_pred b' = gb_pred b -> gb_history b' = gb_history b ->
  gb_best b' = gb_best b -> (forall k, get_metadata b' k = get_metadata b k) ->
  p_missing (gb_params b') = p_missing (gb_params b) -> p_objective (gb_params b') = p_objective (gb_params b) ->
  p_parallel (gb_params b') = p_parallel (gb_params b) ->
  y_missing (py_params m') = y_missing (py_params m) -> y_parallel (py_params m') = y_parallel (py_params m) ->
  y_importance_method (py_params m') = y_importance_method (py_params m) ->
  py_names m' = py_names m -> py_n_features m' = py_n_features m -> same_answers m m'.
Proof.
  intros m m' b b' HT HB HP HH HBE HM HMI HO HPA YM YP YI HN HNF.
  assert (MM : forall v, is_missing v (p_missing (gb_params b')) = is_missing v (p_missing (gb_params b))) by (intros; now rewrite HMI).
  assert (IV : forall A X (r : res A), if_valid m' X r = if_valid m X r).
  { intros A X r. unfold if_valid, validate_features. now rewrite HN. }
  assert (IMP : forall me nm, py_importance m' me nm = py_importance m me nm).
  { intros me nm. unfold py_importance. destruct (plain _ _); auto. fold b b'.
    rewrite (importance_mm b b' HT). now rewrite HN. }
  constructor; auto.
  - intros shs X par. unfold py_predict, parallel_. rewrite IV, YP. f_equal. fold b b'.
    now rewrite (predict_mm _ _ MM b b' eq_refl eq_refl HB HT HP).
  - intros sh X me par. unfold py_predict_contributions, parallel_. rewrite IV, YP. f_equal. destruct (plain _ _); auto. fold b b'.
    now rewrite (contributions_mm _ _ MM b b' eq_refl eq_refl HB HT HP HO).
  - intros shs X. unfold py_predict_leaf_indices. rewrite IV. f_equal. fold b b'.
    rewrite (predict_leaf_mm _ _ MM b b' eq_refl eq_refl HT HP). now rewrite HP, HT.
  - intros sh X f ex. unfold py_partial_dependence, feature_index. rewrite HN, YM. apply bind_ext. intros [[values idx]|e]; auto. cbv zeta.
    erewrite mapM_ext; [reflexivity|]. intros v _. fold b b'. now rewrite (partial_dependence_mm _ _ MM b b' eq_refl eq_refl HB HT HP HPA).
  - unfold py_feature_importances. rewrite YI, IMP, HN, HNF. reflexivity.
  - unfold py_evaluation_history. fold b b'. now rewrite HH.
Qed.

(** *** Saving and loading *)
Definition pycodec_ok : Prop := forall v, loads pc (dumps pc v) = Some v.
(** the parameters as they come back: six of them are held in single precision *)
Record recovered (y y' : PyParams) : Prop := {
  rc_objective : y_objective y' = y_objective y; rc_iterations : y_iterations y' = y_iterations y;
  rc_lr : y_learning_rate y' = to64 (to32 (y_learning_rate y)); rc_depth : y_max_depth y' = y_max_depth y;
  rc_leaves : y_max_leaves y' = y_max_leaves y; rc_l1 : y_l1 y' = to64 (to32 (y_l1 y)); rc_l2 : y_l2 y' = to64 (to32 (y_l2 y));
  rc_gamma : y_gamma y' = to64 (to32 (y_gamma y)); rc_mds : y_max_delta_step y' = to64 (to32 (y_max_delta_step y));
  rc_mlw : y_min_leaf_weight y' = to64 (to32 (y_min_leaf_weight y)); rc_base : y_base_score y' = y_base_score y;
  rc_nbins : y_nbins y' = y_nbins y; rc_parallel : y_parallel y' = y_parallel y;
  rc_ams : y_allow_missing_splits y' = y_allow_missing_splits y;
  rc_subsample : y_subsample y' = to64 (to32 (y_subsample y)); rc_top : y_top_rate y' = y_top_rate y;
  rc_other : y_other_rate y' = y_other_rate y; rc_col : y_colsample_bytree y' = y_colsample_bytree y;
  rc_seed : y_seed y' = y_seed y; rc_missing : y_missing y' = y_missing y;
  rc_cmb : y_create_missing_branch y' = y_create_missing_branch y;
  rc_method : y_sample_method y' = (if String.eqb (sample_method_ y) "None" then None else Some (sample_method_ y));
  rc_policy : y_grow_policy y' = y_grow_policy y; rc_metric : y_evaluation_metric y' = y_evaluation_metric y;
  rc_rounds : y_early_stopping_rounds y' = y_early_stopping_rounds y;
  rc_init : y_initialize_base_score y' = y_initialize_base_score y;
  rc_treatment : y_missing_node_treatment y' = y_missing_node_treatment y; rc_log : y_log_iterations y' = y_log_iterations y;
  rc_importance : y_importance_method y' = y_importance_method y;
  rc_force : y_force_children_to_bound_parent y' = y_force_children_to_bound_parent y }.

Definition loaded_cons (names : option (list pykey)) (q : PyParams) : PyParams :=
  match names with
  | Some l => match named_constraints l (y_constraints q) with inl d => with_cons q d | inr _ => q end
  | None => q
  end.
Definition loaded_model (o : Orders) (m : PyModel) : PyModel :=
  let b := reloaded o (py_booster m) in
  mkPyModel b (with_importance (loaded_cons (py_names m) (lib_get_params b)) (y_importance_method (py_params m))) (py_names m) (py_n_features m).

Lemma loaded_cons_keeps : forall names q, exists d, loaded_cons names q = with_cons q d.
Proof.
  intros names q. unfold loaded_cons. destruct names as [l|]; [destruct (named_constraints l _)|]; eauto;
    exists (y_constraints q); now destruct q.
Qed.

Lemma sample_method_cases : forall y d, decodes y d ->
  sample_method_ y = plain_name (ser_method (d_sm d)).
Proof. intros y d (_ & H & _). now apply method_name. Qed.

Hypothesis narrow : forall x : F32, to32 (to64 x) = x.

Lemma get_params_decodes : forall y d cm ts base, decodes y d -> validate_parameters (rust_params y d [] []) = None ->
  forall hist best pred trees md,
  let q := lib_get_params (mkBooster (rust_params y d cm ts) base hist best pred trees md) in
  exists d', decodes q d' /\ validate_parameters (rust_params q d' [] []) = None.
Proof.
  intros y d cm ts base D V hist best pred trees md q.
  assert (S : exists sm, de_method (JStr (sample_method_ q)) = Some sm).
  { unfold sample_method_, q, lib_get_params. cbn [y_sample_method y_subsample gb_params rust_params p_sample_method].
    destruct (d_sm d); cbn [ser_method plain_name sample_name String.eqb]; destruct (_ <? _)%f64; simpl; eauto. }
  destruct S as [sm S]. exists (mkNames (d_obj d) sm (d_po d) (d_me d) (d_tr d)). split.
  - unfold decodes. cbn [d_obj d_sm d_po d_me d_tr]. split; [destruct (d_obj d) eqn:E; unfold q, lib_get_params; cbn; rewrite E; reflexivity|].
    split; [exact S|]. split; [destruct (d_po d) eqn:E; unfold q, lib_get_params; cbn; rewrite E; reflexivity|].
    split; [|destruct (d_tr d) eqn:E; unfold q, lib_get_params; cbn; rewrite E; reflexivity].
    destruct (d_me d) as [me|] eqn:E; unfold q, lib_get_params; cbn; rewrite E; simpl; auto. destruct me; reflexivity.
  - unfold validate_parameters, rust_params in *. unfold q, lib_get_params.
    cbn [gb_params p_learning_rate p_l1 p_l2 p_gamma p_max_delta_step p_min_leaf_weight p_subsample p_top_rate p_other_rate p_colsample_bytree
      y_learning_rate y_l1 y_l2 y_gamma y_max_delta_step y_min_leaf_weight y_subsample y_top_rate y_other_rate y_colsample_bytree] in *.
    unfold rust_params. cbn [gb_params p_learning_rate p_l1 p_l2 p_gamma p_max_delta_step p_min_leaf_weight p_subsample p_top_rate p_other_rate p_colsample_bytree].
    rewrite !narrow. exact V.
Qed.

Lemma sane_hash : forall y m, sane pc y m -> hash_ok (py_booster m).
Proof.
  intros y m [_ _ _ (d & cm & ts & _ & _ & P & N1 & N2) _ N3]. constructor; auto; rewrite P; simpl; auto. intros x [= <-]. auto.
Qed.

Theorem py_load_saved : forall y m o, pycodec_ok -> codec_ok jc -> orders_ok o -> sane pc y m -> finite_model (py_booster m) ->
  py_load jc pc (py_save jc o m) = Some (inl (loaded_model o m)).
Proof.
  intros y m o PC JC O S F. pose proof (sane_hash _ _ S) as HK. destruct S as [S1 S2 S3 S4 S5 S6].
  destruct S4 as (d & cm & ts & D & V & P & N1 & N2).
  unfold py_load, py_save. rewrite load_saved by auto.
  set (b := py_booster m) in *. set (b' := reloaded o b).
  assert (MD : forall k, get_metadata b' k = get_metadata b k).
  { intros k. apply (sm_metadata _ _ (reloaded_same o b O HK)). }
  assert (Q : exists d', decodes (lib_get_params b') d' /\ validate_parameters (rust_params (lib_get_params b') d' [] []) = None).
  { destruct (get_params_decodes y d (o_constraints o cm) (o_set o ts) (gb_base_score b) D V (gb_history b) (gb_best b) (gb_pred b) (gb_trees b) (gb_metadata b)) as (d' & D' & V').
    exists d'. split; [|revert V'].
    - revert D'. unfold b', reloaded, decodes, sample_method_, lib_get_params. rewrite P. cbn [gb_params rust_params]. auto.
    - unfold b', reloaded, lib_get_params. rewrite P. cbn. auto. }
  destruct Q as (d' & D' & V').
  assert (NEW : py_new pc (lib_get_params b') = inl (new_model pc (lib_get_params b') d' None None)).
  { apply py_init_spec. eauto. }
  rewrite NEW. destruct S5 as (A & B & C). fold b in A, B, C.
  unfold load_attr at 1. cbn [with_booster py_booster]. rewrite MD, A.
  unfold loaded_model. fold b. fold b'. unfold loaded_cons.
  destruct (py_names m) as [l|]; cbn [option_map]; [rewrite PC|]; cbn [bind with_booster py_booster py_params py_names py_n_features new_model];
    [destruct (named_constraints l _) as [dd|er]|];
    cbn [bind with_params with_booster py_booster py_params py_names py_n_features new_model]; unfold load_attr at 1;
    cbn [with_params with_booster py_booster py_params py_names py_n_features new_model];
    rewrite MD, B; destruct (py_n_features m) as [n|]; cbn [option_map]; [rewrite PC| |rewrite PC| |rewrite PC|];
    cbn [bind with_params with_booster py_booster py_params py_names py_n_features new_model]; unfold load_attr;
    cbn [with_params with_booster py_booster py_params py_names py_n_features new_model]; rewrite MD, C, PC; reflexivity.
Qed.

Theorem loaded_same : forall y m o, orders_ok o -> sane pc y m -> loaded_missing (y_missing y) = y_missing y ->
  same_answers m (loaded_model o m) /\ recovered (py_params m) (py_params (loaded_model o m)).
Proof.
  intros y m o O S LM. pose proof (sane_hash _ _ S) as HK. destruct S as [S1 S2 S3 S4 S5 S6].
  destruct S4 as (d & cm & ts & D & V & P & N1 & N2).
  assert (MD : forall k, get_metadata (reloaded o (py_booster m)) k = get_metadata (py_booster m) k).
  { intros k. apply (sm_metadata _ _ (reloaded_same o _ O HK)). }
  destruct (loaded_cons_keeps (py_names m) (lib_get_params (reloaded o (py_booster m)))) as [dd L].
  split.
  - apply same_answers_of; auto; unfold loaded_model; cbv zeta; rewrite ?L;
      cbn [py_booster py_params py_names py_n_features with_importance with_cons y_missing y_parallel y_importance_method lib_get_params reloaded gb_params p_missing p_parallel p_objective];
      auto; rewrite ?P; try (rewrite S1); auto.
  - unfold loaded_model. cbv zeta. rewrite L. rewrite S1. unfold lib_get_params, reloaded. rewrite P.
    pose proof (sample_method_cases _ _ D) as SM. destruct D as (D1 & D2 & D3 & D4 & D5).
    constructor;
      cbn [py_params with_importance with_cons with_base gb_params gb_base_score p_objective p_iterations p_learning_rate p_max_depth p_max_leaves p_l1 p_l2 p_gamma
        p_max_delta_step p_min_leaf_weight p_nbins p_parallel p_allow_missing_splits p_subsample p_top_rate p_other_rate p_colsample_bytree p_seed p_missing
        p_create_missing_branch p_sample_method p_grow_policy p_evaluation_metric p_early_stopping_rounds p_initialize_base_score p_missing_node_treatment p_log_iterations
        p_force_children_to_bound_parent rust_params
        y_objective y_iterations y_learning_rate y_max_depth y_max_leaves y_l1 y_l2 y_gamma y_max_delta_step y_min_leaf_weight y_base_score y_nbins y_parallel
        y_allow_missing_splits y_subsample y_top_rate y_other_rate y_colsample_bytree y_seed y_missing y_create_missing_branch y_sample_method y_grow_policy
        y_evaluation_metric y_early_stopping_rounds y_initialize_base_score y_missing_node_treatment y_log_iterations y_importance_method
        y_force_children_to_bound_parent]; auto.
    + symmetry. now apply objective_name.
    + change (sample_method_ (with_base y (y_base_score (py_params m)))) with (sample_method_ y). rewrite SM. destruct (d_sm d); reflexivity.
    + symmetry. now apply policy_name.
    + destruct (y_evaluation_metric y) as [s|], (d_me d) as [me|]; try tauto; simpl; auto. f_equal. symmetry. now apply metric_name.
    + symmetry. now apply treatment_name.
Qed.

(** *** Two objects that also train alike *)
Definition bare (b : Booster) : Booster := with_meta (lib_set_terminate (lib_set_constraints b []) []) [].
Record twin (m m' : PyModel) : Prop := {
  tw_booster : bare (py_booster m') = bare (py_booster m);
  tw_meta : forall k, get_metadata (py_booster m') k = get_metadata (py_booster m) k;
  tw_cons : y_constraints (py_params m') = y_constraints (py_params m);
  tw_term : y_terminate (py_params m') = y_terminate (py_params m);
  tw_missing : y_missing (py_params m') = y_missing (py_params m);
  tw_parallel : y_parallel (py_params m') = y_parallel (py_params m);
  tw_importance : y_importance_method (py_params m') = y_importance_method (py_params m);
  tw_names : py_names m' = py_names m; tw_n : py_n_features m' = py_n_features m }.

Lemma twin_same : forall m m', twin m m' -> same_answers m m'.
Proof.
  intros m m' [TB TM TC TT YM YP YI TN TF].
  assert (G : forall A (f : Booster -> A), f (bare (py_booster m')) = f (bare (py_booster m))) by (intros; now rewrite TB).
  apply same_answers_of; auto.
  - exact (G _ (fun b => gb_trees b)).
  - exact (G _ (fun b => gb_base_score b)).
  - exact (G _ (fun b => gb_pred b)).
  - exact (G _ (fun b => gb_history b)).
  - exact (G _ (fun b => gb_best b)).
  - exact (G _ (fun b => p_missing (gb_params b))).
  - exact (G _ (fun b => p_objective (gb_params b))).
  - exact (G _ (fun b => p_parallel (gb_params b))).
Qed.
Lemma twin_refl : forall m, twin m m. Proof. now constructor. Qed.

Lemma fit_meta : forall E b md data t w es,
  fit E (with_meta b md) data t w es = option_map (fun '(b', e) => (with_meta b' md, e)) (fit E b data t w es).
Proof.
  intros. unfold fit. destruct (validate_inputs t w es); auto. rewrite fit_trees_meta. destruct (fit_trees E b data t w es); reflexivity.
Qed.
Lemma bare_set : forall b b' cm ts, bare b' = bare b ->
  lib_set_terminate (lib_set_constraints b' cm) ts = with_meta (lib_set_terminate (lib_set_constraints b cm) ts) (gb_metadata b').
Proof.
  intros [p x h i n t md] [p' x' h' i' n' t' md'] cm ts H.
  pose proof (f_equal (fun b => gb_params b) H) as H1. pose proof (f_equal (fun b => gb_base_score b) H) as H2. pose proof (f_equal (fun b => gb_history b) H) as H3.
  pose proof (f_equal (fun b => gb_best b) H) as H4. pose proof (f_equal (fun b => gb_pred b) H) as H5. pose proof (f_equal (fun b => gb_trees b) H) as H6.
  clear H. cbn in H2, H3, H4, H5, H6. subst. unfold with_meta, lib_set_terminate, lib_set_constraints, set_params.
  cbn [gb_params gb_base_score gb_history gb_best gb_pred gb_trees gb_metadata]. f_equal.
  destruct p, p'. cbn in H1. unfold with_terminate, with_constraints in *. cbn in *. injection H1; intros; subst; reflexivity.
Qed.

Lemma twin_features : forall m m' X, twin m m' -> twin (fit_features pc m X) (fit_features pc m' X).
Proof.
  intros m m' X [TB TM TC TT YM YP YI TN TF]. unfold fit_features. destruct (columns X) as [|k l]; constructor; simpl; auto;
    intros q; unfold get_metadata in *; simpl; rewrite !map_get_insert; simpl; rewrite TM; auto.
Qed.

Theorem twin_fit : forall E m m' X t w ev, twin m m' ->
  match py_fit pc E m X t w ev, py_fit pc E m' X t w ev with
  | Some (r, e), Some (r', e') => e' = e /\ twin r r'
  | None, None => True
  | _, _ => False
  end.
Proof.
  intros E m m' X t w ev T. apply (twin_features _ _ X) in T. unfold py_fit. cbv zeta.
  set (m1 := fit_features pc m X) in *. set (m1' := fit_features pc m' X) in *.
  destruct T as [TB TM TC TT YM YP YI TN TF].
  assert (T : twin m1 m1') by (constructor; auto).
  assert (EM : standardize_monotonicity_map m1' X = standardize_monotonicity_map m1 X) by (unfold standardize_monotonicity_map; now rewrite TC).
  rewrite EM. destruct (ebind (standardize_monotonicity_map m1 X) _) as [cm|e]; [|auto].
  match goal with |- match (match ?x with _ => _ end) with _ => _ end =>
    assert (ET : (let? s := standardize_terminate (with_booster m1' (lib_set_constraints (py_booster m1') cm)) X in emapM to_usize s) = x)
      by (unfold standardize_terminate; cbn [with_booster py_params]; now rewrite TT) end.
  rewrite ET. clear ET. destruct (ebind (standardize_terminate _ X) _) as [ts|e]; [|split; auto; constructor; auto].
  set (m3 := with_booster (with_booster m1 (lib_set_constraints (py_booster m1) cm)) _).
  set (m3' := with_booster (with_booster m1' (lib_set_constraints (py_booster m1') cm)) _).
  assert (EE : py_evals m3' ev = py_evals m3 ev).
  { unfold py_evals. destruct ev as [l|]; auto. f_equal. induction l as [|[[a b] c] l IH]; simpl; auto. rewrite IH.
    unfold py_eval, validate_features. cbn [m3 m3' with_booster py_names]. now rewrite TN. }
  rewrite EE. destruct (py_evals m3 ev) as [evs|e]; [|split; auto; constructor; auto].
  assert (EB : py_booster m3' = with_meta (py_booster m3) (gb_metadata (py_booster m1'))).
  { unfold m3, m3'. cbn [with_booster py_booster]. now apply bare_set. }
  rewrite EB, fit_meta. match goal with |- context [fit E ?b1 ?d1 t ?w1 ?es1] => destruct (fit E b1 d1 t w1 es1) as [[b fe]|] eqn:HF end; cbn [option_map bind]; auto.
  assert (MB : gb_metadata b = gb_metadata (py_booster m1)).
  { apply fit_metadata in HF. rewrite HF. reflexivity. }
  assert (TT3 : forall x, bare (with_meta b x) = bare b) by reflexivity.
  destruct fe as [fe|]; (split; [reflexivity|]); constructor; cbn [with_booster with_params py_booster py_params py_names py_n_features with_base
    y_constraints y_terminate y_missing y_parallel y_importance_method m3 m3']; auto;
    intros k; specialize (TM k); unfold get_metadata in *; cbn [with_meta gb_metadata]; rewrite MB; exact TM.
Qed.

Lemma bare_reloaded : forall o b, loaded_missing (p_missing (gb_params b)) = p_missing (gb_params b) ->
  (exists cm, p_monotone_constraints (gb_params b) = Some cm) -> bare (reloaded o b) = bare b.
Proof.
  intros o b LM [cm HC]. unfold bare, with_meta, lib_set_terminate, lib_set_constraints, set_params, reloaded, with_terminate, with_constraints.
  cbn [gb_params gb_base_score gb_history gb_best gb_pred gb_trees gb_metadata p_objective p_iterations p_learning_rate p_max_depth p_max_leaves p_l1 p_l2 p_gamma
        p_max_delta_step p_min_leaf_weight p_nbins p_parallel p_allow_missing_splits p_monotone_constraints p_subsample p_top_rate p_other_rate p_colsample_bytree p_seed p_missing
        p_create_missing_branch p_sample_method p_grow_policy p_evaluation_metric p_early_stopping_rounds p_initialize_base_score p_terminate_missing_features
        p_missing_node_treatment p_log_iterations p_force_children_to_bound_parent].
  rewrite LM. reflexivity.
Qed.

(** *** Pickling *)
Theorem pickle_twin : forall y m o, codec_ok jc -> orders_ok o -> sane pc y m -> finite_model (py_booster m) ->
  loaded_missing (y_missing y) = y_missing y ->
  exists m', py_setstate jc (py_getstate jc o m) = inl m' /\ py_params m' = py_params m /\ twin m m'.
Proof.
  intros y m o JC O S F LM. pose proof (sane_hash _ _ S) as HK. destruct S as [S1 S2 S3 S4 S5 S6].
  destruct S4 as (d & cm & ts & D & V & P & N1 & N2).
  unfold py_setstate, py_getstate. rewrite load_saved by auto. cbn [or_raise ebind]. eexists. split; [reflexivity|]. split; [reflexivity|].
  constructor; auto.
  - cbn [py_booster]. apply bare_reloaded; rewrite P; [exact LM|eexists; reflexivity].
  - intros k. cbn [py_booster]. apply (sm_metadata _ _ (reloaded_same o _ O HK)).
Qed.

(** *** Loading a model trained without constraints and terminating features *)
Lemma named_none : forall l, l <> [] -> named_constraints l [] = inr KeyError.
Proof. intros [|k l] H; [tauto|reflexivity]. Qed.
Theorem loaded_twin : forall y m o, orders_ok o -> life pc y m -> loaded_missing (y_missing y) = y_missing y ->
  y_constraints y = [] -> y_terminate y = [] -> twin m (loaded_model o m).
Proof.
  intros y m o O L LM HC HT.
  assert (S : sane pc y m) by (apply life_sane; auto; rewrite HC; constructor).
  assert (CT : p_monotone_constraints (gb_params (py_booster m)) = Some [] /\ p_terminate_missing_features (gb_params (py_booster m)) = []).
  { clear S. induction L as [m H|m E X t w ev m' e L IH H|m i L IH|m k v L IH R]; auto.
    - apply py_init_spec in H. destruct H as (d & _ & _ & ->). auto.
    - assert (SM : sane pc y m) by (apply life_sane; auto; rewrite HC; constructor). destruct SM as [S1 _ _ _ S5 _].
      destruct (shown_features pc m X S5) as (_ & F2 & F3 & _).
      assert (C1 : standardize_monotonicity_map (fit_features pc m X) X = inl []).
      { unfold standardize_monotonicity_map. rewrite F2, S1. cbn [with_base y_constraints]. rewrite HC. destruct (x_names X); reflexivity. }
      assert (T1 : standardize_terminate (fit_features pc m X) X = inl []).
      { unfold standardize_terminate. rewrite F2, S1. cbn [with_base y_terminate]. rewrite HT. destruct (x_names X); reflexivity. }
      apply py_fit_cases in H. cbv zeta in H. set (m1 := fit_features pc m X) in *. destruct H as [-> | (dd & cm & H1 & H2 & H)]; [now rewrite F3|].
      rewrite C1 in H1. injection H1 as <-. injection H2 as <-.
      destruct H as [-> | (s & ts & H3 & H4 & H)].
      + cbn [with_booster py_booster lib_set_constraints set_params gb_params with_constraints p_monotone_constraints p_terminate_missing_features]. rewrite F3. tauto.
      + rewrite T1 in H3. injection H3 as <-. injection H4 as <-. cbv zeta in H. destruct H as [-> | (evs & b & fe & H5 & H6 & H)]; [auto|].
        apply fit_params_any in H6. destruct fe; destruct H as [-> _]; cbn [with_params with_booster py_booster] in *; rewrite H6; auto. }
  destruct CT as [C0 T0].
  pose proof (sane_hash _ _ S) as HK. destruct S as [S1 S2 S3 S4 S5 S6]. destruct S4 as (d & cm & ts & D & V & P & N1 & N2).
  assert (EC : forall q, y_constraints q = [] -> loaded_cons (py_names m) q = q).
  { intros q Hq. unfold loaded_cons. destruct (py_names m) as [[|k l]|]; auto.
    - rewrite Hq. cbn. destruct q; cbn in *. now subst.
    - rewrite Hq, named_none by discriminate. reflexivity. }
  assert (CQ : y_constraints (lib_get_params (reloaded o (py_booster m))) = []).
  { unfold lib_get_params, reloaded. cbn [y_constraints gb_params p_monotone_constraints]. rewrite C0. cbn [option_map].
    rewrite (Permutation_nil (Permutation_sym (oo_constraints o O []))). reflexivity. }
  assert (TQ : y_terminate (lib_get_params (reloaded o (py_booster m))) = []).
  { unfold lib_get_params, reloaded. cbn [y_terminate gb_params p_terminate_missing_features]. rewrite T0.
    rewrite (Permutation_nil (Permutation_sym (oo_set o O []))). reflexivity. }
  unfold loaded_model. cbv zeta. rewrite (EC _ CQ).
  constructor; cbn [py_booster py_params py_names py_n_features with_importance y_constraints y_terminate y_missing y_parallel y_importance_method]; auto.
  - apply bare_reloaded; rewrite P; [exact LM|eexists; reflexivity].
  - intros k. apply (sm_metadata _ _ (reloaded_same o _ O HK)).
  - rewrite CQ, S1. simpl. auto.
  - rewrite TQ, S1. simpl. auto.
  - unfold lib_get_params, reloaded. cbn. rewrite P, S1. exact LM.
  - unfold lib_get_params, reloaded. cbn. rewrite P, S1. reflexivity.
Qed.
End Load.
