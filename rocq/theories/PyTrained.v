(** What holds of a Python object after a successful fit. *)
From Coq Require Import List Arith NArith ZArith Bool String Lia Permutation.
From Verif Require Import Prelude Float Data DataProofs Utils Binning Histogram Node Splitter Tree TreeWf Objective Metric Sampler SamplerProofs Contrib Booster
  PredictProofs BoostProofs FitModel ImportProofs Serde PyWrap PyProofs PyState PyFit PyMore PyTable.
Import ListNotations.

Section Trained.
Context {FS : Floats}.
Variable pc : PyCodec.

Lemma py_fit_ok : forall E m X t w ev m', py_fit pc E m X t w ev = Some (m', None) ->
  let m1 := fit_features pc m X in
  exists cm ts evs b, let b0 := lib_set_terminate (lib_set_constraints (py_booster m1) cm) ts in
    fit E b0 (frame_matrix X) t (match w with Some w => w | None => repeat (fone f64) (List.length t) end) evs = Some (b, None) /\
    m' = mkPyModel b (with_base (py_params m1) (gb_base_score b)) (py_names m1) (py_n_features m1).
Proof.
  intros E m X t w ev m' H m1. unfold py_fit in H. cbv zeta in H. fold m1 in H.
  destruct (standardize_monotonicity_map m1 X) as [d|er]; cbn [ebind] in H; [|discriminate].
  destruct (int_map_to_constraint_map d) as [cm|er]; [|discriminate].
  destruct (standardize_terminate _ X) as [s|er]; cbn [ebind] in H; [|discriminate].
  destruct (emapM to_usize s) as [ts|er]; [|discriminate]. cbn [py_booster with_booster] in H.
  destruct (py_evals _ ev) as [evs|er]; [|discriminate]. inv_bind H. destruct v as [b [fe|]]; [discriminate|]. injection H as <-.
  exists cm, ts, evs, b. split; [exact E0|reflexivity].
Qed.
Lemma features_booster : forall m X, let m1 := fit_features pc m X in
  gb_params (py_booster m1) = gb_params (py_booster m) /\ gb_trees (py_booster m1) = gb_trees (py_booster m) /\
  gb_history (py_booster m1) = gb_history (py_booster m) /\ gb_best (py_booster m1) = gb_best (py_booster m) /\
  gb_pred (py_booster m1) = gb_pred (py_booster m) /\ py_n_features m1 = Some (x_cols X) /\
  py_names m1 = match columns X with [] => py_names m | l => Some l end.
Proof. intros m X. unfold fit_features. destruct (columns X); repeat split. Qed.

(** every object that was made by the class and used through it *)
Lemma life_clean : forall y m, life pc y m -> clean (py_booster m).
Proof.
  intros y m L. induction L as [m H|m E X t w ev m' e L IH H|m i L IH|m k v L IH NR].
  - apply py_init_spec in H. destruct H as (d & _ & _ & ->). intros _. auto.
  - apply py_fit_cases in H. cbv zeta in H. destruct (features_booster m X) as (F1 & F2 & F3 & F4 & F5 & _).
    assert (C1 : clean (py_booster (fit_features pc m X))) by (unfold clean; rewrite F2, F3, F4; exact IH).
    destruct H as [->|(d & cm & _ & _ & [->|(s & ts & _ & _ & [->|(evs & b & fe & _ & HF & H)])])]; auto.
    apply fit_clean in HF; [|exact C1]. destruct fe; destruct H as [-> _]; exact HF.
  - exact IH.
  - exact IH.
Qed.

Theorem trained_trees : forall y m E X t w ev m', life pc y m -> rng_ok E (gb_params (py_booster m)) -> py_fit pc E m X t w ev = Some (m', None) ->
  forall nodes, In nodes (gb_trees (py_booster m')) -> well_formed nodes /\
    forall nd, In nd nodes -> n_is_leaf nd = false -> n_split_feature nd < x_cols X.
Proof.
  intros y m E X t w ev m' L R H nodes HN. destruct (py_fit_ok _ _ _ _ _ _ _ H) as (cm & ts & evs & b & HF & ->). cbn [py_booster] in HN.
  destruct (features_booster m X) as (F1 & F2 & F3 & F4 & F5 & _).
  set (b0 := lib_set_terminate _ ts) in *. assert (C : clean b0) by (pose proof (life_clean y m L) as C; unfold clean, b0; simpl; rewrite F2, F3, F4; exact C).
  pose proof HF as H'. apply fit_ok in H'. destruct H' as [_ H'].
  destruct (fit_trees_BI _ _ _ _ _ _ _ C H') as (bd & base & l & HB & HBS & EB & B & LL & ST).
  apply In_nth_error in HN. destruct HN as [k Hk]. rewrite EB in Hk. pose proof (bi_trees _ _ _ _ _ _ _ _ _ _ _ _ _ B _ _ Hk) as TS.
  split; [eapply tree_step_wf; eauto|]. intros nd Hn HL.
  assert (RO : rng_ok E (gb_params b0)) by (unfold rng_ok, b0 in *; simpl; rewrite F1; exact R).
  eapply Nat.lt_le_trans; [eapply tree_step_features; [exact RO|exact TS|exists nd; auto]|simpl; lia].
Qed.
Lemma trained_columns : forall m E X t w ev m', frame_ok X -> py_fit pc E m X t w ev = Some (m', None) -> columns X <> [] \/ py_names m = None ->
  expected_columns m' = Some (x_cols X) /\ py_names m' = match columns X with [] => None | l => Some l end.
Proof.
  intros m E X t w ev m' HX H HC. destruct (py_fit_ok _ _ _ _ _ _ _ H) as (cm & ts & evs & b & HF & ->).
  destruct (features_booster m X) as (F1 & F2 & F3 & F4 & F5 & F6 & F7). unfold expected_columns. cbn [py_names py_n_features]. rewrite F6, F7.
  destruct (columns X) as [|k l] eqn:EC; [destruct HC as [|HC]; [tauto|rewrite HC; auto]|]. split; auto. f_equal.
  unfold columns in EC. destruct (x_names X) as [l'|] eqn:EN; [|discriminate]. subst l'. exact (proj2 HX _ EN).
Qed.

(** The table of a trained object exists, has one row per node, and reading it gives the reported leaves. *)
Theorem trained_table : forall y m E X t w ev m', life pc y m -> rng_ok E (gb_params (py_booster m)) -> frame_ok X -> NoDup (columns X) ->
  columns X <> [] \/ py_names m = None -> py_fit pc E m X t w ev = Some (m', None) ->
  exists T, py_trees_to_dataframe m' = inl T /\
    List.length T = fold_right (fun t k => List.length t + k) 0 (gb_trees (py_booster m')) /\
    (forall r, In r T -> w_id r = (w_tree r, w_node r)) /\
    (forall r r', In r T -> In r' T -> w_id r = w_id r' -> r = r') /\
    forall shs X' L, frame_ok X' -> py_predict_leaf_indices shs m' X' = Some (inl L) ->
    forall i row lrow k n, nth_error (x_rows X') i = Some row -> nth_error L i = Some lrow -> nth_error lrow k = Some n ->
    exists r, follow T (cell_of m' row) (p_missing (gb_params (py_booster m'))) (k, 0) r /\ w_id r = (k, n) /\
      forall r', follow T (cell_of m' row) (p_missing (gb_params (py_booster m'))) (k, 0) r' -> r' = r.
Proof.
  intros y m E X t w ev m' L R HX ND HC H. pose proof (trained_trees _ _ _ _ _ _ _ _ L R H) as TT.
  destruct (trained_columns _ _ _ _ _ _ _ HX H HC) as [EC EN].
  destruct (table_exists m' _ EC) as [T HT]; [intros t0 nd H1 H2 H3; apply (proj2 (TT _ H1)); auto|]. exists T. split; [exact HT|].
  assert (W : forall t, In t (gb_trees (py_booster m')) -> well_formed t) by (intros; apply TT; auto).
  destruct (table_ids _ _ HT W) as (T1 & T2 & T3). split; [exact T1|]. split; [exact T2|]. split; [exact T3|].
  assert (N : forall l, py_names m' = Some l -> NoDup l) by (intros l; rewrite EN; destruct (columns X); [discriminate|intros [= <-]; auto]).
  intros shs X' LL HX' HL. exact (table_leaves shs m' X' T LL HX' W N HT HL).
Qed.

(** A trained object answers: on a frame with the columns of the fit (or an array), no exception and no panic. *)
Theorem trained_answers : forall y m E X t w ev m', life pc y m -> gb_trees (py_booster m) <> [] \/ gb_pred (py_booster m) = None ->
  rng_ok E (gb_params (py_booster m)) -> frame_ok X -> py_fit pc E m X t w ev = Some (m', None) ->
  forall X', frame_ok X' -> x_cols X' = x_cols X -> columns X' = [] \/ py_names m' = Some (columns X') \/ py_names m' = None ->
  (forall r v, In r (x_rows X') -> In v r -> fisnan f64 (y_missing y) = true \/ fisnan f64 v = false) ->
  forall shs par, exists p L, py_predict shs m' X' par = Some (inl p) /\ List.length p = List.length (x_rows X') /\
    py_predict_leaf_indices shs m' X' = Some (inl L) /\ List.length L = List.length (x_rows X').
Proof.
  intros y m E X t w ev m' L HP R HX H X' HX' HC HN HV shs par.
  destruct (py_fit_ok _ _ _ _ _ _ _ H) as (cm & ts & evs & b & HF & EM).
  assert (L' : life pc y m') by (eapply life_fit; eauto).
  destruct (features_booster m X) as (F1 & F2 & F3 & F4 & F5 & F6 & F7).
  set (b0 := lib_set_terminate _ ts) in *. assert (C : clean b0) by (pose proof (life_clean y m L) as C; unfold clean, b0; simpl; rewrite F2, F3, F4; exact C).
  assert (RO : rng_ok E (gb_params b0)) by (unfold rng_ok, b0 in *; simpl; rewrite F1; exact R).
  assert (HP0 : gb_trees b0 <> [] \/ gb_pred b0 = None) by (unfold b0; simpl; rewrite F2, F5; exact HP).
  assert (PM : p_missing (gb_params b0) = y_missing y).
  { unfold b0. simpl. rewrite F1. clear - L. induction L as [m H|m E X t w ev m' e L IH H|m i L IH|m k v L IH NR]; auto.
    - apply py_init_spec in H. destruct H as (d & _ & _ & ->). reflexivity.
    - apply py_fit_cases in H. cbv zeta in H. destruct (features_booster m X) as (F1 & _). rewrite <- F1 in IH.
      destruct H as [->|(d & cm & _ & _ & [->|(s & ts & _ & _ & [->|(evs & b & fe & _ & HF & H)])])]; auto.
      apply fit_params_any in HF. destruct fe; destruct H as [-> _]; simpl; rewrite HF; exact IH. }
  assert (V : forall A (r : res A), if_valid m' X' r = r).
  { intros A r. unfold if_valid, validate_features. destruct (columns X') as [|k cs] eqn:EC; auto. destruct HN as [HN|[HN|HN]]; [discriminate| |]; rewrite HN; auto.
    now rewrite (proj2 (keys_eqb_eq _ _) eq_refl). }
  assert (DM : List.length (m_data (frame_matrix X')) = m_rows (frame_matrix X') * m_cols (frame_matrix X')).
  { unfold frame_matrix, matrix_new. simpl. unfold ravel. clear. generalize 0 as j. induction (x_cols X') as [|c IH]; intros j; simpl; [lia|].
    rewrite app_length, map_length, IH. lia. }
  assert (DV : forall v, In v (m_data (frame_matrix X')) -> fisnan f64 (p_missing (gb_params b0)) = true \/ fisnan f64 v = false).
  { intros v Hv. rewrite PM. unfold frame_matrix, matrix_new in Hv. simpl in Hv. unfold ravel in Hv. apply in_flat_map in Hv. destruct Hv as (j & Hj & Hv).
    apply in_map_iff in Hv. destruct Hv as (r & <- & Hr). apply (HV r); auto. apply nth_In. rewrite (proj1 HX' r Hr). apply in_seq in Hj. lia. }
  destruct (fitted_predicts E b0 (frame_matrix X) t _ evs b shs (frame_matrix X') (parallel_ m' par) C HP0 RO HF eq_refl) as (p & E1 & E2 & ls & E3); auto.
  { simpl. rewrite HC. auto. }
  assert (EP : py_predict shs m' X' par = Some (inl p)).
  { unfold py_predict. rewrite V. rewrite EM at 1. cbn [py_booster]. rewrite E1. reflexivity. }
  destruct (leaves_explain shs shs m' X' par p HX' (fun t0 H0 => proj1 (trained_trees _ _ _ _ _ _ _ _ L R H t0 H0)) EP) as (LL & L1 & L2 & L3 & _).
  exists p, LL. auto.
Qed.
End Trained.
