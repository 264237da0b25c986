(** Training through the Python object: clones, column names, what validation refuses. *)
From Coq Require Import List Arith NArith ZArith Bool String Lia Permutation.
From Verif Require Import Prelude Float Data DataProofs Utils Binning Histogram Node Splitter Tree Objective Metric Sampler Contrib Booster
  PredictProofs BoostProofs FitModel TrainMore Serde SerdeProofs SerdePredict PyWrap PyNames PyProofs PyState PyLoad.
Import ListNotations.

Section PyFit.
Context {FS : Floats}.
Variable pc : PyCodec.

(** *** Clones: a new object made from the parameters of an old one *)
Lemma fit_base_any : forall (E : Env) p x x' h i n ts md data y w es m, p_initialize_base_score p = true ->
  fit E (mkBooster p x h i n ts md) data y w es = Some (m, None) -> fit E (mkBooster p x' h i n ts md) data y w es = Some (m, None).
Proof.
  intros E p x x' h i n ts md data y w es m IN. unfold fit. destruct (validate_inputs y w es); [discriminate|].
  unfold fit_trees, fit_start. destruct ts; cbn [reset gb_params gb_base_score gb_history gb_best gb_pred gb_trees gb_metadata]; rewrite IN; auto.
Qed.
Lemma new_base_any : forall y d v v' E X t w ev r, y_initialize_base_score y = true ->
  py_fit pc E (new_model pc (with_base y v) d None None) X t w ev = Some (r, None) ->
  py_fit pc E (new_model pc (with_base y v') d None None) X t w ev = Some (r, None).
Proof.
  intros y d v v' E X t w ev r IN. unfold py_fit. cbv zeta.
  set (m1 := fit_features pc (new_model pc (with_base y v) d None None) X).
  set (m1' := fit_features pc (new_model pc (with_base y v') d None None) X).
  assert (P1 : py_params m1 = with_base y v) by (unfold m1, fit_features; destruct (columns X); reflexivity).
  assert (P1' : py_params m1' = with_base y v') by (unfold m1', fit_features; destruct (columns X); reflexivity).
  assert (N1 : py_names m1' = py_names m1) by (unfold m1, m1', fit_features; destruct (columns X); reflexivity).
  assert (F1 : py_n_features m1' = py_n_features m1) by (unfold m1, m1', fit_features; destruct (columns X); reflexivity).
  assert (B1 : exists md, py_booster m1 = mkBooster (rust_params y d [] []) v None None None [] md /\
                          py_booster m1' = mkBooster (rust_params y d [] []) v' None None None [] md).
  { unfold m1, m1', fit_features; destruct (columns X); eexists; split; reflexivity. }
  destruct B1 as (md & B1 & B1').
  assert (EM : standardize_monotonicity_map m1' X = standardize_monotonicity_map m1 X) by (unfold standardize_monotonicity_map; now rewrite P1, P1').
  rewrite EM. destruct (ebind (standardize_monotonicity_map m1 X) _) as [cm|e]; [|discriminate].
  assert (ET : standardize_terminate (with_booster m1' (lib_set_constraints (py_booster m1') cm)) X
             = standardize_terminate (with_booster m1 (lib_set_constraints (py_booster m1) cm)) X)
    by (unfold standardize_terminate; cbn [with_booster py_params]; now rewrite P1, P1').
  rewrite ET. destruct (ebind (standardize_terminate _ X) _) as [ts|e]; [|discriminate].
  set (m3 := with_booster (with_booster m1 (lib_set_constraints (py_booster m1) cm)) _).
  set (m3' := with_booster (with_booster m1' (lib_set_constraints (py_booster m1') cm)) _).
  assert (EE : py_evals m3' ev = py_evals m3 ev).
  { unfold py_evals. destruct ev as [l|]; auto. f_equal. induction l as [|[[a b] c] l IH]; simpl; auto. rewrite IH.
    unfold py_eval, validate_features. cbn [m3 m3' with_booster py_names]. now rewrite N1. }
  rewrite EE. destruct (py_evals m3 ev) as [evs|e]; [|discriminate].
  assert (B3 : py_booster m3 = mkBooster (rust_params y d cm ts) v None None None [] md).
  { unfold m3. cbn [with_booster py_booster]. rewrite B1. reflexivity. }
  assert (B3' : py_booster m3' = mkBooster (rust_params y d cm ts) v' None None None [] md).
  { unfold m3'. cbn [with_booster py_booster]. rewrite B1'. reflexivity. }
  rewrite B3, B3'. intros H. inv_bind H. destruct v0 as [b fe]. destruct fe; [discriminate|]. injection H as <-.
  erewrite fit_base_any; [|exact IN|exact E0]. cbn [bind].
  unfold with_params, with_booster, m3, m3'. cbn [with_booster py_params py_names py_n_features py_booster]. rewrite P1, P1', N1, F1. reflexivity.
Qed.

Lemma decodes_base : forall y v d, decodes (with_base y v) d <-> decodes y d.
Proof. intros. unfold decodes. reflexivity. Qed.

Theorem clone_new : forall y m, sane pc y m -> exists d, decodes y d /\
  py_new pc (py_get_params m) = inl (new_model pc (with_base y (y_base_score (py_params m))) d None None) /\
  py_new pc y = inl (new_model pc y d None None).
Proof.
  intros y m S. destruct S as [S1 S2 S3 (d & cm & ts & D & V & _) _ _]. exists d. split; auto. unfold py_get_params, py_new. split.
  - apply py_init_spec. exists d. rewrite S1. cbn [with_base y_base_score]. split; [exact D|]. split; [exact V|]. rewrite <- S1. reflexivity.
  - apply py_init_spec. eauto.
Qed.

Theorem clone_fit : forall y m c m0, sane pc y m -> py_new pc (py_get_params m) = inl c -> py_new pc y = inl m0 ->
  forall E X t w ev r, py_fit pc E c X t w ev = Some (r, None) <-> py_fit pc E m0 X t w ev = Some (r, None).
Proof.
  intros y m c m0 S HC H0 E X t w ev r. destruct (clone_new y m S) as (d & D & C' & N'). rewrite C' in HC. injection HC as <-. rewrite N' in H0. injection H0 as <-.
  destruct (y_initialize_base_score y) eqn:IN.
  - replace (new_model pc y d None None) with (new_model pc (with_base y (y_base_score y)) d None None) by now rewrite with_base_self.
    split; apply new_base_any; exact IN.
  - rewrite (sn_fixed _ _ _ S IN), with_base_self. tauto.
Qed.

(** *** Columns by name and columns by number *)
Definition unnamed (X : Frame) : Frame := mkFrame None (x_rows X) (x_cols X).
Definition unnamed_eval (e : PyEval) : PyEval := let '(X, y, w) := e in (unnamed X, y, w).
Definition with_dicts (y : PyParams) (d : list (pykey * Z)) (s : list pykey) : PyParams :=
  mkPy (y_objective y) (y_iterations y) (y_learning_rate y) (y_max_depth y) (y_max_leaves y) (y_l1 y) (y_l2 y) (y_gamma y)
    (y_max_delta_step y) (y_min_leaf_weight y) (y_base_score y) (y_nbins y) (y_parallel y) (y_allow_missing_splits y) d
    (y_subsample y) (y_top_rate y) (y_other_rate y) (y_colsample_bytree y) (y_seed y) (y_missing y) (y_create_missing_branch y)
    (y_sample_method y) (y_grow_policy y) (y_evaluation_metric y) (y_early_stopping_rounds y) (y_initialize_base_score y)
    s (y_missing_node_treatment y) (y_log_iterations y) (y_importance_method y) (y_force_children_to_bound_parent y).
Definition numbered (cols : list pykey) (k k' : pykey) : Prop := exists i, nth_error cols i = Some k /\ k' = KNat i.

Lemma dget_combine : forall cols k i n, NoDup cols -> nth_error cols i = Some k ->
  dget k (combine cols (seq n (List.length cols))) = Some (n + i).
Proof.
  induction cols as [|c cols IH]; intros k i n N H; [destruct i; discriminate|]. simpl. destruct i as [|i]; simpl in H.
  - injection H as ->. rewrite key_eqb_refl. f_equal. lia.
  - inversion N; subst. rewrite key_eqb_neq.
    + rewrite (IH k i (S n)) by auto. f_equal. lia.
    + intros ->. apply H2. eapply nth_error_In; eauto.
Qed.
Lemma combine_fst : forall A B (l : list A) (r : list B), List.length l = List.length r -> map fst (combine l r) = l.
Proof. induction l as [|a l IH]; intros [|b r] H; simpl in *; try discriminate; auto. f_equal. auto. Qed.
Lemma feature_map_get : forall cols k i, NoDup cols -> nth_error cols i = Some k -> dget k (feature_map cols) = Some i.
Proof.
  intros cols k i N H. unfold feature_map. rewrite dict_of_id by (rewrite combine_fst; [exact N|now rewrite seq_length]).
  rewrite (dget_combine cols k i 0) by auto. reflexivity.
Qed.
Lemma numbered_fun : forall cols k a b, NoDup cols -> numbered cols k a -> numbered cols k b -> a = b.
Proof.
  intros cols k a b N (i & Hi & ->) (j & Hj & ->). f_equal. eapply NoDup_nth_error; eauto; [eapply nth_error_Some_lt; eauto|congruence].
Qed.
Lemma numbered_inj : forall cols a b c, numbered cols a c -> numbered cols b c -> a = b.
Proof. intros cols a b c (i & Hi & ->) (j & Hj & E). apply KNat_inj in E. congruence. Qed.

Lemma names_as_numbers : forall cols d d', NoDup cols -> NoDup (map fst d) ->
  Forall2 (fun kv kv' : pykey * Z => numbered cols (fst kv) (fst kv') /\ snd kv' = snd kv) d d' ->
  (let? l := emapM (fun '(f, v) => let? i := or_raise KeyError (dget f (feature_map cols)) in inl (KNat i, v)) d in inl (dict_of l)) = inl d'.
Proof.
  intros cols d d' N ND F.
  assert (E : emapM (fun '(f, v) => let? i := or_raise KeyError (dget f (feature_map cols)) in inl (KNat i, v)) d = inl d').
  { apply F2_emapM. eapply F2_impl; [|exact F]. intros [k v] [k' v'] [(i & Hi & E) EV]. simpl in *. subst.
    rewrite (feature_map_get cols k i) by auto. reflexivity. }
  rewrite E. cbn [ebind]. f_equal. apply dict_of_id.
  apply (F2_nodup _ _ (numbered cols) (map fst d)); auto; [intros; eapply numbered_inj; eauto|].
  apply F2_map. eapply F2_impl; [|exact F]. intros a b [H _]. exact H.
Qed.
Lemma terminate_as_numbers : forall cols s s', NoDup cols -> Forall2 (numbered cols) s s' ->
  (let? l := emapM (fun f => let? i := or_raise KeyError (dget f (feature_map cols)) in inl (KNat i)) s in inl (set_of l)) = inl (set_of s').
Proof.
  intros cols s s' N F.
  rewrite (F2_emapM _ _ _ s s'); [reflexivity|]. eapply F2_impl; [|exact F]. intros k k' (i & Hi & ->).
  rewrite (feature_map_get cols k i) by auto. reflexivity.
Qed.

(** Two models with the same booster but for the metadata *)
Definition same_booster (m m' : PyModel) : Prop :=
  py_booster m' = with_meta (py_booster m) (gb_metadata (py_booster m')) /\ y_base_score (py_params m') = y_base_score (py_params m).

Theorem named_fit : forall y d' s' m m' E X t w ev cols, x_names X = Some cols -> NoDup cols ->
  NoDup (map fst (y_constraints y)) ->
  Forall2 (fun kv kv' : pykey * Z => numbered cols (fst kv) (fst kv') /\ snd kv' = snd kv) (y_constraints y) d' ->
  Forall2 (numbered cols) (y_terminate y) s' ->
  (forall Xe ye we l, ev = Some l -> In (Xe, ye, we) l -> columns Xe = [] \/ columns Xe = cols) ->
  py_new pc y = inl m -> py_new pc (with_dicts y d' s') = inl m' ->
  match py_fit pc E m X t w ev, py_fit pc E m' (unnamed X) t w (option_map (map unnamed_eval) ev) with
  | Some (r, e), Some (r', e') => e' = e /\ same_booster r r'
  | None, None => True
  | _, _ => False
  end.
Proof.
  intros y d' s' m m' E X t w ev cols HX N ND FC FT HE H H'.
  apply py_init_spec in H. destruct H as (d & D & V & ->). apply py_init_spec in H'. destruct H' as (dd & D' & V' & ->).
  assert (dd = d) by (eapply decodes_fun; [exact D'|exact D]). subst dd. clear D' V'.
  unfold py_fit. cbv zeta.
  set (m1 := fit_features pc (new_model pc y d None None) X).
  set (m1' := fit_features pc (new_model pc (with_dicts y d' s') d None None) (unnamed X)).
  assert (P1 : py_params m1 = y) by (unfold m1, fit_features; destruct (columns X); reflexivity).
  assert (P1' : py_params m1' = with_dicts y d' s') by reflexivity.
  assert (B1 : exists md, py_booster m1 = mkBooster (rust_params y d [] []) (y_base_score y) None None None [] md).
  { unfold m1, fit_features; destruct (columns X); eexists; reflexivity. }
  assert (B1' : exists md, py_booster m1' = mkBooster (rust_params y d [] []) (y_base_score y) None None None [] md) by (eexists; reflexivity).
  destruct B1 as (md & B1). destruct B1' as (md' & B1').
  assert (EM : standardize_monotonicity_map m1 X = inl d').
  { unfold standardize_monotonicity_map. rewrite HX, P1. now apply names_as_numbers. }
  assert (EM' : standardize_monotonicity_map m1' (unnamed X) = inl d') by reflexivity.
  rewrite EM, EM'. cbn [ebind]. destruct (int_map_to_constraint_map d') as [cm|e].
  2:{ split; [reflexivity|]. split; [rewrite B1, B1'; reflexivity|rewrite P1, P1'; reflexivity]. }
  assert (ET : standardize_terminate (with_booster m1 (lib_set_constraints (py_booster m1) cm)) X = inl (set_of s')).
  { unfold standardize_terminate. rewrite HX. cbn [with_booster py_params]. rewrite P1. now apply terminate_as_numbers. }
  assert (ET' : standardize_terminate (with_booster m1' (lib_set_constraints (py_booster m1') cm)) (unnamed X) = inl (set_of s')) by reflexivity.
  rewrite ET, ET'. cbn [ebind]. destruct (emapM to_usize (set_of s')) as [ts|e].
  2:{ split; [reflexivity|]. split; [cbn [with_booster py_booster]; rewrite B1, B1'; reflexivity|cbn [with_booster py_params]; rewrite P1, P1'; reflexivity]. }
  set (m3 := with_booster (with_booster m1 (lib_set_constraints (py_booster m1) cm)) _).
  set (m3' := with_booster (with_booster m1' (lib_set_constraints (py_booster m1') cm)) _).
  assert (EE : py_evals m3' (option_map (map unnamed_eval) ev) = py_evals m3 ev).
  { unfold py_evals. destruct ev as [l|]; auto. cbn [option_map]. f_equal. specialize (fun Xe ye we => HE Xe ye we l eq_refl). 
    induction l as [|[[a b] c] l IH]; simpl; auto. rewrite IH by (intros; eapply HE; right; eauto). f_equal.
    assert (VE : validate_features m3 (columns a) = inl tt).
    { unfold validate_features. destruct (HE a b c) as [-> | HC]; [left; auto|reflexivity|]. rewrite HC. destruct cols as [|k0 cols]; [reflexivity|].
      assert (py_names m3 = Some (k0 :: cols)) as ->.
      { unfold m3. cbn [with_booster py_names]. unfold m1, fit_features, columns. rewrite HX. reflexivity. }
      rewrite (proj2 (keys_eqb_eq _ _) eq_refl). reflexivity. }
    rewrite VE. reflexivity. }
  rewrite EE. destruct (py_evals m3 ev) as [evs|e].
  2:{ split; [reflexivity|]. split; [unfold m3, m3'; cbn [with_booster py_booster]; rewrite B1, B1'; reflexivity|unfold m3, m3'; cbn [with_booster py_params]; rewrite P1, P1'; reflexivity]. }
  assert (B3 : py_booster m3' = with_meta (py_booster m3) md').
  { unfold m3, m3'. cbn [with_booster py_booster]. rewrite B1, B1'. reflexivity. }
  change (frame_matrix (unnamed X)) with (frame_matrix X). rewrite B3, fit_meta.
  match goal with |- context [fit E ?b1 ?d1 t ?w1 ?es1] => destruct (fit E b1 d1 t w1 es1) as [[b fe]|] eqn:HF end; cbn [option_map bind]; auto.
  destruct fe as [fe|]; (split; [reflexivity|]); split; cbn [with_booster with_params py_booster py_params with_base y_base_score with_meta gb_metadata gb_base_score]; auto.
  unfold m3, m3'. cbn [with_booster py_params]. now rewrite P1, P1'.
Qed.

(** *** What the column names refuse *)
Lemma other_columns_refused : forall A (m : PyModel) X l (r : res A), py_names m = Some l -> columns X <> [] -> columns X <> l ->
  if_valid m X r = Some (inr ValueError).
Proof.
  intros A m X l r HN HE HD. unfold if_valid, validate_features. rewrite HN. destruct (columns X) as [|k c] eqn:EC; [tauto|].
  destruct (keys_eqb (k :: c) l) eqn:EK; auto. apply keys_eqb_eq in EK. congruence.
Qed.
Lemma same_columns_accepted : forall A (m : PyModel) X (r : res A), columns X = [] \/ py_names m = Some (columns X) \/ py_names m = None ->
  if_valid m X r = r.
Proof.
  intros A m X r H. unfold if_valid, validate_features. destruct (columns X) as [|k c]; auto. destruct H as [H|[-> | ->]]; [discriminate| |auto].
  rewrite (proj2 (keys_eqb_eq _ _) eq_refl). reflexivity.
Qed.
End PyFit.
