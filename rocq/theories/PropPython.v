(** Properties C77-C85: the Python package. *)
From Coq Require Import List Arith NArith ZArith Bool String Lia.
From Verif Require Import Prelude Float FloatI FloatConv Data Utils Binning BinningX PropBinning Histogram Node Splitter Tree TreeWf Objective Metric Sampler Contrib
  Booster ImportProofs PropTree PropPredict Serde SerdeProofs PropSerde PyWrap PyProofs PyState PyLoad PyFit PyMore PyExamples.
Import ListNotations.
Local Open Scope string_scope.

(** *** C77.  [stack X X']: the rows of X' below those of X.  [res_app]: two answers, one after the other. *)
Theorem C77_rows_independent : forall {FS : Floats} m X X', frame_ok X -> frame_ok X' -> x_cols X' = x_cols X -> x_names X' = x_names X ->
  (forall shs shs1 shs2 par par1 par2,
     py_predict shs m (stack X X') par = res_app (py_predict shs1 m X par1) (py_predict shs2 m X' par2)) /\
  (forall sh sh1 sh2 me par par1 par2,
     py_predict_contributions sh m (stack X X') me par =
     res_app (py_predict_contributions sh1 m X me par1) (py_predict_contributions sh2 m X' me par2)) /\
  (forall shs shs1 shs2,
     py_predict_leaf_indices shs m (stack X X') = res_app (py_predict_leaf_indices shs1 m X) (py_predict_leaf_indices shs2 m X')).
Proof.
  intros FS m X X' H H' C N. split; [|split]; intros; [now apply predict_stack|now apply contributions_stack|now apply leaves_stack].
Qed.
Print Assumptions C77_rows_independent.

(** One row of contributions per row of the frame, one entry per column and one for the bias. *)
Theorem C77_contributions_shape : forall {FS : Floats} sh m X me par r, frame_ok X -> py_predict_contributions sh m X me par = Some (inl r) ->
  List.length r = List.length (x_rows X) /\ forall row, In row r -> List.length row = x_cols X + 1.
Proof. intros FS. exact contributions_shape. Qed.
Print Assumptions C77_contributions_shape.

(** The leaf indices point at leaves, and the prediction is the base score plus the weights of these leaves, added in the order of the trees. *)
Theorem C77_leaf_indices_explain : forall {FS : Floats} shs shs' m X par p, frame_ok X -> (forall t, In t (gb_trees (py_booster m)) -> well_formed t) ->
  py_predict shs m X par = Some (inl p) ->
  exists L, py_predict_leaf_indices shs' m X = Some (inl L) /\ List.length p = List.length (x_rows X) /\ List.length L = List.length (x_rows X) /\
    forall i row, nth_error L i = Some row ->
      let ts := firstn (match gb_pred (py_booster m) with Some n => n | None => List.length (gb_trees (py_booster m)) end) (gb_trees (py_booster m)) in
      exists leaves, Forall2 (fun tj n => n_is_leaf n = true /\ nth_error (fst tj) (snd tj) = Some n) (combine ts row) leaves /\
        List.length row = List.length ts /\
        nth_error p i = Some (fold_left (fun acc n => (acc + to64 (n_weight n))%f64) leaves (gb_base_score (py_booster m))).
Proof. intros FS. exact leaves_explain. Qed.
Print Assumptions C77_leaf_indices_explain.

(** *** C78.  A frame whose columns are not those of the last fit is refused by every prediction method; a frame with those columns, or an array, is not. *)
Theorem C78_other_columns_refused : forall {FS : Floats} m X l, py_names m = Some l -> columns X <> [] -> columns X <> l ->
  (forall shs par, py_predict shs m X par = Some (inr ValueError)) /\
  (forall sh me par, py_predict_contributions sh m X me par = Some (inr ValueError)) /\
  (forall shs, py_predict_leaf_indices shs m X = Some (inr ValueError)).
Proof. intros FS m X l H1 H2 H3. repeat split; intros; now apply (other_columns_refused _ m X l). Qed.
Print Assumptions C78_other_columns_refused.

Theorem C78_same_columns_accepted : forall {FS : Floats} m X, columns X = [] \/ py_names m = Some (columns X) \/ py_names m = None ->
  (forall shs par, py_predict shs m X par = py_predict shs m (unnamed X) par) /\
  (forall sh me par, py_predict_contributions sh m X me par = py_predict_contributions sh m (unnamed X) me par) /\
  (forall shs, py_predict_leaf_indices shs m X = py_predict_leaf_indices shs m (unnamed X)).
Proof.
  intros FS m X H. repeat split; intros; (etransitivity; [apply (same_columns_accepted _ m X); exact H|]);
    symmetry; apply (same_columns_accepted _ m (unnamed X)); left; reflexivity.
Qed.
Print Assumptions C78_same_columns_accepted.

(** Training on a frame with constraints and terminating features given by name is training on its array with them given by position:
    same exception or same booster up to metadata.  [numbered cols k k']: k is the name of column number k'. *)
Theorem C78_names_are_positions : forall {FS : Floats} pc y d' s' m m' E X t w ev cols, x_names X = Some cols -> NoDup cols ->
  NoDup (map fst (y_constraints y)) ->
  Forall2 (fun kv kv' : pykey * Z => numbered cols (fst kv) (fst kv') /\ snd kv' = snd kv) (y_constraints y) d' ->
  Forall2 (numbered cols) (y_terminate y) s' ->
  (forall Xe ye we l, ev = Some l -> In (Xe, ye, we) l -> columns Xe = [] \/ columns Xe = cols) ->
  py_new pc y = inl m -> py_new pc (with_dicts y d' s') = inl m' ->
  match py_fit pc E m X t w ev, py_fit pc E m' (unnamed X) t w (option_map (map unnamed_eval) ev) with
  | Some (r, e), Some (r', e') => e' = e /\ same_booster r r'
  | None, None => True
  | _, _ => False
  end.
Proof. intros FS. exact named_fit. Qed.
Print Assumptions C78_names_are_positions.

(** A fit that raises leaves the parameters, trees, base score and evaluation history as they were (the column names change: see below). *)
Theorem C78_failed_fit_keeps_trees : forall {FS : Floats} pc E m X t w ev m' e, py_fit pc E m X t w ev = Some (m', Some e) ->
  let b := py_booster m in let b' := py_booster m' in
  py_params m' = py_params m /\ gb_trees b' = gb_trees b /\ gb_base_score b' = gb_base_score b /\ gb_pred b' = gb_pred b /\
  gb_history b' = gb_history b /\ gb_best b' = gb_best b.
Proof. intros FS. exact failed_fit. Qed.
Print Assumptions C78_failed_fit_keeps_trees.

(** *** C79.  [life pc y m]: m was made by the constructor from y and then fitted (with any outcome), had its number of trees chosen, or had metadata
    inserted, any number of times. *)
Theorem C79_save_load : forall {FS : Floats} jc pc o y m, pycodec_ok pc -> codec_ok jc -> orders_ok o -> (forall x : F32, to32 (to64 x) = x) ->
  NoDup (map fst (y_constraints y)) -> life pc y m -> finite_model (py_booster m) -> loaded_missing (y_missing y) = y_missing y ->
  exists m', py_load jc pc (py_save jc o m) = Some (inl m') /\ same_answers m m' /\ recovered (py_params m) (py_params m').
Proof.
  intros FS jc pc o y m PC JC O NW N L F M. pose proof (life_sane pc y m N L) as S. exists (loaded_model o m).
  split; [eapply py_load_saved; eauto|]. eapply loaded_same; eauto.
Qed.
Print Assumptions C79_save_load.

(** *** C80.  Without constraints and terminating features, an object that was saved and loaded goes through a further fit as the original:
    same exception, and results that answer every question alike. *)
Theorem C80_refit_after_load : forall {FS : Floats} jc pc o y m, pycodec_ok pc -> codec_ok jc -> orders_ok o -> (forall x : F32, to32 (to64 x) = x) ->
  y_constraints y = [] -> y_terminate y = [] -> life pc y m -> finite_model (py_booster m) -> loaded_missing (y_missing y) = y_missing y ->
  exists m', py_load jc pc (py_save jc o m) = Some (inl m') /\
  forall E X t w ev, match py_fit pc E m X t w ev, py_fit pc E m' X t w ev with
  | Some (r, e), Some (r', e') => e' = e /\ same_answers r r'
  | None, None => True
  | _, _ => False
  end.
Proof.
  intros FS jc pc o y m PC JC O NW NC NT L F M. assert (N : NoDup (map fst (y_constraints y))) by (rewrite NC; constructor).
  exists (loaded_model o m). split; [eapply py_load_saved; eauto using life_sane|].
  intros E X t w ev. pose proof (twin_fit pc E m (loaded_model o m) X t w ev (loaded_twin pc y m o O L M NC NT)) as T.
  destruct (py_fit pc E m X t w ev) as [[r e]|], (py_fit pc E (loaded_model o m) X t w ev) as [[r' e']|]; auto.
  destruct T. split; auto using twin_same.
Qed.
Print Assumptions C80_refit_after_load.

(** *** C81.  Pickling keeps all parameters, all answers, and all later fits. *)
Theorem C81_pickle : forall {FS : Floats} jc pc o y m, codec_ok jc -> orders_ok o -> NoDup (map fst (y_constraints y)) -> life pc y m ->
  finite_model (py_booster m) -> loaded_missing (y_missing y) = y_missing y ->
  exists m', py_setstate jc (py_getstate jc o m) = inl m' /\ py_get_params m' = py_get_params m /\ same_answers m m' /\
  forall E X t w ev, match py_fit pc E m X t w ev, py_fit pc E m' X t w ev with
  | Some (r, e), Some (r', e') => e' = e /\ same_answers r r'
  | None, None => True
  | _, _ => False
  end.
Proof.
  intros FS jc pc o y m JC O N L F M. destruct (pickle_twin jc pc y m o JC O (life_sane pc y m N L) F M) as (m' & E1 & E2 & T).
  exists m'. split; [exact E1|]. split; [exact E2|]. split; [now apply twin_same|].
  intros E X t w ev. pose proof (twin_fit pc E m m' X t w ev T) as TF.
  destruct (py_fit pc E m X t w ev) as [[r e]|], (py_fit pc E m' X t w ev) as [[r' e']|]; auto. destruct TF. split; auto using twin_same.
Qed.
Print Assumptions C81_pickle.

(** *** C82.  get_params returns what the constructor was given, except the base score, which a fit replaces. *)
Theorem C82_get_params : forall {FS : Floats} pc y m, NoDup (map fst (y_constraints y)) -> life pc y m ->
  py_get_params m = with_base y (gb_base_score (py_booster m)) /\
  (py_new pc y = inl m -> py_get_params m = y) /\ (y_initialize_base_score y = false -> py_get_params m = y).
Proof.
  intros FS pc y m N L. destruct (life_sane pc y m N L) as [S1 S2 S3 _ _ _]. unfold py_get_params. split; [|split].
  - rewrite S2. exact S1.
  - intros H. apply py_init_spec in H. destruct H as (d & _ & _ & ->). reflexivity.
  - intros H. rewrite S1, (S3 H). now destruct y.
Qed.
Print Assumptions C82_get_params.
(** A clone (the constructor applied to get_params of a used object) always exists, and fits exactly as the original did when new. *)
Theorem C82_clone : forall {FS : Floats} pc y m, NoDup (map fst (y_constraints y)) -> life pc y m ->
  exists c m0, py_new pc (py_get_params m) = inl c /\ py_new pc y = inl m0 /\
  forall E X t w ev r, py_fit pc E c X t w ev = Some (r, None) <-> py_fit pc E m0 X t w ev = Some (r, None).
Proof.
  intros FS pc y m N L. pose proof (life_sane pc y m N L) as S. destruct (clone_new pc y m S) as (d & _ & E1 & E2).
  eexists. eexists. split; [exact E1|]. split; [exact E2|]. intros. eapply clone_fit; eauto.
Qed.
Print Assumptions C82_clone.

(** set_params starts over: the trees are gone, the parameters are the old ones with the changes. *)
Theorem C82_set_params : forall {FS : Floats} pc m change m', py_set_params pc m change = inl m' ->
  py_get_params m' = change (py_get_params m) /\ gb_trees (py_booster m') = [] /\
  forall c, py_new pc (change (py_get_params m)) = inl c -> py_booster m' = py_booster c.
Proof.
  intros FS pc m change m' H. apply py_init_spec in H. destruct H as (d & D & V & ->). split; [reflexivity|]. split; [reflexivity|].
  intros c HC. apply py_init_spec in HC. destruct HC as (d' & D' & _ & ->). rewrite (decodes_fun _ _ _ D D'). reflexivity.
Qed.
Print Assumptions C82_set_params.

(** *** C83.  What the constructor takes: the names it knows and numbers that are not NaN and not negative; anything else is a ValueError. *)
Theorem C83_constructor : forall {FS : Floats} pc y, ((exists m, py_new pc y = inl m) <-> valid_options y) /\ (forall e, py_new pc y = inr e -> e = ValueError).
Proof. intros FS pc y. split; [apply constructor_accepts|intros e; apply py_init_error]. Qed.
Print Assumptions C83_constructor.

(** *** C84.  The result lists the distinct values of the column other than the missing one, in increasing order, each with its partial dependence;
    the missing value comes first if it is asked for.  [pd_column]: the values of the chosen column, and the position of the column at fit time. *)
Theorem C84_partial_dependence : forall {FS : Floats} (OL : OrdLaws f64) sh m X f ex r, py_partial_dependence sh m X f ex = Some (inl r) ->
  exists vals idx u, pd_column m X f vals idx /\ map fst r = ((if ex then [] else [y_missing (py_params m)]) ++ u)%list /\
    increasing u /\
    (forall x, In x u -> In x vals /\ fisnan f64 x = false /\ (x =? y_missing (py_params m))%f64 = false) /\
    (forall x, In x vals -> fisnan f64 x = false -> (x =? y_missing (py_params m))%f64 = false -> exists y, In y u /\ (x =? y)%f64 = true) /\
    (forall v y, In (v, y) r -> value_partial_dependence sh (py_booster m) idx v = Some y).
Proof. intros FS. exact pd_spec. Qed.
Print Assumptions C84_partial_dependence.
(** A column given by name is looked up by its position at fit time: the result is that for an array with its values at that position. *)
Theorem C84_by_name : forall {FS : Floats} sh m X cols l s i j ex, x_names X = Some cols -> NoDup cols -> py_names m = Some l -> NoDup l ->
  nth_error cols j = Some (KStr s) -> nth_error l i = Some (KStr s) -> j < x_cols X ->
  py_partial_dependence sh m X (ByName s) ex =
  (let* sel := Some (column X j) in
   py_partial_dependence sh m (mkFrame None (map (fun x => repeat x (S i)) sel) (S i)) (ByIndex i) ex).
Proof. intros FS. exact pd_name. Qed.
Print Assumptions C84_by_name.

(** *** C85.  feature_importances_ has one entry per column: the importance of that column, 0 if no tree splits on it. *)
Theorem C85_feature_importances : forall {FS : Floats} m me imp n, plain de_importance (y_importance_method (py_params m)) = inl me ->
  calculate_feature_importance (py_booster m) me true = Some imp -> (forall t, In t (gb_trees (py_booster m)) -> well_formed t) ->
  (forall l, py_names m = Some l -> NoDup l) -> expected_columns m = Some n ->
  (forall t nd, In t (gb_trees (py_booster m)) -> In nd t -> n_is_leaf nd = false -> n_split_feature nd < n) ->
  exists r, py_feature_importances m = Some (inl r) /\ List.length r = n /\
    (forall i v, In (i, v) imp -> nth_error r i = Some (to64 v)) /\
    (forall i, i < n -> (forall t nd, In t (gb_trees (py_booster m)) -> In nd t -> n_is_leaf nd = false -> n_split_feature nd <> i) ->
       nth_error r i = Some (fzero f64)).
Proof. intros FS. exact importances_array_wf. Qed.
Print Assumptions C85_feature_importances.

(** *** Examples: the object of PyExamples, trained on a frame with columns a and b, b constrained, missing values of a ending branches *)
Lemma exp_distinct : forall y, y = exp_one \/ y = exp_y [] [] -> NoDup (map fst (y_constraints y)).
Proof. intros y [->| ->]; repeat constructor; simpl; tauto. Qed.
Example exp_life : life ex_pc exp_one exp_m.
Proof. destruct exp_trained as (N & F & _). eapply life_fit; [apply life_new; exact N|exact F]. Qed.
Definition exp_free : @PyModel IE := exp_out (exp_new (exp_y [] [])) exp_X exp_t.
Example exp_free_life : life ex_pc (exp_y [] []) exp_free /\ map (@List.length _) (gb_trees (py_booster exp_free)) = [7; 7; 7; 7].
Proof.
  split; [|vm_compute; reflexivity]. eapply life_fit; [apply life_new; apply exp_new_ok; vm_compute; reflexivity|].
  apply exp_fit_ok with (e := None). vm_compute; reflexivity.
Qed.
Lemma exp_missing : forall y, y = exp_one \/ y = exp_y [] [] -> loaded_missing (y_missing y) = y_missing y.
Proof. intros y [->| ->]; reflexivity. Qed.
Lemma loads_finite : forall m : @PyModel IE, hash_ok (py_booster m) ->
  is_some (@from_json IE bits_codec (@json_dump IE bits_codec rev_orders (py_booster m))) = true -> finite_model (py_booster m).
Proof.
  intros m H L. apply (@C53_loads_iff_finite IE bits_codec rev_orders (py_booster m) bits_codec_ok rev_orders_ok H). eexists. apply (get_some _ (py_booster m)). exact L.
Qed.
Example exp_finite : finite_model (py_booster exp_m) /\ finite_model (py_booster exp_free).
Proof.
  split.
  - apply loads_finite; [|vm_compute; reflexivity]. eapply sane_hash, life_sane; [|apply exp_life]. apply exp_distinct. auto.
  - apply loads_finite; [|vm_compute; reflexivity]. eapply sane_hash, life_sane; [|apply exp_free_life]. apply exp_distinct. auto.
Qed.

(** C79, C81 *)
Example C79_example : exists m', @py_load IE bits_codec ex_pc (@py_save IE bits_codec rev_orders exp_m) = Some (inl m') /\ same_answers exp_m m' /\
  recovered (py_params exp_m) (py_params m') /\ py_names m' = Some [exp_a; exp_b] /\ py_n_features m' = Some 2.
Proof.
  destruct (@C79_save_load IE bits_codec ex_pc rev_orders exp_one exp_m ex_pc_ok bits_codec_ok rev_orders_ok to32_to64
    (exp_distinct _ (or_introl eq_refl)) exp_life (proj1 exp_finite) (exp_missing _ (or_introl eq_refl))) as (m' & E & S & R).
  exists m'. split; [exact E|]. split; [exact S|]. split; [exact R|]. rewrite (sa_names _ _ S), (sa_n _ _ S). split; vm_compute; reflexivity.
Qed.
Example C81_example : exists m', @py_setstate IE bits_codec (@py_getstate IE bits_codec rev_orders exp_m) = inl m' /\ same_answers exp_m m'.
Proof.
  destruct (@C81_pickle IE bits_codec ex_pc rev_orders exp_one exp_m bits_codec_ok rev_orders_ok
    (exp_distinct _ (or_introl eq_refl)) exp_life (proj1 exp_finite) (exp_missing _ (or_introl eq_refl))) as (m' & E & _ & S & _). eauto.
Qed.
Lemma raised_alike : forall a b e, raised a = Some e ->
  match a, b with Some (r, e), Some (r', e') => e' = e /\ same_answers r r' | None, None => True | _, _ => False end -> raised b = Some e.
Proof. intros [[r e1]|] [[r' e2]|] e; simpl; try tauto; try discriminate. intros [= ->] [-> _]. reflexivity. Qed.
(** C80: the unconstrained object; the refit succeeds on both *)
Example C80_example : exists m', @py_load IE bits_codec ex_pc (@py_save IE bits_codec rev_orders exp_free) = Some (inl m') /\
  raised (exp_fit exp_free exp_X exp_t) = Some None /\ raised (exp_fit m' exp_X exp_t) = Some None.
Proof.
  destruct (@C80_refit_after_load IE bits_codec ex_pc rev_orders (exp_y [] []) exp_free ex_pc_ok bits_codec_ok rev_orders_ok to32_to64
    eq_refl eq_refl (proj1 exp_free_life) (proj2 exp_finite) (exp_missing _ (or_intror eq_refl))) as (m' & E & H).
  exists m'. split; [exact E|]. assert (R : raised (exp_fit exp_free exp_X exp_t) = Some None) by (vm_compute; reflexivity).
  split; [exact R|]. pose proof (H exb_env exp_X exp_t exp_w None) as H1. clear H.
  revert R H1. apply raised_alike.
Qed.

(** C80 fails for the object with a constraint on one of two columns: after loading, the constraint is kept under the number of its column,
    and a fit on the frame it was trained on raises KeyError. *)
Theorem C80_refit_after_load_refuted : exists (m m' : @PyModel IE), life ex_pc exp_one m /\ finite_model (py_booster m) /\
  @py_load IE bits_codec ex_pc (@py_save IE bits_codec rev_orders m) = Some (inl m') /\ same_answers m m' /\
  raised (exp_fit m exp_X exp_t) = Some None /\ raised (exp_fit m' exp_X exp_t) = Some (Some KeyError).
Proof.
  exists exp_m, (loaded_model rev_orders exp_m). pose proof (life_sane ex_pc exp_one exp_m (exp_distinct _ (or_introl eq_refl)) exp_life) as S.
  split; [exact exp_life|]. split; [exact (proj1 exp_finite)|].
  split; [apply (@py_load_saved IE bits_codec ex_pc to32_to64 exp_one exp_m rev_orders ex_pc_ok bits_codec_ok rev_orders_ok S (proj1 exp_finite))|].
  split; [exact (proj1 (@loaded_same IE ex_pc exp_one exp_m rev_orders rev_orders_ok S (exp_missing _ (or_introl eq_refl))))|]. split; vm_compute; reflexivity.
Qed.
Print Assumptions C80_refit_after_load_refuted.

(** An object saved before its first fit comes back without its constraints. *)
Theorem C80_constraints_survive_refuted : exists (m m' : @PyModel IE), py_new ex_pc exp_one = inl m /\ y_constraints (py_get_params m) = [(exp_b, 1%Z)] /\
  @py_load IE bits_codec ex_pc (@py_save IE bits_codec rev_orders m) = Some (inl m') /\ y_constraints (py_get_params m') = [].
Proof.
  pose proof (proj1 exp_trained) as N. assert (L : life ex_pc exp_one (exp_new exp_one)) by (apply life_new; exact N).
  pose proof (life_sane ex_pc exp_one _ (exp_distinct _ (or_introl eq_refl)) L) as S.
  assert (F : finite_model (py_booster (exp_new exp_one))).
  { apply loads_finite; [eapply sane_hash; exact S|vm_compute; reflexivity]. }
  exists (exp_new exp_one), (loaded_model rev_orders (exp_new exp_one)). split; [exact N|]. split; [vm_compute; reflexivity|].
  split; [apply (@py_load_saved IE bits_codec ex_pc to32_to64 exp_one (exp_new exp_one) rev_orders ex_pc_ok bits_codec_ok rev_orders_ok S F)|].
  vm_compute. reflexivity.
Qed.
Print Assumptions C80_constraints_survive_refuted.

(** C77 *)
Definition exp_top : @Frame IE := @mkFrame IE (Some [exp_a; exp_b]) (firstn 2 exp_rows) 2.
Definition exp_rest : @Frame IE := @mkFrame IE (Some [exp_a; exp_b]) (skipn 2 exp_rows) 2.
Example C77_example : frame_ok exp_top /\ frame_ok exp_rest /\ stack exp_top exp_rest = exp_X /\
  answers (@py_predict IE (fun _ => Seq) exp_m exp_X None) = true /\
  match @py_predict_leaf_indices IE (fun _ => Seq) exp_m exp_X with Some (inl l) => l | _ => [] end =
    [[5; 5; 6; 6]; [2; 2; 5; 5]; [1; 1; 3; 3]; [5; 5; 6; 6]; [6; 6; 3; 3]] /\
  match @py_predict_contributions IE Seq exp_m exp_X "weight" None with Some (inl l) => map (@List.length _) l | _ => [] end = [3; 3; 3; 3; 3].
Proof.
  split; [split; [simpl; intros r [<-|[<-|[]]]; reflexivity|intros l [= <-]; reflexivity]|].
  split; [split; [simpl; intros r [<-|[<-|[<-|[]]]]; reflexivity|intros l [= <-]; reflexivity]|].
  split; [reflexivity|]. split; [vm_compute; reflexivity|]. split; vm_compute; reflexivity.
Qed.

(** C78: the constraint and the terminating feature by name and by number *)
Example C78_example : py_names exp_m = Some [exp_a; exp_b] /\ fails (@py_predict IE (fun _ => Seq) exp_m exp_swapped None) = Some ValueError /\
  raised (exp_fit (exp_new exp_one) exp_X exp_t) = Some None /\
  raised (exp_fit (exp_new (exp_y [(KNat 1, 1%Z)] [KNat 0])) (unnamed exp_X) exp_t) = Some None /\
  match exp_fit (exp_new (exp_y [(KNat 1, 1%Z)] [KNat 0])) (unnamed exp_X) exp_t with
  | Some (r, _) => p_terminate_missing_features (gb_params (py_booster r)) = [0] /\ p_monotone_constraints (gb_params (py_booster r)) = Some [(1, Positive)]
  | None => False
  end.
Proof. split; [vm_compute; reflexivity|]. split; [vm_compute; reflexivity|]. split; [vm_compute; reflexivity|]. split; [vm_compute; reflexivity|]. vm_compute. auto. Qed.

(** A fit that raises has already replaced the column names: predictions on the frame the trees were trained on are refused afterwards. *)
Theorem C78_failed_fit_keeps_columns_refuted : exists (m m' : @PyModel IE) X t, life ex_pc exp_one m /\ exp_fit m X t = Some (m', Some ValueError) /\
  gb_trees (py_booster m') = gb_trees (py_booster m) /\
  answers (@py_predict IE (fun _ => Seq) m exp_X None) = true /\ fails (@py_predict IE (fun _ => Seq) m' exp_X None) = Some ValueError.
Proof.
  pose (t := [z64 1; fnan IOps64; z64 1; z64 1; z64 1]).
  exists exp_m, (exp_out exp_m exp_swapped t), exp_swapped, t. split; [exact exp_life|].
  assert (F : exp_fit exp_m exp_swapped t = Some (exp_out exp_m exp_swapped t, Some ValueError)) by (apply exp_fit_ok; vm_compute; reflexivity).
  split; [exact F|]. split; [exact (proj1 (proj2 (@failed_fit IE ex_pc _ _ _ _ _ _ _ _ F)))|split; vm_compute; reflexivity].
Qed.
Print Assumptions C78_failed_fit_keeps_columns_refuted.

(** Fitting again on an array keeps the old column names: with more columns than before, the importances raise KeyError. *)
Definition exp_narrow : @Frame IE := @mkFrame IE (Some [exp_b]) (map (@tl _) exp_rows) 1.
Theorem C78_refit_on_array_refuted : exists (m m' : @PyModel IE), life ex_pc (exp_y [] []) m /\ exp_fit m (unnamed exp_X) exp_t = Some (m', None) /\
  py_names m' = Some [exp_b] /\ py_n_features m' = Some 2 /\ fails (@py_importance IE m' "Gain" true) = Some KeyError /\
  fails (@py_feature_importances IE m') = Some KeyError /\ fails (@py_predict IE (fun _ => Seq) m' exp_X None) = Some ValueError.
Proof.
  pose (m := exp_out (exp_new (exp_y [] [])) exp_narrow exp_t). exists m, (exp_out m (unnamed exp_X) exp_t).
  split; [|split; [apply exp_fit_ok; vm_compute; reflexivity|]].
  - eapply life_fit; [apply life_new; apply exp_new_ok; vm_compute; reflexivity|]. apply exp_fit_ok with (e := None). vm_compute; reflexivity.
  - split; [vm_compute; reflexivity|]. split; [vm_compute; reflexivity|]. split; [vm_compute; reflexivity|]. split; vm_compute; reflexivity.
Qed.
Print Assumptions C78_refit_on_array_refuted.

(** C82: the parameters of the trained object; its base score is the weighted mean of the targets *)
Example C82_example : life ex_pc exp_one exp_m /\ feq IOps64 (y_base_score (py_get_params exp_m)) (z64 0) = true /\ feq IOps64 (y_base_score exp_one) (z64 3) = true /\
  y_constraints (py_get_params exp_m) = [(exp_b, 1%Z)] /\
  match @py_set_params IE ex_pc exp_m (fun y => y) with inl m => (List.length (gb_trees (py_booster m)) =? 0)%nat | _ => false end = true.
Proof. split; [exact exp_life|]. split; [vm_compute; reflexivity|]. split; [vm_compute; reflexivity|]. split; vm_compute; reflexivity. Qed.
Lemma set_params_refused : forall {FS : Floats} pc y m l X, NoDup (map fst (y_constraints y)) -> life pc y m -> py_names m = Some l ->
  columns X <> [] -> columns X <> l ->
  exists m' c, py_set_params pc m (fun y => y) = inl m' /\ py_new pc (py_get_params m) = inl c /\ forall shs, py_predict shs m' X None = Some (inr ValueError).
Proof.
  intros FS pc y m l X N L HN H1 H2. destruct (C82_clone pc y m N L) as (c & _ & HC & _).
  assert (HI := HC). apply py_init_spec in HC. destruct HC as (d & D & V & _).
  exists (new_model pc (py_get_params m) d (py_names m) (py_n_features m)), c. split; [apply py_init_spec; eauto|]. split; [exact HI|].
  intros shs. apply (other_columns_refused _ _ X l); auto.
Qed.
Lemma exp_new_is : forall y c, exp_init y = inl c -> c = exp_new y.
Proof. intros y c H. unfold exp_new. now rewrite H. Qed.
(** The object after set_params is not like a new one: it remembers the columns of the fit that is gone. *)
Theorem C82_set_params_is_new_refuted : exists (m m' c : @PyModel IE), life ex_pc exp_one m /\ py_set_params ex_pc m (fun y => y) = inl m' /\
  py_new ex_pc (py_get_params m) = inl c /\ answers (@py_predict IE (fun _ => Seq) c exp_swapped None) = true /\
  @py_predict IE (fun _ => Seq) m' exp_swapped None = Some (inr ValueError).
Proof.
  destruct (@set_params_refused IE ex_pc exp_one exp_m [exp_a; exp_b] exp_swapped (exp_distinct _ (or_introl eq_refl)) exp_life
    (proj2 (proj2 (proj2 exp_trained)))) as (m' & c & HS & HC & HP); [discriminate|discriminate|].
  exists exp_m, m', c. split; [exact exp_life|]. split; [exact HS|]. split; [exact HC|]. split; [|apply HP].
  rewrite (exp_new_is _ _ HC). vm_compute. reflexivity.
Qed.
Print Assumptions C82_set_params_is_new_refuted.

(** C83 *)
Definition exp_options (method : option string) (importance : string) (lr : b64) : @PyParams IE :=
  @mkPy IE "SquaredLoss" 4 lr 5 10 (z64 0) (z64 1) (z64 0) (z64 0) (z64 1) (z64 0) 2 true false [] (z64 1) (z64 1) (z64 1) (z64 1) 7%N
    (fnan IOps64) true method "DepthWise" None None true [] "None" 0 importance false.
Example C83_example : valid_options (exp_options (Some "goss") "Gain" (q64 1 2)) /\
  match exp_init (exp_options None "Gain" (z64 (-1))) with inr e => Some e | _ => None end = Some ValueError.
Proof.
  split; [|vm_compute; reflexivity]. apply (constructor_accepts ex_pc). exists (exp_new (exp_options (Some "goss") "Gain" (q64 1 2))).
  apply exp_new_ok. vm_compute. reflexivity.
Qed.
(** Not every wrong name is refused: a misspelt sample method is the random one, and a wrong importance method is kept until it is used. *)
Theorem C83_misspelt_options_refuted :
  (exists m : @PyModel IE, exp_init (exp_options (Some "gos") "Gain" (z64 1)) = inl m /\ p_sample_method (gb_params (py_booster m)) = SRandom) /\
  (exists m : @PyModel IE, exp_init (exp_options None "gain" (z64 1)) = inl m /\ fails (@py_feature_importances IE m) = Some ValueError).
Proof.
  split; eexists; (split; [apply exp_new_ok; vm_compute; reflexivity|vm_compute; reflexivity]).
Qed.
Print Assumptions C83_misspelt_options_refuted.
(** The contribution methods are taken in lower case, except one. *)
Theorem C83_lower_case_refuted : exists s, In s ["weight"; "average"; "branch-difference"; "midpoint-difference"; "mode-difference"; "probability-change"; "shapley"] /\
  (forall s', In s' ["weight"; "average"; "branch-difference"; "midpoint-difference"; "mode-difference"; "probability-change"] ->
     exists me, plain de_contributions (contribution_name s') = inl me) /\
  plain de_contributions (contribution_name s) = inr ValueError.
Proof.
  exists "shapley". split; [simpl; tauto|]. split; [|reflexivity]. simpl. intros s' H. decompose [or] H; subst; try tauto; eexists; reflexivity.
Qed.
Print Assumptions C83_lower_case_refuted.

(** C84: the four values of a, with the missing value first; by name and by position *)
Example C84_example :
  match @py_partial_dependence IE Seq exp_m exp_X (ByName "a") false with
  | Some (inl r) => map (fun v => existsb (fun z => feq IOps64 v (z64 z)) [1; 2; 3; 5]%Z) (map fst r) | _ => [] end = [false; true; true; true; true] /\
  answers (@py_partial_dependence IE Seq exp_m exp_X (ByIndex 1) true) = true /\
  fails (@py_partial_dependence IE Seq exp_m exp_X (ByName "c") true) = Some KeyError.
Proof. split; [vm_compute; reflexivity|]. split; vm_compute; reflexivity. Qed.
(** C85: column b and column a; a column no tree splits on *)
Definition exp_wide : @Frame IE := @mkFrame IE (Some [exp_a; exp_b; KStr "c"]) (map (fun r => (r ++ [z64 1])%list) exp_rows) 3.
Definition exp_wm : @PyModel IE := exp_out (exp_new (exp_y [] [])) exp_wide exp_t.
Example C85_example : plain de_importance (y_importance_method (py_params exp_wm)) = inl IGain /\ expected_columns exp_wm = Some 3 /\
  forallb (forallb (fun nd => (n_split_feature nd <? 3)%nat)) (gb_trees (py_booster exp_wm)) = true /\
  match @py_feature_importances IE exp_wm with Some (inl r) => map (fun v => flt IOps64 (z64 0) v) r | _ => [] end = [true; true; false].
Proof. split; [vm_compute; reflexivity|]. split; [vm_compute; reflexivity|]. split; vm_compute; reflexivity. Qed.
