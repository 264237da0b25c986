(** Properties C90-C93: training from Python in terms of the options given, monotone constraints by name, evaluation history, method names. *)
From Coq Require Import List Arith NArith ZArith Bool String Ascii Lia Permutation.
From Flocq Require Import IEEE754.BinarySingleNaN.
From Verif Require Import Prelude Float FloatI FloatX FloatLaws OrdProofs Data Utils Binning BinningX PropBinning Histogram Node Splitter Tree TreeWf GrowWeights GrowMono
  Objective Metric Sampler SamplerProofs Contrib Booster PredictProofs BoostProofs FitModel PropTree PropPredict PropWeights Serde PropSerde PyWrap PyProofs PyState PyLoad
  PyFit PyMore PyTable PyTrained PyMono PyExamples PropPython PropPyTrees.
Import ListNotations.
Local Open Scope string_scope.

(** *** C91.  What fit trains: the options of the constructor, constraints and terminating features by column, weights of one unless given. *)
Theorem C91_fit_uses_options : forall {FS : Floats} pc y m E X t w ev m', NoDup (map fst (y_constraints y)) -> life pc y m -> frame_ok X -> NoDup (columns X) ->
  (forall l Xe te we, ev = Some l -> In (Xe, te, we) l -> frame_ok Xe) -> py_fit pc E m X t w ev = Some (m', None) ->
  exists b0 data w' evs b, options_used y X (gb_params b0) /\ gb_base_score b0 = gb_base_score (py_booster m) /\ validate_parameters (gb_params b0) = None /\ clean b0 /\
    holds data X /\ ones_unless w (List.length t) w' /\
    match ev, evs with
    | None, None => True
    | Some l, Some l' => Forall2 (fun '(Xe, te, we) '(d, te', we') => holds d Xe /\ te' = te /\ ones_unless we (List.length (x_rows Xe)) we') l l'
    | _, _ => False end /\
    fit E b0 data t w' evs = Some (b, None) /\ py_booster m' = b.
Proof. intros FS. exact python_fit. Qed.
Print Assumptions C91_fit_uses_options.

(** *** C90.  Monotone constraints given by column name (or number, for arrays) hold for the predictions of the trained object. *)
Theorem C90_monotone : forall iexp iln iln1p, let I := IF iexp iln iln1p in forall pc (y : @PyParams I) m (E : @Env I) X t w ev m',
  NoDup (map fst (y_constraints y)) -> life pc y m -> rng_ok E (gb_params (py_booster m)) ->
  frame_ok X -> NoDup (columns X) ->
  y_create_missing_branch y = false \/ y_missing_node_treatment y <> "AverageLeafWeight" /\ y_missing_node_treatment y <> "AverageNodeWeight" ->
  (forall j, j < x_cols X -> exists k v, key_of X j = Some k /\ In (k, v) (y_constraints y) /\ (v = 1%Z \/ v = (-1)%Z)) ->
  py_fit pc E m X t w ev = Some (m', None) ->
  forall shs par X' p i1 i2 row1 row2 j k v x1 x2 p1 p2, frame_ok X' -> x_cols X' = x_cols X ->
  py_predict shs m' X' par = Some (inl p) -> nth_error (x_rows X') i1 = Some row1 -> nth_error (x_rows X') i2 = Some row2 ->
  nth_error p i1 = Some p1 -> nth_error p i2 = Some p2 ->
  key_of X j = Some k -> In (k, v) (y_constraints y) -> nth_error row1 j = Some x1 -> nth_error row2 j = Some x2 ->
  is_missing x1 (y_missing y) = Some false -> is_missing x2 (y_missing y) = Some false ->
  (forall n, n <> j -> nth_error row1 n = nth_error row2 n) -> fle IOps64 x1 x2 = true ->
  if (v =? 1)%Z then flt IOps64 p2 p1 = false else flt IOps64 p1 p2 = false.
Proof. intros iexp iln iln1p I pc. exact (@python_monotone I pc (C24_monotone iexp iln iln1p)). Qed.
Print Assumptions C90_monotone.
Theorem C90_monotone_exact : forall pc (y : @PyParams XF) m (E : @Env XF) X t w ev m',
  NoDup (map fst (y_constraints y)) -> life pc y m -> rng_ok E (gb_params (py_booster m)) ->
  frame_ok X -> NoDup (columns X) ->
  y_create_missing_branch y = false \/ y_missing_node_treatment y <> "AverageLeafWeight" /\ y_missing_node_treatment y <> "AverageNodeWeight" ->
  (forall j, j < x_cols X -> exists k v, key_of X j = Some k /\ In (k, v) (y_constraints y) /\ (v = 1%Z \/ v = (-1)%Z)) ->
  py_fit pc E m X t w ev = Some (m', None) ->
  forall shs par X' p i1 i2 row1 row2 j k v x1 x2 p1 p2, frame_ok X' -> x_cols X' = x_cols X ->
  py_predict shs m' X' par = Some (inl p) -> nth_error (x_rows X') i1 = Some row1 -> nth_error (x_rows X') i2 = Some row2 ->
  nth_error p i1 = Some p1 -> nth_error p i2 = Some p2 ->
  key_of X j = Some k -> In (k, v) (y_constraints y) -> nth_error row1 j = Some x1 -> nth_error row2 j = Some x2 ->
  is_missing x1 (y_missing y) = Some false -> is_missing x2 (y_missing y) = Some false ->
  (forall n, n <> j -> nth_error row1 n = nth_error row2 n) -> xle x1 x2 = true ->
  if (v =? 1)%Z then xlt p2 p1 = false else xlt p1 p2 = false.
Proof. intros pc. exact (@python_monotone XF pc C24_monotone_exact). Qed.
Print Assumptions C90_monotone_exact.

(** *** C92.  The evaluation history: one row per tree, one column per evaluation set, the metric of what predict returns at that iteration. *)
Theorem C92_history : forall {FS : Floats} pc y m E X t w l m', NoDup (map fst (y_constraints y)) -> life pc y m ->
  (forall Xe te we, In (Xe, te, we) l -> frame_ok Xe /\ List.length te = List.length (x_rows Xe)) ->
  py_fit pc E m X t w (Some l) = Some (m', None) -> gb_trees (py_booster m') <> [] ->
  forall shs par, exists H me, py_evaluation_history m' = inl (Some H) /\ List.length H = List.length (gb_trees (py_booster m')) /\ metric_used y me /\
    forall k row, nth_error H k = Some row ->
    Forall2 (fun '(Xe, te, we) v => exists p w', py_predict shs (py_set_prediction_iteration m' (k + 1)) Xe par = Some (inl p) /\
      ones_unless we (List.length (x_rows Xe)) w' /\ metric_fn (e_auc E) me te p w' = Some v) l row.
Proof. intros FS. exact python_history. Qed.
Print Assumptions C92_history.

(** *** C93.  The spellings of the contribution methods, and nothing else, are accepted. *)
Theorem C93_method_names : forall s me, plain de_contributions (contribution_name s) = inl me <-> In (s, me) contribution_names.
Proof. exact method_names. Qed.
Print Assumptions C93_method_names.
Theorem C93_other_names : forall {FS : Floats} sh m X s par, validate_features m (columns X) = inl tt -> ~ In s (map fst contribution_names) ->
  py_predict_contributions sh m X s par = Some (inr ValueError).
Proof. intros FS. exact method_refused. Qed.
Print Assumptions C93_other_names.

(** *** C86, continued.  The other columns of the table. *)
Theorem C86_columns : forall {FS : Floats} (m : PyModel) T r, py_trees_to_dataframe m = inl T -> In r T ->
  exists nodes n, nth_error (gb_trees (py_booster m)) (w_tree r) = Some nodes /\ In n nodes /\ w_node r = n_num n /\ w_cover r = n_hess n /\
    (n_is_leaf n = true -> w_gain r = n_weight n /\ w_feature r = None /\ w_split r = None /\ w_yes r = None /\ w_no r = None /\ w_missing r = None) /\
    (n_is_leaf n = false -> w_gain r = n_split_gain n /\ w_split r = Some (n_split_value n) /\ w_yes r = Some (w_tree r, n_left n) /\
       w_no r = Some (w_tree r, n_right n) /\ w_missing r = Some (w_tree r, n_missing n) /\
       w_feature r = match py_names m with Some l => nth_error l (n_split_feature n) | None => Some (KNat (n_split_feature n)) end).
Proof. intros FS. exact table_columns. Qed.
Print Assumptions C86_columns.

(** *** Examples *)
Definition exp_both : @PyParams IE := exp_y [(exp_a, (-1)%Z); (exp_b, 1%Z)] [].
Definition exp_bm : @PyModel IE := exp_out (exp_new exp_both) exp_X exp_t.
Lemma exp_both_trained : exp_init exp_both = inl (exp_new exp_both) /\ exp_fit (exp_new exp_both) exp_X exp_t = Some (exp_bm, None).
Proof. split; [apply exp_new_ok; vm_compute; reflexivity|apply exp_fit_ok; vm_compute; reflexivity]. Qed.
Lemma exp_both_distinct : NoDup (map fst (y_constraints exp_both)).
Proof. repeat constructor; simpl; intros H; repeat (destruct H as [H|H]; [discriminate|]); destruct H. Qed.
Lemma exp_both_all : forall j, j < x_cols exp_X -> exists k v, key_of exp_X j = Some k /\ In (k, v) (y_constraints exp_both) /\ (v = 1%Z \/ v = (-1)%Z).
Proof. intros [|[|j]] H; [exists exp_a, (-1)%Z|exists exp_b, 1%Z|simpl in H; lia]; simpl; auto. Qed.
Lemma exp_both_rng : @rng_ok IE exb_env (gb_params (py_booster (exp_new exp_both))).
Proof. left. vm_compute. reflexivity. Qed.
Definition exp_probe : @Frame IE := @mkFrame IE (Some [exp_a; exp_b]) [[z64 1; z64 7]; [z64 5; z64 7]; [z64 5; z64 8]] 2.
Definition exp_answer : list b64 := match @py_predict IE (fun _ => Seq) exp_bm exp_probe None with Some (inl p) => p | _ => [] end.
Lemma exp_probe_ok : frame_ok exp_probe.
Proof. split; [|intros l [= <-]; reflexivity]. intros r H. simpl in H. repeat (destruct H as [<-|H]; [reflexivity|]). destruct H. Qed.
(** falling in a, and really so *)
Example C90_example : exists p1 p2, nth_error exp_answer 0 = Some p1 /\ nth_error exp_answer 1 = Some p2 /\ flt IOps64 p1 p2 = false /\ flt IOps64 p2 p1 = true.
Proof.
  destruct exp_both_trained as (N & F). destruct exp_frame as (F1 & F2 & _).
  assert (L : Nat.eqb (List.length exp_answer) 3 = true) by (vm_compute; reflexivity). apply Nat.eqb_eq in L.
  exists (nth 0 exp_answer (z64 0)), (nth 1 exp_answer (z64 0)). split; [apply nth_error_nth'; lia|]. split; [apply nth_error_nth'; lia|]. split; [|vm_compute; reflexivity].
  assert (P : @py_predict IE (fun _ => Seq) exp_bm exp_probe None = Some (inl exp_answer)).
  { unfold exp_answer. assert (A : answers (@py_predict IE (fun _ => Seq) exp_bm exp_probe None) = true) by (vm_compute; reflexivity).
    destruct (@py_predict IE (fun _ => Seq) exp_bm exp_probe None) as [[p|e]|]; [reflexivity|discriminate|discriminate]. }
  refine (C90_monotone idf idf idf ex_pc exp_both (exp_new exp_both) exb_env exp_X exp_t exp_w None exp_bm exp_both_distinct (life_new _ _ _ N) exp_both_rng F1 F2 _ exp_both_all F
    (fun _ => Seq) None exp_probe exp_answer 0 1 [z64 1; z64 7] [z64 5; z64 7] 0 exp_a (-1)%Z (z64 1) (z64 5) _ _ exp_probe_ok eq_refl P eq_refl eq_refl _ _ eq_refl (or_introl eq_refl) eq_refl eq_refl _ _ _ _).
  - right. split; discriminate.
  - apply nth_error_nth'; lia.
  - apply nth_error_nth'; lia.
  - vm_compute. reflexivity.
  - vm_compute. reflexivity.
  - intros [|n] H; [congruence|reflexivity].
  - vm_compute. reflexivity.
Qed.
(** C91: column b is bounded, the missing values of a end a branch, the weights are ones *)
Definition exp_wl : @PyModel IE := match @py_fit IE ex_pc exb_env (exp_new exp_one) exp_X exp_t None None with Some (r, _) => r | None => exp_m end.
Example C91_example : exists (b0 : @Booster IE) data w', constraint_of (gb_params b0) 1 = Some Positive /\ constraint_of (gb_params b0) 0 = None /\
  In 0 (p_terminate_missing_features (gb_params b0)) /\ ~ In 1 (p_terminate_missing_features (gb_params b0)) /\ p_sample_method (gb_params b0) = SNone /\
  w' = repeat (fone IOps64) 5 /\ fit exb_env b0 data exp_t w' None = Some (py_booster exp_wl, None).
Proof.
  destruct exp_trained as (N & _). destruct exp_frame as (F1 & F2 & _).
  assert (F : @py_fit IE ex_pc exb_env (exp_new exp_one) exp_X exp_t None None = Some (exp_wl, None)).
  { unfold exp_wl. assert (A : raised (@py_fit IE ex_pc exb_env (exp_new exp_one) exp_X exp_t None None) = Some None) by (vm_compute; reflexivity).
    destruct (@py_fit IE ex_pc exb_env (exp_new exp_one) exp_X exp_t None None) as [[r e]|]; [|discriminate]. injection A as ->. reflexivity. }
  destruct (@C91_fit_uses_options IE ex_pc exp_one (exp_new exp_one) exb_env exp_X exp_t None None exp_wl (exp_distinct _ (or_introl eq_refl)) (life_new _ _ _ N) F1 F2
    (fun l Xe te we H _ => ltac:(discriminate)) F) as (b0 & data & w' & evs & b & OU & _ & _ & _ & _ & [LW OW] & EV & HF & EB).
  exists b0, data, w'. destruct OU as [_ _ _ _ SM _ _ _ _ OC OT].
  destruct (OC 0 exp_a eq_refl) as [_ C0]. destruct (OC 1 exp_b eq_refl) as [C1 _].
  split; [|split; [|split; [|split; [|split; [|split]]]]].
  - destruct (C1 1%Z (or_introl eq_refl)) as (c & E & Q). rewrite E. f_equal. destruct c; simpl in Q; congruence.
  - apply C0. simpl. intros [H|[]]. discriminate.
  - apply (OT 0 exp_a eq_refl). left. reflexivity.
  - intros H. apply (OT 1 exp_b eq_refl) in H. destruct H as [H|[]]. discriminate.
  - exact SM.
  - clear - LW OW. change (List.length exp_t) with 5 in LW. revert LW OW. generalize 5 as n. intros n L OW. subst n. induction w' as [|v w IH]; [reflexivity|].
    simpl. f_equal; [apply OW; left; reflexivity|apply IH; intros; apply OW; right; auto].
  - destruct evs; [destruct EV|]. subst b. exact HF.
Qed.

(** C92: two evaluation sets, one with weights *)
Lemma len_not_nil : forall A (l : list A) n, List.length l = S n -> l <> [].
Proof. intros A l n H ->. discriminate. Qed.
Lemma history_shape : forall {FS : Floats} pc y m E X t w l m', NoDup (map fst (y_constraints y)) -> life pc y m ->
  (forall Xe te we, In (Xe, te, we) l -> frame_ok Xe /\ List.length te = List.length (x_rows Xe)) ->
  py_fit pc E m X t w (Some l) = Some (m', None) -> gb_trees (py_booster m') <> [] ->
  exists H, py_evaluation_history m' = inl (Some H) /\ List.length H = List.length (gb_trees (py_booster m')) /\ forall row, In row H -> List.length row = List.length l.
Proof.
  intros FS pc y m E X t w l m' ND L HE F NT. destruct (C92_history pc y m E X t w l m' ND L HE F NT (fun _ => Seq) None) as (H & me & EH & LH & _ & R).
  exists H. split; [exact EH|]. split; [exact LH|]. intros row I. apply In_nth_error in I. destruct I as [k Hk]. apply R in Hk. symmetry. exact (F2_length Hk).
Qed.
Definition exp_sets : list (@PyEval IE) := [(exp_X, exp_t, None); (exp_probe, map z64 [1; 2; 3]%Z, Some (map z64 [1; 2; 1]%Z))].
Definition exp_hm : @PyModel IE := match @py_fit IE ex_pc exb_env (exp_new exp_one) exp_X exp_t exp_w (Some exp_sets) with Some (r, _) => r | None => exp_m end.
Example C92_example : exists H, @py_evaluation_history IE exp_hm = inl (Some H) /\ List.length H = 4 /\ forall row, In row H -> List.length row = 2.
Proof.
  destruct exp_trained as (N & _).
  assert (F : @py_fit IE ex_pc exb_env (exp_new exp_one) exp_X exp_t exp_w (Some exp_sets) = Some (exp_hm, None)).
  { unfold exp_hm. assert (A : raised (@py_fit IE ex_pc exb_env (exp_new exp_one) exp_X exp_t exp_w (Some exp_sets)) = Some None) by (vm_compute; reflexivity).
    destruct (@py_fit IE ex_pc exb_env (exp_new exp_one) exp_X exp_t exp_w (Some exp_sets)) as [[r e]|]; [|discriminate]. injection A as ->. reflexivity. }
  assert (L : Nat.eqb (List.length (gb_trees (py_booster exp_hm))) 4 = true) by (vm_compute; reflexivity). apply Nat.eqb_eq in L.
  assert (NT : gb_trees (py_booster exp_hm) <> []) by exact (len_not_nil _ _ 3 L).
  assert (HE : forall (Xe : @Frame IE) te we, In (Xe, te, we) exp_sets -> frame_ok Xe /\ List.length te = List.length (x_rows Xe)).
  { intros Xe te we I. cbn [exp_sets In] in I. destruct I as [[= <- <- <-]|[[= <- <- <-]|[]]]; (split; [|reflexivity]); [exact (proj1 exp_frame)|exact exp_probe_ok]. }
  pose proof (@history_shape IE ex_pc exp_one (exp_new exp_one) exb_env exp_X exp_t exp_w exp_sets exp_hm (exp_distinct _ (or_introl eq_refl)) (life_new _ _ _ N) HE F NT) as Q.
  destruct Q as (H & Q1 & Q2 & Q3). exists H. split; [exact Q1|]. split; [exact (eq_trans Q2 L)|exact Q3].
Qed.

(** C93 *)
Example C93_example : plain de_contributions (contribution_name "mode-difference") = inl CModeDifference /\
  ~ In "shapley" (map fst contribution_names) /\ validate_features exp_m (columns exp_X) = inl tt.
Proof.
  split; [reflexivity|]. split; [|vm_compute; reflexivity]. intros H. simpl in H. repeat (destruct H as [H|H]; [discriminate|]). destruct H.
Qed.

(** C90 with a constraint on one of two columns: the model answers less for the larger value of the constrained column, the other column
    being the same. *)
Definition exw_y1 : @PyParams IE :=
  @mkPy IE "SquaredLoss" 1 (z64 1) 5 10 (z64 0) (z64 1) (z64 0) (z64 0) (z64 1) (z64 0) 3 true false [(exp_a, 1%Z)] (z64 1) (z64 1) (z64 1) (z64 1) 7%N
    (fnan IOps64) false None "DepthWise" None None false [] "None" 0 "Gain" false.
Definition exw_X : @Frame IE := @mkFrame IE (Some [exp_a; exp_b])
  (map (map z64) [[0; 0]; [0; 0]; [0; 0]; [0; 1]; [1; 0]; [1; 0]; [1; 1]; [1; 1]]%Z) 2.
Definition exw_m : @PyModel IE := match @py_fit IE ex_pc exb_env (exp_new exw_y1) exw_X exw_y None None with Some (r, _) => r | None => exp_m end.
Definition exw_p : list b64 := match @py_predict IE (fun _ => Seq) exw_m exw_X None with Some (inl p) => p | _ => [] end.
Theorem C90_one_column_refuted : exists (m m' : @PyModel IE) p p1 p2, life ex_pc exw_y1 m /\ py_fit ex_pc exb_env m exw_X exw_y None None = Some (m', None) /\
  In (exp_a, 1%Z) (y_constraints exw_y1) /\ py_predict (fun _ => Seq) m' exw_X None = Some (inl p) /\ nth_error p 3 = Some p1 /\ nth_error p 7 = Some p2 /\
  nth_error (x_rows exw_X) 3 = Some [z64 0; z64 1] /\ nth_error (x_rows exw_X) 7 = Some [z64 1; z64 1] /\ flt IOps64 p2 p1 = true.
Proof.
  exists (exp_new exw_y1), exw_m, exw_p, (nth 3 exw_p (z64 0)), (nth 7 exw_p (z64 0)).
  assert (L : Nat.ltb 7 (List.length exw_p) = true) by (vm_compute; reflexivity). apply Nat.ltb_lt in L.
  split; [apply life_new; apply exp_new_ok; vm_compute; reflexivity|]. split.
  { unfold exw_m. assert (A : raised (@py_fit IE ex_pc exb_env (exp_new exw_y1) exw_X exw_y None None) = Some None) by (vm_compute; reflexivity).
    destruct (@py_fit IE ex_pc exb_env (exp_new exw_y1) exw_X exw_y None None) as [[r e]|]; [|discriminate]. injection A as ->. reflexivity. }
  split; [left; reflexivity|]. split.
  { unfold exw_p. assert (A : answers (@py_predict IE (fun _ => Seq) exw_m exw_X None) = true) by (vm_compute; reflexivity).
    destruct (@py_predict IE (fun _ => Seq) exw_m exw_X None) as [[p|e]|]; [reflexivity|discriminate|discriminate]. }
  split; [apply nth_error_nth'; lia|]. split; [apply nth_error_nth'; lia|]. split; [reflexivity|]. split; [reflexivity|vm_compute; reflexivity].
Qed.
Print Assumptions C90_one_column_refuted.
