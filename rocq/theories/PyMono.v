(** Monotone constraints as the user of the Python class gives them. *)
From Coq Require Import List Arith NArith ZArith Bool String Lia Permutation.
From Verif Require Import Prelude Float Data DataProofs Utils Binning Histogram Node Splitter Tree TreeWf GrowWeights GrowMono Objective Metric Sampler SamplerProofs
  Contrib Booster PredictProofs BoostProofs FitModel Serde PyWrap PyProofs PyState PyFit PyMore PyTrained.
Import ListNotations.

Ltac named H := cbn in H; repeat match type of H with
  | context [match ?x with EmptyString => _ | String _ _ => _ end] => is_var x; destruct x; try discriminate
  | context [match ?x with Ascii.Ascii _ _ _ _ _ _ _ _ => _ end] => is_var x; destruct x
  | context [if ?x then _ else _] => is_var x; destruct x; try discriminate end; injection H as <-; simpl; auto.
Section Mono.
Context {FS : Floats}.
Variable pc : PyCodec.

(** the key under which column j is known: its name, or its number in an array *)
Definition key_of (X : Frame) (j : nat) : option pykey := match x_names X with Some l => nth_error l j | None => Some (KNat j) end.

Lemma assoc_nodup : forall A (l : list (nat * A)) k v, NoDup (map fst l) -> In (k, v) l -> assoc k l = Some v.
Proof.
  induction l as [|[a b] l IH]; intros k v N H; [destruct H|]. simpl. inversion N; subst. destruct H as [[= -> ->]|H]; [now rewrite Nat.eqb_refl|].
  destruct (Nat.eqb_spec k a) as [->|]; auto. exfalso. apply H2. apply in_map_iff. exists (a, v). auto.
Qed.
Lemma F2_In_l : forall A B (R : A -> B -> Prop) l r x, Forall2 R l r -> In x l -> exists y, In y r /\ R x y.
Proof. intros A B R l r x F. induction F; simpl; [tauto|]. intros [-> |I]; [eauto|]. apply IHF in I. destruct I as (y' & ? & ?). eauto. Qed.
Lemma feature_map_nth : forall cols a i, NoDup cols -> dget a (feature_map cols) = Some i -> nth_error cols i = Some a.
Proof.
  intros cols a i N EG. unfold feature_map in EG. rewrite dict_of_id in EG by (rewrite combine_fst; [exact N|now rewrite seq_length]).
  assert (Q : forall cols n, dget a (combine cols (seq n (List.length cols))) = Some i -> n <= i /\ nth_error cols (i - n) = Some a).
  { clear. induction cols as [|c cols IH]; intros n H; simpl in H; [discriminate|]. destruct (key_eqb a c) eqn:EK.
    - injection H as <-. rewrite Nat.sub_diag. apply key_eqb_eq in EK. subst. auto.
    - apply IH in H. destruct H as [H1 H2]. split; [lia|]. replace (i - n) with (S (i - S n)) by lia. exact H2. }
  destruct (Q cols 0 EG) as [_ Q']. now rewrite Nat.sub_0_r in Q'.
Qed.
Lemma constraint_at : forall m X d cm, NoDup (map fst (y_constraints (py_params m))) -> NoDup (columns X) ->
  standardize_monotonicity_map m X = inl d -> int_map_to_constraint_map d = inl cm ->
  forall j k v, key_of X j = Some k -> In (k, v) (y_constraints (py_params m)) -> exists c, int_to_constraint v = inl c /\ assoc j cm = Some c.
Proof.
  intros m X d cm ND NC HD HC j k v HK HI. unfold standardize_monotonicity_map, key_of, columns in *.
  assert (G : NoDup (map fst d) /\ In (KNat j, v) d).
  { destruct (x_names X) as [cols|].
    - destruct (emapM _ _) as [l|e] eqn:EL; [|discriminate]. cbn [ebind] in HD. injection HD as <-. apply emapM_F2 in EL.
      assert (F : Forall2 (fun kv kv' : pykey * Z => numbered cols (fst kv) (fst kv') /\ snd kv' = snd kv) (y_constraints (py_params m)) l).
      { eapply F2_impl; [|exact EL]. intros [a b] [a' b'] E. simpl in E. destruct (dget a (feature_map cols)) as [i|] eqn:EG; [|discriminate].
        cbn [or_raise ebind] in E. injection E as <- <-. simpl. split; auto. exists i. split; auto.
        now apply feature_map_nth. }
      assert (NL : NoDup (map fst l)).
      { apply (F2_nodup _ _ (numbered cols) (map fst (y_constraints (py_params m)))); auto; [intros; eapply numbered_inj; eauto|].
        apply F2_map. eapply F2_impl; [|exact F]. intros a b [H _]. exact H. }
      rewrite dict_of_id by exact NL. split; [exact NL|].
      destruct (F2_In_l _ _ _ _ _ _ F HI) as ([a' b'] & I & (i & Hi & E) & EV). simpl in *. subst. assert (EIJ : i = j) by (apply (proj1 (NoDup_nth_error cols) NC); [eapply nth_error_Some_lt; eauto|rewrite Hi; symmetry; exact HK]).
      subst. exact I.
    - injection HD as <-. injection HK as <-. auto. }
  destruct G as [N I]. pose proof (constraint_map_nodup _ _ HC N) as NM. unfold int_map_to_constraint_map in HC.
  destruct (emapM _ d) as [l|e] eqn:EL; [|discriminate]. cbn [ebind] in HC. apply emapM_F2 in EL. apply emapM_F2 in HC.
  destruct (F2_In_l _ _ _ _ _ _ EL I) as ([a b] & Ia & E). cbn [to_usize KNat] in E.
  destruct (Z.of_nat j <? 0)%Z eqn:EZ; [apply Z.ltb_lt in EZ; lia|]. cbn [ebind] in E. destruct (to_i8 v) as [v'|] eqn:E8; [|discriminate]. cbn [ebind] in E. injection E as <- <-.
  assert (v' = v) by (unfold to_i8 in E8; destruct (_ || _)%bool; congruence). subst v'.
  destruct (F2_In_l _ _ _ _ _ _ HC Ia) as ([a b] & Ib & E). cbn in E. destruct (int_to_constraint v) as [c|]; [|discriminate]. cbn [ebind] in E. injection E as <- <-.
  exists c. split; auto. rewrite Nat2Z.id in *. now apply assoc_nodup.
Qed.

Lemma treatment_text : forall s t, de_treatment (JStr s) = Some t ->
  match t with AverageLeafWeight => s = "AverageLeafWeight"%string | AverageNodeWeight => s = "AverageNodeWeight"%string | _ => True end.
Proof.
  intros s t H. cbn [de_treatment] in H.
  repeat match goal with H : context [match ?x with EmptyString => _ | String _ _ => _ end] |- _ => is_var x; destruct x; try discriminate
  | H : context [match ?x with Ascii.Ascii _ _ _ _ _ _ _ _ => _ end] |- _ => is_var x; destruct x
  | H : context [if ?x then _ else _] |- _ => is_var x; destruct x; try discriminate end; injection H as <-; auto.
Qed.
Lemma py_fit_parts : forall y E m X t w ev m', NoDup (map fst (y_constraints y)) -> life pc y m -> py_fit pc E m X t w ev = Some (m', None) ->
  exists d dm cm s ts m1 evs b0 b, decodes y d /\ standardize_monotonicity_map m X = inl dm /\ int_map_to_constraint_map dm = inl cm /\
    standardize_terminate m X = inl s /\ emapM to_usize s = inl ts /\ py_evals m1 ev = inl evs /\ py_names m' = py_names m1 /\
    gb_params b0 = rust_params y d cm ts /\ validate_parameters (gb_params b0) = None /\ clean b0 /\ y_constraints (py_params m) = y_constraints y /\ y_terminate (py_params m) = y_terminate y /\ gb_base_score b0 = gb_base_score (py_booster m) /\
    fit E b0 (frame_matrix X) t (match w with Some w => w | None => repeat (fone f64) (List.length t) end) evs = Some (b, None) /\ py_booster m' = b /\ gb_params b = gb_params b0.
Proof.
  intros y E m X t w ev m' ND L H. pose proof (life_sane pc y m ND L) as S. pose proof (life_clean pc y m L) as C. destruct S as [S1 _ _ (d & cm0 & ts0 & D & V & P & _) _ _].
  destruct (features_booster pc m X) as (F1 & F2 & F3 & F4 & F5 & _).
  unfold py_fit in H. cbv zeta in H. set (m1 := fit_features pc m X) in *.
  assert (PP : py_params m1 = py_params m) by (unfold m1, fit_features; destruct (columns X); reflexivity).
  assert (SM : standardize_monotonicity_map m1 X = standardize_monotonicity_map m X) by (unfold standardize_monotonicity_map; now rewrite PP).
  rewrite SM in H. destruct (standardize_monotonicity_map m X) as [dm|er]; cbn [ebind] in H; [|discriminate].
  destruct (int_map_to_constraint_map dm) as [cm|er] eqn:EM; [|discriminate].
  match type of H with context [standardize_terminate ?m2 X] => assert (ST : standardize_terminate m2 X = standardize_terminate m X) by (unfold standardize_terminate; cbn [with_booster py_params]; now rewrite PP) end.
  rewrite ST in H. clear ST. destruct (standardize_terminate m X) as [s|er]; cbn [ebind] in H; [|discriminate].
  destruct (emapM to_usize s) as [ts|er] eqn:ET; [|discriminate]. cbn [py_booster with_booster] in H.
  match type of H with context [py_evals ?x ev] => set (m2 := x) in H; destruct (py_evals m2 ev) as [evs|er] eqn:EV; [|discriminate] end. inv_bind H. destruct v as [b [fe|]]; [discriminate|]. injection H as <-.
  match type of E0 with fit _ ?x _ _ _ _ = _ => set (b0 := x) in * end.
  exists d, dm, cm, s, ts, m2, evs, b0, b. split; [exact D|]. split; [reflexivity|]. split; [exact EM|].
  split; [reflexivity|]. split; [exact ET|]. split; [exact EV|]. split; [reflexivity|].
  assert (EP : gb_params b0 = rust_params y d cm ts) by (unfold b0; simpl; rewrite F1, P; reflexivity).
  split; [exact EP|]. split; [rewrite EP; exact V|].
  split; [unfold clean, b0; simpl; rewrite F2, F3, F4; exact C|]. split; [rewrite S1; reflexivity|]. split; [rewrite S1; reflexivity|]. split; [unfold b0, m1, fit_features; simpl; destruct (columns X); reflexivity|]. split; [exact E0|]. split; [reflexivity|].
  eapply fit_params_any; eauto.
Qed.

(** *** What a fit from Python does, in terms of the options the user gave *)
Definition sign_of (c : Constraint) : Z := match c with Positive => 1 | Negative => -1 | Unconstrained => 0 end%Z.
Definition constraint_of (p : Params) (j : nat) : option Constraint := match p_monotone_constraints p with Some m => assoc j m | None => None end.
Local Open Scope string_scope.
Definition objective_names := [("LogLoss", LogLoss); ("SquaredLoss", SquaredLoss)].
Definition policy_names := [("DepthWise", DepthWise); ("LossGuide", LossGuide)].
Definition metric_names := [("AUC", AUC); ("LogLoss", MLogLoss); ("RootMeanSquaredLogError", RootMeanSquaredLogError); ("RootMeanSquaredError", RootMeanSquaredError)].
Definition treatment_names :=
  [("None", TNone); ("AssignToParent", AssignToParent); ("AverageLeafWeight", AverageLeafWeight); ("AverageNodeWeight", AverageNodeWeight)].
(** sample_method and subsample as given; the row sampling done *)
Definition sampling (given : option string) (below_one : bool) (s : SampleMethod) : Prop :=
  match given with
  | None => s = if below_one then SRandom else SNone
  | Some g => if (String.eqb g "goss" || String.eqb g "Goss")%bool then s = SGoss else s = SRandom
  end.
Record options_used (y : PyParams) (X : Frame) (p : Params) : Prop := {
  ou_objective : In (y_objective y, p_objective p) objective_names;
  ou_policy : In (y_grow_policy y, p_grow_policy p) policy_names;
  ou_metric : match y_evaluation_metric y, p_evaluation_metric p with None, None => True | Some s, Some me => In (s, me) metric_names | _, _ => False end;
  ou_treatment : In (y_missing_node_treatment y, p_missing_node_treatment p) treatment_names;
  ou_sampling : sampling (y_sample_method y) (y_subsample y <? fone f64)%f64 (p_sample_method p);
  ou_counts : p_iterations p = y_iterations y /\ p_max_depth p = y_max_depth y /\ p_max_leaves p = y_max_leaves y /\ p_nbins p = y_nbins y /\ p_seed p = y_seed y /\
    p_early_stopping_rounds p = y_early_stopping_rounds y /\ p_log_iterations p = y_log_iterations y;
  ou_single : p_learning_rate p = to32 (y_learning_rate y) /\ p_l1 p = to32 (y_l1 y) /\ p_l2 p = to32 (y_l2 y) /\ p_gamma p = to32 (y_gamma y) /\
    p_max_delta_step p = to32 (y_max_delta_step y) /\ p_min_leaf_weight p = to32 (y_min_leaf_weight y) /\ p_subsample p = to32 (y_subsample y);
  ou_double : p_top_rate p = y_top_rate y /\ p_other_rate p = y_other_rate y /\ p_colsample_bytree p = y_colsample_bytree y /\ p_missing p = y_missing y;
  ou_flags : p_parallel p = y_parallel y /\ p_allow_missing_splits p = y_allow_missing_splits y /\ p_create_missing_branch p = y_create_missing_branch y /\
    p_initialize_base_score p = y_initialize_base_score y /\ p_force_children_to_bound_parent p = y_force_children_to_bound_parent y;
  ou_constraints : forall j k, key_of X j = Some k ->
    (forall v, In (k, v) (y_constraints y) -> exists c, constraint_of p j = Some c /\ sign_of c = v) /\
    (~ In k (map fst (y_constraints y)) -> constraint_of p j = None);
  ou_terminate : forall j k, key_of X j = Some k -> (In j (p_terminate_missing_features p) <-> In k (y_terminate y)) }.
(** the matrix holds the cells of the frame *)
Definition holds (d : Matrix F64) (X : Frame) : Prop :=
  m_rows d = List.length (x_rows X) /\ m_cols d = x_cols X /\ m_index d = seq 0 (List.length (x_rows X)) /\
  forall i row, nth_error (x_rows X) i = Some row -> forall j, m_get d i j = nth_error row j.
Definition ones_unless (w : option (list F64)) (n : nat) (w' : list F64) : Prop :=
  match w with Some w => w' = w | None => List.length w' = n /\ forall v, In v w' -> v = fone f64 end.

Lemma objective_named : forall s o, de_objective (JStr s) = Some o -> In (s, o) objective_names.
Proof. intros s o H. named H. Qed.
Lemma policy_named : forall s o, de_policy (JStr s) = Some o -> In (s, o) policy_names.
Proof. intros s o H. named H. Qed.
Lemma metric_named : forall s o, de_metric (JStr s) = Some o -> In (s, o) metric_names.
Proof. intros s o H. named H. Qed.
Lemma treatment_named : forall s o, de_treatment (JStr s) = Some o -> In (s, o) treatment_names.
Proof. intros s o H. named H. Qed.
Lemma sample_name_goss : forall g, sample_name g = (if (String.eqb g "goss" || String.eqb g "Goss")%bool then "Goss" else "Random").
Proof. intros g. unfold sample_name. cbn [sget SAMPLE_METHODS]. repeat (destruct (String.eqb g _); [reflexivity|]). reflexivity. Qed.
Lemma sampled : forall y s, de_method (JStr (sample_method_ y)) = Some s -> sampling (y_sample_method y) (y_subsample y <? fone f64)%f64 s.
Proof.
  intros y s H. unfold sample_method_, sampling in *. cbv zeta in H. destruct (y_sample_method y) as [g|].
  - rewrite sample_name_goss in H. destruct (String.eqb g "goss" || String.eqb g "Goss")%bool; destruct (_ <? _)%f64; cbn in H; congruence.
  - destruct (y_subsample y <? fone f64)%f64; cbn in H; congruence.
Qed.
Lemma F2_In_r : forall A B (R : A -> B -> Prop) l r y, Forall2 R l r -> In y r -> exists x, In x l /\ R x y.
Proof. intros A B R l r x F. induction F; simpl; [tauto|]. intros [-> |I]; [eauto|]. apply IHF in I. destruct I as (y' & ? & ?). eauto. Qed.
Lemma dget_In : forall V k (d : list (pykey * V)) v, dget k d = Some v -> In (k, v) d.
Proof.
  induction d as [|[a b] d IH]; simpl; intros v H; [discriminate|]. destruct (key_eqb k a) eqn:E; [|auto]. apply key_eqb_eq in E. injection H as ->. subst. auto.
Qed.
Lemma dset_In : forall V k (v : V) d k' v', In (k', v') (dset k v d) -> (k', v') = (k, v) \/ In (k', v') d.
Proof.
  induction d as [|[a b] d IH]; simpl; intros k' v' H; [destruct H as [H|[]]; auto|]. destruct (key_eqb k a) eqn:E; simpl in H; destruct H as [H|H]; auto.
  - apply key_eqb_eq in E. subst. left. congruence.
  - apply IH in H. tauto.
Qed.
Lemma dict_of_In : forall V (l : list (pykey * V)) k v, In (k, v) (dict_of l) -> In (k, v) l.
Proof.
  intros V l k v. unfold dict_of. rewrite <- fold_left_rev_right. intros H.
  assert (G : In (k, v) (rev l)); [|now apply in_rev in G]. induction (rev l) as [|[a b] r IH]; simpl in H; [destruct H|].
  apply dset_In in H. simpl. destruct H as [H|H]; [left; symmetry; exact H|right; auto].
Qed.
Lemma assoc_In : forall A (l : list (nat * A)) k v, assoc k l = Some v -> In (k, v) l.
Proof. induction l as [|[a b] l IH]; simpl; intros k v H; [discriminate|]. destruct (Nat.eqb_spec k a) as [-> |]; [injection H as ->; auto|auto]. Qed.
Lemma constraint_none : forall m X d cm, NoDup (columns X) -> standardize_monotonicity_map m X = inl d -> int_map_to_constraint_map d = inl cm ->
  forall j k, key_of X j = Some k -> ~ In k (map fst (y_constraints (py_params m))) -> assoc j cm = None.
Proof.
  intros m X d cm NC HD HC j k HK NI. destruct (assoc j cm) as [c|] eqn:EA; [|reflexivity]. exfalso. apply assoc_In in EA.
  unfold int_map_to_constraint_map in HC. destruct (emapM _ d) as [l|e] eqn:EL; [|discriminate]. cbn [ebind] in HC. apply emapM_F2 in EL. apply emapM_F2 in HC.
  destruct (F2_In_r _ _ _ _ _ _ HC EA) as ([a v] & Ia & E). cbn in E. destruct (int_to_constraint v); [|discriminate]. injection E as -> ->.
  destruct (F2_In_r _ _ _ _ _ _ EL Ia) as ([a v'] & Ib & E). destruct (to_usize a) as [a'|] eqn:EU; [|discriminate]. cbn [ebind] in E. destruct (to_i8 v'); [|discriminate]. injection E as -> ->.
  assert (a = KNat j).
  { unfold to_usize in EU. destruct a as [z|]; [|discriminate]. destruct (z <? 0)%Z eqn:EZ; [discriminate|]. injection EU as <-. apply Z.ltb_ge in EZ. unfold KNat. now rewrite Z2Nat.id. }
  subst a. unfold standardize_monotonicity_map, key_of, columns in *. destruct (x_names X) as [cols|].
  - destruct (emapM _ (y_constraints _)) as [l'|e] eqn:EL'; [|discriminate]. injection HD as <-. apply dict_of_In in Ib. apply emapM_F2 in EL'.
    destruct (F2_In_r _ _ _ _ _ _ EL' Ib) as ([f u] & If & E). destruct (dget f (feature_map cols)) as [i|] eqn:EG; [|discriminate]. cbn in E. injection E as E1 E2.
    apply feature_map_nth in EG; auto. assert (i = j) by lia. subst i. apply NI. apply in_map_iff. exists (f, u). split; [simpl; congruence|auto].
  - injection HD as <-. injection HK as <-. apply NI. apply in_map_iff. exists (KNat j, v'). auto.
Qed.
Lemma sadd_In : forall l s k, In k (fold_left sadd l s) <-> In k s \/ In k l.
Proof.
  induction l as [|a l IH]; simpl; intros s k; [tauto|]. rewrite IH. unfold sadd. destruct (existsb (key_eqb a) s) eqn:E.
  - apply existsb_exists in E. destruct E as (b & Ib & E). apply key_eqb_eq in E. subst. split; [tauto|]. intros [H|[-> |H]]; auto.
  - rewrite in_app_iff. simpl. tauto.
Qed.
Lemma usize_of : forall k n, to_usize k = inl n <-> k = KNat n.
Proof.
  intros k n. unfold to_usize, KNat. destruct k as [z|s]; [|split; discriminate]. destruct (z <? 0)%Z eqn:EZ.
  - apply Z.ltb_lt in EZ. split; [discriminate|]. intros [= E]. lia.
  - apply Z.ltb_ge in EZ. split; [intros [= <-]; f_equal; lia|]. intros [= ->]. f_equal. lia.
Qed.
Lemma terminate_at : forall m X s ts, NoDup (columns X) -> standardize_terminate m X = inl s -> emapM to_usize s = inl ts ->
  forall j k, key_of X j = Some k -> (In j ts <-> In k (y_terminate (py_params m))).
Proof.
  intros m X s ts NC HS HT j k HK. apply emapM_F2 in HT.
  assert (J : In j ts <-> In (KNat j) s).
  { split; intros H; [destruct (F2_In_r _ _ _ _ _ _ HT H) as (a & Ia & E)|destruct (F2_In_l _ _ _ _ _ _ HT H) as (a & Ia & E)].
    - apply usize_of in E. now subst.
    - cbn beta in E. assert (E' : to_usize (KNat j) = inl j) by now apply usize_of. congruence. }
  rewrite J. clear J HT. unfold standardize_terminate, key_of, columns in *. destruct (x_names X) as [cols|].
  - destruct (emapM _ (y_terminate _)) as [l|e] eqn:EL; [|discriminate]. injection HS as <-. unfold set_of. rewrite sadd_In. apply emapM_F2 in EL. split; intros H.
    + destruct H as [[]|H]. destruct (F2_In_r _ _ _ _ _ _ EL H) as (f & If & E). destruct (dget f (feature_map cols)) as [i|] eqn:EG; [|discriminate]. cbn in E. injection E as E.
      apply feature_map_nth in EG; auto. assert (i = j) by lia. subst i. congruence.
    + right. destruct (F2_In_l _ _ _ _ _ _ EL H) as (f & If & E). rewrite (feature_map_get cols k j) in E by auto. cbn in E. injection E as <-. exact If.
  - injection HS as <-. injection HK as <-. unfold set_of. rewrite sadd_In. simpl. tauto.
Qed.
Lemma frame_holds : forall X, frame_ok X -> holds (frame_matrix X) X.
Proof. intros X HX. repeat split. intros i row Hi j. now apply frame_get. Qed.
Lemma repeat_ones : forall w n, ones_unless w n (match w with Some w => w | None => repeat (fone f64) n end).
Proof. intros [w|] n; simpl; auto. split; [apply repeat_length|]. intros v H. eapply repeat_spec; eauto. Qed.

Theorem python_fit : forall y m E X t w ev m', NoDup (map fst (y_constraints y)) -> life pc y m -> frame_ok X -> NoDup (columns X) ->
  (forall l Xe te we, ev = Some l -> In (Xe, te, we) l -> frame_ok Xe) -> py_fit pc E m X t w ev = Some (m', None) ->
  exists b0 data w' evs b, options_used y X (gb_params b0) /\ gb_base_score b0 = gb_base_score (py_booster m) /\ validate_parameters (gb_params b0) = None /\ clean b0 /\
    holds data X /\ ones_unless w (List.length t) w' /\
    match ev, evs with
    | None, None => True
    | Some l, Some l' => Forall2 (fun '(Xe, te, we) '(d, te', we') => holds d Xe /\ te' = te /\ ones_unless we (List.length (x_rows Xe)) we') l l'
    | _, _ => False end /\
    fit E b0 data t w' evs = Some (b, None) /\ py_booster m' = b.
Proof.
  intros y m E X t w ev m' ND L HX NC HE H.
  destruct (py_fit_parts y E m X t w ev m' ND L H) as (d & dm & cm & s & ts & m1 & evs & b0 & b & D & SM & IM & SS & ST & EV & _ & EP & VP & C & EY & ET & EB0 & HF & EB & EPB).
  exists b0, (frame_matrix X), (match w with Some w => w | None => repeat (fone f64) (List.length t) end), evs, b.
  split; [|repeat (split; [solve [auto using frame_holds, repeat_ones]|])].
  - rewrite EP. destruct D as (D1 & D2 & D3 & D4 & D5).
    split; cbn [rust_params p_objective p_grow_policy p_evaluation_metric p_missing_node_treatment p_sample_method]; try (repeat split; fail).
    + now apply objective_named.
    + now apply policy_named.
    + destruct (y_evaluation_metric y), (d_me d); auto. now apply metric_named.
    + now apply treatment_named.
    + now apply sampled.
    + intros j k HK. unfold constraint_of. cbn [p_monotone_constraints rust_params]. split.
      * intros v HI. destruct (constraint_at m X dm cm) with (j := j) (k := k) (v := v) as (c & C1 & C2); auto; try (rewrite EY; auto). exists c. split; auto.
        unfold int_to_constraint in C1. destruct v as [|[| |]|[| |]]; try discriminate; injection C1 as <-; reflexivity.
      * intros NI. eapply constraint_none; eauto. now rewrite EY.
    + intros j k HK. cbn [p_terminate_missing_features rust_params]. rewrite <- ET. eapply terminate_at; eauto.
  - split; [|auto]. unfold py_evals in EV. destruct ev as [l|]; [|injection EV as <-; auto]. destruct (emapM (py_eval m1) l) as [l'|e] eqn:EL; [|discriminate]. injection EV as <-.
    apply emapM_F2 in EL. assert (HE' : forall Xe te we, In (Xe, te, we) l -> frame_ok Xe) by (intros; eapply HE; eauto). clear - EL HE'.
    induction EL as [|[[Xe te] we] [[d te'] we'] l l' E F IH]; constructor; [|apply IH; intros; eapply HE'; right; eauto].
    unfold py_eval in E. destruct (validate_features m1 (columns Xe)); [|discriminate]. cbn [ebind] in E. injection E as <- <- <-.
    split; [apply frame_holds; eapply HE'; left; reflexivity|]. split; auto. apply repeat_ones.
Qed.

(** *** Evaluation history *)
Lemma F2_impl_in : forall A B (P Q : A -> B -> Prop) l r, (forall a b, In a l -> P a b -> Q a b) -> Forall2 P l r -> Forall2 Q l r.
Proof. intros A B P Q l r I F. induction F; constructor; [apply I; simpl; auto|]. apply IHF. intros; apply I; simpl; auto. Qed.
Lemma history_rows : forall E b data y w es b' shs par, clean b -> fit E b data y w (Some es) = Some (b', None) -> gb_trees b' <> [] ->
  (forall d ey ew, In (d, ey, ew) es -> List.length ey = m_rows d) ->
  exists rows, gb_history b' = Some (mkRowMajor (List.concat rows) (List.length rows) (List.length es)) /\ List.length rows = List.length (gb_trees b') /\
    forall k row, nth_error rows k = Some row ->
    Forall2 (fun '(d, ey, ew) v => exists p, predict shs (model_prefix b' (k + 1)) d par = Some p /\ metric_fn (e_auc E) (get_metric (gb_params b)) ey p ew = Some v) es row.
Proof.
  intros E b data y w es b' shs par C H NT LE. apply fit_ok in H. destruct H as [_ H].
  destruct (fit_trees_BI _ _ _ _ _ _ _ C H) as (bd & base & l & _ & _ & -> & B & L & ST).
  destruct B as [B1 B2 B3 B4 B5 B6 B7 (yhs & rows & ms & A1 & A2 & A3 & A4 & A5 & A6 & A7 & A8 & A9)].
  set (k0 := List.length (gb_trees (l_booster l))) in *.
  assert (K0 : k0 <> 0) by (unfold k0; destruct (gb_trees (l_booster l)); [tauto|discriminate]).
  exists rows. simpl. assert (LR : List.length rows = k0) by lia.
  split; [rewrite LR, A3; destruct k0; [tauto|reflexivity]|]. split; [exact LR|].
  intros k row Hk. pose proof (A6 _ _ Hk) as F. assert (LK : k < k0) by (rewrite <- LR; eapply nth_error_Some_lt; eauto).
  eapply F2_impl_in; [|exact F]. intros [[d ey] ew] v I (p & HP & HM). unfold eval_preds in HP. simpl in HP, HM. exists p. split; [|exact HM].
  rewrite predict_prefix by (fold k0; lia). rewrite B1, B2. rewrite <- (LE d ey ew) by exact I. rewrite Nat.add_1_r. exact HP.
Qed.

(** the metric in use *)
Definition metric_used (y : PyParams) (me : Metric) : Prop :=
  match y_evaluation_metric y with
  | Some s => In (s, me) metric_names
  | None => In (y_objective y, me) [("LogLoss", MLogLoss); ("SquaredLoss", RootMeanSquaredLogError)]
  end.
Lemma metric_is_used : forall y d cm ts, decodes y d -> metric_used y (get_metric (rust_params y d cm ts)).
Proof.
  intros y d cm ts (D1 & _ & _ & D4 & _). unfold metric_used, get_metric. cbn [p_evaluation_metric rust_params p_objective].
  destruct (y_evaluation_metric y), (d_me d); try tauto; [now apply metric_named|]. apply objective_named in D1. simpl in *.
  destruct D1 as [D1|[D1|[]]]; injection D1 as E1 E2; rewrite <- E2, <- E1; simpl; auto.
Qed.

Theorem python_history : forall y m E X t w l m', NoDup (map fst (y_constraints y)) -> life pc y m ->
  (forall Xe te we, In (Xe, te, we) l -> frame_ok Xe /\ List.length te = List.length (x_rows Xe)) ->
  py_fit pc E m X t w (Some l) = Some (m', None) -> gb_trees (py_booster m') <> [] ->
  forall shs par, exists H me, py_evaluation_history m' = inl (Some H) /\ List.length H = List.length (gb_trees (py_booster m')) /\ metric_used y me /\
    forall k row, nth_error H k = Some row ->
    Forall2 (fun '(Xe, te, we) v => exists p w', py_predict shs (py_set_prediction_iteration m' (k + 1)) Xe par = Some (inl p) /\
      ones_unless we (List.length (x_rows Xe)) w' /\ metric_fn (e_auc E) me te p w' = Some v) l row.
Proof.
  intros y m E X t w l m' ND L HE H NT shs par.
  destruct (py_fit_parts y E m X t w (Some l) m' ND L H) as (d & dm & cm & s & ts & m1 & evs & b0 & b & D & SM & IM & _ & _ & EV & EN & EP & VP & C & EY & _ & _ & HF & EB & EPB).
  cbn [py_evals] in EV. destruct (emapM (py_eval m1) l) as [l'|e] eqn:EL; [|discriminate]. injection EV as <-. apply emapM_F2 in EL. subst b.
  assert (LE : forall d0 ey ew, In (d0, ey, ew) l' -> List.length ey = m_rows d0).
  { intros d0 ey ew I. destruct (F2_In_r _ _ _ _ _ _ EL I) as ([[Xe te] we] & Ie & E1). unfold py_eval in E1. destruct (validate_features m1 (columns Xe)); [|discriminate].
    cbn [ebind] in E1. injection E1 as <- <- <-. simpl. eapply HE; eauto. }
  destruct (history_rows E b0 _ _ _ _ _ shs (parallel_ m' par) C HF NT LE) as (rows & HH & LR & HR).
  exists rows, (get_metric (gb_params b0)). split; [|split; [exact LR|split; [rewrite EP; now apply metric_is_used|]]].
  - unfold py_evaluation_history. rewrite HH. cbn [r_rows r_cols r_data]. rewrite reshape_concat; auto. intros row I. apply In_nth_error in I. destruct I as [k Hk].
    symmetry. apply (F2_length (HR k row Hk)).
  - intros k row Hk. pose proof (HR k row Hk) as F. clear - EL F EN. revert row F.
    induction EL as [|[[Xe te] we] [[dm te'] we'] l l' E1 EL IH]; intros row F; inversion F; subst; constructor; auto.
    destruct H1 as (p & HP & HM). unfold py_eval in E1. destruct (validate_features m1 (columns Xe)) eqn:EVF; [|discriminate]. cbn [ebind] in E1. injection E1 as <- <- <-.
    exists p, (match we with Some w => w | None => repeat (fone f64) (List.length (x_rows Xe)) end). split; [|split; [apply repeat_ones|exact HM]].
    unfold py_predict, if_valid. assert (EQ : validate_features (py_set_prediction_iteration m' (k + 1)) (columns Xe) = validate_features m1 (columns Xe)).
    { unfold validate_features. cbn [py_set_prediction_iteration with_booster py_names]. now rewrite EN. }
    rewrite EQ, EVF. change (parallel_ (py_set_prediction_iteration m' (k + 1)) par) with (parallel_ m' par).
    change (py_booster (py_set_prediction_iteration m' (k + 1))) with (model_prefix (py_booster m') (k + 1)). rewrite HP. reflexivity.
Qed.

(** the property of a trained model, as a hypothesis; PropWeights proves it for IEEE and exact arithmetic *)
Hypothesis model_monotone : forall (E : Env) b data y w es b', clean b -> validate_parameters (gb_params b) = None -> rng_ok E (gb_params b) ->
  fit E b data y w es = Some (b', None) -> no_average (splitter_of (gb_params b)) ->
  (forall f, f < m_cols data -> constrained (splitter_of (gb_params b)) f) ->
  forall shs par data' preds i1 i2 f v1 v2 p1 p2, f < m_cols data ->
  predict shs b' data' par = Some preds -> List.length (m_index data') = m_rows data' ->
  nth_error preds i1 = Some p1 -> nth_error preds i2 = Some p2 ->
  forall r1 r2, nth_error (m_index data') i1 = Some r1 -> nth_error (m_index data') i2 = Some r2 ->
  m_get data' r1 f = Some v1 -> m_get data' r2 f = Some v2 ->
  is_missing v1 (p_missing (gb_params b)) = Some false -> is_missing v2 (p_missing (gb_params b)) = Some false ->
  (forall k, k <> f -> m_get data' r1 k = m_get data' r2 k) -> fle f64 v1 v2 = true ->
  ordered (splitter_of (gb_params b)) f f64 p1 p2.

Theorem python_monotone : forall y m E X t w ev m', NoDup (map fst (y_constraints y)) -> life pc y m -> rng_ok E (gb_params (py_booster m)) ->
  frame_ok X -> NoDup (columns X) -> y_create_missing_branch y = false \/ y_missing_node_treatment y <> "AverageLeafWeight"%string /\ y_missing_node_treatment y <> "AverageNodeWeight"%string ->
  (forall j, j < x_cols X -> exists k v, key_of X j = Some k /\ In (k, v) (y_constraints y) /\ (v = 1%Z \/ v = (-1)%Z)) ->
  py_fit pc E m X t w ev = Some (m', None) ->
  forall shs par X' p i1 i2 row1 row2 j k v x1 x2 p1 p2, frame_ok X' -> x_cols X' = x_cols X ->
  py_predict shs m' X' par = Some (inl p) -> nth_error (x_rows X') i1 = Some row1 -> nth_error (x_rows X') i2 = Some row2 ->
  nth_error p i1 = Some p1 -> nth_error p i2 = Some p2 ->
  key_of X j = Some k -> In (k, v) (y_constraints y) -> nth_error row1 j = Some x1 -> nth_error row2 j = Some x2 ->
  is_missing x1 (y_missing y) = Some false -> is_missing x2 (y_missing y) = Some false ->
  (forall n, n <> j -> nth_error row1 n = nth_error row2 n) -> (x1 <=? x2)%f64 = true ->
  if (v =? 1)%Z then (p2 <? p1)%f64 = false else (p1 <? p2)%f64 = false.
Proof.
  intros y m E X t w ev m' ND L R HX NC NA AC H shs par X' p i1 i2 row1 row2 j k v x1 x2 p1 p2 HX' HC HP R1 R2 P1 P2 HK HI V1 V2 M1 M2 OT LE.
  destruct (py_fit_parts y E m X t w ev m' ND L H) as (d & dm & cm & s & ts & m1 & evs & b0 & b & D & SM & IM & _ & _ & _ & _ & EP & VP & C & EY & _ & _ & HF & EB & EPB).
  assert (AT : forall j k v, key_of X j = Some k -> In (k, v) (y_constraints y) -> exists c, int_to_constraint v = inl c /\ get_constraint (splitter_of (gb_params b0)) j = Some c).
  { intros j0 k0 v0 HK0 HI0. destruct (constraint_at m X dm cm) with (j := j0) (k := k0) (v := v0) as (c & C1 & C2); auto; try (rewrite EY; auto).
    exists c. split; auto. rewrite EP. unfold get_constraint, splitter_of. cbn [p_monotone_constraints rust_params p_create_missing_branch]. destruct (y_create_missing_branch y); exact C2. }
  assert (HJ : j < x_cols X). { rewrite <- HC, <- (proj1 HX' row1 (nth_error_In _ _ R1)). eapply nth_error_Some_lt; eauto. }
  assert (RO : rng_ok E (gb_params b0)).
  { destruct (life_sane pc y m ND L) as [_ _ _ (d' & cm0 & ts0 & _ & _ & P & _) _ _]. rewrite P in R. rewrite EP. exact R. }
  assert (NAV : no_average (splitter_of (gb_params b0))).
  { rewrite EP. unfold no_average, splitter_of. cbn [p_create_missing_branch rust_params p_missing_node_treatment]. destruct (y_create_missing_branch y); auto.
    destruct NA as [NA|[NA1 NA2]]; [discriminate|]. destruct D as (_ & _ & _ & _ & D). apply treatment_text in D. destruct (d_tr d); auto; exfalso; auto. }
  unfold py_predict in HP.
  assert (IV : exists ps, predict shs b (frame_matrix X') (parallel_ m' par) = Some ps /\ ps = p).
  { unfold if_valid in HP. destruct (validate_features _ _); [|discriminate]. rewrite EB in HP. inv_bind HP. injection HP as ->. eauto. }
  destruct IV as (ps & HPR & ->).
  assert (ROWS : forall i row, nth_error (x_rows X') i = Some row -> nth_error (m_index (frame_matrix X')) i = Some i /\ forall f, m_get (frame_matrix X') i f = nth_error row f).
  { intros i row Hi. split; [|intros f; now apply frame_get]. assert (Li : i < List.length (x_rows X')) by (eapply nth_error_Some_lt; eauto).
    cbn [frame_matrix matrix_new m_index]. rewrite (nth_error_nth' _ 0) by (now rewrite seq_length). now rewrite seq_nth. }
  destruct (ROWS _ _ R1) as [I1 G1]. destruct (ROWS _ _ R2) as [I2 G2].
  pose proof (model_monotone E b0 (frame_matrix X) t _ evs b C VP RO HF NAV) as MM.
  specialize (MM (fun f Hf => ltac:(destruct (AC f Hf) as (k0 & v0 & K0 & K1 & K2); destruct (AT f k0 v0 K0 K1) as (c & C1 & C2); unfold constrained; rewrite C2; destruct K2 as [-> | ->]; injection C1 as <-; auto))).
  specialize (MM shs (parallel_ m' par) (frame_matrix X') p i1 i2 j x1 x2 p1 p2 HJ HPR).
  assert (O : ordered (splitter_of (gb_params b0)) j f64 p1 p2).
  { apply MM with (r1 := i1) (r2 := i2); auto; try (rewrite EP; assumption); try (rewrite G1; assumption); try (rewrite G2; assumption).
    - simpl. now rewrite seq_length.
    - intros n Hn. rewrite G1, G2. auto. }
  destruct (AT j k v HK HI) as (c & C1 & C2). unfold ordered, dir_of in O. rewrite C2 in O.
  destruct (AC j HJ) as (k' & v' & K0 & K1 & K2). assert (k' = k) by congruence. subst k'.
  assert (v' = v). { clear - ND K1 HI. induction (y_constraints y) as [|[a z] l IH]; [destruct HI|]. simpl in ND. inversion ND; subst.
    destruct K1 as [[= -> ->]|K1]; destruct HI as [[= ->]|HI]; auto; exfalso; apply H1; apply in_map_iff; [exists (k, v)|exists (k, v')]; auto. }
  subst v'. destruct K2 as [-> | ->]; cbn in C1; injection C1 as <-; exact O.
Qed.
End Mono.

(** *** Names of the contribution methods *)
Local Open Scope string_scope.
Definition contribution_names : list (string * ContributionsMethod) :=
  [("weight", CWeight); ("Weight", CWeight); ("average", CAverage); ("Average", CAverage);
   ("branch-difference", CBranchDifference); ("branchdifference", CBranchDifference); ("BranchDifference", CBranchDifference);
   ("midpoint-difference", CMidpointDifference); ("midpointdifference", CMidpointDifference); ("MidpointDifference", CMidpointDifference);
   ("mode-difference", CModeDifference); ("modedifference", CModeDifference); ("ModeDifference", CModeDifference);
   ("probability-change", CProbabilityChange); ("probabilitychange", CProbabilityChange); ("ProbabilityChange", CProbabilityChange);
   ("Shapley", CShapley)].
Lemma contributions_text : forall s me, de_contributions (JStr s) = Some me -> In (s, me)
  [("Weight", CWeight); ("Average", CAverage); ("BranchDifference", CBranchDifference); ("MidpointDifference", CMidpointDifference);
   ("ModeDifference", CModeDifference); ("ProbabilityChange", CProbabilityChange); ("Shapley", CShapley)].
Proof. intros s o H. named H; tauto. Qed.
Lemma sget_cases : forall d k default, In (k, sget d k default) d \/ sget d k default = default.
Proof.
  induction d as [|[a b] d IH]; intros k default; simpl; auto. destruct (String.eqb_spec k a) as [-> |]; [auto|]. destruct (IH k default); auto.
Qed.
Lemma method_names : forall s me, plain de_contributions (contribution_name s) = inl me <-> In (s, me) contribution_names.
Proof.
  intros s me. split.
  - intros H. unfold plain, or_raise in H. destruct (de_contributions (JStr (contribution_name s))) as [x|] eqn:E; [|discriminate]. injection H as ->.
    apply contributions_text in E. unfold contribution_name in E. destruct (sget_cases CONTRIBUTION_METHODS s s) as [A|A].
    + revert A E. generalize (sget CONTRIBUTION_METHODS s s) as r. intros r A E. unfold CONTRIBUTION_METHODS in A. cbn [In] in A, E.
      repeat (destruct A as [A|A]; [injection A as <- <-; repeat (destruct E as [E|E]; [first [discriminate E|injection E as <-; cbn; tauto]|]); destruct E|]). destruct A.
    + rewrite A in E. simpl in E. repeat (destruct E as [E|E]; [injection E as <- <-; simpl; tauto|]). destruct E.
  - intros H. simpl in H. repeat (destruct H as [H|H]; [injection H as <- <-; reflexivity|]). destruct H.
Qed.
Lemma method_refused : forall {FS : Floats} sh m X s par, validate_features m (columns X) = inl tt -> ~ In s (map fst contribution_names) ->
  py_predict_contributions sh m X s par = Some (inr ValueError).
Proof.
  intros FS sh m X s par V N. unfold py_predict_contributions, if_valid. rewrite V. destruct (plain de_contributions (contribution_name s)) as [me|e] eqn:E.
  - exfalso. apply N. apply method_names in E. apply in_map_iff. exists (s, me). auto.
  - unfold plain, or_raise in E. destruct (de_contributions _); [discriminate|]. injection E as <-. reflexivity.
Qed.
