(** The Python object over its life: construction, fits, saving, loading, pickling, cloning. *)
From Coq Require Import List Arith NArith ZArith Bool String Lia Permutation.
From Verif Require Import Prelude Float Data DataProofs Utils Binning Histogram Node Splitter Tree Objective Metric Sampler Contrib Booster
  PredictProofs BoostProofs FitModel TrainMore Serde SerdeProofs SerdePredict PyWrap PyProofs.
Import ListNotations.

(** *** Dictionaries *)
Lemma dget_dset : forall V k (v : V) k' d, dget k' (dset k v d) = if key_eqb k' k then Some v else dget k' d.
Proof.
  induction d as [|[a x] d IH]; simpl; auto.
  destruct (key_eqb k a) eqn:E; simpl.
  - apply key_eqb_eq in E. subst a. destruct (key_eqb k' k); auto.
  - rewrite IH. destruct (key_eqb k' a) eqn:E2; auto. apply key_eqb_eq in E2. subst a.
    destruct (key_eqb k' k) eqn:E3; auto. apply key_eqb_eq in E3. subst. rewrite key_eqb_refl in E. discriminate.
Qed.
Lemma dset_keys : forall V k (v : V) d x, In x (map fst (dset k v d)) <-> x = k \/ In x (map fst d).
Proof.
  induction d as [|[a y] d IH]; intros x; simpl; [intuition|].
  destruct (key_eqb k a) eqn:E; simpl; [apply key_eqb_eq in E; subst; intuition|]. rewrite IH. intuition.
Qed.
Lemma dset_nodup : forall V k (v : V) d, NoDup (map fst d) -> NoDup (map fst (dset k v d)).
Proof.
  induction d as [|[a x] d IH]; simpl; intros H; [repeat constructor; auto|].
  destruct (key_eqb k a) eqn:E; simpl; auto. inversion H; subst. constructor; auto.
  rewrite dset_keys. intros [->|HI]; auto. rewrite key_eqb_refl in E. discriminate.
Qed.
Lemma dict_of_nodup : forall V (l : list (pykey * V)), NoDup (map fst (dict_of l)).
Proof.
  intros V l. unfold dict_of. assert (G : forall d, NoDup (map fst d) -> NoDup (map fst (fold_left (fun d (kv : pykey * V) => dset (fst kv) (snd kv) d) l d))).
  { induction l as [|[k v] l IH]; intros d H; simpl; auto. apply IH. now apply dset_nodup. }
  apply G. constructor.
Qed.
Lemma dset_fresh : forall V k (v : V) d, ~ In k (map fst d) -> dset k v d = d ++ [(k, v)].
Proof.
  induction d as [|[a x] d IH]; simpl; intros H; auto. destruct (key_eqb k a) eqn:E; [apply key_eqb_eq in E; subst; tauto|].
  rewrite IH by tauto. reflexivity.
Qed.
Lemma dict_of_id : forall V (l : list (pykey * V)), NoDup (map fst l) -> dict_of l = l.
Proof.
  intros V l H. unfold dict_of. change l with ([] ++ l) in H. rewrite <- (app_nil_l l) at 2. revert H. generalize (@nil (pykey * V)) as d.
  induction l as [|[k v] l IH]; intros d H; simpl; [now rewrite app_nil_r|].
  rewrite map_app in H. simpl in H. rewrite dset_fresh.
  - rewrite IH; [now rewrite <- app_assoc|]. rewrite <- app_assoc, map_app. exact H.
  - intros HI. apply NoDup_remove_2 in H. apply H. apply in_app_iff. auto.
Qed.
Lemma set_of_nodup : forall l, NoDup (set_of l).
Proof.
  intros l. unfold set_of. assert (G : forall s, NoDup s -> NoDup (fold_left sadd l s)).
  { induction l as [|k l IH]; intros s H; simpl; auto. apply IH. unfold sadd. destruct (existsb (key_eqb k) s) eqn:E; auto.
    rewrite <- (rev_involutive (s ++ [k])). apply NoDup_rev. rewrite rev_app_distr. simpl. constructor; [|now apply NoDup_rev].
    rewrite <- in_rev. intros HI. assert (X : existsb (key_eqb k) s = true) by (apply existsb_exists; exists k; split; auto using key_eqb_refl). congruence. }
  apply G. constructor.
Qed.
Lemma emapM_F2 : forall A B (f : A -> exc B) l r, emapM f l = inl r -> Forall2 (fun x y => f x = inl y) l r.
Proof.
  induction l as [|a l IH]; intros r H; simpl in H; [injection H as <-; constructor|].
  destruct (f a) as [b|e] eqn:E; simpl in H; [|discriminate]. destruct (emapM f l) as [bs|e] eqn:E2; simpl in H; [|discriminate].
  injection H as <-. constructor; auto.
Qed.
Lemma F2_emapM : forall A B (f : A -> exc B) l r, Forall2 (fun x y => f x = inl y) l r -> emapM f l = inl r.
Proof. induction 1 as [|a b l r H _ IH]; simpl; auto. rewrite H. simpl. rewrite IH. reflexivity. Qed.
Lemma F2_nodup : forall A B (R : A -> B -> Prop) l r, (forall a b c, R a c -> R b c -> a = b) -> Forall2 R l r -> NoDup l -> NoDup r.
Proof.
  intros A B R l r HR H. induction H as [|a b l r Hab F IH]; intros N; [constructor|]. inversion N; subst. constructor; auto.
  intros HI. apply In_nth_error in HI. destruct HI as [k Hk]. destruct (Forall2_nth_r F k Hk) as (x & Hx & HRx).
  assert (x = a) by eauto. subst x. apply H1. eapply nth_error_In; eauto.
Qed.
Lemma F2_impl : forall A B (R S : A -> B -> Prop) l r, (forall a b, R a b -> S a b) -> Forall2 R l r -> Forall2 S l r.
Proof. induction 2; constructor; auto. Qed.
Lemma F2_map : forall A B C D (f : A -> C) (g : B -> D) (R : C -> D -> Prop) l r,
  Forall2 (fun a b => R (f a) (g b)) l r -> Forall2 R (map f l) (map g r).
Proof. induction 1; simpl; constructor; auto. Qed.
Lemma to_usize_inj : forall a b n, to_usize a = inl n -> to_usize b = inl n -> a = b.
Proof.
  intros [i|s] [j|t] n; simpl; try discriminate.
  destruct (Z.ltb_spec i 0); [discriminate|]. destruct (Z.ltb_spec j 0); [discriminate|]. intros [= <-] [= H2]. f_equal. lia.
Qed.
Lemma constraint_map_nodup : forall d cm, int_map_to_constraint_map d = inl cm -> NoDup (map fst d) -> NoDup (map fst cm).
Proof.
  intros d cm H N. unfold int_map_to_constraint_map in H. destruct (emapM _ d) as [l|e] eqn:E; simpl in H; [|discriminate].
  apply emapM_F2 in E. apply emapM_F2 in H.
  assert (N1 : NoDup (map fst l)).
  { apply (F2_nodup _ _ (fun k n => to_usize k = inl n) (map fst d)); auto.
    - intros a b c. apply to_usize_inj.
    - apply F2_map. eapply F2_impl; [|exact E]. intros [k v] [n z]. simpl. destruct (to_usize k); simpl; [|discriminate].
      destruct (to_i8 v); simpl; [|discriminate]. congruence. }
  apply (F2_nodup _ _ eq (map fst l)); auto; [congruence|]. apply F2_map. eapply F2_impl; [|exact H].
  intros [k v] [n z]. simpl. destruct (int_to_constraint v); simpl; [|discriminate]. congruence.
Qed.
Lemma usize_nodup : forall s l, emapM to_usize s = inl l -> NoDup s -> NoDup l.
Proof. intros s l H N. apply emapM_F2 in H. eapply (F2_nodup _ _ (fun k n => to_usize k = inl n)); eauto. intros a b c. apply to_usize_inj. Qed.

Lemma map_insert_keys : forall k v l x, In x (map fst (map_insert k v l)) <-> x = k \/ In x (map fst l).
Proof.
  induction l as [|[a y] l IH]; intros x; simpl; [intuition|].
  destruct (String.eqb_spec k a); simpl; [subst; intuition|]. rewrite IH. intuition.
Qed.
Lemma map_insert_nodup : forall k v l, NoDup (map fst l) -> NoDup (map fst (map_insert k v l)).
Proof.
  induction l as [|[a x] l IH]; simpl; intros H; [repeat constructor; auto|].
  destruct (String.eqb_spec k a); simpl; [subst; auto|]. inversion H; subst. constructor; auto.
  rewrite map_insert_keys. intros [HX|HX]; auto.
Qed.

Section State.
Context {FS : Floats}.
Variables (jc : @Codec FS) (pc : PyCodec).

(** *** What the constructor makes of the attributes *)
Record names := mkNames { d_obj : ObjectiveType; d_sm : SampleMethod; d_po : GrowPolicy; d_me : option Metric; d_tr : MissingNodeTreatment }.
Definition decodes (y : PyParams) (d : names) : Prop :=
  de_objective (JStr (y_objective y)) = Some (d_obj d) /\ de_method (JStr (sample_method_ y)) = Some (d_sm d) /\
  de_policy (JStr (y_grow_policy y)) = Some (d_po d) /\
  match y_evaluation_metric y, d_me d with
  | None, None => True | Some s, Some me => de_metric (JStr s) = Some me | _, _ => False end /\
  de_treatment (JStr (y_missing_node_treatment y)) = Some (d_tr d).
Definition rust_params (y : PyParams) (d : names) (cm : ConstraintMap) (ts : list nat) : Params :=
  mkParams (d_obj d) (y_iterations y) (to32 (y_learning_rate y)) (y_max_depth y) (y_max_leaves y) (to32 (y_l1 y)) (to32 (y_l2 y))
    (to32 (y_gamma y)) (to32 (y_max_delta_step y)) (to32 (y_min_leaf_weight y)) (y_nbins y) (y_parallel y) (y_allow_missing_splits y)
    (Some cm) (to32 (y_subsample y)) (y_top_rate y) (y_other_rate y) (y_colsample_bytree y) (y_seed y) (y_missing y)
    (y_create_missing_branch y) (d_sm d) (d_po d) (d_me d) (y_early_stopping_rounds y) (y_initialize_base_score y) ts (d_tr d)
    (y_log_iterations y) (y_force_children_to_bound_parent y).

Lemma decodes_fun : forall y d d', decodes y d -> decodes y d' -> d = d'.
Proof.
  intros y [o s p m t] [o' s' p' m' t'] (A & B & C & D & E) (A' & B' & C' & D' & E'). simpl in *.
  assert (o = o') by congruence. assert (s = s') by congruence. assert (p = p') by congruence. assert (t = t') by congruence.
  subst. f_equal. destruct (y_evaluation_metric y), m, m'; try tauto; congruence.
Qed.

Lemma lib_new_spec : forall y b, lib_new y [] (Some (sample_method_ y)) [] = inl b <->
  exists d, decodes y d /\ validate_parameters (rust_params y d [] []) = None /\
    b = mkBooster (rust_params y d [] []) (y_base_score y) None None None [] [].
Proof.
  intros y b. unfold lib_new, plain, or_raise, decodes. cbn [int_map_to_constraint_map emapM ebind].
  split.
  - destruct (de_objective _) as [o|] eqn:E1; cbn [ebind]; [|discriminate].
    destruct (de_method _) as [sm|] eqn:E2; cbn [ebind]; [|discriminate].
    destruct (de_policy _) as [po|] eqn:E3; cbn [ebind]; [|discriminate].
    destruct (match y_evaluation_metric y with Some s => _ | None => _ end) as [me|] eqn:E4; cbn [ebind]; [|discriminate].
    destruct (de_treatment _) as [tr|] eqn:E5; cbn [ebind]; [|discriminate].
    intros H. exists (mkNames o sm po me tr). cbn [d_obj d_sm d_po d_me d_tr].
    split. { repeat split; auto. destruct (y_evaluation_metric y) as [s|]; [|injection E4 as <-; auto].
      destruct (de_metric (JStr s)); cbn [ebind] in E4; [|discriminate]. injection E4 as <-. reflexivity. }
    unfold booster_new in H.
    match type of H with match match ?v with _ => _ end with _ => _ end = _ => destruct v eqn:EV; [discriminate|] end.
    split; [exact EV|]. injection H as <-. reflexivity.
  - intros (d & (E1 & E2 & E3 & E4 & E5) & EV & ->). rewrite E1, E2, E3, E5. cbn [ebind].
    replace (match y_evaluation_metric y with Some s => _ | None => _ end) with (@inl (option Metric) PyErr (d_me d)).
    2:{ destruct (y_evaluation_metric y) as [s|], (d_me d); try tauto. rewrite E4. reflexivity. }
    cbn [ebind]. unfold booster_new.
    match goal with |- match match ?v with _ => _ end with _ => _ end = _ => replace v with (@None ForustError) by (symmetry; exact EV) end.
    reflexivity.
Qed.

Definition new_model (y : PyParams) (d : names) (ns : option (list pykey)) (n : option nat) : PyModel :=
  mkPyModel (mkBooster (rust_params y d [] []) (y_base_score y) None None None []
    [("feature_importance_method"%string, dumps pc (VStr (y_importance_method y)))]) y ns n.
Lemma py_init_spec : forall ns n y m, py_init pc ns n y = inl m <->
  exists d, decodes y d /\ validate_parameters (rust_params y d [] []) = None /\ m = new_model y d ns n.
Proof.
  intros ns n y m. unfold py_init. destruct (lib_new y [] (Some (sample_method_ y)) []) as [b|e] eqn:E; cbn [ebind].
  - apply lib_new_spec in E. destruct E as (d & D & V & ->). split.
    + intros [= <-]. exists d. auto.
    + intros (d' & D' & V' & ->). assert (d' = d) by (eapply decodes_fun; eauto). subst. reflexivity.
  - split; [discriminate|]. intros (d & D & V & ->). assert (X : exists b, lib_new y [] (Some (sample_method_ y)) [] = inl b).
    { eexists. apply lib_new_spec. eauto. } destruct X. congruence.
Qed.
Lemma py_init_error : forall ns n y e, py_init pc ns n y = inr e -> e = ValueError.
Proof.
  intros ns n y e. unfold py_init, lib_new, plain, or_raise. cbn [int_map_to_constraint_map emapM ebind].
  destruct (de_objective _); cbn [ebind]; [|congruence]. destruct (de_method _); cbn [ebind]; [|congruence].
  destruct (de_policy _); cbn [ebind]; [|congruence].
  destruct (match y_evaluation_metric y with Some s => _ | None => _ end) eqn:E4; cbn [ebind].
  2:{ destruct (y_evaluation_metric y) as [q|]; [|discriminate]. destruct (de_metric _); cbn [ebind] in E4; congruence. }
  destruct (de_treatment _); cbn [ebind]; [|congruence].
  match goal with |- ebind (match ?v with _ => _ end) _ = _ -> _ => destruct v; cbn [ebind]; congruence end.
Qed.

(** *** Everything the wrapper keeps true *)
Definition shown (m : PyModel) : Prop :=
  get_metadata (py_booster m) "feature_names_in_" = option_map (fun l => dumps pc (VNames l)) (py_names m) /\
  get_metadata (py_booster m) "n_features_" = option_map (fun n => dumps pc (VNat n)) (py_n_features m) /\
  get_metadata (py_booster m) "feature_importance_method" = Some (dumps pc (VStr (y_importance_method (py_params m)))).
Record sane (y : PyParams) (m : PyModel) : Prop := {
  sn_params : py_params m = with_base y (y_base_score (py_params m));
  sn_base : gb_base_score (py_booster m) = y_base_score (py_params m);
  sn_fixed : y_initialize_base_score y = false -> y_base_score (py_params m) = y_base_score y;
  sn_rust : exists d cm ts, decodes y d /\ validate_parameters (rust_params y d [] []) = None /\
    gb_params (py_booster m) = rust_params y d cm ts /\ NoDup (map fst cm) /\ NoDup ts;
  sn_shown : shown m;
  sn_meta : NoDup (map fst (gb_metadata (py_booster m))) }.

(** The uses of a Python object that keep it whole: fits with any outcome, a chosen number of trees, metadata under other keys. *)
Definition reserved (k : string) : Prop := k = "feature_names_in_"%string \/ k = "n_features_"%string \/ k = "feature_importance_method"%string.
Inductive life (y : PyParams) : PyModel -> Prop :=
| life_new : forall m, py_new pc y = inl m -> life y m
| life_fit : forall m E X t w ev m' e, life y m -> py_fit pc E m X t w ev = Some (m', e) -> life y m'
| life_iteration : forall m i, life y m -> life y (py_set_prediction_iteration m i)
| life_metadata : forall m k v, life y m -> ~ reserved k -> life y (with_booster m (insert_metadata (py_booster m) k v)).

Lemma fit_metadata : forall E b data t w es b' e, fit E b data t w es = Some (b', e) -> gb_metadata b' = gb_metadata b.
Proof.
  intros E b data t w es b' e H. unfold fit in H. destruct (validate_inputs t w es); [now injection H as <- _|].
  inv_bind H. injection H as <- _. pose proof (fit_trees_meta E b (gb_metadata b) data t w es) as M.
  assert (WM : with_meta b (gb_metadata b) = b) by (now destruct b). rewrite WM, E0 in M. simpl in M. injection M as ->. reflexivity.
Qed.
Lemma loop_base : forall E data t w bd is l l2, boost_loop E data t w bd is l = Some l2 ->
  gb_base_score (l_booster l2) = gb_base_score (l_booster l).
Proof.
  intros E data t w bd. induction is as [|i is IH]; intros l l2 H; simpl in H; [now injection H as <-|].
  inv_bind H. destruct (boost_step_inv _ _ _ _ _ _ _ _ E0) as (ch & g & h & n & cols & n2 & nodes & st & yh & _ & _ & _ & _ & _ & A & _).
  destruct (l_stop v); [injection H as <-; auto|]. apply IH in H. congruence.
Qed.
Lemma fit_base_kept : forall E b data t w es b' e, p_initialize_base_score (gb_params b) = false ->
  fit E b data t w es = Some (b', e) -> gb_base_score b' = gb_base_score b.
Proof.
  intros E b data t w es b' e HI H. unfold fit in H. destruct (validate_inputs t w es); [now injection H as <- _|].
  inv_bind H. injection H as <- _. unfold fit_trees in E0. inv_bind E0. destruct v0 as [bd l]. inv_bind E0. injection E0 as <-.
  apply loop_base in E2. rewrite E2. unfold fit_start in E1. fold (start_booster b) in E1.
  assert (EP : gb_params (start_booster b) = gb_params b /\ gb_base_score (start_booster b) = gb_base_score b)
    by (unfold start_booster; destruct (gb_trees b); auto). destruct EP as [EP EB].
  cbv zeta in E1. rewrite EP, EB, HI in E1. cbn [bind] in E1. destruct (calc_grad_hess _ _ _ _). inv_bind E1. injection E1 as _ <-. reflexivity.
Qed.
Lemma fit_params_any : forall E b data t w es b' e, fit E b data t w es = Some (b', e) -> gb_params b' = gb_params b.
Proof.
  intros E b data t w es b' e H. unfold fit in H. destruct (validate_inputs t w es); [now injection H as <- _|].
  inv_bind H. injection H as <- _. eapply fit_params; eauto.
Qed.

Lemma with_base_twice : forall y u v, with_base (with_base y u) v = with_base y v. Proof. reflexivity. Qed.
Lemma with_base_self : forall y, with_base y (y_base_score y) = y. Proof. now destruct y. Qed.

Lemma sane_new : forall y ns n m, py_init pc ns n y = inl m -> ns = None -> n = None -> sane y m.
Proof.
  intros y ns n m H -> ->. apply py_init_spec in H. destruct H as (d & D & V & ->). constructor; simpl; auto.
  - now rewrite with_base_self.
  - exists d, [], []. split; [exact D|]. split; [exact V|]. split; [reflexivity|]. split; constructor.
  - repeat split.
  - repeat constructor; auto.
Qed.

(** One fit, step by step. *)
Lemma py_fit_cases : forall E m X t w ev m' e, py_fit pc E m X t w ev = Some (m', e) ->
  let m1 := fit_features pc m X in
  m' = m1 \/
  (exists d cm, standardize_monotonicity_map m1 X = inl d /\ int_map_to_constraint_map d = inl cm /\
    (m' = with_booster m1 (lib_set_constraints (py_booster m1) cm) \/
     exists s ts, standardize_terminate m1 X = inl s /\ emapM to_usize s = inl ts /\
       let m3 := with_booster m1 (lib_set_terminate (lib_set_constraints (py_booster m1) cm) ts) in
       (m' = m3 \/
        exists evs b fe, py_evals m3 ev = inl evs /\
          fit E (py_booster m3) (frame_matrix X) t (match w with Some w => w | None => repeat (fone f64) (List.length t) end) evs = Some (b, fe) /\
          match fe with
          | Some _ => m' = with_booster m3 b /\ e = Some ValueError
          | None => m' = with_params (with_booster m3 b) (with_base (py_params m3) (gb_base_score b)) /\ e = None
          end))).
Proof.
  intros E m X t w ev m' e H. cbv zeta. unfold py_fit in H. cbv zeta in H. set (m1 := fit_features pc m X) in *.
  destruct (standardize_monotonicity_map m1 X) as [d|er] eqn:E1; cbn [ebind] in H; [|injection H as <- _; auto].
  destruct (int_map_to_constraint_map d) as [cm|er] eqn:E2; [|injection H as <- _; auto]. right. exists d, cm. split; auto. split; auto.
  change (standardize_terminate (with_booster m1 (lib_set_constraints (py_booster m1) cm)) X) with (standardize_terminate m1 X) in H.
  destruct (standardize_terminate m1 X) as [s|er] eqn:E3; cbn [ebind] in H; [|injection H as <- _; auto].
  destruct (emapM to_usize s) as [ts|er] eqn:E4; [|injection H as <- _; auto]. right. exists s, ts. split; auto. split; auto.
  cbn [py_booster with_booster] in H. cbn [py_booster with_booster].
  match type of H with match ?x with _ => _ end = _ => change x with (py_evals (with_booster m1 (lib_set_terminate (lib_set_constraints (py_booster m1) cm) ts)) ev) in H end.
  destruct (py_evals _ ev) as [evs|er] eqn:E5; [|injection H as <- _; auto]. right. inv_bind H. destruct v as [b fe]. exists evs, b, fe.
  split; [reflexivity|]. split; [exact E0|]. destruct fe; injection H as <- <-; auto.
Qed.

Lemma shown_features : forall m X, shown m -> shown (fit_features pc m X) /\ py_params (fit_features pc m X) = py_params m /\
  gb_params (py_booster (fit_features pc m X)) = gb_params (py_booster m) /\
  gb_base_score (py_booster (fit_features pc m X)) = gb_base_score (py_booster m) /\
  (NoDup (map fst (gb_metadata (py_booster m))) -> NoDup (map fst (gb_metadata (py_booster (fit_features pc m X))))).
Proof.
  intros m X (A & B & C). unfold fit_features. destruct (columns X) as [|k l].
  - split; [|simpl; auto 12 using map_insert_nodup]. unfold shown, set_meta, get_metadata in *. simpl. rewrite !map_get_insert. simpl. auto.
  - split; [|simpl; auto 12 using map_insert_nodup]. unfold shown, set_meta, get_metadata in *. simpl. rewrite !map_get_insert. simpl. auto.
Qed.
Lemma shown_booster : forall m b, shown m -> gb_metadata b = gb_metadata (py_booster m) -> shown (with_booster m b).
Proof. intros m b H HB. unfold shown, get_metadata in *. simpl. rewrite HB. exact H. Qed.

Lemma sane_fit : forall y E m X t w ev m' e, NoDup (map fst (y_constraints y)) -> sane y m -> py_fit pc E m X t w ev = Some (m', e) -> sane y m'.
Proof.
  intros y E m X t w ev m' e ND S H. destruct S as [S1 S2 S3 S4 S5 S6].
  destruct (shown_features m X S5) as (F1 & F2 & F3 & F4 & F5). specialize (F5 S6).
  destruct S4 as (d & cm0 & ts0 & D & V & P & N1 & N2).
  assert (EC : y_constraints (py_params m) = y_constraints y) by (rewrite S1; reflexivity).
  apply py_fit_cases in H. cbv zeta in H. set (m1 := fit_features pc m X) in *.
  destruct H as [-> | (dd & cm & H1 & H2 & H)].
  { constructor; rewrite ?F2; auto; try congruence. exists d, cm0, ts0. rewrite F3. auto. }
  assert (NC : NoDup (map fst cm)).
  { apply constraint_map_nodup in H2; auto. unfold standardize_monotonicity_map in H1. rewrite F2, EC in H1. destruct (x_names X).
    - destruct (emapM _ _); simpl in H1; [|discriminate]. injection H1 as <-. apply dict_of_nodup.
    - injection H1 as <-. auto. }
  destruct H as [-> | (s & ts & H3 & H4 & H)].
  { constructor; cbn [with_booster py_params py_booster lib_set_constraints set_params gb_params gb_base_score gb_metadata]; rewrite ?F2; auto; try congruence.
    exists d, cm, ts0. rewrite F3, P. split; [exact D|]. split; [exact V|]. split; [reflexivity|]. split; auto. }
  assert (NT : NoDup ts).
  { apply usize_nodup in H4; auto. unfold standardize_terminate in H3. destruct (x_names X).
    - destruct (emapM _ _); simpl in H3; [|discriminate]. injection H3 as <-. apply set_of_nodup.
    - injection H3 as <-. apply set_of_nodup. }
  assert (P3 : gb_params (lib_set_terminate (lib_set_constraints (py_booster m1) cm) ts) = rust_params y d cm ts).
  { cbn [lib_set_terminate lib_set_constraints set_params gb_params]. rewrite F3, P. reflexivity. }
  cbv zeta in H. destruct H as [-> | (evs & b & fe & H5 & H6 & H)].
  { constructor; cbn [with_booster py_params py_booster]; rewrite ?F2; auto; try (cbn [lib_set_terminate lib_set_constraints set_params gb_params gb_base_score gb_metadata]; congruence).
    exists d, cm, ts. rewrite P3. split; [exact D|]. split; [exact V|]. split; [reflexivity|]. split; auto. }
  cbn [with_booster py_booster] in H6.
  assert (PB : gb_params b = rust_params y d cm ts) by (rewrite <- P3; eapply fit_params_any; eauto).
  assert (MB : gb_metadata b = gb_metadata (py_booster m1)).
  { apply fit_metadata in H6. rewrite H6. reflexivity. }
  assert (BB : y_initialize_base_score y = false -> gb_base_score b = gb_base_score (py_booster m1)).
  { intros HI. apply fit_base_kept in H6; [rewrite H6; reflexivity|]. rewrite P3. exact HI. }
  destruct fe as [fe|].
  - destruct H as [-> _]. assert (B2 : gb_base_score b = gb_base_score (py_booster m1)).
    { unfold fit in H6. destruct (validate_inputs _ _ _); [injection H6 as <- _; reflexivity|]. inv_bind H6. discriminate. }
    constructor; cbn [with_booster py_params py_booster]; rewrite ?F2; auto; try congruence.
    + exists d, cm, ts. split; [exact D|]. split; [exact V|]. split; [exact PB|]. split; auto.
    + apply shown_booster; [apply shown_booster; auto|auto].
  - destruct H as [-> _]. constructor; cbn [with_booster with_params py_params py_booster with_base y_base_score].
    + rewrite F2, S1. reflexivity.
    + auto.
    + intros HI. rewrite BB by auto. rewrite F4, S2. auto.
    + exists d, cm, ts. split; [exact D|]. split; [exact V|]. split; [exact PB|]. split; auto.
    + unfold shown in *. cbn [with_booster with_params py_params py_booster py_names py_n_features with_base y_importance_method].
      unfold get_metadata in *. rewrite MB, F2 in *. exact F1.
    + rewrite MB. auto.
Qed.

Theorem life_sane : forall y m, NoDup (map fst (y_constraints y)) -> life y m -> sane y m.
Proof.
  intros y m ND L. induction L as [m H|m E X t w ev m' e L IH H|m i L IH|m k v L IH R].
  - eapply sane_new; eauto.
  - eapply sane_fit; eauto.
  - destruct IH. constructor; auto.
  - destruct IH as [S1 S2 S3 S4 S5 S6]. constructor; auto.
    + unfold shown, get_metadata in *. cbn [with_booster py_booster py_names py_n_features py_params insert_metadata gb_metadata]. rewrite !map_get_insert.
      assert (N : forall x, reserved x -> String.eqb x k = false).
      { intros x Hx. destruct (String.eqb_spec x k); auto. subst. tauto. }
      rewrite !N by (unfold reserved; auto). auto.
    + simpl. now apply map_insert_nodup.
Qed.
End State.
