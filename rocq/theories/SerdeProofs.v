(** Loading what was saved; loading with members left out. *)
From Coq Require Import List Arith NArith Bool String Lia Permutation Decimal DecimalString DecimalNat DecimalN.
From Verif Require Import Prelude Float Data Utils Node Splitter Tree Objective Metric Sampler Contrib Booster Serde.
Import ListNotations.

(** *** Integers and small values *)
Lemma nonnil_rev : forall d acc, acc <> Nil -> Decimal.revapp d acc <> Nil.
Proof. induction d; simpl; intros acc H; auto; apply IHd; discriminate. Qed.

Lemma nat_to_uint_nonnil : forall n, Nat.to_uint n <> Nil.
Proof.
  intros n E. pose proof (DecimalNat.Unsigned.of_to n) as H. rewrite E in H. simpl in H. subst n. discriminate.
Qed.

Lemma N_to_uint_nonnil : forall n, N.to_uint n <> Nil.
Proof.
  intros n E. pose proof (DecimalN.Unsigned.of_to n) as H. rewrite E in H. simpl in H. subst n. discriminate.
Qed.

Lemma text_nat_text : forall n, text_nat (nat_text n) = Some n.
Proof.
  intros n. unfold text_nat, nat_text. rewrite NilZero.usu by apply nat_to_uint_nonnil. simpl.
  now rewrite DecimalNat.Unsigned.of_to.
Qed.

Lemma nat_text_inj : forall n m, nat_text n = nat_text m -> n = m.
Proof. intros n m H. pose proof (text_nat_text n) as E. rewrite H, text_nat_text in E. congruence. Qed.

Lemma rt_nat : forall n, de_nat (ser_nat n) = Some n.
Proof. exact text_nat_text. Qed.

Lemma rt_N : forall n, de_N (ser_N n) = Some n.
Proof.
  intros n. unfold de_N, ser_N. rewrite NilZero.usu by apply N_to_uint_nonnil. simpl.
  now rewrite DecimalN.Unsigned.of_to.
Qed.

Lemma rt_bool : forall b, de_bool (JBool b) = Some b.
Proof. reflexivity. Qed.
Lemma rt_objective : forall o, de_objective (ser_objective o) = Some o.
Proof. now destruct o. Qed.
Lemma rt_metric : forall o, de_metric (ser_metric o) = Some o.
Proof. now destruct o. Qed.
Lemma rt_method : forall o, de_method (ser_method o) = Some o.
Proof. now destruct o. Qed.
Lemma rt_policy : forall o, de_policy (ser_policy o) = Some o.
Proof. now destruct o. Qed.
Lemma rt_treatment : forall o, de_treatment (ser_treatment o) = Some o.
Proof. now destruct o. Qed.
Lemma rt_constraint : forall o, de_constraint (ser_constraint o) = Some o.
Proof. now destruct o. Qed.

Lemma rt_opt : forall A (g : A -> json) f x, (forall v, x = Some v -> f (g v) = Some v /\ g v <> JNull) ->
  de_opt f (ser_opt g x) = Some x.
Proof.
  intros A g f [v|] H; simpl; auto. destruct (H v eq_refl) as (E & N). unfold de_opt.
  destruct (g v) eqn:G; try congruence; rewrite E; reflexivity.
Qed.

Lemma mapM_map_id : forall A B (g : A -> B) (f : B -> option A) l, (forall x, In x l -> f (g x) = Some x) ->
  mapM f (map g l) = Some l.
Proof.
  induction l; simpl; intros H; auto. rewrite H by auto. cbn [bind]. rewrite IHl by auto. reflexivity.
Qed.

Lemma rt_list : forall A (g : A -> json) f l, (forall x, In x l -> f (g x) = Some x) -> de_list f (ser_list g l) = Some l.
Proof. intros. now apply mapM_map_id. Qed.

Lemma bind_ok : forall A B (x : option A) v (k : A -> option B) r, x = Some v -> k v = r -> bind x k = r.
Proof. intros A B x v k r -> H. exact H. Qed.
Lemma bind_some : forall A B (x : option A) (k : A -> option B) r, bind x k = Some r -> exists v, x = Some v /\ k v = Some r.
Proof. intros A B [v|] k r H; [eauto|discriminate]. Qed.
Lemma req_ok : forall A l n (f : json -> option A) v x, field l n = Some (Some v) -> f v = Some x -> req l n f = Some x.
Proof. intros A l n f v x H E. unfold req. rewrite H. exact E. Qed.
Lemma dft_ok : forall A l n (f : json -> option A) d v x, field l n = Some (Some v) -> f v = Some x -> dft l n f d = Some x.
Proof. intros A l n f d v x H E. unfold dft. rewrite H. exact E. Qed.

(** *** Maps and sets: what can be looked up in them *)
Definition same_map {K V} (m m' : list (K * V)) : Prop := forall k v, In (k, v) m <-> In (k, v) m'.

Lemma nmap_insert_fresh : forall A k (v : A) l, ~ In k (map fst l) -> nmap_insert k v l = l ++ [(k, v)].
Proof.
  induction l as [|(k', v') l IH]; simpl; intros H; auto. destruct (Nat.eqb_spec k k'); [subst; tauto|].
  rewrite IH; auto.
Qed.
Lemma map_insert_fresh : forall k v l, ~ In k (map fst l) -> map_insert k v l = l ++ [(k, v)].
Proof.
  induction l as [|(k', v') l IH]; simpl; intros H; auto. destruct (String.eqb_spec k k'); [subst; tauto|].
  rewrite IH; auto.
Qed.

Lemma de_constraints_fold : forall l acc, NoDup (map fst (acc ++ l)) ->
  foldM (fun m '(k, v) => let* k := text_nat k in let* v := de_constraint v in Some (nmap_insert k v m))
    (map (fun '(k, v) => (nat_text k, ser_constraint v)) l) acc = Some (acc ++ l).
Proof.
  induction l as [|(k, v) l IH]; intros acc H; [now rewrite app_nil_r|].
  cbn [map foldM]. rewrite text_nat_text. cbn [bind]. rewrite rt_constraint. cbn [bind].
  rewrite nmap_insert_fresh.
  - rewrite IH; rewrite <- app_assoc; auto.
  - rewrite map_app in H. simpl in H. apply NoDup_remove_2 in H. intros I. apply H, in_or_app. auto.
Qed.

Lemma de_metadata_fold : forall l acc, NoDup (map fst (acc ++ l)) ->
  foldM (fun m '(k, v) => let* v := de_str v in Some (map_insert k v m))
    (map (fun '(k, v) => (k, JStr v)) l) acc = Some (acc ++ l).
Proof.
  induction l as [|(k, v) l IH]; intros acc H; [now rewrite app_nil_r|].
  cbn [map foldM de_str bind]. rewrite map_insert_fresh.
  - rewrite IH; rewrite <- app_assoc; auto.
  - rewrite map_app in H. simpl in H. apply NoDup_remove_2 in H. intros I. apply H, in_or_app. auto.
Qed.

Lemma de_set_fold : forall l acc, NoDup (acc ++ l) -> fold_left (fun s k => set_insert k s) l acc = acc ++ l.
Proof.
  induction l as [|k l IH]; intros acc H; simpl; [now rewrite app_nil_r|].
  assert (E : set_insert k acc = acc ++ [k]).
  { unfold set_insert. destruct (existsb _ acc) eqn:X; auto. apply existsb_exists in X.
    destruct X as (k' & I & E). apply Nat.eqb_eq in E. subst k'. exfalso.
    apply NoDup_remove_2 in H. apply H, in_or_app. auto. }
  rewrite E, IH; rewrite <- app_assoc; auto.
Qed.

Record orders_ok (o : Orders) : Prop := {
  oo_constraints : forall m, Permutation (o_constraints o m) m;
  oo_set : forall m, Permutation (o_set o m) m;
  oo_metadata : forall m, Permutation (o_metadata o m) m }.

Lemma rt_constraints : forall o m, orders_ok o -> NoDup (map fst m) ->
  de_constraints (ser_constraints o m) = Some (o_constraints o m).
Proof.
  intros o m O N. unfold de_constraints, ser_constraints. cbn [obj bind].
  apply (de_constraints_fold (o_constraints o m) []). simpl.
  eapply Permutation_NoDup; [apply Permutation_map, Permutation_sym, oo_constraints|]; auto.
Qed.
Lemma rt_metadata : forall o m, orders_ok o -> NoDup (map fst m) ->
  de_metadata (ser_metadata o m) = Some (o_metadata o m).
Proof.
  intros o m O N. unfold de_metadata, ser_metadata. cbn [obj bind].
  apply (de_metadata_fold (o_metadata o m) []). simpl.
  eapply Permutation_NoDup; [apply Permutation_map, Permutation_sym, oo_metadata|]; auto.
Qed.
Lemma rt_set : forall o m, orders_ok o -> NoDup m -> de_set (ser_set o m) = Some (o_set o m).
Proof.
  intros o m O N. unfold de_set, ser_set. rewrite rt_list by (intros; apply rt_nat). cbn [bind]. f_equal.
  apply (de_set_fold (o_set o m) []). simpl. eapply Permutation_NoDup; [apply Permutation_sym, oo_set|]; auto.
Qed.

Lemma perm_same_map : forall K V (m m' : list (K * V)), Permutation m m' -> same_map m m'.
Proof. intros K V m m' P k v. split; apply Permutation_in; auto. now apply Permutation_sym. Qed.

Lemma map_get_in : forall k v l, NoDup (map fst l) -> (map_get k l = Some v <-> In (k, v) l).
Proof.
  induction l as [|(k', v') l IH]; simpl; intros N; [split; [discriminate|tauto]|].
  inversion N as [|? ? N1 N2]; subst. destruct (String.eqb_spec k k') as [->|NE].
  - split; [intros [= ->]; auto|]. intros [[= ->]|I]; auto. exfalso. apply N1. now apply (in_map fst) in I.
  - rewrite IH by auto. split; auto. intros [[= -> ->]|I]; tauto.
Qed.

Section Serde.
Context {FS : Floats}.
Variable c : Codec.

(** serde_json with float_roundtrip: what is printed for a finite float reads back as it *)
Record codec_ok : Prop := {
  ck32 : forall x, is_finite f32 x = true -> rd32 c (pr32 c x) = Some x;
  ck64 : forall x, is_finite f64 x = true -> rd64 c (pr64 c x) = Some x }.

Definition node_finite (n : Node) : Prop :=
  is_finite f32 (n_weight n) = true /\ is_finite f32 (n_hess n) = true /\
  is_finite f64 (n_split_value n) = true /\ is_finite f32 (n_split_gain n) = true.

(** Every float but `missing` is finite. *)
Record finite_model (b : Booster) : Prop := {
  fm_lr : is_finite f32 (p_learning_rate (gb_params b)) = true;
  fm_l1 : is_finite f32 (p_l1 (gb_params b)) = true;
  fm_l2 : is_finite f32 (p_l2 (gb_params b)) = true;
  fm_gamma : is_finite f32 (p_gamma (gb_params b)) = true;
  fm_mds : is_finite f32 (p_max_delta_step (gb_params b)) = true;
  fm_mlw : is_finite f32 (p_min_leaf_weight (gb_params b)) = true;
  fm_base : is_finite f64 (gb_base_score b) = true;
  fm_sub : is_finite f32 (p_subsample (gb_params b)) = true;
  fm_top : is_finite f64 (p_top_rate (gb_params b)) = true;
  fm_other : is_finite f64 (p_other_rate (gb_params b)) = true;
  fm_col : is_finite f64 (p_colsample_bytree (gb_params b)) = true;
  fm_hist : forall h x, gb_history b = Some h -> In x (r_data h) -> is_finite f64 x = true;
  fm_trees : forall t n, In t (gb_trees b) -> In n t -> node_finite n }.

(** A map has one entry per key and a set one per element. *)
Record hash_ok (b : Booster) : Prop := {
  hk_constraints : forall m, p_monotone_constraints (gb_params b) = Some m -> NoDup (map fst m);
  hk_set : NoDup (p_terminate_missing_features (gb_params b));
  hk_metadata : NoDup (map fst (gb_metadata b)) }.

(** *** The same model: every field equal; maps and sets have the same contents *)
Record same_params (p q : Params) : Prop := {
  sp_objective : p_objective q = p_objective p; sp_iterations : p_iterations q = p_iterations p;
  sp_lr : p_learning_rate q = p_learning_rate p; sp_depth : p_max_depth q = p_max_depth p;
  sp_leaves : p_max_leaves q = p_max_leaves p; sp_l1 : p_l1 q = p_l1 p; sp_l2 : p_l2 q = p_l2 p;
  sp_gamma : p_gamma q = p_gamma p; sp_mds : p_max_delta_step q = p_max_delta_step p;
  sp_mlw : p_min_leaf_weight q = p_min_leaf_weight p; sp_nbins : p_nbins q = p_nbins p;
  sp_parallel : p_parallel q = p_parallel p; sp_ams : p_allow_missing_splits q = p_allow_missing_splits p;
  sp_constraints : match p_monotone_constraints p, p_monotone_constraints q with
                   | Some m, Some m' => same_map m m' | None, None => True | _, _ => False end;
  sp_subsample : p_subsample q = p_subsample p; sp_top : p_top_rate q = p_top_rate p;
  sp_other : p_other_rate q = p_other_rate p; sp_col : p_colsample_bytree q = p_colsample_bytree p;
  sp_seed : p_seed q = p_seed p; sp_missing : p_missing q = p_missing p;
  sp_cmb : p_create_missing_branch q = p_create_missing_branch p; sp_method : p_sample_method q = p_sample_method p;
  sp_policy : p_grow_policy q = p_grow_policy p; sp_metric : p_evaluation_metric q = p_evaluation_metric p;
  sp_rounds : p_early_stopping_rounds q = p_early_stopping_rounds p;
  sp_init : p_initialize_base_score q = p_initialize_base_score p;
  sp_terminate : forall f, In f (p_terminate_missing_features p) <-> In f (p_terminate_missing_features q);
  sp_treatment : p_missing_node_treatment q = p_missing_node_treatment p;
  sp_log : p_log_iterations q = p_log_iterations p;
  sp_force : p_force_children_to_bound_parent q = p_force_children_to_bound_parent p }.
Record same_model (b b' : Booster) : Prop := {
  sm_params : same_params (gb_params b) (gb_params b'); sm_base : gb_base_score b' = gb_base_score b;
  sm_history : gb_history b' = gb_history b; sm_best : gb_best b' = gb_best b; sm_pred : gb_pred b' = gb_pred b;
  sm_trees : gb_trees b' = gb_trees b; sm_metadata : forall k, get_metadata b' k = get_metadata b k }.

(** What loading makes of `missing`. *)
Definition loaded_missing (m : F64) : F64 := if is_finite f64 m then m else fnan f64.
Definition with_missing (p : Params) (m : F64) : Params :=
  mkParams (p_objective p) (p_iterations p) (p_learning_rate p) (p_max_depth p) (p_max_leaves p) (p_l1 p) (p_l2 p)
    (p_gamma p) (p_max_delta_step p) (p_min_leaf_weight p) (p_nbins p) (p_parallel p) (p_allow_missing_splits p)
    (p_monotone_constraints p) (p_subsample p) (p_top_rate p) (p_other_rate p) (p_colsample_bytree p) (p_seed p) m
    (p_create_missing_branch p) (p_sample_method p) (p_grow_policy p) (p_evaluation_metric p)
    (p_early_stopping_rounds p) (p_initialize_base_score p) (p_terminate_missing_features p)
    (p_missing_node_treatment p) (p_log_iterations p) (p_force_children_to_bound_parent p).

Lemma rt_f32 : forall x, codec_ok -> is_finite f32 x = true -> de_f32 c (ser_f32 c x) = Some x.
Proof. intros x C H. unfold ser_f32. rewrite H. now apply ck32. Qed.
Lemma rt_f64 : forall x, codec_ok -> is_finite f64 x = true -> de_f64 c (ser_f64 c x) = Some x.
Proof. intros x C H. unfold ser_f64. rewrite H. now apply ck64. Qed.
Lemma rt_missing : forall x, codec_ok -> parse_missing c (ser_f64 c x) = Some (loaded_missing x).
Proof.
  intros x C. unfold parse_missing, ser_f64, loaded_missing. destruct (is_finite f64 x) eqn:E; auto.
  simpl. now rewrite ck64.
Qed.

Local Ltac fld :=
  eapply bind_ok; [first [eapply req_ok | eapply dft_ok]; [reflexivity|]|cbv beta].

Lemma rt_node : forall n, codec_ok -> node_finite n -> de_node c (ser_node c n) = Some n.
Proof.
  intros n C (H1 & H2 & H3 & H4). unfold de_node, ser_node. cbn [obj bind].
  fld; [apply rt_nat|]. fld; [apply rt_f32; auto|]. fld; [apply rt_f32; auto|]. fld; [apply rt_nat|].
  fld; [apply rt_f64; auto|]. fld; [apply rt_nat|]. fld; [apply rt_f32; auto|]. fld; [apply rt_nat|].
  fld; [apply rt_nat|]. fld; [apply rt_nat|]. fld; [apply rt_bool|]. now destruct n.
Qed.

Lemma rt_tree : forall t, codec_ok -> (forall n, In n t -> node_finite n) -> de_tree c (ser_tree c t) = Some t.
Proof.
  intros t C H. unfold de_tree, ser_tree. cbn [obj bind]. eapply req_ok; [reflexivity|].
  apply rt_list. intros n I. apply rt_node; auto.
Qed.

Lemma rt_matrix : forall m, codec_ok -> (forall x, In x (r_data m) -> is_finite f64 x = true) ->
  de_matrix c (ser_matrix c m) = Some m.
Proof.
  intros m C H. unfold de_matrix, ser_matrix. cbn [obj bind].
  fld; [apply rt_list; intros; apply rt_f64; auto|]. fld; [apply rt_nat|]. fld; [apply rt_nat|]. fld; [apply rt_nat|].
  fld; [apply rt_nat|]. now destruct m.
Qed.

(** The model that comes back, exactly. *)
Definition reloaded (o : Orders) (b : Booster) : Booster :=
  let p := gb_params b in
  mkBooster
    (mkParams (p_objective p) (p_iterations p) (p_learning_rate p) (p_max_depth p) (p_max_leaves p) (p_l1 p) (p_l2 p)
    (p_gamma p) (p_max_delta_step p) (p_min_leaf_weight p) (p_nbins p) (p_parallel p) (p_allow_missing_splits p)
    (option_map (o_constraints o) (p_monotone_constraints p)) (p_subsample p) (p_top_rate p) (p_other_rate p)
    (p_colsample_bytree p) (p_seed p) (loaded_missing (p_missing p))
    (p_create_missing_branch p) (p_sample_method p) (p_grow_policy p) (p_evaluation_metric p)
    (p_early_stopping_rounds p) (p_initialize_base_score p) (o_set o (p_terminate_missing_features p))
    (p_missing_node_treatment p) (p_log_iterations p) (p_force_children_to_bound_parent p))
    (gb_base_score b) (gb_history b) (gb_best b) (gb_pred b) (gb_trees b) (o_metadata o (gb_metadata b)).

Lemma rt_opt_constraints : forall o x, orders_ok o -> (forall m, x = Some m -> NoDup (map fst m)) ->
  de_opt de_constraints (ser_opt (ser_constraints o) x) = Some (option_map (o_constraints o) x).
Proof.
  intros o [m|] O H; auto. unfold ser_opt, de_opt, option_map.
  assert (E : de_constraints (ser_constraints o m) = Some (o_constraints o m)) by (apply rt_constraints; auto).
  unfold ser_constraints in *. rewrite E. reflexivity.
Qed.

Theorem load_saved : forall o b, codec_ok -> orders_ok o -> finite_model b -> hash_ok b ->
  from_json c (json_dump c o b) = Some (reloaded o b).
Proof.
  intros o b C O F H. destruct F. destruct H. unfold from_json, json_dump, opt. cbn [obj bind].
  fld; [apply rt_objective|]. fld; [apply rt_nat|]. fld; [apply rt_f32; auto|]. fld; [apply rt_nat|].
  fld; [apply rt_nat|]. fld; [apply rt_f32; auto|]. fld; [apply rt_f32; auto|]. fld; [apply rt_f32; auto|].
  fld; [apply rt_f32; auto|]. fld; [apply rt_f32; auto|]. fld; [apply rt_f64; auto|]. fld; [apply rt_nat|].
  fld; [apply rt_bool|]. fld; [apply rt_bool|]. fld; [apply rt_opt_constraints; auto|].
  fld; [apply rt_f32; auto|]. fld; [apply rt_f64; auto|]. fld; [apply rt_f64; auto|]. fld; [apply rt_f64; auto|].
  fld; [apply rt_N|]. fld; [apply rt_missing; auto|]. fld; [apply rt_bool|]. fld; [apply rt_method|].
  fld; [apply rt_policy|].
  fld; [apply rt_opt; intros v _; split; [apply rt_metric|destruct v; discriminate]|].
  fld; [apply rt_opt; intros v _; split; [apply rt_nat|discriminate]|].
  fld; [apply rt_bool|]. fld; [apply rt_set; auto|].
  fld; [apply rt_opt; intros v E; split; [apply rt_matrix; eauto|discriminate]|].
  fld; [apply rt_opt; intros v _; split; [apply rt_nat|discriminate]|].
  fld; [apply rt_opt; intros v _; split; [apply rt_nat|discriminate]|].
  fld; [apply rt_treatment|]. fld; [apply rt_nat|]. fld; [apply rt_bool|].
  fld; [apply rt_list; intros t I; apply rt_tree; eauto|].
  fld; [apply rt_metadata; auto|]. reflexivity.
Qed.

Definition set_missing (b : Booster) (m : F64) : Booster :=
  mkBooster (with_missing (gb_params b) m) (gb_base_score b) (gb_history b) (gb_best b) (gb_pred b) (gb_trees b) (gb_metadata b).

Lemma reloaded_same : forall o b, orders_ok o -> hash_ok b ->
  same_model (set_missing b (loaded_missing (p_missing (gb_params b)))) (reloaded o b).
Proof.
  intros o b O H. constructor; simpl; auto.
  - constructor; simpl; auto.
    + destruct (p_monotone_constraints (gb_params b)) as [m|]; simpl; auto.
      apply perm_same_map, Permutation_sym, oo_constraints; auto.
    + intros f. split; apply Permutation_in; [apply Permutation_sym|]; apply oo_set; auto.
  - intros k. unfold get_metadata. simpl.
    assert (P : Permutation (o_metadata o (gb_metadata b)) (gb_metadata b)) by (apply oo_metadata; auto).
    assert (N : NoDup (map fst (gb_metadata b))) by (apply hk_metadata; auto).
    assert (N' : NoDup (map fst (o_metadata o (gb_metadata b)))).
    { eapply Permutation_NoDup; [apply Permutation_map, Permutation_sym, P|auto]. }
    destruct (map_get k (gb_metadata b)) as [v|] eqn:E.
    + apply map_get_in; auto. apply (map_get_in _ _ _ N) in E. eapply Permutation_in; [apply Permutation_sym, P|auto].
    + destruct (map_get k (o_metadata o (gb_metadata b))) as [v|] eqn:E'; auto.
      apply (map_get_in _ _ _ N') in E'. eapply Permutation_in in E'; [|apply P]. apply (map_get_in _ _ _ N) in E'. congruence.
Qed.

(** A model with any other float that is not finite is saved, but what was saved does not load. *)
Lemma de_f32_fin : forall x v, de_f32 c (ser_f32 c x) = Some v -> is_finite f32 x = true.
Proof. intros x v H. unfold ser_f32 in H. destruct (is_finite f32 x); [auto|discriminate]. Qed.
Lemma de_f64_fin : forall x v, de_f64 c (ser_f64 c x) = Some v -> is_finite f64 x = true.
Proof. intros x v H. unfold ser_f64 in H. destruct (is_finite f64 x); [auto|discriminate]. Qed.

Lemma mapM_in_some : forall A B (f : A -> option B) l r x, mapM f l = Some r -> In x l -> exists y, f x = Some y.
Proof.
  induction l as [|a l IH]; simpl; intros r x H I; [tauto|]. destruct (f a) eqn:E; [|discriminate]. cbn [bind] in H.
  destruct (mapM f l) eqn:E2; [|discriminate]. destruct I as [->|I]; eauto.
Qed.

Lemma de_list_in : forall A (g : A -> json) f (l r : list A) x, de_list f (ser_list g l) = Some r -> In x l -> exists y, f (g x) = Some y.
Proof. intros A g f l r x H I. eapply mapM_in_some; [exact H|]. now apply in_map. Qed.

Lemma req_inv : forall A l n (f : json -> option A) v x, req l n f = Some x -> field l n = Some (Some v) -> f v = Some x.
Proof. intros A l n f v x H E. unfold req in H. rewrite E in H. exact H. Qed.
Lemma dft_inv : forall A l n (f : json -> option A) d v x, dft l n f d = Some x -> field l n = Some (Some v) -> f v = Some x.
Proof. intros A l n f d v x H E. unfold dft in H. rewrite E in H. exact H. Qed.

Lemma de_node_fin : forall n v, de_node c (ser_node c n) = Some v -> node_finite n.
Proof.
  intros n v H. unfold de_node, ser_node in H. cbn [obj bind] in H.
  repeat match goal with
  | H : bind _ _ = Some _ |- _ => let v := fresh "v" in let E := fresh "E" in apply bind_some in H; destruct H as (v & E & H); cbv beta in H
  end.
  repeat split.
  - eapply req_inv in E0; [|reflexivity]. eapply de_f32_fin; eauto.
  - eapply req_inv in E1; [|reflexivity]. eapply de_f32_fin; eauto.
  - eapply req_inv in E3; [|reflexivity]. eapply de_f64_fin; eauto.
  - eapply req_inv in E5; [|reflexivity]. eapply de_f32_fin; eauto.
Qed.

Theorem loads_only_finite : forall o b b', from_json c (json_dump c o b) = Some b' -> finite_model b.
Proof.
  intros o b b' H. unfold from_json, json_dump, opt in H. cbn [obj bind] in H.
  repeat match goal with
  | H : bind _ _ = Some _ |- _ => let v := fresh "v" in let E := fresh "E" in apply bind_some in H; destruct H as (v & E & H); cbv beta in H
  end.
  Local Ltac use := match goal with
    | E : req ?l ?n (de_f32 c) = Some _ |- is_finite f32 ?x = true =>
        eapply req_inv with (v := ser_f32 c x) in E; [exact (de_f32_fin _ _ E)|reflexivity]
    | E : dft ?l ?n (de_f32 c) _ = Some _ |- is_finite f32 ?x = true =>
        eapply dft_inv with (v := ser_f32 c x) in E; [exact (de_f32_fin _ _ E)|reflexivity]
    | E : req ?l ?n (de_f64 c) = Some _ |- is_finite f64 ?x = true =>
        eapply req_inv with (v := ser_f64 c x) in E; [exact (de_f64_fin _ _ E)|reflexivity]
    | E : dft ?l ?n (de_f64 c) _ = Some _ |- is_finite f64 ?x = true =>
        eapply dft_inv with (v := ser_f64 c x) in E; [exact (de_f64_fin _ _ E)|reflexivity]
    end.
  constructor; try use.
  - intros h x Hh I.
    match goal with E : dft _ "evaluation_history"%string _ _ = Some _ |- _ => eapply dft_inv in E; [|reflexivity]; rewrite Hh in E;
      assert (X : exists z, option_map Some (de_matrix c (ser_matrix c h)) = Some z) by (eexists; exact E) end.
    destruct (de_matrix c (ser_matrix c h)) eqn:M; [|destruct X; discriminate]. clear X.
    unfold de_matrix, ser_matrix in M. cbn [obj bind] in M. apply bind_some in M. destruct M as (d & M & _).
    eapply req_inv in M; [|reflexivity]. destruct (de_list_in _ _ _ _ _ x M I) as (y & Y). eapply de_f64_fin; eauto.
  - intros t n It In'.
    match goal with E : req _ "trees"%string _ = Some _ |- _ => eapply req_inv in E; [|reflexivity];
      destruct (de_list_in _ _ _ _ _ t E It) as (t' & T) end.
    unfold de_tree, ser_tree in T. cbn [obj bind] in T. eapply req_inv in T; [|reflexivity].
    destruct (de_list_in _ _ _ _ _ n T In') as (y & Y). eapply de_node_fin; eauto.
Qed.

(** *** Members left out *)
Definition without (names : list string) (j : json) : json :=
  match j with JObj l => JObj (filter (fun kv => negb (existsb (String.eqb (fst kv)) names)) l) | _ => j end.

Definition gone (names : list string) (n : string) : bool := existsb (String.eqb n) names.

Lemma field_without : forall names l n,
  field (filter (fun kv => negb (existsb (String.eqb (fst kv)) names)) l) n =
  if gone names n then Some None else field l n.
Proof.
  intros names l n. unfold field. fold (gone names n).
  assert (E : filter (fun kv => String.eqb (fst kv) n) (filter (fun kv : string * json => negb (existsb (String.eqb (fst kv)) names)) l)
    = if gone names n then [] else filter (fun kv => String.eqb (fst kv) n) l).
  { induction l as [|(k, v) l IH]; [now destruct (gone names n)|]. cbn [filter fst].
    destruct (existsb (String.eqb k) names) eqn:X; cbn [negb filter fst].
    - rewrite IH. destruct (String.eqb_spec k n) as [->|]; auto. unfold gone. now rewrite X.
    - destruct (String.eqb_spec k n) as [->|]; auto. rewrite IH. unfold gone. now rewrite X. }
  rewrite E. now destruct (gone names n).
Qed.

Definition pick {A} (names : list string) (n : string) (d v : A) : A := if gone names n then d else v.

(** The model with the documented defaults in place of the members [names]. *)
Definition with_defaults (names : list string) (b : Booster) : Booster :=
  let p := gb_params b in
  let w {A} n (d v : A) := pick names n d v in
  mkBooster
    (mkParams (p_objective p) (p_iterations p) (p_learning_rate p) (p_max_depth p) (p_max_leaves p)
    (w "l1"%string (fzero f32) (p_l1 p)) (p_l2 p) (p_gamma p) (w "max_delta_step"%string (fzero f32) (p_max_delta_step p))
    (p_min_leaf_weight p) (p_nbins p) (p_parallel p) (p_allow_missing_splits p)
    (w "monotone_constraints"%string None (p_monotone_constraints p)) (p_subsample p)
    (w "top_rate"%string (fone f64 / fofnat f64 10)%f64 (p_top_rate p))
    (w "other_rate"%string (fone f64 / fofnat f64 5)%f64 (p_other_rate p))
    (w "colsample_bytree"%string (fone f64) (p_colsample_bytree p)) (p_seed p) (p_missing p)
    (p_create_missing_branch p) (w "sample_method"%string SNone (p_sample_method p))
    (w "grow_policy"%string DepthWise (p_grow_policy p))
    (w "evaluation_metric"%string None (p_evaluation_metric p))
    (w "early_stopping_rounds"%string None (p_early_stopping_rounds p))
    (w "initialize_base_score"%string false (p_initialize_base_score p))
    (w "terminate_missing_features"%string [] (p_terminate_missing_features p))
    (w "missing_node_treatment"%string AssignToParent (p_missing_node_treatment p))
    (w "log_iterations"%string 0 (p_log_iterations p))
    (w "force_children_to_bound_parent"%string false (p_force_children_to_bound_parent p)))
    (gb_base_score b) (w "evaluation_history"%string None (gb_history b)) (w "best_iteration"%string None (gb_best b))
    (w "prediction_iteration"%string None (gb_pred b)) (gb_trees b) (gb_metadata b).

Lemma dft_without : forall A names l n (f : json -> option A) d v, dft l n f d = Some v ->
  dft (filter (fun kv => negb (existsb (String.eqb (fst kv)) names)) l) n f d = Some (pick names n d v).
Proof.
  intros A names l n f d v H. unfold dft, pick in *. rewrite field_without. destruct (gone names n); auto.
Qed.
Lemma req_without : forall A names l n (f : json -> option A) v, gone names n = false -> req l n f = Some v ->
  req (filter (fun kv => negb (existsb (String.eqb (fst kv)) names)) l) n f = Some v.
Proof. intros A names l n f v G H. unfold req in *. now rewrite field_without, G. Qed.

(** The members with a default, and the optional constraints. *)
Local Open Scope string_scope.
Definition defaulted : list string :=
  ["l1"; "max_delta_step"; "monotone_constraints"; "top_rate"; "other_rate"; "colsample_bytree"; "sample_method";
   "grow_policy"; "evaluation_metric"; "early_stopping_rounds"; "initialize_base_score"; "terminate_missing_features";
   "evaluation_history"; "best_iteration"; "prediction_iteration"; "missing_node_treatment"; "log_iterations";
   "force_children_to_bound_parent"].

Theorem load_without : forall names j b, incl names defaulted -> from_json c j = Some b ->
  from_json c (without names j) = Some (with_defaults names b).
Proof.
  intros names j b I H.
  assert (R : forall n, ~ In n defaulted -> gone names n = false).
  { intros n N. unfold gone. destruct (existsb _ names) eqn:X; auto. apply existsb_exists in X.
    destruct X as (m & M & E). apply String.eqb_eq in E. subst m. exfalso. apply N, I, M. }
  assert (R' : forall n, existsb (String.eqb n) defaulted = false -> gone names n = false).
  { intros n N. apply R. intros X. assert (existsb (String.eqb n) defaulted = true); [|congruence].
    apply existsb_exists. exists n. split; auto. apply String.eqb_refl. }
  clear R. unfold from_json, opt in *. destruct j; try discriminate. cbn [obj bind without] in *.
  repeat match goal with
  | H : bind _ _ = Some _ |- _ => let v := fresh "v" in let E := fresh "E" in apply bind_some in H; destruct H as (v & E & H); cbv beta in H
  end.
  repeat (eapply bind_ok; [first [eapply req_without; [apply R'; reflexivity|eassumption] | eapply dft_without; eassumption]|cbv beta]).
  injection H as <-. reflexivity.
Qed.
End Serde.
