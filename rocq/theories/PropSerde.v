(** Properties C53, C54: saving and loading. *)
From Coq Require Import List Arith NArith ZArith Bool String Permutation DecimalN DecimalString.
From Flocq Require Import Core IEEE754.Binary IEEE754.Bits.
From Verif Require Import Prelude Float FloatI Data Utils BinningX PropBinning Histogram Node Splitter Tree Objective Metric Sampler Contrib Booster
  PropTree PropPredict Serde SerdeProofs SerdePredict.
Import ListNotations.

(** *** C53.  [codec_ok]: a finite float is read back from the text printed for it.  [orders_ok]: a map
    or set is written out in some order.  [hash_ok]: maps have one entry per key.  [finite_model]: every
    float of the model other than `missing` is finite.  [same_model]: field by field equal, maps and
    sets having the same contents. *)
Theorem C53_round_trip : forall {FS : Floats} c o b, codec_ok c -> orders_ok o -> finite_model b -> hash_ok b ->
  is_finite f64 (p_missing (gb_params b)) = true \/ p_missing (gb_params b) = fnan f64 ->
  exists b', from_json c (json_dump c o b) = Some b' /\ same_model b b'.
Proof.
  intros FS c o b C O F H M. exists (reloaded o b). split; [now apply load_saved|].
  assert (E : set_missing b (loaded_missing (p_missing (gb_params b))) = b).
  { assert (L : loaded_missing (p_missing (gb_params b)) = p_missing (gb_params b)).
    { unfold loaded_missing. destruct M as [->| ->]; auto. destruct (is_finite f64 (fnan f64)); auto. }
    rewrite L. now destruct b as [[] ? ? ? ? ? ?]. }
  rewrite <- E at 1. now apply reloaded_same.
Qed.

(** Every prediction, contribution, partial dependence and importance of the loaded model is that of
    the saved one; here `missing` may be any NaN. *)
Theorem C53_same_answers : forall {FS : Floats} c o b, codec_ok c -> orders_ok o -> finite_model b -> hash_ok b ->
  fisnan f64 (fnan f64) = true ->
  is_finite f64 (p_missing (gb_params b)) = true \/ fisnan f64 (p_missing (gb_params b)) = true ->
  exists b', from_json c (json_dump c o b) = Some b' /\
    (forall shs data par, predict shs b' data par = predict shs b data par) /\
    (forall shs data, predict_leaf_indices shs b' data = predict_leaf_indices shs b data) /\
    (forall sh data me par, predict_contributions sh b' data me par = predict_contributions sh b data me par) /\
    (forall sh f v, value_partial_dependence sh b' f v = value_partial_dependence sh b f v) /\
    (forall me nm, calculate_feature_importance b' me nm = calculate_feature_importance b me nm).
Proof.
  intros FS c o b C O F H N M. exists (reloaded o b). split; [now apply load_saved|].
  assert (Q : forall v, is_missing v (loaded_missing (p_missing (gb_params b))) = is_missing v (p_missing (gb_params b))).
  { intros v. now apply loaded_missing_same. }
  repeat split; intros.
  - eapply predict_mm; eauto.
  - eapply predict_leaf_mm; eauto.
  - eapply contributions_mm; eauto.
  - eapply partial_dependence_mm; eauto.
Qed.

(** Exactly the models whose floats (other than `missing`) are finite can be loaded again. *)
Theorem C53_loads_iff_finite : forall {FS : Floats} c o b, codec_ok c -> orders_ok o -> hash_ok b ->
  ((exists b', from_json c (json_dump c o b) = Some b') <-> finite_model b).
Proof.
  intros FS c o b C O H. split.
  - intros (b' & E). eapply loads_only_finite; eauto.
  - intros F. exists (reloaded o b). now apply load_saved.
Qed.

(** A `missing` that is not finite comes back as NaN, whatever it was. *)
Theorem C53_missing : forall {FS : Floats} c o b, codec_ok c -> orders_ok o -> finite_model b -> hash_ok b ->
  is_finite f64 (p_missing (gb_params b)) = false ->
  exists b', from_json c (json_dump c o b) = Some b' /\ p_missing (gb_params b') = fnan f64.
Proof.
  intros FS c o b C O F H M. exists (reloaded o b). split; [now apply load_saved|]. simpl.
  unfold loaded_missing. now rewrite M.
Qed.

(** *** C54.  Any saved model, whoever wrote it, with any of the members that have a default (or the
    constraints) left out. *)
Theorem C54_defaults : forall {FS : Floats} c names j b, incl names defaulted -> from_json c j = Some b ->
  from_json c (without names j) = Some (with_defaults names b).
Proof. intros FS. exact load_without. Qed.

Theorem C54_old_dump : forall {FS : Floats} c o names b, incl names defaulted ->
  codec_ok c -> orders_ok o -> finite_model b -> hash_ok b ->
  from_json c (without names (json_dump c o b)) = Some (with_defaults names (reloaded o b)).
Proof. intros FS c o names b I C O F H. apply load_without; auto. now apply load_saved. Qed.

(** Behaving like a model saved with those values: dump that model and it loads to the same. *)
Theorem C54_like_saved : forall {FS : Floats} c o names b, incl names defaulted ->
  codec_ok c -> orders_ok o -> finite_model (with_defaults names b) -> finite_model b -> hash_ok b ->
  from_json c (without names (json_dump c o b)) = from_json c (json_dump c o (with_defaults names b)).
Proof.
  intros FS c o names b I C O F1 F H. rewrite C54_old_dump by auto.
  assert (H' : hash_ok (with_defaults names b)).
  { destruct H. constructor; simpl; unfold pick; auto.
    - destruct (gone names "monotone_constraints"); auto. discriminate.
    - destruct (gone names "terminate_missing_features"); auto. constructor. }
  rewrite load_saved by auto. f_equal. unfold reloaded, with_defaults. simpl. unfold pick.
  assert (OS : o_set o [] = []) by (apply Permutation_nil, Permutation_sym, oo_set; auto).
  repeat f_equal; destruct (gone names _); auto.
Qed.

(** *** A codec: the bit patterns in decimal.  Any order: here the reverse. *)
Definition Z_text (z : Z) : string := NilZero.string_of_uint (N.to_uint (Z.to_N z)).
Definition text_Z (s : string) : option Z := option_map (fun u => Z.of_N (N.of_uint u)) (NilZero.uint_of_string s).
Lemma text_Z_text : forall z, (0 <= z)%Z -> text_Z (Z_text z) = Some z.
Proof.
  intros z H. unfold text_Z, Z_text. rewrite NilZero.usu by apply N_to_uint_nonnil. simpl.
  now rewrite DecimalN.Unsigned.of_to, Z2N.id.
Qed.
Definition bits_codec : @Codec IE :=
  @mkCodec IE (fun x : b32 => Z_text (bits_of_b32 (BSN2B _ _ default_nan_pl32 x)))
    (fun s => option_map (fun z => B2BSN 24 128 (b32_of_bits z)) (text_Z s))
    (fun x : b64 => Z_text (bits_of_b64 (BSN2B _ _ default_nan_pl64 x)))
    (fun s => option_map (fun z => B2BSN 53 1024 (b64_of_bits z)) (text_Z s)).
Definition rev_orders : Orders := mkOrders (@rev _) (@rev _) (@rev _).

Lemma bits_codec_ok : codec_ok bits_codec.
Proof.
  constructor; intros x _; unfold bits_codec; cbn [rd32 pr32 rd64 pr64].
  - rewrite text_Z_text; [|apply bits_of_binary_float_range; reflexivity]. simpl. f_equal.
    unfold b32_of_bits, bits_of_b32. rewrite (binary_float_of_bits_of_binary_float 23 8) by reflexivity. apply B2BSN_BSN2B.
  - rewrite text_Z_text; [|apply bits_of_binary_float_range; reflexivity]. simpl. f_equal.
    unfold b64_of_bits, bits_of_b64. rewrite (binary_float_of_bits_of_binary_float 52 11) by reflexivity. apply B2BSN_BSN2B.
Qed.
Lemma rev_orders_ok : orders_ok rev_orders.
Proof. constructor; intros m; apply Permutation_sym, Permutation_rev. Qed.

(** C53: the model trained in [exb_run] on two evaluation sets, with constraints, terminating features
    and metadata added, is saved and loaded. *)
Definition exs_booster : @Booster IE :=
  let b := exb_out (exb_new (Some 1) false) (Some exb_sets) in
  let p := gb_params b in
  @insert_metadata IE (@insert_metadata IE (@set_params IE b
    (@mkParams IE (p_objective p) (p_iterations p) (p_learning_rate p) (p_max_depth p) (p_max_leaves p) (p_l1 p) (p_l2 p)
    (p_gamma p) (p_max_delta_step p) (p_min_leaf_weight p) (p_nbins p) (p_parallel p) (p_allow_missing_splits p)
    (Some [(1, Positive); (0, Unconstrained)]) (p_subsample p) (p_top_rate p) (p_other_rate p) (p_colsample_bytree p) (p_seed p)
    (p_missing p) (p_create_missing_branch p) (p_sample_method p) (p_grow_policy p) (p_evaluation_metric p)
    (p_early_stopping_rounds p) (p_initialize_base_score p) [1; 0]
    (p_missing_node_treatment p) (p_log_iterations p) (p_force_children_to_bound_parent p)))
    "a" "x") "b" "y".

Example exs_round_trip :
  codec_ok bits_codec /\ orders_ok rev_orders /\ finite_model exs_booster /\ hash_ok exs_booster /\
  p_missing (gb_params exs_booster) = fnan (@f64 IE) /\ List.length (gb_trees exs_booster) = 2 /\
  match @from_json IE bits_codec (@json_dump IE bits_codec rev_orders exs_booster) with
  | Some b => p_terminate_missing_features (gb_params b) = [0; 1] /\ get_metadata b "b" = Some "y"%string /\
      option_map (@r_cols _) (gb_history b) = Some 2
  | None => False
  end.
Proof.
  assert (L : is_some (@from_json IE bits_codec (@json_dump IE bits_codec rev_orders exs_booster)) = true)
    by (vm_compute; reflexivity).
  assert (F : finite_model exs_booster).
  { eapply (loads_only_finite bits_codec rev_orders exs_booster), (get_some _ exs_booster). exact L. }
  assert (H : hash_ok exs_booster).
  { constructor.
    - intros m [= <-]. repeat constructor; simpl; intuition discriminate.
    - repeat constructor; simpl; intuition discriminate.
    - assert (V : gb_metadata exs_booster = [("a", "x"); ("b", "y")]%string) by (vm_compute; reflexivity). rewrite V.
      repeat constructor; simpl; intuition discriminate. }
  split; [exact bits_codec_ok|]. split; [exact rev_orders_ok|]. split; [exact F|]. split; [exact H|].
  split; [vm_compute; reflexivity|]. split; [vm_compute; reflexivity|].
  rewrite (load_saved bits_codec rev_orders exs_booster bits_codec_ok rev_orders_ok F H).
  split; [reflexivity|]. split; vm_compute; reflexivity.
Qed.

(** C54: that dump without five of its members *)
Example exs_defaults :
  let names := ["l1"; "top_rate"; "evaluation_history"; "terminate_missing_features"; "prediction_iteration"]%string in
  incl names defaulted /\
  exists b, @from_json IE bits_codec (without names (@json_dump IE bits_codec rev_orders exs_booster)) = Some b /\
    gb_pred exs_booster = Some 1 /\ gb_pred b = None /\ gb_history b = None /\
    p_terminate_missing_features (gb_params b) = [] /\ p_top_rate (gb_params b) = q64 1 10 /\
    p_early_stopping_rounds (gb_params b) = Some 1.
Proof.
  intros names. split.
  - intros x I. simpl in I. simpl. intuition.
  - destruct exs_round_trip as (C & O & F & H & _).
    assert (I : incl names defaulted) by (intros x I; simpl in I; simpl; intuition).
    eexists. split; [apply (C54_old_dump bits_codec rev_orders names exs_booster I C O F H)|].
    split; [vm_compute; reflexivity|]. do 4 (split; [reflexivity|]). vm_compute. reflexivity.
Qed.

(** C53 fails for models that training produces: with initialize_base_score and no positive label the
    log-loss base score is ln 0 = -infinity; the trained model saves, and no reader loads it. *)
Definition ln0 (x : b64) : b64 := if feq IOps64 x (fzero IOps64) then fninf IOps64 else x.
Definition IL : Floats := IF idf ln0 idf.
Definition exl_params : @Params IL :=
  @mkParams IL LogLoss 1 (q32 1 2) 5 10 (z32 0) (z32 1) (z32 0) (z32 0) (z32 1) 2
    true false None (z32 1) (z64 1) (z64 1) (z64 1) 7%N (fnan IOps64) true SNone DepthWise None None true [] TNone 0 false.
Definition exl_env : @Env IL :=
  @mkEnv IL (fun _ => @mkRng IL (fun _ => z32 0) (fun _ => z64 0) (fun _ a l => firstn a l)) (@isorts IL)
    (fun v => seq 0 (List.length v)) (fun v => seq 0 (List.length v)) (fun _ _ _ => 0) (fun _ _ => SplitAt 2 Seq Seq).
Definition exl_new : @Booster IL := @mkBooster IL exl_params (z64 0) None None None [] [].

Theorem C53_trained_model_does_not_load_refuted : exists (E : @Env IL) p b data y w b',
  @fln IL (fzero IOps64) = fninf IOps64 /\ @booster_new IL p (z64 0) = inl b /\
  (forall x, In x y -> x = fzero (@f64 IL)) /\ fit E b data y w None = Some (b', None) /\
  forall c o, @from_json IL c (@json_dump IL c o b') = None.
Proof.
  pose (r := @fit IL exl_env exl_new ex_data (repeat (fzero IOps64) 5) ex_sw None).
  exists exl_env, exl_params, exl_new, ex_data, (repeat (fzero IOps64) 5), ex_sw, (fst (get (exl_new, None) r)).
  split; [reflexivity|]. split.
  { assert (V : is_some (@validate_parameters IL exl_params) = false) by (vm_compute; reflexivity).
    unfold booster_new. destruct (@validate_parameters IL exl_params); [discriminate|reflexivity]. }
  split; [intros x I; apply repeat_spec in I; exact I|]. split.
  - assert (V : match r with Some (_, None) => true | _ => false end = true) by (vm_compute; reflexivity).
    change (r = Some (fst (get (exl_new, None) r), None)).
    destruct r as [[b' [e|]]|]; simpl; try discriminate. reflexivity.
  - intros c o. destruct (from_json c _) as [b''|] eqn:E; auto. apply loads_only_finite in E.
    apply fm_base in E. assert (V : @is_finite (@f64 IL) (gb_base_score (fst (get (exl_new, None) r))) = false) by (vm_compute; reflexivity).
    exfalso. apply Bool.diff_false_true. rewrite <- E. symmetry. exact V.
Qed.

Lemma set_missing_ok : forall {FS : Floats} b m, finite_model b -> hash_ok b -> finite_model (set_missing b m) /\ hash_ok (set_missing b m).
Proof. intros FS b m [] []. split; constructor; auto. Qed.

(** A `missing` of infinity is lost: the loaded model sends such an entry down another branch. *)
Theorem C53_infinite_missing_refuted : exists (c : @Codec IE) o b b' v, codec_ok c /\ orders_ok o /\ finite_model b /\ hash_ok b /\
  from_json c (json_dump c o b) = Some b' /\
  is_missing v (p_missing (gb_params b)) = Some true /\ is_missing v (p_missing (gb_params b')) = Some false.
Proof.
  pose (b := @set_missing IE exs_booster (finf IOps64)).
  destruct exs_round_trip as (C & O & F & H & _).
  destruct (set_missing_ok exs_booster (finf IOps64) F H) as (F' & H').
  exists bits_codec, rev_orders, b, (reloaded rev_orders b), (finf IOps64).
  split; [exact C|]. split; [exact O|]. split; [exact F'|]. split; [exact H'|].
  split; [exact (load_saved _ _ _ C O F' H')|]. split; vm_compute; reflexivity.
Qed.

Print Assumptions C53_round_trip.
Print Assumptions C53_same_answers.
Print Assumptions C53_loads_iff_finite.
Print Assumptions C53_missing.
Print Assumptions C53_trained_model_does_not_load_refuted.
Print Assumptions C53_infinite_missing_refuted.
Print Assumptions C54_defaults.
Print Assumptions C54_old_dump.
Print Assumptions C54_like_saved.
