(** Properties C74, C75, C76: what a fit does to the targets it does to the model.  A change of unit and origin of
    the targets (squared loss), the exchange of the two labels (log loss), and, in IEEE arithmetic, a change of
    sign; and where these symmetries stop. *)
From Coq Require Import List Arith NArith ZArith Lia Bool Reals Lra.
From Flocq Require Import Core IEEE754.BinarySingleNaN.
From Verif Require Import Prelude Float FloatI FloatX FloatLaws Data Utils Binning BinningX Histogram Node Splitter Tree Objective Metric Sampler ObjectiveX
  Contrib Booster BoostProofs FitModel FinX BoostX LossX Recode Scale ScaleFit ScaleX ScaleThm ScaleI PropBinning PropTree PropPredict PropFit.
Import ListNotations.
Local Open Scope R_scope.

(** *** C74: squared loss, exact arithmetic, targets a * y + c *)
Section Unit.
Variables (E : @Env XF) (b : @Booster XF) (a c : R).
Let p := gb_params b.
Let f (x : xr) : xr := xadd (xmul (Fin a) x) (Fin c).
(** The parameters measured in the unit of the target follow it; directions turn round with it. *)
Definition in_unit (p : @Params XF) : @Params XF :=
  @mkParams XF (p_objective p) (p_iterations p) (p_learning_rate p) (p_max_depth p) (p_max_leaves p) (xmul (Fin (Rabs a)) (p_l1 p)) (p_l2 p)
    (xmul (Fin (a * a)) (p_gamma p)) (xmul (Fin (Rabs a)) (p_max_delta_step p)) (p_min_leaf_weight p) (p_nbins p) (p_parallel p) (p_allow_missing_splits p)
    (option_map (map (fun kc => (fst kc, if Rlt_bool a 0 then flip (snd kc) else snd kc))) (p_monotone_constraints p))
    (p_subsample p) (p_top_rate p) (p_other_rate p) (p_colsample_bytree p) (p_seed p) (p_missing p) (p_create_missing_branch p) (p_sample_method p)
    (p_grow_policy p) (p_evaluation_metric p) (p_early_stopping_rounds p) (p_initialize_base_score p) (p_terminate_missing_features p)
    (p_missing_node_treatment p) (p_log_iterations p) (p_force_children_to_bound_parent p).
(** The same trees with the weights times a and the gains times a * a; the recorded metrics times |a|. *)
Definition model_in_unit (m : @Booster XF) : @Booster XF :=
  @mkBooster XF (in_unit (gb_params m)) (xadd (xmul (Fin a) (gb_base_score m)) (Fin c))
    (option_map (fun h => mkRM (map (xmul (Fin (Rabs a))) (r_data h)) (r_rows h) (r_cols h) (r_stride1 h) (r_stride2 h)) (gb_history m))
    (gb_best m) (gb_pred m)
    (map (map (fun n => @mkNode XF (n_num n) (xmul (Fin a) (n_weight n)) (n_hess n) (n_depth n) (n_split_value n) (n_split_feature n)
                          (xmul (Fin (a * a)) (n_split_gain n)) (n_missing n) (n_left n) (n_right n) (n_is_leaf n))) (gb_trees m))
    (gb_metadata m).

Hypotheses (A : a <> 0) (SQ : p_objective p = SquaredLoss).
(** l1 and the step limit are not negative, as validation requires *)
Hypotheses (L1 : xle (Fin 0) (p_l1 p) = true) (MD : xle (Fin 0) (p_max_delta_step p) = true).
(** the one option that is not symmetric (see C76) is off when the sign changes *)
Hypothesis NF : a < 0 -> p_create_missing_branch p = true -> p_force_children_to_bound_parent p = false.
(** the two library sorts look at their keys only through comparisons *)
Hypothesis PK : p_grow_policy p = LossGuide -> forall i, order_based (e_pick E i).
Hypothesis GO : p_sample_method p = SGoss -> abs_based (e_goss E).

Theorem C74_targets_change_of_unit : forall data (y w : list xr) evals,
  (evals <> None -> p_evaluation_metric p = Some RootMeanSquaredError) ->
  (p_initialize_base_score p = true -> (forall x, In x y -> xfin x) /\ (forall x, In x w -> xfin x)) ->
  @fit XF E (model_in_unit b) data (map f y) w (option_map (map (fun '(d, y, w) => (d, map f y, w))) evals) =
  option_map (fun r => (model_in_unit (fst r), snd r)) (@fit XF E b data y w evals).
Proof. intros data y w evals ME IN. exact (affine_fit a c A E b data y w evals SQ L1 MD NF PK GO ME IN). Qed.

Theorem C74_predictions_change_of_unit : forall shs (data : Matrix xr) parallel,
  @predict XF shs (model_in_unit b) data parallel = option_map (map f) (@predict XF shs b data parallel).
Proof. intros shs data parallel. exact (affine_predict a c A b shs data parallel SQ). Qed.
End Unit.

(** A shift needs no change of any parameter; the trees are the same. *)
Theorem C74_targets_shift : forall (E : @Env XF) (b : @Booster XF) data (y w : list xr) c m, let p := gb_params b in
  p_objective p = SquaredLoss -> xle (Fin 0) (p_l1 p) = true -> xle (Fin 0) (p_max_delta_step p) = true ->
  (p_grow_policy p = LossGuide -> forall i, order_based (e_pick E i)) -> (p_sample_method p = SGoss -> abs_based (e_goss E)) ->
  p_initialize_base_score p = true -> (forall x, In x y -> xfin x) -> (forall x, In x w -> xfin x) ->
  @fit XF E b data y w None = Some (m, None) ->
  exists m', @fit XF E b data (map (fun v => xadd v (Fin c)) y) w None = Some (m', None) /\
    gb_trees m' = gb_trees m /\ gb_base_score m' = xadd (gb_base_score m) (Fin c) /\
    forall shs (d : Matrix xr) par, @predict XF shs m' d par = option_map (map (fun v => xadd v (Fin c))) (@predict XF shs m d par).
Proof. exact shift_fit. Qed.

(** The case of C62 (four rows, one missing cell, three rounds, the training data as evaluation set), its targets
    turned from y into 10 - 2 y. *)
Example exs_unit : exists m m', @fit XF exf_env exf_booster exf_data exf_y exf_w (Some exf_evals) = Some (m, None) /\
  length (gb_trees m) = 3%nat /\ m' = model_in_unit (-2) 10 m /\
  @fit XF exf_env (model_in_unit (-2) 10 exf_booster) exf_data (map (fun x => xadd (xmul (Fin (-2)) x) (Fin 10)) exf_y) exf_w
    (option_map (map (fun '(d, y, w) => (d, map (fun x => xadd (xmul (Fin (-2)) x) (Fin 10)) y, w))) (Some exf_evals)) = Some (m', None).
Proof.
  destruct exf_fitted as (m & HF & LN). exists m, (model_in_unit (-2) 10 m). split; [exact HF|]. split; [exact LN|]. split; [reflexivity|].
  rewrite (C74_targets_change_of_unit exf_env exf_booster (-2) 10); try discriminate; try lra.
  - rewrite HF. reflexivity.
  - reflexivity.
  - apply Rle_bool_true. lra.
  - apply Rle_bool_true. lra.
  - reflexivity.
  - intros _. split; intros x [<-|[<-|[<-|[<-|[]]]]]; eexists; reflexivity.
Qed.

(** *** C75: log loss, exact arithmetic, labels 1 - y *)
Definition swapped (b : @Booster XF) : @Booster XF :=
  @mkBooster XF (let p := gb_params b in
    @mkParams XF (p_objective p) (p_iterations p) (p_learning_rate p) (p_max_depth p) (p_max_leaves p) (p_l1 p) (p_l2 p)
      (p_gamma p) (p_max_delta_step p) (p_min_leaf_weight p) (p_nbins p) (p_parallel p) (p_allow_missing_splits p)
      (option_map (map (fun kc => (fst kc, flip (snd kc)))) (p_monotone_constraints p))
      (p_subsample p) (p_top_rate p) (p_other_rate p) (p_colsample_bytree p) (p_seed p) (p_missing p) (p_create_missing_branch p) (p_sample_method p)
      (p_grow_policy p) (p_evaluation_metric p) (p_early_stopping_rounds p) (p_initialize_base_score p) (p_terminate_missing_features p)
      (p_missing_node_treatment p) (p_log_iterations p) (p_force_children_to_bound_parent p))
    (xneg (gb_base_score b)) (gb_history b) (gb_best b) (gb_pred b)
    (map (map (fun n => @mkNode XF (n_num n) (xneg (n_weight n)) (n_hess n) (n_depth n) (n_split_value n) (n_split_feature n)
                          (n_split_gain n) (n_missing n) (n_left n) (n_right n) (n_is_leaf n))) (gb_trees b))
    (gb_metadata b).
Lemma swapped_scale : forall b, scale_booster (-1) xneg (fun m => m) b = swapped b.
Proof.
  intros b. unfold scale_booster, swapped.
  assert (A1 : Rabs (-1) = 1) by (rewrite Rabs_left; lra).
  assert (Q1 : -1 * -1 = 1) by lra.
  assert (PE : scale_params (-1) (gb_params b) = let p := gb_params b in
    @mkParams XF (p_objective p) (p_iterations p) (p_learning_rate p) (p_max_depth p) (p_max_leaves p) (p_l1 p) (p_l2 p)
      (p_gamma p) (p_max_delta_step p) (p_min_leaf_weight p) (p_nbins p) (p_parallel p) (p_allow_missing_splits p)
      (option_map (map (fun kc => (fst kc, flip (snd kc)))) (p_monotone_constraints p))
      (p_subsample p) (p_top_rate p) (p_other_rate p) (p_colsample_bytree p) (p_seed p) (p_missing p) (p_create_missing_branch p) (p_sample_method p)
      (p_grow_policy p) (p_evaluation_metric p) (p_early_stopping_rounds p) (p_initialize_base_score p) (p_terminate_missing_features p)
      (p_missing_node_treatment p) (p_log_iterations p) (p_force_children_to_bound_parent p)).
  { cbv zeta. unfold scale_params, sm, sq.
    replace (xmul (Fin (Rabs (-1))) (p_l1 (gb_params b))) with (p_l1 (gb_params b)) by (rewrite A1, one_mul; reflexivity).
    replace (xmul (Fin (Rabs (-1))) (p_max_delta_step (gb_params b))) with (p_max_delta_step (gb_params b)) by (rewrite A1, one_mul; reflexivity).
    replace (xmul (Fin (-1 * -1)) (p_gamma (gb_params b))) with (p_gamma (gb_params b)) by (rewrite Q1, one_mul; reflexivity).
    replace (option_map (turn_map (-1)) (p_monotone_constraints (gb_params b))) with
      (option_map (map (fun kc : nat * Constraint => (fst kc, flip (snd kc)))) (p_monotone_constraints (gb_params b))); [reflexivity|].
    destruct (p_monotone_constraints (gb_params b)) as [cm|]; simpl; auto. f_equal. unfold turn_map, turn, xneg_b. rewrite Rlt_bool_true by lra. reflexivity. }
  assert (TE : map (map (scale_node (-1))) (gb_trees b) =
    map (map (fun n => @mkNode XF (n_num n) (xneg (n_weight n)) (n_hess n) (n_depth n) (n_split_value n) (n_split_feature n)
                          (n_split_gain n) (n_missing n) (n_left n) (n_right n) (n_is_leaf n))) (gb_trees b)).
  { apply map_ext. intros l. apply map_ext. intros n. unfold scale_node.
    replace (sx (-1) (n_weight n)) with (xneg (n_weight n)) by (symmetry; apply neg_mul).
    replace (sq (-1) (n_split_gain n)) with (n_split_gain n); [reflexivity|]. unfold sq. rewrite Q1. symmetry. apply one_mul. }
  assert (HE : option_map (scale_history (fun m => m)) (gb_history b) = gb_history b).
  { destruct (gb_history b) as [[d r c s1 s2]|]; simpl; auto. unfold scale_history. simpl. rewrite map_id. reflexivity. }
  rewrite PE, TE, HE. reflexivity.
Qed.

Section Labels.
Variables (E : @Env XF) (b : @Booster XF).
Let p := gb_params b.
Hypotheses (LL : p_objective p = LogLoss) (L1 : xle (Fin 0) (p_l1 p) = true) (MD : xle (Fin 0) (p_max_delta_step p) = true).
Hypothesis NF : p_create_missing_branch p = true -> p_force_children_to_bound_parent p = false.
Hypothesis PK : p_grow_policy p = LossGuide -> forall i, order_based (e_pick E i).
Hypothesis GO : p_sample_method p = SGoss -> abs_based (e_goss E).
Let swap (y : list xr) := map (fun v => xsub (Fin 1) v) y.

Theorem C75_labels_exchanged : forall data (y w : list xr) evals,
  (evals <> None -> get_metric p = MLogLoss) ->
  (p_initialize_base_score p = true -> (forall x, In x y -> exists r, x = Fin r /\ 0 <= r <= 1) /\ (forall x, In x w -> exists r, x = Fin r /\ 0 <= r)) ->
  @fit XF E (swapped b) data (swap y) w (option_map (map (fun '(d, y, w) => (d, swap y, w))) evals) =
  option_map (fun r => (swapped (fst r), snd r)) (@fit XF E b data y w evals).
Proof.
  intros data y w evals ME IN. rewrite <- swapped_scale.
  etransitivity; [exact (swap_fit E b data y w evals LL L1 MD NF PK GO ME IN)|].
  destruct (fit E b data y w evals) as [[m e]|]; simpl; auto. rewrite swapped_scale. reflexivity.
Qed.
(** The scores change sign, so the predicted probabilities p become 1 - p. *)
Theorem C75_scores_change_sign : forall shs (data : Matrix xr) parallel,
  @predict XF shs (swapped b) data parallel = option_map (map xneg) (@predict XF shs b data parallel) /\
  forall v, v <> XNaN -> @sigmoid XF (xneg v) = xsub (Fin 1) (@sigmoid XF v).
Proof.
  intros shs data parallel. split.
  - rewrite <- swapped_scale. exact (swap_predict b shs data parallel LL).
  - intros v N. destruct (sig_val v) as [[_ EV]|(q & E1 & E2)]; [congruence|]. rewrite E1, E2. reflexivity.
Qed.
End Labels.

(** *** C76: squared loss, IEEE arithmetic, targets of the opposite sign *)
(** the same number, zeros of either sign being one number *)
Definition same_number (x x' : b64) : Prop := Beqb x x' = true \/ (x = B754_nan /\ x' = B754_nan).
Lemma opp_same : forall x x', opp64 x x' -> same_number (Bopp x) x'.
Proof.
  intros x x' H. destruct (rel_cases _ _ true x x' H) as [(F & F' & EQ)|[(s & -> & ->)|[-> ->]]]; [left|left|right; auto].
  - rewrite val_eq, !val_fin by (try rewrite is_finite_Bopp; auto). rewrite B2R_Bopp. simpl in *. apply Req_bool_true. lra.
  - destruct s; reflexivity.
Qed.

Section Sign.
Variables iexp iln iln1p : b64 -> b64.
Notation FI := (IF iexp iln iln1p).
Theorem C76_targets_change_sign : forall (E : @Env FI) (b : @Booster FI) data (y w : list b64) m, let p := gb_params b in
  p_objective p = SquaredLoss -> Bleb (B754_zero false) (p_l1 p) = true -> Bleb (B754_zero false) (p_max_delta_step p) = true ->
  (p_monotone_constraints p = None \/ p_monotone_constraints p = Some []) ->
  (p_create_missing_branch p = true -> p_force_children_to_bound_parent p = false) ->
  p_grow_policy p = DepthWise -> (p_sample_method p = SGoss -> abs_based (e_goss E)) -> p_initialize_base_score p = true -> gb_trees b = [] -> gb_history b = None ->
  @fit FI E b data y w None = Some (m, None) ->
  exists m', @fit FI E b data (map (@Bopp 53 1024) y) w None = Some (m', None) /\
    map (map (fun n => (n_num n, n_split_feature n, n_split_value n, n_missing n, n_left n, n_right n, n_is_leaf n))) (gb_trees m') =
    map (map (fun n => (n_num n, n_split_feature n, n_split_value n, n_missing n, n_left n, n_right n, n_is_leaf n))) (gb_trees m) /\
    forall shs (d : Matrix b64) par preds, @predict FI shs m d par = Some preds ->
      exists preds', @predict FI shs m' d par = Some preds' /\ Forall2 (fun v v' => same_number (Bopp v) v') preds preds'.
Proof.
  intros E b data y w m p SQ L1 MD CM NF GP GO IN T0 H0 HF.
  assert (CF : forall f, free (@Splitter.get_constraint FI (splitter_of p) f)).
  { intros f. left. unfold Splitter.get_constraint, splitter_of. destruct (p_create_missing_branch p); simpl; destruct CM as [CE|CE]; rewrite CE; reflexivity. }
  assert (FY : Forall2 opp64 y (map (@Bopp 53 1024) y)) by (clear; induction y; simpl; constructor; auto; apply rel_bopp).
  pose proof (neg_fit iexp iln iln1p E b b data y (map (@Bopp 53 1024) y) w None None SQ L1 MD CF NF ltac:(fold p; rewrite GP; discriminate)
     GO ltac:(congruence) I FY) as R.
  assert (KR : kept_rel (FS := FI) opp32 same32 same64 p (p_l1 p) (p_gamma p) (p_max_delta_step p) (p_monotone_constraints p) b b).
  { constructor; try reflexivity; [unfold p; destruct (gb_params b); reflexivity|rewrite H0; exact I|rewrite T0; constructor]. }
  specialize (R KR ltac:(fold p; rewrite IN; discriminate)). rewrite HF in R.
  destruct (fit E b data (map (@Bopp 53 1024) y) w None) as [[m' e']|] eqn:HF'; simpl in R; [|tauto].
  destruct R as [R1 R2]. specialize (R2 eq_refl). subst e'. exists m'. split; [reflexivity|]. split.
  - destruct R2 as [[K1 K2 K3 K4 K5 K6 K7] KB]. clear -K6.
    induction K6 as [|l l' ts ts' F FS IH]; simpl; auto. f_equal; auto.
    clear -F. induction F as [|n n' l l' N F IH]; simpl; auto. f_equal; auto. destruct N. simpl in *. congruence.
  - intros shs d par preds HP. pose proof (neg_predict iexp iln iln1p m m' p shs d par SQ R2) as Q. rewrite HP in Q.
    destruct (predict shs m' d par) as [preds'|]; simpl in Q; [|tauto]. exists preds'. split; auto.
    eapply F2_impl; [|exact Q]. exact opp_same.
Qed.
End Sign.

(** *** Cases *)
(** The run of C44 (five rows, two columns, four trees of seven nodes): both signs, and the leaves the rows end in. *)
Notation exs_pos := (exb_fit (exb_new None true) None).
Notation exs_neg := (@fit IE exb_env (exb_new None true) ex_data (map (@Bopp 53 1024) exb_y) ex_sw None).
Example exs_sign : exists m, exs_pos = Some (m, None) /\ map (@length _) (gb_trees m) = [7; 7; 7; 7]%nat /\
  exists m', exs_neg = Some (m', None) /\
    map (map (fun n => (n_num n, n_split_feature n, n_split_value n, n_missing n, n_left n, n_right n, n_is_leaf n))) (gb_trees m') =
    map (map (fun n => (n_num n, n_split_feature n, n_split_value n, n_missing n, n_left n, n_right n, n_is_leaf n))) (gb_trees m).
Proof.
  destruct exb_run as (H1 & H2 & _). revert H1 H2. generalize (exb_out (exb_new None true) None) as m. intros m HF LN.
  exists m. split; [exact HF|]. split; [exact LN|].
  pose proof (C76_targets_change_sign idf idf idf exb_env (exb_new None true) ex_data exb_y ex_sw m) as C. cbv zeta in C.
  assert (B1 : Bleb (B754_zero false) (p_l1 (gb_params (exb_new None true))) = true) by (vm_compute; reflexivity).
  assert (B2 : Bleb (B754_zero false) (p_max_delta_step (gb_params (exb_new None true))) = true) by (vm_compute; reflexivity).
  specialize (C eq_refl B1 B2 (or_introl eq_refl) (fun _ => eq_refl) eq_refl ltac:(discriminate) eq_refl eq_refl eq_refl HF).
  destruct C as (m' & C1 & C2 & _). exists m'. split; [exact C1|exact C2].
Qed.

(** force_children_to_bound_parent is not symmetric: three rows, one column, the third value missing, targets
    1, 1, 4, a missing branch.  Both children have weight 1 and the parent 2; the right one is moved to 2.  With
    the opposite targets it is the left one that is moved. *)
Definition exs_force_params : @Params IE :=
  @mkParams IE SquaredLoss 1 (z32 1) 2 10 (z32 0) (z32 0) (z32 0) (z32 0) (z32 1) 4
    false false None (z32 1) (z64 1) (z64 1) (z64 1) 7%N (fnan IOps64) true SNone DepthWise None None false [] TNone 0 true.
Definition exs_force : @Booster IE := @mkBooster IE exs_force_params (z64 0) None None None [] [].
Definition exs_force_data : Matrix b64 := matrix_new [z64 1; z64 2; fnan IOps64] 3 1.
Definition exs_w3 : list b64 := map z64 [1; 1; 1]%Z.
Definition same_b (x x' : b64) : bool := Beqb x x' || (is_nan x && is_nan x').
Notation exs_preds e b d y w := (let* (m, _) := @fit IE e b d y w None in @predict IE (fun _ => Seq) m d false).

Theorem C76_forced_bounds_refuted : exists (E : @Env IE) (b : @Booster IE) data (y w : list b64) preds preds',
  p_force_children_to_bound_parent (gb_params b) = true /\ p_objective (gb_params b) = SquaredLoss /\
  exs_preds E b data y w = Some preds /\ exs_preds E b data (map (@Bopp 53 1024) y) w = Some preds' /\
  map (fun '(u, v) => same_b u v) (combine preds (map z64 [1; 2; 4]%Z)) = [true; true; true] /\ map (fun '(u, v) => same_b u v) (combine preds' (map z64 [-2; -1; -4]%Z)) = [true; true; true].
Proof.
  exists exb_env, exs_force, exs_force_data, (map z64 [1; 1; 4]%Z), exs_w3.
  exists (get [] (exs_preds exb_env exs_force exs_force_data (map z64 [1; 1; 4]%Z) exs_w3)).
  exists (get [] (exs_preds exb_env exs_force exs_force_data (map (@Bopp 53 1024) (map z64 [1; 1; 4]%Z)) exs_w3)).
  split; [reflexivity|]. split; [reflexivity|]. split; [apply get_some; vm_compute; reflexivity|]. split; [apply get_some; vm_compute; reflexivity|].
  split; vm_compute; reflexivity.
Qed.

(** With rounding neither a shift nor a unit is free: adding 2^60 to the targets, or multiplying them by 2^-200
    (both exact in binary64 for the second), leaves trees without a split. *)
Notation exs_sizes e b d y w := (let* (m, _) := @fit IE e b d y w None in Some (map (@length _) (gb_trees m))).
Theorem C74_shift_rounding_refuted : exists (E : @Env IE) (b : @Booster IE) data (y w : list b64) (c : b64),
  p_objective (gb_params b) = SquaredLoss /\ p_initialize_base_score (gb_params b) = true /\
  exs_sizes E b data y w = Some [7; 7; 7; 7]%nat /\ exs_sizes E b data (map (fun v => fadd IOps64 v c) y) w = Some [1; 1; 1; 1]%nat.
Proof.
  exists exb_env, (exb_new None true), ex_data, exb_y, ex_sw, (z64 (2 ^ 60)).
  split; [reflexivity|]. split; [reflexivity|]. split; vm_compute; reflexivity.
Qed.
Theorem C74_unit_rounding_refuted : exists (E : @Env IE) (b : @Booster IE) data (y w : list b64) (c : b64),
  p_objective (gb_params b) = SquaredLoss /\ p_initialize_base_score (gb_params b) = true /\
  p_l1 (gb_params b) = z32 0 /\ p_gamma (gb_params b) = z32 0 /\ p_max_delta_step (gb_params b) = z32 0 /\
  forallb (fun v => Beqb v (fdiv IOps64 (fmul IOps64 v c) c)) y = true /\
  exs_sizes E b data y w = Some [7; 7; 7; 7]%nat /\ exs_sizes E b data (map (fun v => fmul IOps64 v c) y) w = Some [1; 1; 1; 1]%nat.
Proof.
  exists exb_env, (exb_new None true), ex_data, exb_y, ex_sw, (q64 1 (2 ^ 200)).
  split; [reflexivity|]. split; [reflexivity|]. split; [reflexivity|]. split; [reflexivity|]. split; [reflexivity|].
  split; [vm_compute; reflexivity|]. split; vm_compute; reflexivity.
Qed.

(** C75: the rows of C62 with labels 0 and 1 *)
Definition exs_log_y : list xr := [Fin 0; Fin 1; Fin 1; Fin 0].
Definition exs_log_params : @Params XF :=
  @mkParams XF LogLoss 3 (Fin (1/2)) 5 10 (Fin 0) (Fin 1) (Fin 0) (Fin 0) (Fin (1/10)) 4 false true (Some [(0%nat, Positive)]) (Fin 1) (Fin (1/10)) (Fin (1/10)) (Fin 1) 0%N
    XNaN false SNone DepthWise None None true [] AssignToParent 0 false.
Definition exs_log : @Booster XF := @mkBooster XF exs_log_params (Fin (1/2)) None None None [] [].
Example exs_log_fitted : exists m, @fit XF exf_env exs_log exf_data exs_log_y exf_w None = Some (m, None) /\ length (gb_trees m) = 3%nat /\
  @fit XF exf_env (swapped exs_log) exf_data (map (fun v => xsub (Fin 1) v) exs_log_y) exf_w None = Some (swapped m, None).
Proof.
  destruct exf_sound as (H1 & H2 & H3 & _ & _ & _).
  assert (NN : forall r, 0 <= r -> xnonneg (Fin r)) by (intros r H; exists r; auto).
  assert (P1 : sound_params exs_log_params).
  { constructor; simpl; try (apply NN; lra); try discriminate.
    + eexists; reflexivity.
    + eexists. split; [reflexivity|lra].
    + split; [lia|]. discriminate. }
  assert (P2 : sound_data exs_log_params exf_data exs_log_y exf_w).
  { destruct H2. constructor; auto. split; [reflexivity|]. intros v [<-|[<-|[<-|[<-|[]]]]]; eexists; reflexivity. }
  assert (P3 : sound_env exf_env exs_log_params).
  { destruct H3. constructor; auto; discriminate. }
  assert (BS : exists base, @calc_init XF LogLoss exs_log_y exf_w = Some (Fin base)).
  { apply (C62_base_score LogLoss [(0, 1); (1, 1); (1, 2); (0, 0)]). cbn. lra. }
  destruct BS as [base BS]. assert (CL : @clean XF exs_log) by (intros _; auto).
  destruct (C62_fit_completes exf_env exs_log exf_data exs_log_y exf_w None base P1 P2 P3 I CL BS) as [m HF].
  exists m. split; [exact HF|]. split; [exact (proj1 (proj2 (@tree_count XF _ _ _ _ _ _ _ CL HF)) (or_introl eq_refl))|].
  pose proof (C75_labels_exchanged exf_env exs_log) as C.
  specialize (C eq_refl ltac:(apply Rle_bool_true; lra) ltac:(apply Rle_bool_true; lra) ltac:(discriminate) ltac:(discriminate) ltac:(discriminate)
    exf_data exs_log_y exf_w None ltac:(congruence)).
  etransitivity; [apply C|]; [|exact (f_equal (option_map (fun r : @Booster XF * option ForustError => (swapped (fst r), snd r))) HF)].
  intros _. split; intros x [<-|[<-|[<-|[<-|[]]]]]; eexists; (split; [reflexivity|lra]).
Qed.

Print Assumptions C74_targets_change_of_unit. Print Assumptions C74_predictions_change_of_unit. Print Assumptions C74_targets_shift.
Print Assumptions C74_shift_rounding_refuted. Print Assumptions C74_unit_rounding_refuted.
Print Assumptions C75_labels_exchanged. Print Assumptions C75_scores_change_sign.
Print Assumptions C76_targets_change_sign. Print Assumptions C76_forced_bounds_refuted.
