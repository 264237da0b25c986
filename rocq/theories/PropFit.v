(** Properties C62-C64: a fit on sound inputs completes, its predictions are finite, and with
    squared loss no tree raises the training loss (exact arithmetic). *)
From Coq Require Import Reals List Arith NArith Lia Lra Bool Sorting.
From Flocq Require Import Core.Raux.
From Verif Require Import Prelude Float FloatX FloatLaws OrdProofs Data DataProofs Utils Binning BinningProofs CutProofs BinMatrix BinningX Histogram Node Splitter
  Tree Objective Metric Sampler SamplerProofs MetricX ObjectiveX Booster PredictProofs BoostProofs FitModel FinX BoostX LossX.
Import ListNotations.
Local Open Scope R_scope.

(** *** C62 *)
Theorem C62_fit_completes : forall E b data y w es base, let p := gb_params b in
  sound_params p -> sound_data p data y w -> sound_env E p -> sound_evals data p es -> @clean XF b ->
  (if p_initialize_base_score p then @calc_init XF (p_objective p) y w else Some (gb_base_score b)) = Some (Fin base) ->
  exists b', @fit XF E b data y w es = Some (b', None).
Proof. exact fit_total. Qed.

(** The last hypothesis for the mean and the log odds: some weight, and for log loss both classes. *)
Theorem C62_base_score : forall o (l : list (R * R)),
  let N := sumR (map snd l) in let Y := sumR (map (fun q => snd q * fst q) l) in
  match o with LogLoss => 0 < Y < N | SquaredLoss => 0 < N end ->
  exists base, @calc_init XF o (map (fun q => Fin (fst q)) l) (map (fun q => Fin (snd q)) l) = Some (Fin base).
Proof. intros o l N Y H. eexists. exact (calc_init_X o l H). Qed.

(** The list of evaluation sets may not be empty: no fit with one iteration or more survives it. *)
Theorem C62_empty_evals : forall {FS : Floats} E b data y w r, clean b -> (0 < p_iterations (gb_params b))%nat ->
  fit E b data y w (Some []) = Some r -> exists e, r = (b, Some e).
Proof.
  intros FS E b data y w r C I H. unfold fit in H. destruct (validate_inputs y w (Some [])) as [e|]; [injection H as <-; eauto|].
  exfalso. inv_bind H. destruct (fit_trees_BI _ _ _ _ _ _ _ C E0) as (bd & base & l & _ & _ & -> & B & L & ST).
  destruct B as [_ _ _ _ _ _ _ (yhs & rows & ms & _ & _ & _ & A4 & A5 & _ & A7 & A8 & _)].
  destruct (length (gb_trees (l_booster l))) as [|k]; [|apply A4; auto].
  specialize (ST I). destruct rows; [|discriminate]. inversion A7; subst. injection A8 as _ _ _ Q. simpl in Q. congruence.
Qed.

(** *** C63 *)
Theorem C63_tree_never_raises_loss : forall E b b' data y w es base, let p := gb_params b in
  sound_params p -> sound_data p data y w -> sound_env E p -> @clean XF b ->
  (if p_initialize_base_score p then @calc_init XF (p_objective p) y w else Some (gb_base_score b)) = Some (Fin base) ->
  @fit XF E b data y w es = Some (b', None) ->
  p_objective p = SquaredLoss -> p_sample_method p = SNone -> p_create_missing_branch p = false -> p_monotone_constraints p = None ->
  forall lr, p_learning_rate p = Fin lr -> 0 <= lr <= 1 ->
  forall shs par k, (k < length (gb_trees b'))%nat ->
  exists before after, @predict XF shs (@model_prefix XF b' k) data par = Some before /\
    @predict XF shs (@model_prefix XF b' (k + 1)) data par = Some after /\ train_loss y after w <= train_loss y before w.
Proof. intros E b b' data y w es base p SP SD SE C HB HF. exact (loss_step E b b' data y w es base SP SD SE C HB HF). Qed.

Theorem C63_loss_never_increases : forall E b b' data y w es base, let p := gb_params b in
  sound_params p -> sound_data p data y w -> sound_env E p -> @clean XF b ->
  (if p_initialize_base_score p then @calc_init XF (p_objective p) y w else Some (gb_base_score b)) = Some (Fin base) ->
  @fit XF E b data y w es = Some (b', None) ->
  p_objective p = SquaredLoss -> p_sample_method p = SNone -> p_create_missing_branch p = false -> p_monotone_constraints p = None ->
  forall lr, p_learning_rate p = Fin lr -> 0 <= lr <= 1 ->
  forall shs par j k before after, (j <= k <= length (gb_trees b'))%nat ->
  @predict XF shs (@model_prefix XF b' j) data par = Some before -> @predict XF shs (@model_prefix XF b' k) data par = Some after ->
  train_loss y after w <= train_loss y before w.
Proof.
  intros E b b' data y w es base p SP SD SE C HB HF O1 O2 O3 O4 lr L1 L2 shs par j k before after [JK KL] PJ PK.
  revert after PK. induction JK as [|k JK IH]; intros after PK.
  - pose proof (eq_trans (eq_sym PJ) PK) as Q. injection Q as <-. lra.
  - destruct (loss_step E b b' data y w es base SP SD SE C HB HF O1 O2 O3 O4 lr L1 L2 shs par k ltac:(lia)) as (m & a & Hm & Ha & LE).
    rewrite Nat.add_1_r in Ha. pose proof (eq_trans (eq_sym Ha) PK) as Q. injection Q as <-.
    specialize (IH ltac:(lia) m Hm). lra.
Qed.

(** *** C64 *)
Theorem C64_predictions_finite : forall E b b' data y w es base, let p := gb_params b in
  sound_params p -> sound_data p data y w -> sound_env E p -> @clean XF b ->
  (if p_initialize_base_score p then @calc_init XF (p_objective p) y w else Some (gb_base_score b)) = Some (Fin base) ->
  @fit XF E b data y w es = Some (b', None) ->
  forall shs par (d : Matrix xr) k, sound_matrix (p_missing p) d -> m_cols d = m_cols data -> (k <= length (gb_trees b'))%nat ->
  exists yh, @predict XF shs (@model_prefix XF b' k) d par = Some yh /\ length yh = m_rows d /\ forall v, In v yh -> xfin v.
Proof. intros E b b' data y w es base p SP SD SE C HB HF. exact (model_finite E b b' data y w es base SP SD SE C HB HF). Qed.

(** *** A case: four rows, one cell missing, squared loss, learning rate 1/2, the training data as evaluation set. *)
Definition exf_data : Matrix xr := matrix_new [Fin 1; XNaN; Fin 3; Fin 2] 4 1.
Definition exf_y : list xr := [Fin 1; Fin 2; Fin 5; Fin 7].
Definition exf_w : list xr := [Fin 1; Fin 1; Fin 2; Fin 0].
Definition exf_params : @Params XF :=
  @mkParams XF SquaredLoss 3 (Fin (1/2)) 5 10 (Fin 0) (Fin 1) (Fin 0) (Fin 0) (Fin 1) 4 false true None (Fin 1) (Fin (1/10)) (Fin (1/10)) (Fin 1) 0%N
    XNaN false SNone DepthWise (Some RootMeanSquaredError) None true [] AssignToParent 0 false.
Definition exf_booster : @Booster XF := @mkBooster XF exf_params (Fin (1/2)) None None None [] [].
Definition exf_env : @Env XF :=
  @mkEnv XF (fun _ => @mkRng XF (fun _ => Fin 0) (fun _ => Fin 0) (fun _ a l => firstn a l)) (@isorts XF)
    (fun v => seq 0 (length v)) (fun v => seq 0 (length v)) (fun _ _ _ => 0%nat) (fun _ _ => Seq).
Definition exf_evals : list (@EvalData XF) := [(exf_data, exf_y, exf_w)].

Lemma exf_matrix : sound_matrix XNaN exf_data.
Proof. split; [reflexivity|]. split; [reflexivity|]. intros v _. left. reflexivity. Qed.

Example exf_sound : sound_params exf_params /\ sound_data exf_params exf_data exf_y exf_w /\ sound_env exf_env exf_params /\
  sound_evals exf_data exf_params (Some exf_evals) /\ @clean XF exf_booster /\
  exists base, @calc_init XF SquaredLoss exf_y exf_w = Some (Fin base).
Proof.
  assert (LT : forall r : R, r <= 3 -> xlt (Fin r) xmax = true).
  { intros r Hr. apply Rlt_bool_true. eapply Rle_lt_trans; [exact Hr|]. apply IZR_lt. reflexivity. }
  assert (NN : forall r, 0 <= r -> xnonneg (Fin r)) by (intros r H; exists r; auto).
  split; [|split; [|split; [|split; [|split]]]].
  - constructor; simpl; try (apply NN; lra); try discriminate.
    + eexists; reflexivity.
    + exists 1. split; [reflexivity|lra].
    + split; [lia|]. discriminate.
  - constructor.
    + exact exf_matrix.
    + split; [reflexivity|]. intros v [<-|[<-|[<-|[<-|[]]]]]; eexists; reflexivity.
    + split; [reflexivity|]. intros v [<-|[<-|[<-|[<-|[]]]]]; apply NN; lra.
    + intros v [<-|[<-|[<-|[<-|[]]]]] M; try (apply LT; lra). discriminate M.
    + intros [|j].
      * right. exists (Fin 1). split; [left; reflexivity|apply Rlt_bool_true; lra].
      * left. unfold col_values. destruct (@m_get_col (fcar (@f64 XF)) exf_data (S j)) as [col|] eqn:EQ; [|reflexivity]. exfalso.
        unfold m_get_col, m_get_col_slice, m_item_index in EQ. apply slice_Some in EQ. destruct EQ as (_ & EQ & _). cbn in EQ. lia.
    + left. exists 1. split; [reflexivity|lra].
  - constructor; try discriminate; [exact (@isorts_spec XF x_ord_laws)|]. left. apply Req_bool_true. reflexivity.
  - split; [discriminate|]. constructor; [|constructor]. split; [exact exf_matrix|]. repeat split; try discriminate; simpl.
    + intros v [<-|[<-|[<-|[<-|[]]]]]; discriminate.
    + destruct H as [<-|[<-|[<-|[<-|[]]]]]; discriminate.
    + destruct H as [<-|[<-|[<-|[<-|[]]]]]; apply Rlt_bool_false; lra.
  - intros _. auto.
  - apply (C62_base_score SquaredLoss [(1, 1); (2, 1); (5, 2); (7, 0)]). cbn. lra.
Qed.

(** So this fit completes with three trees, and C63 and C64 apply to it. *)
Example exf_fitted : exists b', @fit XF exf_env exf_booster exf_data exf_y exf_w (Some exf_evals) = Some (b', None) /\ length (gb_trees b') = 3%nat.
Proof.
  destruct exf_sound as (H1 & H2 & H3 & H4 & H5 & base & H6).
  destruct (C62_fit_completes exf_env exf_booster exf_data exf_y exf_w (Some exf_evals) base H1 H2 H3 H4 H5 H6) as [b' H].
  exists b'. split; auto. exact (proj1 (proj2 (@tree_count XF _ _ _ _ _ _ _ H5 H)) (or_introl eq_refl)).
Qed.

Print Assumptions C62_fit_completes. Print Assumptions C62_base_score. Print Assumptions C62_empty_evals.
Print Assumptions C63_tree_never_raises_loss. Print Assumptions C63_loss_never_increases. Print Assumptions C64_predictions_finite.
