(** Properties C99, C100: the mean of the predictions, and the range of the predictions, under the squared loss. *)
From Coq Require Import Reals Lra ZArith List Arith Lia Bool.
From Flocq Require Import Core.Raux.
From Verif Require Import Prelude Float FloatX FloatI FloatLaws OrdProofs Data Utils UtilsX Binning BinningX CutProofs BinMatrix Histogram Node Splitter
  Tree PropTree Objective Metric Sampler MetricX ObjectiveX Contrib Booster BoostProofs FitModel FinX BoostX LossX PropTrain PropPredict PropFit Groups.
Import ListNotations.
Local Open Scope R_scope.

(** [total_error y f w] is Σ w (y - f). *)
Lemma total_error_is : forall y f w, total_error y f w =
  sumR (map (fun j => val (nth j w (Fin 0)) * (val (nth j y (Fin 0)) - val (nth j f (Fin 0)))) (seq 0 (length y))).
Proof. reflexivity. Qed.

(** *** C99 *)
(** Without regularisation, the k-th model has total error (1 - learning_rate)^k times that of the base score alone. *)
Theorem C99_error_shrinks : forall E b b' data y w es base, let p := gb_params b in
  sound_params p -> sound_data p data y w -> sound_env E p -> @clean XF b ->
  (if p_initialize_base_score p then @calc_init XF (p_objective p) y w else Some (gb_base_score b)) = Some (Fin base) ->
  @fit XF E b data y w es = Some (b', None) ->
  p_objective p = SquaredLoss -> p_sample_method p = SNone -> p_create_missing_branch p = false -> p_monotone_constraints p = None ->
  forall lr, p_learning_rate p = Fin lr -> p_l1 p = Fin 0 -> p_l2 p = Fin 0 -> p_max_delta_step p = Fin 0 ->
  forall shs par k yh, (k <= length (gb_trees b'))%nat ->
  @predict XF shs (@model_prefix XF b' k) data par = Some yh ->
  total_error y yh w = (1 - lr) ^ k * total_error y (repeat (Fin base) (length y)) w.
Proof. intros E b b' data y w es base p SP SD SE C HB HF O1 O2 O3 O4 lr L. exact (error_after E b b' data y w es base SP SD SE C HB HF O1 O2 O3 O4 lr L). Qed.

(** With the base score initialised from the data the weighted mean of the predictions on the training
    data is the weighted mean of the targets, for any number of trees and any learning rate. *)
Theorem C99_mean_preserved : forall E b b' data y w es base, let p := gb_params b in
  sound_params p -> sound_data p data y w -> sound_env E p -> @clean XF b ->
  @calc_init XF (p_objective p) y w = Some (Fin base) -> p_initialize_base_score p = true ->
  @fit XF E b data y w es = Some (b', None) ->
  p_objective p = SquaredLoss -> p_sample_method p = SNone -> p_create_missing_branch p = false -> p_monotone_constraints p = None ->
  p_l1 p = Fin 0 -> p_l2 p = Fin 0 -> p_max_delta_step p = Fin 0 ->
  forall shs par k yh, (k <= length (gb_trees b'))%nat ->
  @predict XF shs (@model_prefix XF b' k) data par = Some yh ->
  let mean v := sumR (map (fun j => val (nth j w (Fin 0)) * val (nth j v (Fin 0))) (seq 0 (length y))) /
                sumR (map (fun j => val (nth j w (Fin 0))) (seq 0 (length y))) in
  mean yh = mean y.
Proof.
  intros E b b' data y w es base p SP SD SE C HB IN HF O1 O2 O3 O4 L1 L2 L3 shs par k yh Hk HP mean. unfold mean.
  destruct (sp_lr_ok _ SP) as [lr LR].
  assert (HB' : (if p_initialize_base_score p then @calc_init XF (p_objective p) y w else Some (gb_base_score b)) = Some (Fin base)) by (rewrite IN; exact HB).
  f_equal. exact (error_zero E b b' data y w es base SP SD SE C HB' HF O1 O2 O3 O4 lr LR L1 L2 L3 IN shs par k yh Hk HP).
Qed.

(** *** C100 *)
(** After one tree every prediction, of any row, lies between any bounds of the targets (and of the base
    score, which does when it is initialised from the data). *)
Theorem C100_first_tree_in_range : forall E b b' data y w es base, let p := gb_params b in
  sound_params p -> sound_data p data y w -> sound_env E p -> @clean XF b ->
  (if p_initialize_base_score p then @calc_init XF (p_objective p) y w else Some (gb_base_score b)) = Some (Fin base) ->
  @fit XF E b data y w es = Some (b', None) ->
  p_objective p = SquaredLoss -> p_sample_method p = SNone -> p_create_missing_branch p = false -> p_monotone_constraints p = None ->
  forall lr, p_learning_rate p = Fin lr -> 0 <= lr <= 1 ->
  forall lo hi, (forall v, In v y -> exists r, v = Fin r /\ lo <= r <= hi) ->
  p_initialize_base_score p = true \/ lo <= base <= hi ->
  forall shs par (d : Matrix xr) yh, sound_matrix (p_missing p) d -> m_cols d = m_cols data ->
  (1 <= length (gb_trees b'))%nat ->
  @predict XF shs (@model_prefix XF b' 1) d par = Some yh -> forall v, In v yh -> exists r, v = Fin r /\ lo <= r <= hi.
Proof.
  intros E b b' data y w es base p SP SD SE C HB HF O1 O2 O3 O4 lr L LB lo hi YB IB.
  assert (BB : lo <= base <= hi).
  { destruct IB as [IN|IB]; [|exact IB]. exact (base_range b data y w base SD HB O1 IN lo hi YB). }
  exact (one_tree_range E b b' data y w es base SP SD SE C HB HF O1 O2 O3 O4 lr L LB lo hi BB YB).
Qed.

(** Both statements need their hypotheses.  The witnesses below are runs of the program on IEEE numbers. *)
Definition exg_params (l2 : b32) (iters : nat) : @Params IE :=
  @mkParams IE SquaredLoss iters (z32 1) 1 10 (z32 0) l2 (z32 0) (z32 0) (z32 1) 4 false true None (z32 1) (q64 1 10) (q64 1 10) (z64 1) 0%N
    (fnan IOps64) false SNone DepthWise (Some RootMeanSquaredError) None true [] AssignToParent 0 false.
Definition exg_b l2 iters : @Booster IE := @mkBooster IE (exg_params l2 iters) (z64 0) None None None [] [].
Notation exg_fit l2 iters data y w := (@fit IE exb_env (exg_b l2 iters) data y w None).
Definition exg_out l2 iters data y w : @Booster IE := fst (get (exg_b l2 iters, None) (exg_fit l2 iters data y w)).
Lemma exg_some : forall l2 iters data y w, match exg_fit l2 iters data y w with Some (_, None) => true | _ => false end = true ->
  exg_fit l2 iters data y w = Some (exg_out l2 iters data y w, None).
Proof. intros l2 iters data y w. unfold exg_out. destruct (exg_fit l2 iters data y w) as [[b' [e|]]|]; simpl; try discriminate. reflexivity. Qed.
Lemma exg_pred : forall l2 iters data y w, is_some (@predict IE (fun _ => Seq) (exg_out l2 iters data y w) data false) = true ->
  @predict IE (fun _ => Seq) (exg_out l2 iters data y w) data false = Some (get [] (@predict IE (fun _ => Seq) (exg_out l2 iters data y w) data false)).
Proof. intros l2 iters data y w H. destruct (@predict IE (fun _ => Seq) (exg_out l2 iters data y w) data false) as [v|]; [reflexivity|discriminate]. Qed.

(** The target is the conjunction of two binary columns; trees of depth one. *)
Definition exg_and : Matrix b64 := matrix_new (map z64 [0; 0; 1; 1; 0; 1; 0; 1]%Z) 4 2.
Definition exg_and_y : list b64 := map z64 [0; 0; 0; 1]%Z.
(** One column, two leaves of different weight. *)
Definition exg_two : Matrix b64 := matrix_new (map z64 [0; 0; 1]%Z) 3 1.
Definition exg_two_y : list b64 := map z64 [0; 0; 3]%Z.
Notation exg_ones n := (repeat (z64 1) n).

(** After two trees a prediction can be below all targets. *)
Theorem C100_two_trees_refuted : exists (E : @Env IE) b b' (data : Matrix b64) (y w yh : list b64),
  p_objective (gb_params b) = SquaredLoss /\ p_initialize_base_score (gb_params b) = true /\
  p_sample_method (gb_params b) = SNone /\ p_monotone_constraints (gb_params b) = None /\ gb_params b = exg_params (z32 0) 2 /\
  @fit IE E b data y w None = Some (b', None) /\ length (gb_trees b') = 2%nat /\
  (forall v, In v y -> v = z64 0 \/ v = z64 1) /\
  @predict IE (fun _ => Seq) b' data false = Some yh /\ exists v, In v yh /\ flt IOps64 v (z64 0) = true.
Proof.
  exists exb_env, (exg_b (z32 0) 2), (exg_out (z32 0) 2 exg_and exg_and_y (exg_ones 4)), exg_and, exg_and_y, (exg_ones 4),
    (get [] (@predict IE (fun _ => Seq) (exg_out (z32 0) 2 exg_and exg_and_y (exg_ones 4)) exg_and false)).
  split; [reflexivity|]. split; [reflexivity|]. split; [reflexivity|]. split; [reflexivity|]. split; [reflexivity|].
  split; [refine (exg_some _ _ _ _ _ _); vm_compute; reflexivity|]. split; [vm_compute; reflexivity|].
  split; [intros v [<-|[<-|[<-|[<-|[]]]]]; auto|].
  split; [refine (exg_pred _ _ _ _ _ _); vm_compute; reflexivity|].
  apply existsb_exists. vm_compute. reflexivity.
Qed.

(** With the default L2 regularisation the mean of the predictions is not the mean of the targets. *)
Theorem C99_l2_refuted : exists (E : @Env IE) b b' (data : Matrix b64) (y w yh : list b64),
  p_objective (gb_params b) = SquaredLoss /\ p_initialize_base_score (gb_params b) = true /\
  p_sample_method (gb_params b) = SNone /\ p_monotone_constraints (gb_params b) = None /\ gb_params b = exg_params (z32 1) 1 /\
  @fit IE E b data y w None = Some (b', None) /\ length (gb_trees b') = 1%nat /\ w = exg_ones 3 /\
  @predict IE (fun _ => Seq) b' data false = Some yh /\
  flt IOps64 (fsum IOps64 yh) (q64 11 4) = true /\ fsum IOps64 y = z64 3.
Proof.
  exists exb_env, (exg_b (z32 1) 1), (exg_out (z32 1) 1 exg_two exg_two_y (exg_ones 3)), exg_two, exg_two_y, (exg_ones 3),
    (get [] (@predict IE (fun _ => Seq) (exg_out (z32 1) 1 exg_two exg_two_y (exg_ones 3)) exg_two false)).
  split; [reflexivity|]. split; [reflexivity|]. split; [reflexivity|]. split; [reflexivity|]. split; [reflexivity|].
  split; [refine (exg_some _ _ _ _ _ _); vm_compute; reflexivity|]. split; [vm_compute; reflexivity|]. split; [reflexivity|].
  split; [refine (exg_pred _ _ _ _ _ _); vm_compute; reflexivity|]. split; [vm_compute; reflexivity|].
  apply Flocq.IEEE754.BinarySingleNaN.B2SF_inj. vm_compute. reflexivity.
Qed.

(** *** A fit that meets the hypotheses: the data of exf, without regularisation. *)
Definition exg_sound_params : @Params XF :=
  @mkParams XF SquaredLoss 3 (Fin (1/2)) 5 10 (Fin 0) (Fin 0) (Fin 0) (Fin 0) (Fin 1) 4 false true None (Fin 1) (Fin (1/10)) (Fin (1/10)) (Fin 1) 0%N
    XNaN false SNone DepthWise (Some RootMeanSquaredError) None true [] AssignToParent 0 false.
Definition exg_booster : @Booster XF := @mkBooster XF exg_sound_params (Fin (1/2)) None None None [] [].
Example exg_sound : sound_params exg_sound_params /\ sound_data exg_sound_params exf_data exf_y exf_w /\ sound_env exf_env exg_sound_params /\
  @clean XF exg_booster /\ @calc_init XF SquaredLoss exf_y exf_w = Some (Fin (13 / 4)).
Proof.
  destruct exf_sound as (H1 & H2 & H3 & _).
  assert (NN : forall r, 0 <= r -> xnonneg (Fin r)) by (intros r H; exists r; auto).
  split; [|split; [|split; [|split]]].
  - constructor; simpl; try (apply NN; lra); try discriminate.
    + eexists; reflexivity.
    + exists 1. split; [reflexivity|lra].
    + split; [lia|]. discriminate.
  - destruct H2 as [A1 A2 A3 A4 A5 A6]. constructor; auto. right. split; [reflexivity|]. exists (Fin 1). split; [left; reflexivity|]. exists 1. split; [reflexivity|lra].
  - destruct H3 as [A1 A2 A3 A4]. constructor; auto; discriminate.
  - intros _. auto.
  - pose proof (calc_init_X SquaredLoss [(1, 1); (2, 1); (5, 2); (7, 0)]) as Q. cbn [map fst snd] in Q. unfold exf_y, exf_w.
    rewrite Q by (cbn; lra). unfold base_R. cbn. f_equal. f_equal. field.
Qed.
Example exg_fitted : exists b', @fit XF exf_env exg_booster exf_data exf_y exf_w None = Some (b', None) /\ length (gb_trees b') = 3%nat /\
  forall shs par k, (k <= 3)%nat -> exists yh, @predict XF shs (@model_prefix XF b' k) exf_data par = Some yh /\
    (forall v, In v exf_y -> exists r, v = Fin r /\ 1 <= r <= 7) /\ total_error exf_y yh exf_w = 0.
Proof.
  destruct exg_sound as (H1 & H2 & H3 & H5 & H6).
  destruct (C62_fit_completes exf_env exg_booster exf_data exf_y exf_w None (13/4) H1 H2 H3 I H5 H6) as [b' H].
  exists b'. split; auto. assert (L : length (gb_trees b') = 3%nat) by exact (proj1 (proj2 (@tree_count XF _ _ _ _ _ _ _ H5 H)) (or_introl eq_refl)).
  split; auto. intros shs par k Hk.
  destruct (model_finite exf_env exg_booster b' exf_data exf_y exf_w None (13/4) H1 H2 H3 H5 H6 H shs par exf_data k exf_matrix eq_refl ltac:(lia)) as (yh & HP & _).
  exists yh. split; auto. split; [intros v [<-|[<-|[<-|[<-|[]]]]]; eexists; split; try reflexivity; lra|].
  rewrite (C99_error_shrinks exf_env exg_booster b' exf_data exf_y exf_w None (13/4) H1 H2 H3 H5 H6 H eq_refl eq_refl eq_refl eq_refl (1/2) eq_refl eq_refl eq_refl eq_refl shs par k yh ltac:(lia) HP).
  rewrite (mean_error exg_booster exf_data exf_y exf_w (13/4) H2 H6 eq_refl eq_refl). ring.
Qed.

Print Assumptions C99_error_shrinks.
Print Assumptions C99_mean_preserved.
Print Assumptions C99_l2_refuted.
Print Assumptions C100_first_tree_in_range.
Print Assumptions C100_two_trees_refuted.
