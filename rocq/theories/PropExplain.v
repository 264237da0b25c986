(** Property C108: explanations follow the targets.  A change of unit and origin of the targets (squared loss) does to
    contributions, partial dependences and importances what it does to the predictions; the exchange of the two
    labels (log loss) changes their signs. *)
From Coq Require Import List Arith NArith ZArith Lia Bool Reals Lra.
From Flocq Require Import Core IEEE754.BinarySingleNaN.
From Verif Require Import Prelude Float FloatI FloatX FloatLaws Data Utils Binning BinningX Histogram Node Splitter Tree Objective Metric Sampler ObjectiveX
  Contrib Booster BoostProofs FitModel FinX BoostX LossX Recode Scale ScaleFit ScaleX ScaleThm ScaleI Explain ExplainX
  PropBinning PropTree PropPredict PropFit PropSymmetry PropFitted.
Import ListNotations.
Local Open Scope R_scope.

(** A table of contributions has one row of cols + 1 cells for each row of the data, the last being the bias.
    [cells cols feature bias] applies one function to the cells of the features and one to the bias. *)
Definition cells (cols : nat) (feature bias : xr -> xr) (r : list xr) : list xr :=
  map (fun jx => (if fst jx mod (cols + 1) =? cols then bias else feature)%nat (snd jx)) (combine (seq 0 (length r)) r).
Lemma mapi_map : forall (f : nat -> xr -> xr) l k, mapi f k l = map (fun jx => f (fst jx) (snd jx)) (combine (seq k (length l)) l).
Proof. induction l as [|x l IH]; intros k; simpl; [reflexivity|]. rewrite IH. reflexivity. Qed.
Lemma table_cells : forall cols feature bias r, @table XF feature bias cols r = cells cols feature bias r.
Proof. intros. unfold table, cells. rewrite mapi_map. apply map_ext. intros [j x]. reflexivity. Qed.

(** *** Targets a * y + c *)
Section Unit.
Variables (E : @Env XF) (b : @Booster XF) (a c : R).
Hypothesis A : a <> 0.
Notation times := (xmul (Fin a)).
Notation whole := (fun x => xadd (xmul (Fin a) x) (Fin c)).

(** Of any model: features times a, the bias times a plus c. *)
Theorem C108_contributions_change_of_unit : forall sh (data : Matrix xr) m parallel, m <> CProbabilityChange ->
  @predict_contributions XF sh (model_in_unit a c b) data m parallel =
  option_map (cells (m_cols data) times whole) (@predict_contributions XF sh b data m parallel).
Proof.
  intros sh data m parallel NP. rewrite (unit_contributions a c A b (model_in_unit a c b) eq_refl eq_refl eq_refl eq_refl sh data parallel m NP).
  destruct (predict_contributions sh b data m parallel); simpl; [rewrite table_cells|]; reflexivity.
Qed.
Theorem C108_dependence_change_of_unit : forall sh feature value,
  @value_partial_dependence XF sh (model_in_unit a c b) feature value = option_map whole (@value_partial_dependence XF sh b feature value).
Proof. intros sh feature value. exact (unit_dependence a c A b (model_in_unit a c b) eq_refl eq_refl eq_refl eq_refl eq_refl sh feature value). Qed.
(** Normalised importances do not depend on the unit; gains are in squared units; split counts and covers have none. *)
Theorem C108_importance_change_of_unit : forall m,
  @calculate_feature_importance XF (model_in_unit a c b) m true = @calculate_feature_importance XF b m true /\
  @calculate_feature_importance XF (model_in_unit a c b) m false =
    match m with IGain | ITotalGain => option_map (map (fun kv => (fst kv, xmul (Fin (a * a)) (snd kv)))) (@calculate_feature_importance XF b m false)
               | _ => @calculate_feature_importance XF b m false end.
Proof. intros m. exact (unit_importance a A b (model_in_unit a c b) eq_refl m). Qed.

(** Of a trained model: train again on a * y + c, with the parameters in that unit. *)
Let p := gb_params b.
Hypotheses (SQ : p_objective p = SquaredLoss) (L1 : xle (Fin 0) (p_l1 p) = true) (MD : xle (Fin 0) (p_max_delta_step p) = true).
Hypothesis NF : a < 0 -> p_create_missing_branch p = true -> p_force_children_to_bound_parent p = false.
Hypothesis PK : p_grow_policy p = LossGuide -> forall i, order_based (e_pick E i).
Hypothesis GO : p_sample_method p = SGoss -> abs_based (e_goss E).
Theorem C108_explanations_follow_targets : forall data (y w : list xr) m,
  (p_initialize_base_score p = true -> (forall x, In x y -> xfin x) /\ (forall x, In x w -> xfin x)) ->
  @fit XF E b data y w None = Some (m, None) ->
  exists m', @fit XF E (model_in_unit a c b) data (map whole y) w None = Some (m', None) /\
    (forall sh (d : Matrix xr) me par, @predict_contributions XF sh m' d me par = option_map (cells (m_cols d) times whole) (@predict_contributions XF sh m d me par)) /\
    (forall sh feature value, @value_partial_dependence XF sh m' feature value = option_map whole (@value_partial_dependence XF sh m feature value)) /\
    (forall im, @calculate_feature_importance XF m' im true = @calculate_feature_importance XF m im true).
Proof.
  intros data y w m IN HF.
  pose proof (C74_targets_change_of_unit E b a c A SQ L1 MD NF PK GO data y w None ltac:(congruence) IN) as C.
  exists (model_in_unit a c m). split; [exact (eq_trans C (f_equal (option_map (fun r : @Booster XF * option ForustError => (model_in_unit a c (fst r), snd r))) HF))|]. split; [|split].
  - intros sh d me par. destruct me.
    all: try (rewrite (unit_contributions a c A m (model_in_unit a c m) eq_refl eq_refl eq_refl eq_refl sh d par) by discriminate;
      destruct (@predict_contributions XF sh m d _ par); simpl; [rewrite table_cells|]; reflexivity).
    pose proof (fit_keeps E b data y w None m HF) as FK. unfold predict_contributions.
    change (p_objective (gb_params (model_in_unit a c m))) with (p_objective (gb_params m)). rewrite FK. fold p. rewrite SQ. reflexivity.
  - intros sh feature value. exact (unit_dependence a c A m (model_in_unit a c m) eq_refl eq_refl eq_refl eq_refl eq_refl sh feature value).
  - intros im. exact (proj1 (unit_importance a A m (model_in_unit a c m) eq_refl im)).
Qed.
End Unit.

(** The run of C94 and C95 (four rows, two columns, three trees), its targets turned from y into 10 - 2 y: the
    second row's Shapley values times -2. *)
Example exl_unit : exists m m', @fit XF exf_env exf_booster exh_data exf_y exf_w None = Some (m, None) /\ length (gb_trees m) = 3%nat /\
  @fit XF exf_env (model_in_unit (-2) 10 exf_booster) exh_data (map (fun x => xadd (xmul (Fin (-2)) x) (Fin 10)) exf_y) exf_w None = Some (m', None) /\
  exists r u v bias, @predict_contributions XF Seq m exh_data CShapley false = Some r /\ slice r 3 6 = Some [Fin u; Fin v; Fin bias] /\
    exists r', @predict_contributions XF Seq m' exh_data CShapley false = Some r' /\
      nth_error r' 3 = Some (Fin (-2 * u)) /\ nth_error r' 4 = Some (Fin (-2 * v)) /\ nth_error r' 5 = Some (Fin (-2 * bias + 10)).
Proof.
  destruct exh_fitted as (m & base & HF & LN & _ & _ & _ & preds & r & _ & HR & cs & HS & _).
  assert (IN : p_initialize_base_score (gb_params exf_booster) = true -> (forall x, In x exf_y -> xfin x) /\ (forall x, In x exf_w -> xfin x))
    by (intros _; split; intros x [<-|[<-|[<-|[<-|[]]]]]; eexists; reflexivity).
  destruct (C108_explanations_follow_targets exf_env exf_booster (-2) 10 ltac:(lra) eq_refl ltac:(apply Rle_bool_true; lra) ltac:(apply Rle_bool_true; lra)
    ltac:(reflexivity) ltac:(discriminate) ltac:(discriminate) exh_data exf_y exf_w m IN HF) as (m' & HF' & HC & _).
  { exists m, m'. split; [exact HF|]. split; [exact LN|]. split; [exact HF'|].
    specialize (HC Seq exh_data CShapley false). rewrite HR in HC. cbn [option_map] in HC.
    pose proof HS as HS'. apply slice_Some in HS'. destruct HS' as (_ & LE & LC & EQ). rewrite map_length in LC. destruct cs as [|u [|v [|w0 [|? ?]]]]; try discriminate LC.
    exists r, u, v, w0. split; [exact HR|]. split; [exact HS|]. eexists. split; [exact HC|].
    assert (LR : forall k, (k < 3)%nat -> nth_error r (3 + k) = nth_error (map Fin [u; v; w0]) k).
    { intros k K. rewrite EQ.
      assert (L3 : length (firstn 3 r) = 3%nat) by (rewrite firstn_length; apply Nat.min_l; eapply Nat.le_trans; [|exact LE]; lia).
      assert (G : forall (p q t : list xr), length p = 3%nat -> length q = 3%nat -> nth_error (p ++ q ++ t) (3 + k) = nth_error q k).
      { clear -K. intros p q t P Q. rewrite nth_error_app2 by lia. rewrite P. replace (3 + k - 3)%nat with k by lia. apply nth_error_app1. lia. }
      apply G; [exact L3|reflexivity]. }
    assert (NC : forall j x, nth_error r j = Some x -> nth_error (cells (m_cols exh_data) (xmul (Fin (-2))) (fun x => xadd (xmul (Fin (-2)) x) (Fin 10)) r) j =
        Some ((if (j mod 3 =? 2)%nat then (fun x => xadd (xmul (Fin (-2)) x) (Fin 10)) else xmul (Fin (-2))) x)).
    { intros j x HJ. rewrite <- table_cells. unfold table. rewrite mapi_nth, HJ. reflexivity. }
    split; [|split].
    + exact (NC 3%nat (Fin u) (LR 0%nat ltac:(lia))).
    + exact (NC 4%nat (Fin v) (LR 1%nat ltac:(lia))).
    + exact (NC 5%nat (Fin w0) (LR 2%nat ltac:(lia))). }
Qed.

(** *** Labels 1 - y *)
Section Labels.
Variables (E : @Env XF) (b : @Booster XF).
(** Of any model: all contributions change sign; of contributions to the probability the bias becomes 1 - bias;
    partial dependences change sign; importances stay. *)
Theorem C108_labels_exchanged : forall sh (data : Matrix xr) parallel,
  (forall m, m <> CProbabilityChange ->
    @predict_contributions XF sh (swapped b) data m parallel = option_map (cells (m_cols data) xneg xneg) (@predict_contributions XF sh b data m parallel)) /\
  @predict_contributions XF sh (swapped b) data CProbabilityChange parallel =
    option_map (cells (m_cols data) xneg (fun x => xsub (Fin 1) x)) (@predict_contributions XF sh b data CProbabilityChange parallel) /\
  (forall feature value, @value_partial_dependence XF sh (swapped b) feature value = option_map xneg (@value_partial_dependence XF sh b feature value)) /\
  (forall m normalize, @calculate_feature_importance XF (swapped b) m normalize = @calculate_feature_importance XF b m normalize).
Proof.
  intros sh data parallel. split; [|split; [|split]].
  - intros m NP. rewrite (labels_contributions b (swapped b) eq_refl eq_refl eq_refl eq_refl sh data parallel m NP).
    destruct (predict_contributions sh b data m parallel); simpl; [rewrite table_cells|]; reflexivity.
  - rewrite (labels_probability b (swapped b) eq_refl eq_refl eq_refl eq_refl eq_refl sh data parallel).
    destruct (predict_contributions sh b data CProbabilityChange parallel); simpl; [rewrite table_cells|]; reflexivity.
  - intros feature value. exact (labels_dependence b (swapped b) eq_refl eq_refl eq_refl eq_refl eq_refl sh feature value).
  - intros m normalize. exact (labels_importance b (swapped b) eq_refl m normalize).
Qed.
End Labels.
(** The models of C75: labels 0 and 1 exchanged, three trees. *)
Example exl_labels : exists m, @fit XF exf_env exs_log exf_data exs_log_y exf_w None = Some (m, None) /\ length (gb_trees m) = 3%nat /\
  @fit XF exf_env (swapped exs_log) exf_data (map (fun v => xsub (Fin 1) v) exs_log_y) exf_w None = Some (swapped m, None) /\
  @predict_contributions XF Seq (swapped m) exf_data CShapley false = option_map (cells (m_cols exf_data) xneg xneg) (@predict_contributions XF Seq m exf_data CShapley false).
Proof.
  destruct exs_log_fitted as (m & H1 & H2 & H3). exists m. split; [exact H1|]. split; [exact H2|]. split; [exact H3|].
  exact (proj1 (C108_labels_exchanged m Seq exf_data false) CShapley ltac:(discriminate)).
Qed.

(** With rounding the unit matters: targets times 2^-200 (exact in binary64) leave a model without importances. *)
Notation exl_imp e b d y w := (let* (m, _) := @fit IE e b d y w None in let* i := @calculate_feature_importance IE m IGain true in Some (length i)).
Theorem C108_unit_rounding_refuted : exists (E : @Env IE) (b : @Booster IE) data (y w : list b64) (c : b64),
  p_objective (gb_params b) = SquaredLoss /\ p_initialize_base_score (gb_params b) = true /\
  p_l1 (gb_params b) = z32 0 /\ p_gamma (gb_params b) = z32 0 /\ p_max_delta_step (gb_params b) = z32 0 /\
  forallb (fun v => Beqb v (fdiv IOps64 (fmul IOps64 v c) c)) y = true /\
  exl_imp E b data y w = Some 2%nat /\ exl_imp E b data (map (fun v => fmul IOps64 v c) y) w = Some 0%nat.
Proof.
  exists exb_env, (exb_new None true), ex_data, exb_y, ex_sw, (q64 1 (2 ^ 200)).
  split; [reflexivity|]. split; [reflexivity|]. split; [reflexivity|]. split; [reflexivity|]. split; [reflexivity|].
  split; [vm_compute; reflexivity|]. split; vm_compute; reflexivity.
Qed.

Print Assumptions C108_contributions_change_of_unit. Print Assumptions C108_dependence_change_of_unit. Print Assumptions C108_importance_change_of_unit.
Print Assumptions C108_explanations_follow_targets. Print Assumptions C108_labels_exchanged. Print Assumptions C108_unit_rounding_refuted.
