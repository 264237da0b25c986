(** Properties C94 and C95: the splits of a fitted model separate training rows; the explanations of a
    fitted model add up (exact arithmetic). *)
From Coq Require Import Reals List Arith NArith Lia Lra Bool Sorting Permutation.
From Flocq Require Import Core.Raux.
From Verif Require Import Prelude Float FloatX FloatLaws OrdProofs Data DataProofs Utils Binning BinningProofs CutProofs BinMatrix BinningX Histogram Node Splitter
  Tree TreeWf PathProofs Objective Metric Sampler SamplerProofs MetricX ObjectiveX Contrib Booster PredictProofs BoostProofs FitModel FinX BoostX LossX
  ContribProofs ContribX ImportProofs DependX Shapley ShapX ShapTree FittedX PropFit PropContrib PropShap.
Import ListNotations.
Local Open Scope R_scope.

Section Model.
Variables (E : @Env XF) (b b' : @Booster XF) (data : Matrix xr) (y w : list xr) (es : option (list (@EvalData XF))) (base : R).
Notation p := (gb_params b).
Hypotheses (SP : sound_params p) (SD : sound_data p data y w) (SE : sound_env E p) (C : @clean XF b).
Hypothesis HBASE : (if p_initialize_base_score p then @calc_init XF (p_objective p) y w else Some (gb_base_score b)) = Some (Fin base).
Hypothesis HFIT : @fit XF E b data y w es = Some (b', None).

(** *** C94.  A split sends some training row of positive weight to its left child and another one to
    its right child; [passes t row missing c]: the path of the row in t goes through node c. *)
Theorem C94_splits_separate : forall t n c, In t (gb_trees b') -> In n t -> n_is_leaf n = false -> c = n_left n \/ c = n_right n ->
  exists i v x, (i < m_rows data)%nat /\ nth_error w i = Some v /\ xpos v /\ @passes XF t (fun f => m_get data i f) (p_missing p) c = true /\
    m_get data i (n_split_feature n) = Some x /\ @get_child_idx XF n x (p_missing p) = Some c.
Proof. exact (model_separates E b b' data y w es base SP SD SE C HBASE HFIT). Qed.

(** A column with one and the same cell in all rows of positive weight is not split on. *)
Theorem C94_constant_column : forall f,
  (forall i j vi vj, (i < m_rows data)%nat -> (j < m_rows data)%nat -> nth_error w i = Some vi -> nth_error w j = Some vj ->
     xpos vi -> xpos vj -> m_get data i f = m_get data j f) ->
  forall t n, In t (gb_trees b') -> In n t -> n_is_leaf n = false -> n_split_feature n <> f.
Proof.
  intros f H t n Ht Hn Hl Hf. apply (constant_column_unused E b b' data y w es base SP SD SE C HBASE HFIT f) with (t := t); auto.
  - intros i j (Hi & vi & Vi & Pi) (Hj & vj & Vj & Pj). eapply H; eauto.
  - exists n. auto.
Qed.

(** With a separate missing branch it is enough that the values that are not missing are the same. *)
Theorem C94_constant_values : p_create_missing_branch p = true -> forall f,
  (forall i j vi vj x x', (i < m_rows data)%nat -> (j < m_rows data)%nat -> nth_error w i = Some vi -> nth_error w j = Some vj ->
     xpos vi -> xpos vj -> m_get data i f = Some x -> m_get data j f = Some x' ->
     @is_missing XF x (p_missing p) = Some false -> @is_missing XF x' (p_missing p) = Some false -> x = x') ->
  forall t n, In t (gb_trees b') -> In n t -> n_is_leaf n = false -> n_split_feature n <> f.
Proof.
  intros CB f H t n Ht Hn Hl Hf. apply (constant_values_unused E b b' data y w es base SP SD SE C HBASE HFIT CB f) with (t := t); auto.
  - intros i j x x' (Hi & vi & Vi & Pi) (Hj & vj & Vj & Pj). eapply H; eauto.
  - exists n. auto.
Qed.

Theorem C94_leaves_bounded : p_create_missing_branch p = false -> (0 < m_rows data)%nat ->
  forall t, In t (gb_trees b') -> (length (filter (fun n => n_is_leaf n) t) <= m_rows data)%nat.
Proof. exact (leaves_bounded E b b' data y w es base SP SD SE C HBASE HFIT). Qed.

(** *** C95 *)
Hypothesis FRESH : gb_trees b <> [] \/ gb_pred b = None.

Lemma fitted_trees : exists ts, @prediction_trees XF b' = Some ts /\ incl ts (gb_trees b') /\ gb_base_score b' = Fin base /\ gb_params b' = p.
Proof.
  destruct (@tree_count XF _ _ _ _ _ _ _ C HFIT) as (_ & _ & EP & _ & B1 & B2 & PB). specialize (PB FRESH).
  assert (EB : gb_base_score b' = Fin base).
  { destruct (p_initialize_base_score p).
    - specialize (B2 eq_refl). pose proof (eq_trans (eq_sym B2) HBASE) as Q. injection Q. auto.
    - rewrite (B1 eq_refl). pose proof HBASE as Q. injection Q. auto. }
  unfold prediction_trees.
  destruct (slice_total (gb_trees b') (i := 0%nat) (j := match gb_pred b' with Some n => n | None => length (gb_trees b') end)) as [ts Hts].
  { lia. } { destruct (gb_pred b'); [exact PB|lia]. }
  exists ts. split; [exact Hts|]. split; [|auto].
  unfold slice in Hts. destruct (_ && _)%bool; [|discriminate]. injection Hts as <-. intros t Ht. rewrite Nat.sub_0_r in Ht.
  rewrite <- (firstn_skipn (match gb_pred b' with Some n => n | None => length (gb_trees b') end) (gb_trees b')). apply in_app_iff. auto.
Qed.

(** Weight, Average and Shapley contributions of any sound matrix exist, are finite, and sum to the
    prediction row by row. *)
Theorem C95_contributions : forall m, m = CWeight \/ m = CAverage \/ m = CShapley ->
  forall shs sh par par' (d : Matrix xr), sound_matrix (p_missing p) d -> m_cols d = m_cols data ->
  exists preds r, @predict XF shs b' d par = Some preds /\ @predict_contributions XF sh b' d m par' = Some r /\
    forall i, (i < m_rows d)%nat -> exists cs, length cs = (m_cols d + 1)%nat /\
      slice r (i * (m_cols d + 1)) (i * (m_cols d + 1) + (m_cols d + 1)) = Some (map Fin cs) /\ nth_error preds i = Some (Fin (sumR cs)).
Proof.
  intros m Hm shs sh par par' d (HI & LD & HV) HC. destruct fitted_trees as (ts & HT & INC & EB & EP).
  pose proof (model_explainable E b b' data y w es base SP SD SE C HBASE HFIT) as EX.
  destruct (@fitted_predicts XF E b data y w es b' shs d par C FRESH (se_rng _ _ SE) HFIT HI) as (preds & HP & _); [apply Nat.eq_le_incl; symmetry; exact HC|exact LD|exact HV|].
  exists preds.
  assert (HO : forall t, In t ts -> well_formed t /\ finite_weights t /\ finite_covers t /\ forall f, tree_features t f -> (f < m_cols d)%nat).
  { intros t Ht. destruct (EX t (INC t Ht)) as (A1 & A2 & A3 & A4 & A5 & A6). repeat (split; [assumption|]).
    intros f Hf. exact (Nat.lt_le_trans _ _ _ (A5 f Hf) (Nat.eq_le_incl _ _ (eq_sym HC))). }
  assert (HV' : forall v, In v (m_data d) -> @valid_cell XF (p_missing (gb_params b')) v) by (rewrite EP; exact HV).
  assert (TOT : exists r, @predict_contributions XF sh b' d m par' = Some r).
  { destruct Hm as [->|[->| ->]].
    1,2: apply (@C30_contributions_total XF sh b' d); [discriminate|discriminate|exact HI| | |exact LD|exact HV'].
    - intros t Ht. destruct (EX t Ht) as (A1 & A2 & A3 & A4 & A5 & A6). repeat (split; [assumption|]).
    intros f Hf. exact (Nat.lt_le_trans _ _ _ (A5 f Hf) (Nat.eq_le_incl _ _ (eq_sym HC))).
    - exact (proj2 (proj2 (proj2 (proj2 (proj2 (proj2 (@tree_count XF _ _ _ _ _ _ _ C HFIT)))))) FRESH).
    - intros t Ht. destruct (EX t Ht) as (A1 & A2 & A3 & A4 & A5 & A6). repeat (split; [assumption|]).
    intros f Hf. exact (Nat.lt_le_trans _ _ _ (A5 f Hf) (Nat.eq_le_incl _ _ (eq_sym HC))).
    - exact (proj2 (proj2 (proj2 (proj2 (proj2 (proj2 (@tree_count XF _ _ _ _ _ _ _ C HFIT)))))) FRESH).
    - destruct (proj2 (C36_shapley_values b' d ts base HI LD HT EB HO HV' sh par')) as (r & Hr & _). eauto. }
  destruct TOT as [r Hr]. exists r. split; [exact HP|]. split; [exact Hr|].
  destruct Hm as [->|[->| ->]].
  - exact (C32_weight_sums b' d ts base HI LD HT EB (fun t Ht => proj1 (proj2 (HO t Ht))) shs sh par par' preds r HP Hr).
  - exact (C33_average_sums b' d ts base HI LD HT EB (fun t Ht => proj1 (proj2 (HO t Ht)))
             (fun t Ht => conj (proj1 (HO t Ht)) (proj1 (proj2 (proj2 (HO t Ht))))) shs sh par par' preds r HP Hr).
  - exact (C35_shapley_sums b' d ts base HI LD HT EB HO HV' shs sh par par' preds r HP Hr).
Qed.

(** Probability-change contributions of a log-loss model sum to the probability. *)
Theorem C95_probability : p_objective p = LogLoss ->
  forall shs sh par par' (d : Matrix xr), sound_matrix (p_missing p) d -> m_cols d = m_cols data ->
  exists preds r, @predict XF shs b' d par = Some preds /\ @predict_contributions XF sh b' d CProbabilityChange par' = Some r /\
    forall i, (i < m_rows d)%nat -> exists cs q, length cs = (m_cols d + 1)%nat /\
      slice r (i * (m_cols d + 1)) (i * (m_cols d + 1) + (m_cols d + 1)) = Some (map Fin cs) /\
      nth_error preds i = Some (Fin q) /\ sumR cs = 1 / (1 + exp (- q)).
Proof.
  intros OBJ shs sh par par' d (HI & LD & HV) HC. destruct fitted_trees as (ts & HT & INC & EB & EP).
  pose proof (model_explainable E b b' data y w es base SP SD SE C HBASE HFIT) as EX.
  destruct (@fitted_predicts XF E b data y w es b' shs d par C FRESH (se_rng _ _ SE) HFIT HI) as (preds & HP & _); [apply Nat.eq_le_incl; symmetry; exact HC|exact LD|exact HV|].
  exists preds.
  assert (TOT : exists r, @predict_contributions XF sh b' d CProbabilityChange par' = Some r).
  { apply (@C30_contributions_total XF sh b' d); [discriminate|rewrite EP; auto|exact HI| | |exact LD|rewrite EP; exact HV].
    - intros t Ht. destruct (EX t Ht) as (A1 & A2 & A3 & A4 & A5 & A6). repeat (split; [assumption|]).
    intros f Hf. exact (Nat.lt_le_trans _ _ _ (A5 f Hf) (Nat.eq_le_incl _ _ (eq_sym HC))).
    - exact (proj2 (proj2 (proj2 (proj2 (proj2 (proj2 (@tree_count XF _ _ _ _ _ _ _ C HFIT)))))) FRESH). }
  destruct TOT as [r Hr]. exists r. split; [exact HP|]. split; [exact Hr|].
  exact (C34_probability_sums b' d ts base HI LD HT EB (fun t Ht => proj1 (proj2 (EX t (INC t Ht)))) shs sh par par' preds r HP Hr).
Qed.

(** The Shapley contributions of a fitted model are the Shapley values of the cover-weighted game. *)
Theorem C95_shapley_values : forall sh par (d : Matrix xr), sound_matrix (p_missing p) d -> m_cols d = m_cols data ->
  exists ts xs r, @prediction_trees XF b' = Some ts /\ Forall2 tree_shape ts xs /\ @predict_contributions XF sh b' d CShapley par = Some r /\
  forall i row, (i < m_rows d)%nat -> m_get_row d i = Some row ->
    (forall f, (f < m_cols d)%nat -> nth_error r (i * (m_cols d + 1) + f) =
       Some (Fin (shapley (seq 0 (m_cols d)) (model_value base row (p_missing p) xs) f))) /\
    nth_error r (i * (m_cols d + 1) + m_cols d) = Some (Fin (model_value base row (p_missing p) xs [])).
Proof.
  intros sh par d (HI & LD & HV) HC. destruct fitted_trees as (ts & HT & INC & EB & EP).
  pose proof (model_explainable E b b' data y w es base SP SD SE C HBASE HFIT) as EX.
  assert (HO : forall t, In t ts -> well_formed t /\ finite_weights t /\ finite_covers t /\ forall f, tree_features t f -> (f < m_cols d)%nat).
  { intros t Ht. destruct (EX t (INC t Ht)) as (A1 & A2 & A3 & A4 & A5 & A6). repeat (split; [assumption|]).
    intros f Hf. exact (Nat.lt_le_trans _ _ _ (A5 f Hf) (Nat.eq_le_incl _ _ (eq_sym HC))). }
  assert (HV' : forall v, In v (m_data d) -> @valid_cell XF (p_missing (gb_params b')) v) by (rewrite EP; exact HV).
  destruct (C36_shapley_values b' d ts base HI LD HT EB HO HV' sh par) as ((xs & HX) & r & Hr & K).
  exists ts, xs, r. split; [exact HT|]. split; [exact HX|]. split; [exact Hr|]. rewrite <- EP. apply K. exact HX.
Qed.

(** Partial dependence of a fitted model: a finite number between the extreme scores of the model. *)
Theorem C95_partial_dependence : forall sh f v, @valid_cell XF (p_missing p) v ->
  exists ts d, @prediction_trees XF b' = Some ts /\ @value_partial_dependence XF sh b' f v = Some (Fin d) /\
  forall lo hi, (forall t n, In t ts -> In n t -> n_is_leaf n = true -> lo t <= val (n_weight n) <= hi t) ->
    base + sumR (map lo ts) <= d <= base + sumR (map hi ts).
Proof.
  intros sh f v V. destruct fitted_trees as (ts & HT & INC & EB & EP).
  pose proof (model_explainable E b b' data y w es base SP SD SE C HBASE HFIT) as EX.
  assert (V' : @valid_cell XF (p_missing (gb_params b')) v) by (rewrite EP; exact V).
  assert (HO : forall t, In t ts -> well_formed t /\ finite_weights t /\ covers_positive t).
  { intros t Ht. destruct (EX t (INC t Ht)) as (A1 & A2 & A3 & A4 & A5 & A6). auto. }
  destruct (C38_partial_dependence sh b' f v base ts EB HT) as (xs & _ & HR); [|exact V'|].
  { intros t Ht. destruct (HO t Ht) as (A1 & A2 & A3). split; auto. split; auto. apply positive_ok; auto. }
  exists ts. eexists. split; [exact HT|]. split; [exact HR|]. intros lo hi BD.
  destruct (C38_between_leaves sh b' f v base ts lo hi _ EB HT HO V' BD HR) as (d & Ed & D). injection Ed as <-. exact D.
Qed.

(** Importances of a fitted model: exactly the features split on, with finite values. *)
Theorem C95_importance : forall m, exists imp, @calculate_feature_importance XF b' m false = Some imp /\ NoDup (map fst imp) /\
  (forall k v, In (k, v) imp <-> splits_on b' k <> [] /\ v = Fin (importance_value m (splits_on b' k))) /\
  exists imp', @calculate_feature_importance XF b' m true = Some imp' /\ map fst imp' = map fst imp /\
    (sumR (map (fun kv => val (snd kv)) imp) <> 0 -> exists ws, map snd imp' = map Fin ws /\ sumR ws = 1).
Proof.
  intros m. pose proof (model_explainable E b b' data y w es base SP SD SE C HBASE HFIT) as EX.
  destruct (C39_importance_exact b' m) as (imp & H1 & H2 & H3 & imp' & H4 & H5 & H6).
  - intros t Ht. apply (EX t Ht).
  - intros t n Ht Hn Hl. destruct (EX t Ht) as (A1 & A2 & A3 & A4 & A5 & A6). auto.
  - exists imp. split; [exact H1|]. split; [exact H2|]. split; [exact H3|]. exists imp'. split; [exact H4|]. split; [exact H5|].
    intros NZ. apply (H6 NZ).
Qed.
End Model.

(** *** A case: the fit of PropFit with a second column that differs only in the row of weight zero. *)
Definition exh_data : Matrix xr := matrix_new [Fin 1; XNaN; Fin 3; Fin 2; Fin 2; Fin 2; Fin 2; Fin 3] 4 2.

Lemma exh_matrix : sound_matrix XNaN exh_data.
Proof. split; [reflexivity|]. split; [reflexivity|]. intros v _. left. reflexivity. Qed.

Example exh_sound : sound_data exf_params exh_data exf_y exf_w.
Proof.
  assert (LT : forall r : R, r <= 3 -> xlt (Fin r) xmax = true).
  { intros r Hr. apply Rlt_bool_true. eapply Rle_lt_trans; [exact Hr|]. apply IZR_lt. reflexivity. }
  destruct exf_sound as (_ & [_ Y W _ _ R] & _).
  constructor; [exact exh_matrix|exact Y|exact W| | |exact R].
  - intros v [<-|[<-|[<-|[<-|[<-|[<-|[<-|[<-|[]]]]]]]]] M; try (apply LT; lra). discriminate M.
  - intros [|[|j]].
    + right. exists (Fin 1). split; [left; reflexivity|apply Rlt_bool_true; lra].
    + right. exists (Fin 1). split; [left; reflexivity|apply Rlt_bool_true; lra].
    + left. unfold col_values. destruct (@m_get_col (fcar (@f64 XF)) exh_data (S (S j))) as [col|] eqn:EQ; [|reflexivity]. exfalso.
      unfold m_get_col, m_get_col_slice, m_item_index in EQ. apply slice_Some in EQ. destruct EQ as (_ & EQ & _). cbn in EQ. lia.
Qed.

Example exh_fitted : exists b' base, @fit XF exf_env exf_booster exh_data exf_y exf_w None = Some (b', None) /\ length (gb_trees b') = 3%nat /\
  @calc_init XF SquaredLoss exf_y exf_w = Some (Fin base) /\
  (forall t n, In t (gb_trees b') -> In n t -> n_is_leaf n = false -> n_split_feature n <> 1%nat) /\
  (forall t, In t (gb_trees b') -> (length (filter (fun n => n_is_leaf n) t) <= 4)%nat) /\
  exists preds r, @predict XF (fun _ => Seq) b' exh_data false = Some preds /\ @predict_contributions XF Seq b' exh_data CShapley false = Some r /\
    exists cs, slice r 3 6 = Some (map Fin cs) /\ nth_error preds 1 = Some (Fin (sumR cs)).
Proof.
  destruct exf_sound as (H1 & _ & H3 & _ & H5 & base & H6).
  destruct (C62_fit_completes exf_env exf_booster exh_data exf_y exf_w None base H1 exh_sound H3 I H5 H6) as [b' H].
  exists b', base. split; [exact H|]. split; [exact (proj1 (proj2 (@tree_count XF _ _ _ _ _ _ _ H5 H)) (or_introl eq_refl))|].
  split; [exact H6|]. split; [|split].
  - apply (C94_constant_column exf_env exf_booster b' exh_data exf_y exf_w None base H1 exh_sound H3 H5 H6 H).
    intros i j vi vj Hi Hj Vi Vj Pi Pj.
    assert (G : forall i v, (i < 4)%nat -> nth_error exf_w i = Some v -> xpos v -> m_get exh_data i 1 = Some (Fin 2)).
    { clear. intros [|[|[|[|i]]]] v Hi Hv Pv; try reflexivity; [|lia]. injection Hv as <-. destruct Pv as (r & Er & Pr). injection Er as <-. lra. }
    rewrite (G i vi Hi Vi Pi), (G j vj Hj Vj Pj). reflexivity.
  - assert (NR : (0 < m_rows exh_data)%nat) by (simpl; lia).
    exact (C94_leaves_bounded exf_env exf_booster b' exh_data exf_y exf_w None base H1 exh_sound H3 H5 H6 H eq_refl NR).
  - destruct (C95_contributions exf_env exf_booster b' exh_data exf_y exf_w None base H1 exh_sound H3 H5 H6 H (or_intror eq_refl) CShapley
      (or_intror (or_intror eq_refl)) (fun _ => Seq) Seq false false exh_data exh_matrix eq_refl) as (preds & r & P1 & P2 & P3).
    exists preds, r. split; [exact P1|]. split; [exact P2|]. assert (L : (1 < m_rows exh_data)%nat) by (simpl; lia).
    destruct (P3 1%nat L) as (cs & _ & Q1 & Q2). exists cs. auto.
Qed.

Print Assumptions C94_splits_separate. Print Assumptions C94_constant_column. Print Assumptions C94_constant_values. Print Assumptions C94_leaves_bounded.
Print Assumptions C95_contributions. Print Assumptions C95_probability. Print Assumptions C95_shapley_values.
Print Assumptions C95_partial_dependence. Print Assumptions C95_importance.
