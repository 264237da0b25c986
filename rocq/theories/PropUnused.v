(** Property C96: a column no split uses has no influence on the answers of a model. *)
From Coq Require Import ZArith Reals List Arith Lia Lra Bool.
From Flocq Require Import Core.Raux.
From Verif Require Import Prelude Float FloatX FloatI FloatLaws Data DataProofs Utils Binning BinningX PropBinning Histogram Node Splitter
  Tree TreeWf PathProofs PropTree Objective Metric Sampler Contrib Booster PredictProofs BoostProofs FitModel PropPredict
  ContribProofs Unused FinX BoostX LossX FittedX PropFitted.
Import ListNotations.

(** [uses b f]: one of the trees that predict consults has a split on column f. *)
Definition uses {FS : Floats} (b : Booster) (f : nat) : Prop :=
  exists ts t n, prediction_trees b = Some ts /\ In t ts /\ In n t /\ n_is_leaf n = false /\ n_split_feature n = f.

Section Any.
Context {FS : Floats}.

Lemma uses_used : forall b f, used b f <-> uses b f.
Proof.
  intros b f. split.
  - intros (ts & t & A & B & n & C & D & E). exists ts, t, n. auto.
  - intros (ts & t & n & A & B & C & D & E). exists ts, t. split; [auto|]. split; [auto|]. exists n. auto.
Qed.

(** Two matrices with the same rows on the columns in use. *)
Section Two.
Variables (b : Booster) (d d' : Matrix F64).
Hypotheses (HR : m_rows d' = m_rows d) (HI : m_index d = seq 0 (m_rows d)) (HI' : m_index d' = seq 0 (m_rows d'))
  (HA : forall i f, i < m_rows d -> uses b f -> m_get d i f = m_get d' i f).
Let HA' : forall i f, i < m_rows d -> used b f -> m_get d i f = m_get d' i f := fun i f Hi U => HA i f Hi (proj1 (uses_used b f) U).

Theorem C96_predict : forall shs shs' par par', predict shs b d par = predict shs' b d' par'.
Proof. exact (predict_agree b d d' HR HI HI' HA'). Qed.
Theorem C96_leaf_indices : forall shs shs', predict_leaf_indices shs b d = predict_leaf_indices shs' b d'.
Proof. exact (leaf_indices_agree b d d' HR HI HI' HA'). Qed.
Theorem C96_contributions : m_cols d' = m_cols d -> length (m_data d) = m_rows d * m_cols d -> length (m_data d') = m_rows d' * m_cols d' ->
  forall sh sh' m par par', predict_contributions sh b d m par = predict_contributions sh' b d' m par'.
Proof. exact (contributions_agree b d d' HR HI HI' HA'). Qed.
End Two.

(** No method credits the column. *)
Theorem C96_no_credit : forall f sh b d m par r, m_index d = seq 0 (m_rows d) -> length (m_data d) = m_rows d * m_cols d ->
  ~ uses b f -> f < m_cols d -> predict_contributions sh b d m par = Some r ->
  forall i, i < m_rows d -> nth_error r (i * (m_cols d + 1) + f) = Some (fzero f64).
Proof. intros f sh b d m par r HI LD U. apply unused_cell; auto. intros Q. apply U, uses_used. exact Q. Qed.

Theorem C96_dependence : forall f sh b v v', ~ uses b f -> value_partial_dependence sh b f v = value_partial_dependence sh b f v'.
Proof. intros f sh b v v' U. apply unused_dependence. intros Q. apply U, uses_used. exact Q. Qed.

(** Importances range over all trees of the model, those past the prediction iteration included. *)
Theorem C96_importance : forall b m norm imp f, calculate_feature_importance b m norm = Some imp ->
  (forall t n, In t (gb_trees b) -> In n t -> n_is_leaf n = false -> n_split_feature n <> f) -> ~ In f (map fst imp).
Proof.
  intros b m norm imp f H U. apply (unused_importance b m norm imp f H). intros t Ht (n & A & B & C). exact (U t n Ht A B C).
Qed.
End Any.

(** *** With C94 (exact arithmetic): a column that is constant over the training rows of positive
    weight has no influence on the fitted model. *)
Section Constant.
Variables (E : @Env XF) (b b' : @Booster XF) (data : Matrix xr) (y w : list xr) (es : option (list (@EvalData XF))) (base : R).
Notation p := (gb_params b).
Hypotheses (SP : sound_params p) (SD : sound_data p data y w) (SE : sound_env E p) (C : @clean XF b).
Hypothesis HBASE : (if p_initialize_base_score p then @calc_init XF (p_objective p) y w else Some (gb_base_score b)) = Some (Fin base).
Hypothesis HFIT : @fit XF E b data y w es = Some (b', None).
Variable f : nat.
Hypothesis HC : forall i j vi vj, (i < m_rows data)%nat -> (j < m_rows data)%nat -> nth_error w i = Some vi -> nth_error w j = Some vj ->
  xpos vi -> xpos vj -> m_get data i f = m_get data j f.

Lemma constant_not_used : ~ @uses XF b' f.
Proof.
  intros (ts & t & n & T & It & In' & L & F).
  assert (It' : In t (gb_trees b')).
  { unfold prediction_trees, slice in T. destruct (_ && _)%bool; [|discriminate]. injection T as <-. rewrite Nat.sub_0_r in It. simpl in It.
    rewrite <- (firstn_skipn (match gb_pred b' with Some n => n | None => length (gb_trees b') end) (gb_trees b')). apply in_app_iff. auto. }
  exact (C94_constant_column E b b' data y w es base SP SD SE C HBASE HFIT f HC t n It' In' L F).
Qed.

Theorem C96_constant_column : forall d d' : Matrix xr, m_rows d' = m_rows d -> m_index d = seq 0 (m_rows d) -> m_index d' = seq 0 (m_rows d') ->
  (forall i g, (i < m_rows d)%nat -> g <> f -> m_get d i g = m_get d' i g) ->
  (forall shs shs' par par', @predict XF shs b' d par = @predict XF shs' b' d' par') /\
  (forall m norm imp, @calculate_feature_importance XF b' m norm = Some imp -> ~ In f (map fst imp)) /\
  (length (m_data d) = (m_rows d * m_cols d)%nat -> (f < m_cols d)%nat -> forall sh m par r, @predict_contributions XF sh b' d m par = Some r ->
     forall i, (i < m_rows d)%nat -> nth_error r (i * (m_cols d + 1) + f) = Some (Fin 0)).
Proof.
  intros d d' HR HI HI' HA. split; [|split].
  - apply (@C96_predict XF b' d d' HR HI HI'). intros i g Hi U. apply HA; auto. intros ->. exact (constant_not_used U).
  - intros m norm imp H. apply (@C96_importance XF b' m norm imp f H).
    exact (C94_constant_column E b b' data y w es base SP SD SE C HBASE HFIT f HC).
  - intros LD Lf sh m par r H. exact (@C96_no_credit XF f sh b' d m par r HI LD constant_not_used Lf H).
Qed.
End Constant.

(** *** A case in IEEE arithmetic: a fit on two columns where the second is constant, scored on rows where
    it is not. *)
Definition exu_data : Matrix b64 := matrix_new (map z64 [1; 2; 3; 4; 5; 7; 7; 7; 7; 7]%Z) 5 2.
Definition exu_rows : Matrix b64 := matrix_new (map z64 [1; 2; 3; 4; 5; 0; 9; -3; 8; 1]%Z) 5 2.
Definition exu_out : @Booster IE := fst (get (exb_new None true, None) (@fit IE exb_env (exb_new None true) exu_data exb_y ex_sw None)).
Lemma not_used_check : forall (b : @Booster IE) f, forallb (forallb (fun n => n_is_leaf n || negb (n_split_feature n =? f))) (gb_trees b) = true -> ~ uses b f.
Proof.
  intros b f H (ts & t & n & T & It & In' & L & F). rewrite forallb_forall in H.
  assert (It' : In t (gb_trees b)).
  { unfold prediction_trees, slice in T. destruct (_ && _)%bool; [|discriminate]. injection T as <-. rewrite Nat.sub_0_r in It. cbn [skipn] in It.
    rewrite <- (firstn_skipn (match gb_pred b with Some n => n | None => length (gb_trees b) end) (gb_trees b)). apply in_app_iff. auto. }
  specialize (H t It'). rewrite forallb_forall in H. specialize (H n In'). rewrite L, F, Nat.eqb_refl in H. discriminate.
Qed.
Example exu_unused :
  map (map (fun n => (n_is_leaf n, n_split_feature n))) (gb_trees exu_out) = repeat [(false, 0); (true, 0); (true, 0); (true, 0)] 4 /\
  ~ uses exu_out 1 /\
  @predict IE (fun _ => Seq) exu_out exu_data false = @predict IE (fun _ => Seq) exu_out exu_rows false /\
  is_some (@predict IE (fun _ => Seq) exu_out exu_rows false) = true /\
  exists r, @predict_contributions IE Seq exu_out exu_rows CShapley false = Some r /\ nth_error r 4 = Some (fzero IOps64).
Proof.
  assert (U : ~ uses exu_out 1) by (apply not_used_check; vm_compute; reflexivity).
  split; [vm_compute; reflexivity|]. split; [exact U|]. split; [|split; [vm_compute; reflexivity|]].
  - apply (@C96_predict IE exu_out exu_data exu_rows eq_refl eq_refl eq_refl). intros i f Hi Hf.
    assert (A : f <> 1 -> f < 2 -> m_get exu_data i f = m_get exu_rows i f).
    { intros N1 N2. assert (f = 0) by lia. subst f. change (m_rows exu_data) with 5 in Hi. do 5 (destruct i as [|i]; [reflexivity|]). lia. }
    destruct (Nat.eq_dec f 1) as [->|N]; [exfalso; exact (U Hf)|]. destruct (Nat.lt_ge_cases f 2) as [L|L]; [auto|].
    unfold m_get. rewrite !(proj2 (nth_error_None _ _)); [reflexivity| |];
      change (10 <= 1 * i + f * 5); lia.
  - assert (S1 : is_some (@predict_contributions IE Seq exu_out exu_rows CShapley false) = true) by (vm_compute; reflexivity).
    destruct (@predict_contributions IE Seq exu_out exu_rows CShapley false) as [r|] eqn:E; [|discriminate S1].
    exists r. split; [reflexivity|]. assert (L1 : 1 < m_cols exu_rows) by (change (1 < 2); lia). assert (L2 : 1 < m_rows exu_rows) by (change (1 < 5); lia).
    exact (@C96_no_credit IE 1 Seq exu_out exu_rows CShapley false r eq_refl eq_refl U L1 E 1 L2).
Qed.

Print Assumptions C96_predict. Print Assumptions C96_leaf_indices. Print Assumptions C96_contributions. Print Assumptions C96_no_credit.
Print Assumptions C96_dependence. Print Assumptions C96_importance. Print Assumptions C96_constant_column.
