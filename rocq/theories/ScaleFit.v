(** Whole fits whose targets and scores are related by a change of unit, of sign or of origin. *)
From Coq Require Import List Arith NArith Lia Bool.
From Verif Require Import Prelude Float Data DataProofs Utils Binning Histogram Node Splitter Tree Objective Metric Sampler Contrib Booster Scale.
Import ListNotations.

Lemma orel_par_map : forall A C D (R : C -> D -> Prop) (f : A -> option C) (g : A -> option D) sh l,
  (forall a, orel R (f a) (g a)) -> orel (Forall2 R) (par_map sh f l) (par_map sh g l).
Proof.
  intros A C D R f g sh. induction sh as [|k s1 IH1 s2 IH2]; intros l K; simpl; [apply orel_mapM_same; auto|].
  eapply orel_bind; [apply IH1; auto|]. intros a a' HA. eapply orel_bind; [apply IH2; auto|]. intros b b' HB. simpl. apply Forall2_app; auto.
Qed.

Section Fit.
Context {FS : Floats}.
Variables (neg : bool) (G Q : F32 -> F32 -> Prop) (G64 T Y M : F64 -> F64 -> Prop).
Notation node_rel := (node_rel G Q).

(** [T] relates targets, [Y] scores and base scores, [M] metric values *)
Record FitLaws (o : ObjectiveType) : Prop := mkFL {
  fl_add : forall a a' b b', Y a a' -> G64 b b' -> Y (a + b)%f64 (a' + b')%f64;
  fl_nan : forall y y', T y y' -> fisnan f64 y' = fisnan f64 y;
  fl_gh : forall y y' s s' w, T y y' -> Y s s' ->
    G (fst (grad_hess_row o y s w)) (fst (grad_hess_row o y' s' w)) /\ snd (grad_hess_row o y' s' w) = snd (grad_hess_row o y s w) }.
Record MetricLaws (S : sort_desc) (m : Metric) : Prop := mkML {
  ml_rel : forall y y' s s' w, Forall2 T y y' -> Forall2 Y s s' -> orel M (metric_fn S m y s w) (metric_fn S m y' s' w);
  ml_better : forall a a' b b', M a a' -> M b b' ->
    is_comparison_better a' b' (metric_maximize m) = is_comparison_better a b (metric_maximize m) }.

(** the parameters in the other unit *)
Definition with_units (p : Params) (l1 gamma mds : F32) (cm : option ConstraintMap) : Params :=
  mkParams (p_objective p) (p_iterations p) (p_learning_rate p) (p_max_depth p) (p_max_leaves p) l1 (p_l2 p) gamma mds
    (p_min_leaf_weight p) (p_nbins p) (p_parallel p) (p_allow_missing_splits p) cm (p_subsample p) (p_top_rate p) (p_other_rate p)
    (p_colsample_bytree p) (p_seed p) (p_missing p) (p_create_missing_branch p) (p_sample_method p) (p_grow_policy p)
    (p_evaluation_metric p) (p_early_stopping_rounds p) (p_initialize_base_score p) (p_terminate_missing_features p)
    (p_missing_node_treatment p) (p_log_iterations p) (p_force_children_to_bound_parent p).

(** A sort that only looks at the outcomes of its comparisons. *)
Definition abs_based (S : sort_abs_desc) : Prop := forall g g' : list F32, length g' = length g ->
  (forall i j a b a' b', nth_error g i = Some a -> nth_error g j = Some b -> nth_error g' i = Some a' -> nth_error g' j = Some b' ->
     ftotal f32 (fabs f32 a') (fabs f32 b') = ftotal f32 (fabs f32 a) (fabs f32 b)) -> S g' = S g.

Hypothesis L : ScaleLaws neg G Q G64.
Hypothesis O : OrdLaws f32.
Variables (E : Env) (p : Params) (l1 gamma mds : F32) (cm : option ConstraintMap).
Notation p' := (with_units p l1 gamma mds cm).
Hypothesis SP : splitter_rel neg G Q (splitter_of p) (splitter_of p').
Hypothesis NF : neg = true -> p_create_missing_branch p = true -> p_force_children_to_bound_parent p = false.
Hypothesis CM : (forall f, free (get_constraint (splitter_of p) f)) \/ mid_laws.
Hypothesis PK : p_grow_policy p = LossGuide -> (forall i, order_based (e_pick E i)) /\ total_law Q.
Hypothesis GO : p_sample_method p = SGoss -> abs_based (e_goss E).
Hypothesis FL : FitLaws (p_objective p).

(** *** Predictions of related trees *)
Lemma walk_rel : forall fuel nodes nodes' row missing i, Forall2 node_rel nodes nodes' ->
  orel node_rel (walk fuel nodes row missing i) (walk fuel nodes' row missing i).
Proof.
  induction fuel as [|fu IH]; intros nodes nodes' row missing i F; simpl; auto.
  eapply orel_bind; [apply orel_nth; exact F|]. intros n n' N. rewrite (o_leaf _ _ _ _ N). destruct (n_is_leaf n); [exact N|].
  rewrite (o_feature _ _ _ _ N). destruct (row (n_split_feature n)) as [v|]; simpl; auto.
  unfold get_child_idx. rewrite (o_missing _ _ _ _ N), (o_left _ _ _ _ N), (o_right _ _ _ _ N), (o_value _ _ _ _ N).
  destruct (is_missing v missing); simpl; auto.
Qed.
Lemma tree_predict_rel : forall parallel sh nodes nodes' data missing, Forall2 node_rel nodes nodes' ->
  orel (Forall2 G64) (tree_predict_any parallel sh nodes data missing) (tree_predict_any parallel sh nodes' data missing).
Proof.
  intros parallel sh nodes nodes' data missing F. unfold tree_predict_any, tree_predict, tree_predict_parallel.
  assert (K : forall i, orel G64 (let* n := predict_leaf nodes data i missing in Some (to64 (n_weight n)))
                                 (let* n := predict_leaf nodes' data i missing in Some (to64 (n_weight n)))).
  { intros i. unfold predict_leaf. rewrite (F2_len _ _ _ _ _ F). eapply orel_bind; [apply walk_rel; exact F|].
    intros n n' N. apply (s_to64 _ _ _ _ L), N. }
  destruct parallel; [apply orel_par_map|apply orel_mapM_same]; exact K.
Qed.
Lemma add_preds_rel : forall a a' b b', Forall2 Y a a' -> Forall2 G64 b b' -> Forall2 Y (add_preds a b) (add_preds a' b').
Proof.
  intros a a' b b' A B. unfold add_preds. rewrite (F2_len _ _ _ _ _ B). apply Forall2_app; [|apply F2_skipn; auto].
  eapply F2_map; [apply F2_combine; [exact A|exact B]|]. intros [x u] [x' u'] [H1 H2]. apply (fl_add _ FL); auto.
Qed.
Lemma update_rel : forall sh yh yh' nodes nodes' data, Forall2 Y yh yh' -> Forall2 node_rel nodes nodes' ->
  orel (Forall2 Y) (update_predictions p sh yh nodes data) (update_predictions p' sh yh' nodes' data).
Proof.
  intros sh yh yh' nodes nodes' data HY F. unfold update_predictions. simpl.
  eapply orel_bind; [apply tree_predict_rel; exact F|]. intros a a' A. apply add_preds_rel; auto.
Qed.

(** *** Boosters *)
Definition hist_m (h h' : RowMajor F64) : Prop := Forall2 M (r_data h) (r_data h') /\ r_rows h' = r_rows h /\ r_cols h' = r_cols h /\
  r_stride1 h' = r_stride1 h /\ r_stride2 h' = r_stride2 h.
Record kept_rel (b b' : Booster) : Prop := mkKR {
  kr_params : gb_params b = p; kr_params' : gb_params b' = p'; kr_history : orel hist_m (gb_history b) (gb_history b');
  kr_best : gb_best b' = gb_best b; kr_pred : gb_pred b' = gb_pred b;
  kr_trees : Forall2 (Forall2 node_rel) (gb_trees b) (gb_trees b'); kr_meta : gb_metadata b' = gb_metadata b }.
Record booster_rel (b b' : Booster) : Prop := mkBR { br_kept : kept_rel b b'; br_base : Y (gb_base_score b) (gb_base_score b') }.

Theorem predict_rel : forall b b' shs data parallel, booster_rel b b' ->
  orel (Forall2 Y) (predict shs b data parallel) (predict shs b' data parallel).
Proof.
  intros b b' shs data parallel [[K1 K2 K3 K4 K5 K6 K7] KB]. unfold predict, prediction_trees. rewrite K5, K1, K2, (F2_len _ _ _ _ _ K6).
  eapply orel_bind; [apply orel_slice; exact K6|]. intros ts ts' F. rewrite (F2_len _ _ _ _ _ F).
  eapply orel_foldM; [apply F2_combine; [apply F2_refl|exact F]| |apply F2_repeat; exact KB].
  intros acc acc' [k nodes] [k' nodes'] A [H1 H2]. simpl in H1, H2. subst k'. simpl.
  eapply orel_bind; [apply tree_predict_rel; exact H2|]. intros u u' U. apply add_preds_rel; auto.
Qed.

(** *** Sampling *)
Lemma goss_loop_rel : forall r fact sub rest n g g' h used, Forall2 G g g' ->
  orel (fun a a' => let '(u, x, y, k) := a in let '(u', x', y', k') := a' in u' = u /\ Forall2 G x x' /\ y' = y /\ k' = k)
    (goss_loop r fact sub n rest g h used) (goss_loop r fact sub n rest g' h used).
Proof.
  intros r fact sub rest. induction rest as [|i rest IH]; intros n g g' h used F; simpl; auto.
  destruct (_ <? _)%f64; [|apply IH; auto].
  eapply orel_bind; [apply orel_nth; exact F|]. intros x x' X. destruct (nth_error h i) as [v|]; simpl; auto.
  eapply orel_bind; [apply orel_update; [exact F|apply (sl_mulh _ _ _ _ L); exact X]|]. intros g1 g1' F1.
  destruct (update h i (v * fact)%f32); simpl; auto.
Qed.
Lemma sample_rel : forall n index g g' h, Forall2 G g g' ->
  orel (fun a a' => let '(u, x, y, k) := a in let '(u', x', y', k') := a' in u' = u /\ Forall2 G x x' /\ y' = y /\ k' = k)
    (sample_index E p n index g h) (sample_index E p' n index g' h).
Proof.
  intros n index g g' h F. unfold sample_index. simpl. destruct (p_sample_method p) eqn:SM.
  - simpl. auto.
  - destruct (random_sample _ _ _ _) as [[c e] k]. simpl. auto.
  - unfold goss_sample. rewrite (F2_len _ _ _ _ _ F). destruct (length index <=? length g); simpl; auto.
    assert (ES : e_goss E (firstn (length index) g') = e_goss E (firstn (length index) g)).
    { apply (GO eq_refl); [rewrite !firstn_length, (F2_len _ _ _ _ _ F); reflexivity|].
      pose proof (F2_firstn _ _ _ (length index) _ _ F) as F'.
      intros i j a b a' b' A B A' B'. pose proof (orel_nth _ _ _ _ _ i F') as Fi. pose proof (orel_nth _ _ _ _ _ j F') as Fj.
      rewrite A, A' in Fi. rewrite B, B' in Fj. apply (sl_abs _ _ _ _ L); auto. }
    rewrite ES. match goal with |- context [if ?b then _ else _] => destruct b; simpl; auto end.
    pose proof (fun fact sub rest => goss_loop_rel (e_rng E (p_seed p)) fact sub rest n g g' h) as GL.
    match goal with |- orel _ (bind (bind (goss_loop ?r ?fa ?su _ ?re _ _ ?us) _) _) _ => specialize (GL fa su re us F);
      destruct (goss_loop r fa su n re g h us) as [[[[u x] y] k]|]; destruct (goss_loop r fa su n re g' h us) as [[[[u' x'] y'] k']|] end;
      simpl in GL; try tauto; simpl; auto.
Qed.

(** *** The loop *)
Variable evals : option (list EvalData).
Hypothesis ME : evals <> None -> MetricLaws (e_auc E) (get_metric p).

Definition set_rel (d d' : EvalData * list F64) : Prop :=
  fst (fst (fst d')) = fst (fst (fst d)) /\ Forall2 T (snd (fst (fst d))) (snd (fst (fst d'))) /\ snd (fst d') = snd (fst d) /\
  Forall2 Y (snd d) (snd d').
Definition stop_rel (a a' : Stop) : Prop :=
  orel M (s_metric a) (s_metric a') /\ s_best a' = s_best a /\ s_pred a' = s_pred a /\ s_stop a' = s_stop a.

Lemma early_rel : forall i m m' st st', MetricLaws (e_auc E) (get_metric p) -> M m m' -> stop_rel st st' ->
  stop_rel (early_stop (p_early_stopping_rounds p) (metric_maximize (get_metric p)) i m st)
           (early_stop (p_early_stopping_rounds p) (metric_maximize (get_metric p)) i m' st').
Proof.
  intros i m m' [sm sb sp ss] [sm' sb' sp' ss'] ML HM (S1 & S2 & S3 & S4). simpl in *. subst. unfold early_stop.
  destruct (p_early_stopping_rounds p) as [r|]; [|repeat split; auto]. simpl.
  destruct sm as [v|], sm' as [v'|]; simpl in S1; try tauto.
  - rewrite (ml_better _ _ ML _ _ _ _ S1 HM). destruct (is_comparison_better v m _); repeat split; auto.
  - repeat split; auto.
Qed.
Lemma eval_rel_loop : forall nodes nodes' i sets sets' j n st st', MetricLaws (e_auc E) (get_metric p) -> Forall2 node_rel nodes nodes' ->
  Forall2 set_rel sets sets' -> stop_rel st st' ->
  orel (fun a a' => Forall2 set_rel (fst (fst a)) (fst (fst a')) /\ Forall2 M (snd (fst a)) (snd (fst a')) /\ stop_rel (snd a) (snd a'))
    (eval_loop E p nodes i j n sets st) (eval_loop E p' nodes' i j n sets' st').
Proof.
  intros nodes nodes' i sets sets' j n st st' ML NN F. revert j st st'.
  induction F as [|[[[d y] w] yh] [[[d' y'] w'] yh'] sets sets' R F IH]; intros j st st' ST; cbn [eval_loop]; [simpl; auto|].
  destruct R as (R1 & R2 & R3 & R4). simpl in R1, R2, R3, R4. subst d' w'.
  eapply orel_bind; [apply update_rel; [exact R4|exact NN]|]. intros u u' U.
  change (get_metric p') with (get_metric p).
  eapply orel_bind; [apply (ml_rel _ _ ML); [exact R2|exact U]|]. intros m m' HM.
  eapply orel_bind.
  - apply IH. simpl. destruct (j + 1 =? n); [apply early_rel; auto|exact ST].
  - intros [[r ms] s] [[r' ms'] s'] (H1 & H2 & H3). simpl in H1, H2, H3. simpl. split; [|auto].
    constructor; auto. repeat split; simpl; auto.
Qed.

Record loop_rel (l l' : Loop) : Prop := mkLR {
  lr_booster : booster_rel (l_booster l) (l_booster l'); lr_yhat : Forall2 Y (l_yhat l) (l_yhat l');
  lr_grad : Forall2 G (l_grad l) (l_grad l'); lr_hess : l_hess l' = l_hess l;
  lr_evals : orel (Forall2 set_rel) (l_evals l) (l_evals l'); lr_some : l_evals l <> None -> evals <> None;
  lr_metric : orel M (l_best_metric l) (l_best_metric l'); lr_rng : l_rng l' = l_rng l; lr_stop : l_stop l' = l_stop l }.

Lemma grad_rel : forall y y' yh yh' w, Forall2 T y y' -> Forall2 Y yh yh' ->
  Forall2 G (fst (calc_grad_hess (p_objective p) y yh w)) (fst (calc_grad_hess (p_objective p) y' yh' w)) /\
  snd (calc_grad_hess (p_objective p) y' yh' w) = snd (calc_grad_hess (p_objective p) y yh w).
Proof.
  intros y y' yh yh' w F1 F2. unfold calc_grad_hess, zip3.
  pose proof (F2_combine _ _ _ _ _ _ _ _ _ _ (F2_combine _ _ _ _ _ _ _ _ _ _ F1 F2) (F2_refl _ w)) as H.
  induction H as [|[[a b] c] [[a' b'] c'] l l' [[A B] C] F IH]; [simpl; auto|]. simpl in A, B, C. subst c'.
  cbn [map split]. destruct (split (map _ l)) as [g h]. destruct (split (map _ l')) as [g' h'].
  destruct (fl_gh _ FL a a' b b' c A B) as [X1 X2].
  destruct (grad_hess_row (p_objective p) a b c) as [x y0]. destruct (grad_hess_row (p_objective p) a' b' c) as [x' y0'].
  simpl in *. destruct IH as [IH1 IH2]. subst. auto.
Qed.

Lemma step_rel : forall data y y' w bd i l l', Forall2 T y y' -> loop_rel l l' ->
  orel loop_rel (boost_step E data y w bd i l) (boost_step E data y' w bd i l').
Proof.
  intros data y y' w bd i l l' HT [[KR KB] LY LG LH LE LS LM LN LP]. destruct KR as [K1 K2 K3 K4 K5 K6 K7].
  unfold boost_step. rewrite K1, K2, LH, LN.
  eapply orel_bind; [apply sample_rel; exact LG|]. intros [[[ch g] h] n] [[[ch' g'] h'] n'] (-> & HG & -> & ->).
  change (column_sample E p' n (m_cols data)) with (column_sample E p n (m_cols data)).
  destruct (column_sample E p n (m_cols data)) as [cols n1].
  eapply orel_bind.
  - change (p_grow_policy p') with (p_grow_policy p). change (p_max_leaves p') with (p_max_leaves p). change (p_max_depth p') with (p_max_depth p).
    change (p_sample_method p') with (p_sample_method p).
    apply (tree_rel neg G Q G64 L O (splitter_of p) (splitter_of p') SP).
    + intros N. specialize (NF N). unfold splitter_of. destruct (p_create_missing_branch p); [|exact I]. rewrite (NF eq_refl). exact I.
    + exact CM.
    + constructor; simpl; auto.
    + intros PL. destruct (PK PL) as [P1 P2]. split; auto.
  - intros [nodes st] [nodes' st'] NN. cbn [fst] in NN.
    eapply orel_bind; [apply update_rel; [exact LY|exact NN]|]. intros yh yh' HY.
    eapply (orel_bind _ _ _ _ (fun a a' => orel hist_m (fst (fst a)) (fst (fst a')) /\ orel (Forall2 set_rel) (snd (fst a)) (snd (fst a')) /\
       (snd (fst a) <> None -> evals <> None) /\ stop_rel (snd a) (snd a'))).
    + destruct (l_evals l) as [sets|]; destruct (l_evals l') as [sets'|]; simpl in LE; try tauto.
      * specialize (LS ltac:(discriminate)). rewrite (F2_len _ _ _ _ _ LE).
        eapply orel_bind; [apply eval_rel_loop; [apply ME; exact LS|exact NN|exact LE|repeat split; simpl; auto]|].
        intros [[r ms] s] [[r' ms'] s'] (H1 & H2 & H3). simpl in H1, H2, H3.
        eapply (orel_bind _ _ _ _ hist_m).
        -- assert (HH : hist_m (match gb_history (l_booster l) with Some h => h | None => mkRowMajor [] 0 (length sets) end)
             (match gb_history (l_booster l') with Some h => h | None => mkRowMajor [] 0 (length sets) end)).
           { destruct (gb_history (l_booster l)), (gb_history (l_booster l')); simpl in K3; try tauto. repeat split; simpl; auto. }
           revert HH. generalize (match gb_history (l_booster l) with Some h => h | None => mkRowMajor [] 0 (length sets) end).
           generalize (match gb_history (l_booster l') with Some h => h | None => mkRowMajor [] 0 (length sets) end).
           intros h1 h0 (A1 & A2 & A3 & A4 & A5). unfold r_append_row. rewrite A3, (F2_len _ _ _ _ _ H2), A2.
           destruct (r_cols h0 =? 0); simpl; auto. destruct (_ =? 0); simpl; auto. repeat split; simpl; auto. apply Forall2_app; auto.
        -- intros h0 h1 HH. simpl. repeat split; auto; apply HH || apply H3.
      * simpl. repeat split; auto.
    + intros [[hi ev] s] [[hi' ev'] s'] (H1 & H2 & H3 & H4 & H5 & H6 & H7). simpl in *. rewrite H7.
      assert (GG : Forall2 G (fst (if s_stop s then (g, h) else calc_grad_hess (p_objective p) y yh w))
                             (fst (if s_stop s then (g', h) else calc_grad_hess (p_objective p) y' yh' w)) /\
          snd (if s_stop s then (g', h) else calc_grad_hess (p_objective p) y' yh' w) =
          snd (if s_stop s then (g, h) else calc_grad_hess (p_objective p) y yh w)).
      { destruct (s_stop s); [simpl; auto|]. apply grad_rel; auto. }
      destruct (if s_stop s then (g, h) else _) as [g1 h1]. destruct (if s_stop s then (g', h) else _) as [g1' h1'].
      simpl in GG. destruct GG as [GG1 GG2]. simpl. rewrite H5, H6, K7. constructor; simpl; auto.
      constructor; simpl; auto. constructor; simpl; auto. apply Forall2_app; auto.
Qed.
Lemma loop_rel_run : forall data y y' w bd is l l', Forall2 T y y' -> loop_rel l l' ->
  orel loop_rel (boost_loop E data y w bd is l) (boost_loop E data y' w bd is l').
Proof.
  intros data y y' w bd is. induction is as [|i is IH]; intros l l' HT LR; cbn [boost_loop]; [exact LR|].
  eapply orel_bind; [apply step_rel; [exact HT|exact LR]|]. intros u u' U. rewrite (lr_stop _ _ U). destruct (l_stop u); [exact U|]. apply IH; auto.
Qed.

(** *** Fit *)
Definition eval_data_rel (d d' : EvalData) : Prop :=
  fst (fst d') = fst (fst d) /\ Forall2 T (snd (fst d)) (snd (fst d')) /\ snd d' = snd d.
Variable evals' : option (list EvalData).
Hypothesis EV : orel (Forall2 eval_data_rel) evals evals'.

Lemma nan_rel : forall y y' name, Forall2 T y y' -> validate_not_nan_vec y' name = validate_not_nan_vec y name.
Proof.
  intros y y' name F. unfold validate_not_nan_vec.
  assert (existsb (fisnan f64) y' = existsb (fisnan f64) y) as ->; auto.
  induction F; simpl; auto. rewrite (fl_nan _ FL _ _ H), IHF. reflexivity.
Qed.
Lemma validate_rel : forall y y' w, Forall2 T y y' -> validate_inputs y' w evals' = validate_inputs y w evals.
Proof.
  intros y y' w F. unfold validate_inputs. rewrite (nan_rel _ _ _ F).
  assert (VE : match evals' with Some l => validate_evals 0 l | None => None end = match evals with Some l => validate_evals 0 l | None => None end).
  { destruct evals as [l|], evals' as [l'|]; simpl in EV; try tauto; auto. clear ME. generalize 0.
    induction EV as [|[[d v] u] [[d' v'] u'] r r' (R1 & R2 & R3) RR IH]; intros k; simpl in *; auto. subst.
    rewrite (nan_rel _ _ _ R2), IH; auto. }
  rewrite VE. reflexivity.
Qed.

Theorem fit_rel : forall b b' data y y' w, Forall2 T y y' -> kept_rel b b' ->
  (if p_initialize_base_score p then orel Y (calc_init (p_objective p) y w) (calc_init (p_objective p) y' w)
   else Y (gb_base_score b) (gb_base_score b')) ->
  orel (fun r r' => snd r' = snd r /\ (snd r = None -> booster_rel (fst r) (fst r')))
    (fit E b data y w evals) (fit E b' data y' w evals').
Proof.
  intros b b' data y y' w HT KR HB. unfold fit. rewrite (validate_rel _ _ w HT).
  destruct (validate_inputs y w evals) as [e|]; [simpl; split; auto; discriminate|].
  assert (FT : orel booster_rel (fit_trees E b data y w evals) (fit_trees E b' data y' w evals')).
  { unfold fit_trees. destruct KR as [K1 K2 K3 K4 K5 K6 K7].
    assert (IT : p_iterations (gb_params b') = p_iterations (gb_params b)) by (rewrite K1, K2; reflexivity). rewrite IT.
    eapply (orel_bind _ _ _ _ (fun a a' => fst a' = fst a /\ loop_rel (snd a) (snd a'))).
    - unfold fit_start.
      assert (KK : kept_rel (match gb_trees b with [] => b | _ => reset b end) (match gb_trees b' with [] => b' | _ => reset b' end) /\
         gb_base_score (match gb_trees b with [] => b | _ => reset b end) = gb_base_score b /\
         gb_base_score (match gb_trees b' with [] => b' | _ => reset b' end) = gb_base_score b').
      { pose proof (F2_len _ _ _ _ _ K6) as LE. destruct (gb_trees b) eqn:EB; destruct (gb_trees b') eqn:EB'; try discriminate.
        - split; auto. constructor; auto. rewrite EB, EB'. constructor.
        - split; auto. constructor; simpl; auto. }
      set (b0 := match gb_trees b with [] => b | _ => reset b end) in *. set (b0' := match gb_trees b' with [] => b' | _ => reset b' end) in *.
      destruct KK as (KK & B1 & B2). clearbody b0 b0'. clear K1 K2 K3 K4 K5 K6 K7 IT. destruct KK as [K1 K2 K3 K4 K5 K6 K7]. rewrite K1, K2, B1, B2.
      eapply (orel_bind _ _ _ _ Y).
      + change (p_initialize_base_score p') with (p_initialize_base_score p). change (p_objective p') with (p_objective p).
        destruct (p_initialize_base_score p); [exact HB|exact HB].
      + intros base base' BB. change (p_objective p') with (p_objective p). rewrite (F2_len _ _ _ _ _ HT).
        assert (HY : Forall2 Y (repeat base (length y)) (repeat base' (length y))) by (apply F2_repeat; auto).
        destruct (grad_rel _ _ _ _ w HT HY) as [G1 G2].
        destruct (calc_grad_hess _ y _ w) as [g h]. destruct (calc_grad_hess _ y' _ w) as [g' h']. simpl in G1, G2. subst h'.
        change (p_nbins p') with (p_nbins p). change (p_missing p') with (p_missing p).
        destruct (bin_matrix (e_sorts E) data w (p_nbins p) (p_missing p)) as [bd|]; simpl; auto. split; auto. constructor; simpl; auto.
        * constructor; simpl; auto. constructor; simpl; auto.
        * destruct evals as [l|], evals' as [l'|]; simpl in EV; try tauto; simpl; auto.
          eapply F2_map; [exact EV|]. intros [[d v] u] [[d' v'] u'] (R1 & R2 & R3). simpl in *. subst. repeat split; simpl; auto.
          rewrite (F2_len _ _ _ _ _ R2). apply F2_repeat; auto.
        * destruct evals; simpl; auto. discriminate.
    - intros [bd l] [bd' l'] [E1 E2]. simpl in E1, E2. subst bd'.
      eapply orel_bind; [apply loop_rel_run; [exact HT|exact E2]|]. intros u u' U. apply U. }
  destruct (fit_trees E b data y w evals), (fit_trees E b' data y' w evals'); simpl in *; auto.
Qed.
End Fit.
