(** Which options a fit reads: options of features that are switched off make no difference. *)
From Coq Require Import List Arith NArith Lia Bool.
From Verif Require Import Prelude Float Data Utils Binning BinMatrix Histogram Node Splitter Tree Objective Metric Sampler Booster PredictProofs BoostProofs.
Import ListNotations.

Section Neutral.
Context {FS : Floats}.

(** *** Splitters that decide alike *)
(** A max_delta_step that never cuts a weight. *)
Definition step_off (d : F32) : Prop := (d =? fzero f32)%f32 = true \/ forall x, (d <? fabs f32 x)%f32 = false.
Definition direction (c : option Constraint) : Constraint := match c with None => Unconstrained | Some c => c end.

Record sp_alike (p q : SplitParams) : Prop := mkSA {
  sa_l1 : sp_l1 q = sp_l1 p; sa_l2 : sp_l2 q = sp_l2 p;
  sa_step : sp_max_delta_step q = sp_max_delta_step p \/ (step_off (sp_max_delta_step p) /\ step_off (sp_max_delta_step q));
  sa_gamma : sp_gamma q = sp_gamma p; sa_min : sp_min_leaf_weight q = sp_min_leaf_weight p;
  sa_lr : sp_learning_rate q = sp_learning_rate p; sa_allow : sp_allow_missing_splits q = sp_allow_missing_splits p;
  sa_con : forall f, direction (assoc f (sp_constraints q)) = direction (assoc f (sp_constraints p)) }.
Definition s_alike (s r : Splitter) : Prop :=
  match s, r with
  | Imputer p, Imputer q => sp_alike p q
  | Branch p te tr fo, Branch q te' tr' fo' => sp_alike p q /\ tr' = tr /\ fo' = fo /\ forall f, existsb (Nat.eqb f) te' = existsb (Nat.eqb f) te
  | _, _ => False
  end.

Lemma step_off_weight : forall d l1 l2 g h, step_off d -> weight l1 l2 d g h = (- (l1_regularization g l1 / (h + l2)))%f32.
Proof.
  intros d l1 l2 g h [H|H]; unfold weight.
  - rewrite H. reflexivity.
  - rewrite H, andb_false_r. reflexivity.
Qed.
Lemma weight_alike : forall p q g h, sp_alike p q ->
  weight (sp_l1 q) (sp_l2 q) (sp_max_delta_step q) g h = weight (sp_l1 p) (sp_l2 p) (sp_max_delta_step p) g h.
Proof.
  intros p q g h A. rewrite (sa_l1 _ _ A), (sa_l2 _ _ A). destruct (sa_step _ _ A) as [->|[S1 S2]]; [reflexivity|].
  rewrite !step_off_weight by assumption. reflexivity.
Qed.
Lemma cweight_alike : forall p q g h lo up c c', sp_alike p q -> direction c' = direction c -> cweight q g h lo up c' = cweight p g h lo up c.
Proof.
  intros p q g h lo up c c' A D. unfold cweight, constrained_weight. rewrite (weight_alike p q g h A).
  destruct c as [[| |]|], c' as [[| |]|]; try discriminate D; reflexivity.
Qed.
Lemma cull_alike : forall g l r c c', direction c' = direction c -> cull_gain g l r c' = cull_gain g l r c.
Proof. intros g l r c c' D. destruct c as [[| |]|], c' as [[| |]|]; try discriminate D; reflexivity. Qed.
Lemma bounds_alike : forall lo up l r c c', direction c' = direction c -> child_bounds lo up l r c' = child_bounds lo up l r c.
Proof. intros lo up l r c c' D. destruct c as [[| |]|], c' as [[| |]|]; try discriminate D; reflexivity. Qed.

Lemma evaluate_alike : forall s r lg lh rg rh mg mh lo up pw c c', s_alike s r -> direction c' = direction c ->
  evaluate_split r lg lh rg rh mg mh lo up pw c' = evaluate_split s lg lh rg rh mg mh lo up pw c.
Proof.
  intros [p|p te tr fo] [q|q te' tr' fo'] lg lh rg rh mg mh lo up pw c c' A D; try contradiction; cbn [evaluate_split s_alike] in *.
  - unfold evaluate_split_imputer. rewrite (sa_allow _ _ A), (sa_min _ _ A), (sa_l2 _ _ A).
    rewrite !(fun g h lo up => cweight_alike p q g h lo up c c' A D), !(fun g l r => cull_alike g l r c c' D). reflexivity.
  - destruct A as (A & -> & -> & _). unfold evaluate_split_branch, missing_weight_of. rewrite (sa_allow _ _ A), (sa_min _ _ A), (sa_l2 _ _ A).
    rewrite !(fun g h lo up => cweight_alike p q g h lo up c c' A D). reflexivity.
Qed.
Lemma params_alike : forall s r, s_alike s r -> sp_alike (params s) (params r).
Proof. intros [p|p te tr fo] [q|q te' tr' fo'] A; try contradiction; cbn in *; tauto. Qed.
Lemma candidate_alike : forall s r node f missing bin i cg ch, s_alike s r ->
  candidate r node f missing bin i cg ch = candidate s node f missing bin i cg ch.
Proof.
  intros s r node f missing bin i cg ch A. pose proof (params_alike s r A) as PA. unfold candidate.
  pose proof (sa_con _ _ PA f) as D. fold (get_constraint s f) (get_constraint r f) in D.
  rewrite (evaluate_alike s r _ _ _ _ _ _ _ _ _ _ _ A D).
  destruct (evaluate_split _ _ _ _ _ _ _ _ _ _ _) as [[[[l ri] m]|]|]; cbn [bind]; try reflexivity.
  rewrite (sa_gamma _ _ PA), (cull_alike _ _ _ _ _ D), (bounds_alike _ _ _ _ _ _ D). reflexivity.
Qed.
Lemma feature_alike : forall s r node f missing, s_alike s r -> forall bins i cg ch best,
  feature_loop r node f missing bins i cg ch best = feature_loop s node f missing bins i cg ch best.
Proof.
  intros s r node f missing A. induction bins as [|bin bins IH]; intros i cg ch best; [reflexivity|]. cbn [feature_loop].
  rewrite (candidate_alike s r _ _ _ _ _ _ _ A). destruct (candidate _ _ _ _ _ _ _ _) as [c|]; cbn [bind]; auto.
Qed.
Lemma best_alike : forall s r node cols, s_alike s r -> best_split r node cols = best_split s node cols.
Proof.
  intros s r node cols A. unfold best_split. generalize (@None SplitInfo). generalize (fzero (@f32 FS)). generalize 0.
  induction cols as [|f cols IH]; intros idx g best; [reflexivity|]. cbn [best_split_loop].
  assert (E : best_feature_split r node f idx = best_feature_split s node f idx).
  { unfold best_feature_split. destruct (j_get_col _ _) as [[|m bins]|]; cbn [bind]; auto. apply feature_alike. auto. }
  rewrite E. clear E. destruct (best_feature_split s node f idx) as [[x|]|]; cbn [bind]; [destruct (g <? si_gain x)%f32; apply IH|apply IH|reflexivity].
Qed.
Lemma split_alike : forall s r t n node index, s_alike s r -> split_node r t n node index = split_node s t n node index.
Proof.
  intros s r t n node index A. unfold split_node. rewrite (best_alike s r _ _ A). destruct (best_split _ _ _) as [[si|]|]; cbn [bind]; auto.
  destruct s as [p|p te tr fo], r as [q|q te' tr' fo']; try contradiction; cbn [handle_split_info]; auto.
  destruct A as (A & -> & -> & T). unfold handle_branch. rewrite (T (si_feature si)). reflexivity.
Qed.
Lemma grow_alike : forall s r t md node st, s_alike s r -> grow_node r t md node st = grow_node s t md node st.
Proof.
  intros s r t md node st A. unfold grow_node. rewrite (split_alike s r _ _ _ _ A), (sa_lr _ _ (params_alike s r A)). reflexivity.
Qed.
Lemma loop_alike : forall s r policy pick t ml md, s_alike s r -> forall fuel st,
  grow_loop fuel policy pick r t ml md st = grow_loop fuel policy pick s t ml md st.
Proof.
  intros s r policy pick t ml md A. induction fuel as [|fuel IH]; intros st; cbn [grow_loop]; [reflexivity|].
  destruct (g_pending st) as [|n0 ns]; [reflexivity|]. unfold new_leaves_added. destruct (_ <? _); [reflexivity|].
  destruct (pop_node _ _ _ _) as [[node rest]|]; [cbn [bind]|reflexivity].
  rewrite (grow_alike s r _ _ _ _ A). destruct (grow_node _ _ _ _ _) as [st'|]; [cbn [bind]|reflexivity]. apply IH.
Qed.
Theorem tree_alike : forall s r policy pick t index ml md sm, s_alike s r ->
  tree_fit policy pick r t index ml md sm = tree_fit policy pick s t index ml md sm.
Proof.
  intros s r policy pick t index ml md sm A. pose proof (params_alike s r A) as PA. unfold tree_fit.
  assert (ER : root_node r t index sm = root_node s t index sm).
  { unfold root_node. destruct (root_sums _ _ _ _) as [[[gs hs] so]|]; [cbn [bind]|reflexivity].
    rewrite (weight_alike _ _ gs hs PA), (sa_l2 _ _ PA). reflexivity. }
  rewrite ER. clear ER. destruct (root_node s t index sm) as [root|]; [cbn [bind]|reflexivity].
  unfold grow_init. rewrite (sa_lr _ _ PA), (loop_alike s r _ _ _ _ _ A).
  destruct (grow_loop _ _ _ _ _ _ _ _) as [st|]; [cbn [bind]|reflexivity].
  assert (EC : clean_up_splits r (g_nodes st) = clean_up_splits s (g_nodes st)); [|rewrite EC; reflexivity].
  destruct s as [p|p te tr fo], r as [q|q te' tr' fo']; try contradiction; auto. destruct A as (_ & -> & -> & _). reflexivity.
Qed.

(** *** One iteration up to its tree *)
Definition grown (E : Env) (p : Params) (data : Matrix F64) (bd : BinnedData) (i n : nat) (grad hess : list F32)
  : option (list Node * list F32 * list F32 * nat) :=
  let* (chosen, grad, hess, n) := sample_index E p n (m_index data) grad hess in
  let '(cols, n) := column_sample E p n (m_cols data) in
  let* (nodes, _) := tree_fit (p_grow_policy p) (e_pick E i) (splitter_of p)
      (mkTrain (matrix_new (b_data bd) (m_rows data) (m_cols data)) (b_cuts bd) grad hess cols) chosen
      (p_max_leaves p) (p_max_depth p) (p_sample_method p) in
  Some (nodes, grad, hess, n).

(** What is read outside of growing the trees. *)
Record reads_same (es : bool) (p q : Params) : Prop := mkRS {
  rs_objective : p_objective q = p_objective p; rs_iterations : p_iterations q = p_iterations p; rs_nbins : p_nbins q = p_nbins p;
  rs_missing : p_missing q = p_missing p; rs_init : p_initialize_base_score q = p_initialize_base_score p;
  rs_eval : es = true -> get_metric q = get_metric p /\ p_early_stopping_rounds q = p_early_stopping_rounds p }.

Definition b_with (q : Params) (b : Booster) : Booster :=
  mkBooster q (gb_base_score b) (gb_history b) (gb_best b) (gb_pred b) (gb_trees b) (gb_metadata b).
Definition l_with (q : Params) (l : Loop) : Loop :=
  mkLoop (b_with q (l_booster l)) (l_yhat l) (l_grad l) (l_hess l) (l_evals l) (l_best_metric l) (l_rng l) (l_stop l).

Lemma update_with : forall es p q sh sh' yh nodes data, reads_same es p q -> update_predictions q sh yh nodes data = update_predictions p sh' yh nodes data.
Proof. intros es p q sh sh' yh nodes data R. unfold update_predictions. rewrite !any_serial, (rs_missing _ _ _ R). reflexivity. Qed.
Lemma eval_with : forall E p q nodes i n, reads_same true p q -> forall sets j s, eval_loop E q nodes i j n sets s = eval_loop E p nodes i j n sets s.
Proof.
  intros E p q nodes i n R. destruct (rs_eval _ _ _ R eq_refl) as [R1 R2].
  induction sets as [|[[[d y] w] yh] sets IH]; intros j s; [reflexivity|]. cbn [eval_loop]. rewrite R1, R2.
  rewrite (update_with true p q _ (e_shape E i (S j)) yh nodes d R).
  destruct (update_predictions _ _ _ _ _) as [yh'|]; [cbn [bind]|reflexivity].
  destruct (metric_fn _ _ _ _ _) as [m|]; [cbn [bind]|reflexivity]. rewrite IH. reflexivity.
Qed.

Definition evals_on (l : Loop) : bool := match l_evals l with None => false | Some _ => true end.

Lemma step_with : forall E data y w bd i q l l', reads_same (evals_on l) (gb_params (l_booster l)) q ->
  boost_step E data y w bd i l = Some l' ->
  exists nodes grad hess n, grown E (gb_params (l_booster l)) data bd i (l_rng l) (l_grad l) (l_hess l) = Some (nodes, grad, hess, n) /\
    gb_trees (l_booster l') = gb_trees (l_booster l) ++ [nodes] /\ gb_params (l_booster l') = gb_params (l_booster l) /\ evals_on l' = evals_on l /\
    (grown E q data bd i (l_rng l) (l_grad l) (l_hess l) = Some (nodes, grad, hess, n) ->
     boost_step E data y w bd i (l_with q l) = Some (l_with q l')).
Proof.
  intros E data y w bd i q l l' R H. unfold boost_step in H. unfold grown at 1.
  inv_bind H. destruct v as [[[chosen grad] hess] n]. rewrite E0. cbn [bind].
  destruct (column_sample E (gb_params (l_booster l)) n (m_cols data)) as [cols n'] eqn:EC.
  inv_bind H. destruct v as [nodes st]. rewrite E1. cbn [bind]. exists nodes, grad, hess, n'. split; [reflexivity|].
  inv_bind H. rename v into yhat. inv_bind H. destruct v as [[hist evals] s].
  destruct (if s_stop s then _ else _) as [g2 h2] eqn:EG. injection H as <-.
  cbn [l_booster gb_trees gb_params]. split; [reflexivity|]. split; [reflexivity|]. unfold evals_on at 1. cbn [l_evals]. split.
  { unfold evals_on. destruct (l_evals l) as [sets|]; [|injection E3 as _ <- _; reflexivity].
    inv_bind E3. destruct v as [[sets' ms] s']. inv_bind E3. injection E3 as _ <- _. reflexivity. }
  intros GR. unfold boost_step. cbn [l_with l_booster b_with gb_params l_rng l_grad l_hess l_yhat l_evals gb_history gb_best gb_pred l_best_metric l_stop gb_base_score gb_trees gb_metadata].
  unfold grown in GR. inv_bind GR. destruct v as [[[chosen2 grad2] hess2] n2]. rewrite E4. cbn [bind].
  destruct (column_sample E q n2 (m_cols data)) as [cols2 n2']. inv_bind GR. destruct v as [nodes2 st2]. injection GR as -> -> -> ->. rewrite E5. cbn [bind].
  rewrite (update_with _ _ _ _ (e_shape E i 0) _ nodes data R), E2. cbn [bind].
  rewrite (rs_objective _ _ _ R).
  destruct (l_evals l) as [sets|] eqn:EV.
  - unfold evals_on in R. rewrite EV in R. rewrite (eval_with E _ q nodes i _ R). 
    inv_bind E3. destruct v as [[sets' ms] s']. rewrite E6. cbn [bind]. inv_bind E3. rewrite E7. cbn [bind]. injection E3 as <- <- <-.
    rewrite EG. reflexivity.
  - injection E3 as <- <- <-. cbn [bind]. rewrite EG. reflexivity.
Qed.

(** [P] holds of every tree the first options give: what must hold of a tree for the other options to give the same. *)
Section Loop.
Variables (E : Env) (p q : Params) (data : Matrix F64) (bd : BinnedData) (P : list Node -> Prop).
Hypothesis HG : forall i n grad hess nodes g h n', grown E p data bd i n grad hess = Some (nodes, g, h, n') -> P nodes ->
  grown E q data bd i n grad hess = Some (nodes, g, h, n').

Lemma boost_with : forall y w is l l', gb_params (l_booster l) = p -> reads_same (evals_on l) p q ->
  boost_loop E data y w bd is l = Some l' -> (forall t, In t (gb_trees (l_booster l')) -> P t) ->
  boost_loop E data y w bd is (l_with q l) = Some (l_with q l') /\ incl (gb_trees (l_booster l)) (gb_trees (l_booster l')).
Proof.
  intros y w. induction is as [|i is IH]; intros l l' HP R H HT; cbn [boost_loop] in *.
  - injection H as <-. split; [reflexivity|apply incl_refl].
  - inv_bind H. rename v into l1. rewrite <- HP in R.
    destruct (step_with E data y w bd i q l l1 R E0) as (nodes & grad & hess & n & G & T1 & P1 & V1 & K). rewrite HP in *.
    assert (R1 : reads_same (evals_on l1) p q) by (rewrite V1; exact R).
    assert (IN : incl (gb_trees (l_booster l1)) (gb_trees (l_booster l'))).
    { destruct (l_stop l1).
      - injection H as <-. apply incl_refl.
      - assert (G1 : forall is l l', boost_loop E data y w bd is l = Some l' -> incl (gb_trees (l_booster l)) (gb_trees (l_booster l'))).
        { clear. induction is as [|i is IH]; intros l l' H; cbn [boost_loop] in H.
          - injection H as <-. apply incl_refl.
          - inv_bind H. rename v into l1. apply incl_tran with (gb_trees (l_booster l1)).
            + unfold boost_step in E0. inv_bind E0. destruct v as [[[chosen grad] hess] n]. destruct (column_sample _ _ _ _) as [cols n'].
              inv_bind E0. destruct v as [nodes st]. inv_bind E0. inv_bind E0. destruct v0 as [[hist evals] s]. destruct (if s_stop s then _ else _) as [g h].
              injection E0 as <-. cbn [l_booster gb_trees]. apply incl_appl, incl_refl.
            + destruct (l_stop l1); [injection H as <-; apply incl_refl|]. eapply IH. exact H. }
        eapply G1. exact H. }
    assert (PN : P nodes). { apply HT. apply IN. rewrite T1. apply in_or_app. right. left. reflexivity. }
    rewrite (K (HG _ _ _ _ _ _ _ _ G PN)). cbn [bind]. cbn [l_with l_stop].
    assert (I0 : incl (gb_trees (l_booster l)) (gb_trees (l_booster l'))).
    { apply incl_tran with (gb_trees (l_booster l1)); [rewrite T1; apply incl_appl, incl_refl|exact IN]. }
    destruct (l_stop l1).
    + injection H as <-. split; [reflexivity|exact I0].
    + fold (l_with q l1). destruct (IH l1 l' P1 R1 H HT) as [IH1 _]. split; [exact IH1|exact I0].
Qed.
End Loop.

Definition given (es : option (list EvalData)) : bool := match es with None => false | Some _ => true end.

(** A booster [c] with other options, and another base score when it is computed from the labels. *)
Theorem fit_with : forall (P : list Node -> Prop) E b c data y w es b',
  let p := gb_params b in let q := gb_params c in
  reads_same (given es) p q -> b_with p c = b \/ (p_initialize_base_score p = true /\ gb_trees c = gb_trees b /\ gb_history c = gb_history b /\
     gb_best c = gb_best b /\ gb_pred c = gb_pred b /\ gb_metadata c = gb_metadata b) ->
  (forall bd i n grad hess nodes g h n', grown E p data bd i n grad hess = Some (nodes, g, h, n') -> P nodes ->
     grown E q data bd i n grad hess = Some (nodes, g, h, n')) ->
  fit E b data y w es = Some (b', None) -> (forall t, In t (gb_trees b') -> P t) ->
  fit E c data y w es = Some (b_with q b', None).
Proof.
  intros P E b c data y w es b' p q R BC HG H HT.
  assert (HP : gb_params b = p) by reflexivity. assert (HQ : gb_params c = q) by reflexivity. clearbody p q. unfold fit in *. destruct (validate_inputs y w es); [discriminate|].
  inv_bind H. injection H as ->. unfold fit_trees in *. inv_bind E0. destruct v as [bd l]. inv_bind E0. rename v into l'. injection E0 as <-.
  assert (FS1 : fit_start E c data y w es = Some (bd, l_with q l) /\ gb_params (l_booster l) = p /\ evals_on l = given es).
  { clear E2 HT HG. unfold fit_start in *.
    assert (RP : gb_params (match gb_trees b with [] => b | _ => reset b end) = p) by (destruct (gb_trees b); exact HP).
    assert (RQ : gb_params (match gb_trees c with [] => c | _ => reset c end) = q) by (destruct (gb_trees c); exact HQ).
    rewrite RP in E1. rewrite RQ. rewrite (rs_objective _ _ _ R), (rs_nbins _ _ _ R), (rs_missing _ _ _ R), (rs_init _ _ _ R).
    inv_bind E1. rename v into base.
    assert (EB : (if p_initialize_base_score p then calc_init (p_objective p) y w
                  else Some (gb_base_score match gb_trees c with [] => c | _ => reset c end)) = Some base).
    { destruct BC as [<-|(I & _)]; [|rewrite I in *; exact E0]. rewrite <- E0. destruct (p_initialize_base_score p); [reflexivity|].
      cbn [b_with gb_trees]. destruct (gb_trees c); reflexivity. }
    rewrite EB. cbn [bind]. destruct (calc_grad_hess _ _ _ _) as [g h]. inv_bind E1. rewrite E2. cbn [bind]. injection E1 as -> <-.
    split; [|split; [cbn [l_booster gb_params]; first [exact RP | reflexivity]|]].
    - f_equal. f_equal. unfold l_with. cbn [l_booster l_yhat l_grad l_hess l_evals l_best_metric l_rng l_stop]. unfold b_with.
      cbn [gb_base_score gb_history gb_best gb_pred gb_trees gb_metadata]. f_equal.
      destruct BC as [<-|(_ & B1 & B2 & B3 & B4 & B5)].
      + cbn [b_with gb_trees]. destruct (gb_trees c) eqn:ET; cbn [reset gb_history gb_best gb_pred gb_trees gb_metadata b_with]; rewrite ?ET; reflexivity.
      + rewrite B1. destruct (gb_trees b) eqn:ET; cbn [reset gb_history gb_best gb_pred gb_trees gb_metadata]; rewrite ?B1, ?B2, ?B3, ?B4, ?B5, ?ET; reflexivity.
    - unfold evals_on. cbn [l_evals]. destruct es; reflexivity. }
  destruct FS1 as (F1 & F2 & F3). rewrite F1. cbn [bind].
  rewrite HQ, (rs_iterations _ _ _ R).
  rewrite HP in E2. destruct (boost_with E p q data bd P (HG bd) y w _ l l' F2 (eq_rect_r (fun v => reads_same v p q) R F3) E2 HT) as [K _].
  rewrite K. reflexivity.
Qed.

(** *** Options that come to the same *)
Definition sampling (p : Params) : Prop := p_sample_method p <> SNone \/ (p_colsample_bytree p =? fone f64)%f64 = false.
Definition constraint_for (p : Params) (f : nat) : Constraint :=
  direction (assoc f (match p_monotone_constraints p with Some m => m | None => [] end)).

Record same_effect (es : bool) (p q : Params) : Prop := mkSame {
  se_reads : reads_same es p q;
  se_lr : p_learning_rate q = p_learning_rate p; se_depth : p_max_depth q = p_max_depth p; se_leaves : p_max_leaves q = p_max_leaves p;
  se_l1 : p_l1 q = p_l1 p; se_l2 : p_l2 q = p_l2 p; se_gamma : p_gamma q = p_gamma p;
  se_step : p_max_delta_step q = p_max_delta_step p \/ (step_off (p_max_delta_step p) /\ step_off (p_max_delta_step q));
  se_min : p_min_leaf_weight q = p_min_leaf_weight p; se_allow : p_allow_missing_splits q = p_allow_missing_splits p;
  se_con : forall f, constraint_for q f = constraint_for p f;
  se_method : p_sample_method q = p_sample_method p; se_policy : p_grow_policy q = p_grow_policy p;
  se_random : p_sample_method p = SRandom -> p_subsample q = p_subsample p;
  se_goss : p_sample_method p = SGoss -> p_top_rate q = p_top_rate p /\ p_other_rate q = p_other_rate p;
  se_colsample : p_colsample_bytree q = p_colsample_bytree p;
  se_seed : sampling p -> p_seed q = p_seed p;
  se_branch : p_create_missing_branch q = p_create_missing_branch p;
  se_missing : p_create_missing_branch p = true -> p_missing_node_treatment q = p_missing_node_treatment p /\
    p_force_children_to_bound_parent q = p_force_children_to_bound_parent p /\
    forall f, In f (p_terminate_missing_features q) <-> In f (p_terminate_missing_features p) }.

Lemma existsb_same : forall f a b, (In f a <-> In f b) -> existsb (Nat.eqb f) a = existsb (Nat.eqb f) b.
Proof.
  intros f a b H. apply eq_true_iff_eq. rewrite !existsb_exists. split; intros (x & I & Q); apply Nat.eqb_eq in Q; subst x; exists f; rewrite Nat.eqb_refl; split; auto; apply H; auto.
Qed.
Lemma splitter_same : forall es p q, same_effect es p q -> s_alike (splitter_of p) (splitter_of q).
Proof.
  intros es p q S. unfold splitter_of. rewrite (se_branch _ _ _ S).
  assert (A : sp_alike (mkSP (p_l1 p) (p_l2 p) (p_max_delta_step p) (p_gamma p) (p_min_leaf_weight p) (p_learning_rate p) (p_allow_missing_splits p)
      match p_monotone_constraints p with Some m => m | None => [] end)
    (mkSP (p_l1 q) (p_l2 q) (p_max_delta_step q) (p_gamma q) (p_min_leaf_weight q) (p_learning_rate q) (p_allow_missing_splits q)
      match p_monotone_constraints q with Some m => m | None => [] end)).
  { constructor; cbn; apply S. }
  destruct (p_create_missing_branch p) eqn:EB; [|exact A]. destruct (se_missing _ _ _ S EB) as (M1 & M2 & M3).
  cbn [s_alike]. split; [exact A|]. split; [exact M1|]. split; [exact M2|]. intros f. apply existsb_same. apply M3.
Qed.
Lemma grown_same : forall es E p q data bd i n grad hess, same_effect es p q -> grown E q data bd i n grad hess = grown E p data bd i n grad hess.
Proof.
  intros es E p q data bd i n grad hess S. unfold grown.
  assert (E1 : sample_index E q n (m_index data) grad hess = sample_index E p n (m_index data) grad hess).
  { unfold sample_index. rewrite (se_method _ _ _ S). destruct (p_sample_method p) eqn:EM; [reflexivity| |].
    - rewrite (se_random _ _ _ S EM), (se_seed _ _ _ S); [reflexivity|]. left. congruence.
    - destruct (se_goss _ _ _ S EM) as [-> ->]. rewrite (se_seed _ _ _ S); [reflexivity|]. left. congruence. }
  rewrite E1. clear E1. destruct (sample_index E p n (m_index data) grad hess) as [[[[chosen g] h] n']|]; [cbn [bind]|reflexivity].
  assert (E2 : column_sample E q n' (m_cols data) = column_sample E p n' (m_cols data)).
  { unfold column_sample. rewrite (se_colsample _ _ _ S). destruct (p_colsample_bytree p =? fone f64)%f64 eqn:EC; [reflexivity|].
    rewrite (se_seed _ _ _ S); [reflexivity|]. right. exact EC. }
  rewrite E2. clear E2. destruct (column_sample E p n' (m_cols data)) as [cols n2].
  rewrite (tree_alike _ _ _ _ _ _ _ _ _ (splitter_same _ _ _ S)), (se_policy _ _ _ S), (se_leaves _ _ _ S), (se_depth _ _ _ S), (se_method _ _ _ S). reflexivity.
Qed.
Theorem fit_same : forall E b c data y w es b',
  let p := gb_params b in let q := gb_params c in
  same_effect (given es) p q -> b_with p c = b \/ (p_initialize_base_score p = true /\ gb_trees c = gb_trees b /\ gb_history c = gb_history b /\
     gb_best c = gb_best b /\ gb_pred c = gb_pred b /\ gb_metadata c = gb_metadata b) ->
  fit E b data y w es = Some (b', None) -> fit E c data y w es = Some (b_with q b', None).
Proof.
  intros E b c data y w es b' p q S BC H. apply (fit_with (fun _ => True) E b c data y w es b' (se_reads _ _ _ S) BC); auto.
  intros bd i n grad hess nodes g h n' G _. rewrite <- G. eapply grown_same. exact S.
Qed.
End Neutral.
