(** Fits that differ only in how they are watched grow the same trees; columns of each tree; metadata. *)
From Coq Require Import List Arith Lia Bool String Sorting Permutation.
From Verif Require Import Prelude Float FloatLaws OrdProofs Data DataProofs Utils Binning Histogram Node Splitter
  Tree TreeWf Objective Metric MetricProofs Sampler Contrib Booster PredictProofs BoostProofs FitModel.
Import ListNotations.

Section Watch.
Context {FS : Floats}.

(** The parameters with everything erased that only decides when to stop, what to report and on how many threads. *)
Definition unwatched (p : Params) : Params :=
  mkParams (p_objective p) 0 (p_learning_rate p) (p_max_depth p) (p_max_leaves p) (p_l1 p) (p_l2 p) (p_gamma p)
    (p_max_delta_step p) (p_min_leaf_weight p) (p_nbins p) false (p_allow_missing_splits p) (p_monotone_constraints p)
    (p_subsample p) (p_top_rate p) (p_other_rate p) (p_colsample_bytree p) (p_seed p) (p_missing p)
    (p_create_missing_branch p) (p_sample_method p) (p_grow_policy p) None None (p_initialize_base_score p)
    (p_terminate_missing_features p) (p_missing_node_treatment p) 0 (p_force_children_to_bound_parent p).

Record watch_env (E E' : Env) : Prop := mkWatchEnv {
  we_rng : forall s, e_rng E s = e_rng E' s; we_sorts : e_sorts E = e_sorts E'; we_goss : e_goss E = e_goss E';
  we_pick : forall k, e_pick E k = e_pick E' k }.

(** what the next tree depends on *)
Record same_core (l l' : Loop) : Prop := mkCore {
  sc_par : unwatched (gb_params (l_booster l)) = unwatched (gb_params (l_booster l'));
  sc_base : gb_base_score (l_booster l) = gb_base_score (l_booster l');
  sc_trees : gb_trees (l_booster l) = gb_trees (l_booster l');
  sc_yhat : l_yhat l = l_yhat l'; sc_grad : l_grad l = l_grad l'; sc_hess : l_hess l = l_hess l';
  sc_rng : l_rng l = l_rng l' }.

Ltac field_rewrite := repeat match goal with X : ?f ?p = ?f ?q |- _ => rewrite X; clear X end.

Section Two.
Variables (E E' : Env) (data : Matrix F64) (y w : list F64) (bd : BinnedData).
Hypothesis HE : watch_env E E'.

Lemma sample_watch : forall p p' n i g h, unwatched p = unwatched p' -> sample_index E p n i g h = sample_index E' p' n i g h.
Proof.
  intros p p' n i g h H. unfold sample_index. injection H; intros.
  rewrite (we_rng _ _ HE), (we_goss _ _ HE). field_rewrite. reflexivity.
Qed.
Lemma column_watch : forall p p' n c, unwatched p = unwatched p' -> column_sample E p n c = column_sample E' p' n c.
Proof.
  intros p p' n c H. unfold column_sample. injection H; intros.
  rewrite (we_rng _ _ HE). field_rewrite. reflexivity.
Qed.
Lemma splitter_watch : forall p p', unwatched p = unwatched p' -> splitter_of p = splitter_of p'.
Proof.
  intros p p' H. unfold splitter_of. injection H; intros.
  field_rewrite. reflexivity.
Qed.

(** One iteration read forwards. *)
Lemma boost_step_inv : forall E0 i l l2, boost_step E0 data y w bd i l = Some l2 ->
  exists chosen grad hess n cols n2 nodes st yhat,
    sample_index E0 (gb_params (l_booster l)) (l_rng l) (m_index data) (l_grad l) (l_hess l) = Some (chosen, grad, hess, n) /\
    column_sample E0 (gb_params (l_booster l)) n (m_cols data) = (cols, n2) /\
    tree_fit (p_grow_policy (gb_params (l_booster l))) (e_pick E0 i) (splitter_of (gb_params (l_booster l)))
      (mkTrain (matrix_new (b_data bd) (m_rows data) (m_cols data)) (b_cuts bd) grad hess cols) chosen
      (p_max_leaves (gb_params (l_booster l))) (p_max_depth (gb_params (l_booster l))) (p_sample_method (gb_params (l_booster l))) = Some (nodes, st) /\
    (let* pr := tree_predict nodes data (p_missing (gb_params (l_booster l))) in Some (add_preds (l_yhat l) pr)) = Some yhat /\
    gb_params (l_booster l2) = gb_params (l_booster l) /\ gb_base_score (l_booster l2) = gb_base_score (l_booster l) /\
    gb_trees (l_booster l2) = gb_trees (l_booster l) ++ [nodes] /\ l_yhat l2 = yhat /\ l_rng l2 = n2 /\
    (l_stop l2 = false -> (l_grad l2, l_hess l2) = calc_grad_hess (p_objective (gb_params (l_booster l))) y yhat w).
Proof.
  intros E0 i l l2 H. unfold boost_step in H. inv_bind H. destruct v as [[[chosen grad] hess] n].
  destruct (column_sample _ _ _ _) as [cols n2] eqn:EC. inv_bind H. destruct v as [nodes st]. inv_bind H. rename v into yhat.
  rewrite update_serial in E3. inv_bind H. destruct v as [[hist evals] s].
  destruct (if s_stop s then _ else _) as [g2 h2] eqn:EG. injection H as <-. simpl.
  exists chosen, grad, hess, n, cols, n2, nodes, st, yhat. repeat (split; auto). intros HS. rewrite HS in EG. auto.
Qed.

Lemma step_core : forall i l l' l2 l2', same_core l l' ->
  boost_step E data y w bd i l = Some l2 -> boost_step E' data y w bd i l' = Some l2' ->
  gb_trees (l_booster l2) = gb_trees (l_booster l2') /\
  (l_stop l2 = false -> l_stop l2' = false -> same_core l2 l2').
Proof.
  intros i l l' l2 l2' [C1 C2 C3 C4 C5 C6 C7] H H'.
  destruct (boost_step_inv _ _ _ _ H) as (ch & g & h & n & cols & n2 & nodes & st & yh & A1 & A2 & A3 & A4 & A5 & A6 & A7 & A8 & A9 & A10).
  destruct (boost_step_inv _ _ _ _ H') as (ch' & g' & h' & n' & cols' & n2' & nodes' & st' & yh' & B1 & B2 & B3 & B4 & B5 & B6 & B7 & B8 & B9 & B10).
  rewrite (sample_watch _ _ _ _ _ _ C1), C5, C6, C7, B1 in A1. injection A1 as <- <- <- <-.
  rewrite (column_watch _ _ _ _ C1), B2 in A2. injection A2 as <- <-.
  rewrite (we_pick _ _ HE), (splitter_watch _ _ C1) in A3.
  pose proof C1 as C1'.
  injection C1'; intros.
  assert (EN : nodes = nodes').
  { assert (Some (nodes, st) = Some (nodes', st')) by (rewrite <- A3, <- B3; congruence). congruence. }
  subst nodes'.
  assert (EY : yh = yh').
  { assert (Some yh = Some yh') by (rewrite <- A4, <- B4, C4; congruence). congruence. }
  subst yh'. split; [congruence|]. intros S1 S2. specialize (A10 S1). specialize (B10 S2).
  assert (EGH : (l_grad l2, l_hess l2) = (l_grad l2', l_hess l2')) by congruence. injection EGH as EG EH.
  constructor; congruence.
Qed.

Lemma loop_extends : forall E0 is l l2, boost_loop E0 data y w bd is l = Some l2 ->
  exists more, gb_trees (l_booster l2) = gb_trees (l_booster l) ++ more.
Proof.
  intros E0. induction is as [|i is IH]; intros l l2 H; simpl in H.
  - injection H as <-. exists []. rewrite app_nil_r. auto.
  - inv_bind H. destruct (boost_step_inv _ _ _ _ E1) as (ch & g & h & n & cols & n2 & nodes & st & yh & _ & _ & _ & _ & _ & _ & A & _).
    destruct (l_stop v); [injection H as <-; eauto|]. apply IH in H. destruct H as [more ->]. rewrite A, <- app_assoc. eauto.
Qed.

Definition agree (ts ts' : list (list Node)) : Prop :=
  forall k t t', nth_error ts k = Some t -> nth_error ts' k = Some t' -> t = t'.
Lemma agree_prefix : forall ts ts' more more', ts = ts' -> more = [] \/ more' = [] -> agree (ts ++ more) (ts' ++ more').
Proof.
  intros ts ts' more more' <- [->| ->] k t t' H H'; rewrite app_nil_r in *.
  - rewrite nth_error_app1 in H' by (apply nth_error_Some; congruence). congruence.
  - rewrite nth_error_app1 in H by (apply nth_error_Some; congruence). congruence.
Qed.

Lemma loop_agree : forall m m' k l l' l2 l2', same_core l l' ->
  boost_loop E data y w bd (seq k m) l = Some l2 -> boost_loop E' data y w bd (seq k m') l' = Some l2' ->
  agree (gb_trees (l_booster l2)) (gb_trees (l_booster l2')).
Proof.
  induction m as [|m IH]; intros m' k l l' l2 l2' C H H'.
  - simpl in H. injection H as <-. destruct (loop_extends _ _ _ _ H') as [more ->].
    rewrite <- (app_nil_r (gb_trees (l_booster l))). apply agree_prefix; auto. apply C.
  - destruct m' as [|m'].
    { simpl in H'. injection H' as <-. destruct (loop_extends _ _ _ _ H) as [more ->].
      rewrite <- (app_nil_r (gb_trees (l_booster l'))). apply agree_prefix; auto. apply C. }
    simpl in H, H'. inv_bind H. inv_bind H'. rename v into a, v0 into a'.
    destruct (step_core _ _ _ _ _ C E0 E1) as [ET HC].
    destruct (l_stop a) eqn:SA.
    { injection H as <-. assert (X : exists more, gb_trees (l_booster l2') = gb_trees (l_booster a') ++ more).
      { destruct (l_stop a'); [injection H' as <-; exists []; rewrite app_nil_r; auto|eapply loop_extends; eauto]. }
      destruct X as [more ->]. rewrite <- (app_nil_r (gb_trees (l_booster a))). apply agree_prefix; auto. }
    destruct (l_stop a') eqn:SA'.
    { injection H' as <-. destruct (loop_extends _ _ _ _ H) as [more ->].
      rewrite <- (app_nil_r (gb_trees (l_booster a'))). apply agree_prefix; auto. }
    exact (IH m' (S k) a a' l2 l2' (HC eq_refl eq_refl) H H').
Qed.
End Two.

Theorem watching_changes_nothing : forall E E' b b' data y w es es' f f',
  watch_env E E' -> unwatched (gb_params b) = unwatched (gb_params b') -> gb_base_score b = gb_base_score b' ->
  fit E b data y w es = Some (f, None) -> fit E' b' data y w es' = Some (f', None) ->
  gb_base_score f = gb_base_score f' /\ agree (gb_trees f) (gb_trees f').
Proof.
  intros E E' b b' data y w es es' f f' HE HP HB H H'.
  apply fit_ok in H. apply fit_ok in H'. destruct H as [_ H]. destruct H' as [_ H'].
  unfold fit_trees in H, H'. inv_bind H. inv_bind H'. destruct v as [bd l]. destruct v0 as [bd' l'].
  inv_bind H. inv_bind H'. injection H as <-. injection H' as <-. rename v into l2, v0 into l2'.
  unfold fit_start in E0, E1.
  fold (start_booster b) in E0. fold (start_booster b') in E1.
  inv_bind E0. inv_bind E1. rename v into base, v0 into base'.
  assert (EP : forall c, gb_params (start_booster c) = gb_params c /\ gb_base_score (start_booster c) = gb_base_score c /\ gb_trees (start_booster c) = []).
  { intros c. unfold start_booster. destruct (gb_trees c) eqn:ET; simpl; auto. }
  destruct (EP b) as (P1 & P2 & P3). destruct (EP b') as (Q1 & Q2 & Q3).
  rewrite P1 in *. rewrite Q1 in *. rewrite P2 in *. rewrite Q2 in *.
  pose proof HP as HP'.
  injection HP'; intros.
  assert (EB : base = base').
  { assert (Some base = Some base'); [|congruence]. rewrite <- E4, <- E5, HB.
    rewrite (f_equal p_objective HP : p_objective (gb_params b) = p_objective (gb_params b')).
    rewrite (f_equal p_initialize_base_score HP : p_initialize_base_score (gb_params b) = p_initialize_base_score (gb_params b')). reflexivity. }
  subst base'.
  destruct (calc_grad_hess (p_objective (gb_params b)) y (repeat base (List.length y)) w) as [g h] eqn:EG.
  rewrite <- (f_equal p_objective HP : p_objective (gb_params b) = p_objective (gb_params b')) in E1. rewrite EG in E1. inv_bind E0. inv_bind E1. injection E0 as <- <-. injection E1 as <- <-.
  assert (EV : v = v0).
  { assert (Some v = Some v0) by (rewrite <- E6, <- E7, (we_sorts _ _ HE); congruence). congruence. }
  subst v0. split.
  - assert (G : forall E0 bd0 is l l2, boost_loop E0 data y w bd0 is l = Some l2 -> gb_base_score (l_booster l2) = gb_base_score (l_booster l)).
    { clear. intros E0 bd0. induction is as [|i is IH]; intros l l2 H; simpl in H; [congruence|]. inv_bind H.
      destruct (boost_step_inv _ _ _ _ _ _ _ _ E) as (ch & g & h & n & cols & n2 & nodes & st & yh & _ & _ & _ & _ & _ & A & _).
      destruct (l_stop v); [congruence|]. apply IH in H. congruence. }
    rewrite (G _ _ _ _ _ E2), (G _ _ _ _ _ E3). reflexivity.
  - eapply loop_agree; [exact HE| |exact E2|exact E3]. constructor; simpl; auto. rewrite P3, Q3. auto.
Qed.

(** *** The columns of a tree *)
Lemma insert_nat_length : forall x l, List.length (insert_nat x l) = S (List.length l).
Proof. induction l as [|a l IH]; simpl; auto. destruct (x <=? a); simpl; auto. Qed.
Lemma sort_nat_length : forall l, List.length (sort_nat l) = List.length l.
Proof. induction l as [|a l IH]; simpl; auto. rewrite insert_nat_length, IH. auto. Qed.
Lemma insert_nat_sorted : forall x l, StronglySorted lt l -> ~ In x l -> StronglySorted lt (insert_nat x l).
Proof.
  induction l as [|a l IH]; intros S N; simpl; [repeat constructor|]. inversion S; subst.
  destruct (Nat.leb_spec x a).
  - constructor; auto. constructor; [assert (x <> a) by (intros ->; apply N; left; auto); lia|].
    rewrite Forall_forall in *. intros z Hz. specialize (H2 z Hz). lia.
  - constructor; [apply IH; auto; intros HI; apply N; right; auto|].
    rewrite Forall_forall in *. intros z Hz. apply insert_nat_in in Hz. destruct Hz as [->|Hz]; auto.
Qed.
Lemma sort_nat_sorted : forall l, NoDup l -> StronglySorted lt (sort_nat l).
Proof.
  induction l as [|a l IH]; intros N; simpl; [constructor|]. inversion N; subst.
  apply insert_nat_sorted; auto. rewrite sort_nat_in. auto.
Qed.
Lemma seq_sorted : forall n k, StronglySorted lt (seq k n).
Proof.
  induction n as [|n IH]; intros k; simpl; constructor; auto. rewrite Forall_forall. intros z Hz. apply in_seq in Hz. lia.
Qed.

Theorem fit_columns : forall E b data y w es b', clean b -> rng_ok E (gb_params b) ->
  fit E b data y w es = Some (b', None) ->
  forall t, In t (gb_trees b') -> exists cols,
    StronglySorted lt cols /\ (forall c, In c cols -> c < m_cols data) /\
    List.length cols = (if (p_colsample_bytree (gb_params b) =? fone f64)%f64 then m_cols data
      else Nat.min (ftonat f64 (fofnat f64 (m_cols data) * p_colsample_bytree (gb_params b))%f64) (m_cols data)) /\
    forall n, In n t -> n_is_leaf n = false -> In (n_split_feature n) cols.
Proof.
  intros E b data y w es b' C RO H t Ht. apply fit_ok in H. destruct H as [_ H].
  destruct (fit_trees_BI _ _ _ _ _ _ _ C H) as (bd & base & l & HB & _ & -> & B & _).
  apply In_nth_error in Ht. destruct Ht as [k Hk].
  destruct (bi_trees _ _ _ _ _ _ _ _ _ _ _ _ _ B _ _ Hk) as (yhat & n & chosen & grad & hess & n' & cols & n'' & st & _ & _ & HC & HF).
  exists cols. assert (HBd := column_sample_bound _ _ _ _ _ _ RO HC).
  assert (X : StronglySorted lt cols /\ List.length cols = (if (p_colsample_bytree (gb_params b) =? fone f64)%f64 then m_cols data
      else Nat.min (ftonat f64 (fofnat f64 (m_cols data) * p_colsample_bytree (gb_params b))%f64) (m_cols data))).
  { unfold column_sample in HC. destruct (_ =? _)%f64 eqn:EQ.
    - injection HC as <- <-. split; [apply seq_sorted|apply seq_length].
    - destruct RO as [RO|RO]; [unfold F64 in *; congruence|]. injection HC as <- <-.
      destruct (rs_choose _ RO n' (ftonat f64 (fofnat f64 (m_cols data) * p_colsample_bytree (gb_params b))%f64) (seq 0 (m_cols data)) (seq_NoDup _ _)) as (N & _ & L).
      rewrite seq_length in L. split; [apply sort_nat_sorted; auto|]. rewrite sort_nat_length. exact L. }
  destruct X as [X1 X2]. split; auto. split; auto. split; auto.
  intros m Hm Hl. exact (fit_split_col _ _ _ _ _ _ _ _ _ _ HF m Hm Hl).
Qed.

(** *** The direction of early stopping *)
Theorem best_direction : OrdLaws (@f64 FS) -> forall E b data y w es b' r,
  clean b -> p_early_stopping_rounds (gb_params b) = Some r -> 0 < p_iterations (gb_params b) ->
  fit E b data y w (Some es) = Some (b', None) ->
  exists h best vb, gb_history b' = Some h /\ gb_best b' = Some best /\ r_get h best (r_cols h - 1) = Some vb /\
    forall i v, i < r_rows h -> r_get h i (r_cols h - 1) = Some v -> fisnan f64 v = false ->
      fisnan f64 vb = false /\
      match p_evaluation_metric (gb_params b) with
      | Some AUC => (vb <? v)%f64 = false
      | _ => (v <? vb)%f64 = false
      end.
Proof.
  intros OL E b data y w es b' r C HR HI H.
  destruct (early_stopping OL _ _ _ _ _ _ _ _ C HR HI H) as (h & best & H1 & H2 & H3 & H4 & H5 & H6 & H7 & ms & M1 & M2 & (FB & vb & F1 & F2 & F3) & _).
  exists h, best, vb. split; auto. split; auto. split; [rewrite <- M2 by lia; auto|].
  intros i v Hi Hv HN. rewrite <- M2 in Hv by auto. assert (Q := F2 i v ltac:(lia) Hv).
  unfold is_comparison_better in Q. rewrite HN in Q. destruct (fisnan f64 vb); [exfalso; apply Q; reflexivity|]. split; auto.
  unfold get_metric in Q. destruct (p_evaluation_metric (gb_params b)) as [[]|]; simpl in Q;
    try (match type of Q with context [default_metric ?o] => destruct o end; simpl in Q);
    apply not_true_is_false; intros X; apply Q; exact X.
Qed.

(** *** Metadata *)
Lemma map_get_insert : forall k v k' l, map_get k' (map_insert k v l) = if String.eqb k' k then Some v else map_get k' l.
Proof.
  induction l as [|[a x] l IH]; simpl.
  - destruct (String.eqb k' k); auto.
  - destruct (String.eqb_spec k a); simpl.
    + subst a. destruct (String.eqb k' k); auto.
    + rewrite IH. destruct (String.eqb_spec k' a); auto. subst. destruct (String.eqb_spec a k); congruence.
Qed.

Lemma agree_more : forall ts ts', agree ts ts' -> exists more, ts = ts' ++ more \/ ts' = ts ++ more.
Proof.
  induction ts as [|t ts IH]; intros [|t' ts'] H; simpl; eauto.
  assert (t = t') by exact (H 0 t t' eq_refl eq_refl). subst t'.
  destruct (IH ts') as [more [E|E]].
  - intros k a b A B. exact (H (S k) a b A B).
  - exists more. left. congruence.
  - exists more. right. congruence.
Qed.

Lemma loop_params : forall E data y w bd is l l2, boost_loop E data y w bd is l = Some l2 ->
  gb_params (l_booster l2) = gb_params (l_booster l).
Proof.
  intros E data y w bd. induction is as [|i is IH]; intros l l2 H; simpl in H.
  - injection H as <-. auto.
  - inv_bind H. destruct (boost_step_inv _ _ _ _ _ _ _ _ E0) as (ch & g & h & n & cols & n2 & nodes & st & yh & _ & _ & _ & _ & A & _).
    destruct (l_stop v); [injection H as <-; auto|]. apply IH in H. congruence.
Qed.
Lemma fit_params : forall E b data y w es b', fit_trees E b data y w es = Some b' -> gb_params b' = gb_params b.
Proof.
  intros E b data y w es b' H. unfold fit_trees in H. inv_bind H. destruct v as [bd l]. inv_bind H. injection H as <-.
  apply loop_params in E1. rewrite E1. unfold fit_start in E0. fold (start_booster b) in E0.
  assert (EP : gb_params (start_booster b) = gb_params b) by (unfold start_booster; destruct (gb_trees b); auto).
  cbv zeta in E0. rewrite EP in E0. inv_bind E0. destruct (calc_grad_hess _ _ _ _). inv_bind E0. injection E0 as _ <-. simpl. reflexivity.
Qed.

Lemma fit_start_meta : forall E b md data y w es, fit_start E (with_meta b md) data y w es =
  option_map (fun bl : BinnedData * Loop => (fst bl, loop_meta (snd bl) md)) (fit_start E b data y w es).
Proof.
  intros E b md data y w es. unfold fit_start.
  assert (ES : match gb_trees (with_meta b md) with [] => with_meta b md | _ => reset (with_meta b md) end = with_meta (start_booster b) md).
  { unfold start_booster. destruct b as [p0 bs h be pr ts md0]. destruct ts; reflexivity. }
  rewrite ES. fold (start_booster b). generalize (start_booster b) as b0. intros b0. cbn [with_meta gb_params gb_base_score gb_history gb_best gb_pred gb_trees gb_metadata].
  destruct (if p_initialize_base_score (gb_params b0) then _ else _) as [base|]; cbn [bind option_map]; auto.
  destruct (calc_grad_hess _ _ _ _) as [g h]. destruct (bin_matrix _ _ _ _ _) as [bd|]; reflexivity.
Qed.
Lemma fit_trees_meta : forall E b md data y w es,
  fit_trees E (with_meta b md) data y w es = option_map (fun b' => with_meta b' md) (fit_trees E b data y w es).
Proof.
  intros E b md data y w es. unfold fit_trees. rewrite fit_start_meta. destruct (fit_start E b data y w es) as [[bd l]|]; simpl; auto.
  rewrite boost_loop_meta. destruct (boost_loop E data y w bd _ l); reflexivity.
Qed.
End Watch.
