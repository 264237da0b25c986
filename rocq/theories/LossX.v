(** Squared loss in exact arithmetic: no tree raises the training loss.  Also: trees fitted on sound
    inputs have finite values, so every prediction of the model is a finite number. *)
From Coq Require Import Reals Lra List Arith NArith Lia Bool Permutation Sorting.
From Flocq Require Import Core.Raux.
From Verif Require Import Prelude Float FloatX FloatLaws OrdProofs Data DataProofs Utils UtilsX PivotProofs Binning BinningProofs CutProofs BinMatrix Histogram Node Splitter
  Tree TreeWf TreeProofs FitProofs PathProofs RouteX RouteFit NoPanic Objective Metric Sampler SamplerProofs MetricX ObjectiveX Booster
  PredictProofs BoostProofs FitModel FinX BoostX.
Import ListNotations.
Local Open Scope R_scope.

Notation at_ l i := (val (nth i l (Fin 0))).

(** Σ w (y - f)^2 over the rows *)
Definition train_loss (y yh w : list xr) : R :=
  sumR (map (fun i => at_ w i * ((at_ y i - at_ yh i) * (at_ y i - at_ yh i))) (seq 0 (length y))).

(** *** One leaf *)
Lemma leaf_step : forall l1 l2 G H w lr, 0 <= l1 -> 0 <= l2 -> 0 < H + l2 -> 0 <= lr <= 1 ->
  leaf_obj l1 l2 G H w <= leaf_obj l1 l2 G H 0 -> G * (w * lr) + H / 2 * ((w * lr) * (w * lr)) <= 0.
Proof.
  intros l1 l2 G H w lr P1 P2 PH PL HW. unfold leaf_obj in HW. rewrite Rabs_R0 in HW.
  replace (G * 0 + (H + l2) / 2 * (0 * 0) + l1 * 0) with 0 in HW by ring.
  pose proof (Rabs_pos w) as PA. assert (PW : 0 <= w * w) by nra.
  assert (Q1 : G * (w * lr) + (H + l2) / 2 * (w * w) * lr + l1 * Rabs w * lr <= 0).
  { replace (G * (w * lr) + (H + l2) / 2 * (w * w) * lr + l1 * Rabs w * lr) with (lr * (G * w + (H + l2) / 2 * (w * w) + l1 * Rabs w)) by ring. nra. }
  assert (Q2 : 0 <= l1 * Rabs w * lr) by (apply Rmult_le_pos; [apply Rmult_le_pos|]; lra).
  assert (Q3 : (H + l2) / 2 * (w * w) * (lr * lr) <= (H + l2) / 2 * (w * w) * lr).
  { apply Rmult_le_compat_l; [apply Rmult_le_pos; lra|nra]. }
  assert (Q4 : 0 <= l2 / 2 * (w * w) * (lr * lr)) by (apply Rmult_le_pos; [apply Rmult_le_pos; lra|nra]).
  replace (H / 2 * (w * lr * (w * lr))) with ((H + l2) / 2 * (w * w) * (lr * lr) - l2 / 2 * (w * w) * (lr * lr)) by (field).
  lra.
Qed.

(** *** Summing by group *)
Lemma sum_groups : forall (f : nat -> R) (key : nat -> nat) l n, (forall i, In i l -> (key i < n)%nat) ->
  sumR (map f l) = sumR (map (fun k => sumR (map f (filter (fun i => (key i =? k)%nat) l))) (seq 0 n)).
Proof.
  intros f key l n H. induction l as [|a l IH].
  - simpl. induction (seq 0 n); simpl; auto. lra.
  - cbn [map filter]. rewrite sumR_cons, IH by (intros; apply H; right; auto).
    assert (Ha : In (key a) (seq 0 n)) by (apply in_seq; split; [lia|apply H; left; auto]).
    pose proof (seq_NoDup n 0) as ND. revert Ha ND. generalize (seq 0 n). clear.
    induction l0 as [|k ks IH]; intros Ha ND; [destruct Ha|]. inversion ND as [|? ? NI ND']; subst. cbn [map]. rewrite !sumR_cons.
    destruct (Nat.eqb_spec (key a) k) as [E|E].
    + cbn [map]. rewrite sumR_cons.
      assert (ES : map (fun k0 => sumR (map f (if (key a =? k0)%nat then a :: filter (fun i => (key i =? k0)%nat) l else filter (fun i => (key i =? k0)%nat) l))) ks
         = map (fun k0 => sumR (map f (filter (fun i => (key i =? k0)%nat) l))) ks).
      { apply map_ext_in. intros k0 Hk. destruct (Nat.eqb_spec (key a) k0); auto. subst. contradiction. }
      rewrite ES. lra.
    + destruct Ha as [Ha|Ha]; [congruence|]. specialize (IH Ha ND'). lra.
Qed.

Lemma path_leaf_last : forall {FS : Floats} nodes row missing fuel i l k n, path fuel nodes row missing i = Some l ->
  nth_error nodes k = Some n -> n_is_leaf n = true -> In k l -> last l 0%nat = k.
Proof.
  intros FS nodes row missing. induction fuel as [|fu IH]; intros i l k n H Hk Hl Hin; simpl in H; [discriminate|].
  inv_bind H. destruct (n_is_leaf v) eqn:EL.
  - injection H as <-. destruct Hin as [->|[]]. reflexivity.
  - inv_bind H. inv_bind H. inv_bind H. injection H as <-. destruct Hin as [->|Hin]; [congruence|].
    specialize (IH _ _ _ _ E2 Hk Hl Hin). destruct v2 as [|a q]; [destruct Hin|]. exact IH.
Qed.
Lemma path_last_in : forall {FS : Floats} nodes row missing fuel i l, path fuel nodes row missing i = Some l -> In (last l 0%nat) l.
Proof.
  intros FS nodes row missing. induction fuel as [|fu IH]; intros i l H; simpl in H; [discriminate|].
  inv_bind H. destruct (n_is_leaf v) eqn:EL; [injection H as <-; simpl; auto|].
  inv_bind H. inv_bind H. inv_bind H. injection H as <-. specialize (IH _ _ E2). destruct v2 as [|a q]; [destruct IH|]. right. exact IH.
Qed.

Lemma leaf_rows : forall {FS : Floats} (data : Matrix F64) missing nodes k n i m, well_formed nodes ->
  predict_leaf nodes data i missing = Some m -> nth_error nodes k = Some n -> n_is_leaf n = true ->
  passes nodes (fun f => m_get data i f) missing k = (n_num m =? k)%nat.
Proof.
  intros FS data missing nodes k n i m W Hm Hk Hl.
  pose proof (path_walk nodes (fun f => m_get data i f) missing (wf_num _ W) (length nodes) 0%nat) as PW.
  unfold predict_leaf in *. unfold passes, full_path.
  destruct (path (length nodes) nodes (fun f => m_get data i f) missing 0) as [l|] eqn:EL.
  - destruct PW as (n' & EW & LL). rewrite Hm in EW. injection EW as <-.
    destruct (Nat.eqb_spec (n_num m) k) as [EQ|NQ].
    + apply existsb_exists. exists k. split; [|apply Nat.eqb_refl]. rewrite <- EQ, <- LL. eapply path_last_in; eauto.
    + destruct (existsb (Nat.eqb k) l) eqn:EX; auto. exfalso. apply existsb_exists in EX. destruct EX as (k' & Hk' & E'). apply Nat.eqb_eq in E'. subst k'.
      apply NQ. rewrite <- LL. eapply path_leaf_last; eauto.
  - rewrite Hm in PW. discriminate.
Qed.
Lemma predict_leaf_at : forall {FS : Floats} (data : Matrix F64) missing nodes i m, well_formed nodes ->
  predict_leaf nodes data i missing = Some m -> n_is_leaf m = true /\ nth_error nodes (n_num m) = Some m.
Proof.
  intros FS data missing nodes i m W H. unfold predict_leaf in H. apply walk_in in H. destruct H as [HL [j Hj]]. split; auto.
  rewrite (wf_num _ W _ _ Hj). auto.
Qed.
Lemma tree_predict_at : forall {FS : Floats} nodes (data : Matrix F64) missing pr, tree_predict nodes data missing = Some pr ->
  m_index data = seq 0 (m_rows data) -> forall i, (i < m_rows data)%nat ->
  exists m, predict_leaf nodes data i missing = Some m /\ nth_error pr i = Some (to64 (n_weight m)).
Proof.
  intros FS nodes data missing pr H HI i Hi. unfold tree_predict in H. rewrite HI in H.
  assert (HN : nth_error (seq 0 (m_rows data)) i = Some i).
  { rewrite (nth_error_nth' _ 0%nat) by (rewrite seq_length; auto). rewrite seq_nth; auto. }
  destruct (mapMn _ _ H _ _ HN) as (v & Hv & Ev). inv_bind Ev. injection Ev as <-. eauto.
Qed.

Lemma grads_at : forall (y yh w : list xr) j, length yh = length y -> length w = length y ->
  (forall v, In v y -> xfin v) -> (forall v, In v yh -> xfin v) -> (forall v, In v w -> xnonneg v) -> (j < length y)%nat ->
  at_ (fst (@calc_grad_hess XF SquaredLoss y yh w)) j = (at_ yh j - at_ y j) * at_ w j /\
  at_ (snd (@calc_grad_hess XF SquaredLoss y yh w)) j = at_ w j.
Proof.
  intros y yh w j L1 L2 F1 F2 F3 Hj. destruct (fin_lists y yh w) as (rs & -> & -> & -> & PW); auto.
  assert (LR' : (j < length rs)%nat) by (unfold ys in Hj; rewrite map_length in Hj; auto).
  assert (NM' : forall (f : R * R * R -> xr), nth j (map f rs) (Fin 0) = f (nth j rs (0, 0, 0))).
  { intros f. rewrite (nth_indep _ _ (f (0, 0, 0))) by (rewrite map_length; lia). apply map_nth. }
  rewrite calc_grad_hess_X. cbn [fst snd]. unfold ys, yhats, ws.
  split.
  - refine (eq_trans (f_equal val (NM' _)) _). rewrite !NM'. destruct (nth j rs (0, 0, 0)) as [[a x] c]. reflexivity.
  - refine (eq_trans (f_equal val (NM' _)) _). rewrite !NM'. destruct (nth j rs (0, 0, 0)) as [[a x] c]. reflexivity.
Qed.

(** *** One tree *)
Section Loss.
Variables (E : @Env XF) (data : Matrix xr) (y w : list xr) (bd : @BinnedData XF) (p : @Params XF).
Hypotheses (SP : sound_params p) (SD : sound_data p data y w) (SE : sound_env E p).
Hypothesis HB : @bin_matrix XF (e_sorts E) data w (p_nbins p) (p_missing p) = Some bd.
Notation rows := (m_rows data).
Notation train cols yh := (@mkTrain XF (matrix_new (b_data bd) rows (m_cols data)) (b_cuts bd)
  (fst (@calc_grad_hess XF (p_objective p) y yh w)) (snd (@calc_grad_hess XF (p_objective p) y yh w)) cols).
Notation leaf_of nodes i := (@predict_leaf XF nodes data i (p_missing p)).


Hypotheses (OBJ : p_objective p = SquaredLoss) (SN : p_sample_method p = SNone) (NM : p_create_missing_branch p = false)
  (NC : p_monotone_constraints p = None).
Variable lr : R.
Hypotheses (LR : p_learning_rate p = Fin lr) (LB : 0 <= lr <= 1).

Lemma tree_loss : forall i yh n cols n' nodes st, length yh = rows -> (forall v, In v yh -> xfin v) ->
  @column_sample XF E p n (m_cols data) = (cols, n') ->
  @tree_fit XF (p_grow_policy p) (e_pick E i) (splitter_of p) (train cols yh) (seq 0 rows)
      (p_max_leaves p) (p_max_depth p) (p_sample_method p) = Some (nodes, st) ->
  forall pr, @tree_predict XF nodes data (p_missing p) = Some pr -> train_loss y (@add_preds XF yh pr) w <= train_loss y yh w.
Proof.
  intros i yh n cols n' nodes st LY FY HC HF pr HP.
  destruct (sd_y _ _ _ _ SD) as [Ly Fy]. destruct (sd_w _ _ _ _ SD) as [Lw Fw]. destruct (sd_matrix _ _ _ _ SD) as (HI & _).
  destruct (grads_sound E data y w bd p SD HB yh LY FY) as [SG RT]. cbv zeta in SG, RT.
  destruct (sample_sound E data y w p SP SD SE 0 _ _ SG RT) as (chosen & grad & hess & n1 & HS & SS).
  unfold sample_index in HS. rewrite SN in HS. injection HS as <- <- <- <-. rewrite HI in SS.
  pose proof (trained_step E data y w bd p SP SD SE HB _ _ _ _ _ _ SS HC) as TD.
  assert (ES : @splitter_of XF p = Imputer (@mkSP XF (p_l1 p) (p_l2 p) (p_max_delta_step p) (p_gamma p) (p_min_leaf_weight p) (p_learning_rate p)
              (p_allow_missing_splits p) [])) by (unfold splitter_of; rewrite NM, NC; reflexivity).
  set (q := mkSP _ _ _ _ _ _ _ _) in ES.
  destruct (sp_l1_ok _ SP) as (l1 & E1 & P1). destruct (sp_l2_ok _ SP) as (l2 & E2 & P2). destruct (sp_mds_ok _ SP) as (mds & E3 & P3).
  pose proof (@fit_well_formed XF _ _ _ _ _ _ _ _ _ _ HF) as W.
  set (gr := fst (@calc_grad_hess XF (p_objective p) y yh w)) in *.
  set (he := snd (@calc_grad_hess XF (p_objective p) y yh w)) in *.
  assert (CP : forall m, In m nodes -> exists h, n_hess m = Fin h /\ 0 < h + l2).
  { eapply (fit_cover_pos _ _ _ _ _ _ _ _ _ _ _ _ _ _ TD l1 l2 mds lr) with (q := q); try (rewrite ES; eassumption); auto.
    - simpl. apply (sg_hess _ _ _ SG).
    - simpl. apply (ss_root _ _ _ _ _ SS). auto.
    - exact HF. }
  assert (GH : forall j, (j < rows)%nat -> at_ gr j = (at_ yh j - at_ y j) * at_ w j /\ at_ he j = at_ w j).
  { intros j Hj. unfold gr, he. rewrite OBJ. apply grads_at; auto; try congruence. }
  assert (AT : forall j, (j < rows)%nat -> exists m, @predict_leaf XF nodes data j (p_missing p) = Some m /\ nth_error pr j = Some (n_weight m)).
  { intros j Hj. exact (@tree_predict_at XF nodes data (p_missing p) pr HP HI j Hj). }
  assert (FIT : forall k m, nth_error nodes k = Some m -> n_is_leaf m = true ->
     let rws := filter (fun j => @passes XF nodes (fun f => m_get data j f) (p_missing p) k) (seq 0 rows) in
     exists t, n_weight m = Fin t /\ sumR (map (fun j => at_ gr j) rws) * t + sumR (map (fun j => at_ he j) rws) / 2 * (t * t) <= 0).
  { intros k m Hk Hl rws.
    pose proof (fit_values _ _ _ _ _ _ _ _ _ _ _ _ _ _ TD q _ _ ES (fun f => ltac:(rewrite ES; reflexivity)) HF k m Hk) as V. cbv zeta in V.
    pose proof (fit_cover _ _ _ _ _ _ _ _ _ _ _ _ _ _ TD _ _ HF k m Hk) as C.
    fold rws in V, C. cbn [tr_grad tr_hess] in V, C. fold gr in V. fold he in V, C.
    destruct (CP m (nth_error_In _ _ Hk)) as (h & Eh & Ph).
    set (G := sumR (map (fun j => at_ gr j) rws)) in *. set (H := sumR (map (fun j => at_ he j) rws)) in *.
    assert (PH : 0 < H + l2) by (rewrite C in Eh; injection Eh as <-; exact Ph).
    destruct (weight_optimal l1 l2 mds G H P1 P2 P3 PH) as (t & ET & _ & OPT).
    cbn [sp_l1 sp_l2 sp_max_delta_step sp_learning_rate q] in V. rewrite E1, E2, E3, LR in V.
    exists (t * lr). split; [rewrite V; change (xmul (@weight XF (Fin l1) (Fin l2) (Fin mds) (Fin G) (Fin H)) (Fin lr) = Fin (t * lr)); rewrite ET; reflexivity|].
    apply (leaf_step l1 l2 G H t lr); auto. apply OPT. right. rewrite Rabs_R0. auto. }
  set (T j := at_ pr j).
  set (key j := match @predict_leaf XF nodes data j (p_missing p) with Some m => n_num m | None => 0%nat end).
  assert (LP : @length xr pr = rows).
  { unfold tree_predict in HP. pose proof (mapM_length _ _ HP) as L. refine (eq_trans L _). refine (eq_trans (f_equal (@length nat) HI) _). apply seq_length. }
  assert (TF : forall j, (j < rows)%nat -> exists m t, @predict_leaf XF nodes data j (p_missing p) = Some m /\ n_is_leaf m = true /\
      nth_error nodes (n_num m) = Some m /\ n_weight m = Fin t /\ nth j pr (Fin 0) = Fin t).
  { intros j Hj. destruct (AT j Hj) as (m & Hm & Ej). destruct (@predict_leaf_at XF data (p_missing p) nodes j m W Hm) as [Q1 Q2].
    destruct (FIT _ _ Q2 Q1) as (t & Et & _). exists m, t. repeat split; auto. rewrite <- Et. apply nth_error_nth. exact Ej. }
  (* the change of the loss, row by row *)
  assert (DIFF : train_loss y (@add_preds XF yh pr) w - train_loss y yh w = 2 * sumR (map (fun j => at_ gr j * T j + at_ he j / 2 * (T j * T j)) (seq 0 rows))).
  { unfold train_loss. rewrite Ly, <- sumR_map_minus, <- sumR_map_scal. apply sumR_map_ext. intros j Hj. apply in_seq in Hj.
    destruct (GH j ltac:(lia)) as [-> ->]. destruct (TF j ltac:(lia)) as (m & t & _ & _ & _ & _ & Et). unfold T. rewrite Et.
    assert (EA : nth j (@add_preds XF yh pr) (Fin 0) = Fin (at_ yh j + t)).
    { rewrite (@add_preds_same XF) by (exact (eq_trans LY (eq_sym LP))). apply nth_error_nth.
      destruct (nth_error yh j) as [v|] eqn:Ev; [|apply nth_error_None in Ev; lia].
      assert (Hp : nth_error pr j = Some (Fin t)) by (rewrite <- Et; apply (@nth_error_nth' xr); rewrite LP; lia).
      rewrite (nth_error_nth _ _ _ Ev). destruct (FY _ (nth_error_In _ _ Ev)) as [r ->]. cbn [val].
      apply (map_nth_error (fun '(a, b) => xadd a b) j (combine yh pr) (d := (Fin r, Fin t))).
      clear - Ev Hp. revert pr j Ev Hp. induction yh as [|a l IH]; intros [|b l'] [|j] Ev Hp; simpl in *; try discriminate; [congruence|auto]. }
    match goal with |- context [val (@nth ?A j (@add_preds XF yh pr) ?d)] => replace (val (@nth A j (@add_preds XF yh pr) d)) with (at_ yh j + t) by (symmetry; exact (f_equal val EA)) end. cbn [val]. field. }
  assert (NEG : sumR (map (fun j => at_ gr j * T j + at_ he j / 2 * (T j * T j)) (seq 0 rows)) <= 0); [|lra].
  rewrite (sum_groups _ key _ (length nodes)).
  2:{ intros j Hj. apply in_seq in Hj. destruct (TF j ltac:(lia)) as (m & t & Hm & _ & Hn & _). unfold key. rewrite Hm. eapply nth_error_Some_lt; eauto. }
  match goal with |- sumR (map ?f _) <= 0 => assert (GR : forall k, f k <= 0) end.
  { intros k. cbv beta. destruct (filter (fun j => (key j =? k)%nat) (seq 0 rows)) as [|j0 js] eqn:EF; [simpl; lra|].
    assert (H0 : In j0 (seq 0 rows) /\ (key j0 =? k)%nat = true) by (apply (filter_In (fun j => (key j =? k)%nat)); rewrite EF; left; auto).
    destruct H0 as [H0 K0]. apply in_seq in H0. destruct (TF j0 ltac:(lia)) as (m & t & Hm & Hl & Hn & Ht & _).
    unfold key in K0. rewrite Hm in K0. apply Nat.eqb_eq in K0. rewrite K0 in Hn.
    assert (FE : filter (fun j => (key j =? k)%nat) (seq 0 rows) = filter (fun j => @passes XF nodes (fun f => m_get data j f) (p_missing p) k) (seq 0 rows)).
    { apply filter_ext_in. intros j Hj. apply in_seq in Hj. destruct (TF j ltac:(lia)) as (m' & t' & Hm' & _).
      refine (eq_trans _ (eq_sym (@leaf_rows XF data (p_missing p) nodes k m j m' W Hm' Hn Hl))). unfold key. rewrite Hm'. reflexivity. }
    destruct (FIT k m Hn Hl) as (t' & Et' & LE). rewrite Ht in Et'. injection Et' as <-. cbv zeta in LE. rewrite <- FE in LE.
    rewrite <- EF. refine (Rle_trans _ _ _ (Req_le _ _ _) LE).
    rewrite Rmult_comm. unfold Rdiv. rewrite Rmult_assoc, (Rmult_comm (sumR _) (/ 2 * (t * t))).
    rewrite <- !sumR_map_scal, <- sumR_map_plus. apply sumR_map_ext. intros j Hj. apply filter_In in Hj. destruct Hj as [Hj Kj].
    apply in_seq in Hj. destruct (TF j ltac:(lia)) as (m' & t2 & Hm' & _ & Hn' & Ht' & Ej).
    unfold key in Kj. rewrite Hm' in Kj. apply Nat.eqb_eq in Kj. rewrite Kj, Hn in Hn'. injection Hn' as <-.
    rewrite Ht in Ht'. injection Ht' as <-. unfold T. rewrite Ej. simpl. ring. }
  match goal with |- sumR (map ?f ?l) <= 0 => set (F := f) in *; generalize l end.
  induction l as [|k ks IH]; [simpl; lra|]. cbn [map]. rewrite sumR_cons. specialize (GR k). lra.
Qed.
End Loss.

(** *** The whole model *)
Lemma firstn_S_nth : forall A (l : list A) k x, nth_error l k = Some x -> firstn (S k) l = firstn k l ++ [x].
Proof.
  intros A. induction l as [|a l IH]; intros [|k] x H; simpl in *; try discriminate; [congruence|]. f_equal. apply IH. auto.
Qed.
Section Model.
Variables (E : @Env XF) (b b' : @Booster XF) (data : Matrix xr) (y w : list xr) (es : option (list (@EvalData XF))) (base : R).
Notation p := (gb_params b).
Hypotheses (SP : sound_params p) (SD : sound_data p data y w) (SE : sound_env E p) (C : @clean XF b).
Hypothesis HBASE : (if p_initialize_base_score p then @calc_init XF (p_objective p) y w else Some (gb_base_score b)) = Some (Fin base).
Hypothesis HFIT : @fit XF E b data y w es = Some (b', None).

Lemma model_steps : exists bd, @bin_matrix XF (e_sorts E) data w (p_nbins p) (p_missing p) = Some bd /\
  gb_params b' = p /\ gb_base_score b' = Fin base /\
  forall k t, nth_error (gb_trees b') k = Some t -> @tree_step XF E data y w bd p (Fin base) k (firstn k (gb_trees b')) t.
Proof.
  destruct (@fit_ok XF _ _ _ _ _ _ _ HFIT) as [_ HF].
  destruct (@fit_trees_BI XF _ _ _ _ _ _ _ C HF) as (bd & base' & l & HB & HBS & -> & B & L & ST).
  assert (base' = Fin base) as -> by (pose proof (eq_trans (eq_sym HBS) HBASE) as Q; injection Q; auto).
  exists bd. split; auto. split; [apply (bi_params _ _ _ _ _ _ _ _ _ _ _ _ _ B)|]. split; [apply (bi_base _ _ _ _ _ _ _ _ _ _ _ _ _ B)|].
  exact (bi_trees _ _ _ _ _ _ _ _ _ _ _ _ _ B).
Qed.

Lemma model_yhat : forall bd, @bin_matrix XF (e_sorts E) data w (p_nbins p) (p_missing p) = Some bd ->
  (forall k t, nth_error (gb_trees b') k = Some t -> @tree_step XF E data y w bd p (Fin base) k (firstn k (gb_trees b')) t) ->
  forall k, (k <= length (gb_trees b'))%nat ->
  (forall j t, (j < k)%nat -> nth_error (gb_trees b') j = Some t -> sound_tree data t) /\
  exists yh, @preds_after XF (p_missing p) (firstn k (gb_trees b')) data (repeat (Fin base) (length y)) = Some yh /\
    length yh = m_rows data /\ forall v, In v yh -> xfin v.
Proof.
  intros bd HB HT. induction k as [|k IH]; intros Hk.
  - split; [intros; lia|]. exists (repeat (Fin base) (length y)). split; [reflexivity|]. rewrite repeat_length. split; [apply (sd_y _ _ _ _ SD)|].
    intros v Hv. apply repeat_spec in Hv. subst. eexists; reflexivity.
  - destruct (IH ltac:(lia)) as (ST & yh & HP & LY & FY).
    destruct (nth_error (gb_trees b') k) as [t|] eqn:Et; [|apply nth_error_None in Et; lia].
    pose proof (HT _ _ Et) as (yh' & n & chosen & grad & hess & n' & cols & n'' & st & P1 & P2 & P3 & P4).
    assert (yh' = yh) as -> by (pose proof (eq_trans (eq_sym P1) HP) as Q; injection Q; auto).
    destruct (grads_sound E data y w bd p SD HB yh LY FY) as [SG RT]. cbv zeta in SG, RT.
    destruct (sample_sound E data y w p SP SD SE n _ _ SG RT) as (chosen' & grad' & hess' & n1 & HS & SS).
    pose proof (eq_trans (eq_sym P2) HS) as Q. injection Q as <- <- <- <-.
    destruct (step_tree E data y w bd p SP SD SE HB k _ _ _ _ _ _ SS P3) as (nodes & st' & HF & TS).
    pose proof (eq_trans (eq_sym P4) HF) as Q. injection Q as <- <-.
    split.
    { intros j t' Hj Ht'. destruct (Nat.eq_dec j k) as [->|]; [|apply (ST j); auto; lia]. rewrite Et in Ht'. injection Ht' as <-. auto. }
    destruct TS as (W & TF & FN). destruct (tree_predict_fin _ _ _ (sd_matrix _ _ _ _ SD) W TF FN) as (pr & HPr & LP & FP).
    exists (@add_preds XF yh pr). split; [|split].
    + rewrite (firstn_S_nth _ _ _ _ Et). refine (eq_trans (@preds_after_snoc XF p _ _ _ _) _). refine (eq_trans (f_equal (fun z => bind z _) HP) _).
      cbn [bind]. refine (eq_trans (f_equal (fun z => bind z _) HPr) _). reflexivity.
    + rewrite (@add_preds_length XF). auto.
    + apply add_preds_fin; auto. exact (eq_trans LY (eq_sym LP)).
Qed.

Theorem model_finite : forall shs par (d : Matrix xr) k, sound_matrix (p_missing p) d -> m_cols d = m_cols data ->
  (k <= length (gb_trees b'))%nat ->
  exists yh, @predict XF shs (@model_prefix XF b' k) d par = Some yh /\ length yh = m_rows d /\ forall v, In v yh -> xfin v.
Proof.
  intros shs par d k SM SC Hk. destruct model_steps as (bd & HB & EP & EB & HT).
  destruct (model_yhat bd HB HT _ (le_n _)) as [ST _].
  rewrite (@predict_prefix XF) by auto. rewrite EP, EB.
  induction k as [|k IH].
  - exists (repeat (Fin base) (m_rows d)). split; [reflexivity|]. rewrite repeat_length. split; auto. intros v Hv. apply repeat_spec in Hv. subst. eexists; reflexivity.
  - destruct (IH ltac:(lia)) as (yh & HP & LY & FY).
    destruct (nth_error (gb_trees b') k) as [t|] eqn:Et; [|apply nth_error_None in Et; lia].
    destruct (ST k t ltac:(lia) Et) as (W & TF & FN). rewrite <- SC in TF.
    destruct (tree_predict_fin _ _ _ SM W TF FN) as (pr & HPr & LP & FP).
    exists (@add_preds XF yh pr). split; [|split].
    + rewrite (firstn_S_nth _ _ _ _ Et). refine (eq_trans (@preds_after_snoc XF p _ _ _ _) _). refine (eq_trans (f_equal (fun z => bind z _) HP) _).
      cbn [bind]. refine (eq_trans (f_equal (fun z => bind z _) HPr) _). reflexivity.
    + rewrite (@add_preds_length XF). auto.
    + apply add_preds_fin; auto. exact (eq_trans LY (eq_sym LP)).
Qed.

Theorem loss_step : p_objective p = SquaredLoss -> p_sample_method p = SNone -> p_create_missing_branch p = false ->
  p_monotone_constraints p = None -> forall lr, p_learning_rate p = Fin lr -> 0 <= lr <= 1 ->
  forall shs par k, (k < length (gb_trees b'))%nat ->
  exists before after, @predict XF shs (@model_prefix XF b' k) data par = Some before /\
    @predict XF shs (@model_prefix XF b' (k + 1)) data par = Some after /\ train_loss y after w <= train_loss y before w.
Proof.
  intros OBJ SN NM NC lr LR LB shs par k Hk. destruct model_steps as (bd & HB & EP & EB & HT).
  destruct (model_yhat bd HB HT k ltac:(lia)) as (_ & yh & HP & LY & FY).
  destruct (nth_error (gb_trees b') k) as [t|] eqn:Et; [|apply nth_error_None in Et; lia].
  destruct (model_yhat bd HB HT _ (le_n _)) as [ST _]. destruct (ST k t Hk Et) as (W & TF & FN).
  destruct (tree_predict_fin _ _ _ (sd_matrix _ _ _ _ SD) W TF FN) as (pr & HPr & LP & FP).
  exists yh, (@add_preds XF yh pr). rewrite !(@predict_prefix XF) by lia. rewrite EP, EB.
  pose proof HP as HP0. rewrite (proj1 (sd_y _ _ _ _ SD)) in HP. split; [exact HP|]. split.
  - rewrite Nat.add_1_r, (firstn_S_nth _ _ _ _ Et). refine (eq_trans (@preds_after_snoc XF p _ _ _ _) _). refine (eq_trans (f_equal (fun z => bind z _) HP) _).
    cbn [bind]. refine (eq_trans (f_equal (fun z => bind z _) HPr) _). reflexivity.
  - pose proof (HT _ _ Et) as (yh' & n & chosen & grad & hess & n' & cols & n'' & st & P1 & P2 & P3 & P4).
    assert (yh' = yh) as -> by (pose proof (eq_trans (eq_sym P1) HP0) as Q; injection Q; auto).
    destruct (sd_matrix _ _ _ _ SD) as (HI & _).
    unfold sample_index in P2. rewrite SN in P2. injection P2 as <- <- <- <-. rewrite HI in P4.
    eapply (tree_loss E data y w bd p SP SD SE HB OBJ SN NM NC lr LR LB); eauto.
Qed.
End Model.
