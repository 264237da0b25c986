(** Squared loss in exact arithmetic: what the leaves of one tree do to the training predictions, leaf by leaf.
    Consequences: the mean error shrinks by a known factor per tree, and one tree stays within the range of the targets. *)
From Coq Require Import Reals Lra List Arith NArith Lia Bool Permutation Sorting.
From Flocq Require Import Core.Raux.
From Verif Require Import Prelude Float FloatX FloatLaws OrdProofs Data DataProofs Utils UtilsX PivotProofs Binning BinningProofs CutProofs BinMatrix Histogram Node Splitter
  Tree TreeWf TreeProofs FitProofs PathProofs RouteX RouteFit NoPanic Objective Metric Sampler SamplerProofs MetricX ObjectiveX Booster
  PredictProofs BoostProofs FitModel FinX BoostX LossX.
Import ListNotations.
Local Open Scope R_scope.

(** Σ w (y - f) over the rows *)
Definition total_error (y yh w : list xr) : R := sumR (map (fun j => at_ w j * (at_ y j - at_ yh j)) (seq 0 (length y))).

Section Groups.
Variables (E : @Env XF) (data : Matrix xr) (y w : list xr) (bd : @BinnedData XF) (p : @Params XF).
Hypotheses (SP : sound_params p) (SD : sound_data p data y w) (SE : sound_env E p).
Hypothesis HB : @bin_matrix XF (e_sorts E) data w (p_nbins p) (p_missing p) = Some bd.
Notation rows := (m_rows data).
Notation train cols yh := (@mkTrain XF (matrix_new (b_data bd) rows (m_cols data)) (b_cuts bd)
  (fst (@calc_grad_hess XF (p_objective p) y yh w)) (snd (@calc_grad_hess XF (p_objective p) y yh w)) cols).

Hypotheses (SN : p_sample_method p = SNone) (NM : p_create_missing_branch p = false) (NC : p_monotone_constraints p = None).
Variables (lr l1 l2 mds : R).
Hypotheses (LR : p_learning_rate p = Fin lr) (E1 : p_l1 p = Fin l1) (E2 : p_l2 p = Fin l2) (E3 : p_max_delta_step p = Fin mds)
  (P1 : 0 <= l1) (P2 : 0 <= l2) (P3 : 0 <= mds).

(** The value of a leaf is the learning rate times the Newton step of the training rows that reach it. *)
Lemma tree_leaves : forall i yh n cols n' nodes st, length yh = rows -> (forall v, In v yh -> xfin v) ->
  @column_sample XF E p n (m_cols data) = (cols, n') ->
  @tree_fit XF (p_grow_policy p) (e_pick E i) (splitter_of p) (train cols yh) (seq 0 rows)
      (p_max_leaves p) (p_max_depth p) (p_sample_method p) = Some (nodes, st) ->
  let gr := fst (@calc_grad_hess XF (p_objective p) y yh w) in
  let he := snd (@calc_grad_hess XF (p_objective p) y yh w) in
  forall k m, nth_error nodes k = Some m -> n_is_leaf m = true ->
     let rws := filter (fun j => @passes XF nodes (fun f => m_get data j f) (p_missing p) k) (seq 0 rows) in
     let G := sumR (map (fun j => at_ gr j) rws) in let H := sumR (map (fun j => at_ he j) rws) in
     0 < H + l2 /\ exists t, @weight XF (Fin l1) (Fin l2) (Fin mds) (Fin G) (Fin H) = Fin t /\ n_weight m = Fin (t * lr).
Proof.
  intros i yh n cols n' nodes st LY FY HC HF gr he.
  destruct (sd_y _ _ _ _ SD) as [Ly Fy]. destruct (sd_w _ _ _ _ SD) as [Lw Fw]. destruct (sd_matrix _ _ _ _ SD) as (HI & _).
  destruct (grads_sound E data y w bd p SD HB yh LY FY) as [SG RT]. cbv zeta in SG, RT.
  destruct (sample_sound E data y w p SP SD SE 0 _ _ SG RT) as (chosen & grad & hess & n1 & HS & SS).
  unfold sample_index in HS. rewrite SN in HS. injection HS as <- <- <- <-. rewrite HI in SS.
  pose proof (trained_step E data y w bd p SP SD SE HB _ _ _ _ _ _ SS HC) as TD.
  assert (ES : @splitter_of XF p = Imputer (@mkSP XF (p_l1 p) (p_l2 p) (p_max_delta_step p) (p_gamma p) (p_min_leaf_weight p) (p_learning_rate p)
              (p_allow_missing_splits p) [])) by (unfold splitter_of; rewrite NM, NC; reflexivity).
  set (q := mkSP _ _ _ _ _ _ _ _) in ES.
  pose proof (@fit_well_formed XF _ _ _ _ _ _ _ _ _ _ HF) as W.
  fold gr in SS, TD, HF, SG. fold he in SS, TD, HF, SG.
  assert (CP : forall m, In m nodes -> exists h, n_hess m = Fin h /\ 0 < h + l2).
  { eapply (fit_cover_pos _ _ _ _ _ _ _ _ _ _ _ _ _ _ TD l1 l2 mds lr) with (q := q); try (rewrite ES; eassumption); auto.
    - simpl. apply (sg_hess _ _ _ SG).
    - simpl. apply (ss_root _ _ _ _ _ SS). auto.
    - exact HF. }
  intros k m Hk Hl rws G H.
    pose proof (fit_values _ _ _ _ _ _ _ _ _ _ _ _ _ _ TD q _ _ ES (fun f => ltac:(rewrite ES; reflexivity)) HF k m Hk) as V. cbv zeta in V.
    pose proof (fit_cover _ _ _ _ _ _ _ _ _ _ _ _ _ _ TD _ _ HF k m Hk) as C.
    fold rws in V, C. cbn [tr_grad tr_hess] in V, C. fold G in V. fold H in V, C.
    destruct (CP m (nth_error_In _ _ Hk)) as (h & Eh & Ph).
    assert (PH : 0 < H + l2) by (rewrite C in Eh; injection Eh as <-; exact Ph).
    split; [exact PH|].
    destruct (weight_optimal l1 l2 mds G H P1 P2 P3 PH) as (t & ET & _).
    cbn [sp_l1 sp_l2 sp_max_delta_step sp_learning_rate q] in V. rewrite E1, E2, E3, LR in V.
    exists t. split; [exact ET|]. rewrite V. change (xmul (@weight XF (Fin l1) (Fin l2) (Fin mds) (Fin G) (Fin H)) (Fin lr) = Fin (t * lr)). rewrite ET. reflexivity.
Qed.

(** The rows of the training data fall into groups, one per leaf reached, and the value a group receives is the
    learning rate times the Newton step of the group. *)
Lemma tree_groups : forall i yh n cols n' nodes st, length yh = rows -> (forall v, In v yh -> xfin v) ->
  @column_sample XF E p n (m_cols data) = (cols, n') ->
  @tree_fit XF (p_grow_policy p) (e_pick E i) (splitter_of p) (train cols yh) (seq 0 rows)
      (p_max_leaves p) (p_max_depth p) (p_sample_method p) = Some (nodes, st) ->
  forall pr, @tree_predict XF nodes data (p_missing p) = Some pr ->
  let gr := fst (@calc_grad_hess XF (p_objective p) y yh w) in
  let he := snd (@calc_grad_hess XF (p_objective p) y yh w) in
  @length xr pr = rows /\
  exists key : nat -> nat, (forall j, (j < rows)%nat -> (key j < length nodes)%nat) /\
  forall j0, (j0 < rows)%nat -> let grp := filter (fun j => (key j =? key j0)%nat) (seq 0 rows) in
    let G := sumR (map (fun j => at_ gr j) grp) in let H := sumR (map (fun j => at_ he j) grp) in
    0 < H + l2 /\ exists t, @weight XF (Fin l1) (Fin l2) (Fin mds) (Fin G) (Fin H) = Fin t /\
      forall j, In j grp -> nth j pr (Fin 0) = Fin (t * lr).
Proof.
  intros i yh n cols n' nodes st LY FY HC HF pr HP gr he.
  destruct (sd_matrix _ _ _ _ SD) as (HI & _).
  pose proof (@fit_well_formed XF _ _ _ _ _ _ _ _ _ _ HF) as W.
  pose proof (tree_leaves i yh n cols n' nodes st LY FY HC HF) as FIT. cbv zeta in FIT. fold gr he in FIT.
  assert (AT : forall j, (j < rows)%nat -> exists m, @predict_leaf XF nodes data j (p_missing p) = Some m /\ nth_error pr j = Some (n_weight m)).
  { intros j Hj. exact (@tree_predict_at XF nodes data (p_missing p) pr HP HI j Hj). }
  split.
  { unfold tree_predict in HP. pose proof (mapM_length _ _ HP) as L. refine (eq_trans L _). refine (eq_trans (f_equal (@length nat) HI) _). apply seq_length. }
  set (key j := match @predict_leaf XF nodes data j (p_missing p) with Some m => n_num m | None => 0%nat end).
  assert (TF : forall j, (j < rows)%nat -> exists m, @predict_leaf XF nodes data j (p_missing p) = Some m /\ n_is_leaf m = true /\
      nth_error nodes (key j) = Some m /\ nth j pr (Fin 0) = n_weight m /\ key j = n_num m).
  { intros j Hj. destruct (AT j Hj) as (m & Hm & Ej). destruct (@predict_leaf_at XF data (p_missing p) nodes j m W Hm) as [Q1 Q2].
    exists m. unfold key. rewrite Hm. repeat split; auto. exact (nth_error_nth _ _ _ Ej). }
  exists key. split.
  { intros j Hj. destruct (TF j Hj) as (m & _ & _ & Hn & _). eapply nth_error_Some_lt; eauto. }
  intros j0 H0 grp G H. destruct (TF j0 H0) as (m & Hm & Hl & Hn & Ht & _).
  assert (FE : grp = filter (fun j => @passes XF nodes (fun f => m_get data j f) (p_missing p) (key j0)) (seq 0 rows)).
  { apply filter_ext_in. intros j Hj. apply in_seq in Hj. destruct (TF j ltac:(lia)) as (m' & Hm' & _ & _ & _ & Kj).
    refine (eq_trans _ (eq_sym (@leaf_rows XF data (p_missing p) nodes (key j0) m j m' W Hm' Hn Hl))). rewrite Kj. reflexivity. }
  destruct (FIT _ m Hn Hl) as (PH & t & Et & EW). cbv zeta in PH, Et. rewrite <- FE in PH, Et.
  split; [exact PH|]. exists t. split; [exact Et|].
  intros j Hj. apply filter_In in Hj. destruct Hj as [Hj Kj]. apply in_seq in Hj. apply Nat.eqb_eq in Kj.
  destruct (TF j ltac:(lia)) as (m' & _ & _ & Hn' & Ej & _). rewrite Kj, Hn in Hn'. injection Hn' as <-. exact (eq_trans Ej EW).
Qed.
End Groups.

(** The Newton step lies between zero and the unregularised step. *)
Lemma weight_between : forall l1 l2 mds G H t, 0 <= l1 -> 0 <= mds -> 0 < H + l2 ->
  @weight XF (Fin l1) (Fin l2) (Fin mds) (Fin G) (Fin H) = Fin t ->
  (0 <= G -> t <= 0 /\ - G <= t * (H + l2)) /\ (G <= 0 -> 0 <= t /\ t * (H + l2) <= - G).
Proof.
  intros l1 l2 mds G H t L1 M A EW. destruct (weight_X l1 l2 mds G H L1 M A) as (v & Ev & C). rewrite Ev in EW. injection EW as ->. cbv zeta in C.
  set (u := - (soft G l1 / (H + l2))) in *.
  assert (EU : u * (H + l2) = - soft G l1) by (unfold u; field; lra).
  assert (SF : (0 <= G -> 0 <= soft G l1 <= G) /\ (G <= 0 -> G <= soft G l1 <= 0)) by (unfold soft; repeat rcase; split; intros; lra).
  assert (UB : (0 <= G -> u <= 0 /\ - G <= u * (H + l2)) /\ (G <= 0 -> 0 <= u /\ u * (H + l2) <= - G)).
  { split; intros HG; [pose proof (proj1 SF HG)|pose proof (proj2 SF HG)]; split; try lra; nra. }
  destruct C as [[_ ->]|(C1 & C2 & ->)]; [exact UB|].
  split; intros HG; [destruct (proj1 UB HG) as [U1 U2]|destruct (proj2 UB HG) as [U1 U2]].
  - destruct (Rlt_boolP u 0) as [[-> Q]|[-> Q]]; [|rewrite Rabs_right in C2 by lra; lra].
    rewrite Rabs_left in C2 by lra. split; [lra|nra].
  - destruct (Rlt_boolP u 0) as [[-> Q]|[-> Q]]; [lra|]. rewrite Rabs_right in C2 by lra. split; [lra|nra].
Qed.

Lemma weight_newton : forall G H t, 0 < H -> @weight XF (Fin 0) (Fin 0) (Fin 0) (Fin G) (Fin H) = Fin t -> H * t = - G.
Proof.
  intros G H t A EW. destruct (weight_X 0 0 0 G H ltac:(lra) ltac:(lra) ltac:(lra)) as (v & Ev & C). rewrite Ev in EW. injection EW as ->. cbv zeta in C.
  assert (soft G 0 = G) as S0 by (unfold soft; repeat rcase; lra). rewrite S0 in C. destruct C as [[_ ->]|[C _]]; [|lra]. field. lra.
Qed.

Lemma sumR_zero : forall (f : nat -> R) l, (forall k, In k l -> f k = 0) -> sumR (map f l) = 0.
Proof. intros f. induction l as [|k l IH]; intros H; [reflexivity|]. cbn [map]. rewrite sumR_cons, IH by (intros; apply H; right; auto). rewrite (H k) by (left; auto). lra. Qed.

Section Steps.
Variables (E : @Env XF) (data : Matrix xr) (y w : list xr) (bd : @BinnedData XF) (p : @Params XF).
Hypotheses (SP : sound_params p) (SD : sound_data p data y w) (SE : sound_env E p).
Hypothesis HB : @bin_matrix XF (e_sorts E) data w (p_nbins p) (p_missing p) = Some bd.
Notation rows := (m_rows data).
Notation train cols yh := (@mkTrain XF (matrix_new (b_data bd) rows (m_cols data)) (b_cuts bd)
  (fst (@calc_grad_hess XF (p_objective p) y yh w)) (snd (@calc_grad_hess XF (p_objective p) y yh w)) cols).
Hypotheses (OBJ : p_objective p = SquaredLoss) (SN : p_sample_method p = SNone) (NM : p_create_missing_branch p = false) (NC : p_monotone_constraints p = None).
Variable lr : R.
Hypothesis (LR : p_learning_rate p = Fin lr).

Lemma add_at : forall (yh pr : list xr) j t, length yh = length pr -> (forall v, In v yh -> xfin v) -> (j < length yh)%nat ->
  nth j pr (Fin 0) = Fin t -> at_ (@add_preds XF yh pr) j = at_ yh j + t.
Proof.
  intros yh pr j t L FY Hj Et.
  assert (EA : nth j (@add_preds XF yh pr) (Fin 0) = Fin (at_ yh j + t)); [|exact (f_equal val EA)].
  rewrite (@add_preds_same XF) by exact L. apply nth_error_nth.
  destruct (nth_error yh j) as [v|] eqn:Ev; [|apply nth_error_None in Ev; lia].
  assert (Hp : nth_error pr j = Some (Fin t)) by (rewrite <- Et; apply (@nth_error_nth' xr); lia).
  rewrite (nth_error_nth _ _ _ Ev). destruct (FY _ (nth_error_In _ _ Ev)) as [r ->]. cbn [val].
  apply (map_nth_error (fun '(a, b) => xadd a b) j (combine yh pr) (d := (Fin r, Fin t))).
  clear - Ev Hp. revert pr j Ev Hp. induction yh as [|a l IH]; intros [|b l'] [|j] Ev Hp; simpl in *; try discriminate; [congruence|auto].
Qed.

(** *** Without regularisation a tree multiplies the total error by 1 - learning rate. *)
Lemma tree_error : p_l1 p = Fin 0 -> p_l2 p = Fin 0 -> p_max_delta_step p = Fin 0 ->
  forall i yh n cols n' nodes st, length yh = rows -> (forall v, In v yh -> xfin v) ->
  @column_sample XF E p n (m_cols data) = (cols, n') ->
  @tree_fit XF (p_grow_policy p) (e_pick E i) (splitter_of p) (train cols yh) (seq 0 rows)
      (p_max_leaves p) (p_max_depth p) (p_sample_method p) = Some (nodes, st) ->
  forall pr, @tree_predict XF nodes data (p_missing p) = Some pr ->
  total_error y (@add_preds XF yh pr) w = (1 - lr) * total_error y yh w.
Proof.
  intros E1 E2 E3 i yh n cols n' nodes st LY FY HC HF pr HP.
  destruct (sd_y _ _ _ _ SD) as [Ly Fy]. destruct (sd_w _ _ _ _ SD) as [Lw Fw].
  destruct (tree_groups E data y w bd p SP SD SE HB SN NM NC lr 0 0 0 LR E1 E2 E3 ltac:(lra) ltac:(lra) ltac:(lra) i yh n cols n' nodes st LY FY HC HF pr HP)
    as (LP & key & KB & GR). cbv zeta in GR.
  set (gr := fst (@calc_grad_hess XF (p_objective p) y yh w)) in *.
  set (he := snd (@calc_grad_hess XF (p_objective p) y yh w)) in *.
  assert (GH : forall j, (j < rows)%nat -> at_ gr j = (at_ yh j - at_ y j) * at_ w j /\ at_ he j = at_ w j).
  { intros j Hj. unfold gr, he. rewrite OBJ. apply grads_at; auto; try congruence. }
  set (T j := at_ pr j).
  assert (TV : forall j, (j < rows)%nat -> nth j pr (Fin 0) = Fin (T j)).
  { intros j Hj. destruct (GR j Hj) as (_ & t & _ & Ht). specialize (Ht j). rewrite filter_In, Nat.eqb_refl, in_seq in Ht. specialize (Ht ltac:(split; [lia|auto])).
    unfold T. rewrite Ht. reflexivity. }
  assert (D : total_error y (@add_preds XF yh pr) w - (1 - lr) * total_error y yh w =
              - sumR (map (fun j => lr * at_ gr j + at_ he j * T j) (seq 0 rows))).
  { unfold total_error. rewrite Ly, <- sumR_map_scal, <- sumR_map_minus.
    rewrite <- (Rmult_1_l (sumR (map (fun j => lr * _ + _) _))), Ropp_mult_distr_l, <- sumR_map_scal.
    apply sumR_map_ext. intros j Hj. apply in_seq in Hj. destruct (GH j ltac:(lia)) as [-> ->].
    pose proof (add_at yh pr j (T j) (eq_trans LY (eq_sym LP)) FY ltac:(lia) (TV j ltac:(lia))) as EA.
    match goal with |- context [val (@nth ?A j (@add_preds XF yh pr) ?d)] => replace (val (@nth A j (@add_preds XF yh pr) d)) with (at_ yh j + T j) by (symmetry; exact EA) end. ring. }
  assert (Z : sumR (map (fun j => lr * at_ gr j + at_ he j * T j) (seq 0 rows)) = 0); [|lra].
  rewrite (sum_groups _ key _ (length nodes)) by (intros j Hj; apply in_seq in Hj; apply KB; lia).
  apply sumR_zero. intros k _.
  destruct (filter (fun j => (key j =? k)%nat) (seq 0 rows)) as [|j0 js] eqn:EF; [reflexivity|].
  assert (H0 : In j0 (seq 0 rows) /\ (key j0 =? k)%nat = true) by (apply (filter_In (fun j => (key j =? k)%nat)); rewrite EF; left; auto).
  destruct H0 as [H0 K0]. apply in_seq in H0. apply Nat.eqb_eq in K0. rewrite <- EF, <- K0.
  destruct (GR j0 ltac:(lia)) as (PH & t & ET & VT). rewrite Rplus_0_r in PH. pose proof (weight_newton _ _ _ PH ET) as NW.
  set (grp := filter (fun j => (key j =? key j0)%nat) (seq 0 rows)) in *.
  transitivity (lr * sumR (map (fun j => at_ gr j) grp) + (t * lr) * sumR (map (fun j => at_ he j) grp)).
  - rewrite <- !sumR_map_scal, <- sumR_map_plus. apply sumR_map_ext. intros j Hj. unfold T. rewrite (VT j Hj). simpl. ring.
  - replace ((t * lr) * sumR (map (fun j => at_ he j) grp)) with (lr * (sumR (map (fun j => at_ he j) grp) * t)) by ring. rewrite NW. ring.
Qed.

(** *** A tree grown from a constant stays between any two bounds of the targets and the constant. *)
Lemma sumR_bounds : forall (f g : nat -> R) l, (forall k, In k l -> f k <= g k) -> sumR (map f l) <= sumR (map g l).
Proof. intros f g. induction l as [|k l IH]; intros H; [apply Rle_refl|]. cbn [map]. rewrite !sumR_cons. pose proof (H k (or_introl eq_refl)). specialize (IH (fun j Hj => H j (or_intror Hj))). lra. Qed.

Lemma first_range : forall l1 l2 mds, p_l1 p = Fin l1 -> p_l2 p = Fin l2 -> p_max_delta_step p = Fin mds -> 0 <= lr <= 1 ->
  forall base lo hi, lo <= base <= hi -> (forall j, (j < rows)%nat -> lo <= at_ y j <= hi) ->
  forall i n cols n' nodes st,
  @column_sample XF E p n (m_cols data) = (cols, n') ->
  @tree_fit XF (p_grow_policy p) (e_pick E i) (splitter_of p) (train cols (repeat (Fin base) rows)) (seq 0 rows)
      (p_max_leaves p) (p_max_depth p) (p_sample_method p) = Some (nodes, st) ->
  forall m, In m nodes -> n_is_leaf m = true -> exists v, n_weight m = Fin v /\ lo <= base + v <= hi.
Proof.
  intros l1 l2 mds E1 E2 E3 LB base lo hi BB YB i n cols n' nodes st HC HF m Hm Hl.
  destruct (sp_l1_ok _ SP) as (r1 & Q1 & P1). rewrite E1 in Q1. injection Q1 as <-.
  destruct (sp_l2_ok _ SP) as (r2 & Q2 & P2). rewrite E2 in Q2. injection Q2 as <-.
  destruct (sp_mds_ok _ SP) as (r3 & Q3 & P3). rewrite E3 in Q3. injection Q3 as <-.
  destruct (sd_y _ _ _ _ SD) as [Ly Fy]. destruct (sd_w _ _ _ _ SD) as [Lw Fw].
  set (yh := repeat (Fin base) rows) in *.
  assert (LY : length yh = rows) by apply repeat_length.
  assert (FY : forall v, In v yh -> xfin v) by (intros v Hv; apply repeat_spec in Hv; subst; eexists; reflexivity).
  destruct (In_nth_error _ _ Hm) as [k Hk].
  destruct (tree_leaves E data y w bd p SP SD SE HB SN NM NC lr l1 l2 mds LR E1 E2 E3 P1 P2 P3 i yh n cols n' nodes st LY FY HC HF k m Hk Hl)
    as (PH & t & ET & EW).
  destruct (weight_between _ _ _ _ _ _ P1 P3 PH ET) as [W1 W2]. exists (t * lr). split; [exact EW|].
  set (rws := filter _ (seq 0 rows)) in *.
  assert (RW : forall j, In j rws -> (j < rows)%nat) by (intros j Hj; apply filter_In in Hj; destruct Hj as [Hj _]; apply in_seq in Hj; lia).
  set (gr := fst (@calc_grad_hess XF (p_objective p) y yh w)) in *.
  set (he := snd (@calc_grad_hess XF (p_objective p) y yh w)) in *.
  assert (GH : forall j, (j < rows)%nat -> at_ gr j = (base - at_ y j) * at_ w j /\ at_ he j = at_ w j /\ 0 <= at_ w j).
  { intros j Hj. destruct (grads_at y yh w j) as [A1 A2]; auto; try congruence; try lia.
    unfold gr, he. rewrite OBJ. split; [|split]; [|exact A2|].
    - refine (eq_trans A1 _). f_equal. f_equal. unfold yh. rewrite (nth_indep _ (Fin 0) (Fin base)) by (rewrite repeat_length; lia). rewrite nth_repeat. reflexivity.
    - destruct (Fw (nth j w (Fin 0))) as (r & Er & Pr); [apply nth_In; lia|]. rewrite Er. exact Pr. }
  set (G := sumR (map (fun j => at_ gr j) rws)) in *. set (H := sumR (map (fun j => at_ he j) rws)) in *.
  assert (HN : 0 <= H).
  { unfold H. refine (Rle_trans _ _ _ (Req_le _ _ (eq_sym (sumR_zero (fun _ => 0) rws (fun _ _ => eq_refl)))) _).
    apply sumR_bounds. intros j Hj. destruct (GH j (RW j Hj)) as (_ & -> & Q). exact Q. }
  assert (GU : G <= (base - lo) * H).
  { unfold G, H. rewrite <- sumR_map_scal. apply sumR_bounds. intros j Hj. destruct (GH j (RW j Hj)) as (-> & -> & Q). pose proof (YB j (RW j Hj)). nra. }
  assert (GL : (base - hi) * H <= G).
  { unfold G, H. rewrite <- sumR_map_scal. apply sumR_bounds. intros j Hj. destruct (GH j (RW j Hj)) as (-> & -> & Q). pose proof (YB j (RW j Hj)). nra. }
  destruct (Rle_lt_dec 0 G) as [HG|HG].
  - destruct (W1 HG) as [T1 T2].
    assert (TB : lo - base <= t).
    { apply Rmult_le_reg_r with (H + l2); [lra|]. refine (Rle_trans _ _ _ _ T2). nra. }
    split; nra.
  - destruct (W2 ltac:(lra)) as [T1 T2].
    assert (TB : t <= hi - base).
    { apply Rmult_le_reg_r with (H + l2); [lra|]. refine (Rle_trans _ _ _ T2 _). nra. }
    split; nra.
Qed.
End Steps.

(** *** The whole model *)
Section Model.
Variables (E : @Env XF) (b b' : @Booster XF) (data : Matrix xr) (y w : list xr) (es : option (list (@EvalData XF))) (base : R).
Notation p := (gb_params b).
Hypotheses (SP : sound_params p) (SD : sound_data p data y w) (SE : sound_env E p) (C : @clean XF b).
Hypothesis HBASE : (if p_initialize_base_score p then @calc_init XF (p_objective p) y w else Some (gb_base_score b)) = Some (Fin base).
Hypothesis HFIT : @fit XF E b data y w es = Some (b', None).
Hypotheses (OBJ : p_objective p = SquaredLoss) (SN : p_sample_method p = SNone) (NM : p_create_missing_branch p = false) (NC : p_monotone_constraints p = None).
Variable lr : R.
Hypothesis (LR : p_learning_rate p = Fin lr).

Lemma error_step : p_l1 p = Fin 0 -> p_l2 p = Fin 0 -> p_max_delta_step p = Fin 0 ->
  forall shs par k before after, (k < length (gb_trees b'))%nat ->
  @predict XF shs (@model_prefix XF b' k) data par = Some before ->
  @predict XF shs (@model_prefix XF b' (S k)) data par = Some after ->
  total_error y after w = (1 - lr) * total_error y before w.
Proof.
  intros E1 E2 E3 shs par k before after Hk HB1 HA1. destruct (model_steps E b b' data y w es base C HBASE HFIT) as (bd & HB & EP & EB & HT).
  pose proof (model_yhat E b b' data y w base SP SD SE) as MY.
  destruct (MY bd HB HT k ltac:(lia)) as (_ & yh & HP & LY & FY).
  destruct (nth_error (gb_trees b') k) as [t|] eqn:Et; [|apply nth_error_None in Et; lia].
  destruct (MY bd HB HT _ (le_n _)) as [ST _]. destruct (ST k t Hk Et) as (W & TF & FN).
  destruct (tree_predict_fin _ _ _ (sd_matrix _ _ _ _ SD) W TF FN) as (pr & HPr & LP & FP).
  rewrite !(@predict_prefix XF) in HB1, HA1 by lia. rewrite EP, EB in HB1, HA1.
  pose proof HP as HP0. rewrite (proj1 (sd_y _ _ _ _ SD)) in HP.
  pose proof (eq_trans (eq_sym HB1) HP) as Q. injection Q as ->.
  rewrite (firstn_S_nth _ _ _ _ Et) in HA1. pose proof (eq_trans (eq_sym (@preds_after_snoc XF p _ _ _ _)) HA1) as HA2.
  pose proof (eq_trans (eq_sym (f_equal (fun z => bind z _) HP)) HA2) as HA3. cbn [bind] in HA3.
  pose proof (eq_trans (eq_sym (f_equal (fun z => bind z _) HPr)) HA3) as HA4. cbn [bind] in HA4. injection HA4 as <-.
  pose proof (HT _ _ Et) as (yh' & n & chosen & grad & hess & n' & cols & n'' & st & P1 & P2 & P3 & P4).
  assert (yh' = yh) as -> by (pose proof (eq_trans (eq_sym P1) HP0) as Q; injection Q; auto).
  destruct (sd_matrix _ _ _ _ SD) as (HI & _).
  unfold sample_index in P2. rewrite SN in P2. injection P2 as <- <- <- <-. rewrite HI in P4.
  eapply (tree_error E data y w bd p SP SD SE HB OBJ SN NM NC lr LR E1 E2 E3); eauto.
Qed.

Theorem error_after : p_l1 p = Fin 0 -> p_l2 p = Fin 0 -> p_max_delta_step p = Fin 0 ->
  forall shs par k yh, (k <= length (gb_trees b'))%nat ->
  @predict XF shs (@model_prefix XF b' k) data par = Some yh ->
  total_error y yh w = (1 - lr) ^ k * total_error y (repeat (Fin base) (length y)) w.
Proof.
  intros E1 E2 E3 shs par. induction k as [|k IH]; intros yh Hk HP.
  - rewrite (@predict_prefix XF) in HP by lia. cbn [firstn] in HP. destruct (model_steps E b b' data y w es base C HBASE HFIT) as (bd & _ & _ & EB & _).
    rewrite EB in HP. cbn in HP. injection HP as <-. rewrite (proj1 (sd_y _ _ _ _ SD)). simpl. ring.
  - destruct (model_finite E b b' data y w es base SP SD SE C HBASE HFIT shs par data k (sd_matrix _ _ _ _ SD) eq_refl ltac:(lia)) as (yk & HK & _).
    rewrite (error_step E1 E2 E3 shs par k yk yh ltac:(lia) HK HP), (IH yk ltac:(lia) HK). simpl. ring.
Qed.

(** Started from the mean of the targets the total error is zero, and stays zero. *)
Lemma base_mean : p_initialize_base_score p = true ->
  let N := sumR (map (fun j => at_ w j) (seq 0 (length y))) in
  0 < N /\ base * N = sumR (map (fun j => at_ w j * at_ y j) (seq 0 (length y))).
Proof.
  intros IN N. rewrite IN, OBJ in HBASE. destruct (sd_y _ _ _ _ SD) as [Ly Fy]. destruct (sd_w _ _ _ _ SD) as [Lw Fw].
  destruct (fin_lists y y w) as (rs & Ey & _ & Ew & PW); auto; try congruence.
  set (l := map (fun r : R * R * R => (fst (fst r), snd r)) rs).
  assert (E1 : y = map (fun q => Fin (fst q)) l) by (rewrite Ey; unfold ys, l; rewrite map_map; apply map_ext; intros [[a c] d]; reflexivity).
  assert (E2 : w = map (fun q => Fin (snd q)) l) by (rewrite Ew; unfold ws, l; rewrite map_map; apply map_ext; intros [[a c] d]; reflexivity).
  assert (PL : forall q, In q l -> 0 <= snd q) by (intros q Hq; apply in_map_iff in Hq; destruct Hq as (r & <- & Hr); exact (PW r Hr)).
  clearbody l. clear rs Ey Ew PW.
  assert (LL : length y = length l) by (rewrite E1; apply map_length).
  assert (AY : forall j, (j < length l)%nat -> at_ y j = fst (nth j l (0, 0))).
  { intros j Hj. rewrite E1. rewrite (nth_indep _ _ (Fin (fst (0, 0)))) by (rewrite map_length; auto). rewrite (map_nth (fun q => Fin (fst q))). reflexivity. }
  assert (AW : forall j, (j < length l)%nat -> at_ w j = snd (nth j l (0, 0))).
  { intros j Hj. rewrite E2. rewrite (nth_indep _ _ (Fin (snd (0, 0)))) by (rewrite map_length; auto). rewrite (map_nth (fun q => Fin (snd q))). reflexivity. }
  assert (SQ : forall f : R * R -> R, sumR (map (fun j => f (nth j l (0, 0))) (seq 0 (length l))) = sumR (map f l)).
  { intros f. rewrite <- (map_map (fun j => nth j l (0, 0)) f), DataProofs.map_nth_seq. reflexivity. }
  assert (EN : N = sumR (map snd l)).
  { unfold N. rewrite LL, <- (SQ snd). apply sumR_map_ext. intros j Hj. apply in_seq in Hj. apply AW. lia. }
  assert (EY : sumR (map (fun j => at_ w j * at_ y j) (seq 0 (length y))) = sumR (map (fun q => snd q * fst q) l)).
  { rewrite LL, <- (SQ (fun q => snd q * fst q)). apply sumR_map_ext. intros j Hj. apply in_seq in Hj. rewrite AY, AW by lia. reflexivity. }
  rewrite EY, EN. clear AY AW SQ EN EY LL.
  assert (NN : 0 <= sumR (map snd l)) by (apply FloatX.sumR_nonneg; intros x Hx; apply in_map_iff in Hx; destruct Hx as (q & <- & Hq); auto).
  rewrite E1, E2 in HBASE. unfold calc_init in HBASE. rewrite init_sums_X in HBASE. cbn [bind] in HBASE. injection HBASE as HB0.
  change (xdiv (Fin (sumR (map (fun q => snd q * fst q) l))) (Fin (sumR (map snd l))) = Fin base) in HB0. cbn [xdiv] in HB0.
  destruct (Req_boolP (sumR (map snd l)) 0) as [[EB Z]|[EB Z]].
  - exfalso. match type of HB0 with ?t = _ => match t with context [if ?c then _ else _] => replace c with true in HB0 by (symmetry; exact EB) end end. unfold xsgn in HB0.
    repeat match type of HB0 with context [if ?c then _ else _] => destruct c end; discriminate.
  - match type of HB0 with ?t = _ => match t with context [if ?c then _ else _] => replace c with false in HB0 by (symmetry; exact EB) end end.
    injection HB0 as <-. split; [lra|]. field. lra.
Qed.

Lemma mean_error : p_initialize_base_score p = true -> total_error y (repeat (Fin base) (length y)) w = 0.
Proof.
  intros IN. destruct (base_mean IN) as [_ Q]. unfold total_error.
  transitivity (sumR (map (fun j => at_ w j * at_ y j) (seq 0 (length y))) - base * sumR (map (fun j => at_ w j) (seq 0 (length y)))); [|lra].
  rewrite <- sumR_map_scal, <- sumR_map_minus. apply sumR_map_ext. intros j Hj. apply in_seq in Hj.
  rewrite (nth_indep (repeat (Fin base) (length y)) (Fin 0) (Fin base)) by (rewrite repeat_length; lia). rewrite nth_repeat. simpl. ring.
Qed.

Theorem error_zero : p_l1 p = Fin 0 -> p_l2 p = Fin 0 -> p_max_delta_step p = Fin 0 -> p_initialize_base_score p = true ->
  forall shs par k yh, (k <= length (gb_trees b'))%nat ->
  @predict XF shs (@model_prefix XF b' k) data par = Some yh ->
  sumR (map (fun j => at_ w j * at_ yh j) (seq 0 (length y))) = sumR (map (fun j => at_ w j * at_ y j) (seq 0 (length y))).
Proof.
  intros E1 E2 E3 IN shs par k yh Hk HP. pose proof (error_after E1 E2 E3 shs par k yh Hk HP) as Q. rewrite (mean_error IN), Rmult_0_r in Q.
  unfold total_error in Q.
  assert (D : sumR (map (fun j => at_ w j * (at_ y j - at_ yh j)) (seq 0 (length y))) =
    sumR (map (fun j => at_ w j * at_ y j) (seq 0 (length y))) - sumR (map (fun j => at_ w j * at_ yh j) (seq 0 (length y)))); [|pose proof (eq_trans (eq_sym D) Q); lra].
  rewrite <- sumR_map_minus. apply sumR_map_ext. intros j _. ring.
Qed.

Lemma base_range : p_initialize_base_score p = true -> forall lo hi, (forall v, In v y -> exists r, v = Fin r /\ lo <= r <= hi) -> lo <= base <= hi.
Proof.
  intros IN lo hi YB. destruct (base_mean IN) as [PN Q]. destruct (sd_y _ _ _ _ SD) as [Ly _]. destruct (sd_w _ _ _ _ SD) as [Lw Fw].
  set (N := sumR (map (fun j => at_ w j) (seq 0 (length y)))) in *.
  assert (JB : forall j, In j (seq 0 (length y)) -> lo <= at_ y j <= hi /\ 0 <= at_ w j).
  { intros j Hj. apply in_seq in Hj. split.
    - destruct (YB (nth j y (Fin 0))) as (r & -> & Hr); [apply nth_In; lia|]. exact Hr.
    - destruct (Fw (nth j w (Fin 0))) as (r & -> & Hr); [apply nth_In; lia|]. exact Hr. }
  assert (LO : lo * N <= base * N).
  { rewrite Q. unfold N. rewrite <- sumR_map_scal. apply sumR_bounds. intros j Hj. destruct (JB j Hj). nra. }
  assert (HI : base * N <= hi * N).
  { rewrite Q. unfold N. rewrite <- sumR_map_scal. apply sumR_bounds. intros j Hj. destruct (JB j Hj). nra. }
  split; apply Rmult_le_reg_r with N; auto.
Qed.

(** The first tree keeps every prediction, of any row, within the bounds of the targets. *)
Theorem one_tree_range : 0 <= lr <= 1 ->
  forall lo hi, lo <= base <= hi -> (forall v, In v y -> exists r, v = Fin r /\ lo <= r <= hi) ->
  forall shs par (d : Matrix xr) yh, sound_matrix (p_missing p) d -> m_cols d = m_cols data ->
  (1 <= length (gb_trees b'))%nat ->
  @predict XF shs (@model_prefix XF b' 1) d par = Some yh -> forall v, In v yh -> exists r, v = Fin r /\ lo <= r <= hi.
Proof.
  intros LB lo hi BB YB shs par d yh SM SC Hk HP v Hv.
  destruct (model_steps E b b' data y w es base C HBASE HFIT) as (bd & HB & EP & EB & HT).
  destruct (sd_y _ _ _ _ SD) as [Ly _]. destruct (sd_matrix _ _ _ _ SD) as (HI & _).
  destruct (gb_trees b') as [|t ts] eqn:EG; [simpl in Hk; lia|].
  pose proof (HT 0%nat t eq_refl) as (yh' & n & chosen & grad & hess & n' & cols & n'' & st & P1 & P2 & P3 & P4).
  cbn [firstn] in P1. cbn in P1. injection P1 as <-. rewrite Ly in P2.
  unfold sample_index in P2. rewrite SN in P2. injection P2 as <- <- <- <-. rewrite HI in P4.
  destruct (sp_l1_ok _ SP) as (l1 & E1 & _). destruct (sp_l2_ok _ SP) as (l2 & E2 & _). destruct (sp_mds_ok _ SP) as (mds & E3 & _).
  assert (YB' : forall j, (j < m_rows data)%nat -> lo <= at_ y j <= hi).
  { intros j Hj. destruct (YB (nth j y (Fin 0))) as (r & -> & Hr); [apply nth_In; lia|]. exact Hr. }
  pose proof (first_range E data y w bd p SP SD SE HB OBJ SN NM NC lr LR l1 l2 mds E1 E2 E3 LB base lo hi BB YB' _ _ _ _ _ _ P3 P4) as FR.
  pose proof (@fit_well_formed XF _ _ _ _ _ _ _ _ _ _ P4) as W.
  rewrite (@predict_prefix XF) in HP by (rewrite EG; simpl; lia). rewrite EG, EP, EB in HP. cbn [firstn] in HP.
  unfold preds_after in HP. cbn in HP.
  destruct (@tree_predict XF t d (p_missing p)) as [pr|] eqn:EPr; cbn [bind] in HP; [|discriminate].
  destruct SM as (HI' & _).
  assert (LP : @length xr pr = m_rows d).
  { unfold tree_predict in EPr. pose proof (mapM_length _ _ EPr) as L. refine (eq_trans L _). refine (eq_trans (f_equal (@length nat) HI') _). apply seq_length. }
  injection HP as <-.
  destruct (In_nth_error _ _ Hv) as [j Hj].
  assert (J : (j < m_rows d)%nat).
  { pose proof (nth_error_Some_lt _ _ Hj) as Q. rewrite (@add_preds_length XF), repeat_length in Q. exact Q. }
  destruct (@tree_predict_at XF t d (p_missing p) pr EPr HI' j J) as (m & Hm & Ej).
  destruct (@predict_leaf_at XF d (p_missing p) t j m W Hm) as [Q1 Q2].
  destruct (FR m (nth_error_In _ _ Q2) Q1) as (x & Ex & RX). exists (base + x). split; [|exact RX].
  rewrite (@add_preds_same XF) in Hj by (rewrite repeat_length; auto).
  assert (Hj' : nth_error (map (fun '(a, c) => xadd a c) (combine (repeat (Fin base) (m_rows d)) pr)) j = Some (Fin (base + x))).
  { apply (map_nth_error (fun '(a, c) => xadd a c) j (combine (repeat (Fin base) (m_rows d)) pr) (d := (Fin base, Fin x))).
    change (nth_error pr j = Some (n_weight m)) in Ej. rewrite Ex in Ej. clear - Ej J. revert pr j Ej J. generalize (m_rows d).
    induction n as [|n IH]; intros [|c pr] [|j] Ej J; simpl in *; try discriminate; try lia; [congruence|]. apply IH; auto. lia. }
  pose proof (eq_trans (eq_sym Hj) Hj') as Q. injection Q as ->. reflexivity.
Qed.
End Model.
