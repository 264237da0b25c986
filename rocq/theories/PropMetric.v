(** Properties C46-C52: metrics, objectives and row sampling. *)
From Coq Require Import Reals Lra Lia ZArith List Bool Arith Permutation Sorting Rtrigo_def Rpower Ranalysis.
From Flocq Require Import Core.Raux.
From Verif Require Import Prelude Float FloatX FloatI FloatLaws OrdProofs Utils Objective Metric MetricX ObjectiveX
  Sampler SamplerProofs MetricProofs PosSort.
Import ListNotations.
Local Open Scope R_scope.

(** *** C46 (exact arithmetic).  A row is (label, score, weight).  [kern s t] is 1 when s is the larger score, 1/2
    on ties and 0 otherwise; [PP], [QQ] are the total positive and negative weight, [UU] the
    weight of the correctly ranked pairs. *)
Theorem C46_auc_is_pair_share : forall S (rows : list (R * xr * R)), @SortDescSpec XF S -> rows <> [] ->
  (forall y s w, In (y, s, w) rows -> 0 <= y <= 1 /\ 0 <= w /\ xisnan s = false) ->
  let P := sumR (map (fun '(y, s, w) => y * w) rows) in
  let Q := sumR (map (fun '(y, s, w) => (1 - y) * w) rows) in
  let U := sumR (map (fun '(y, s, w) => sumR (map (fun '(y', s', w') =>
             (y * w) * ((1 - y') * w') * (if xlt s' s then 1 else if xeq s s' then 1 / 2 else 0)) rows)) rows) in
  @roc_auc_score XF S (map (fun '(y, _, _) => Fin y) rows) (map (fun '(_, s, _) => s) rows) (map (fun '(_, _, w) => Fin w) rows)
  = Some (if Rlt_bool 0 P && Rlt_bool 0 Q then Fin (U / (P * Q)) else XNaN)
  /\ (0 < P -> 0 < Q -> 0 <= U / (P * Q) <= 1).
Proof.
  intros S rows HS NE H P Q U.
  assert (NN : forall r, In r rows -> 0 <= lab r <= 1 /\ 0 <= snd r /\ xisnan (sc r) = false)
    by (intros [[y s] w] HI; exact (H y s w HI)).
  assert (EP : P = PP rows) by (apply sumR_map_ext; intros [[y s] w] _; reflexivity).
  assert (EQ : Q = QQ rows) by (apply sumR_map_ext; intros [[y s] w] _; reflexivity).
  assert (EU : U = UU rows).
  { apply sumR_map_ext; intros [[y s] w] _. apply sumR_map_ext; intros [[y' s'] w'] _. reflexivity. }
  rewrite EP, EQ, EU. split; [|apply auc_range; auto].
  rewrite (map_ext (fun '(y, _, _) => Fin y) (fun r : R * xr * R => Fin (lab r))) by (intros [[y s] w]; reflexivity).
  rewrite (map_ext (fun '(_, s, _) => s) (fun r : R * xr * R => sc r)) by (intros [[y s] w]; reflexivity).
  rewrite (map_ext (fun '(_, _, w) => Fin w) (fun r : R * xr * R => Fin (snd r))) by (intros [[y s] w]; reflexivity).
  apply roc_auc_X; auto.
Qed.
Print Assumptions C46_auc_is_pair_share.

Theorem C46_auc_row_order : forall S S' (rows rows' : list (R * xr * R)), @SortDescSpec XF S -> @SortDescSpec XF S' ->
  (forall y s w, In (y, s, w) rows -> 0 <= y <= 1 /\ 0 <= w /\ xisnan s = false) -> rows <> [] ->
  Permutation rows rows' ->
  let score S rows := @roc_auc_score XF S (map (fun '(y, _, _) => Fin y) rows) (map (fun '(_, s, _) => s) rows)
                        (map (fun '(_, _, w) => Fin w) rows) in
  score S rows = score S' rows'.
Proof.
  intros S S' rows rows' HS HS' H NE PM score. unfold score.
  assert (NE' : rows' <> []) by (intros ->; apply Permutation_sym, Permutation_nil in PM; auto).
  assert (H' : forall y s w, In (y, s, w) rows' -> 0 <= y <= 1 /\ 0 <= w /\ xisnan s = false).
  { intros y s w HI. apply H. eapply Permutation_in; [symmetry; exact PM|auto]. }
  refine (eq_trans (proj1 (C46_auc_is_pair_share S rows HS NE H)) (eq_trans _ (eq_sym (proj1 (C46_auc_is_pair_share S' rows' HS' NE' H'))))).
  pose proof (PP_perm _ _ PM) as EP. pose proof (QQ_perm _ _ PM) as EQ. pose proof (UU_perm _ _ PM) as EU.
  unfold PP, QQ, UU, lab, sc, kern in *.
  rewrite !(sumR_map_ext _ (fun '(y, s, w) => y * w) (fun r : R * xr * R => fst (fst r) * snd r)) by (intros [[y s] w] _; reflexivity).
  rewrite !(sumR_map_ext _ (fun '(y, s, w) => (1 - y) * w) (fun r : R * xr * R => (1 - fst (fst r)) * snd r)) by (intros [[y s] w] _; reflexivity).
  rewrite EP, EQ. 
  match goal with |- Some (if _ then Fin (?a / _) else _) = Some (if _ then Fin (?b / _) else _) => replace a with b; [reflexivity|] end.
  symmetry. etransitivity; [|etransitivity; [exact EU|]].
  - apply sumR_map_ext; intros [[y s] w] _. apply sumR_map_ext; intros [[y' s'] w'] _. reflexivity.
  - apply sumR_map_ext; intros [[y s] w] _. apply sumR_map_ext; intros [[y' s'] w'] _. reflexivity.
Qed.
Print Assumptions C46_auc_row_order.

(** no rows: the first read of the sorted positions panics *)
Theorem C46_auc_no_rows : forall S w, @SortDescSpec XF S -> @roc_auc_score XF S [] [] w = None.
Proof. intros S w HS. unfold roc_auc_score. simpl. destruct (HS []) as [P _]. simpl in P. apply Permutation_sym, Permutation_nil in P. rewrite P. reflexivity. Qed.
Print Assumptions C46_auc_no_rows.

(** Labels 1,0,1,0 with scores 3,2,2,1 and weights 1,1,2,1: the pairs weigh 6, those ranked
    correctly 4, and the tied pair of weight 2 counts half. *)
Definition auc_rows : list (R * xr * R) := [(1, Fin 3, 1); (0, Fin 2, 1); (1, Fin 2, 2); (0, Fin 1, 1)].
Example C46_example :
  @roc_auc_score XF x_sort_desc (map (fun '(y, _, _) => Fin y) auc_rows) (map (fun '(_, s, _) => s) auc_rows)
    (map (fun '(_, _, w) => Fin w) auc_rows) = Some (Fin (5 / 6)).
Proof.
  destruct (C46_auc_is_pair_share x_sort_desc auc_rows x_sort_desc_spec) as [E _].
  - discriminate.
  - intros y s w [H|[H|[H|[H|[]]]]]; injection H as <- <- <-; simpl; repeat split; lra.
  - etransitivity; [exact E|]. clear E. unfold auc_rows. simpl. repeat rdec. simpl. f_equal. f_equal. field.
Qed.

Lemma div_congr : forall a a' b b' : R, a = a' -> b = b' -> a / b = a' / b'.
Proof. intros; subst; auto. Qed.
(** *** C47 (exact arithmetic).  A row is (target, prediction, weight). *)
Section C47.
Variable rows : list (R * R * R).
Hypothesis W : forall y x w, In (y, x, w) rows -> 0 <= w.
Hypothesis POS : exists y x w, In (y, x, w) rows /\ 0 < w.
Definition targets (l : list (R * R * R)) : list xr := map (fun r => Fin (fst (fst r))) l.
Definition preds (l : list (R * R * R)) : list xr := map (fun r => Fin (snd (fst r))) l.
Definition weights (l : list (R * R * R)) : list xr := map (fun r => Fin (snd r)) l.

Theorem C47_log_loss : (forall y x w, In (y, x, w) rows -> 0 <= y <= 1) ->
  exists m, @log_loss XF (targets rows) (preds rows) (weights rows) = Fin m /\ 0 <= m /\
    m = sumR (map (fun '(y, x, w) => w * - (y * ln (/ (1 + exp (- x))) + (1 - y) * ln (1 - / (1 + exp (- x))))) rows)
        / sumR (map (fun '(_, _, w) => w) rows).
Proof.
  intros D. exists (wmean ll rows).
  assert (W' : forall r, In r rows -> 0 <= snd r) by (intros [[y x] w] HI; exact (W _ _ _ HI)).
  assert (P' : exists r, In r rows /\ 0 < snd r) by (destruct POS as (y & x & w & HI & HP); exists (y, x, w); auto).
  split; [apply log_loss_X; auto|]. split.
  - apply wmean_nonneg; auto; [|apply sum_weights_pos; auto].
    intros [[y x] w] HI. apply ll_nonneg. eapply D; eauto.
  - unfold wmean. apply div_congr; apply sumR_map_ext; intros [[y x] w] _; reflexivity.
Qed.

Theorem C47_rmse : exists m, @root_mean_squared_error XF (targets rows) (preds rows) (weights rows) = Fin m /\ 0 <= m /\
    m = sqrt (sumR (map (fun '(y, x, w) => w * ((y - x) * (y - x))) rows) / sumR (map (fun '(_, _, w) => w) rows)) /\
    (m = 0 <-> forall y x w, In (y, x, w) rows -> 0 < w -> x = y).
Proof.
  assert (W' : forall r, In r rows -> 0 <= snd r) by (intros [[y x] w] HI; exact (W _ _ _ HI)).
  assert (P' : exists r, In r rows /\ 0 < snd r) by (destruct POS as (y & x & w & HI & HP); exists (y, x, w); auto).
  assert (SP := sum_weights_pos rows W' P').
  assert (NN : forall r, In r rows -> 0 <= se r) by (intros [[y x] w] _; apply Rle_0_sqr).
  exists (sqrt (wmean se rows)). split; [apply rmse_X; auto|]. split; [apply sqrt_pos|]. split.
  - f_equal. unfold wmean. apply div_congr; apply sumR_map_ext; intros [[y x] w] _; reflexivity.
  - split.
    + intros E. apply sqrt_eq_0 in E; [|apply wmean_nonneg; auto].
      rewrite (wmean_zero se rows W' NN SP) in E. intros y x w HI HP. specialize (E _ HI HP). unfold se in E.
      apply Rsqr_0_uniq in E. lra.
    + intros E. rewrite <- sqrt_0. f_equal. apply (wmean_zero se rows W' NN SP).
      intros [[y x] w] HI HP. unfold se. rewrite (E y x w HI HP). ring.
Qed.

Theorem C47_rmsle : (forall y x w, In (y, x, w) rows -> -1 < y /\ -1 < x) ->
  exists m, @root_mean_squared_log_error XF (targets rows) (preds rows) (weights rows) = Fin m /\ 0 <= m /\
    m = sqrt (sumR (map (fun '(y, x, w) => w * ((ln (1 + y) - ln (1 + x)) * (ln (1 + y) - ln (1 + x)))) rows)
              / sumR (map (fun '(_, _, w) => w) rows)) /\
    (m = 0 <-> forall y x w, In (y, x, w) rows -> 0 < w -> x = y).
Proof.
  intros D.
  assert (W' : forall r, In r rows -> 0 <= snd r) by (intros [[y x] w] HI; exact (W _ _ _ HI)).
  assert (P' : exists r, In r rows /\ 0 < snd r) by (destruct POS as (y & x & w & HI & HP); exists (y, x, w); auto).
  assert (SP := sum_weights_pos rows W' P').
  assert (NN : forall r, In r rows -> 0 <= sle r) by (intros [[y x] w] _; apply Rle_0_sqr).
  exists (sqrt (wmean sle rows)). split.
  { apply rmsle_X; auto. intros [[y x] w] HI. exact (D _ _ _ HI). }
  split; [apply sqrt_pos|]. split.
  - f_equal. unfold wmean. apply div_congr; apply sumR_map_ext; intros [[y x] w] _; reflexivity.
  - split.
    + intros E. apply sqrt_eq_0 in E; [|apply wmean_nonneg; auto].
      rewrite (wmean_zero sle rows W' NN SP) in E. intros y x w HI HP. specialize (E _ HI HP). unfold sle in E.
      apply Rsqr_0_uniq in E. destruct (D _ _ _ HI).
      assert (1 + y = 1 + x) by (apply ln_inv; lra). lra.
    + intros E. rewrite <- sqrt_0. f_equal. apply (wmean_zero sle rows W' NN SP).
      intros [[y x] w] HI HP. unfold sle. rewrite (E y x w HI HP). ring.
Qed.

(** order of the rows and scale of the weights do not matter *)
Theorem C47_invariant : forall (m : list xr -> list xr -> list xr -> xr) rows' c,
  m = @log_loss XF \/ m = @root_mean_squared_error XF \/
    (m = @root_mean_squared_log_error XF /\ forall y x w, In (y, x, w) rows -> -1 < y /\ -1 < x) ->
  Permutation rows rows' -> 0 < c ->
  m (targets rows') (preds rows') (map (fun r => Fin (c * snd r)) rows') = m (targets rows) (preds rows) (weights rows).
Proof.
  intros m rows' c M PM C.
  assert (W' : forall r, In r rows -> 0 <= snd r) by (intros [[y x] w] HI; exact (W _ _ _ HI)).
  assert (P' : exists r, In r rows /\ 0 < snd r) by (destruct POS as (y & x & w & HI & HP); exists (y, x, w); auto).
  assert (SP := sum_weights_pos rows W' P').
  assert (SP' : sumR (map snd rows') <> 0).
  { rewrite (sumR_perm (map snd rows') (map snd rows)); [lra|]. apply Permutation_map. symmetry; auto. }
  set (rs := scale c rows').
  replace (targets rows') with (ys rs) by (unfold rs, scale, ys, targets; rewrite map_map; reflexivity).
  replace (preds rows') with (yhats rs) by (unfold rs, scale, yhats, preds; rewrite map_map; reflexivity).
  replace (map (fun r => Fin (c * snd r)) rows') with (ws rs) by (unfold rs, scale, ws; rewrite map_map; reflexivity).
  assert (IN : forall r, In r rs -> exists r', In r' rows /\ fst r = fst r' /\ snd r = c * snd r').
  { intros r HI. unfold rs, scale in HI. apply in_map_iff in HI. destruct HI as (r' & <- & HI).
    exists r'. split; auto. eapply Permutation_in; [symmetry; exact PM|auto]. }
  assert (W2 : forall r, In r rs -> 0 <= snd r).
  { intros r HI. destruct (IN r HI) as (r' & HI' & _ & ->). apply Rmult_le_pos; [lra|auto]. }
  assert (P2 : exists r, In r rs /\ 0 < snd r).
  { destruct P' as (r & HI & HP). exists (fst r, c * snd r). split; [|simpl; apply Rmult_lt_0_compat; auto].
    unfold rs, scale. apply in_map_iff. exists r. split; auto. eapply Permutation_in; eauto. }
  assert (K : forall f, (forall y yh w, f (y, yh, c * w) = f (y, yh, w)) -> wmean f rs = wmean f rows).
  { intros f I. unfold rs. rewrite wmean_scale; auto; [|lra]. apply wmean_perm. symmetry; auto. }
  destruct M as [-> | [-> | [-> D]]].
  - refine (eq_trans (log_loss_X rs W2 P2) _). rewrite K by reflexivity. symmetry. apply log_loss_X; auto.
  - refine (eq_trans (rmse_X rs W2 P2) _). rewrite K by reflexivity. symmetry. apply rmse_X; auto.
  - refine (eq_trans (rmsle_X rs W2 P2 _) _).
    + intros r HI. destruct (IN r HI) as ([[y x] w] & HI' & -> & _). exact (D _ _ _ HI').
    + rewrite K by reflexivity. symmetry. apply rmsle_X; auto. intros [[y x] w] HI. exact (D _ _ _ HI).
Qed.
End C47.
Print Assumptions C47_log_loss. Print Assumptions C47_rmse. Print Assumptions C47_rmsle. Print Assumptions C47_invariant.

Example C47_example : @root_mean_squared_error XF [Fin 1; Fin 2] [Fin 4; Fin 2] [Fin 1; Fin 8] = Fin 1.
Proof.
  destruct (C47_rmse [(1, 4, 1); (2, 2, 8)]) as (m & E & _ & Em & _).
  - intros y x w [H|[H|[]]]; injection H as <- <- <-; lra.
  - exists 1, 4, 1. split; [left; auto|lra].
  - unfold targets, preds, weights in E. simpl in E. etransitivity; [exact E|]. f_equal. rewrite Em. simpl.
    replace ((1 * ((1 - 4) * (1 - 4)) + (8 * ((2 - 2) * (2 - 2)) + 0)) / (1 + (8 + 0))) with 1 by field. apply sqrt_1.
Qed.

(** *** C48 (IEEE): is_comparison_better value comparison says that the comparison is better *)
Section C48.
Variables iexp iln iln1p : b64 -> b64.
Notation FI := (IF iexp iln iln1p).
Definition better (maximize : bool) (a b : b64) : Prop := @is_comparison_better FI b a maximize = true.

Theorem C48_strict_order : forall m,
  (forall a, ~ better m a a) /\ (forall a b, better m a b -> ~ better m b a) /\
  (forall a b c, better m a b -> better m b c -> better m a c) /\
  (forall a b c, better m a c -> better m a b \/ better m b c).
Proof.
  intros m. split; [apply (@better_irrefl FI i64_ord_laws)|]. split; [apply (@better_asym FI i64_ord_laws)|].
  split; [apply (@better_trans FI i64_ord_laws)|apply (@better_weak FI i64_ord_laws)].
Qed.

Theorem C48_nan_worst : forall m,
  (forall a b, fisnan IOps64 a = true -> ~ better m a b) /\
  (forall a b, fisnan IOps64 a = false -> fisnan IOps64 b = true -> better m a b) /\
  (forall a b, fisnan IOps64 a = false -> fisnan IOps64 b = false ->
     (better m a b <-> if m then flt IOps64 b a = true else flt IOps64 a b = true)).
Proof.
  intros m. split; [apply (@better_nan FI)|]. split; [apply (@better_than_nan FI)|apply (@better_num FI)].
Qed.
End C48.
Print Assumptions C48_strict_order. Print Assumptions C48_nan_worst.
Definition idn (x : b64) : b64 := x.
Example C48_example : better idn idn idn true (q64 2 1) (q64 1 1) /\ better idn idn idn false (q64 1 1) (q64 2 1)
  /\ better idn idn idn true (q64 1 1) (fnan IOps64) /\ ~ better idn idn idn true (q64 1 1) (q64 1 1).
Proof. repeat split; vm_compute; congruence. Qed.

(** *** C49 (exact arithmetic): one row *)
Theorem C49_derivatives : forall o y w, exists L G H : R -> R, forall x,
  @calc_loss XF o [Fin y] [Fin x] [Fin w] = [Fin (L x)] /\
  @calc_grad_hess XF o [Fin y] [Fin x] [Fin w] = ([Fin (G x)], [Fin (H x)]) /\
  derivable_pt_lim (fun x => (match o with LogLoss => 1 | SquaredLoss => / 2 end) * L x) x (G x) /\
  derivable_pt_lim G x (H x) /\
  (0 <= w -> 0 <= H x) /\
  (o = LogLoss -> L x = w * - (y * ln (/ (1 + exp (- x))) + (1 - y) * ln (1 - / (1 + exp (- x))))) /\
  (o = SquaredLoss -> L x = (y - x) * (y - x) * w).
Proof.
  intros o y w. exists (loss_R o y w), (grad_R o y w), (hess_R o y w). intros x.
  split; [exact (calc_loss_X o [(y, x, w)])|]. split; [exact (calc_grad_hess_X o [(y, x, w)])|].
  split; [apply (grad_derives o y w x)|]. split; [apply hess_derives|]. split; [apply hess_nonneg|].
  split; intros ->; reflexivity.
Qed.
Print Assumptions C49_derivatives.

(** and every row of a data set is treated alone (any arithmetic) *)
Theorem C49_rowwise : forall {FS : Floats} o (y yhat w : list F64) i a b c,
  nth_error y i = Some a -> nth_error yhat i = Some b -> nth_error w i = Some c ->
  exists l g h, calc_loss o [a] [b] [c] = [l] /\ calc_grad_hess o [a] [b] [c] = ([g], [h]) /\
    nth_error (calc_loss o y yhat w) i = Some l /\ nth_error (fst (calc_grad_hess o y yhat w)) i = Some g /\
    nth_error (snd (calc_grad_hess o y yhat w)) i = Some h.
Proof.
  intros FS o y yhat w i a b c Ha Hb Hc.
  assert (Z : nth_error (zip3 y yhat w) i = Some (a, b, c)).
  { unfold zip3. assert (N : forall A B (l1 : list A) (l2 : list B) i x z, nth_error l1 i = Some x -> nth_error l2 i = Some z ->
      nth_error (combine l1 l2) i = Some (x, z)).
    { clear. induction l1 as [|p l1 IH]; intros [|q l2] [|i] x z H1 H2; simpl in *; try discriminate; auto. congruence. }
    apply N; auto. }
  destruct (grad_hess_row o a b c) as [g h] eqn:E.
  eexists _, g, h. split; [reflexivity|]. split; [unfold calc_grad_hess; simpl; rewrite E; reflexivity|].
  split; [unfold calc_loss; erewrite map_nth_error by eassumption; reflexivity|].
  unfold calc_grad_hess.
  destruct (split_nth _ _ (map (fun '(y0, yhat0, w0) => grad_hess_row o y0 yhat0 w0) (zip3 y yhat w)) i (g, h)) as [A B]; auto.
  erewrite map_nth_error by eassumption. f_equal. exact E.
Qed.
Print Assumptions C49_rowwise.
Example C49_example : @calc_grad_hess XF LogLoss [Fin 1] [Fin 0] [Fin 2] = ([Fin (-1)], [Fin (1 / 2)]).
Proof.
  refine (eq_trans (calc_grad_hess_X LogLoss [(1, 0, 2)]) _). simpl. unfold sig. rewrite Ropp_0, exp_0.
  f_equal; f_equal; f_equal; field.
Qed.

(** *** C50 (exact arithmetic): a row is (target, weight) *)
Theorem C50_base_score_zero_gradient : forall o (rows : list (R * R)),
  let y := map (fun p => Fin (fst p)) rows in
  let w := map (fun p => Fin (snd p)) rows in
  let Y := sumR (map (fun p => snd p * fst p) rows) in
  let W := sumR (map snd rows) in
  match o with LogLoss => 0 < Y < W | SquaredLoss => 0 < W end ->
  exists base, @calc_init XF o y w = Some base /\
    fsum XOps (fst (@calc_grad_hess XF o y (repeat base (length y)) w)) = Fin 0.
Proof.
  intros o rows y w Y W OK. exists (Fin (base_R o rows)). split; [apply calc_init_X; auto|].
  pose proof (calc_grad_hess_X o (map (fun p => (fst p, base_R o rows, snd p)) rows)) as E.
  unfold ys, yhats, ws in E. rewrite !map_map in E. simpl in E.
  assert (RP : map (fun _ : R * R => Fin (base_R o rows)) rows = repeat (Fin (base_R o rows)) (length y)).
  { unfold y. rewrite map_length. generalize (base_R o rows). intros b. clear. induction rows; simpl; auto. f_equal; auto. }
  rewrite RP in E. refine (eq_trans (f_equal (fun p => fsum XOps (fst p)) E) _).
  refine (eq_trans (fsum_fin _ (fun p => grad_R o (fst p) (snd p) (base_R o rows)) rows) _).
  f_equal. apply grad_sum; auto.
Qed.
Print Assumptions C50_base_score_zero_gradient.
Example C50_example : @calc_init XF SquaredLoss [Fin 1; Fin 4] [Fin 1; Fin 2] = Some (Fin 3).
Proof.
  refine (eq_trans (calc_init_X SquaredLoss [(1, 1); (4, 2)] _) _); simpl; [lra|]. unfold base_R. simpl. f_equal. f_equal. field.
Qed.

(** *** C51: random sampling *)
Theorem C51_random_splits_rows : forall {FS : Floats} r subsample n index chosen excluded n',
  random_sample r subsample n index = (chosen, excluded, n') ->
  Permutation (chosen ++ excluded) index /\ sublist chosen index /\ sublist excluded index.
Proof. intros FS r s n i c e n' H. destruct (random_split r s n i c e n' H) as (A & B & C & _). auto. Qed.
Print Assumptions C51_random_splits_rows.

Theorem C51_random_extremes : forall iexp iln iln1p (r : @Rng (IF iexp iln iln1p)) subsample n index, RngSpec r ->
  (fle IOps32 subsample (fzero IOps32) = true -> fst (random_sample r subsample n index) = ([], index)) /\
  (fle IOps32 (fone IOps32) subsample = true -> fst (random_sample r subsample n index) = (index, [])).
Proof.
  intros iexp iln iln1p r sub n index RS. split; intros H.
  - rewrite (@random_none (IF iexp iln iln1p) i32_ord_laws r sub n index RS H). reflexivity.
  - rewrite (@random_all (IF iexp iln iln1p) i32_ord_laws r sub n index RS H). reflexivity.
Qed.
Print Assumptions C51_random_extremes.

(** a generator that returns 0 and one half in turn *)
Definition ex_rng : @Rng (IF idn idn idn) :=
  @mkRng (IF idn idn idn) (fun n => if Nat.even n then fzero IOps32 else lit_ratio IOps32 1 2)
    (fun n => if Nat.even n then fzero IOps64 else lit_ratio IOps64 1 2) (fun _ k l => firstn k l).
Lemma firstn_incl : forall A k (l : list A), incl (firstn k l) l.
Proof. intros A k l x H. rewrite <- (firstn_skipn k l). apply in_app_iff. auto. Qed.
Lemma firstn_NoDup : forall A k (l : list A), NoDup l -> NoDup (firstn k l).
Proof.
  induction k as [|k IH]; intros [|x l] H; simpl; try constructor; inversion H; subst; auto.
  intros HI. apply firstn_incl in HI. auto.
Qed.
Example ex_rng_spec : RngSpec ex_rng.
Proof.
  constructor.
  - intros n. simpl. destruct (Nat.even n); split; vm_compute; reflexivity.
  - intros n. simpl. destruct (Nat.even n); split; vm_compute; reflexivity.
  - intros n k l H. simpl. split; [apply firstn_NoDup; auto|]. split; [apply firstn_incl|apply firstn_length].
Qed.
Example C51_example : fst (random_sample ex_rng (lit_ratio IOps32 1 4) 0 [5; 6; 7]%nat) = ([5; 7], [6])%nat.
Proof. vm_compute. reflexivity. Qed.

(** *** C52: GOSS.  [n] rows; top are the floor(top_rate * n) rows of largest absolute gradient,
    kept the sampled others. *)
Theorem C52_goss : forall {FS : Floats} S r top_rate other_rate k grad hess, SortAbsSpec S ->
  let n := length grad in
  let top_n := ftonat f64 (top_rate * fofnat f64 n)%f64 in
  let fact := to32 ((fone f64 - top_rate) / other_rate)%f64 in
  length hess = n -> (top_n <= n)%nat ->
  exists top kept grad' hess' k',
    goss_sample S r top_rate other_rate k (seq 0 n) grad hess = Some (top ++ kept, [], grad', hess', k') /\
    NoDup (top ++ kept) /\ (forall i, In i (top ++ kept) -> (i < n)%nat) /\ length top = top_n /\
    (forall i j gi gj, In i top -> ~ In j top -> nth_error grad i = Some gi -> nth_error grad j = Some gj ->
        ftotal f32 (fabs f32 gj) (fabs f32 gi) <> Gt) /\
    (forall i, In i kept -> exists g h, nth_error grad i = Some g /\ nth_error hess i = Some h /\
        nth_error grad' i = Some (g * fact)%f32 /\ nth_error hess' i = Some (h * fact)%f32) /\
    (forall i, ~ In i kept -> nth_error grad' i = nth_error grad i /\ nth_error hess' i = nth_error hess i).
Proof. exact @goss_spec. Qed.
Print Assumptions C52_goss.

(** which of the other rows are kept: one draw per row, compared with
    floor(other_rate * n) / (n - floor(top_rate * n)) *)
Theorem C52_goss_rate : forall {FS : Floats} S r top_rate other_rate k grad hess used excluded grad' hess' k', SortAbsSpec S ->
  let n := length grad in
  let top_n := ftonat f64 (top_rate * fofnat f64 n)%f64 in
  let rate := (fofnat f64 (ftonat f64 (other_rate * fofnat f64 n)%f64) / (fofnat f64 n - fofnat f64 top_n))%f64 in
  length hess = n -> (top_n <= n)%nat ->
  goss_sample S r top_rate other_rate k (seq 0 n) grad hess = Some (used, excluded, grad', hess', k') ->
  exists top rest, length top = top_n /\ Permutation (top ++ rest) (seq 0 n) /\ k' = (k + length rest)%nat /\
    incl top used /\
    forall j i, nth_error rest j = Some i -> (In i used <-> (draw64 r (k + j)%nat <? rate)%f64 = true).
Proof. exact @goss_rate. Qed.
Print Assumptions C52_goss_rate.

(** the rows left out are never reported: the second list is always empty *)
Theorem C52_excluded_empty : forall {FS : Floats} S r a b k index grad hess used excluded grad' hess' k',
  goss_sample S r a b k index grad hess = Some (used, excluded, grad', hess', k') -> excluded = [].
Proof. exact @goss_excluded_empty. Qed.
Print Assumptions C52_excluded_empty.

Theorem C52_top_rate_panics : forall {FS : Floats} S r a b k index grad hess, @SortAbsSpec FS S ->
  (length index <= length grad)%nat -> (length index < ftonat f64 (a * fofnat f64 (length index))%f64)%nat ->
  goss_sample S r a b k index grad hess = None.
Proof. exact @goss_top_panics. Qed.
Print Assumptions C52_top_rate_panics.

Definition xr_rng : @Rng XF := @mkRng XF (fun n => Fin 0) (fun n => if Nat.even n then Fin 0 else Fin (1 / 2)) (fun _ k l => firstn k l).
Example C52_example : exists top kept grad' hess' k',
  @goss_sample XF x_sort_abs xr_rng (Fin (1 / 2)) (Fin (1 / 2)) 0 (seq 0 2) [Fin 1; Fin (-3)] [Fin 1; Fin 1]
    = Some (top ++ kept, [], grad', hess', k') /\ length top = 1%nat.
Proof.
  assert (TN : xtonat (xmul (Fin (1 / 2)) (xofnat 2)) = 1%nat).
  { simpl. replace (1 / 2 * (1 + 1)) with (IZR 1) by lra. rewrite Zfloor_IZR. reflexivity. }
  destruct (@C52_goss XF x_sort_abs xr_rng (Fin (1 / 2)) (Fin (1 / 2)) 0 [Fin 1; Fin (-3)] [Fin 1; Fin 1] x_sort_abs_spec eq_refl)
    as (top & kept & grad' & hess' & k' & E & _ & _ & L & _).
  - change (xtonat (xmul (Fin (1 / 2)) (xofnat 2)) <= 2)%nat. rewrite TN. lia.
  - exists top, kept, grad', hess', k'. split; [exact E|]. rewrite L. exact TN.
Qed.
