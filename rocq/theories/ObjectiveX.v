(** Objectives in exact arithmetic. *)
From Coq Require Import Reals Lra Lia ZArith List Bool Arith Permutation Rtrigo_def Rpower Ranalysis.
From Flocq Require Import Core.Raux.
From Verif Require Import Prelude Float FloatX OrdProofs Utils Objective Metric MetricX.
Import ListNotations.
Local Open Scope R_scope.

(** *** The logistic function and its derivative *)
Lemma d_ext : forall f g x l, (forall y, f y = g y) -> derivable_pt_lim f x l -> derivable_pt_lim g x l.
Proof. intros f g x l E D eps He. destruct (D eps He) as [d Hd]. exists d. intros h H1 H2. rewrite <- !E. auto. Qed.

Lemma d_neg : forall x, derivable_pt_lim (fun y => - y) x (-1).
Proof. intros x. apply (d_ext (- id)%F); [reflexivity|]. apply derivable_pt_lim_opp. apply derivable_pt_lim_id. Qed.
Lemma d_expneg : forall x, derivable_pt_lim (fun y => exp (- y)) x (- exp (- x)).
Proof.
  intros x. replace (- exp (- x)) with (exp (- x) * -1) by ring.
  apply (derivable_pt_lim_comp (fun y => - y) exp); [apply d_neg|apply derivable_pt_lim_exp].
Qed.
Lemma d_den : forall x, derivable_pt_lim (fun y => 1 + exp (- y)) x (- exp (- x)).
Proof.
  intros x. replace (- exp (- x)) with (0 + - exp (- x)) by ring.
  apply (derivable_pt_lim_plus (fct_cte 1) (fun y => exp (- y))); [apply derivable_pt_lim_const|apply d_expneg].
Qed.
Lemma d_sig : forall x, derivable_pt_lim sig x (sig x * (1 - sig x)).
Proof.
  intros x. pose proof (sig_den x) as Hd.
  apply (d_ext (div_fct (fct_cte 1) (fun y => 1 + exp (- y)))).
  - intros y. unfold div_fct, fct_cte, sig. field. apply Rgt_not_eq. apply sig_den.
  - replace (sig x * (1 - sig x)) with ((0 * (1 + exp (- x)) - (- exp (- x)) * fct_cte 1 x) / Rsqr (1 + exp (- x))).
    + apply (derivable_pt_lim_div (fct_cte 1) (fun y => 1 + exp (- y)) x 0 (- exp (- x))); [apply derivable_pt_lim_const|apply d_den|apply Rgt_not_eq; auto].
    + unfold sig, fct_cte, Rsqr. field. lra.
Qed.

Lemma d_ln_sig : forall x, derivable_pt_lim (fun y => ln (sig y)) x (1 - sig x).
Proof.
  intros x. pose proof (sig_range x).
  replace (1 - sig x) with (/ sig x * (sig x * (1 - sig x))) by (field; lra).
  apply (derivable_pt_lim_comp sig ln); [apply d_sig|apply derivable_pt_lim_ln; lra].
Qed.
Lemma d_1sig : forall x, derivable_pt_lim (fun y => 1 - sig y) x (- (sig x * (1 - sig x))).
Proof.
  intros x. replace (- (sig x * (1 - sig x))) with (0 - sig x * (1 - sig x)) by ring.
  apply (derivable_pt_lim_minus (fct_cte 1) sig); [apply derivable_pt_lim_const|apply d_sig].
Qed.
Lemma d_ln_1sig : forall x, derivable_pt_lim (fun y => ln (1 - sig y)) x (- sig x).
Proof.
  intros x. pose proof (sig_range x).
  replace (- sig x) with (/ (1 - sig x) * (- (sig x * (1 - sig x)))) by (field; lra).
  apply (derivable_pt_lim_comp (fun y => 1 - sig y) ln); [apply d_1sig|apply derivable_pt_lim_ln; lra].
Qed.

Lemma d_ll : forall y w x, derivable_pt_lim (fun x => w * ll (y, x, w)) x ((sig x - y) * w).
Proof.
  intros y w x. unfold ll.
  apply (d_ext (mult_real_fct (- w) (plus_fct (mult_real_fct y (fun x => ln (sig x))) (mult_real_fct (1 - y) (fun x => ln (1 - sig x)))))).
  - intros z. unfold mult_real_fct, plus_fct. ring.
  - replace ((sig x - y) * w) with (- w * (y * (1 - sig x) + (1 - y) * - sig x)) by ring.
    apply derivable_pt_lim_scal. apply derivable_pt_lim_plus; apply derivable_pt_lim_scal; [apply d_ln_sig|apply d_ln_1sig].
Qed.
Lemma d_ll_grad : forall y w x, derivable_pt_lim (fun x => (sig x - y) * w) x (sig x * (1 - sig x) * w).
Proof.
  intros y w x. apply (d_ext (mult_real_fct w (minus_fct sig (fct_cte y)))).
  - intros z. unfold mult_real_fct, minus_fct, fct_cte. ring.
  - replace (sig x * (1 - sig x) * w) with (w * (sig x * (1 - sig x) - 0)) by ring.
    apply derivable_pt_lim_scal. apply derivable_pt_lim_minus; [apply d_sig|apply derivable_pt_lim_const].
Qed.

Lemma d_lin : forall y x, derivable_pt_lim (fun x => x - y) x 1.
Proof.
  intros y x. replace 1 with (1 - 0) by ring.
  apply (derivable_pt_lim_minus id (fct_cte y)); [apply derivable_pt_lim_id|apply derivable_pt_lim_const].
Qed.
Lemma d_se : forall y w x, derivable_pt_lim (fun x => / 2 * ((y - x) * (y - x) * w)) x ((x - y) * w).
Proof.
  intros y w x. apply (d_ext (mult_real_fct (w / 2) (mult_fct (fun x => x - y) (fun x => x - y)))).
  - intros z. unfold mult_real_fct, mult_fct. field.
  - replace ((x - y) * w) with (w / 2 * (1 * (x - y) + (x - y) * 1)) by field.
    apply derivable_pt_lim_scal. apply (derivable_pt_lim_mult (fun x => x - y) (fun x => x - y)); apply d_lin.
Qed.
Lemma d_se_grad : forall y w x, derivable_pt_lim (fun x => (x - y) * w) x w.
Proof.
  intros y w x. apply (d_ext (mult_real_fct w (fun x => x - y))).
  - intros z. unfold mult_real_fct. ring.
  - replace w with (w * 1) at 2 by ring. apply derivable_pt_lim_scal. apply d_lin.
Qed.

(** *** Rows of the model *)
Definition loss_R (o : ObjectiveType) (y w x : R) : R :=
  match o with LogLoss => w * ll (y, x, w) | SquaredLoss => (y - x) * (y - x) * w end.
Definition grad_R (o : ObjectiveType) (y w x : R) : R :=
  match o with LogLoss => (sig x - y) * w | SquaredLoss => (x - y) * w end.
Definition hess_R (o : ObjectiveType) (y w x : R) : R :=
  match o with LogLoss => sig x * (1 - sig x) * w | SquaredLoss => w end.

Lemma loss_row_X : forall o y w x,
  to32 (match o with LogLoss => @logloss_row XF (Fin y) (Fin x) (Fin w) | SquaredLoss => @squared_row XF (Fin y) (Fin x) (Fin w) end)
  = Fin (loss_R o y w x).
Proof.
  intros [] y w x.
  - rewrite logloss_row_X. reflexivity.
  - unfold squared_row. simpl. f_equal.
Qed.
Lemma grad_hess_row_X : forall o y w x,
  @grad_hess_row XF o (Fin y) (Fin x) (Fin w) = (Fin (grad_R o y w x), Fin (hess_R o y w x)).
Proof.
  intros [] y w x; unfold grad_hess_row.
  - rewrite sigmoid_X. simpl. f_equal.
  - simpl. f_equal.
Qed.

Definition coef (o : ObjectiveType) : R := match o with LogLoss => 1 | SquaredLoss => / 2 end.
Lemma grad_derives : forall o y w x, derivable_pt_lim (fun x => coef o * loss_R o y w x) x (grad_R o y w x).
Proof.
  intros [] y w x; simpl.
  - apply (d_ext (fun x => w * ll (y, x, w))); [intros; simpl; ring|apply d_ll].
  - apply d_se.
Qed.
Lemma hess_derives : forall o y w x, derivable_pt_lim (grad_R o y w) x (hess_R o y w x).
Proof. intros [] y w x; simpl; [apply d_ll_grad|apply d_se_grad]. Qed.
Lemma hess_nonneg : forall o y w x, 0 <= w -> 0 <= hess_R o y w x.
Proof. intros [] y w x H; simpl; auto. pose proof (sig_range x). assert (0 < sig x * (1 - sig x)) by nra. nra. Qed.

Lemma split_nth : forall A B (l : list (A * B)) i p, nth_error l i = Some p ->
  nth_error (fst (split l)) i = Some (fst p) /\ nth_error (snd (split l)) i = Some (snd p).
Proof.
  induction l as [|[a b] l IH]; intros [|i] p H; simpl in *; try discriminate; destruct (split l) eqn:E; simpl.
  - injection H as <-. auto.
  - apply (IH i p H).
Qed.
Lemma split_map : forall A B C (f : A -> B * C) l, split (map f l) = (map (fun x => fst (f x)) l, map (fun x => snd (f x)) l).
Proof. induction l as [|a l IH]; simpl; auto. rewrite IH. destruct (f a). reflexivity. Qed.

(** gradients and losses of a data set, row by row *)
Lemma calc_grad_hess_X : forall o rows,
  @calc_grad_hess XF o (ys rows) (yhats rows) (ws rows)
  = (map (fun '(y, x, w) => Fin (grad_R o y w x)) rows, map (fun '(y, x, w) => Fin (hess_R o y w x)) rows).
Proof.
  intros o rows. unfold calc_grad_hess. pose proof (zip3_rows rows) as Z. unfold zip3 in *. simpl in *. rewrite Z.
  rewrite map_map. rewrite split_map.
  f_equal; apply map_ext; intros [[y x] w]; simpl fst; simpl snd; rewrite grad_hess_row_X; reflexivity.
Qed.
Lemma calc_loss_X : forall o rows,
  @calc_loss XF o (ys rows) (yhats rows) (ws rows) = map (fun '(y, x, w) => Fin (loss_R o y w x)) rows.
Proof.
  intros o rows. unfold calc_loss. pose proof (zip3_rows rows) as Z. unfold zip3 in *. simpl in *. rewrite Z.
  rewrite map_map. apply map_ext. intros [[y x] w]. simpl fst; simpl snd. exact (loss_row_X o y w x).
Qed.

(** *** The initial base score *)
Lemma init_sums_X : forall l : list (R * R),
  @init_sums XF (map (fun p => Fin (fst p)) l) (map (fun p => Fin (snd p)) l)
  = Some (Fin (sumR (map (fun p => snd p * fst p) l)), Fin (sumR (map snd l))).
Proof.
  intros l. unfold init_sums. rewrite map_length.
  assert (G : forall n k a b, (k + n = length l)%nat ->
    foldM (fun '(ytot, ntot) i =>
           let* yi := nth_error (map (fun p : R * R => Fin (fst p)) l) i in
           let* wi := nth_error (map (fun p : R * R => Fin (snd p)) l) i in
           Some (xadd ytot (xmul wi yi), xadd ntot wi)) (seq k n) (Fin a, Fin b)
    = Some (Fin (a + sumR (map (fun p => snd p * fst p) (skipn k l))), Fin (b + sumR (map snd (skipn k l))))).
  { induction n as [|n IH]; intros k a b H.
    - simpl. rewrite skipn_all2 by lia. simpl. rewrite !Rplus_0_r. reflexivity.
    - simpl.
      destruct (nth_error l k) as [p|] eqn:E; [|apply nth_error_None in E; lia].
      rewrite (map_nth_error _ _ _ E). simpl. rewrite (map_nth_error _ _ _ E). simpl.
      rewrite IH by lia.
      assert (ES : skipn k l = p :: skipn (S k) l).
      { clear - E. revert k E. induction l as [|x l IH]; intros [|k] E; simpl in *; try discriminate; [congruence|auto]. }
      rewrite ES. simpl. f_equal. f_equal; f_equal; ring. }
  refine (eq_trans (G (length l) 0%nat 0 0 eq_refl) _). simpl. rewrite !Rplus_0_l. reflexivity.
Qed.

Lemma exp_ln_ratio : forall a b, 0 < a -> 0 < b -> sig (ln (a / b)) = a / (a + b).
Proof.
  intros a b Ha Hb. unfold sig. rewrite exp_Ropp, exp_ln.
  - field. repeat split; lra.
  - apply Rdiv_lt_0_compat; auto.
Qed.

Section Base.
Variable o : ObjectiveType.
Variable l : list (R * R).
Let Y := sumR (map (fun p => snd p * fst p) l).
Let N := sumR (map snd l).
Hypothesis OK : match o with LogLoss => 0 < Y < N | SquaredLoss => 0 < N end.

Definition base_R : R := match o with LogLoss => ln (Y / (N - Y)) | SquaredLoss => Y / N end.

Lemma calc_init_X : @calc_init XF o (map (fun p => Fin (fst p)) l) (map (fun p => Fin (snd p)) l) = Some (Fin base_R).
Proof.
  unfold calc_init. rewrite init_sums_X. fold Y N. cbn [bind]. f_equal. unfold base_R. destruct o.
  - cbn [f64 XF fln fdiv fsub XOps]. change (xsub (Fin N) (Fin Y)) with (Fin (N - Y)).
    rewrite xdiv_fin by lra. apply xln_pos. apply Rdiv_lt_0_compat; lra.
  - exact (xdiv_fin Y N ltac:(lra)).
Qed.

Lemma grad_sum : sumR (map (fun p => grad_R o (fst p) (snd p) base_R) l) = 0.
Proof.
  assert (G : forall c, sumR (map (fun p => (c - fst p) * snd p) l) = c * N - Y).
  { intros c. unfold N, Y. rewrite <- sumR_map_scal, <- sumR_map_minus. apply sumR_map_ext. intros p _. ring. }
  unfold base_R. destruct o; simpl.
  - rewrite G. rewrite exp_ln_ratio by lra. field. lra.
  - rewrite G. field. lra.
Qed.
End Base.
