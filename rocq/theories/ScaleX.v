(** Exact arithmetic: the laws of a change of unit, sign and origin. *)
From Coq Require Import List Arith NArith Lia Bool Reals Lra.
From Flocq Require Import Core.Raux.
From Verif Require Import Prelude Float FloatX Utils Data Histogram Node Splitter Tree Objective Metric Sampler Booster Scale ScaleFit.
Import ListNotations.
Local Open Scope R_scope.

Section X.
Variable a : R.
Hypothesis A : a <> 0.
Definition sx (x : xr) : xr := xmul (Fin a) x.
Definition sq (x : xr) : xr := xmul (Fin (a * a)) x.
Definition sm (x : xr) : xr := xmul (Fin (Rabs a)) x.

Lemma a2 : 0 < a * a.
Proof. destruct (Rtotal_order a 0) as [H|[H|H]]; nra. Qed.
Lemma a_abs : 0 < Rabs a.
Proof. apply Rabs_pos_lt; auto. Qed.

(** multiplication by a non-zero number *)
Lemma mul_add : forall k x y, k <> 0 -> xmul (Fin k) (xadd x y) = xadd (xmul (Fin k) x) (xmul (Fin k) y).
Proof.
  intros k [r| | |] [r'| | |] K; simpl; unfold xsgn; repeat rcase; simpl; auto; try lra; f_equal; lra.
Qed.
Lemma mul_neg : forall k x, xmul (Fin k) (xneg x) = xneg (xmul (Fin k) x).
Proof. intros k [r| | |]; simpl; unfold xsgn; repeat rcase; simpl; auto; try lra; f_equal; lra. Qed.
Lemma mul_sub : forall k x y, k <> 0 -> xmul (Fin k) (xsub x y) = xsub (xmul (Fin k) x) (xmul (Fin k) y).
Proof. intros k x y K. unfold xsub. rewrite mul_add, mul_neg; auto. Qed.
Ltac sg := simpl; unfold xsgn; repeat rcase; simpl; auto; try nra; try (f_equal; lra); unfold xsgn; repeat rcase; simpl; auto; try nra; f_equal; lra.
Lemma mul_assoc : forall k x y, k <> 0 -> xmul (Fin k) (xmul x y) = xmul (xmul (Fin k) x) y.
Proof. intros k [r| | |] [r'| | |] K; sg. Qed.
Lemma mul_assoc_r : forall k x y, k <> 0 -> xmul (Fin k) (xmul x y) = xmul x (xmul (Fin k) y).
Proof. intros k [r| | |] [r'| | |] K; sg. Qed.
Lemma mul_sq : forall x y, xmul (sx x) (sx y) = sq (xmul x y).
Proof.
  intros x y. unfold sx, sq. rewrite <- mul_assoc by auto. rewrite <- mul_assoc_r by auto.
  pose proof a2. destruct (xmul x y) as [r| | |]; sg.
Qed.
Lemma mul_div : forall k x y, k <> 0 -> xmul (Fin k) (xdiv x y) = xdiv (xmul (Fin k) x) y.
Proof.
  intros k [r| | |] [r'| | |] K; simpl; unfold xsgn; repeat rcase; simpl; auto; try nra;
    unfold xsgn; repeat rcase; simpl; auto; try nra; f_equal; try lra; unfold Rdiv; ring.
Qed.
Lemma mul_lt_pos : forall k x y, 0 < k -> xlt (xmul (Fin k) x) (xmul (Fin k) y) = xlt x y.
Proof. intros k [r| | |] [r'| | |] K; simpl; unfold xsgn; repeat rcase; simpl; auto; try lra; repeat rcase; auto; nra. Qed.
Lemma mul_lt_neg : forall k x y, k < 0 -> xlt (xmul (Fin k) x) (xmul (Fin k) y) = xlt y x.
Proof. intros k [r| | |] [r'| | |] K; simpl; unfold xsgn; repeat rcase; simpl; auto; try lra; repeat rcase; auto; nra. Qed.
Lemma mul_le_pos : forall k x y, 0 < k -> xle (xmul (Fin k) x) (xmul (Fin k) y) = xle x y.
Proof. intros k [r| | |] [r'| | |] K; simpl; unfold xsgn; repeat rcase; simpl; auto; try lra; repeat rcase; auto; nra. Qed.
Lemma mul_le_neg : forall k x y, k < 0 -> xle (xmul (Fin k) x) (xmul (Fin k) y) = xle y x.
Proof. intros k [r| | |] [r'| | |] K; simpl; unfold xsgn; repeat rcase; simpl; auto; try lra; repeat rcase; auto; nra. Qed.
Lemma mul_eq0 : forall k x, k <> 0 -> xeq (xmul (Fin k) x) (Fin 0) = xeq x (Fin 0).
Proof. intros k [r| | |] K; simpl; unfold xsgn; repeat rcase; simpl; auto; try lra; repeat rcase; auto; try lra; try nra. Qed.
Lemma mul_nan : forall k x, k <> 0 -> xisnan (xmul (Fin k) x) = xisnan x.
Proof. intros k [r| | |] K; simpl; unfold xsgn; repeat rcase; simpl; auto; lra. Qed.
Lemma mul_abs : forall k x, k <> 0 -> xabs (xmul (Fin k) x) = xmul (Fin (Rabs k)) (xabs x).
Proof.
  intros k [r| | |] K; simpl; auto; [rewrite Rabs_mult; auto| |];
    (assert (0 < Rabs k) by (apply Rabs_pos_lt; auto)); unfold xsgn; repeat rcase; simpl; auto; lra.
Qed.
Lemma total_eq : forall x y, xtotal x y = if xisnan x then (if xisnan y then Eq else Gt) else if xisnan y then Lt
  else if xlt x y then Lt else if xlt y x then Gt else Eq.
Proof. intros [] []; reflexivity. Qed.
Lemma mul_total : forall k x y, 0 < k -> xtotal (xmul (Fin k) x) (xmul (Fin k) y) = xtotal x y.
Proof. intros k x y K. rewrite !total_eq, !mul_nan, !mul_lt_pos by lra. reflexivity. Qed.

Definition xneg_b : bool := Rlt_bool a 0.

Theorem scale_laws : @ScaleLaws XF xneg_b (fun x x' => x' = sx x) (fun x x' => x' = sq x) (fun x x' => x' = sx x).
Proof.
  assert (Z : forall k, Fin 0 = xmul (Fin k) (Fin 0)) by (intros k; simpl; f_equal; lra).
  pose proof a2 as A2. assert (A3 : a * a <> 0) by lra. unfold sx, sq, xneg_b. constructor; simpl f32; simpl f64; simpl fcar; unfold sx, sq.
  - apply Z.
  - intros x x' y y' -> ->. symmetry. apply mul_add; auto.
  - intros x x' y y' -> ->. symmetry. apply mul_sub; auto.
  - intros x x' h ->. symmetry. apply mul_assoc; auto.
  - intros x x' ->. symmetry. apply mul_assoc_r; auto.
  - intros x x' h ->. symmetry. apply mul_div; auto.
  - intros x x' y y' -> ->. destruct (Rlt_boolP a 0) as [[-> H]|[-> H]]; [apply mul_lt_neg|apply mul_lt_pos]; lra.
  - intros x x' y y' -> ->. destruct (Rlt_boolP a 0) as [[-> H]|[-> H]]; [apply mul_le_neg|apply mul_le_pos]; lra.
  - intros x x' ->. apply mul_eq0; auto.
  - simpl. unfold xsgn. destruct (Rlt_boolP a 0) as [[-> H]|[-> H]]; repeat rcase; auto; lra.
  - reflexivity.
  - intros x x' y y' -> ->. change (xtotal (xabs (xmul (Fin a) x)) (xabs (xmul (Fin a) y)) = xtotal (xabs x) (xabs y)).
    rewrite !mul_abs by auto. apply mul_total. apply a_abs.
  - intros x x' y y' -> ->. apply mul_sq.
  - apply Z.
  - simpl. unfold xsgn. repeat rcase; auto; lra.
  - intros x x' y y' -> ->. symmetry. apply mul_add; auto.
  - intros x x' y y' -> ->. symmetry. apply mul_sub; auto.
  - intros x x' ->. symmetry. apply mul_neg.
  - intros x x' h ->. symmetry. apply mul_assoc_r; auto.
  - intros x x' h ->. symmetry. apply mul_div; auto.
  - intros x x' y y' -> ->. apply mul_lt_pos; auto.
  - intros x x' y y' -> ->. apply mul_le_pos; auto.
  - intros x x' ->. apply mul_nan; auto.
  - apply Z.
  - intros x x' y y' -> ->. symmetry. apply mul_add; auto.
  - intros x x' h ->. symmetry. apply mul_assoc; auto.
  - intros x x' h ->. symmetry. apply mul_div; auto.
  - intros x x' ->. reflexivity.
  - intros x x' ->. reflexivity.
Qed.

Lemma x_mid : @mid_laws XF.
Proof.
  intros u x y. simpl. unfold lit. simpl.
  assert (T : 1 + 1 <> 0) by lra.
  split; destruct u as [u| | |]; destruct x as [x| | |]; destruct y as [y| | |]; simpl; auto; repeat rcase; simpl; auto; try lra; try discriminate;
    repeat rcase; simpl; auto; try lra; try discriminate.
Qed.

Lemma x_total : @total_law XF (fun x x' => x' = sq x).
Proof. intros x x' y y' -> ->. apply mul_total. apply a2. Qed.

(** *** Leaf weights *)
Lemma l1_scale : forall g l, xle (Fin 0) l = true -> @l1_regularization XF (sx g) (sm l) = sx (@l1_regularization XF g l).
Proof.
  intros g l H. unfold sx, sm. pose proof a_abs as AB.
  change ((if xeq (xmul (Fin (Rabs a)) l) (Fin 0) then xmul (Fin a) g else if xlt (xmul (Fin (Rabs a)) l) (xmul (Fin a) g)
    then xsub (xmul (Fin a) g) (xmul (Fin (Rabs a)) l) else if xlt (xmul (Fin a) g) (xneg (xmul (Fin (Rabs a)) l))
    then xadd (xmul (Fin a) g) (xmul (Fin (Rabs a)) l) else Fin 0) =
    xmul (Fin a) (if xeq l (Fin 0) then g else if xlt l g then xsub g l else if xlt g (xneg l) then xadd g l else Fin 0)).
  rewrite mul_eq0 by lra. destruct l as [l| | |]; simpl in H; try discriminate; repeat rcase; try discriminate.
  - simpl. rcase; auto. destruct (Rtotal_order a 0) as [S|[S|S]]; [|lra|].
    + rewrite Rabs_left by auto. destruct g as [g| | |]; simpl; unfold xsgn; repeat rcase; simpl; auto; try nra; f_equal; lra.
    + rewrite Rabs_right by lra. destruct g as [g| | |]; simpl; unfold xsgn; repeat rcase; simpl; auto; try nra; f_equal; lra.
  - simpl. unfold xsgn. repeat rcase; try lra; destruct g as [g| | |]; simpl; unfold xsgn; repeat rcase; simpl; auto; try lra; f_equal; lra.
Qed.

Lemma weight_scale : forall l1 l2 mds g h, xle (Fin 0) l1 = true -> xle (Fin 0) mds = true ->
  @weight XF (sm l1) l2 (sm mds) (sx g) h = sx (@weight XF l1 l2 mds g h).
Proof.
  intros l1 l2 mds g h H1 H2. unfold weight. rewrite l1_scale by auto. set (r := @l1_regularization XF g l1). clearbody r.
  pose proof a_abs as AB.
  change ((let w := xneg (xdiv (sx r) (xadd h l2)) in if negb (xeq (sm mds) (Fin 0)) && xlt (sm mds) (xabs w) then xcopysign (sm mds) w else w) =
          sx (let w := xneg (xdiv r (xadd h l2)) in if negb (xeq mds (Fin 0)) && xlt mds (xabs w) then xcopysign mds w else w)). cbv zeta.
  unfold sx at 1 2 3. rewrite <- mul_div, <- mul_neg by auto. set (w := xneg (xdiv r (xadd h l2))).
  rewrite mul_abs by auto. unfold sm. rewrite mul_eq0 by lra. rewrite mul_lt_pos by auto.
  destruct (negb (xeq mds (Fin 0)) && xlt mds (xabs w)) eqn:C; [|reflexivity].
  apply andb_true_iff in C. destruct C as [_ C]. clearbody w.
  unfold xcopysign, sx. destruct mds as [m| | |]; simpl in H2; try discriminate; [|destruct w; discriminate]. rcase; [|discriminate].
  assert (K : xneg_sign (xmul (Fin a) w) = if Rlt_bool a 0 then negb (xneg_sign w) else xneg_sign w).
  { destruct w as [w| | |]; simpl in *; try discriminate; unfold xsgn.
    - revert C. repeat rcase; simpl; auto; try nra; try (intros C; discriminate). intros _. assert (w = 0) by nra. subst. rewrite Rabs_R0 in *. lra.
    - repeat rcase; simpl; auto; lra.
    - repeat rcase; simpl; auto; lra. }
  rewrite K. simpl. rewrite Rabs_mult, Rabs_Rabsolu, (Rabs_right m) by lra.
  destruct (Rlt_boolP a 0) as [[-> S]|[-> S]]; [rewrite Rabs_left by auto|rewrite Rabs_right by lra];
    destruct (xneg_sign w); simpl; f_equal; lra.
Qed.
End X.
