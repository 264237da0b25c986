(** utils.rs under exact arithmetic. *)
From Coq Require Import Reals Lra Lia List Arith Bool Psatz.
From Flocq Require Import Core.Raux.
From Verif Require Import Prelude Float FloatX Utils.
Import ListNotations.
Local Open Scope R_scope.

(** *** Fast sums *)
Lemma add_lanes_X : forall acc chunk, (length chunk <= length acc)%nat ->
  exists acc', add_lanes XOps (map Fin acc) (map Fin chunk) = map Fin acc' /\ length acc' = length acc /\
    sumR acc' = sumR acc + sumR chunk.
Proof.
  induction acc as [|a acc IH]; intros [|c chunk] L; simpl in *; try lia.
  - exists []. simpl. repeat split; lra.
  - exists (a :: acc). simpl. repeat split; lra.
  - destruct (IH chunk) as (acc' & -> & L' & S'); [lia|]. exists (a + c :: acc'). simpl. repeat split; try lia. lra.
Qed.

Lemma fold_chunks_X : forall k l acc, length acc = LANES -> exists acc' rest,
  fold_chunks XOps k (map Fin l) (map Fin acc) = (map Fin acc', map Fin rest) /\
  sumR acc' + sumR rest = sumR acc + sumR l.
Proof.
  induction k as [|k IH]; intros l acc L; cbn [fold_chunks].
  - exists acc, l. auto.
  - rewrite firstn_map, skipn_map.
    destruct (add_lanes_X acc (firstn LANES l)) as (acc' & -> & L' & S'); [rewrite L; apply firstn_le_length|].
    destruct (IH (skipn LANES l) acc') as (a2 & rest & -> & S2); [lia|]. exists a2, rest. split; auto.
    rewrite S2, S'. rewrite <- (firstn_skipn LANES l) at 3. rewrite sumR_app. lra.
Qed.

(** C56 *)
Theorem fast_sum_X : forall l, fast_sum XOps (map Fin l) = Fin (sumR l).
Proof.
  intros l. unfold fast_sum.
  replace (repeat (fzero XOps) LANES) with (map Fin (repeat 0 LANES)) by reflexivity.
  destruct (fold_chunks_X (length (map Fin l) / LANES) l (repeat 0 LANES)) as (acc & rest & E & S).
  { reflexivity. }
  match goal with |- context [fold_chunks ?a ?b ?c ?d] =>
    replace (fold_chunks a b c d) with (map Fin acc, map Fin rest) by (symmetry; exact E) end.
  unfold fsum. simpl fadd. simpl fzero. rewrite !fold_xadd_fin. simpl. f_equal.
  change (fold_right Rplus 0 acc) with (sumR acc). change (fold_right Rplus 0 rest) with (sumR rest).
  assert (sumR (repeat 0 LANES) = 0) by (unfold LANES; simpl; lra). lra.
Qed.

Theorem fast_f64_sum_X : forall l, @fast_f64_sum XF (map Fin l) = Fin (sumR l).
Proof.
  intros l. unfold fast_f64_sum. simpl to32.
  rewrite map_id. apply fast_sum_X.
Qed.

Theorem naive_sum_X : forall l, naive_sum XOps (map Fin l) = Fin (sumR l).
Proof.
  intros l. unfold naive_sum, fsum. simpl fadd. simpl fzero. rewrite fold_xadd_fin. f_equal.
  change (fold_right Rplus 0 l) with (sumR l). lra.
Qed.

(** *** Leaf weights *)
(** The regularised second order loss of a leaf, as a function of its weight. *)
Definition leaf_obj (l1 l2 G H w : R) : R := G * w + (H + l2) / 2 * (w * w) + l1 * Rabs w.

Definition soft (G l1 : R) : R := if Rlt_bool l1 G then G - l1 else if Rlt_bool G (- l1) then G + l1 else 0.

Lemma l1_reg_X : forall G l1, 0 <= l1 -> @l1_regularization XF (Fin G) (Fin l1) = Fin (soft G l1).
Proof.
  intros G l1 H. unfold l1_regularization, soft. simpl. destruct (Req_boolP l1 0) as [[-> E]|[-> E]].
  - subst. repeat rcase; f_equal; lra.
  - repeat rcase; auto.
Qed.

Lemma soft_le : forall G l1 w, 0 <= l1 -> soft G l1 * w <= G * w + l1 * Rabs w.
Proof.
  intros G l1 w H. unfold soft. destruct (Rcase_abs w) as [Hw|Hw].
  - rewrite Rabs_left by auto. repeat rcase; nra.
  - rewrite Rabs_right by auto. repeat rcase; nra.
Qed.
Lemma soft_eq : forall G l1 w, 0 <= l1 -> soft G l1 * w <= 0 -> (soft G l1 = 0 -> w = 0) -> soft G l1 * w = G * w + l1 * Rabs w.
Proof.
  intros G l1 w H. unfold soft. rcase; [|rcase].
  - intros Hw _. assert (w <= 0) by nra. rewrite Rabs_left1 by auto. lra.
  - intros Hw _. assert (0 <= w) by nra. rewrite Rabs_right by lra. lra.
  - intros _ Hw. rewrite Hw by auto. rewrite Rabs_R0. lra.
Qed.

Lemma weight_X : forall l1 l2 mds G H, 0 <= l1 -> 0 <= mds -> 0 < H + l2 ->
  exists w, @weight XF (Fin l1) (Fin l2) (Fin mds) (Fin G) (Fin H) = Fin w /\
    let u := - (soft G l1 / (H + l2)) in
    ((mds = 0 \/ Rabs u <= mds) /\ w = u \/
     mds > 0 /\ Rabs u > mds /\ w = (if Rlt_bool u 0 then - mds else mds)).
Proof.
  intros l1 l2 mds G H L1 M A. unfold weight. rewrite l1_reg_X by auto. simpl.
  destruct (Req_boolP (H + l2) 0) as [[_ E]|[-> _]]; [lra|]. simpl.
  set (u := - (soft G l1 / (H + l2))).
  destruct (Req_boolP mds 0) as [[-> E]|[-> E]]; simpl.
  - exists u. split; auto.
  - destruct (Rlt_boolP mds (Rabs u)) as [[-> E2]|[-> E2]].
    + simpl. exists (if Rlt_bool u 0 then - mds else mds). split.
      * unfold xcopysign. simpl. rewrite (Rabs_right mds) by lra. rcase; auto.
      * right. repeat split; lra.
    + exists u. split; auto.
Qed.

Lemma quad_min : forall a T w, 0 < a -> T * (- (T / a)) + a / 2 * (- (T / a) * - (T / a)) <= T * w + a / 2 * (w * w).
Proof.
  intros a T w A. replace (T * - (T / a) + a / 2 * (- (T / a) * - (T / a))) with (- (T * T) / (2 * a)) by (field; lra).
  assert (0 <= a / 2 * ((w + T / a) * (w + T / a))) as Hs.
  { apply Rmult_le_pos; [lra|]. apply Rle_0_sqr. }
  replace (T * w + a / 2 * (w * w)) with (a / 2 * ((w + T / a) * (w + T / a)) + - (T * T) / (2 * a)) by (field; lra).
  lra.
Qed.

(** C22, first half *)
Theorem weight_optimal : forall l1 l2 mds G H, 0 <= l1 -> 0 <= l2 -> 0 <= mds -> 0 < H + l2 ->
  exists w, @weight XF (Fin l1) (Fin l2) (Fin mds) (Fin G) (Fin H) = Fin w /\
    (mds = 0 \/ Rabs w <= mds) /\
    forall w', mds = 0 \/ Rabs w' <= mds -> leaf_obj l1 l2 G H w <= leaf_obj l1 l2 G H w'.
Proof.
  intros l1 l2 mds G H L1 L2 M A. destruct (weight_X l1 l2 mds G H L1 M A) as (w & Ew & C).
  exists w. split; auto. cbv zeta in C. set (T := soft G l1) in *. set (a := H + l2) in *.
  assert (Tpos : T * - (T / a) <= 0).
  { replace (T * - (T / a)) with (- (T * T / a)) by (field; lra).
    assert (0 <= T * T / a). { apply Rmult_le_pos; [nra|]. left. apply Rinv_0_lt_compat; auto. } lra. }
  destruct C as [[C ->]|(C1 & C2 & ->)].
  - split; auto. intros w' _. unfold leaf_obj. fold a.
    pose proof (soft_le G l1 w' L1) as S1. fold T in S1.
    pose proof (soft_eq G l1 (- (T / a)) L1) as S2. fold T in S2.
    specialize (S2 Tpos). assert (T = 0 -> - (T / a) = 0) by (intros ->; field; lra). specialize (S2 H0).
    pose proof (quad_min a T w' A). lra.
  - split.
    { right. destruct (Rlt_bool (- (T / a)) 0); [rewrite Rabs_Ropp|]; rewrite Rabs_right; lra. }
    intros w' [Hw'|Hw']; [lra|]. unfold leaf_obj. fold a.
    pose proof (soft_le G l1 w' L1) as S1. fold T in S1.
    assert (W : - mds <= w' <= mds) by (apply Rabs_le_inv; auto).
    destruct (Rlt_boolP (- (T / a)) 0) as [[-> E]|[-> E]].
    + assert (HT : mds * a < T). { rewrite Rabs_left in C2 by auto. assert (T / a * a = T) by (field; lra). nra. }
      assert (0 < T) by nra.
      pose proof (soft_eq G l1 (- mds) L1) as S2. fold T in S2. specialize (S2 ltac:(nra) ltac:(lra)).
      assert (0 <= (w' + mds) * (T + a / 2 * (w' - mds))) by (apply Rmult_le_pos; nra). nra.
    + assert (HT : T < - (mds * a)). { rewrite Rabs_right in C2 by lra. assert (T / a * a = T) by (field; lra). nra. }
      assert (T < 0) by nra.
      pose proof (soft_eq G l1 mds L1) as S2. fold T in S2. specialize (S2 ltac:(nra) ltac:(lra)).
      assert (0 <= (mds - w') * - (T + a / 2 * (w' + mds))) by (apply Rmult_le_pos; nra). nra.
Qed.

(** C22, second half: the recorded gains are twice the decrease of the loss. *)
Theorem gain_given_weight_X : forall l2 G H w,
  @gain_given_weight XF (Fin l2) (Fin G) (Fin H) (Fin w) = Fin (2 * (leaf_obj 0 l2 G H 0 - leaf_obj 0 l2 G H w)).
Proof.
  intros. unfold gain_given_weight, leaf_obj. cbn. f_equal. rewrite Rabs_R0. field.
Qed.
Theorem gain_X : forall l2 G H, 0 < H + l2 -> exists w,
  @weight XF (Fin 0) (Fin l2) (Fin 0) (Fin G) (Fin H) = Fin w /\
  @gain XF (Fin l2) (Fin G) (Fin H) = Fin (2 * (leaf_obj 0 l2 G H 0 - leaf_obj 0 l2 G H w)).
Proof.
  intros l2 G H A. destruct (weight_X 0 l2 0 G H) as (w & -> & C); try lra.
  exists w. split; auto. cbv zeta in C. destruct C as [[_ ->]|[C _]]; [|lra].
  unfold gain. cbn. rcase; [lra|]. f_equal. unfold leaf_obj.
  assert (soft G 0 = G) as -> by (unfold soft; repeat rcase; lra).
  rewrite Rabs_R0. field. lra.
Qed.

Example weight_optimal_example :
  @weight XF (Fin 1) (Fin 1) (Fin 2) (Fin (-9)) (Fin 3) = Fin 2 /\ @weight XF (Fin 1) (Fin 1) (Fin (1/2)) (Fin 5) (Fin 3) = Fin (-(1/2)).
Proof.
  split; unfold weight, l1_regularization; simpl; rdec; simpl; rdec; simpl.
  - rewrite Rabs_right by lra. rdec. f_equal. lra.
  - rewrite Rabs_left by lra. rdec. simpl. unfold xcopysign; simpl. rdec. simpl. f_equal. rewrite Rabs_right; lra.
Qed.
