(** The area under the ROC curve is a function of the ranking: strictly increasing maps of the scores, another unit of
    the weights, and exchanged labels. *)
From Coq Require Import Reals Lra Lia ZArith List Bool Arith Permutation.
From Flocq Require Import Core.Raux.
From Verif Require Import Prelude Float FloatX FloatLaws OrdProofs Metric MetricX.
Import ListNotations.
Local Open Scope R_scope.

Notation arow := (R * xr * R)%type.
Definition auc (S : @sort_desc XF) (rows : list arow) : option xr :=
  @roc_auc_score XF S (map (fun r => Fin (lab r)) rows) (map (fun r => sc r) rows) (map (fun r => Fin (snd r)) rows).
Definition ranked (rows : list arow) : Prop := rows <> [] /\ forall r, In r rows -> 0 <= lab r <= 1 /\ 0 <= snd r /\ xisnan (sc r) = false.
Lemma auc_val : forall S rows, @SortDescSpec XF S -> ranked rows ->
  auc S rows = Some (if Rlt_bool 0 (PP rows) && Rlt_bool 0 (QQ rows) then Fin (UU rows / (PP rows * QQ rows)) else XNaN).
Proof. intros S rows HS [NE H]. apply roc_auc_X; auto. Qed.

(** Rows rewritten one by one. *)
Lemma sum_of : forall (g : arow -> arow) (f : arow -> R) rows, sumR (map f (map g rows)) = sumR (map (fun r => f (g r)) rows).
Proof. intros. rewrite map_map. reflexivity. Qed.
Lemma ranked_map : forall (g : arow -> arow) rows, ranked rows ->
  (forall r, In r rows -> 0 <= lab (g r) <= 1 /\ 0 <= snd (g r) /\ xisnan (sc (g r)) = false) -> ranked (map g rows).
Proof.
  intros g rows [NE H] HG. split; [destruct rows; [congruence|discriminate]|].
  intros r Hr. apply in_map_iff in Hr. destruct Hr as (a & <- & Ha). auto.
Qed.

Lemma xeq_lt : forall a b, xisnan a = false -> xisnan b = false -> xeq a b = negb (xlt a b) && negb (xlt b a).
Proof.
  intros [a| | |] [b| | |] HA HB; try discriminate; try reflexivity. simpl.
  destruct (Req_bool_spec a b); destruct (Rlt_bool_spec a b); destruct (Rlt_bool_spec b a); simpl; auto; lra.
Qed.
Lemma kern_lt : forall a b a' b', xisnan a = false -> xisnan b = false -> xisnan a' = false -> xisnan b' = false ->
  xlt a' b' = xlt a b -> xlt b' a' = xlt b a -> kern a' b' = kern a b.
Proof. intros a b a' b' A B A' B' E1 E2. unfold kern. rewrite (xeq_lt a b), (xeq_lt a' b'), E1, E2; auto. Qed.

Lemma auc_order : forall S S' rows (f : xr -> xr), @SortDescSpec XF S -> @SortDescSpec XF S' -> ranked rows ->
  (forall r, In r rows -> xisnan (f (sc r)) = false) ->
  (forall r r', In r rows -> In r' rows -> xlt (f (sc r)) (f (sc r')) = xlt (sc r) (sc r')) ->
  auc S' (map (fun r => (lab r, f (sc r), snd r)) rows) = auc S rows.
Proof.
  intros S S' rows f HS HS' HR HN HF. rewrite (auc_val S rows), (auc_val S'); auto.
  2:{ apply ranked_map; auto. intros r Hr. destruct (proj2 HR r Hr) as (A & B & _). pose proof (HN r Hr). unfold lab, sc in *. cbn [fst snd]. auto. }
  assert (EP : PP (map (fun r => (lab r, f (sc r), snd r)) rows) = PP rows) by (unfold PP; rewrite sum_of; reflexivity).
  assert (EQ : QQ (map (fun r => (lab r, f (sc r), snd r)) rows) = QQ rows) by (unfold QQ; rewrite sum_of; reflexivity).
  assert (EU : UU (map (fun r => (lab r, f (sc r), snd r)) rows) = UU rows).
  { unfold UU. rewrite sum_of. apply sumR_map_ext. intros r Hr. rewrite sum_of. apply sumR_map_ext. intros r' Hr'.
    cbn [lab sc fst snd]. destruct (proj2 HR r Hr) as (_ & _ & N1). destruct (proj2 HR r' Hr') as (_ & _ & N2).
    pose proof (HN r Hr) as N3. pose proof (HN r' Hr') as N4. pose proof (HF r r' Hr Hr') as F1. pose proof (HF r' r Hr' Hr) as F2.
    unfold lab, sc in *. cbn [fst snd]. rewrite (kern_lt (snd (fst r)) (snd (fst r'))); auto. }
  rewrite EP, EQ, EU. reflexivity.
Qed.

Lemma auc_weight_unit : forall S S' rows c, @SortDescSpec XF S -> @SortDescSpec XF S' -> ranked rows -> 0 < c ->
  auc S' (map (fun r => (fst r, c * snd r)) rows) = auc S rows.
Proof.
  intros S S' rows c HS HS' HR HC. rewrite (auc_val S rows), (auc_val S'); auto.
  2:{ apply ranked_map; auto. intros r Hr. destruct (proj2 HR r Hr) as (A & B & D). unfold lab, sc in *. cbn [fst snd]. repeat split; try tauto. apply Rmult_le_pos; lra. }
  assert (EP : PP (map (fun r => (fst r, c * snd r)) rows) = c * PP rows).
  { unfold PP. rewrite sum_of, <- sumR_map_scal. apply sumR_map_ext. intros r _. unfold lab. cbn [fst snd]. ring. }
  assert (EQ : QQ (map (fun r => (fst r, c * snd r)) rows) = c * QQ rows).
  { unfold QQ. rewrite sum_of, <- sumR_map_scal. apply sumR_map_ext. intros r _. unfold lab. cbn [fst snd]. ring. }
  assert (EU : UU (map (fun r => (fst r, c * snd r)) rows) = (c * c) * UU rows).
  { unfold UU. rewrite sum_of, <- sumR_map_scal. apply sumR_map_ext. intros r _. rewrite sum_of, <- sumR_map_scal. apply sumR_map_ext. intros r' _.
    unfold lab, sc. cbn [fst snd]. ring. }
  rewrite EP, EQ, EU.
  assert (B : forall x, Rlt_bool 0 (c * x) = Rlt_bool 0 x).
  { intros x. destruct (Rlt_bool_spec 0 x); destruct (Rlt_bool_spec 0 (c * x)); auto; exfalso; nra. }
  rewrite !B. destruct (Rlt_bool_spec 0 (PP rows)); [|reflexivity]. destruct (Rlt_bool_spec 0 (QQ rows)); [|reflexivity].
  simpl. f_equal. f_equal. field. repeat split; lra.
Qed.

(** Sums over pairs in either order. *)
Lemma sum_swap : forall A B (f : A -> B -> R) la lb,
  sumR (map (fun a => sumR (map (fun b => f a b) lb)) la) = sumR (map (fun b => sumR (map (fun a => f a b) la)) lb).
Proof.
  intros A B f la lb. induction la as [|a la IH]; simpl.
  - rewrite sumR_zero. reflexivity.
  - rewrite IH. rewrite sumR_map_plus. reflexivity.
Qed.
Lemma xlt_neg : forall a b, xisnan a = false -> xisnan b = false -> xlt (xneg a) (xneg b) = xlt b a.
Proof.
  intros [a| | |] [b| | |] HA HB; try discriminate; try reflexivity. simpl.
  destruct (Rlt_bool_spec (- a) (- b)); destruct (Rlt_bool_spec b a); auto; lra.
Qed.
Lemma kern_neg : forall a b, xisnan a = false -> xisnan b = false -> kern (xneg a) (xneg b) = kern b a.
Proof.
  intros a b A B. assert (N : forall x, xisnan x = false -> xisnan (xneg x) = false) by (intros [x| | |]; auto).
  apply kern_lt; auto using xlt_neg.
Qed.
Lemma kern_sum : forall a b, xisnan a = false -> xisnan b = false -> kern a b + kern b a = 1.
Proof.
  intros [a| | |] [b| | |] HA HB; try discriminate; unfold kern; simpl; try lra.
  destruct (Rlt_bool_spec b a); destruct (Rlt_bool_spec a b); destruct (Req_bool_spec a b); destruct (Req_bool_spec b a); lra.
Qed.

Lemma auc_exchange : forall S S' rows, @SortDescSpec XF S -> @SortDescSpec XF S' -> ranked rows ->
  auc S' (map (fun r => (1 - lab r, xneg (sc r), snd r)) rows) = auc S rows.
Proof.
  intros S S' rows HS HS' HR. rewrite (auc_val S rows), (auc_val S'); auto.
  2:{ apply ranked_map; auto. intros r Hr. destruct (proj2 HR r Hr) as (A & B & D). unfold lab, sc in *. cbn [fst snd]. repeat split; try lra.
      destruct (snd (fst r)); auto. }
  assert (EP : PP (map (fun r => (1 - lab r, xneg (sc r), snd r)) rows) = QQ rows) by (unfold PP; rewrite sum_of; reflexivity).
  assert (EQ : QQ (map (fun r => (1 - lab r, xneg (sc r), snd r)) rows) = PP rows).
  { unfold QQ. rewrite sum_of. apply sumR_map_ext. intros r _. unfold lab. cbn [fst snd]. ring. }
  assert (EU : UU (map (fun r => (1 - lab r, xneg (sc r), snd r)) rows) = UU rows).
  { unfold UU. rewrite sum_of. rewrite sum_swap. rewrite sum_of. apply sumR_map_ext. intros r Hr. apply sumR_map_ext. intros r' Hr'.
    destruct (proj2 HR r Hr) as (_ & _ & N1). destruct (proj2 HR r' Hr') as (_ & _ & N2).
    unfold lab, sc in *. cbn [fst snd]. rewrite kern_neg; auto. ring. }
  rewrite EP, EQ, EU, andb_comm, (Rmult_comm (QQ rows)). reflexivity.
Qed.

Lemma auc_flip : forall S S' rows, @SortDescSpec XF S -> @SortDescSpec XF S' -> ranked rows -> 0 < PP rows -> 0 < QQ rows ->
  exists a, auc S rows = Some (Fin a) /\ auc S' (map (fun r => (1 - lab r, sc r, snd r)) rows) = Some (Fin (1 - a)).
Proof.
  intros S S' rows HS HS' HR HP HQ. rewrite (auc_val S rows), (auc_val S'); auto.
  2:{ apply ranked_map; auto. intros r Hr. destruct (proj2 HR r Hr) as (A & B & D). unfold lab, sc in *. cbn [fst snd]. repeat split; try lra; auto. }
  assert (EP : PP (map (fun r => (1 - lab r, sc r, snd r)) rows) = QQ rows) by (unfold PP; rewrite sum_of; reflexivity).
  assert (EQ : QQ (map (fun r => (1 - lab r, sc r, snd r)) rows) = PP rows).
  { unfold QQ. rewrite sum_of. apply sumR_map_ext. intros r _. unfold lab. cbn [fst snd]. ring. }
  assert (EU : UU (map (fun r => (1 - lab r, sc r, snd r)) rows) + UU rows = PP rows * QQ rows).
  { unfold UU at 1. rewrite sum_of. rewrite sum_swap. rewrite sum_of. unfold UU. rewrite <- sumR_map_plus.
    unfold PP. rewrite (Rmult_comm (sumR _)), <- sumR_map_scal. apply sumR_map_ext. intros r Hr. rewrite <- sumR_map_plus.
    unfold QQ. rewrite (Rmult_comm (sumR _)), <- sumR_map_scal. apply sumR_map_ext. intros r' Hr'.
    destruct (proj2 HR r Hr) as (_ & _ & N1). destruct (proj2 HR r' Hr') as (_ & _ & N2).
    unfold lab, sc in *. cbn [fst snd]. pose proof (kern_sum (snd (fst r)) (snd (fst r')) N1 N2) as K.
    replace (kern (snd (fst r')) (snd (fst r))) with (1 - kern (snd (fst r)) (snd (fst r'))) by lra. ring. }
  exists (UU rows / (PP rows * QQ rows)). rewrite EP, EQ, !Rlt_bool_true by auto. simpl. split; auto. f_equal. f_equal.
  replace (UU (map _ rows)) with (PP rows * QQ rows - UU rows) by lra. field. lra.
Qed.

(** A sum of non-negative terms is zero only if all are. *)
Lemma sum_zero_iff : forall A (f : A -> R) l, (forall x, In x l -> 0 <= f x) -> sumR (map f l) = 0 <-> (forall x, In x l -> f x = 0).
Proof.
  intros A f. induction l as [|a l IH]; intros H; simpl; [tauto|].
  assert (H' : forall x, In x l -> 0 <= f x) by (intros; apply H; right; auto).
  assert (0 <= sumR (map f l)). { apply sumR_nonneg. intros x Hx. apply in_map_iff in Hx. destruct Hx as (a' & <- & Ha'). auto. }
  pose proof (H a (or_introl eq_refl)). specialize (IH H'). split.
  - intros E x [<-|Hx]; [lra|]. apply IH; auto. lra.
  - intros E. rewrite (E a) by auto. rewrite (proj2 IH) by auto. lra.
Qed.
Lemma kern_range : forall a b, 0 <= kern a b <= 1.
Proof. intros a b. unfold kern. destruct (xlt b a); [lra|]. destruct (xeq a b); lra. Qed.

Lemma auc_one : forall S rows, @SortDescSpec XF S -> ranked rows -> 0 < PP rows -> 0 < QQ rows ->
  (auc S rows = Some (Fin 1) <->
   forall r r', In r rows -> In r' rows -> 0 < lab r * snd r -> 0 < (1 - lab r') * snd r' -> xlt (sc r') (sc r) = true).
Proof.
  intros S rows HS HR HP HQ. rewrite auc_val, !Rlt_bool_true by auto. simpl.
  assert (EU : PP rows * QQ rows - UU rows =
    sumR (map (fun r => sumR (map (fun r' => (lab r * snd r) * ((1 - lab r') * snd r') * (1 - kern (sc r) (sc r'))) rows)) rows)).
  { unfold UU. unfold PP. rewrite (Rmult_comm (sumR _)), <- sumR_map_scal, <- sumR_map_minus. apply sumR_map_ext. intros r Hr.
    unfold QQ. rewrite (Rmult_comm (sumR _)), <- sumR_map_scal, <- sumR_map_minus. apply sumR_map_ext. intros r' Hr'.
    unfold lab, sc in *. ring. }
  assert (NN : forall r r', In r rows -> In r' rows -> 0 <= (lab r * snd r) * ((1 - lab r') * snd r') * (1 - kern (sc r) (sc r'))).
  { intros r r' Hr Hr'. destruct (proj2 HR r Hr) as (A & B & _). destruct (proj2 HR r' Hr') as (A' & B' & _).
    pose proof (kern_range (sc r) (sc r')). repeat apply Rmult_le_pos; lra. }
  assert (E1 : Some (Fin (UU rows / (PP rows * QQ rows))) = Some (Fin 1) <-> PP rows * QQ rows - UU rows = 0).
  { assert (PQ : 0 < PP rows * QQ rows) by (apply Rmult_lt_0_compat; auto). split.
    - intros E. injection E as E. apply (f_equal (fun x => x * (PP rows * QQ rows))) in E. unfold Rdiv in E.
      rewrite Rmult_assoc, Rinv_l in E by lra. lra.
    - intros E. do 2 f_equal. replace (UU rows) with (PP rows * QQ rows) by lra. field. lra. }
  etransitivity; [exact E1|]. rewrite EU. etransitivity; [apply sum_zero_iff|].
  { intros r Hr. apply sumR_nonneg. intros x Hx. apply in_map_iff in Hx. destruct Hx as (r' & <- & Hr'). auto. }
  split.
  - intros H r r' Hr Hr' P1 P2. specialize (H r Hr). rewrite sum_zero_iff in H by auto. specialize (H r' Hr').
    destruct (xlt (sc r') (sc r)) eqn:EL; auto. exfalso. unfold kern in H. rewrite EL in H.
    assert (0 < lab r * snd r * ((1 - lab r') * snd r')) by (apply Rmult_lt_0_compat; auto).
    destruct (xeq (sc r) (sc r')); nra.
  - intros H r Hr. apply sum_zero_iff; auto. intros r' Hr'.
    destruct (proj2 HR r Hr) as (A & B & _). destruct (proj2 HR r' Hr') as (A' & B' & _).
    assert (0 <= lab r * snd r) by (apply Rmult_le_pos; lra). assert (0 <= (1 - lab r') * snd r') by (apply Rmult_le_pos; lra).
    destruct (Req_dec (lab r * snd r) 0) as [Z|Z]; [rewrite Z; ring|].
    destruct (Req_dec ((1 - lab r') * snd r') 0) as [Z'|Z']; [rewrite Z'; ring|].
    unfold kern. rewrite (H r r') by (auto; lra). ring.
Qed.

(** The probabilities rank the rows as the scores do. *)
Definition prob (s : xr) : xr := match s with Fin x => Fin (1 / (1 + exp (- x))) | PInf => Fin 1 | NInf => Fin 0 | XNaN => XNaN end.
Lemma prob_in : forall x, 0 < 1 / (1 + exp (- x)) < 1.
Proof.
  intros x. pose proof (exp_pos (- x)). split; [apply Rdiv_lt_0_compat; lra|].
  apply (Rmult_lt_reg_r (1 + exp (- x))); [lra|]. unfold Rdiv. rewrite Rmult_assoc, Rinv_l by lra. lra.
Qed.
Lemma prob_lt : forall a b, a < b -> 1 / (1 + exp (- a)) < 1 / (1 + exp (- b)).
Proof.
  intros a b H. pose proof (exp_pos (- a)). pose proof (exp_pos (- b)). pose proof (exp_increasing (- b) (- a) ltac:(lra)).
  unfold Rdiv. rewrite !Rmult_1_l. apply Rinv_lt_contravar; [apply Rmult_lt_0_compat; lra|lra].
Qed.
Lemma prob_order : forall a b, xlt (prob a) (prob b) = xlt a b.
Proof.
  intros [a| | |] [b| | |]; try reflexivity; simpl; try (pose proof (prob_in a)); try (pose proof (prob_in b));
    try (apply Rlt_bool_true; lra); try (apply Rlt_bool_false; lra).
  destruct (Rlt_bool_spec a b) as [L|L]; [apply Rlt_bool_true, prob_lt; auto|].
  apply Rlt_bool_false. destruct L as [L| ->]; [apply Rlt_le, prob_lt; auto|lra].
Qed.
