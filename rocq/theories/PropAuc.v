(** Property C109: the area under the ROC curve is a matter of ranking. *)
From Coq Require Import Reals Lra Lia ZArith List Bool Arith Permutation Sorting.
From Flocq Require Import Core.Raux.
From Verif Require Import Prelude Float FloatX FloatLaws OrdProofs Metric MetricX PosSort AucX FloatI BinningX.
Import ListNotations.
Local Open Scope R_scope.

(** *** C109 (exact arithmetic).  A row is (label, score, weight); labels lie in [0, 1], weights are not negative, scores
    are not NaN. *)
Notation row := (R * xr * R)%type.
Notation label r := (fst (fst r)).
Notation score r := (snd (fst r)).
Notation weight r := (snd r).
Notation area S rows := (@roc_auc_score XF S (map (fun r : row => Fin (label r)) rows) (map (fun r : row => score r) rows)
  (map (fun r : row => Fin (weight r)) rows)).
Definition sound (rows : list row) : Prop :=
  rows <> [] /\ forall r, In r rows -> 0 <= label r <= 1 /\ 0 <= weight r /\ xisnan (score r) = false.
Notation positive rows := (sumR (map (fun r : row => label r * weight r) rows)).
Notation negative rows := (sumR (map (fun r : row => (1 - label r) * weight r) rows)).

(** Replacing the scores by others in the same order. *)
Theorem C109_order_only : forall S S' (rows : list row) (f : xr -> xr), @SortDescSpec XF S -> @SortDescSpec XF S' -> sound rows ->
  (forall r, In r rows -> xisnan (f (score r)) = false) ->
  (forall r r', In r rows -> In r' rows -> xlt (f (score r)) (f (score r')) = xlt (score r) (score r')) ->
  area S' (map (fun r : row => (label r, f (score r), weight r)) rows) = area S rows.
Proof. exact auc_order. Qed.
Print Assumptions C109_order_only.

(** The probabilities of log loss have the area of the scores. *)
Theorem C109_probabilities : forall S S' (rows : list row), @SortDescSpec XF S -> @SortDescSpec XF S' -> sound rows ->
  area S' (map (fun r : row => (label r, match score r with
    Fin x => Fin (1 / (1 + exp (- x))) | PInf => Fin 1 | NInf => Fin 0 | XNaN => XNaN end, weight r)) rows) = area S rows.
Proof.
  intros S S' rows HS HS' HR. refine (auc_order S S' rows prob HS HS' HR _ _).
  - intros r Hr. pose proof (proj2 HR r Hr) as (_ & _ & N). unfold sc. destruct (snd (fst r)); auto.
  - intros r r' _ _. apply prob_order.
Qed.
Print Assumptions C109_probabilities.

Theorem C109_weight_unit : forall S S' (rows : list row) c, @SortDescSpec XF S -> @SortDescSpec XF S' -> sound rows -> 0 < c ->
  area S' (map (fun r : row => (fst r, c * weight r)) rows) = area S rows.
Proof. exact auc_weight_unit. Qed.
Print Assumptions C109_weight_unit.

(** Exchanging the labels and turning the scores round keeps the area; exchanging the labels alone turns a into 1 - a. *)
Theorem C109_labels_and_scores : forall S S' (rows : list row), @SortDescSpec XF S -> @SortDescSpec XF S' -> sound rows ->
  area S' (map (fun r : row => (1 - label r, xneg (score r), weight r)) rows) = area S rows.
Proof. exact auc_exchange. Qed.
Print Assumptions C109_labels_and_scores.

Theorem C109_labels_exchanged : forall S S' (rows : list row), @SortDescSpec XF S -> @SortDescSpec XF S' -> sound rows ->
  0 < positive rows -> 0 < negative rows ->
  exists a, area S rows = Some (Fin a) /\ area S' (map (fun r : row => (1 - label r, score r, weight r)) rows) = Some (Fin (1 - a)).
Proof. exact auc_flip. Qed.
Print Assumptions C109_labels_exchanged.

(** The area is 1 exactly when every row with positive weight is ranked above every row with negative weight. *)
Theorem C109_one_iff_separated : forall S (rows : list row), @SortDescSpec XF S -> sound rows -> 0 < positive rows -> 0 < negative rows ->
  (area S rows = Some (Fin 1) <->
   forall r r', In r rows -> In r' rows -> 0 < label r * weight r -> 0 < (1 - label r') * weight r' -> xlt (score r') (score r) = true).
Proof. exact auc_one. Qed.
Print Assumptions C109_one_iff_separated.

(** With rounding the unit of the weights matters: two rows in the right order have area 1 with weights 1, and NaN with
    weights 2^600, for the totals overflow. *)
Theorem C109_weight_unit_rounding_refuted : exists c : b64, flt IOps64 (fzero IOps64) c = true /\ flt IOps64 c (finf IOps64) = true /\
  forall S, @SortDescSpec IE S ->
  (exists a, @roc_auc_score IE S [z64 1; z64 0] [z64 2; z64 1] [z64 1; z64 1] = Some a /\ feq IOps64 a (z64 1) = true) /\
  exists a, @roc_auc_score IE S [z64 1; z64 0] [z64 2; z64 1] [c; c] = Some a /\ fisnan IOps64 a = true.
Proof.
  exists (z64 (2 ^ 600)). split; [vm_compute; reflexivity|]. split; [vm_compute; reflexivity|]. intros S HS.
  assert (ES : S [z64 2; z64 1] = [0; 1]%nat).
  { destruct (HS [z64 2; z64 1]) as [P O]. apply Permutation_sym, Permutation_length_2_inv in P. destruct P as [->|P]; auto.
    exfalso. rewrite P in O. inversion O as [|? ? _ F]; subst. inversion F as [|? ? G _]; subst.
    apply (G (z64 1) (z64 2) eq_refl eq_refl). vm_compute. reflexivity. }
  assert (ER : forall w0, @roc_auc_score IE S [z64 1; z64 0] [z64 2; z64 1] w0 = @roc_auc_score IE (fun _ => [0; 1]%nat) [z64 1; z64 0] [z64 2; z64 1] w0).
  { intros w0. unfold roc_auc_score. match goal with |- context [S ?x] => replace (S x) with [0; 1]%nat by (symmetry; exact ES) end. reflexivity. }
  assert (V1 : match @roc_auc_score IE (fun _ => [0; 1]%nat) [z64 1; z64 0] [z64 2; z64 1] [z64 1; z64 1] with
    Some a => feq IOps64 a (z64 1) | None => false end = true) by (vm_compute; reflexivity).
  assert (V2 : match @roc_auc_score IE (fun _ => [0; 1]%nat) [z64 1; z64 0] [z64 2; z64 1] [z64 (2 ^ 600); z64 (2 ^ 600)] with
    Some a => fisnan IOps64 a | None => false end = true) by (vm_compute; reflexivity).
  rewrite <- !ER in V1. rewrite <- !ER in V2. clear - V1 V2. split.
  - destruct (@roc_auc_score IE S _ _ [z64 1; z64 1]) as [a|]; [|discriminate]. exists a. split; [reflexivity|exact V1].
  - destruct (@roc_auc_score IE S _ _ [z64 (2 ^ 600); z64 (2 ^ 600)]) as [a|]; [|discriminate]. exists a. split; [reflexivity|exact V2].
Qed.
Print Assumptions C109_weight_unit_rounding_refuted.

(** *** A case with a tie between a positive and a negative row. *)
Definition exr_rows : list row := [(1, Fin 3, 1); (0, Fin 2, 1); (1, Fin 2, 2); (0, NInf, 1)].
Lemma exr_sound : sound exr_rows.
Proof. split; [discriminate|]. intros r [<-|[<-|[<-|[<-|[]]]]]; cbn; repeat split; lra. Qed.
Example exr_flip : exists a, area x_sort_desc exr_rows = Some (Fin a) /\
  area x_sort_desc (map (fun r : row => (1 - label r, score r, weight r)) exr_rows) = Some (Fin (1 - a)).
Proof.
  apply (C109_labels_exchanged x_sort_desc x_sort_desc exr_rows x_sort_desc_spec x_sort_desc_spec exr_sound); cbn; lra.
Qed.
Example exr_probabilities : area x_sort_desc (map (fun r : row => (label r, match score r with
    Fin x => Fin (1 / (1 + exp (- x))) | PInf => Fin 1 | NInf => Fin 0 | XNaN => XNaN end, weight r)) exr_rows) = area x_sort_desc exr_rows.
Proof. exact (C109_probabilities x_sort_desc x_sort_desc exr_rows x_sort_desc_spec x_sort_desc_spec exr_sound). Qed.
(** The tie keeps the area below 1. *)
Example exr_not_one : area x_sort_desc exr_rows <> Some (Fin 1).
Proof.
  intros E. pose proof (proj1 (C109_one_iff_separated x_sort_desc exr_rows x_sort_desc_spec exr_sound ltac:(cbn; lra) ltac:(cbn; lra)) E) as Q0. clear E.
  assert (Q : xlt (Fin 2) (Fin 2) = true).
  { apply (Q0 (1, Fin 2, 2) (0, Fin 2, 1)); cbn; auto; lra. }
  simpl in Q. rewrite Rlt_bool_false in Q by lra. discriminate.
Qed.
