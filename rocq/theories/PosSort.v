(** A sort of positions by key, to show that the assumptions on sorting routines can be met. *)
From Coq Require Import List Arith Lia Bool Permutation Sorting Reals Lra.
From Verif Require Import Prelude Float FloatX Metric Sampler.
Import ListNotations.

Section PosSort.
Variables (A : Type) (d : A) (le : A -> A -> bool).
Hypothesis total : forall x y, le x y = true \/ le y x = true.
Hypothesis trans : forall x y z, le x y = true -> le y z = true -> le x z = true.
Variable v : list A.
Definition key i := nth i v d.

Fixpoint ins (i : nat) (l : list nat) : list nat :=
  match l with [] => [i] | j :: r => if le (key i) (key j) then i :: l else j :: ins i r end.
Definition pos_sort : list nat := fold_right ins [] (seq 0 (length v)).

Lemma ins_perm : forall i l, Permutation (ins i l) (i :: l).
Proof.
  induction l as [|j l IH]; simpl; auto. destruct (le (key i) (key j)); auto.
  rewrite IH. apply perm_swap.
Qed.
Lemma fold_ins_perm : forall l, Permutation (fold_right ins [] l) l.
Proof. induction l as [|i l IH]; simpl; auto. rewrite ins_perm. auto. Qed.
Lemma pos_sort_perm : Permutation pos_sort (seq 0 (length v)).
Proof. apply fold_ins_perm. Qed.

Lemma ins_sorted : forall i l, StronglySorted (fun a b => le (key a) (key b) = true) l ->
  StronglySorted (fun a b => le (key a) (key b) = true) (ins i l).
Proof.
  intros i l S. induction S as [|j l S IH F]; simpl; [repeat constructor|].
  destruct (le (key i) (key j)) eqn:E.
  - constructor; [constructor; auto|]. constructor; auto. rewrite Forall_forall in *. intros k Hk. eapply trans; eauto.
  - constructor; auto. rewrite Forall_forall in *. intros k Hk. apply (Permutation_in _ (ins_perm i l)) in Hk.
    destruct Hk as [<-|Hk]; auto. destruct (total (key j) (key i)); auto. congruence.
Qed.
Lemma pos_sort_sorted : StronglySorted (fun a b => le (key a) (key b) = true) pos_sort.
Proof. unfold pos_sort. induction (seq 0 (length v)); simpl; [constructor|]. apply ins_sorted; auto. Qed.

Lemma pos_sort_nth : StronglySorted (fun a b => forall x y, nth_error v a = Some x -> nth_error v b = Some y -> le x y = true) pos_sort.
Proof.
  pose proof pos_sort_sorted as S. induction S as [|a l S IH F]; constructor; auto.
  rewrite Forall_forall in *. intros b Hb x y Hx Hy. specialize (F b Hb). unfold key in F.
  rewrite (nth_error_nth _ _ _ Hx), (nth_error_nth _ _ _ Hy) in F. auto.
Qed.
End PosSort.

Definition x_ge (a b : xr) : bool := match xtotal b a with Gt => false | _ => true end.
Lemma x_ge_total : forall a b, x_ge a b = true \/ x_ge b a = true.
Proof.
  intros [a| | |] [b| | |]; unfold x_ge; simpl; auto.
  destruct (Rlt_boolP a b) as [[-> _]|[-> _]]; destruct (Rlt_boolP b a) as [[-> _]|[-> _]]; auto; lra.
Qed.
Lemma x_ge_trans : forall a b c, x_ge a b = true -> x_ge b c = true -> x_ge a c = true.
Proof.
  intros [a| | |] [b| | |] [c| | |]; unfold x_ge; simpl; auto; intros; repeat rcase; auto; try discriminate; lra.
Qed.
Lemma x_ge_ok : forall a b, x_ge a b = true -> xtotal b a <> Gt.
Proof. intros a b. unfold x_ge. destruct (xtotal b a); congruence. Qed.

(** a sort of scores and a sort of gradients in exact arithmetic *)
Definition x_sort_desc : @sort_desc XF := pos_sort xr XNaN x_ge.
Lemma x_sort_desc_spec : @SortDescSpec XF x_sort_desc.
Proof.
  intros v. split; [apply pos_sort_perm|].
  pose proof (pos_sort_nth xr XNaN x_ge x_ge_total x_ge_trans v) as S.
  unfold x_sort_desc. simpl in *. induction S as [|a l S IH F]; constructor; auto.
  rewrite Forall_forall in *. intros b Hb x y Hx Hy. apply x_ge_ok. eauto.
Qed.

Definition x_sort_abs : @sort_abs_desc XF := pos_sort xr XNaN (fun a b => x_ge (xabs a) (xabs b)).
Lemma x_sort_abs_spec : @SortAbsSpec XF x_sort_abs.
Proof.
  intros v. split; [apply pos_sort_perm|].
  pose proof (pos_sort_nth xr XNaN (fun a b => x_ge (xabs a) (xabs b)) (fun a b => x_ge_total _ _)
    (fun a b c => x_ge_trans _ _ _) v) as S.
  unfold x_sort_abs. simpl in *. induction S as [|a l S IH F]; constructor; auto.
  rewrite Forall_forall in *. intros b Hb x y Hx Hy. apply x_ge_ok. eauto.
Qed.
