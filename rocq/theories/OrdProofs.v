(** Consequences of the order laws, and sorted lists of floats. *)
From Coq Require Import List Arith Lia Bool Sorting.
From Verif Require Import Prelude Float.
Import ListNotations.

Section Ord.
Variable F : FloatOps.
Variable OL : OrdLaws F.
Notation T := (fcar F).
Notation le x y := (fle F x y = true).
Notation lt x y := (flt F x y = true).
Notation num x := (fisnan F x = false).

Lemma o_nlt : forall x y, num x -> num y -> (flt F x y = false <-> le y x).
Proof. intros x y Hx Hy. rewrite (ol_lt_le _ OL) by auto. rewrite negb_false_iff. tauto. Qed.
Lemma o_nle : forall x y, num x -> num y -> (fle F x y = false <-> lt y x).
Proof. intros x y Hx Hy. rewrite (ol_lt_le _ OL) by auto. rewrite negb_true_iff. tauto. Qed.
Lemma o_lt_nle : forall x y, lt x y -> fle F y x = false.
Proof. intros x y H. destruct (ol_lt_nan _ OL _ _ H). rewrite (ol_lt_le _ OL) in H by auto. apply negb_true_iff; auto. Qed.
Lemma o_le_nlt : forall x y, le x y -> flt F y x = false.
Proof. intros x y H. destruct (ol_le_nan _ OL _ _ H). rewrite (ol_lt_le _ OL) by auto. rewrite H; auto. Qed.
Lemma o_lt_le : forall x y, lt x y -> le x y.
Proof.
  intros x y H. destruct (ol_lt_nan _ OL _ _ H). pose proof (o_lt_nle _ _ H).
  destruct (ol_le_total _ OL x y); auto. congruence.
Qed.
Lemma o_lt_le_trans : forall x y z, lt x y -> le y z -> lt x z.
Proof.
  intros x y z H1 H2. destruct (ol_lt_nan _ OL _ _ H1). destruct (ol_le_nan _ OL _ _ H2).
  apply o_nle; auto. destruct (fle F z x) eqn:E; auto.
  rewrite <- (o_lt_nle _ _ H1). symmetry. eapply (ol_le_trans _ OL); eauto.
Qed.
Lemma o_le_lt_trans : forall x y z, le x y -> lt y z -> lt x z.
Proof.
  intros x y z H1 H2. destruct (ol_le_nan _ OL _ _ H1). destruct (ol_lt_nan _ OL _ _ H2).
  apply o_nle; auto. destruct (fle F z x) eqn:E; auto.
  rewrite <- (o_lt_nle _ _ H2). symmetry. eapply (ol_le_trans _ OL); eauto.
Qed.
Lemma o_lt_trans : forall x y z, lt x y -> lt y z -> lt x z.
Proof. intros. eapply o_lt_le_trans; eauto. apply o_lt_le; auto. Qed.
Lemma o_lt_irrefl : forall x, flt F x x = false.
Proof.
  intros x. destruct (flt F x x) eqn:E; auto. destruct (ol_lt_nan _ OL _ _ E).
  apply o_lt_nle in E. rewrite (ol_le_refl _ OL) in E; auto.
Qed.
Lemma o_eq : forall x y, feq F x y = true <-> le x y /\ le y x.
Proof. intros. rewrite (ol_eq _ OL). apply andb_true_iff. Qed.
Lemma o_eq_sym : forall x y, feq F x y = feq F y x.
Proof. intros. rewrite !(ol_eq _ OL). apply andb_comm. Qed.
Lemma o_eq_refl : forall x, num x -> feq F x x = true.
Proof. intros x H. apply o_eq. split; apply (ol_le_refl _ OL); auto. Qed.
Lemma o_le_neq_lt : forall x y, le x y -> feq F y x = false -> lt x y.
Proof.
  intros x y H E. destruct (ol_le_nan _ OL _ _ H). apply o_nle; auto.
  destruct (fle F y x) eqn:E2; auto. rewrite <- E. symmetry. apply o_eq. auto.
Qed.
Lemma o_lt_neq : forall x y, lt x y -> feq F x y = false.
Proof. intros x y H. rewrite (ol_eq _ OL). rewrite (o_lt_nle _ _ H). apply andb_false_r. Qed.

(** *** Sorted lists *)
Definition nums (l : list T) : Prop := forall x, In x l -> num x.
Definition sorted_le : list T -> Prop := StronglySorted (fun x y => fle F x y = true).
Definition sorted_lt : list T -> Prop := StronglySorted (fun x y => flt F x y = true).

Lemma sorted_lt_le : forall l, sorted_lt l -> sorted_le l.
Proof.
  induction 1; constructor; auto. eapply Forall_impl; [|eauto]. intros. apply o_lt_le; auto.
Qed.

Lemma ss_nth : forall A (R : A -> A -> Prop) l, StronglySorted R l -> forall i j x y,
  i < j -> nth_error l i = Some x -> nth_error l j = Some y -> R x y.
Proof.
  induction 1 as [|a l SS IH FA]; intros i j x y Hij Hi Hj; [destruct i; discriminate|].
  destruct j as [|j]; [lia|]. simpl in Hj. destruct i as [|i]; simpl in Hi.
  - injection Hi as <-. rewrite Forall_forall in FA. apply FA. eapply nth_error_In; eauto.
  - apply (IH i j); auto. lia.
Qed.

Lemma ss_app : forall A (R : A -> A -> Prop) l1 l2, StronglySorted R l1 -> StronglySorted R l2 ->
  (forall x y, In x l1 -> In y l2 -> R x y) -> StronglySorted R (l1 ++ l2).
Proof.
  induction 1 as [|a l SS IH FA]; simpl; intros H2 H; auto.
  constructor; auto. rewrite Forall_app. split; auto. apply Forall_forall. auto.
Qed.

Lemma ss_app_inv : forall A (R : A -> A -> Prop) l1 l2, StronglySorted R (l1 ++ l2) ->
  StronglySorted R l1 /\ StronglySorted R l2 /\ (forall x y, In x l1 -> In y l2 -> R x y).
Proof.
  induction l1 as [|a l1 IH]; simpl; intros l2 H.
  - repeat split; auto. constructor. tauto.
  - inversion H; subst. destruct (IH _ H2) as (A1 & A2 & A3). apply Forall_app in H3. destruct H3 as [F1 F2].
    split; [constructor; auto|]. split; auto. intros x y [->|Hx] Hy; auto. rewrite Forall_forall in F2. auto.
Qed.

Lemma sorted_le_nth : forall l, sorted_le l -> nums l -> forall i j x y, i <= j ->
  nth_error l i = Some x -> nth_error l j = Some y -> le x y.
Proof.
  intros l S N i j x y Hij Hi Hj. destruct (Nat.eq_dec i j) as [->|].
  - rewrite Hi in Hj. injection Hj as <-. apply (ol_le_refl _ OL). apply N. eapply nth_error_In; eauto.
  - eapply (ss_nth _ _ _ S i j); eauto. lia.
Qed.
End Ord.
