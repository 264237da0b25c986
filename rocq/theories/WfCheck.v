(** A computable check for [well_formed], used by examples. *)
From Coq Require Import List Arith Lia Bool.
From Verif Require Import Prelude Float Node Tree TreeWf.
Import ListNotations.

Section WfCheck.
Context {FS : Floats}.

Definition wfb (nodes : list Node) : bool :=
  let ix := combine (seq 0 (length nodes)) nodes in
  match nth_error nodes 0 with Some n => n_depth n =? 0 | None => false end &&
  forallb (fun '(i, n) => (n_num n =? i) && (n_is_leaf n ||
     (forallb (fun c => (i <? c) && match nth_error nodes c with Some m => n_depth m =? n_depth n + 1 | None => false end) (children n) &&
      negb (n_left n =? n_right n)))) ix &&
  forallb (fun c => existsb (fun n => negb (n_is_leaf n) && existsb (Nat.eqb c) (children n)) nodes) (seq 1 (length nodes - 1)) &&
  forallb (fun '(i, n) => forallb (fun '(j, m) => (i =? j) || n_is_leaf n || n_is_leaf m ||
     forallb (fun c => negb (existsb (Nat.eqb c) (children m))) (children n)) ix) ix.

Lemma in_ix : forall (nodes : list Node) i n, nth_error nodes i = Some n -> In (i, n) (combine (seq 0 (length nodes)) nodes).
Proof.
  intros nodes i n H. eapply nth_error_In with (n := i). apply nth_error_combine; auto. apply nth_error_seq. eapply nth_error_Some_lt; eauto.
Qed.

Lemma wfb_sound : forall nodes, wfb nodes = true -> well_formed nodes.
Proof.
  intros nodes H. unfold wfb in H. apply andb_true_iff in H. destruct H as [H H4]. apply andb_true_iff in H. destruct H as [H H3].
  apply andb_true_iff in H. destruct H as [H1 H2]. rewrite forallb_forall in H2, H3, H4.
  assert (N : forall i n, nth_error nodes i = Some n -> n_num n = i).
  { intros i n Hn. specialize (H2 (i, n) (in_ix _ _ _ Hn)). apply andb_true_iff in H2. apply Nat.eqb_eq. tauto. }
  assert (C : forall i n, nth_error nodes i = Some n -> n_is_leaf n = false ->
    (forall c, In c (children n) -> i < c /\ exists m, nth_error nodes c = Some m /\ n_depth m = n_depth n + 1) /\ n_left n <> n_right n).
  { intros i n Hn HL. specialize (H2 (i, n) (in_ix _ _ _ Hn)). apply andb_true_iff in H2. destruct H2 as [_ H2]. rewrite HL in H2. simpl in H2.
    change (forallb (fun c => (i <? c) && match nth_error nodes c with Some m => n_depth m =? n_depth n + 1 | None => false end) (children n) && negb (n_left n =? n_right n) = true) in H2.
    apply andb_true_iff in H2. destruct H2 as [H2 H5]. split.
    - intros c Hc. rewrite forallb_forall in H2. specialize (H2 c Hc). apply andb_true_iff in H2. destruct H2 as [L D]. apply Nat.ltb_lt in L. split; auto.
      destruct (nth_error nodes c) as [m|]; [|discriminate]. exists m. split; auto. apply Nat.eqb_eq; auto.
    - apply Nat.eqb_neq. destruct (n_left n =? n_right n); [discriminate|auto]. }
  constructor; auto.
  - destruct (nth_error nodes 0) as [n|]; [|discriminate]. exists n. split; auto. apply Nat.eqb_eq; auto.
  - intros i n c Hn HL. apply (C i n Hn HL).
  - intros c Hc. specialize (H3 c). rewrite existsb_exists in H3. destruct H3 as (n & Hn & Q); [apply in_seq; lia|]. apply andb_true_iff in Q. destruct Q as [Q1 Q2].
    apply In_nth_error in Hn. destruct Hn as [i Hi]. exists i, n. split; auto. split; [destruct (n_is_leaf n); auto; discriminate|].
    apply existsb_exists in Q2. destruct Q2 as (x & Hx & E). apply Nat.eqb_eq in E. subst. auto.
  - intros c i j n m Hn HL Hc Hm HL' Hc'. specialize (H4 (i, n) (in_ix _ _ _ Hn)). cbv beta iota in H4. rewrite forallb_forall in H4. specialize (H4 (j, m) (in_ix _ _ _ Hm)).
    rewrite HL, HL', !orb_false_r in H4. destruct (Nat.eqb_spec i j); auto. cbn [orb] in H4. exfalso.
    rewrite forallb_forall in H4. specialize (H4 c Hc). destruct (existsb (Nat.eqb c) (children m)) eqn:E; [discriminate|].
    apply not_true_iff_false in E. apply E. apply existsb_exists. exists c. split; auto. apply Nat.eqb_refl.
  - intros i n Hn HL. apply (C i n Hn HL).
Qed.
End WfCheck.
