(** Option monad (None = the Rust code panics) and list helpers shared by the model. *)
From Coq Require Import List Arith Lia Bool Permutation.
Import ListNotations.
Set Implicit Arguments.

(** [None] stands for a panic: out-of-bounds indexing, [unwrap] on [None],
    a failed [assert!], [unreachable!], or usize underflow in [len() - 1]. *)
Definition bind {A B} (x : option A) (f : A -> option B) : option B :=
  match x with Some a => f a | None => None end.

Declare Scope monad_scope.
Delimit Scope monad_scope with monad.
Notation "'let*' x ':=' e 'in' k" := (bind e (fun x => k))
  (at level 200, x pattern, e at level 200, k at level 200, right associativity) : monad_scope.
Notation "'assert*' b 'in' k" := (if b then k else None)
  (at level 200, b at level 200, k at level 200, right associativity) : monad_scope.
#[global] Open Scope monad_scope.

Lemma bind_Some : forall A B (x : option A) (f : A -> option B) b,
  bind x f = Some b -> exists a, x = Some a /\ f a = Some b.
Proof. intros A B [a|] f b H; simpl in H; [eauto|discriminate]. Qed.

Ltac inv_bind H :=
  let a := fresh "v" in let E := fresh "E" in
  apply bind_Some in H; destruct H as [a [E H]].

(** Sequence a fallible function over a list, left to right. *)
Fixpoint mapM {A B} (f : A -> option B) (l : list A) : option (list B) :=
  match l with
  | [] => Some []
  | x :: r => let* y := f x in let* ys := mapM f r in Some (y :: ys)
  end.

(** Left fold of a fallible step. *)
Fixpoint foldM {A S} (f : S -> A -> option S) (l : list A) (s : S) : option S :=
  match l with
  | [] => Some s
  | x :: r => let* s' := f s x in foldM f r s'
  end.

(** [v\[i\] = x]; panics when out of bounds. *)
Fixpoint update {A} (l : list A) (i : nat) (x : A) : option (list A) :=
  match l, i with
  | [], _ => None
  | _ :: r, 0 => Some (x :: r)
  | y :: r, S j => let* r' := update r j x in Some (y :: r')
  end.

(** [&v\[i..j\]]; panics unless i <= j <= len. *)
Definition slice {A} (l : list A) (i j : nat) : option (list A) :=
  if (i <=? j) && (j <=? length l) then Some (firstn (j - i) (skipn i l)) else None.

(** [index.swap(i, j)]; panics when out of bounds. *)
Definition swap {A} (l : list A) (i j : nat) : option (list A) :=
  let* x := nth_error l i in
  let* y := nth_error l j in
  let* l' := update l i y in
  update l' j x.

(** Write a sub-slice back: the effect of mutating [&mut v\[i..j\]]. *)
Definition splice {A} (l : list A) (i : nat) (sub : list A) : list A :=
  firstn i l ++ sub ++ skipn (i + length sub) l.

(* ------------------------------------------------------------------ *)
(** Lemmas *)

Lemma mapM_length : forall A B (f : A -> option B) l r, mapM f l = Some r -> length r = length l.
Proof.
  induction l as [|x l IH]; simpl; intros r H.
  - inversion H; reflexivity.
  - inv_bind H. inv_bind H. inversion H; subst; simpl. f_equal. auto.
Qed.

Lemma mapM_nth : forall A B (f : A -> option B) l r, mapM f l = Some r ->
  forall i x, nth_error l i = Some x -> exists y, nth_error r i = Some y /\ f x = Some y.
Proof.
  induction l as [|a l IH]; simpl; intros r H i x Hx.
  - destruct i; discriminate.
  - inv_bind H. inv_bind H. inversion H; subst.
    destruct i; simpl in *.
    + inversion Hx; subst; eauto.
    + eauto.
Qed.

Lemma mapM_Forall2 : forall A B (f : A -> option B) l r,
  mapM f l = Some r <-> Forall2 (fun x y => f x = Some y) l r.
Proof.
  split.
  - revert r; induction l as [|a l IH]; simpl; intros r H.
    + inversion H; constructor.
    + inv_bind H. inv_bind H. inversion H; subst. constructor; auto.
  - induction 1; simpl; auto. rewrite H; simpl. rewrite IHForall2; reflexivity.
Qed.

Lemma mapM_total : forall A B (f : A -> option B) l,
  (forall x, In x l -> exists y, f x = Some y) -> exists r, mapM f l = Some r.
Proof.
  induction l as [|a l IH]; simpl; intros H.
  - eauto.
  - destruct (H a) as [y Hy]; auto. destruct IH as [r Hr]; auto.
    rewrite Hy; simpl; rewrite Hr; simpl; eauto.
Qed.

Lemma mapM_app : forall A B (f : A -> option B) l1 l2,
  mapM f (l1 ++ l2) = (let* a := mapM f l1 in let* b := mapM f l2 in Some (a ++ b)).
Proof.
  induction l1 as [|x l1 IH]; intros l2; simpl.
  - destruct (mapM f l2); reflexivity.
  - destruct (f x); simpl; auto. rewrite IH.
    destruct (mapM f l1); simpl; auto. destruct (mapM f l2); reflexivity.
Qed.

Lemma mapM_ext : forall A B (f g : A -> option B) l,
  (forall x, In x l -> f x = g x) -> mapM f l = mapM g l.
Proof.
  induction l as [|a l IH]; simpl; intros H; auto.
  rewrite H by auto. rewrite IH; auto.
Qed.

Lemma mapM_map : forall A B (f : A -> B) l, mapM (fun x => Some (f x)) l = Some (map f l).
Proof. induction l as [|a l IH]; simpl; auto. rewrite IH; reflexivity. Qed.

Lemma foldM_app : forall A S (f : S -> A -> option S) l1 l2 s,
  foldM f (l1 ++ l2) s = (let* s' := foldM f l1 s in foldM f l2 s').
Proof.
  induction l1 as [|a l1 IH]; intros l2 s; simpl; auto.
  destruct (f s a); simpl; auto.
Qed.

Lemma update_length : forall A (l : list A) i x l', update l i x = Some l' -> length l' = length l.
Proof.
  induction l as [|a l IH]; intros [|i] x l' H; simpl in *; try discriminate.
  - inversion H; reflexivity.
  - inv_bind H. inversion H; subst; simpl. f_equal; eauto.
Qed.

Lemma update_Some_lt : forall A (l : list A) i x l', update l i x = Some l' -> i < length l.
Proof.
  induction l as [|a l IH]; intros [|i] x l' H; simpl in *; try discriminate; try lia.
  inv_bind H. apply IH in E. lia.
Qed.

Lemma update_total : forall A (l : list A) i x, i < length l -> exists l', update l i x = Some l'.
Proof.
  induction l as [|a l IH]; intros [|i] x H; simpl in *; try lia; eauto.
  destruct (IH i x) as [l' Hl']; try lia. rewrite Hl'; simpl; eauto.
Qed.

Lemma update_nth : forall A (l : list A) i x l', update l i x = Some l' ->
  forall j, nth_error l' j = if j =? i then Some x else nth_error l j.
Proof.
  induction l as [|a l IH]; intros [|i] x l' H j; simpl in *; try discriminate.
  - inversion H; subst. destruct j; reflexivity.
  - inv_bind H. inversion H; subst. destruct j; simpl; auto.
Qed.

Lemma update_app : forall A (l : list A) i x l', update l i x = Some l' ->
  exists a y b, l = a ++ y :: b /\ length a = i /\ l' = a ++ x :: b.
Proof.
  induction l as [|c l IH]; intros [|i] x l' H; simpl in *; try discriminate.
  - inversion H; subst. exists [], c, l; auto.
  - inv_bind H. inversion H; subst. apply IH in E. destruct E as (a & y & b & -> & <- & ->).
    exists (c :: a), y, b; auto.
Qed.

Lemma update_mid : forall A (a : list A) y b x, update (a ++ y :: b) (length a) x = Some (a ++ x :: b).
Proof. induction a as [|c a IH]; intros; simpl; auto. rewrite IH; reflexivity. Qed.

Lemma nth_error_nth_eq : forall A (l : list A) i x d, nth_error l i = Some x -> nth i l d = x.
Proof. induction l; intros [|i] x d H; simpl in *; try discriminate; [congruence|eauto]. Qed.

Lemma nth_error_lt : forall A (l : list A) i, i < length l -> exists x, nth_error l i = Some x.
Proof.
  intros A l i H. destruct (nth_error l i) eqn:E; eauto.
  apply nth_error_None in E; lia.
Qed.

Lemma nth_error_Some_lt : forall A (l : list A) i x, nth_error l i = Some x -> i < length l.
Proof. intros. apply nth_error_Some. congruence. Qed.

Lemma list_ext_nth : forall A (l1 l2 : list A),
  (forall i, nth_error l1 i = nth_error l2 i) -> l1 = l2.
Proof.
  induction l1 as [|a l1 IH]; intros [|b l2] H; auto.
  - specialize (H 0); discriminate.
  - specialize (H 0); discriminate.
  - f_equal.
    + specialize (H 0); simpl in H; congruence.
    + apply IH. intros i. apply (H (S i)).
Qed.

Lemma swap_length : forall A (l : list A) i j l', swap l i j = Some l' -> length l' = length l.
Proof.
  unfold swap; intros. inv_bind H. inv_bind H. inv_bind H.
  rewrite (update_length _ _ _ H), (update_length _ _ _ E1). reflexivity.
Qed.

Lemma swap_total : forall A (l : list A) i j, i < length l -> j < length l ->
  exists l', swap l i j = Some l'.
Proof.
  unfold swap; intros.
  destruct (nth_error_lt l H) as [x Hx]. destruct (nth_error_lt l H0) as [y Hy].
  rewrite Hx, Hy; simpl.
  destruct (update_total l y H) as [l1 H1]. rewrite H1; simpl.
  apply update_total. rewrite (update_length _ _ _ H1); auto.
Qed.

Lemma swap_nth : forall A (l : list A) i j l', swap l i j = Some l' ->
  forall k, nth_error l' k =
    if k =? j then nth_error l i else if k =? i then nth_error l j else nth_error l k.
Proof.
  unfold swap; intros. inv_bind H. inv_bind H. inv_bind H.
  rewrite (update_nth _ _ _ H). destruct (k =? j); auto.
  rewrite (update_nth _ _ _ E1). destruct (k =? i); auto.
Qed.

Lemma swap_perm : forall A (l : list A) i j l', swap l i j = Some l' -> Permutation l l'.
Proof.
  intros A l i j l' H.
  destruct (Nat.eq_dec i j) as [->|Hij].
  - assert (l = l') as ->; [|reflexivity].
    apply list_ext_nth. intros k. rewrite (swap_nth _ _ _ H).
    destruct (Nat.eqb_spec k j); subst; auto.
  - unfold swap in H. inv_bind H. inv_bind H. inv_bind H.
    apply update_app in E1. destruct E1 as (a & z & b & -> & <- & ->).
    assert (v = z).
    { rewrite nth_error_app2 in E by lia. rewrite Nat.sub_diag in E. simpl in E. congruence. }
    subst z.
    apply update_app in H. destruct H as (a' & z & b' & Heq & <- & ->).
    (* position j is in a or in b *)
    assert (Hz : z = v0).
    { destruct (Nat.lt_ge_cases (length a') (length a)).
      - rewrite nth_error_app1 in E0 by auto.
        assert (nth_error (a ++ v0 :: b) (length a') = Some z).
        { rewrite Heq, nth_error_app2 by lia. rewrite Nat.sub_diag. reflexivity. }
        rewrite nth_error_app1 in H0 by auto. congruence.
      - assert (Hgt : length a' > length a) by lia.
        rewrite nth_error_app2 in E0 by lia.
        assert (nth_error (a ++ v0 :: b) (length a') = Some z).
        { rewrite Heq, nth_error_app2 by lia. rewrite Nat.sub_diag. reflexivity. }
        rewrite nth_error_app2 in H0 by lia.
        destruct (length a' - length a) eqn:D; [lia|]. simpl in *. congruence. }
    subst z.
    transitivity (v :: a ++ b).
    { symmetry; apply Permutation_middle. }
    transitivity (v :: a' ++ b').
    { constructor.
      apply Permutation_cons_inv with v0.
      transitivity (a ++ v0 :: b); [apply Permutation_middle|].
      rewrite Heq. symmetry; apply Permutation_middle. }
    apply Permutation_middle.
Qed.

Lemma skipn_skipn : forall A (l : list A) i j, skipn i (skipn j l) = skipn (i + j) l.
Proof.
  intros A l i j; revert l; induction j as [|j IH]; intros l.
  - rewrite Nat.add_0_r. reflexivity.
  - destruct l as [|a l]; [rewrite !skipn_nil; reflexivity|].
    rewrite Nat.add_succ_r. simpl. apply IH.
Qed.

Lemma slice_Some : forall A (l : list A) i j r, slice l i j = Some r ->
  i <= j /\ j <= length l /\ length r = j - i /\ l = firstn i l ++ r ++ skipn j l.
Proof.
  unfold slice; intros A l i j r H.
  destruct ((i <=? j) && (j <=? length l)) eqn:E; [|discriminate].
  apply andb_true_iff in E; destruct E as [E1 E2].
  apply Nat.leb_le in E1; apply Nat.leb_le in E2.
  inversion H; subst. repeat split; auto.
  - rewrite firstn_length, skipn_length. lia.
  - rewrite <- (firstn_skipn i l) at 1. f_equal.
    rewrite <- (firstn_skipn (j - i) (skipn i l)) at 1. f_equal.
    rewrite skipn_skipn. f_equal. lia.
Qed.

Lemma slice_total : forall A (l : list A) i j, i <= j -> j <= length l -> exists r, slice l i j = Some r.
Proof.
  unfold slice; intros A l i j H1 H2. apply Nat.leb_le in H1; apply Nat.leb_le in H2.
  rewrite H1, H2; simpl; eauto.
Qed.

Lemma slice_nth : forall A (l : list A) i j r, slice l i j = Some r ->
  forall k, k < j - i -> nth_error r k = nth_error l (i + k).
Proof.
  intros A l i j r H k Hk. apply slice_Some in H. destruct H as (H1 & H2 & H3 & H4).
  rewrite H4. rewrite nth_error_app2; rewrite firstn_length_le by lia; [|lia].
  replace (i + k - i) with k by lia.
  rewrite nth_error_app1; auto. lia.
Qed.

Lemma splice_length : forall A (l : list A) i sub, i + length sub <= length l ->
  length (splice l i sub) = length l.
Proof.
  unfold splice; intros. rewrite !app_length, firstn_length, skipn_length. lia.
Qed.

Lemma skipn_firstn_app : forall A (l : list A) i j, i <= j ->
  firstn i l ++ firstn (j - i) (skipn i l) ++ skipn j l = l.
Proof.
  intros A l i j H.
  rewrite <- (firstn_skipn i l) at 4. f_equal.
  rewrite <- (firstn_skipn (j - i) (skipn i l)) at 2. f_equal.
  rewrite skipn_skipn. f_equal. lia.
Qed.

Lemma splice_perm : forall A (l : list A) i j sub sub',
  slice l i j = Some sub -> Permutation sub sub' -> Permutation l (splice l i sub').
Proof.
  intros A l i j sub sub' H HP.
  apply slice_Some in H. destruct H as (H1 & H2 & H3 & H4).
  unfold splice. rewrite H4 at 1. apply Permutation_app_head.
  assert (i + length sub' = j) as -> by (rewrite <- (Permutation_length HP); lia).
  apply Permutation_app_tail; auto.
Qed.

Lemma nth_error_seq : forall n a k, k < n -> nth_error (seq a n) k = Some (a + k).
Proof.
  intros n a k H. rewrite nth_error_nth' with (d := 0) by (rewrite seq_length; auto).
  rewrite seq_nth by auto. reflexivity.
Qed.

Lemma Forall2_nth_r : forall A B (R : A -> B -> Prop) l r, Forall2 R l r ->
  forall k y, nth_error r k = Some y -> exists x, nth_error l k = Some x /\ R x y.
Proof.
  induction 1 as [|x y l r H F IH]; intros [|k] z Hz; simpl in *; try discriminate; eauto.
  injection Hz as <-. eauto.
Qed.

Lemma Forall2_nth_l : forall A B (R : A -> B -> Prop) l r, Forall2 R l r ->
  forall k x, nth_error l k = Some x -> exists y, nth_error r k = Some y /\ R x y.
Proof.
  induction 1 as [|x y l r H F IH]; intros [|k] z Hz; simpl in *; try discriminate; eauto.
  injection Hz as <-. eauto.
Qed.

Lemma nth_error_combine : forall A B (l : list A) (r : list B) k x y,
  nth_error l k = Some x -> nth_error r k = Some y -> nth_error (combine l r) k = Some (x, y).
Proof.
  induction l as [|a l IH]; intros [|b r] [|k] x y H1 H2; simpl in *; try discriminate; auto.
  congruence.
Qed.
