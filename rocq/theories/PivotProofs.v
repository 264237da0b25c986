(** Proofs about the two pivots (C06, C07). *)
From Coq Require Import List Arith Lia Bool Permutation.
From Verif Require Import Prelude Float Utils.
Import ListNotations.

(** *** Specification (independent of the loops) *)

(** Does a row with bin [b] belong left of the split? *)
Definition goes_left (sv : nat) (missing_right : bool) (b : nat) : bool :=
  if b =? 0 then negb missing_right else b <? sv.

Section Two.
Variables (feature : list nat) (sv : nat) (mr : bool).

Definition lft (x : nat) : bool := goes_left sv mr (nth x feature 0).
Definition in_range (index : list nat) := forall x, In x index -> x < length feature.

Lemma missing_compare_left : forall b,
  match missing_compare sv b mr with Gt => true | _ => false end = goes_left sv mr b.
Proof.
  intros b. unfold missing_compare, goes_left. destruct (b =? 0); [destruct mr; reflexivity|].
  destruct (Nat.compare_spec sv b); symmetry; [apply Nat.ltb_ge|apply Nat.ltb_ge|apply Nat.ltb_lt]; lia.
Qed.

Definition at_ (index : list nat) (p : nat) : bool := lft (nth p index 0).

Lemma lookup_ok : forall index p, in_range index -> p < length index ->
  exists i, nth_error index p = Some i /\ exists b, nth_error feature i = Some b /\
    (match missing_compare sv b mr with Gt => true | _ => false end) = at_ index p.
Proof.
  intros index p HR Hp. destruct (nth_error_lt index Hp) as [i Hi].
  exists i; split; auto.
  assert (i < length feature) as Hl by (apply HR; eapply nth_error_In; eauto).
  destruct (nth_error_lt feature Hl) as [b Hb]. exists b; split; auto.
  rewrite missing_compare_left. unfold at_, lft.
  rewrite (nth_error_nth_eq _ _ 0 Hi), (nth_error_nth_eq _ _ 0 Hb). reflexivity.
Qed.

Lemma pivot_low_spec : forall index max_idx, in_range index -> max_idx < length index ->
  forall fuel low, low <= max_idx -> max_idx - low <= fuel ->
  exists low', pivot_low fuel index feature sv mr low max_idx = Some low' /\
    low <= low' <= max_idx /\ (forall p, low <= p < low' -> at_ index p = true) /\
    (low' = max_idx \/ at_ index low' = false).
Proof.
  intros index max_idx HR Hm. induction fuel as [|f IH]; intros low Hl Hf; simpl.
  - destruct (Nat.ltb_spec low max_idx); [lia|].
    exists low. repeat split; auto; try lia.
  - destruct (Nat.ltb_spec low max_idx) as [Hlt|Hge].
    + destruct (lookup_ok index low HR) as (i & Ei & b & Eb & Hc); [lia|].
      rewrite Ei; simpl. rewrite Eb; simpl.
      destruct (missing_compare sv b mr) eqn:Em.
      * exists low. repeat split; auto; lia.
      * exists low. repeat split; auto; lia.
      * destruct (IH (low + 1)) as (l' & E & H1 & H2 & H3); try lia.
        exists l'. rewrite E. repeat split; auto; try lia.
        intros p Hp. destruct (Nat.eq_dec p low) as [->|]; auto. apply H2; lia.
    + exists low. repeat split; auto; try lia.
Qed.

Lemma pivot_high_spec : forall index, in_range index ->
  forall fuel low high, low <= high -> high < length index -> high - low <= fuel ->
  exists high', pivot_high fuel index feature sv mr low high = Some high' /\
    low <= high' <= high /\ (forall p, high' < p <= high -> at_ index p = false) /\
    (high' = low \/ at_ index high' = true).
Proof.
  intros index HR. induction fuel as [|f IH]; intros low high Hl Hh Hf; simpl.
  - destruct (Nat.ltb_spec low high); [lia|].
    exists high. repeat split; auto; try lia.
  - destruct (Nat.ltb_spec low high) as [Hlt|Hge].
    + destruct (lookup_ok index high HR) as (i & Ei & b & Eb & Hc); [lia|].
      rewrite Ei; simpl. rewrite Eb; simpl.
      destruct (missing_compare sv b mr) eqn:Em;
        [destruct (IH low (high - 1)) as (h' & E & H1 & H2 & H3); try lia;
         exists h'; rewrite E; repeat split; auto; try lia;
         intros p Hp; destruct (Nat.eq_dec p high) as [->|]; auto; apply H2; lia .. |].
      exists high. repeat split; auto; lia.
    + exists high. repeat split; auto; try lia.
Qed.

Lemma swap_at : forall index i j index', swap index i j = Some index' ->
  forall p, p < length index ->
  at_ index' p = if p =? j then at_ index i else if p =? i then at_ index j else at_ index p.
Proof.
  intros index i j index' H p Hp. unfold at_.
  pose proof (swap_nth _ _ _ H p) as E.
  assert (i < length index /\ j < length index) as [Hi Hj].
  { unfold swap in H. inv_bind H. inv_bind H. split; eapply nth_error_Some_lt; eauto. }
  assert (p < length index') as Hp' by (rewrite (swap_length _ _ _ H); auto).
  destruct (nth_error_lt index' Hp') as [x Hx]. rewrite (nth_error_nth_eq _ _ 0 Hx).
  rewrite Hx in E.
  destruct (p =? j); [|destruct (p =? i)]; symmetry in E; rewrite (nth_error_nth_eq _ _ 0 E); auto.
Qed.

Lemma in_range_perm : forall l l', Permutation l l' -> in_range l -> in_range l'.
Proof. intros l l' P H x Hx. apply H. eapply Permutation_in; [apply Permutation_sym|]; eauto. Qed.

Lemma pivot_loop_spec : forall max_idx fuel index low high,
  in_range index -> length index = S max_idx -> low <= high <= max_idx ->
  (forall p, p < low -> at_ index p = true) ->
  (forall p, high < p <= max_idx -> at_ index p = false) ->
  (high = max_idx \/ at_ index high = false) ->
  (high = low -> low = max_idx \/ at_ index low = false) ->
  (high - low + 2 <= fuel \/ (at_ index low = true /\ high - low + 1 <= fuel) \/ high = low) ->
  exists index' k, pivot_loop fuel index feature sv mr low high max_idx = Some (index', k) /\
    Permutation index index' /\ k <= max_idx /\
    (forall p, p < k -> at_ index' p = true) /\
    (forall p, k < p <= max_idx -> at_ index' p = false) /\
    (k = max_idx \/ at_ index' k = false).
Proof.
  intros max_idx. induction fuel as [|f IH]; intros index low high HR Hlen Hlh Hlo Hhi Hh Heq Hf.
  - simpl. destruct (Nat.ltb_spec low high); [lia|]. assert (high = low) by lia. subst.
    exists index, low. repeat split; auto; try lia.
  - simpl. destruct (Nat.ltb_spec low high) as [Hlt|Hge].
    2:{ assert (high = low) by lia. subst.
        exists index, low. repeat split; auto; try lia. }
    destruct (pivot_low_spec index max_idx HR) with (fuel := length index) (low := low)
      as (low' & E1 & B1 & A1 & C1); try lia.
    rewrite E1; simpl.
    assert (low' <= high) as Hle.
    { destruct (le_lt_dec low' high); auto.
      destruct Hh as [Hh|Hh]; [lia|]. rewrite (A1 high) in Hh by lia. discriminate. }
    destruct (pivot_high_spec index HR (length index) low' high) as (high' & E2 & B2 & A2 & C2); try lia.
    rewrite E2; simpl.
    assert (L' : forall p, p < low' -> at_ index p = true).
    { intros p Hp. destruct (le_lt_dec low p); [apply A1; lia|apply Hlo; lia]. }
    assert (R' : forall p, high' < p <= max_idx -> at_ index p = false).
    { intros p Hp. destruct (le_lt_dec p high); [apply A2; lia|apply Hhi; lia]. }
    destruct (Nat.ltb_spec low' high') as [Hs|Hs].
    + destruct (@swap_total _ index high' low') as [index' Es]; try lia.
      rewrite Es; simpl.
      assert (at_ index low' = false) as Flow by (destruct C1; auto; lia).
      assert (at_ index high' = true) as Fhigh by (destruct C2; auto; lia).
      pose proof (swap_at _ _ _ _ Es) as SA.
      assert (Nlow : at_ index' low' = true).
      { rewrite SA by lia. rewrite Nat.eqb_refl. auto. }
      assert (Nhigh : at_ index' high' = false).
      { rewrite SA by lia. destruct (high' =? low') eqn:E; [apply Nat.eqb_eq in E; lia|].
        rewrite Nat.eqb_refl. auto. }
      destruct (IH index' low' high') as (i' & k & E & P & K); auto.
      * apply (in_range_perm index index'); [eapply swap_perm; eauto|exact HR].
      * rewrite (swap_length _ _ _ Es); auto.
      * lia.
      * intros p Hp. rewrite SA by lia.
        destruct (p =? low') eqn:E; [apply Nat.eqb_eq in E; lia|].
        destruct (p =? high') eqn:E'; [apply Nat.eqb_eq in E'; lia|]. auto.
      * intros p Hp. rewrite SA by lia.
        destruct (p =? low') eqn:E; [apply Nat.eqb_eq in E; lia|].
        destruct (p =? high') eqn:E'; [apply Nat.eqb_eq in E'; lia|]. auto.
      * lia.
      * right; left. split; auto.
        destruct Hf as [Hf|[[Hf1 Hf2]|Hf]]; try lia.
        assert (low' <> low). { intros ->. congruence. }
        lia.
      * exists i', k. split; auto. split; auto.
        eapply Permutation_trans; [eapply swap_perm; eauto|exact P].
    + assert (high' = low') as -> by lia.
      destruct (IH index low' low') as (i' & k & E & P & K); auto; try lia.
      exists i', k. auto.
Qed.

(** The pivot always succeeds on a non-empty slice of valid rows and only permutes it. *)
Lemma pivot_on_split_main : forall index, in_range index -> index <> [] ->
  exists index' k, pivot_on_split index feature sv mr = Some (index', k) /\
    Permutation index index' /\ k < length index /\
    (forall p, p < k -> at_ index' p = true) /\
    (forall p, k < p < length index -> at_ index' p = false) /\
    (S k = length index \/ at_ index' k = false).
Proof.
  intros index HR Hne. unfold pivot_on_split.
  destruct (length index) as [|m] eqn:Hlen.
  { destruct index; [congruence|discriminate]. }
  destruct (pivot_loop_spec m (S m + 1) index 0 m HR Hlen) as (i' & k & E & P & K1 & K2 & K3 & K4);
    try lia; auto.
  exists i', k. rewrite E. repeat split; auto; try lia.
  - intros p Hp. apply K3. lia.
  - destruct K4; [left; lia|right; auto].
Qed.
End Two.

(** [split_at k l]: rows before and after position k. *)
Lemma nth_firstn_In : forall A (l : list A) k x, In x (firstn k l) ->
  exists p, p < k /\ nth_error l p = Some x.
Proof.
  intros A l k x H. apply In_nth_error in H. destruct H as [p Hp].
  assert (p < length (firstn k l)) by (eapply nth_error_Some_lt; eauto).
  rewrite firstn_length in H. exists p. split; [lia|].
  rewrite <- (firstn_skipn k l). rewrite nth_error_app1; auto. rewrite firstn_length; lia.
Qed.
Lemma nth_skipn_In : forall A (l : list A) k x, In x (skipn k l) ->
  exists p, k <= p /\ nth_error l p = Some x.
Proof.
  intros A l k x H. apply In_nth_error in H. destruct H as [p Hp].
  exists (k + p). split; [lia|].
  assert (Hl : k + p < length l).
  { apply nth_error_Some_lt in Hp. rewrite skipn_length in Hp. lia. }
  rewrite <- (firstn_skipn k l). rewrite nth_error_app2; rewrite firstn_length_le by lia; [|lia].
  replace (k + p - k) with p by lia. auto.
Qed.

(** C06: two-way pivot.  [b_of x] is the bin of row [x]. *)
Theorem pivot_two_way : forall index feature sv mr,
  (forall x, In x index -> x < length feature) ->
  (exists x b, In x index /\ nth_error feature x = Some b /\ goes_left sv mr b = false) ->
  exists index' k,
    pivot_on_split index feature sv mr = Some (index', k) /\
    Permutation index index' /\ k < length index /\
    (forall x, In x (firstn k index') -> exists b, nth_error feature x = Some b /\ goes_left sv mr b = true) /\
    (forall x, In x (skipn k index') -> exists b, nth_error feature x = Some b /\ goes_left sv mr b = false).
Proof.
  intros index feature sv mr HR (x0 & b0 & Hin & Hb0 & Hg0).
  destruct (pivot_on_split_main feature sv mr index HR) as (index' & k & E & P & Hk & HL & HRt & Hend).
  { intros ->; destruct Hin. }
  exists index', k. split; auto. split; auto.
  pose proof (in_range_perm feature _ _ P HR) as HR'.
  pose proof (Permutation_length P) as PL.
  assert (HatL : forall p x, nth_error index' p = Some x ->
            exists b, nth_error feature x = Some b /\ goes_left sv mr b = at_ feature sv mr index' p).
  { intros p x Hp. assert (x < length feature) as Hx by (apply HR'; eapply nth_error_In; eauto).
    destruct (nth_error_lt feature Hx) as [b Hb]. exists b; split; auto.
    unfold at_, lft. rewrite (nth_error_nth_eq _ _ 0 Hp), (nth_error_nth_eq _ _ 0 Hb). reflexivity. }
  assert (Hk' : at_ feature sv mr index' k = false).
  { destruct Hend as [Hend|]; auto.
    destruct (at_ feature sv mr index' k) eqn:Ek; auto. exfalso.
    assert (In x0 index') as Hin' by (eapply Permutation_in; eauto).
    apply In_nth_error in Hin'. destruct Hin' as [p Hp].
    assert (p < length index') as Hpl by (eapply nth_error_Some_lt; eauto).
    destruct (HatL p x0 Hp) as (b & Hb & Hg). rewrite Hb0 in Hb; inversion Hb; subst.
    rewrite Hg0 in Hg. destruct (Nat.eq_dec p k) as [->|]; [congruence|].
    rewrite HL in Hg by lia. discriminate. }
  split; [lia|]. split.
  - intros x Hx. apply nth_firstn_In in Hx. destruct Hx as (p & Hp & Hpx).
    destruct (HatL p x Hpx) as (b & Hb & Hg). exists b; split; auto. rewrite Hg; auto.
  - intros x Hx. apply nth_skipn_In in Hx. destruct Hx as (p & Hp & Hpx).
    destruct (HatL p x Hpx) as (b & Hb & Hg). exists b; split; auto. rewrite Hg.
    assert (p < length index') by (eapply nth_error_Some_lt; eauto).
    destruct (Nat.eq_dec p k) as [->|]; auto. apply HRt; lia.
Qed.

(** Without the "some row goes right" condition the pivot still only permutes, but when every
    row goes left the last row ends up on the right side. *)
Theorem pivot_two_way_all_left : forall index feature sv mr,
  index <> [] ->
  (forall x, In x index -> exists b, nth_error feature x = Some b /\ goes_left sv mr b = true) ->
  exists index', pivot_on_split index feature sv mr = Some (index', length index - 1) /\
    Permutation index index'.
Proof.
  intros index feature sv mr Hne HA.
  destruct (pivot_on_split_main feature sv mr index) as (index' & k & E & P & Hk & HL & HRt & Hend); auto.
  { intros x Hx. destruct (HA x Hx) as (b & Hb & _). eapply nth_error_Some_lt; eauto. }
  exists index'. split; auto. rewrite E. do 2 f_equal.
  destruct Hend as [|Hend]; [lia|].
  assert (k < length index') as Hk' by (rewrite <- (Permutation_length P); auto).
  destruct (nth_error_lt index' Hk') as [x Hx].
  destruct (HA x) as (b & Hb & Hg).
  { eapply Permutation_in; [apply Permutation_sym; eauto|]. eapply nth_error_In; eauto. }
  unfold at_, lft in Hend. rewrite (nth_error_nth_eq _ _ 0 Hx), (nth_error_nth_eq _ _ 0 Hb) in Hend.
  congruence.
Qed.

Theorem pivot_two_way_empty_panics : forall feature sv mr,
  pivot_on_split [] feature sv mr = None.
Proof. reflexivity. Qed.
