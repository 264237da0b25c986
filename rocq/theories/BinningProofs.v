(** Cut points and bin numbers. *)
From Coq Require Import List Arith NArith Lia Bool Permutation Sorting.
From Verif Require Import Prelude Float OrdProofs Data DataProofs Utils Binning.
Import ListNotations.

Section Bin.
Context {FS : Floats}.
Variable OL : OrdLaws (@f64 FS).
Notation sorted_le := (sorted_le (@f64 FS)).
Notation sorted_lt := (sorted_lt (@f64 FS)).
Notation nums := (nums (@f64 FS)).
Notation le x y := (fle (@f64 FS) x y = true).
Notation lt x y := (flt (@f64 FS) x y = true).

(** *** The binary search *)
Lemma bsearch_spec : forall x v, sorted_le x -> nums x -> fisnan f64 v = false ->
  forall fuel low high, low <= high -> high <= length x -> high - low <= fuel ->
  (forall i c, i < low -> nth_error x i = Some c -> le c v) ->
  (forall i c, high <= i -> nth_error x i = Some c -> lt v c) ->
  exists b, bsearch fuel x v low high = Some b /\ low <= b <= high /\
    (forall i c, nth_error x i = Some c -> (i < b <-> le c v)).
Proof.
  intros x v S N Hv. induction fuel as [|fu IH]; intros low high L1 L2 L3 A B; cbn [bsearch].
  - assert (low = high) by lia. subst high. rewrite Nat.eqb_refl. exists low. split; auto. split; [lia|].
    intros i c Hi. split; [intros; eauto|]. intros Hle. destruct (Nat.lt_ge_cases i low); auto.
    specialize (B i c H Hi). apply (o_lt_nle _ OL) in B. congruence.
  - destruct (Nat.eqb_spec low high) as [->|Hne].
    { exists high. split; auto. split; [lia|].
      intros i c Hi. split; [intros; eauto|]. intros Hle. destruct (Nat.lt_ge_cases i high); auto.
      specialize (B i c H Hi). apply (o_lt_nle _ OL) in B. congruence. }
    set (mid := (low + high) / 2).
    assert (M : low <= mid < high).
    { unfold mid. split.
      - apply Nat.div_le_lower_bound; lia.
      - apply Nat.div_lt_upper_bound; lia. }
    destruct (nth_error_lt x (i := mid)) as [xm Hm]; [lia|]. rewrite Hm. cbn [bind].
    assert (Nm : fisnan f64 xm = false) by (apply N; eapply nth_error_In; eauto).
    destruct (xm <=? v)%f64 eqn:E.
    + destruct (IH (mid + 1) high) as (b & H1 & H2 & H3); try lia; auto.
      * intros i c Hi Hc. eapply (ol_le_trans _ OL); [|exact E]. eapply (sorted_le_nth _ OL x S N i mid); eauto. lia.
      * exists b. split; auto. split; [lia|auto].
    + apply (o_nle _ OL) in E; auto. destruct (IH low mid) as (b & H1 & H2 & H3); try lia; auto.
      * intros i c Hi Hc. eapply (o_lt_le_trans _ OL); [exact E|]. eapply (sorted_le_nth _ OL x S N mid i); eauto.
      * exists b. split; auto. split; [lia|auto].
Qed.

(** [v] takes the missing bin. *)
Definition bin_missing (v missing : F64) : bool := (fisnan f64 v || (v =? missing)%f64)%bool.

Lemma is_missing_bin : forall v missing b, is_missing v missing = Some b -> bin_missing v missing = b.
Proof.
  intros v missing b H. unfold is_missing in H. unfold bin_missing.
  destruct (fisnan f64 missing) eqn:E.
  - injection H as <-. destruct (fisnan f64 v) eqn:Ev; auto. simpl.
    rewrite (ol_eq _ OL). destruct (v <=? missing)%f64 eqn:E2; auto. apply (ol_le_nan _ OL) in E2. intuition congruence.
  - destruct (fisnan f64 v); [discriminate|]. injection H as <-. reflexivity.
Qed.

(** What a bin number means. *)
Theorem map_bin_spec : forall cuts v missing, sorted_le cuts -> nums cuts ->
  exists b, map_bin cuts v missing = Some (if fits_u16 b then Some b else None) /\ b <= length cuts /\
    (bin_missing v missing = true -> b = 0) /\
    (bin_missing v missing = false -> forall i c, nth_error cuts i = Some c -> (i < b <-> le c v)).
Proof.
  intros cuts v missing S N. unfold map_bin. change (fisnan f64 v || (v =? missing)%f64)%bool with (bin_missing v missing).
  destruct (bin_missing v missing) eqn:E.
  - exists 0. split; [reflexivity|]. split; [lia|]. split; [auto|discriminate].
  - assert (Hv : fisnan f64 v = false) by (unfold bin_missing in E; apply orb_false_iff in E; tauto).
    destruct (bsearch_spec cuts v S N Hv (length cuts) 0 (length cuts)) as (b & H1 & H2 & H3); try lia.
    + intros i c Hi Hc. apply nth_error_Some_lt in Hc. lia.
    + exists b. rewrite H1. cbn [bind]. split; auto. split; [lia|]. split; [discriminate|auto].
Qed.

(** C01, one column: the bin is below j+1 exactly when the value is below cut j. *)
Theorem bin_split_agrees : forall cuts v missing b, sorted_le cuts -> nums cuts ->
  map_bin cuts v missing = Some (Some b) -> bin_missing v missing = false ->
  forall j c, nth_error cuts j = Some c -> (b < j + 1 <-> lt v c).
Proof.
  intros cuts v missing b S N H M j c Hc.
  destruct (map_bin_spec cuts v missing S N) as (b' & H1 & H2 & _ & H4).
  rewrite H in H1. destruct (fits_u16 b'); [|discriminate]. injection H1 as <-.
  specialize (H4 M j c Hc).
  assert (Hv : fisnan f64 v = false) by (unfold bin_missing in M; apply orb_false_iff in M; tauto).
  assert (Nc : fisnan f64 c = false) by (apply N; eapply nth_error_In; eauto).
  rewrite <- (o_nle _ OL c v) by auto. destruct (c <=? v)%f64.
  - split; [|discriminate]. assert (j < b) by (apply H4; auto). lia.
  - split; auto. intros _. destruct (Nat.lt_ge_cases j b); [|lia]. apply H4 in H0. discriminate.
Qed.

(** *** Dedup of a sorted list *)
Lemma dedup_from_spec : forall l a, sorted_le l -> nums (a :: l) -> (forall x, In x l -> le a x) ->
  sorted_lt (dedup_from a l) /\ (forall x, In x (dedup_from a l) -> lt a x) /\
  (forall x, In x (dedup_from a l) -> In x l) /\
  (forall x, In x l -> feq f64 x a = true \/ exists y, In y (dedup_from a l) /\ feq f64 x y = true) /\
  length (dedup_from a l) <= length l.
Proof.
  induction l as [|b l IH]; intros a S N A; simpl.
  - split; [constructor|]. split; [intros x []|]. split; [intros x []|]. split; [intros x []|auto].
  - assert (Na : fisnan f64 a = false) by (apply N; simpl; auto).
    assert (Nb : fisnan f64 b = false) by (apply N; simpl; auto).
    inversion S as [|? ? S' FA]; subst. rewrite Forall_forall in FA.
    destruct (b =? a)%f64 eqn:E.
    + destruct (IH a) as (H1 & H2 & H3 & H4 & H5); auto.
      * intros x Hx. apply N. simpl in *. tauto.
      * intros x Hx. apply A; simpl; auto.
      * split; auto. split; auto. split; auto. split; [|lia].
        intros x [<-|Hx]; auto.
    + assert (L : lt a b). { apply (o_le_neq_lt _ OL); auto. apply A; simpl; auto. }
      destruct (IH b) as (H1 & H2 & H3 & H4 & H5); auto.
      { intros x Hx. apply N. simpl in *. tauto. }
      split; [constructor; auto; apply Forall_forall; auto|].
      split. { intros x [<-|Hx]; auto. apply H2 in Hx. eapply (o_lt_trans _ OL); eauto. }
      split. { intros x [<-|Hx]; auto. }
      split; [|simpl; lia].
      intros x [<-|Hx].
      * right. exists b. split; [simpl; auto|]. apply (o_eq_refl _ OL); auto.
      * apply H4 in Hx. destruct Hx as [Hx|(y & Hy & Hxy)]; right; [exists b|exists y]; simpl; auto.
Qed.

Lemma dedup_spec : forall l, sorted_le l -> nums l ->
  sorted_lt (dedup l) /\ (forall x, In x (dedup l) -> In x l) /\
  (forall x, In x l -> exists y, In y (dedup l) /\ feq f64 x y = true) /\
  length (dedup l) <= length l /\ nth_error (dedup l) 0 = nth_error l 0.
Proof.
  intros [|a l] S N; simpl.
  - split; [constructor|]. split; [intros x []|]. split; [intros x []|auto].
  - inversion S as [|? ? S' FA]; subst. rewrite Forall_forall in FA.
    destruct (dedup_from_spec l a S' N FA) as (H1 & H2 & H3 & H4 & H5).
    split; [constructor; auto; apply Forall_forall; auto|].
    split. { intros x [<-|Hx]; auto. }
    split; [|split; [lia|auto]].
    intros x [<-|Hx].
    + exists a. split; auto. apply (o_eq_refl _ OL). apply N; simpl; auto.
    + apply H4 in Hx. destruct Hx as [Hx|(y & Hy & Hxy)]; eauto.
Qed.

(** *** Sorting, as the standard library promises *)
Definition sorts (f : list F64 -> list nat) : Prop :=
  forall v, nums v -> Permutation (f v) (seq 0 (length v)) /\
    StronglySorted (fun i j => forall x y, nth_error v i = Some x -> nth_error v j = Some y -> le x y) (f v).

Record SortSpec (S : Sorts) : Prop := mkSortSpec { ss_vals : sorts (sort_vals S); ss_pos : sorts (sort_pos S) }.

Lemma mapM_nth_perm : forall (v : list F64) idx l, Permutation idx (seq 0 (length v)) ->
  mapM (nth_error v) idx = Some l -> Permutation l v.
Proof.
  intros v idx l P H.
  assert (E : Some l = Some (map (fun i => nth i v (fzero f64)) idx)).
  { rewrite <- H. transitivity (mapM (fun i => Some (nth i v (fzero f64))) idx); [|apply mapM_map].
    apply mapM_ext. intros i Hi. apply (Permutation_in _ P) in Hi. apply in_seq in Hi.
    apply nth_error_nth'. lia. }
  injection E as ->. transitivity (map (fun i => nth i v (fzero f64)) (seq 0 (length v))).
  - apply Permutation_map; auto.
  - rewrite map_nth_seq. apply Permutation_refl.
Qed.
End Bin.
