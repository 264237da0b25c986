(** The matrix containers (data.rs). *)
From Coq Require Import List Arith Lia Bool.
From Verif Require Import Prelude Data.
Import ListNotations.

(** *** Column-major matrix *)
Lemma step_by_nth : forall T n (l : list T) c j, 0 < n ->
  nth_error (step_by n c l) j = nth_error l (c + j * n).
Proof.
  intros T n l. induction l as [|x l IH]; intros c j Hn; simpl.
  - assert (E : forall k, @nth_error T [] k = None) by (intros []; reflexivity). rewrite !E. reflexivity.
  - destruct c as [|c].
    + destruct j as [|j]; simpl; auto. rewrite IH by auto.
      replace (n + j * n) with (S (n - 1 + j * n)) by lia. reflexivity.
    + rewrite IH by auto. reflexivity.
Qed.

Lemma nth_skipn : forall T (l : list T) i j, nth_error (skipn i l) j = nth_error l (i + j).
Proof.
  intros T l i. revert l. induction i as [|i IH]; intros l j; simpl; auto.
  destruct l; [destruct j; reflexivity|]. apply IH.
Qed.

Lemma step_by_length : forall T n (l : list T) c, 0 < n ->
  length (step_by n c l) = (length l + (n - 1) - c) / n.
Proof.
  intros T n l. induction l as [|x l IH]; intros c Hn; simpl.
  - symmetry. apply Nat.div_small. lia.
  - destruct c as [|c]; simpl; rewrite IH by auto.
    + replace (S (length l + (n - 1))) with (length l + 1 * n) by lia.
      rewrite Nat.div_add by lia. rewrite Nat.add_1_r. f_equal. f_equal. lia.
    + f_equal. 
Qed.

Section Matrix.
Context {T : Type} (m : Matrix T).
Hypothesis Hdata : length (m_data m) = m_rows m * m_cols m.

Theorem get_col_spec : forall j, j < m_cols m ->
  exists col, m_get_col m j = Some col /\ length col = m_rows m /\
    forall i, i < m_rows m -> nth_error col i = m_get m i j.
Proof.
  intros j Hj. unfold m_get_col, m_get_col_slice, m_item_index, m_get.
  destruct (slice_total (m_data m) (i := 1 * 0 + j * m_rows m) (j := 1 * m_rows m + j * m_rows m)) as [col Hc];
    [lia|rewrite Hdata; nia|].
  exists col. split; auto. pose proof (slice_Some _ _ _ Hc) as (_ & _ & HL & _).
  split; [lia|]. intros i Hi. rewrite (slice_nth _ _ _ Hc) by lia. f_equal. unfold m_item_index. lia.
Qed.

Theorem get_row_spec : forall i, i < m_rows m ->
  exists row, m_get_row m i = Some row /\ length row = m_cols m /\
    forall j, j < m_cols m -> nth_error row j = m_get m i j.
Proof.
  intros i Hi. unfold m_get_row. destruct (Nat.eqb_spec (m_rows m) 0); [lia|].
  eexists. split; [reflexivity|]. split.
  - rewrite step_by_length by lia. rewrite skipn_length, Hdata.
    destruct (m_cols m) as [|c] eqn:E.
    + rewrite Nat.mul_0_r. simpl. apply Nat.div_small. lia.
    + symmetry. apply (Nat.div_unique _ _ _ (m_rows m - 1 - i)); nia.
  - intros j Hj. rewrite step_by_nth by lia. rewrite nth_skipn. unfold m_get, m_item_index. f_equal. lia.
Qed.

Theorem get_in_range : forall i j, i < m_rows m -> j < m_cols m -> exists x, m_get m i j = Some x.
Proof.
  intros i j Hi Hj. unfold m_get, m_item_index. apply nth_error_lt. rewrite Hdata. nia.
Qed.
End Matrix.

(** *** Row-major matrix *)
Section RowMajor.
Context {T : Type}.

Theorem append_row_spec : forall (m m' : RowMajor T) items,
  length (r_data m) = r_rows m * r_cols m -> r_stride1 m = 1 -> r_stride2 m = r_cols m -> r_append_row m items = Some m' ->
  length (r_data m') = r_rows m' * r_cols m' /\ r_stride1 m' = 1 /\ r_stride2 m' = r_cols m' /\
  r_cols m' = r_cols m /\
  r_rows m' * r_cols m = r_rows m * r_cols m + length items /\
  (forall i j, i < r_rows m -> j < r_cols m -> r_get m' i j = r_get m i j) /\
  (forall k j, k < r_rows m' - r_rows m -> j < r_cols m ->
     r_get m' (r_rows m + k) j = nth_error items (k * r_cols m + j)).
Proof.
  intros m m' items HD S1 S2 H. unfold r_append_row in H.
  destruct (Nat.eqb_spec (r_cols m) 0) as [|Hc]; [discriminate|].
  destruct (Nat.eqb_spec (length items mod r_cols m) 0) as [Hm|]; [|discriminate].
  injection H as <-. simpl.
  assert (E : length items = length items / r_cols m * r_cols m).
  { rewrite (Nat.div_mod (length items) (r_cols m)) at 1 by auto. rewrite Hm. lia. }
  split; [rewrite app_length; nia|]. do 3 (split; auto). split; [nia|]. split.
  - intros i j Hi Hj. unfold r_get. simpl. rewrite S1, S2. apply nth_error_app1. nia.
  - intros k j Hk Hj. unfold r_get. simpl. rewrite S1, S2. rewrite nth_error_app2 by nia. f_equal. nia.
Qed.

Theorem append_row_total : forall (m : RowMajor T) items, r_cols m <> 0 -> length items mod r_cols m = 0 ->
  exists m', r_append_row m items = Some m'.
Proof.
  intros m items H1 H2. unfold r_append_row. rewrite H2.
  destruct (Nat.eqb_spec (r_cols m) 0); [tauto|]. simpl. eauto.
Qed.
End RowMajor.

(** *** Jagged matrix *)
Fixpoint psums (a : nat) (l : list nat) : list nat :=
  match l with [] => [] | x :: r => (a + x) :: psums (a + x) r end.

Lemma psums_length : forall l a, length (psums a l) = length l.
Proof. induction l; simpl; auto. Qed.

Lemma psums_app : forall l1 a l2, psums a (l1 ++ l2) = psums a l1 ++ psums (a + list_sum l1) l2.
Proof.
  induction l1 as [|x l1 IH]; intros a l2; simpl.
  - rewrite Nat.add_0_r. reflexivity.
  - rewrite IH. rewrite Nat.add_assoc. reflexivity.
Qed.

Lemma psums_nth : forall l a k, k < length l -> nth_error (psums a l) k = Some (a + list_sum (firstn (S k) l)).
Proof.
  induction l as [|x l IH]; intros a k Hk; simpl in *; [lia|].
  destruct k as [|k]; simpl; [f_equal; lia|]. rewrite IH by lia. f_equal. simpl. lia.
Qed.

Lemma psums_last : forall l a, l <> [] -> last (psums a l) 0 = a + list_sum l.
Proof.
  induction l as [|x l IH]; intros a H; [tauto|]. destruct l as [|y l].
  - simpl. lia.
  - change (last (psums a (x :: y :: l)) 0) with (last (psums (a + x) (y :: l)) 0).
    rewrite IH by discriminate. simpl. lia.
Qed.

(** [m] holds the columns [vecs]. *)
Definition jrep {T} (m : Jagged T) (vecs : list (list T)) : Prop :=
  j_data m = concat vecs /\ j_ends m = psums 0 (map (@length T) vecs).

Lemma concat_length_sum : forall T (l : list (list T)), length (concat l) = list_sum (map (@length T) l).
Proof. induction l; simpl; auto. rewrite app_length. congruence. Qed.

Theorem jrep_get_col : forall T (m : Jagged T) vecs, jrep m vecs ->
  forall k, j_get_col m k = nth_error vecs k.
Proof.
  intros T m vecs [HD HE] k. unfold j_get_col. rewrite HE, psums_length, map_length.
  destruct (Nat.ltb_spec k (length vecs)) as [Hk|Hk]; [|symmetry; apply nth_error_None; auto].
  rewrite psums_nth by (rewrite map_length; auto). cbn [bind].
  destruct (nth_error_lt vecs Hk) as [v Hv]. apply nth_error_split in Hv.
  destruct Hv as (l1 & l2 & -> & Hl1).
  assert (S1 : list_sum (map (@length T) l1) = length (concat l1)) by (rewrite concat_length_sum; auto).
  assert (F1 : list_sum (firstn (S k) (map (@length T) (l1 ++ v :: l2))) = length (concat l1) + length v).
  { rewrite map_app. rewrite firstn_app. rewrite map_length, Hl1.
    replace (S k - k) with 1 by lia. rewrite firstn_all2 by (rewrite map_length; lia).
    simpl. rewrite list_sum_app. rewrite S1. simpl. lia. }
  assert (F0 : match k with 0 => Some 0 | S c => nth_error (psums 0 (map (@length T) (l1 ++ v :: l2))) c end
               = Some (length (concat l1))).
  { destruct k as [|c]; [destruct l1; [reflexivity|discriminate]|].
    rewrite psums_nth by (rewrite map_length; lia). f_equal. rewrite Nat.add_0_l.
    rewrite map_app. rewrite firstn_app. rewrite map_length, Hl1, Nat.sub_diag, firstn_O, app_nil_r.
    rewrite firstn_all2 by (rewrite map_length; lia). auto. }
  rewrite F0. cbn [bind]. rewrite Nat.add_0_l, F1. rewrite HD.
  rewrite nth_error_app2 by lia. rewrite Hl1, Nat.sub_diag. simpl.
  unfold slice. rewrite concat_app. simpl. rewrite !app_length.
  replace ((length (concat l1) <=? length (concat l1) + length v) &&
     (length (concat l1) + length v <=? length (concat l1) + (length v + length (concat l2)))) with true.
  2:{ symmetry. apply andb_true_iff; split; apply Nat.leb_le; lia. }
  f_equal. replace (length (concat l1) + length v - length (concat l1)) with (length v) by lia.
  rewrite skipn_app, skipn_all, Nat.sub_diag. simpl.
  rewrite firstn_app, Nat.sub_diag, firstn_all, firstn_O, app_nil_r. reflexivity.
Qed.

Lemma from_vecs_loop : forall T (vecs : list (list T)) data ends e n,
  exists n', fold_left (fun '(data, ends, e, n) (vec : list T) =>
        let e' := e + length vec in (data ++ vec, ends ++ [e'], e', n + e')) vecs (data, ends, e, n)
  = (data ++ concat vecs, ends ++ psums e (map (@length T) vecs), e + list_sum (map (@length T) vecs), n').
Proof.
  induction vecs as [|v vecs IH]; intros data ends e n; simpl.
  - exists n. rewrite !app_nil_r, Nat.add_0_r. reflexivity.
  - destruct (IH (data ++ v) (ends ++ [e + length v]) (e + length v) (n + (e + length v))) as [n' E].
    exists n'. etransitivity; [exact E|]. rewrite <- !app_assoc. simpl. rewrite Nat.add_assoc. reflexivity.
Qed.

Theorem from_vecs_spec : forall T (vecs : list (list T)), jrep (j_from_vecs vecs) vecs /\ j_cols (j_from_vecs vecs) = length vecs.
Proof.
  intros T vecs. unfold j_from_vecs. destruct (from_vecs_loop T vecs [] [] 0 0) as [n' E].
  match goal with |- context [fold_left ?f ?l ?a] => replace (fold_left f l a) with
    ([] ++ concat vecs, [] ++ psums 0 (map (@length T) vecs), 0 + list_sum (map (@length T) vecs), n') by (symmetry; exact E) end.
  split; [split|]; reflexivity.
Qed.

Theorem from_vecs_get_col : forall T (vecs : list (list T)) k,
  j_get_col (j_from_vecs vecs) k = nth_error vecs k.
Proof. intros. apply jrep_get_col. apply from_vecs_spec. Qed.

Lemma map_nth_seq : forall A (l : list A) d, map (fun j => nth j l d) (seq 0 (length l)) = l.
Proof.
  intros A l d. apply list_ext_nth. intros k. rewrite nth_error_map.
  destruct (Nat.lt_ge_cases k (length l)) as [Hk|Hk].
  - erewrite nth_error_nth' with (d := 0); [|rewrite seq_length; auto]. rewrite seq_nth by auto. simpl.
    symmetry. apply nth_error_nth'. auto.
  - rewrite (proj2 (nth_error_None _ _)) by (rewrite seq_length; auto). simpl. symmetry. apply nth_error_None. auto.
Qed.
