(** The ghost tree recording how a tree was grown, and the invariant tying it to the state of
    the growing loop. *)
From Coq Require Import List Arith NArith Lia Bool Permutation Relations.
From Verif Require Import Prelude Float Data Utils Histogram Node Splitter Tree PivotProofs Pivot3Proofs GrowProofs.
Import ListNotations.

Section Inv.
Context {FS : Floats}.
Variables (s : Splitter) (t : Train) (max_leaves max_depth : nat).
Notation lr := (sp_learning_rate (params s)).

(** A node with the rows that reached it during training. *)
Inductive gtree :=
| GL (sn : SplittableNode) (rows : list nat)
| GB2 (sn : SplittableNode) (rows : list nat) (si : SplitInfo) (mr : bool) (l r : gtree)
| GB3 (sn : SplittableNode) (rows : list nat) (si : SplitInfo) (m l r : gtree).

Definition groot (g : gtree) : SplittableNode :=
  match g with GL n _ | GB2 n _ _ _ _ _ | GB3 n _ _ _ _ _ => n end.
Definition grows (g : gtree) : list nat :=
  match g with GL _ r | GB2 _ r _ _ _ _ | GB3 _ r _ _ _ _ => r end.
Definition gnum (g : gtree) : nat := sn_num (groot g).

Fixpoint gleaves (g : gtree) : list (SplittableNode * list nat) :=
  match g with
  | GL n rows => [(n, rows)]
  | GB2 _ _ _ _ l r => gleaves l ++ gleaves r
  | GB3 _ _ _ m l r => gleaves m ++ gleaves l ++ gleaves r
  end.
Fixpoint gnums (g : gtree) : list nat :=
  match g with
  | GL n rows => [sn_num n]
  | GB2 n _ _ _ l r => sn_num n :: gnums l ++ gnums r
  | GB3 n _ _ m l r => sn_num n :: gnums m ++ gnums l ++ gnums r
  end.

(** Replace the leaf numbered [k]. *)
Fixpoint gexpand (k : nat) (x : gtree) (g : gtree) : gtree :=
  match g with
  | GL n rows => if sn_num n =? k then x else g
  | GB2 n rows si mr l r => GB2 n rows si mr (gexpand k x l) (gexpand k x r)
  | GB3 n rows si m l r => GB3 n rows si (gexpand k x m) (gexpand k x l) (gexpand k x r)
  end.

(** Every recorded split is one the splitter makes on that node with those rows. *)
Inductive gvalid : gtree -> Prop :=
| gv_leaf : forall n rows, sn_is_leaf n = true -> gvalid (GL n rows)
| gv_2 : forall p n rows si mr l r sub lh rh,
    s = Imputer p ->
    sn_is_missing_leaf n = false -> sn_is_leaf n = true -> sn_depth n + 1 <= max_depth ->
    length rows = sn_stop n - sn_start n ->
    Permutation rows sub ->
    split2 s t n si mr sub (grows l) (grows r) lh rh ->
    sn_num n < gnum l -> gnum r = gnum l + 1 ->
    groot l = from_node_info (gnum l) lh (sn_depth n + 1) (sn_start n) (sn_start n + length (grows l)) (si_left si) ->
    groot r = from_node_info (gnum r) rh (sn_depth n + 1) (sn_start n + length (grows l)) (sn_stop n) (si_right si) ->
    gvalid l -> gvalid r -> gvalid (GB2 n rows si mr l r)
| gv_3 : forall n rows si m l r sub mh lh rh minfo mleaf,
    sn_is_missing_leaf n = false -> sn_is_leaf n = true -> sn_depth n + 1 <= max_depth ->
    length rows = sn_stop n - sn_start n ->
    Permutation rows sub ->
    split3 s t n si sub (grows m) (grows l) (grows r) mh lh rh minfo mleaf ->
    sn_num n < gnum m -> gnum l = gnum m + 1 -> gnum r = gnum m + 2 ->
    groot m = set_missing_leaf (from_node_info (gnum m) mh (sn_depth n + 1) (sn_start n)
                (sn_start n + length (grows m)) minfo) mleaf ->
    groot l = from_node_info (gnum l) lh (sn_depth n + 1) (sn_start n + length (grows m))
                (sn_start n + length (grows m) + length (grows l)) (si_left si) ->
    groot r = from_node_info (gnum r) rh (sn_depth n + 1) (sn_start n + length (grows m) + length (grows l))
                (sn_stop n) (si_right si) ->
    gvalid m -> gvalid l -> gvalid r -> gvalid (GB3 n rows si m l r).

(** The node array says what the ghost tree says. *)
Fixpoint agree (nodes : list Node) (g : gtree) : Prop :=
  match g with
  | GL n rows => nth_error nodes (sn_num n) = Some (as_node n lr)
  | GB2 n rows si mr l r =>
      nth_error nodes (sn_num n) =
        Some (make_parent_node (as_node n lr)
                (update_children n (if mr then gnum r else gnum l) (gnum l) (gnum r) si)) /\
      agree nodes l /\ agree nodes r
  | GB3 n rows si m l r =>
      nth_error nodes (sn_num n) =
        Some (make_parent_node (as_node n lr) (update_children n (gnum m) (gnum l) (gnum r) si)) /\
      agree nodes m /\ agree nodes l /\ agree nodes r
  end.

(** The leaves cover the row positions [a..b) in order, without gap or overlap. *)
Fixpoint chain (l : list (SplittableNode * list nat)) (a b : nat) : Prop :=
  match l with
  | [] => a = b
  | x :: r => sn_start (fst x) = a /\ a <= sn_stop (fst x) /\ chain r (sn_stop (fst x)) b
  end.

Definition done (n : SplittableNode) : Prop :=
  sn_is_missing_leaf n = true \/ max_depth < sn_depth n + 1 \/
  best_split s n (tr_cols t) = Some None.

Record INV (root : SplittableNode) (index0 : list nat) (st : Grow) (g : gtree) : Prop := mkINV {
  iv_root : groot g = root;
  iv_grows : grows g = index0;
  iv_valid : gvalid g;
  iv_nums : Permutation (gnums g) (seq 0 (g_n_nodes st));
  iv_len : length (g_nodes st) = g_n_nodes st;
  iv_agree : agree (g_nodes st) g;
  iv_pending : forall p, In p (g_pending st) ->
                 In p (map fst (gleaves g)) /\ sn_is_missing_leaf p = false;
  iv_pnodup : NoDup (map sn_num (g_pending st));
  iv_leaves : g_n_leaves st = length (gleaves g);
  iv_chain : chain (gleaves g) 0 (length index0);
  iv_index : Permutation index0 (g_index st);
  iv_rows : forall n rows, In (n, rows) (gleaves g) ->
     exists sub, slice (g_index st) (sn_start n) (sn_stop n) = Some sub /\ Permutation rows sub;
  iv_done : forall n rows, In (n, rows) (gleaves g) -> In n (g_pending st) \/ done n
}.

(** *** Lists *)
Lemma NoDup_app_iff : forall A (l1 l2 : list A),
  NoDup (l1 ++ l2) <-> NoDup l1 /\ NoDup l2 /\ (forall x, In x l1 -> In x l2 -> False).
Proof.
  intros A l1 l2. induction l1 as [|a l1 IH]; simpl.
  - split; [intros H; repeat split; auto; constructor | tauto].
  - split.
    + intros H. inversion H; subst. apply IH in H3. destruct H3 as (H3 & H4 & H5).
      rewrite in_app_iff in H2. repeat split; auto.
      * constructor; tauto.
      * intros x [->|Hx] Hx2; eauto.
    + intros (H1 & H2 & H3). inversion H1; subst. constructor.
      * rewrite in_app_iff. intros [?|?]; eauto.
      * apply IH. repeat split; auto. intros; eauto.
Qed.

Lemma chain_app : forall l1 l2 a b,
  chain (l1 ++ l2) a b <-> exists c, chain l1 a c /\ chain l2 c b.
Proof.
  induction l1 as [|x l1 IH]; simpl; intros l2 a b.
  - split; [intros H; exists a; auto | intros (c & -> & H); auto].
  - split.
    + intros (H1 & H2 & H3). apply IH in H3. destruct H3 as (c & H3 & H4). exists c; auto.
    + intros (c & (H1 & H2 & H3) & H4). repeat split; auto. apply IH. eauto.
Qed.

Lemma chain_le : forall l a b, chain l a b -> a <= b.
Proof.
  induction l as [|x l IH]; simpl; intros a b H; [lia|].
  destruct H as (H1 & H2 & H3). apply IH in H3. lia.
Qed.

Lemma chain_in : forall l a b x, chain l a b -> In x l ->
  a <= sn_start (fst x) /\ sn_start (fst x) <= sn_stop (fst x) /\ sn_stop (fst x) <= b.
Proof.
  induction l as [|y l IH]; simpl; intros a b x H Hx; [tauto|].
  destruct H as (H1 & H2 & H3). destruct Hx as [->|Hx].
  - apply chain_le in H3. lia.
  - specialize (IH _ _ _ H3 Hx). lia.
Qed.

(** *** gexpand *)
Lemma gexpand_id : forall k x g, ~ In k (map (fun y => sn_num (fst y)) (gleaves g)) -> gexpand k x g = g.
Proof.
  induction g as [n rows|n rows si mr l IHl r IHr|n rows si m IHm l IHl r IHr]; simpl; intros H.
  - destruct (Nat.eqb_spec (sn_num n) k); auto. tauto.
  - rewrite map_app, in_app_iff in H. rewrite IHl, IHr; auto.
  - rewrite !map_app, !in_app_iff in H. rewrite IHl, IHr, IHm; auto.
Qed.

Lemma gexpand_leaves : forall k x g,
  gleaves (gexpand k x g) = flat_map (fun y => if sn_num (fst y) =? k then gleaves x else [y]) (gleaves g).
Proof.
  induction g as [n rows|n rows si mr l IHl r IHr|n rows si m IHm l IHl r IHr]; simpl.
  - destruct (sn_num n =? k); simpl; auto. rewrite app_nil_r; auto.
  - rewrite flat_map_app. congruence.
  - rewrite !flat_map_app. congruence.
Qed.

Lemma gleaves_nums : forall g y, In y (gleaves g) -> In (sn_num (fst y)) (gnums g).
Proof.
  induction g as [n rows|n rows si mr l IHl r IHr|n rows si m IHm l IHl r IHr]; simpl; intros y H.
  - destruct H as [<-|[]]; auto.
  - rewrite in_app_iff in *. destruct H; auto.
  - rewrite !in_app_iff in *. destruct H as [?|[?|?]]; auto.
Qed.

Lemma gleaves_nodup : forall g, NoDup (gnums g) -> NoDup (map (fun y => sn_num (fst y)) (gleaves g)).
Proof.
  assert (HI : forall g x, In x (map (fun y => sn_num (fst y)) (gleaves g)) -> In x (gnums g)).
  { intros g x H. apply in_map_iff in H. destruct H as (y & <- & H). apply gleaves_nums; auto. }
  induction g as [n rows|n rows si mr l IHl r IHr|n rows si m IHm l IHl r IHr]; simpl; intros H.
  - constructor; auto; constructor.
  - inversion H; subst. apply NoDup_app_iff in H3. destruct H3 as (H3 & H4 & H5).
    rewrite map_app. apply NoDup_app_iff. repeat split; auto. intros x Hx1 Hx2. eapply H5; eauto.
  - inversion H; subst. apply NoDup_app_iff in H3. destruct H3 as (H3 & H4 & H5).
    apply NoDup_app_iff in H4. destruct H4 as (H4 & H6 & H7).
    rewrite !map_app. apply NoDup_app_iff. repeat split; auto.
    + apply NoDup_app_iff. repeat split; auto. intros x Hx1 Hx2. eapply H7; eauto.
    + intros x Hx1 Hx2. apply (H5 x); auto. rewrite in_app_iff in *. destruct Hx2; auto.
Qed.

Lemma flat_map_unique : forall k x (l1 : list (SplittableNode * list nat)) y l2,
  NoDup (map (fun y => sn_num (fst y)) (l1 ++ y :: l2)) -> sn_num (fst y) = k ->
  flat_map (fun y => if sn_num (fst y) =? k then gleaves x else [y]) (l1 ++ y :: l2)
   = l1 ++ gleaves x ++ l2.
Proof.
  intros k x l1 y l2 H Hy.
  assert (ID : forall l, ~ In k (map (fun y : SplittableNode * list nat => sn_num (fst y)) l) ->
     flat_map (fun y => if sn_num (fst y) =? k then gleaves x else [y]) l = l).
  { induction l as [|z l IH]; simpl; intros Hn; auto.
    destruct (Nat.eqb_spec (sn_num (fst z)) k); [tauto|]. simpl. rewrite IH; auto. }
  rewrite map_app in H. simpl in H. apply NoDup_remove_2 in H. rewrite in_app_iff in H. rewrite Hy in H.
  rewrite flat_map_app. simpl. rewrite Hy, Nat.eqb_refl. rewrite !ID by tauto. auto.
Qed.

Lemma gexpand_nums : forall k x g, NoDup (gnums g) -> gnum x = k ->
  In k (map (fun y => sn_num (fst y)) (gleaves g)) ->
  Permutation (gnums (gexpand k x g)) (gnums g ++ tl (gnums x)).
Proof.
  intros k x g HN Hx.
  assert (Hh : gnums x = k :: tl (gnums x)) by (destruct x; simpl in *; unfold gnum in Hx; simpl in Hx; congruence).
  assert (HI : forall g z, In z (map (fun y => sn_num (fst y)) (gleaves g)) -> In z (gnums g)).
  { intros g0 z H. apply in_map_iff in H. destruct H as (y & <- & H). apply gleaves_nums; auto. }
  induction g as [n rows|n rows si mr l IHl r IHr|n rows si m IHm l IHl r IHr]; simpl in *; intros H.
  - destruct H as [->|[]]. rewrite Nat.eqb_refl. rewrite Hh at 1. auto.
  - inversion HN; subst. apply NoDup_app_iff in H3. destruct H3 as (H3 & H4 & H5).
    constructor. rewrite map_app, in_app_iff in H. destruct H as [H|H].
    + rewrite (@gexpand_id (gnum x) x r); [|intro; eapply H5; eauto].
      rewrite IHl by auto. rewrite <- !app_assoc. apply Permutation_app_head. apply Permutation_app_comm.
    + rewrite (@gexpand_id (gnum x) x l); [|intro; eapply H5; eauto].
      rewrite IHr by auto. rewrite <- !app_assoc. auto.
  - inversion HN; subst. apply NoDup_app_iff in H3. destruct H3 as (H3 & H4 & H5).
    apply NoDup_app_iff in H4. destruct H4 as (H4 & H6 & H7).
    constructor. rewrite !map_app, !in_app_iff in H. destruct H as [H|[H|H]].
    + rewrite (@gexpand_id (gnum x) x l); [|intro; eapply H5; eauto; rewrite in_app_iff; auto].
      rewrite (@gexpand_id (gnum x) x r); [|intro; eapply H5; eauto; rewrite in_app_iff; auto].
      rewrite IHm by auto. rewrite <- !app_assoc. apply Permutation_app_head.
      rewrite (app_assoc (gnums l)). apply Permutation_app_comm.
    + rewrite (@gexpand_id (gnum x) x m); [|intro; eapply H5; eauto; rewrite in_app_iff; auto].
      rewrite (@gexpand_id (gnum x) x r); [|intro; eapply H7; eauto].
      rewrite IHl by auto. rewrite <- !app_assoc. apply Permutation_app_head.
      apply Permutation_app_head. apply Permutation_app_comm.
    + rewrite (@gexpand_id (gnum x) x m); [|intro; eapply H5; eauto; rewrite in_app_iff; auto].
      rewrite (@gexpand_id (gnum x) x l); [|intro; eapply H7; eauto].
      rewrite IHr by auto. rewrite <- !app_assoc. auto.
Qed.

Lemma gexpand_root : forall n0 rows0 x g,
  groot x = n0 -> grows x = rows0 ->
  (forall y, In y (gleaves g) -> sn_num (fst y) = sn_num n0 -> y = (n0, rows0)) ->
  groot (gexpand (sn_num n0) x g) = groot g /\ grows (gexpand (sn_num n0) x g) = grows g.
Proof.
  intros n0 rows0 x g H1 H2 H. destruct g as [n rows| |]; simpl in *; auto.
  destruct (Nat.eqb_spec (sn_num n) (sn_num n0)); simpl; auto.
  specialize (H (n, rows)). simpl in H. assert ((n, rows) = (n0, rows0)) by auto.
  inversion H0; subst; auto.
Qed.

Lemma gexpand_valid : forall n0 rows0 x g,
  groot x = n0 -> grows x = rows0 -> gvalid x ->
  (forall y, In y (gleaves g) -> sn_num (fst y) = sn_num n0 -> y = (n0, rows0)) ->
  gvalid g -> gvalid (gexpand (sn_num n0) x g).
Proof.
  intros n0 rows0 x g H1 H2 Hx H HV. revert H. induction HV; intros Hu; simpl in *.
  - destruct (sn_num n =? sn_num n0); auto. constructor; auto.
  - destruct (@gexpand_root n0 rows0 x l) as [A1 A2]; auto. { intros; apply Hu; auto; apply in_app_iff; auto. }
    destruct (@gexpand_root n0 rows0 x r) as [B1 B2]; auto. { intros; apply Hu; auto; apply in_app_iff; auto. }
    eapply gv_2 with (sub := sub); eauto; unfold gnum in *; rewrite ?A1, ?A2, ?B1, ?B2; eauto.
    + apply IHHV1. intros; apply Hu; auto; apply in_app_iff; auto.
    + apply IHHV2. intros; apply Hu; auto; apply in_app_iff; auto.
  - destruct (@gexpand_root n0 rows0 x m) as [C1 C2]; auto. { intros; apply Hu; auto; rewrite !in_app_iff; auto. }
    destruct (@gexpand_root n0 rows0 x l) as [A1 A2]; auto. { intros; apply Hu; auto; rewrite !in_app_iff; auto. }
    destruct (@gexpand_root n0 rows0 x r) as [B1 B2]; auto. { intros; apply Hu; auto; rewrite !in_app_iff; auto. }
    eapply gv_3 with (sub := sub); eauto; unfold gnum in *; rewrite ?A1, ?A2, ?B1, ?B2, ?C1, ?C2; eauto.
    + apply IHHV1. intros; apply Hu; auto; rewrite !in_app_iff; auto.
    + apply IHHV2. intros; apply Hu; auto; rewrite !in_app_iff; auto.
    + apply IHHV3. intros; apply Hu; auto; rewrite !in_app_iff; auto.
Qed.

Lemma agree_ext : forall nodes nodes' g,
  (forall i, In i (gnums g) -> nth_error nodes' i = nth_error nodes i) ->
  agree nodes g -> agree nodes' g.
Proof.
  induction g as [n rows|n rows si mr l IHl r IHr|n rows si m IHm l IHl r IHr]; simpl; intros HE HA.
  - rewrite HE; auto.
  - destruct HA as (H1 & H2 & H3). rewrite HE by auto.
    repeat split; auto; [apply IHl|apply IHr]; auto; intros; apply HE; rewrite in_app_iff; auto.
  - destruct HA as (H1 & H2 & H3 & H4). rewrite HE by auto.
    repeat split; auto; [apply IHm|apply IHl|apply IHr]; auto; intros; apply HE; rewrite !in_app_iff; auto.
Qed.

Lemma gexpand_agree : forall nodes nodes' n0 rows0 x g,
  groot x = n0 -> grows x = rows0 ->
  (forall y, In y (gleaves g) -> sn_num (fst y) = sn_num n0 -> y = (n0, rows0)) ->
  NoDup (gnums g) -> In (sn_num n0) (map (fun y => sn_num (fst y)) (gleaves g)) ->
  (forall i, In i (gnums g) -> i <> sn_num n0 -> nth_error nodes' i = nth_error nodes i) ->
  agree nodes' x -> agree nodes g -> agree nodes' (gexpand (sn_num n0) x g).
Proof.
  intros nodes nodes' n0 rows0 x g Hx1 Hx2 Hu HN Hin HE Hx HA.
  assert (HI : forall g z, In z (map (fun y => sn_num (fst y)) (gleaves g)) -> In z (gnums g)).
  { intros g0 z H. apply in_map_iff in H. destruct H as (y & <- & H). apply gleaves_nums; auto. }
  assert (HID : forall g, ~ In (sn_num n0) (gnums g) -> agree nodes g ->
     (forall i, In i (gnums g) -> i <> sn_num n0 -> nth_error nodes' i = nth_error nodes i) ->
     agree nodes' (gexpand (sn_num n0) x g)).
  { intros g0 Hn HA0 HE0. rewrite gexpand_id by (intro Hc; apply Hn; auto).
    apply (agree_ext nodes); auto. intros i Hi. apply HE0; auto. intros Hc; subst i; auto. }
  induction g as [n rows|n rows si mr l IHl r IHr|n rows si m IHm l IHl r IHr]; simpl in *.
  - destruct Hin as [Hin|[]]. rewrite Hin, Nat.eqb_refl. auto.
  - destruct (@gexpand_root n0 rows0 x l) as [A1 A2]; auto. { intros; apply Hu; auto; apply in_app_iff; auto. }
    destruct (@gexpand_root n0 rows0 x r) as [B1 B2]; auto. { intros; apply Hu; auto; apply in_app_iff; auto. }
    inversion HN; subst. apply NoDup_app_iff in H2. destruct H2 as (H3 & H4 & H5).
    destruct HA as (HA & HAl & HAr). unfold gnum in *. rewrite A1, B1.
    assert (sn_num n <> sn_num (groot x)) as Hne.
    { intros Hc. apply H1. rewrite Hc. rewrite map_app, in_app_iff in Hin. rewrite in_app_iff. destruct Hin; auto. }
    split; [rewrite HE; auto|].
    rewrite map_app, in_app_iff in Hin. destruct Hin as [Hin|Hin].
    + split.
      * apply IHl; auto. { intros; apply Hu; auto; apply in_app_iff; auto. }
        intros; apply HE; auto; rewrite in_app_iff; auto.
      * apply HID; auto. { intro; eapply H5; eauto. } intros; apply HE; auto; rewrite in_app_iff; auto.
    + split.
      * apply HID; auto. { intro; eapply H5; eauto. } intros; apply HE; auto; rewrite in_app_iff; auto.
      * apply IHr; auto. { intros; apply Hu; auto; apply in_app_iff; auto. }
        intros; apply HE; auto; rewrite in_app_iff; auto.
  - destruct (@gexpand_root n0 rows0 x m) as [C1 C2]; auto. { intros; apply Hu; auto; rewrite !in_app_iff; auto. }
    destruct (@gexpand_root n0 rows0 x l) as [A1 A2]; auto. { intros; apply Hu; auto; rewrite !in_app_iff; auto. }
    destruct (@gexpand_root n0 rows0 x r) as [B1 B2]; auto. { intros; apply Hu; auto; rewrite !in_app_iff; auto. }
    inversion HN; subst. apply NoDup_app_iff in H2. destruct H2 as (H3 & H4 & H5).
    apply NoDup_app_iff in H4. destruct H4 as (H4 & H6 & H7).
    destruct HA as (HA & HAm & HAl & HAr). unfold gnum in *. rewrite A1, B1, C1.
    assert (sn_num n <> sn_num (groot x)) as Hne.
    { intros Hc. apply H1. rewrite Hc. rewrite !map_app, !in_app_iff in Hin. rewrite !in_app_iff.
      destruct Hin as [?|[?|?]]; auto. }
    split; [rewrite HE; auto|].
    rewrite !map_app, !in_app_iff in Hin. destruct Hin as [Hin|[Hin|Hin]]; repeat split.
    + apply IHm; auto. { intros; apply Hu; auto; rewrite !in_app_iff; auto. }
      intros; apply HE; auto; rewrite !in_app_iff; auto.
    + apply HID; auto. { intro; eapply H5; eauto; rewrite in_app_iff; auto. } intros; apply HE; auto; rewrite !in_app_iff; auto.
    + apply HID; auto. { intro; eapply H5; eauto; rewrite in_app_iff; auto. } intros; apply HE; auto; rewrite !in_app_iff; auto.
    + apply HID; auto. { intro; eapply H5; eauto; rewrite in_app_iff; auto. } intros; apply HE; auto; rewrite !in_app_iff; auto.
    + apply IHl; auto. { intros; apply Hu; auto; rewrite !in_app_iff; auto. }
      intros; apply HE; auto; rewrite !in_app_iff; auto.
    + apply HID; auto. { intro; eapply H7; eauto. } intros; apply HE; auto; rewrite !in_app_iff; auto.
    + apply HID; auto. { intro; eapply H5; eauto; rewrite in_app_iff; auto. } intros; apply HE; auto; rewrite !in_app_iff; auto.
    + apply HID; auto. { intro; eapply H7; eauto. } intros; apply HE; auto; rewrite !in_app_iff; auto.
    + apply IHr; auto. { intros; apply Hu; auto; rewrite !in_app_iff; auto. }
      intros; apply HE; auto; rewrite !in_app_iff; auto.
Qed.
End Inv.
