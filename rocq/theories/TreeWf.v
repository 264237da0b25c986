(** Specification of well-formed node arrays, and the inductive tree each of them stands for. *)
From Coq Require Import List Arith Lia Bool Permutation.
From Verif Require Import Prelude Float Data Utils Histogram Node Splitter Tree GrowInv.
Import ListNotations.

Section Wf.
Context {FS : Floats}.

Definition children (n : Node) : list nat := [n_missing n; n_left n; n_right n].

(** The [nodes] array of a tree is well formed. *)
Record well_formed (nodes : list Node) : Prop := mkWF {
  wf_root : exists n, nth_error nodes 0 = Some n /\ n_depth n = 0;
  wf_num : forall i n, nth_error nodes i = Some n -> n_num n = i;
  wf_child : forall i n c, nth_error nodes i = Some n -> n_is_leaf n = false -> In c (children n) ->
     i < c /\ exists m, nth_error nodes c = Some m /\ n_depth m = n_depth n + 1;
  wf_parent : forall c, 0 < c < length nodes ->
     exists i n, nth_error nodes i = Some n /\ n_is_leaf n = false /\ In c (children n);
  wf_parent_unique : forall c i j n m,
     nth_error nodes i = Some n -> n_is_leaf n = false -> In c (children n) ->
     nth_error nodes j = Some m -> n_is_leaf m = false -> In c (children m) -> i = j;
  wf_sides : forall i n, nth_error nodes i = Some n -> n_is_leaf n = false -> n_left n <> n_right n
}.

(** The same tree as an inductive value. *)
Inductive itree :=
| IL (n : Node)
| IB2 (n : Node) (mr : bool) (l r : itree)
| IB3 (n : Node) (m l r : itree).

Definition iroot (x : itree) : Node := match x with IL n | IB2 n _ _ _ | IB3 n _ _ _ => n end.
Definition inum (x : itree) : nat := n_num (iroot x).
Fixpoint inodes (x : itree) : list Node :=
  match x with
  | IL n => [n]
  | IB2 n _ l r => n :: inodes l ++ inodes r
  | IB3 n m l r => n :: inodes m ++ inodes l ++ inodes r
  end.
Definition inums (x : itree) : list nat := map n_num (inodes x).
Fixpoint iheight (x : itree) : nat :=
  match x with
  | IL _ => 0
  | IB2 _ _ l r => S (Nat.max (iheight l) (iheight r))
  | IB3 _ m l r => S (Nat.max (iheight m) (Nat.max (iheight l) (iheight r)))
  end.

(** [x] is the tree below node [inum x] of the array. *)
Fixpoint reps (nodes : list Node) (x : itree) : Prop :=
  match x with
  | IL n => nth_error nodes (n_num n) = Some n /\ n_is_leaf n = true
  | IB2 n mr l r =>
      nth_error nodes (n_num n) = Some n /\ n_is_leaf n = false /\
      n_left n = inum l /\ n_right n = inum r /\ n_missing n = (if mr then inum r else inum l) /\
      reps nodes l /\ reps nodes r
  | IB3 n m l r =>
      nth_error nodes (n_num n) = Some n /\ n_is_leaf n = false /\
      n_left n = inum l /\ n_right n = inum r /\ n_missing n = inum m /\
      n_missing n <> n_left n /\ n_missing n <> n_right n /\
      reps nodes m /\ reps nodes l /\ reps nodes r
  end.

Lemma reps_root : forall nodes x, reps nodes x -> nth_error nodes (inum x) = Some (iroot x).
Proof. intros nodes [n|n mr l r|n m l r]; simpl; tauto. Qed.

Lemma reps_in : forall nodes x, reps nodes x -> forall n, In n (inodes x) ->
  nth_error nodes (n_num n) = Some n.
Proof.
  induction x as [n|n mr l IHl r IHr|n m IHm l IHl r IHr]; simpl; intros H n' Hn.
  - destruct Hn as [<-|[]]; tauto.
  - destruct Hn as [<-|Hn]; [tauto|]. apply in_app_iff in Hn. destruct Hn; [apply IHl|apply IHr]; tauto.
  - destruct Hn as [<-|Hn]; [tauto|]. rewrite !in_app_iff in Hn. destruct Hn as [?|[?|?]]; [apply IHm|apply IHl|apply IHr]; tauto.
Qed.

Lemma reps_exists_aux : forall nodes, well_formed nodes ->
  forall k i, i < length nodes -> length nodes - i <= k -> exists x, reps nodes x /\ inum x = i.
Proof.
  intros nodes W. induction k as [|k IH]; intros i Hi Hk; [lia|].
  destruct (nth_error_lt nodes Hi) as [n Hn]. pose proof (wf_num _ W _ _ Hn) as Hnum.
  destruct (n_is_leaf n) eqn:El.
  - exists (IL n). simpl. rewrite Hnum. auto.
  - assert (C : forall c, In c (children n) -> exists x, reps nodes x /\ inum x = c).
    { intros c Hc. destruct (wf_child _ W _ _ _ Hn El Hc) as [H1 (m & Hm & _)].
      apply nth_error_Some_lt in Hm. apply IH; lia. }
    destruct (C (n_missing n)) as (xm & Hm1 & Hm2); [simpl; auto|].
    destruct (C (n_left n)) as (xl & Hl1 & Hl2); [simpl; auto|].
    destruct (C (n_right n)) as (xr & Hr1 & Hr2); [simpl; auto|].
    destruct (Nat.eq_dec (n_missing n) (n_left n)) as [E|E].
    + exists (IB2 n false xl xr). simpl. rewrite Hnum. repeat split; auto; congruence.
    + destruct (Nat.eq_dec (n_missing n) (n_right n)) as [E'|E'].
      * exists (IB2 n true xl xr). simpl. rewrite Hnum. repeat split; auto; congruence.
      * exists (IB3 n xm xl xr). simpl. rewrite Hnum. repeat split; auto; congruence.
Qed.

(** Every well-formed array stands for a tree. *)
Lemma reps_exists : forall nodes, well_formed nodes -> exists x, reps nodes x /\ inum x = 0.
Proof.
  intros nodes W. destruct (wf_root _ W) as (n & Hn & _).
  apply (reps_exists_aux nodes W (length nodes) 0); [|lia]. eapply nth_error_Some_lt; eauto.
Qed.

(** Numbers below a node: each is the node itself or has its parent below the node. *)
Lemma reps_ge : forall nodes, well_formed nodes -> forall x, reps nodes x ->
  forall i, In i (inums x) -> inum x <= i /\ i < length nodes.
Proof.
  intros nodes W. unfold inums.
  induction x as [n|n mr l IHl r IHr|n m IHm l IHl r IHr]; intros H i Hi.
  - simpl in *. destruct Hi as [<-|[]]. unfold inum; simpl. split; auto. eapply nth_error_Some_lt. apply H.
  - simpl in H. destruct H as (H1 & H2 & H3 & H4 & H5 & H6 & H7).
    assert (inum (IB2 n mr l r) < n_left n /\ inum (IB2 n mr l r) < n_right n) as [A B].
    { split; eapply (wf_child _ W _ _ _ H1 H2); simpl; auto. }
    simpl in Hi. destruct Hi as [<-|Hi].
    + split; [apply le_n|]. eapply nth_error_Some_lt; eauto.
    + rewrite map_app, in_app_iff in Hi. destruct Hi as [Hi|Hi].
      * destruct (IHl H6 i Hi). split; auto. lia.
      * destruct (IHr H7 i Hi). split; auto. lia.
  - simpl in H. destruct H as (H1 & H2 & H3 & H4 & H5 & _ & _ & H6 & H7 & H8).
    assert (inum (IB3 n m l r) < n_left n /\ inum (IB3 n m l r) < n_right n /\ inum (IB3 n m l r) < n_missing n) as (A & B & C).
    { repeat split; eapply (wf_child _ W _ _ _ H1 H2); simpl; auto. }
    simpl in Hi. destruct Hi as [<-|Hi].
    + split; [apply le_n|]. eapply nth_error_Some_lt; eauto.
    + rewrite !map_app, !in_app_iff in Hi. destruct Hi as [Hi|[Hi|Hi]].
      * destruct (IHm H6 i Hi). split; auto. lia.
      * destruct (IHl H7 i Hi). split; auto. lia.
      * destruct (IHr H8 i Hi). split; auto. lia.
Qed.

Lemma reps_parent : forall nodes x, reps nodes x ->
  forall i, In i (inums x) -> i <> inum x ->
  exists j n, In j (inums x) /\ nth_error nodes j = Some n /\ n_is_leaf n = false /\ In i (children n).
Proof.
  intros nodes. unfold inums.
  induction x as [n|n mr l IHl r IHr|n m IHm l IHl r IHr]; intros H i Hi Hne.
  - simpl in *. destruct Hi as [<-|[]]. tauto.
  - simpl in H. destruct H as (H1 & H2 & H3 & H4 & H5 & H6 & H7).
    simpl in Hi. destruct Hi as [<-|Hi]; [exfalso; apply Hne; reflexivity|].
    rewrite map_app, in_app_iff in Hi. destruct Hi as [Hi|Hi].
    + destruct (Nat.eq_dec i (inum l)) as [->|E].
      * exists (n_num n), n. simpl. rewrite <- H3. repeat split; auto.
      * destruct (IHl H6 i Hi E) as (j & n' & Q & Q'). exists j, n'. split; auto. simpl. rewrite map_app, in_app_iff. auto.
    + destruct (Nat.eq_dec i (inum r)) as [->|E].
      * exists (n_num n), n. simpl. rewrite <- H4. repeat split; auto.
      * destruct (IHr H7 i Hi E) as (j & n' & Q & Q'). exists j, n'. split; auto. simpl. rewrite map_app, in_app_iff. auto.
  - simpl in H. destruct H as (H1 & H2 & H3 & H4 & H5 & _ & _ & H6 & H7 & H8).
    simpl in Hi. destruct Hi as [<-|Hi]; [exfalso; apply Hne; reflexivity|].
    rewrite !map_app, !in_app_iff in Hi. destruct Hi as [Hi|[Hi|Hi]].
    + destruct (Nat.eq_dec i (inum m)) as [->|E].
      * exists (n_num n), n. simpl. rewrite <- H5. repeat split; auto.
      * destruct (IHm H6 i Hi E) as (j & n' & Q & Q'). exists j, n'. split; auto. simpl. rewrite !map_app, !in_app_iff. auto.
    + destruct (Nat.eq_dec i (inum l)) as [->|E].
      * exists (n_num n), n. simpl. rewrite <- H3. repeat split; auto.
      * destruct (IHl H7 i Hi E) as (j & n' & Q & Q'). exists j, n'. split; auto. simpl. rewrite !map_app, !in_app_iff. auto.
    + destruct (Nat.eq_dec i (inum r)) as [->|E].
      * exists (n_num n), n. simpl. rewrite <- H4. repeat split; auto.
      * destruct (IHr H8 i Hi E) as (j & n' & Q & Q'). exists j, n'. split; auto. simpl. rewrite !map_app, !in_app_iff. auto.
Qed.

(** Two different children of a node have no node below in common. *)
Lemma reps_disjoint : forall nodes, well_formed nodes -> forall p n a b,
  nth_error nodes p = Some n -> n_is_leaf n = false ->
  reps nodes a -> reps nodes b -> In (inum a) (children n) -> In (inum b) (children n) ->
  inum a <> inum b -> forall x, In x (inums a) -> In x (inums b) -> False.
Proof.
  intros nodes W p n a b Hp Hl Ha Hb Ca Cb Hab x.
  induction x as [x IH] using lt_wf_ind. intros Hxa Hxb.
  destruct (wf_child _ W _ _ _ Hp Hl Ca) as [La _]. destruct (wf_child _ W _ _ _ Hp Hl Cb) as [Lb _].
  destruct (Nat.eq_dec x (inum a)) as [Ea|Ea]; destruct (Nat.eq_dec x (inum b)) as [Eb|Eb]; [congruence| | |].
  - destruct (reps_parent _ _ Hb _ Hxb Eb) as (j & m & Hj & Hm & Hml & Hmc).
    assert (j = p) by (rewrite Ea in Hmc; eapply (wf_parent_unique _ W); eauto). subst j.
    apply (reps_ge _ W _ Hb) in Hj. lia.
  - destruct (reps_parent _ _ Ha _ Hxa Ea) as (j & m & Hj & Hm & Hml & Hmc).
    assert (j = p) by (rewrite Eb in Hmc; eapply (wf_parent_unique _ W); eauto). subst j.
    apply (reps_ge _ W _ Ha) in Hj. lia.
  - destruct (reps_parent _ _ Ha _ Hxa Ea) as (j & m & Hj & Hm & Hml & Hmc).
    destruct (reps_parent _ _ Hb _ Hxb Eb) as (j' & m' & Hj' & Hm' & Hml' & Hmc').
    assert (j = j') by (eapply (wf_parent_unique _ W); eauto). subst j'.
    apply (IH j); auto. eapply (wf_child _ W); eauto.
Qed.

Lemma reps_nodup : forall nodes, well_formed nodes -> forall x, reps nodes x -> NoDup (inums x).
Proof.
  intros nodes W.
  induction x as [n|n mr l IHl r IHr|n m IHm l IHl r IHr]; intros H; unfold inums in *.
  - simpl. constructor; auto. constructor.
  - simpl in H. destruct H as (H1 & H2 & H3 & H4 & H5 & H6 & H7).
    assert (L := wf_sides _ W _ _ H1 H2).
    assert (n_num n < n_left n /\ n_num n < n_right n) as [A B].
    { split; eapply (wf_child _ W _ _ _ H1 H2); simpl; auto. }
    simpl. rewrite map_app. constructor.
    + rewrite in_app_iff. intros [Hi|Hi]; [apply (reps_ge _ W _ H6) in Hi|apply (reps_ge _ W _ H7) in Hi]; lia.
    + apply NoDup_app_iff. repeat split; auto. intros x Hx1 Hx2.
      apply (reps_disjoint _ W _ _ l r H1 H2 H6 H7) with (x := x); simpl; auto; congruence.
  - simpl in H. destruct H as (H1 & H2 & H3 & H4 & H5 & N1 & N2 & H6 & H7 & H8).
    assert (L := wf_sides _ W _ _ H1 H2).
    assert (n_num n < n_left n /\ n_num n < n_right n /\ n_num n < n_missing n) as (A & B & C).
    { repeat split; eapply (wf_child _ W _ _ _ H1 H2); simpl; auto. }
    simpl. rewrite !map_app. constructor.
    + rewrite !in_app_iff. intros [Hi|[Hi|Hi]];
        [apply (reps_ge _ W _ H6) in Hi|apply (reps_ge _ W _ H7) in Hi|apply (reps_ge _ W _ H8) in Hi]; lia.
    + apply NoDup_app_iff. repeat split; auto.
      * apply NoDup_app_iff. repeat split; auto. intros x Hx1 Hx2.
        apply (reps_disjoint _ W _ _ l r H1 H2 H7 H8) with (x := x); simpl; auto; congruence.
      * intros x Hx1 Hx2. rewrite in_app_iff in Hx2. destruct Hx2 as [Hx2|Hx2].
        -- apply (reps_disjoint _ W _ _ m l H1 H2 H6 H7) with (x := x); simpl; auto; congruence.
        -- apply (reps_disjoint _ W _ _ m r H1 H2 H6 H8) with (x := x); simpl; auto; congruence.
Qed.

Lemma reps_closed : forall nodes x, reps nodes x -> forall i n c,
  In i (inums x) -> nth_error nodes i = Some n -> n_is_leaf n = false -> In c (children n) -> In c (inums x).
Proof.
  intros nodes. unfold inums.
  induction x as [n|n mr l IHl r IHr|n m IHm l IHl r IHr]; intros H i n' c Hi Hn Hl Hc.
  - simpl in *. destruct Hi as [<-|[]]. destruct H. congruence.
  - simpl in H. destruct H as (H1 & H2 & H3 & H4 & H5 & H6 & H7).
    assert (RL : In (inum l) (map n_num (inodes l))) by (destruct l; simpl; auto).
    assert (RR : In (inum r) (map n_num (inodes r))) by (destruct r; simpl; auto).
    simpl in *. rewrite map_app, in_app_iff in *. destruct Hi as [<-|[Hi|Hi]].
    + assert (n = n') as <- by congruence. destruct Hc as [<-|[<-|[<-|[]]]].
      * rewrite H5. destruct mr; auto.
      * rewrite H3; auto.
      * rewrite H4; auto.
    + right; left; eauto.
    + right; right; eauto.
  - simpl in H. destruct H as (H1 & H2 & H3 & H4 & H5 & N1 & N2 & H6 & H7 & H8).
    assert (RM : In (inum m) (map n_num (inodes m))) by (destruct m; simpl; auto).
    assert (RL : In (inum l) (map n_num (inodes l))) by (destruct l; simpl; auto).
    assert (RR : In (inum r) (map n_num (inodes r))) by (destruct r; simpl; auto).
    simpl in *. rewrite !map_app, !in_app_iff in *. destruct Hi as [<-|[Hi|[Hi|Hi]]].
    + assert (n = n') as <- by congruence. destruct Hc as [<-|[<-|[<-|[]]]].
      * rewrite H5. auto.
      * rewrite H3; auto.
      * rewrite H4; auto 6.
    + right; left; eauto.
    + right; right; left; eauto.
    + right; right; right; eauto.
Qed.

(** The tree from the root contains every node of the array exactly once. *)
Lemma reps_all : forall nodes, well_formed nodes -> forall x, reps nodes x -> inum x = 0 ->
  Permutation (inums x) (seq 0 (length nodes)).
Proof.
  intros nodes W x H H0. apply NoDup_Permutation.
  - eapply reps_nodup; eauto.
  - apply seq_NoDup.
  - intros i. rewrite in_seq. split.
    + intros Hi. apply (reps_ge _ W _ H) in Hi. lia.
    + intros [_ Hi]. simpl in Hi. revert Hi. induction i as [i IH] using lt_wf_ind. intros Hi.
      destruct i as [|i].
      * rewrite <- H0. unfold inums. destruct x; simpl; auto.
      * destruct (wf_parent _ W (S i)) as (j & n & Hj & Hl & Hc); [lia|].
        assert (Hlt := wf_child _ W _ _ _ Hj Hl Hc). destruct Hlt as [Hlt _].
        eapply reps_closed; eauto. apply IH; auto. eapply nth_error_Some_lt; eauto.
Qed.

Lemma reps_size : forall nodes, well_formed nodes -> forall x, reps nodes x -> inum x = 0 ->
  length (inodes x) = length nodes.
Proof.
  intros nodes W x H H0. apply (reps_all _ W) in H; auto.
  apply Permutation_length in H. unfold inums in H. rewrite map_length, seq_length in H. auto.
Qed.

Lemma iheight_size : forall x, iheight x < length (inodes x).
Proof.
  induction x as [n|n mr l IHl r IHr|n m IHm l IHl r IHr]; simpl; rewrite ?app_length; lia.
Qed.

(** *** Walking *)
Fixpoint descend (x : itree) (row : nat -> option F64) (missing : F64) : option Node :=
  match x with
  | IL n => Some n
  | IB2 n mr l r =>
      let* v := row (n_split_feature n) in
      let* m := is_missing v missing in
      if m then (if mr then descend r row missing else descend l row missing)
      else if (v <? n_split_value n)%f64 then descend l row missing else descend r row missing
  | IB3 n m l r =>
      let* v := row (n_split_feature n) in
      let* ms := is_missing v missing in
      if ms then descend m row missing
      else if (v <? n_split_value n)%f64 then descend l row missing else descend r row missing
  end.

Lemma walk_descend : forall nodes row missing x, reps nodes x ->
  forall fuel, iheight x < fuel -> walk fuel nodes row missing (inum x) = descend x row missing.
Proof.
  induction x as [n|n mr l IHl r IHr|n m IHm l IHl r IHr]; intros H fuel Hf;
    (destruct fuel as [|fuel]; [lia|]); simpl; rewrite (reps_root _ _ H); simpl.
  - simpl in H. destruct H as [_ ->]. auto.
  - simpl in H, Hf. destruct H as (H1 & H2 & H3 & H4 & H5 & H6 & H7). rewrite H2.
    destruct (row (n_split_feature n)) as [v|]; simpl; auto.
    unfold get_child_idx. destruct (is_missing v missing) as [[|]|]; simpl; auto.
    + rewrite H5. destruct mr; [apply IHr|apply IHl]; auto; lia.
    + destruct (v <? n_split_value n)%f64; [rewrite H3; apply IHl|rewrite H4; apply IHr]; auto; lia.
  - simpl in H, Hf. destruct H as (H1 & H2 & H3 & H4 & H5 & _ & _ & H6 & H7 & H8). rewrite H2.
    destruct (row (n_split_feature n)) as [v|]; simpl; auto.
    unfold get_child_idx. destruct (is_missing v missing) as [[|]|]; simpl; auto.
    + rewrite H5. apply IHm; auto; lia.
    + destruct (v <? n_split_value n)%f64; [rewrite H3; apply IHl|rewrite H4; apply IHr]; auto; lia.
Qed.

Lemma walk_wf : forall nodes x row missing, well_formed nodes -> reps nodes x -> inum x = 0 ->
  walk (length nodes) nodes row missing 0 = descend x row missing.
Proof.
  intros nodes x row missing W H H0. rewrite <- H0 at 1. apply walk_descend; auto.
  rewrite <- (reps_size _ W _ H H0). apply iheight_size.
Qed.

Lemma descend_leaf : forall nodes x row missing n, reps nodes x -> descend x row missing = Some n ->
  In n (inodes x) /\ n_is_leaf n = true.
Proof.
  induction x as [n|n mr l IHl r IHr|n m IHm l IHl r IHr]; intros row missing n' H HD; simpl in *.
  - injection HD as <-. tauto.
  - destruct H as (H1 & H2 & H3 & H4 & H5 & H6 & H7).
    inv_bind HD. inv_bind HD. rewrite in_app_iff.
    destruct v0; [destruct mr|destruct (v <? n_split_value n)%f64];
      first [apply IHl in HD; tauto|apply IHr in HD; tauto].
  - destruct H as (H1 & H2 & H3 & H4 & H5 & _ & _ & H6 & H7 & H8).
    inv_bind HD. inv_bind HD. rewrite !in_app_iff.
    destruct v0; [|destruct (v <? n_split_value n)%f64];
      first [apply IHm in HD; tauto|apply IHl in HD; tauto|apply IHr in HD; tauto].
Qed.
End Wf.
