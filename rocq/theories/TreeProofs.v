(** Fitted trees: well-formedness, depth, leaf count, size, termination. *)
From Coq Require Import List Arith NArith Lia Bool Permutation Relations.
From Verif Require Import Prelude Float Data Utils Histogram Node Splitter Tree GrowProofs GrowInv GrowStep TreeWf.
Import ListNotations.

(** *** clean_up_splits changes weights only *)
Section Clean.
Context {FS : Floats}.

Definition reweighted (a b : Node) : Prop := b = set_weight a (n_weight b).

Lemma reweighted_refl : forall a, reweighted a a.
Proof. intros []; reflexivity. Qed.
Lemma reweighted_trans : forall a b c, reweighted a b -> reweighted b c -> reweighted a c.
Proof. unfold reweighted; intros a b c H1 H2. rewrite H2, H1. reflexivity. Qed.

Lemma Forall2_refl : forall A (R : A -> A -> Prop), (forall x, R x x) -> forall l, Forall2 R l l.
Proof. induction l; constructor; auto. Qed.
Lemma Forall2_trans : forall A (R : A -> A -> Prop), (forall x y z, R x y -> R y z -> R x z) ->
  forall l1 l2 l3, Forall2 R l1 l2 -> Forall2 R l2 l3 -> Forall2 R l1 l3.
Proof.
  intros A R HT l1 l2 l3 H. revert l3. induction H; intros l3 H3; inversion H3; subst; constructor; eauto.
Qed.

Definition same_shape := Forall2 reweighted.

Lemma same_shape_refl : forall l, same_shape l l.
Proof. apply Forall2_refl, reweighted_refl. Qed.
Lemma same_shape_trans : forall a b c, same_shape a b -> same_shape b c -> same_shape a c.
Proof. apply Forall2_trans, reweighted_trans. Qed.

Lemma Forall2_nth_l : forall A B (R : A -> B -> Prop) l l', Forall2 R l l' -> forall i x,
  nth_error l i = Some x -> exists y, nth_error l' i = Some y /\ R x y.
Proof.
  induction 1; intros i z Hz; destruct i; simpl in *; try discriminate; eauto.
  injection Hz as <-. eauto.
Qed.
Lemma Forall2_nth_r : forall A B (R : A -> B -> Prop) l l', Forall2 R l l' -> forall i y,
  nth_error l' i = Some y -> exists x, nth_error l i = Some x /\ R x y.
Proof.
  induction 1; intros i z Hz; destruct i; simpl in *; try discriminate; eauto.
  injection Hz as <-. eauto.
Qed.

Lemma Forall2_len : forall A B (R : A -> B -> Prop) l l', Forall2 R l l' -> length l = length l'.
Proof. induction 1; simpl; auto. Qed.

Lemma same_shape_set : forall nodes i n w nodes',
  nth_error nodes i = Some n -> update nodes i (set_weight n w) = Some nodes' -> same_shape nodes nodes'.
Proof.
  induction nodes as [|a nodes IH]; intros [|i] n w nodes' Hn H; simpl in *; try discriminate.
  - injection Hn as <-. injection H as <-. constructor; [reflexivity|apply same_shape_refl].
  - inv_bind H. injection H as <-. constructor; [apply reweighted_refl|apply (IH i n w); auto].
Qed.

Lemma same_shape_set' : forall nodes i w,
  same_shape nodes (match nth_error nodes i with
                    | Some n => match update nodes i (set_weight n w) with Some l => l | None => nodes end
                    | None => nodes end).
Proof.
  intros. destruct (nth_error nodes i) eqn:E; [|apply same_shape_refl].
  destruct (update nodes i (set_weight n w)) eqn:E2; [|apply same_shape_refl].
  eapply same_shape_set; eauto.
Qed.

Lemma uam_shape : forall fuel nodes i a nodes',
  update_average_missing_nodes fuel nodes i = Some (a, nodes') -> same_shape nodes nodes'.
Proof.
  induction fuel as [|fu IH]; intros nodes i a nodes' H; simpl in H; [discriminate|].
  inv_bind H. destruct (n_is_leaf v); [injection H as <- <-; apply same_shape_refl|].
  inv_bind H. inv_bind H. destruct v1 as [ra n1]. inv_bind H. inv_bind H. destruct v2 as [la n2].
  inv_bind H. inv_bind H. destruct v3 as [[[mh ma] ml] n3].
  apply IH in E1. apply IH in E3.
  assert (S3 : same_shape n2 n3).
  { destruct (n_is_leaf v2).
    - injection E5 as <- <- <- <-. apply same_shape_refl.
    - inv_bind E5. destruct v3 as [a3 n4]. injection E5 as <- <- <- <-. eauto. }
  injection H as <- <-.
  eapply same_shape_trans; [exact E1|]. eapply same_shape_trans; [exact E3|].
  eapply same_shape_trans; [exact S3|].
  destruct ml.
  - eapply same_shape_trans; apply same_shape_set'.
  - apply same_shape_set'.
Qed.

Lemma clean_shape : forall s nodes nodes', clean_up_splits s nodes = Some nodes' -> same_shape nodes nodes'.
Proof.
  intros [p|p term [] force] nodes nodes' H; simpl in H; try (injection H as <-; apply same_shape_refl).
  inv_bind H. destruct v as [a n]. injection H as <-. eapply uam_shape; eauto.
Qed.

Lemma reweighted_eq : forall a b, reweighted a b ->
  n_num b = n_num a /\ n_hess b = n_hess a /\ n_depth b = n_depth a /\
  n_split_value b = n_split_value a /\ n_split_feature b = n_split_feature a /\
  n_split_gain b = n_split_gain a /\ n_missing b = n_missing a /\ n_left b = n_left a /\
  n_right b = n_right a /\ n_is_leaf b = n_is_leaf a /\ children b = children a.
Proof. unfold reweighted; intros a b ->. unfold children; simpl; auto 15. Qed.

Lemma well_formed_shape : forall nodes nodes', same_shape nodes nodes' -> well_formed nodes -> well_formed nodes'.
Proof.
  intros nodes nodes' S W.
  assert (B : forall i n', nth_error nodes' i = Some n' -> exists n, nth_error nodes i = Some n /\ reweighted n n')
    by (intros; eapply Forall2_nth_r; eauto).
  assert (Fw : forall i n, nth_error nodes i = Some n -> exists n', nth_error nodes' i = Some n' /\ reweighted n n')
    by (intros; eapply Forall2_nth_l; eauto).
  constructor.
  - destruct (wf_root _ W) as (n & Hn & Hd). destruct (Fw _ _ Hn) as (n' & Hn' & R).
    exists n'. split; auto. apply reweighted_eq in R. intuition congruence.
  - intros i n' H. destruct (B _ _ H) as (n & Hn & R). apply reweighted_eq in R.
    apply (wf_num _ W) in Hn. intuition congruence.
  - intros i n' c H Hl Hc. destruct (B _ _ H) as (n & Hn & R). apply reweighted_eq in R.
    destruct R as (R1 & R2 & R3 & R4 & R5 & R6 & R7 & R8 & R9 & R10 & R11).
    rewrite R10 in Hl. rewrite R11 in Hc. destruct (wf_child _ W _ _ _ Hn Hl Hc) as (L & m & Hm & Hd).
    split; auto. destruct (Fw _ _ Hm) as (m' & Hm' & R'). exists m'. split; auto.
    apply reweighted_eq in R'. destruct R' as (_ & _ & -> & _). congruence.
  - intros c Hc. rewrite <- (Forall2_len _ _ _ _ _ S) in Hc. destruct (wf_parent _ W _ Hc) as (i & n & Hn & Hl & Hin).
    destruct (Fw _ _ Hn) as (n' & Hn' & R). apply reweighted_eq in R. exists i, n'.
    destruct R as (R1 & R2 & R3 & R4 & R5 & R6 & R7 & R8 & R9 & R10 & R11). rewrite R10, R11. auto.
  - intros c i j n' m' Hi Hil Hic Hj Hjl Hjc. destruct (B _ _ Hi) as (n & Hn & R). destruct (B _ _ Hj) as (m & Hm & R').
    apply reweighted_eq in R. apply reweighted_eq in R'.
    destruct R as (_ & _ & _ & _ & _ & _ & _ & _ & _ & R10 & R11).
    destruct R' as (_ & _ & _ & _ & _ & _ & _ & _ & _ & R10' & R11').
    eapply (wf_parent_unique _ W c i j n m); eauto; congruence.
  - intros i n' H Hl. destruct (B _ _ H) as (n & Hn & R). apply reweighted_eq in R.
    destruct R as (R1 & R2 & R3 & R4 & R5 & R6 & R7 & R8 & R9 & R10 & R11).
    rewrite R8, R9. eapply (wf_sides _ W); eauto.
Qed.
End Clean.

(** *** Reading the account *)
Section Account.
Context {FS : Floats}.
Variables (s : Splitter) (t : Train) (max_depth : nat).
Notation lr := (sp_learning_rate (params s)).
Notation gvalid := (gvalid s t max_depth).

Fixpoint gall (g : gtree) : list gtree :=
  g :: match g with
       | GL _ _ => []
       | GB2 _ _ _ _ l r => gall l ++ gall r
       | GB3 _ _ _ m l r => gall m ++ gall l ++ gall r
       end.

Definition gkids (g : gtree) : list nat :=
  match g with
  | GL _ _ => []
  | GB2 _ _ _ _ l r => [gnum l; gnum r]
  | GB3 _ _ _ m l r => [gnum m; gnum l; gnum r]
  end.

Definition gnode (g : gtree) : Node :=
  match g with
  | GL n _ => as_node n lr
  | GB2 n rows si mr l r =>
      make_parent_node (as_node n lr) (update_children n (if mr then gnum r else gnum l) (gnum l) (gnum r) si)
  | GB3 n rows si m l r =>
      make_parent_node (as_node n lr) (update_children n (gnum m) (gnum l) (gnum r) si)
  end.

Lemma gall_self : forall g, In g (gall g).
Proof. destruct g; simpl; auto. Qed.

Lemma gall_nums : forall g, map gnum (gall g) = gnums g.
Proof.
  induction g as [n rows|n rows si mr l IHl r IHr|n rows si m IHm l IHl r IHr]; simpl; auto.
  - rewrite map_app, IHl, IHr. reflexivity.
  - rewrite !map_app, IHm, IHl, IHr. reflexivity.
Qed.

Lemma gall_valid : forall g, gvalid g -> forall x, In x (gall g) -> gvalid x.
Proof.
  intros g V. induction V; simpl; intros x Hx.
  - destruct Hx as [<-|[]]. constructor; auto.
  - destruct Hx as [<-|Hx]; [eapply gv_2; eauto|]. apply in_app_iff in Hx. destruct Hx; auto.
  - destruct Hx as [<-|Hx]; [eapply gv_3; eauto|]. rewrite !in_app_iff in Hx. destruct Hx as [?|[?|?]]; auto.
Qed.

Lemma gall_agree : forall nodes g, agree s nodes g -> forall x, In x (gall g) ->
  nth_error nodes (gnum x) = Some (gnode x).
Proof.
  intros nodes.
  induction g as [n rows|n rows si mr l IHl r IHr|n rows si m IHm l IHl r IHr]; simpl; intros A x Hx.
  - destruct Hx as [<-|[]]. auto.
  - destruct A as (A & Al & Ar). destruct Hx as [<-|Hx]; auto. apply in_app_iff in Hx. destruct Hx; auto.
  - destruct A as (A & Am & Al & Ar). destruct Hx as [<-|Hx]; auto.
    rewrite !in_app_iff in Hx. destruct Hx as [?|[?|?]]; auto.
Qed.

Lemma gall_trans : forall g x y, In x (gall g) -> In y (gall x) -> In y (gall g).
Proof.
  induction g as [n rows|n rows si mr l IHl r IHr|n rows si m IHm l IHl r IHr]; simpl; intros x y Hx Hy.
  - destruct Hx as [<-|[]]. auto.
  - destruct Hx as [<-|Hx]; auto. right. apply in_app_iff in Hx. apply in_app_iff. destruct Hx; eauto.
  - destruct Hx as [<-|Hx]; auto. right. rewrite !in_app_iff in *. destruct Hx as [?|[?|?]]; eauto.
Qed.

Lemma gnums_kids : forall g, Permutation (gnums g) (gnum g :: flat_map gkids (gall g)).
Proof.
  induction g as [n rows|n rows si mr l IHl r IHr|n rows si m IHm l IHl r IHr]; simpl; auto.
  - constructor. rewrite flat_map_app. rewrite IHl, IHr. simpl. constructor.
    apply Permutation_sym, Permutation_middle.
  - constructor. rewrite !flat_map_app. rewrite IHm, IHl, IHr. simpl. constructor.
    rewrite <- Permutation_middle. constructor.
    rewrite app_assoc. rewrite <- Permutation_middle. constructor. rewrite <- app_assoc. auto.
Qed.

Lemma flat_map_nodup : forall A B (f : A -> list B) l, NoDup (flat_map f l) ->
  forall a b x, In a l -> In b l -> In x (f a) -> In x (f b) -> a = b.
Proof.
  induction l as [|c l IH]; simpl; intros HN a b x Ha Hb Hxa Hxb; [tauto|].
  apply NoDup_app_iff in HN. destruct HN as (H1 & H2 & H3).
  destruct Ha as [->|Ha], Hb as [->|Hb]; eauto; exfalso.
  - apply (H3 x); auto. apply in_flat_map; eauto.
  - apply (H3 x); auto. apply in_flat_map; eauto.
Qed.

Lemma gnode_facts : forall x, gvalid x ->
  n_num (gnode x) = gnum x /\ n_depth (gnode x) = sn_depth (groot x) /\
  n_hess (gnode x) = sn_hess (groot x) /\ n_weight (gnode x) = (sn_weight (groot x) * lr)%f32 /\
  (n_is_leaf (gnode x) = true <-> exists n rows, x = GL n rows) /\
  (n_is_leaf (gnode x) = false -> forall c, In c (children (gnode x)) <-> In c (gkids x)) /\
  (n_is_leaf (gnode x) = true -> gkids x = []).
Proof.
  intros x V. inversion V; subst; (do 4 (split; [reflexivity|])); simpl.
  - split; [split; [eauto|auto]|]. split; [congruence|auto].
  - split; [split; [discriminate|intros (? & ? & ?); discriminate]|]. split; [|discriminate].
    intros _ c. unfold children; simpl. destruct mr; intuition.
  - split; [split; [discriminate|intros (? & ? & ?); discriminate]|]. split; [|discriminate].
    intros _ c. unfold children; simpl. intuition.
Qed.

Lemma gall_by_num : forall g i, In i (gnums g) -> exists x, In x (gall g) /\ gnum x = i.
Proof. intros g i H. rewrite <- gall_nums in H. apply in_map_iff in H. destruct H as (x & <- & H). eauto. Qed.

(** Direct children of a valid ghost node. *)
Definition gchildren (g : gtree) : list gtree :=
  match g with GL _ _ => [] | GB2 _ _ _ _ l r => [l; r] | GB3 _ _ _ m l r => [m; l; r] end.

Lemma gchildren_all : forall g c, In c (gchildren g) -> In c (gall g).
Proof.
  destruct g; simpl; intros c H.
  - tauto.
  - right. apply in_app_iff. destruct H as [<-|[<-|[]]]; [left|right]; apply gall_self.
  - right. rewrite !in_app_iff. destruct H as [<-|[<-|[<-|[]]]]; [left|right; left|right; right]; apply gall_self.
Qed.

Lemma gkids_children : forall g, gkids g = map gnum (gchildren g).
Proof. destruct g; reflexivity. Qed.

Ltac gdepths := repeat match goal with H : groot _ = _ |- _ => apply (f_equal sn_depth) in H; simpl in H end.

Lemma gchildren_depth : forall g, gvalid g -> forall c, In c (gchildren g) ->
  sn_depth (groot c) = sn_depth (groot g) + 1 /\ sn_depth (groot c) <= max_depth /\ gnum g < gnum c.
Proof.
  intros g V c H. inversion V; subst; gdepths; unfold gnum in *; simpl in *.
  - tauto.
  - destruct H as [<-|[<-|[]]]; lia.
  - destruct H as [<-|[<-|[<-|[]]]]; lia.
Qed.

Lemma gall_child_or_root : forall g x, In x (gall g) -> x = g \/ exists p, In p (gall g) /\ In x (gchildren p).
Proof.
  induction g as [n rows|n rows si mr l IHl r IHr|n rows si m IHm l IHl r IHr]; intros x Hx.
  - simpl in Hx. destruct Hx as [<-|[]]; auto.
  - simpl in Hx. destruct Hx as [<-|Hx]; auto. right. apply in_app_iff in Hx. destruct Hx as [Hx|Hx].
    + destruct (IHl _ Hx) as [->|(p & Hp & Hc)].
      * eexists. split; [apply gall_self|simpl; auto].
      * exists p. split; auto. simpl. rewrite in_app_iff. auto.
    + destruct (IHr _ Hx) as [->|(p & Hp & Hc)].
      * eexists. split; [apply gall_self|simpl; auto].
      * exists p. split; auto. simpl. rewrite in_app_iff. auto.
  - simpl in Hx. destruct Hx as [<-|Hx]; auto. right. rewrite !in_app_iff in Hx. destruct Hx as [Hx|[Hx|Hx]].
    + destruct (IHm _ Hx) as [->|(p & Hp & Hc)].
      * eexists. split; [apply gall_self|simpl; auto].
      * exists p. split; auto. simpl. rewrite !in_app_iff. auto.
    + destruct (IHl _ Hx) as [->|(p & Hp & Hc)].
      * eexists. split; [apply gall_self|simpl; auto].
      * exists p. split; auto. simpl. rewrite !in_app_iff. auto.
    + destruct (IHr _ Hx) as [->|(p & Hp & Hc)].
      * eexists. split; [apply gall_self|simpl; auto 6].
      * exists p. split; auto. simpl. rewrite !in_app_iff. auto.
Qed.

Lemma gall_depth : forall g, gvalid g -> sn_depth (groot g) <= max_depth ->
  forall x, In x (gall g) -> sn_depth (groot x) <= max_depth.
Proof.
  intros g V H x Hx. destruct (gall_child_or_root _ _ Hx) as [->|(p & Hp & Hc)]; auto.
  apply (gchildren_depth p); auto. eapply gall_valid; eauto.
Qed.

Lemma gsize_bound : forall g, gvalid g -> sn_depth (groot g) <= max_depth ->
  2 * length (gnums g) + 1 <= 3 ^ (max_depth - sn_depth (groot g) + 1).
Proof.
  intros g V. induction V; gdepths; intros HD.
  - cbn [gnums length groot] in *. rewrite (Nat.add_1_r (max_depth - sn_depth n)), Nat.pow_succ_r'.
    assert (3 ^ (max_depth - sn_depth n) <> 0) by (apply Nat.pow_nonzero; lia). lia.
  - assert (D1 : sn_depth (groot l) = sn_depth n + 1) by auto.
    assert (D2 : sn_depth (groot r) = sn_depth n + 1) by auto.
    rewrite D1 in IHV1. rewrite D2 in IHV2.
    simpl gnums. simpl length. rewrite app_length. simpl groot.
    replace (max_depth - sn_depth n + 1) with (S (max_depth - (sn_depth n + 1) + 1)) by lia.
    rewrite Nat.pow_succ_r'. lia.
  - assert (D0 : sn_depth (groot m) = sn_depth n + 1) by auto.
    assert (D1 : sn_depth (groot l) = sn_depth n + 1) by auto.
    assert (D2 : sn_depth (groot r) = sn_depth n + 1) by auto.
    rewrite D0 in IHV1. rewrite D1 in IHV2. rewrite D2 in IHV3.
    simpl gnums. simpl length. rewrite !app_length. simpl groot.
    replace (max_depth - sn_depth n + 1) with (S (max_depth - (sn_depth n + 1) + 1)) by lia.
    rewrite Nat.pow_succ_r'. lia.
Qed.

Lemma INV_well_formed : forall root index0 st g,
  INV s t max_depth root index0 st g -> sn_num root = 0 -> sn_depth root = 0 ->
  well_formed (g_nodes st).
Proof.
  intros root index0 st g I Hr0 Hd0.
  assert (ND : NoDup (gnums g)) by apply (INV_leaf_unique _ _ _ _ _ _ _ I).
  destruct I as [R1 R2 R3 R4 R5 R6 R7 R8 R9 R10 R11 R12 R13].
  assert (BY : forall i, i < length (g_nodes st) -> exists x, In x (gall g) /\ gnum x = i).
  { intros i Hi. apply gall_by_num. apply (Permutation_in _ (Permutation_sym R4)). apply in_seq. lia. }
  assert (BN : forall i n, nth_error (g_nodes st) i = Some n -> exists x, In x (gall g) /\ gnum x = i /\ n = gnode x).
  { intros i n Hn. destruct (BY i) as (x & Hx & <-); [eapply nth_error_Some_lt; eauto|].
    exists x. repeat split; auto. rewrite (gall_agree _ _ R6 _ Hx) in Hn. congruence. }
  assert (NK : NoDup (gnum g :: flat_map gkids (gall g))).
  { eapply Permutation_NoDup; [apply gnums_kids|auto]. }
  constructor.
  - exists (gnode g). split.
    + assert (0 = gnum g) as -> by (unfold gnum; congruence). apply (gall_agree _ _ R6). apply gall_self.
    + destruct (gnode_facts g R3) as (_ & -> & _). congruence.
  - intros i n H. destruct (BN _ _ H) as (x & Hx & <- & ->). apply (gnode_facts x). eapply gall_valid; eauto.
  - intros i n c H Hl Hc. destruct (BN _ _ H) as (x & Hx & <- & ->).
    assert (V := gall_valid _ R3 _ Hx). destruct (gnode_facts x V) as (F1 & F2 & F3 & F4 & F5 & F6 & F7).
    apply F6 in Hc; auto. rewrite gkids_children in Hc. apply in_map_iff in Hc. destruct Hc as (y & <- & Hy).
    destruct (gchildren_depth x V y Hy) as (D1 & D2 & D3). split; auto.
    exists (gnode y). split.
    + apply (gall_agree _ _ R6). eapply gall_trans; eauto. apply gchildren_all; auto.
    + destruct (gnode_facts y) as (_ & F2' & _).
      { apply (gall_valid _ R3). eapply gall_trans; eauto. apply gchildren_all; auto. }
      congruence.
  - intros c Hc. destruct (BY c) as (y & Hy & <-); [lia|].
    destruct (gall_child_or_root _ _ Hy) as [->|(p & Hp & Hpc)].
    + unfold gnum in Hc. rewrite R1, Hr0 in Hc. lia.
    + exists (gnum p), (gnode p). assert (V := gall_valid _ R3 _ Hp).
      destruct (gnode_facts p V) as (F1 & F2 & F3 & F4 & F5 & F6 & F7).
      assert (K : In (gnum y) (gkids p)) by (rewrite gkids_children; apply in_map; auto).
      assert (L : n_is_leaf (gnode p) = false).
      { destruct (n_is_leaf (gnode p)) eqn:E; auto. rewrite F7 in K by auto. destruct K. }
      repeat split; auto.
      * apply (gall_agree _ _ R6); auto.
      * apply F6; auto.
  - intros c i j n m Hi Hil Hic Hj Hjl Hjc.
    destruct (BN _ _ Hi) as (x & Hx & <- & ->). destruct (BN _ _ Hj) as (y & Hy & <- & ->).
    apply (gnode_facts x) in Hic; auto; [|eapply gall_valid; eauto].
    apply (gnode_facts y) in Hjc; auto; [|eapply gall_valid; eauto].
    inversion NK; subst. f_equal. eapply flat_map_nodup; eauto.
  - intros i n H Hl. destruct (BN _ _ H) as (x & Hx & <- & ->).
    assert (V := gall_valid _ R3 _ Hx). inversion V; subst; simpl in *; try congruence; lia.
Qed.
End Account.

(** *** The account of a whole fit *)
Section Fit.
Context {FS : Floats}.

Lemma root_node_facts : forall s t index sm root, root_node s t index sm = Some root ->
  sn_num root = 0 /\ sn_is_leaf root = true /\ sn_is_missing_leaf root = false /\
  sn_start root = 0 /\ sn_stop root = length index /\ sn_depth root = 0.
Proof.
  intros s t index sm root H. unfold root_node in H.
  inv_bind H. destruct v as [[gs hs] sort]. inv_bind H. injection H as <-. simpl. auto 10.
Qed.

Theorem fit_account : forall policy pick s t index max_leaves max_depth sm nodes st,
  tree_fit policy pick s t index max_leaves max_depth sm = Some (nodes, st) ->
  exists root g,
    root_node s t index sm = Some root /\
    INV s t max_depth root index st g /\
    g_n_leaves st <= Nat.max 1 (max_leaves + (if ternary s then 1 else 0)) /\
    (g_pending st = [] \/ max_leaves < g_n_leaves st + 1) /\
    clean_up_splits s (g_nodes st) = Some nodes /\
    same_shape (g_nodes st) nodes.
Proof.
  intros policy pick s t index max_leaves max_depth sm nodes st H. unfold tree_fit in H.
  inv_bind H. rename v into root. inv_bind H. rename v into st'. inv_bind H. injection H as <- <-.
  destruct (root_node_facts _ _ _ _ _ E) as (A1 & A2 & A3 & A4 & A5 & A6).
  destruct (INV_reach _ _ _ _ _ _ _ _ _ _ A1 A2 A3 A4 A5 E0) as (g & I & L & P).
  exists root, g. pose proof (clean_shape _ _ _ E1). auto 10.
Qed.

Definition n_leaves (nodes : list Node) : nat := length (filter n_is_leaf nodes).

Lemma filter_leaves_perm : forall (nodes : list Node) l,
  Permutation l (seq 0 (length nodes)) ->
  length (filter (fun i => match nth_error nodes i with Some n => n_is_leaf n | None => false end) l)
  = n_leaves nodes.
Proof.
  intros nodes l H.
  assert (G : forall (f : nat -> bool) a b, Permutation a b -> length (filter f a) = length (filter f b)).
  { intros f a b P. induction P; simpl; auto; try congruence.
    - destruct (f x); simpl; auto.
    - destruct (f x), (f y); simpl; auto. }
  rewrite (G _ _ _ H). unfold n_leaves. clear.
  assert (K : forall k pre, length pre = k ->
    length (filter (fun i => match nth_error (pre ++ nodes) i with Some n => n_is_leaf n | None => false end)
              (seq k (length nodes))) = length (filter n_is_leaf nodes)).
  { induction nodes as [|n nodes IH]; intros k pre Hk; simpl; auto.
    rewrite nth_error_app2 by lia. rewrite Hk, Nat.sub_diag. simpl.
    specialize (IH (S k) (pre ++ [n])). rewrite <- app_assoc in IH. simpl in IH.
    assert (length (pre ++ [n]) = S k) by (rewrite app_length; simpl; lia).
    destruct (n_is_leaf n); simpl; rewrite IH; auto. }
  apply (K 0 []). auto.
Qed.
End Fit.
