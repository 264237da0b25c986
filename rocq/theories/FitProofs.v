(** What every fitted tree looks like: shape, depth, leaf count, size; the row ranges of its
    leaves; termination of the growing loop. *)
From Coq Require Import List Arith NArith Lia Bool Permutation Relations.
From Verif Require Import Prelude Float Data Utils Histogram Node Splitter Tree
  GrowProofs GrowInv GrowStep TreeWf TreeProofs.
Import ListNotations.

Section Count.
Context {FS : Floats}.
Variables (s : Splitter) (t : Train) (max_depth : nat).
Notation gvalid := (gvalid s t max_depth).

Lemma gleaves_count : forall nodes g, gvalid g -> agree s nodes g ->
  length (filter (fun i => match nth_error nodes i with Some n => n_is_leaf n | None => false end) (gnums g))
  = length (gleaves g).
Proof.
  intros nodes g V. induction V; cbn [agree gnums gleaves]; intros A.
  - simpl. rewrite A. simpl. rewrite H. reflexivity.
  - destruct A as (A & Al & Ar). cbn [filter]. rewrite A. simpl n_is_leaf. cbv iota.
    rewrite filter_app, !app_length. rewrite IHV1, IHV2 by auto. reflexivity.
  - destruct A as (A & Am & Al & Ar). cbn [filter]. rewrite A. simpl n_is_leaf. cbv iota.
    rewrite !filter_app, !app_length. rewrite IHV1, IHV2, IHV3 by auto. reflexivity.
Qed.

Lemma INV_n_leaves : forall root index0 st g, INV s t max_depth root index0 st g ->
  n_leaves (g_nodes st) = length (gleaves g).
Proof.
  intros root index0 st g I. rewrite <- (gleaves_count (g_nodes st) g).
  - symmetry. apply filter_leaves_perm. rewrite (iv_len _ _ _ _ _ _ _ I). apply (iv_nums _ _ _ _ _ _ _ I).
  - apply (iv_valid _ _ _ _ _ _ _ I).
  - apply (iv_agree _ _ _ _ _ _ _ I).
Qed.

Lemma same_shape_n_leaves : forall a b, same_shape a b -> n_leaves b = n_leaves a.
Proof.
  unfold n_leaves. induction 1 as [|x y a b R H IH]; simpl; auto.
  apply reweighted_eq in R. destruct R as (_ & _ & _ & _ & _ & _ & _ & _ & _ & -> & _).
  destruct (n_is_leaf x); simpl; auto.
Qed.

(** Every node of the array is a node of the account. *)
Lemma INV_node : forall root index0 st g, INV s t max_depth root index0 st g ->
  forall i n, nth_error (g_nodes st) i = Some n ->
  exists x, In x (gall g) /\ gnum x = i /\ n = gnode s x /\ gvalid x.
Proof.
  intros root index0 st g I i n Hn.
  destruct (gall_by_num g i) as (x & Hx & <-).
  { apply (Permutation_in _ (Permutation_sym (iv_nums _ _ _ _ _ _ _ I))). apply in_seq.
    rewrite <- (iv_len _ _ _ _ _ _ _ I). apply nth_error_Some_lt in Hn. lia. }
  exists x. split; [auto|]. split; [auto|]. split.
  - rewrite (gall_agree s _ _ (iv_agree _ _ _ _ _ _ _ I) _ Hx) in Hn. congruence.
  - eapply gall_valid; eauto. apply (iv_valid _ _ _ _ _ _ _ I).
Qed.
End Count.

(** *** Clean-up never panics on a well-formed tree *)
Section CleanTotal.
Context {FS : Floats}.

Lemma uam_total : forall fuel nodes i, well_formed nodes -> i < length nodes -> length nodes - i <= fuel ->
  exists a nodes', update_average_missing_nodes fuel nodes i = Some (a, nodes').
Proof.
  induction fuel as [|fu IH]; intros nodes i W Hi Hf; [lia|].
  destruct (nth_error_lt nodes Hi) as [n Hn]. simpl. rewrite Hn. simpl.
  destruct (n_is_leaf n) eqn:El; [eauto|].
  assert (C : forall nodes2, same_shape nodes nodes2 -> forall c, In c (children n) ->
     exists m, nth_error nodes2 c = Some m /\
     exists a nodes', update_average_missing_nodes fu nodes2 c = Some (a, nodes') /\ same_shape nodes nodes').
  { intros nodes2 S c Hc. destruct (wf_child _ W _ _ _ Hn El Hc) as (L & m & Hm & _).
    pose proof (Forall2_len _ _ _ _ _ S) as SL.
    assert (W2 : well_formed nodes2) by (eapply well_formed_shape; eauto).
    apply nth_error_Some_lt in Hm.
    destruct (nth_error_lt nodes2 (i := c)) as [m2 Hm2]; [lia|].
    destruct (IH nodes2 c W2) as (a & n3 & H3); [lia|lia|]. exists m2. split; auto. exists a, n3. split; auto.
    eapply same_shape_trans; eauto. eapply uam_shape; eauto. }
  destruct (C nodes (same_shape_refl _) (n_right n)) as (rn & Hr & ra & n1 & H1 & S1); [simpl; auto|].
  rewrite Hr. simpl. rewrite H1. simpl.
  destruct (C n1 S1 (n_left n)) as (ln & Hl & la & n2 & H2 & S2); [simpl; auto|].
  rewrite Hl. simpl. rewrite H2. simpl.
  destruct (C n2 S2 (n_missing n)) as (mn & Hm & ma & n3 & H3 & S3); [simpl; auto|].
  rewrite Hm. simpl. destruct (n_is_leaf mn); simpl; [eauto|]. rewrite H3. simpl. eauto.
Qed.

Lemma clean_total : forall s nodes, well_formed nodes -> exists nodes', clean_up_splits s nodes = Some nodes'.
Proof.
  intros [p|p term [] force] nodes W; simpl; eauto.
  destruct (wf_root _ W) as (n & Hn & _). apply nth_error_Some_lt in Hn.
  destruct (uam_total (length nodes) nodes 0 W) as (a & n' & H); [lia|lia|]. rewrite H. simpl. eauto.
Qed.
End CleanTotal.

(** *** Termination *)
Section Term.
Context {FS : Floats}.
Variables (s : Splitter) (t : Train) (max_leaves max_depth : nat).
Notation gstep := (gstep s t max_leaves max_depth).

Definition measure (l : list SplittableNode) : nat :=
  list_sum (map (fun n => 4 ^ (max_depth - sn_depth n)) l).

Lemma measure_app : forall l1 l2, measure (l1 ++ l2) = measure l1 + measure l2.
Proof. intros. unfold measure. rewrite map_app. apply list_sum_app. Qed.

Lemma measure_filter : forall f l, measure (filter f l) <= measure l.
Proof.
  unfold measure. induction l as [|a l IH]; simpl; auto. destruct (f a); simpl; lia.
Qed.

Lemma split_node_new : forall n node index new node' index',
  split_node s t n node index = Some (new, node', index') ->
  length new <= 3 /\ (forall c, In c new -> sn_depth c = sn_depth node + 1).
Proof.
  intros n node index new node' index' H. unfold split_node in H. inv_bind H. destruct v as [si|].
  - destruct s as [p|p term treat force] eqn:Es; simpl in H.
    + destruct (handle_imputer_inv (Imputer p) t p si _ _ _ _ _ _ eq_refl E H)
        as (mr & sub & L & R & lh & rh & _ & _ & _ & _ & _ & ->).
      simpl. split; [lia|]. intros c [<-|[<-|[]]]; reflexivity.
    + destruct (handle_branch_inv (Branch p term treat force) t p term treat force si _ _ _ _ _ _ eq_refl E H)
        as (sub & M & L & R & mh & lh & rh & minfo & mleaf & _ & _ & _ & _ & _ & ->).
      simpl. split; [lia|]. intros c [<-|[<-|[<-|[]]]]; reflexivity.
  - injection H as <- <- <-. simpl. split; [lia|tauto].
Qed.

Lemma measure_depth : forall l d, (forall c, In c l -> sn_depth c = d) ->
  measure l = length l * 4 ^ (max_depth - d).
Proof.
  unfold measure. induction l as [|a l IH]; simpl; intros d H; auto.
  rewrite (H a) by auto. rewrite (IH d) by auto. reflexivity.
Qed.

Lemma gstep_measure : forall st st', gstep st st' -> measure (g_pending st') < measure (g_pending st).
Proof.
  intros st st' H. inversion H as [? p1 node p2 ? Hp Hml HG]; subst. rewrite Hp.
  rewrite measure_app. unfold measure at 3. simpl. fold (measure p2).
  assert (4 ^ (max_depth - sn_depth node) <> 0) by (apply Nat.pow_nonzero; lia).
  unfold grow_node in HG. cbn [with_pending g_nodes g_pending g_index g_n_nodes g_n_leaves] in HG.
  destruct (Nat.ltb_spec max_depth (sn_depth node + 1)) as [Hd|Hd].
  - injection HG as <-. simpl. rewrite measure_app. lia.
  - inv_bind HG. destruct v as [[new node'] index'].
    destruct (split_node_new _ _ _ _ _ _ E) as [L D].
    destruct new as [|c0 new']; [injection HG as <-; simpl; rewrite measure_app; lia|].
    remember (c0 :: new') as new. inv_bind HG. inv_bind HG. injection HG as <-.
    unfold push_children. cbn [g_pending]. rewrite !measure_app.
    pose proof (measure_filter (fun n => negb (sn_is_missing_leaf n)) new) as MF.
    rewrite (measure_depth new _ D) in MF.
    replace (max_depth - sn_depth node) with (S (max_depth - (sn_depth node + 1))) in * by lia.
    rewrite Nat.pow_succ_r' in *. nia.
Qed.

(** A chain of [k] turns. *)
Inductive nsteps : nat -> Grow -> Grow -> Prop :=
| ns_0 : forall st, nsteps 0 st st
| ns_S : forall k a b c, gstep a b -> nsteps k b c -> nsteps (S k) a c.

Lemma nsteps_measure : forall k a b, nsteps k a b -> k + measure (g_pending b) <= measure (g_pending a).
Proof.
  induction 1; [lia|]. apply gstep_measure in H. lia.
Qed.

(** Whatever the queue does, the loop makes at most [grow_fuel max_depth] turns. *)
Theorem grow_turns_bounded : forall root index k st, sn_depth root = 0 ->
  nsteps k (grow_init s root index) st -> k <= grow_fuel max_depth.
Proof.
  intros root index k st Hd H. apply nsteps_measure in H. unfold grow_fuel.
  unfold measure at 2 in H. simpl in H. rewrite Hd, Nat.sub_0_r in H. lia.
Qed.

Lemma pop_node_total : forall policy pick step a l, exists n rest, pop_node policy pick step (a :: l) = Some (n, rest).
Proof.
  intros policy pick step a l. unfold pop_node. destruct policy; [eauto|]. cbv zeta.
  destruct (nth_error_lt (a :: l) (i := pick step (a :: l) mod length (a :: l))) as [n Hn].
  - apply Nat.mod_upper_bound. discriminate.
  - rewrite Hn. simpl. eauto.
Qed.

Lemma grow_loop_None : forall fuel policy pick st,
  measure (g_pending st) <= fuel ->
  grow_loop fuel policy pick s t max_leaves max_depth st = None ->
  exists k st1 p1 node p2, nsteps k st st1 /\ g_pending st1 = p1 ++ node :: p2 /\
    g_n_leaves st1 + 1 <= max_leaves /\
    grow_node s t max_depth node (with_pending st1 (p1 ++ p2)) = None.
Proof.
  induction fuel as [|f IH]; intros policy pick st HM H; cbn [grow_loop] in H.
  - destruct (g_pending st) as [|a l] eqn:E; [discriminate|]. exfalso.
    assert (4 ^ (max_depth - sn_depth a) <> 0) by (apply Nat.pow_nonzero; lia).
    unfold measure in HM. simpl in HM. lia.
  - destruct (g_pending st) as [|a l] eqn:E; [discriminate|].
    destruct (Nat.ltb_spec max_leaves (g_n_leaves st + new_leaves_added s)) as [|HL]; [discriminate|].
    change (new_leaves_added s) with 1 in HL.
    destruct (pop_node_total policy pick (S f) a l) as (n & rest & Hpop).
    rewrite Hpop in H. simpl in H.
    apply pop_node_split in Hpop. destruct Hpop as (p1 & p2 & Ep & ->).
    destruct (grow_node s t max_depth n (mkGrow (g_nodes st) (p1 ++ p2) (g_index st) (g_n_nodes st) (g_n_leaves st)))
      as [st'|] eqn:EG.
    + simpl in H.
      assert (G : gstep st st') by (eapply gstep_intro with (p1 := p1) (p2 := p2); eauto; rewrite E; auto).
      pose proof (gstep_measure _ _ G) as GM. rewrite E in GM.
      destruct (IH policy pick st') as (k & st1 & q1 & node & q2 & H1 & H2 & H3 & H4); [lia|auto|].
      exists (S k), st1, q1, node, q2. split; auto. eapply ns_S; eauto.
    + exists 0, st, p1, n, p2. split; [constructor|]. rewrite E. auto.
Qed.
End Term.

(** *** The theorems *)
Section Thms.
Context {FS : Floats}.
Variables (policy : GrowPolicy) (pick : pick_fn) (s : Splitter) (t : Train) (index : list nat)
  (max_leaves max_depth : nat) (sm : SampleMethod).
Notation fit := (tree_fit policy pick s t index max_leaves max_depth sm).

Theorem fit_well_formed : forall nodes st, fit = Some (nodes, st) -> well_formed nodes.
Proof.
  intros nodes st H. apply fit_account in H. destruct H as (root & g & HR & I & L & P & C & S).
  destruct (root_node_facts _ _ _ _ _ HR) as (A1 & A2 & A3 & A4 & A5 & A6).
  eapply well_formed_shape; eauto. eapply INV_well_formed; eauto.
Qed.

Theorem fit_depth : forall nodes st, fit = Some (nodes, st) -> forall n, In n nodes -> n_depth n <= max_depth.
Proof.
  intros nodes st H n Hn. apply fit_account in H. destruct H as (root & g & HR & I & L & P & C & S).
  destruct (root_node_facts _ _ _ _ _ HR) as (A1 & A2 & A3 & A4 & A5 & A6).
  apply In_nth_error in Hn. destruct Hn as [i Hi].
  destruct (Forall2_nth_r _ _ _ _ _ S _ _ Hi) as (m & Hm & R). apply reweighted_eq in R.
  destruct R as (_ & _ & -> & _).
  destruct (INV_node _ _ _ _ _ _ _ I _ _ Hm) as (x & Hx & _ & -> & V).
  destruct (gnode_facts s t max_depth x V) as (_ & -> & _).
  apply (gall_depth s t max_depth g); auto.
  - apply (iv_valid _ _ _ _ _ _ _ I).
  - rewrite (iv_root _ _ _ _ _ _ _ I). lia.
Qed.

Theorem fit_leaves : forall nodes st, fit = Some (nodes, st) ->
  n_leaves nodes <= Nat.max 1 (max_leaves + (if ternary s then 1 else 0)).
Proof.
  intros nodes st H. apply fit_account in H. destruct H as (root & g & HR & I & L & P & C & S).
  rewrite (same_shape_n_leaves _ _ S), (INV_n_leaves _ _ _ _ _ _ _ I), <- (iv_leaves _ _ _ _ _ _ _ I). auto.
Qed.

Theorem fit_size : forall nodes st, fit = Some (nodes, st) -> 2 * length nodes + 1 <= 3 ^ (max_depth + 1).
Proof.
  intros nodes st H. apply fit_account in H. destruct H as (root & g & HR & I & L & P & C & S).
  destruct (root_node_facts _ _ _ _ _ HR) as (A1 & A2 & A3 & A4 & A5 & A6).
  rewrite <- (Forall2_len _ _ _ _ _ S).
  rewrite (iv_len _ _ _ _ _ _ _ I).
  pose proof (Permutation_length (iv_nums _ _ _ _ _ _ _ I)) as PL. rewrite seq_length in PL. rewrite <- PL.
  pose proof (gsize_bound s t max_depth g (iv_valid _ _ _ _ _ _ _ I)) as B.
  rewrite (iv_root _ _ _ _ _ _ _ I), A6, Nat.sub_0_r in B. apply B. lia.
Qed.

(** Fitting fails only where the code panics: in building the root or in a reached turn of the
    loop; never for lack of fuel. *)
Theorem fit_None : fit = None ->
  root_node s t index sm = None \/
  exists root k st p1 node p2,
    root_node s t index sm = Some root /\
    nsteps s t max_leaves max_depth k (grow_init s root index) st /\
    g_pending st = p1 ++ node :: p2 /\ g_n_leaves st + 1 <= max_leaves /\
    grow_node s t max_depth node (with_pending st (p1 ++ p2)) = None.
Proof.
  intros H. unfold tree_fit in H.
  destruct (root_node s t index sm) as [root|] eqn:ER; [|auto]. right. simpl in H.
  destruct (root_node_facts _ _ _ _ _ ER) as (A1 & A2 & A3 & A4 & A5 & A6).
  destruct (grow_loop (grow_fuel max_depth) policy pick s t max_leaves max_depth (grow_init s root index))
    as [st|] eqn:EG.
  - exfalso. simpl in H.
    destruct (INV_reach s t max_leaves max_depth _ _ _ _ _ _ A1 A2 A3 A4 A5 EG) as (g & I & _).
    destruct (clean_total s (g_nodes st)) as [nodes' E]; [eapply INV_well_formed; eauto|].
    rewrite E in H. discriminate.
  - apply grow_loop_None in EG.
    + destruct EG as (k & st & p1 & node & p2 & Q). exists root, k, st, p1, node, p2. tauto.
    + unfold grow_fuel, measure. simpl. rewrite A6, Nat.sub_0_r. lia.
Qed.

(** *** Row ranges *)

(** [ranges] lists, for each leaf (by number), a range of row positions; consecutive ranges
    follow each other without gap or overlap from [a] to [b]. *)
Fixpoint tiles (ranges : list (nat * (nat * nat))) (a b : nat) : Prop :=
  match ranges with
  | [] => a = b
  | (_, (i, j)) :: r => i = a /\ i <= j /\ tiles r j b
  end.

Definition range_of (y : SplittableNode * list nat) : nat * (nat * nat) :=
  (sn_num (fst y), (sn_start (fst y), sn_stop (fst y))).

Lemma chain_tiles : forall l a b, chain l a b -> tiles (map range_of l) a b.
Proof.
  induction l as [|y l IH]; simpl; intros a b H; auto.
  destruct H as (H1 & H2 & H3). repeat split; auto. lia.
Qed.

Lemma gleaves_gall : forall g n rows, In (n, rows) (gleaves g) <-> In (GL n rows) (gall g).
Proof.
  induction g as [n rows|n rows si mr l IHl r IHr|n rows si m IHm l IHl r IHr]; simpl; intros n' rows'.
  - split; intros [H|[]]; left; congruence.
  - rewrite !in_app_iff, IHl, IHr. split; [auto|intros [H|H]; [discriminate|auto]].
  - rewrite !in_app_iff, IHm, IHl, IHr. split; [auto|intros [H|H]; [discriminate|auto]].
Qed.

Theorem fit_rows_tiled : forall nodes st, fit = Some (nodes, st) ->
  Permutation index (g_index st) /\
  exists ranges, tiles ranges 0 (length index) /\ NoDup (map fst ranges) /\
    (forall i, In i (map fst ranges) <-> exists n, nth_error nodes i = Some n /\ n_is_leaf n = true).
Proof.
  intros nodes st H. apply fit_account in H. destruct H as (root & g & HR & I & L & P & C & S).
  split; [apply (iv_index _ _ _ _ _ _ _ I)|].
  exists (map range_of (gleaves g)). split; [|split].
  - apply chain_tiles. apply (iv_chain _ _ _ _ _ _ _ I).
  - rewrite map_map. simpl. apply (INV_leaf_unique _ _ _ _ _ _ _ I).
  - intros i. rewrite map_map. simpl. split.
    + intros Hi. apply in_map_iff in Hi. destruct Hi as ([n rows] & <- & Hy). simpl.
      apply gleaves_gall in Hy.
      pose proof (gall_agree s _ _ (iv_agree _ _ _ _ _ _ _ I) _ Hy) as HA.
      pose proof (gall_valid s t max_depth _ (iv_valid _ _ _ _ _ _ _ I) _ Hy) as V.
      destruct (Forall2_nth_l _ _ _ _ _ S _ _ HA) as (n' & Hn' & R). exists n'. split; auto.
      apply reweighted_eq in R. destruct R as (_ & _ & _ & _ & _ & _ & _ & _ & _ & -> & _).
      apply (gnode_facts s t max_depth _ V). eauto.
    + intros (n' & Hn' & Hl). destruct (Forall2_nth_r _ _ _ _ _ S _ _ Hn') as (m & Hm & R).
      apply reweighted_eq in R. destruct R as (_ & _ & _ & _ & _ & _ & _ & _ & _ & Rl & _).
      destruct (INV_node _ _ _ _ _ _ _ I _ _ Hm) as (x & Hx & <- & -> & V).
      rewrite Rl in Hl. destruct (gnode_facts s t max_depth _ V) as (_ & _ & _ & _ & FL & _).
      apply FL in Hl. destruct Hl as (n & rows & ->).
      apply gleaves_gall in Hx. apply in_map_iff. exists (n, rows). auto.
Qed.
End Thms.
