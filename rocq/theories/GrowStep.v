(** Every turn of the growing loop keeps the account. *)
From Coq Require Import List Arith NArith Lia Bool Permutation Relations.
From Verif Require Import Prelude Float Data Utils Histogram Node Splitter Tree PivotProofs Pivot3Proofs GrowProofs GrowInv.
Import ListNotations.

Lemma nth_splice : forall A (l : list A) a sub k, a + length sub <= length l ->
  nth_error (splice l a sub) k =
    if (a <=? k) && (k <? a + length sub) then nth_error sub (k - a) else nth_error l k.
Proof.
  intros A l a sub k H. unfold splice.
  destruct (Nat.leb_spec a k); simpl.
  - rewrite nth_error_app2; rewrite firstn_length_le by lia; auto.
    destruct (Nat.ltb_spec k (a + length sub)).
    + rewrite nth_error_app1 by lia. auto.
    + rewrite nth_error_app2 by lia.
      rewrite <- (firstn_skipn (a + length sub) l) at 2.
      rewrite nth_error_app2; rewrite firstn_length_le by lia; auto.
      f_equal. lia.
  - rewrite nth_error_app1 by (rewrite firstn_length; lia).
    rewrite <- (firstn_skipn a l) at 2. rewrite nth_error_app1; auto. rewrite firstn_length; lia.
Qed.

Lemma slice_ext : forall A (l l' : list A) i j, length l = length l' ->
  (forall k, i <= k < j -> nth_error l k = nth_error l' k) -> slice l i j = slice l' i j.
Proof.
  intros A l l' i j HL H.
  destruct (slice l i j) as [r|] eqn:E; destruct (slice l' i j) as [r'|] eqn:E'; auto.
  - f_equal. assert (S1 := slice_Some _ _ _ E). assert (S2 := slice_Some _ _ _ E').
    destruct S1 as (A1 & A2 & A3 & _). destruct S2 as (_ & B2 & B3 & _).
    apply list_ext_nth. intros k. destruct (Nat.lt_ge_cases k (j - i)).
    + rewrite (slice_nth _ _ _ E), (slice_nth _ _ _ E') by auto. apply H. lia.
    + assert (nth_error r k = None) as -> by (apply nth_error_None; lia).
      symmetry. apply nth_error_None; lia.
  - unfold slice in *. rewrite HL in E. destruct ((i <=? j) && (j <=? length l')); discriminate.
  - unfold slice in *. rewrite HL in E. destruct ((i <=? j) && (j <=? length l')); discriminate.
Qed.

Lemma slice_splice_out : forall A (l : list A) a sub i j, a + length sub <= length l ->
  j <= a \/ a + length sub <= i -> slice (splice l a sub) i j = slice l i j.
Proof.
  intros A l a sub i j H HD. apply slice_ext.
  - apply splice_length; auto.
  - intros k Hk. rewrite nth_splice by auto.
    destruct (Nat.leb_spec a k), (Nat.ltb_spec k (a + length sub)); simpl; auto; lia.
Qed.

Section Step.
Context {FS : Floats}.
Variables (s : Splitter) (t : Train) (max_leaves max_depth : nat).
Notation lr := (sp_learning_rate (params s)).
Notation INV := (INV s t max_depth).
Notation gvalid := (gvalid s t max_depth).
Notation gstep := (gstep s t max_leaves max_depth).

Lemma INV_leaf_unique : forall root index0 st g, INV root index0 st g ->
  NoDup (gnums g) /\ NoDup (map (fun y => sn_num (fst y)) (gleaves g)).
Proof.
  intros root index0 st g I.
  assert (NoDup (gnums g)).
  { eapply Permutation_NoDup; [apply Permutation_sym, (iv_nums _ _ _ _ _ _ _ I)|apply seq_NoDup]. }
  split; auto. apply gleaves_nodup; auto.
Qed.

Lemma NoDup_map_inj : forall A B (f : A -> B) l x y, NoDup (map f l) -> In x l -> In y l -> f x = f y -> x = y.
Proof.
  induction l as [|a l IH]; simpl; intros x y H Hx Hy E; [tauto|].
  inversion H; subst. destruct Hx as [->|Hx], Hy as [->|Hy]; auto.
  - exfalso. apply H2. rewrite E. apply in_map; auto.
  - exfalso. apply H2. rewrite <- E. apply in_map; auto.
Qed.

Lemma INV_skip : forall root index0 st g p1 node p2,
  INV root index0 st g -> g_pending st = p1 ++ node :: p2 -> done s t max_depth node ->
  INV root index0 (with_pending st (p1 ++ p2)) g.
Proof.
  intros root index0 st g p1 node p2 I Hp Hd. destruct I as [R1 R2 R3 R4 R5 iv_pending1 R7 iv_pnodup0 R9 R10 R11 R12 iv_done0]. rename R7 into iv_pending0. constructor; simpl; auto.
  - intros p H. apply iv_pending0. rewrite Hp. rewrite in_app_iff in *. simpl. tauto.
  - rewrite Hp in iv_pnodup0. rewrite map_app in *. simpl in iv_pnodup0.
    apply NoDup_remove_1 in iv_pnodup0. auto.
  - intros n rows H. apply iv_done0 in H. destruct H as [H|H]; auto.
    rewrite Hp in H. rewrite in_app_iff in *. simpl in H. destruct H as [H|[<-|H]]; auto.
Qed.

Lemma chain_replace : forall l1 x l2 y a b,
  chain (l1 ++ x :: l2) a b -> chain y (sn_start (fst x)) (sn_stop (fst x)) ->
  chain (l1 ++ y ++ l2) a b.
Proof.
  intros l1 x l2 y a b H Hy. apply chain_app in H. destruct H as (c & H1 & H2). simpl in H2.
  destruct H2 as (H2 & H3 & H4). apply chain_app. exists c. split; auto.
  apply chain_app. exists (sn_stop (fst x)). split; auto. rewrite <- H2; auto.
Qed.

Lemma chain_disjoint : forall l1 x l2 a b y,
  chain (l1 ++ x :: l2) a b -> In y (l1 ++ l2) ->
  sn_stop (fst y) <= sn_start (fst x) \/ sn_stop (fst x) <= sn_start (fst y).
Proof.
  intros l1 x l2 a b y H Hy. apply chain_app in H. destruct H as (c & H1 & H2). simpl in H2.
  destruct H2 as (H2 & H3 & H4). apply in_app_iff in Hy. destruct Hy as [Hy|Hy].
  - apply (chain_in _ _ _ _ H1) in Hy. lia.
  - apply (chain_in _ _ _ _ H4) in Hy. lia.
Qed.

Lemma INV_expand : forall root index0 st g p1 node p2 rows x new node' sub sub' index' nodes',
  INV root index0 st g ->
  g_pending st = p1 ++ node :: p2 ->
  In (node, rows) (gleaves g) ->
  groot x = node -> grows x = rows -> gvalid x ->
  map fst (gleaves x) = new -> new <> [] ->
  map sn_num new = seq (g_n_nodes st) (length new) ->
  tl (gnums x) = seq (g_n_nodes st) (length new) ->
  (forall nd, nth_error nd (sn_num node) = Some (make_parent_node (as_node node lr) node') ->
     (forall k n, nth_error new k = Some n -> nth_error nd (g_n_nodes st + k) = Some (as_node n lr)) ->
     agree s nd x) ->
  chain (gleaves x) (sn_start node) (sn_stop node) ->
  slice (g_index st) (sn_start node) (sn_stop node) = Some sub -> Permutation sub sub' ->
  index' = splice (g_index st) (sn_start node) sub' ->
  (forall n r, In (n, r) (gleaves x) ->
     exists sl, slice index' (sn_start n) (sn_stop n) = Some sl /\ Permutation r sl) ->
  update (g_nodes st) (sn_num node) (make_parent_node (as_node node lr) node') = Some nodes' ->
  INV root index0
    (push_children lr (mkGrow nodes' (p1 ++ p2) index' (g_n_nodes st + length new)
                        (g_n_leaves st - 1 + length new)) new)
    (gexpand (sn_num node) x g).
Proof.
  intros root index0 st g p1 node p2 rows x new node' sub sub' index' nodes'
    I Hp Hleaf Hx1 Hx2 Hxv Hnew Hne Hnums Htl Hag Hch Hsub Hperm Hidx Hrows Hupd.
  destruct (INV_leaf_unique _ _ _ _ I) as [ND NDL].
  assert (Hu : forall y, In y (gleaves g) -> sn_num (fst y) = sn_num node -> y = (node, rows)).
  { intros y Hy E. eapply NoDup_map_inj; eauto. }
  assert (Hk : In (sn_num node) (map (fun y => sn_num (fst y)) (gleaves g))).
  { apply in_map_iff. exists (node, rows). auto. }
  assert (Hsp := Hleaf). apply in_split in Hsp. destruct Hsp as (l1 & l2 & Hl).
  assert (HL' : gleaves (gexpand (sn_num node) x g) = l1 ++ gleaves x ++ l2).
  { rewrite gexpand_leaves, Hl. apply flat_map_unique; [rewrite <- Hl; auto|auto]. }
  assert (Hne1 : forall y, In y (l1 ++ l2) -> sn_num (fst y) <> sn_num node).
  { rewrite Hl in NDL. rewrite map_app in NDL. simpl in NDL. apply NoDup_remove_2 in NDL.
    intros y Hy E. apply NDL. rewrite <- map_app. apply in_map_iff. exists y; auto. }
  destruct I as [R1 R2 R3 R4 R5 R6 R7 R8 R9 R10 R11 R12 R13].
  assert (HlenN : forall i, In i (gnums g) -> i < g_n_nodes st).
  { intros i Hi. apply (Permutation_in _ R4) in Hi. apply in_seq in Hi. lia. }
  assert (Hnode_lt : sn_num node < g_n_nodes st).
  { apply HlenN. apply (gleaves_nums _ (node, rows)). auto. }
  assert (Hlen : length nodes' = g_n_nodes st) by (rewrite (update_length _ _ _ Hupd); auto).
  assert (Hgn : gnum x = sn_num node) by (unfold gnum; rewrite Hx1; auto).
  destruct (gexpand_root node rows x g Hx1 Hx2 Hu) as [G1 G2].
  constructor; simpl.
  - congruence.
  - congruence.
  - eapply gexpand_valid; eauto.
  - eapply Permutation_trans; [apply gexpand_nums; auto|].
    rewrite seq_app, Htl. apply Permutation_app_tail. auto.
  - rewrite app_length, map_length. lia.
  - apply (gexpand_agree s (g_nodes st) _ node rows); auto.
    + intros i Hi Hin. rewrite nth_error_app1 by (rewrite Hlen; auto).
      rewrite (update_nth _ _ _ Hupd). destruct (Nat.eqb_spec i (sn_num node)); auto; tauto.
    + apply Hag.
      * rewrite nth_error_app1 by lia. rewrite (update_nth _ _ _ Hupd). rewrite Nat.eqb_refl. auto.
      * intros k n Hn. rewrite nth_error_app2 by lia. rewrite Hlen.
        replace (g_n_nodes st + k - g_n_nodes st) with k by lia.
        apply (map_nth_error (fun n => as_node n lr)); auto.
  - intros p H. apply in_app_iff in H. destruct H as [H|H].
    + assert (Hin : In p (g_pending st)) by (rewrite Hp; rewrite in_app_iff in *; simpl; tauto).
      destruct (R7 p Hin) as [Q1 Q2]. split; auto.
      rewrite HL'. rewrite !map_app, !in_app_iff. rewrite Hl in Q1. rewrite map_app, in_app_iff in Q1.
      simpl in Q1. destruct Q1 as [Q1|[Q1|Q1]]; auto.
      exfalso. subst p. rewrite Hp in R8. rewrite map_app in R8. simpl in R8. apply NoDup_remove_2 in R8.
      apply R8. rewrite <- map_app. apply in_map; auto.
    + apply filter_In in H. destruct H as [H H']. split.
      * rewrite HL', !map_app, !in_app_iff. rewrite Hnew. auto.
      * destruct (sn_is_missing_leaf p); auto; discriminate.
  - rewrite map_app. apply NoDup_app_iff. repeat split.
    + rewrite Hp in R8. rewrite map_app in *. simpl in R8. apply NoDup_remove_1 in R8. auto.
    + assert (NoDup (map sn_num new)) as Q by (rewrite Hnums; apply seq_NoDup).
      clear - Q. induction new as [|a new IH]; simpl in *; [constructor|].
      inversion Q; subst. destruct (negb (sn_is_missing_leaf a)); simpl; auto.
      constructor; auto. intro H. apply H1. apply in_map_iff in H. destruct H as (b & E & H).
      apply filter_In in H. apply in_map_iff. exists b. tauto.
    + intros k Q1 Q2. apply in_map_iff in Q1. destruct Q1 as (p & <- & Q1).
      assert (Hin : In p (g_pending st)) by (rewrite Hp; rewrite in_app_iff in *; simpl; tauto).
      apply R7 in Hin. destruct Hin as [Hin _]. apply in_map_iff in Hin. destruct Hin as (y & <- & Hy).
      apply gleaves_nums in Hy. apply HlenN in Hy.
      apply in_map_iff in Q2. destruct Q2 as (q & E & Q2). apply filter_In in Q2. destruct Q2 as [Q2 _].
      apply (in_map sn_num) in Q2. rewrite Hnums in Q2. apply in_seq in Q2. lia.
  - rewrite HL', R9, Hl. rewrite !app_length. simpl. rewrite <- Hnew, map_length. lia.
  - rewrite HL'. eapply chain_replace with (x := (node, rows)); [rewrite <- Hl; eauto|auto].
  - eapply Permutation_trans; [exact R11|]. rewrite Hidx. eapply splice_perm; eauto.
  - intros n r H. rewrite HL' in H. rewrite !in_app_iff in H.
    assert (H' : In (n, r) (gleaves x) \/ In (n, r) (l1 ++ l2)) by (rewrite in_app_iff; tauto).
    destruct H' as [H'|H']; auto.
    assert (HD := H'). rewrite Hl in R10. apply (chain_disjoint _ _ _ _ _ _ R10) in HD. simpl in HD.
    assert (Hin : In (n, r) (gleaves g)). { rewrite Hl, in_app_iff. rewrite in_app_iff in H'. simpl. tauto. }
    destruct (R12 n r Hin) as (sl & E1 & E2). exists sl. split; auto. rewrite <- E1, Hidx.
    apply slice_Some in Hsub. destruct Hsub as (Z1 & Z2 & Z3 & _).
    rewrite (Permutation_length Hperm) in Z3.
    apply slice_splice_out; lia.
  - intros n r H. rewrite HL' in H. rewrite !in_app_iff in H.
    assert (H' : In (n, r) (gleaves x) \/ In (n, r) (l1 ++ l2)) by (rewrite in_app_iff; tauto).
    destruct H' as [H'|H'].
    + destruct (sn_is_missing_leaf n) eqn:Em; [right; left; auto|].
      left. apply in_app_iff. right. apply filter_In. rewrite Em. split; auto.
      rewrite <- Hnew. apply in_map_iff. exists (n, r). auto.
    + assert (Hin : In (n, r) (gleaves g)). { rewrite Hl, in_app_iff. rewrite in_app_iff in H'. simpl. tauto. }
      apply R13 in Hin. destruct Hin as [Hin|Hin]; auto. left. apply in_app_iff. left.
      rewrite Hp in Hin. rewrite in_app_iff in *. simpl in Hin. destruct Hin as [?|[E|?]]; auto.
      subst n. exfalso. apply (Hne1 (node, r)); simpl; auto. apply in_app_iff; auto.
Qed.

Definition ternary : bool := match s with Imputer _ => false | Branch _ _ _ _ => true end.

Lemma Permutation_slice_len : forall (index : list nat) a b rows sub,
  slice index a b = Some sub -> Permutation rows sub -> length rows = b - a.
Proof.
  intros index a b rows sub H P. apply slice_Some in H. rewrite (Permutation_length P). tauto.
Qed.

(** one split, its children numbered from [k] *)
Inductive fresh (k : nat) : gtree -> Prop :=
| fr_2 : forall n rows si mr ln L rn R, sn_num ln = k -> sn_num rn = k + 1 -> ternary = false ->
    fresh k (GB2 n rows si mr (GL ln L) (GL rn R))
| fr_3 : forall n rows si mn M ln L rn R, sn_num mn = k -> sn_num ln = k + 1 -> sn_num rn = k + 2 -> ternary = true ->
    fresh k (GB3 n rows si (GL mn M) (GL ln L) (GL rn R)).

Lemma INV_step_full : forall root index0 st st' g p1 node p2,
  INV root index0 st g -> g_pending st = p1 ++ node :: p2 ->
  grow_node s t max_depth node (with_pending st (p1 ++ p2)) = Some st' ->
  (done s t max_depth node /\ INV root index0 st' g /\ g_pending st' = p1 ++ p2 /\ g_n_nodes st' = g_n_nodes st /\
     g_n_leaves st' = g_n_leaves st) \/
  (exists rows x, In (node, rows) (gleaves g) /\ groot x = node /\ grows x = rows /\ gvalid x /\ fresh (g_n_nodes st) x /\
     INV root index0 st' (gexpand (sn_num node) x g) /\
     g_pending st' = (p1 ++ p2) ++ filter (fun n => negb (sn_is_missing_leaf n)) (map fst (gleaves x)) /\
     g_n_nodes st' = g_n_nodes st + length (gleaves x) /\ g_n_leaves st' = g_n_leaves st - 1 + length (gleaves x) /\
     1 <= g_n_leaves st).
Proof.
  intros root index0 st st' g p1 node p2 I Hp HG.
  unfold grow_node in HG. cbn [with_pending g_nodes g_pending g_index g_n_nodes g_n_leaves] in HG.
  destruct (Nat.ltb_spec max_depth (sn_depth node + 1)) as [Hd|Hd].
  { injection HG as <-. left. split; [right; left; auto|]. split; [|auto]. eapply INV_skip; eauto. right; left; auto. }
  destruct (INV_leaf_unique _ _ _ _ I) as [ND NDL].
  assert (Hpend : In node (g_pending st)) by (rewrite Hp, in_app_iff; simpl; auto).
  destruct (iv_pending _ _ _ _ _ _ _ I node Hpend) as [Hleaf Hnm].
  apply in_map_iff in Hleaf. destruct Hleaf as ([n0 rows] & Hn0 & Hleaf). simpl in Hn0. subst n0.
  assert (Hlen : 1 <= g_n_leaves st).
  { rewrite (iv_leaves _ _ _ _ _ _ _ I). destruct (gleaves g); [destruct Hleaf|simpl; lia]. }
  unfold split_node in HG. inv_bind HG. destruct v as [[new node'] index'].
  inv_bind E. rename v into b. destruct b as [si|].
  2:{ injection E as <- <- <-. injection HG as <-. left. split; [right; right; auto|]. split; [|simpl; repeat split; lia].
      replace (g_n_leaves st - 1 + 1) with (g_n_leaves st) by lia.
      eapply INV_skip; eauto. right; right; auto. }
  destruct (iv_rows _ _ _ _ _ _ _ I node rows Hleaf) as (sub & Hsub & Hrows).
  assert (Hrl := Permutation_slice_len _ _ _ _ _ Hsub Hrows).
  assert (Hsn := chain_in _ _ _ _ (iv_chain _ _ _ _ _ _ _ I) Hleaf). simpl in Hsn.
  assert (Hlf : sn_is_leaf node = true /\ nth_error (g_nodes st) (sn_num node) = Some (as_node node lr)).
  { assert (V := iv_valid _ _ _ _ _ _ _ I). assert (A := iv_agree _ _ _ _ _ _ _ I). clear - V A Hleaf.
    induction V; simpl in *.
    - destruct Hleaf as [E|[]]; inversion E; subst; auto.
    - destruct A as (_ & A1 & A2). apply in_app_iff in Hleaf. destruct Hleaf; auto.
    - destruct A as (_ & A1 & A2 & A3). rewrite !in_app_iff in Hleaf. destruct Hleaf as [?|[?|?]]; auto. }
  destruct Hlf as [Hlf Hnode].
  assert (Hnlt : sn_num node < g_n_nodes st).
  { rewrite <- (iv_len _ _ _ _ _ _ _ I). eapply nth_error_Some_lt; eauto. }
  unfold handle_split_info in E. right. destruct s as [p|p term treat force] eqn:Es.
  - rewrite <- Es in *.
    destruct (handle_imputer_inv s t p si _ _ _ _ _ _ Es E0 E)
      as (mr & sub0 & L & R & lh & rh & S1 & S2 & S3 & S4 & S5 & S6).
    rewrite Hsub in S1. injection S1 as <-.
    assert (HLR : length L + length R = sn_stop node - sn_start node).
    { rewrite <- app_length, <- (Permutation_length S2). apply slice_Some in Hsub. tauto. }
    subst new. rewrite Hnode in HG. simpl in HG. inv_bind HG. rename v into nodes'. injection HG as <-.
    set (ln := from_node_info (g_n_nodes st) lh (sn_depth node + 1) (sn_start node) (sn_start node + length L) (si_left si)) in *.
    set (rn := from_node_info (g_n_nodes st + 1) rh (sn_depth node + 1) (sn_start node + length L) (sn_stop node) (si_right si)) in *.
    exists rows, (GB2 node rows si mr (GL ln L) (GL rn R)).
    assert (GV : gvalid (GB2 node rows si mr (GL ln L) (GL rn R))).
    { eapply gv_2 with (sub := sub) (lh := lh) (rh := rh); eauto; try reflexivity;
        try (constructor; reflexivity). }
    split; auto. split; auto. split; auto. split; auto.
    split; [constructor; auto; unfold ternary; rewrite Es; reflexivity|].
    split; [|split; [reflexivity|split; [reflexivity|split; [reflexivity|exact Hlen]]]].
    apply (INV_expand root index0 st g p1 node p2 rows (GB2 node rows si mr (GL ln L) (GL rn R))
             [ln; rn] node' sub (L ++ R) index' nodes'); auto.
    + discriminate.
    + simpl. repeat f_equal. lia.
    + simpl. repeat f_equal. lia.
    + intros nd N1 N2. simpl. subst node'. split; [exact N1|]. split.
      * specialize (N2 0 ln eq_refl). rewrite Nat.add_0_r in N2. exact N2.
      * apply (N2 1 rn eq_refl).
    + simpl. repeat split; lia.
    + intros n r Hin. simpl in Hin. rewrite S4. destruct Hin as [Hin|[Hin|[]]]; injection Hin as <- <-; simpl.
      * exists L. split; auto. replace (sn_start node) with (sn_start node + 0) at 2 by lia.
        erewrite slice_splice; eauto; try lia; rewrite ?app_length; try lia.
        -- pose proof (slice_app [] L R) as SA. simpl in SA. auto.
        -- apply slice_Some in Hsub. lia.
      * exists R. split; auto. replace (sn_stop node) with (sn_start node + length (L ++ R)) by (rewrite app_length; lia).
        erewrite slice_splice; eauto; try lia; rewrite ?app_length; try lia.
        -- pose proof (slice_app L R []) as SA. rewrite app_nil_r in SA. auto.
        -- apply slice_Some in Hsub. lia.
  - rewrite <- Es in *.
    destruct (handle_branch_inv s t p term treat force si _ _ _ _ _ _ Es E0 E)
      as (sub0 & M & L & R & mh & lh & rh & minfo & mleaf & S1 & S2 & S3 & S4 & S5 & S6).
    rewrite Hsub in S1. injection S1 as <-.
    assert (HLR : length M + length L + length R = sn_stop node - sn_start node).
    { rewrite <- Nat.add_assoc, <- !app_length, <- (Permutation_length S2). apply slice_Some in Hsub. tauto. }
    subst new. rewrite Hnode in HG. simpl in HG. inv_bind HG. rename v into nodes'. injection HG as <-.
    match goal with |- context [push_children _ _ [?a; ?b; ?c]] => set (mn := a) in *; set (ln := b) in *; set (rn := c) in * end.
    exists rows, (GB3 node rows si (GL mn M) (GL ln L) (GL rn R)).
    assert (GV : gvalid (GB3 node rows si (GL mn M) (GL ln L) (GL rn R))).
    { eapply gv_3 with (sub := sub) (mh := mh) (lh := lh) (rh := rh) (minfo := minfo) (mleaf := mleaf);
        eauto; try reflexivity; try (constructor; reflexivity). }
    split; auto. split; auto. split; auto. split; auto.
    split; [constructor; auto; unfold ternary; rewrite Es; reflexivity|].
    split; [|split; [reflexivity|split; [reflexivity|split; [reflexivity|exact Hlen]]]].
    apply (INV_expand root index0 st g p1 node p2 rows (GB3 node rows si (GL mn M) (GL ln L) (GL rn R))
             [mn; ln; rn] node' sub (M ++ L ++ R) index' nodes'); auto.
    + discriminate.
    + simpl. repeat f_equal; lia.
    + simpl. repeat f_equal; lia.
    + intros nd N1 N2. simpl. subst node'. split; [exact N1|]. split; [|split].
      * specialize (N2 0 mn eq_refl). rewrite Nat.add_0_r in N2. exact N2.
      * apply (N2 1 ln eq_refl).
      * apply (N2 2 rn eq_refl).
    + simpl. repeat split; lia.
    + intros n r Hin. simpl in Hin. rewrite S4. destruct Hin as [Hin|[Hin|[Hin|[]]]]; injection Hin as <- <-; simpl.
      * exists M. split; auto. replace (sn_start node) with (sn_start node + 0) at 2 by lia.
        erewrite slice_splice; eauto; try lia; rewrite ?app_length; try lia.
        -- pose proof (slice_app [] M (L ++ R)) as SA. simpl in SA. auto.
        -- apply slice_Some in Hsub. lia.
      * exists L. split; auto. rewrite <- Nat.add_assoc.
        erewrite slice_splice; eauto; try lia; rewrite ?app_length; try lia.
        -- apply slice_app.
        -- apply slice_Some in Hsub. lia.
      * exists R. split; auto. replace (sn_stop node) with (sn_start node + length (M ++ L ++ R)) by (rewrite !app_length; lia).
        rewrite <- Nat.add_assoc.
        erewrite slice_splice; eauto; try lia; rewrite ?app_length; try lia.
        -- pose proof (slice_app (M ++ L) R []) as SA. rewrite app_nil_r, app_length, <- app_assoc in SA.
           rewrite Nat.add_assoc. auto.
        -- apply slice_Some in Hsub. lia.
Qed.

Lemma INV_step : forall root index0 st st' g,
  INV root index0 st g -> gstep st st' ->
  exists g', INV root index0 st' g' /\
    (g_n_leaves st' = g_n_leaves st \/
     g_n_leaves st + 1 <= max_leaves /\ g_n_leaves st' = g_n_leaves st + (if ternary then 2 else 1)).
Proof.
  intros root index0 st st' g I HS. inversion HS as [? p1 node p2 ? Hp Hml HG]; subst.
  destruct (INV_step_full _ _ _ _ _ _ _ _ I Hp HG) as [(_ & I' & _ & _ & L)|(rows & x & _ & _ & _ & _ & F & I' & _ & _ & L & L1)]; eauto.
  exists (gexpand (sn_num node) x g). split; auto. right. split; [lia|].
  destruct F as [? ? ? ? ? ? ? ? _ _ T|? ? ? ? ? ? ? ? ? _ _ _ T]; rewrite T; simpl in L; lia.
Qed.

Lemma INV_init : forall root index0, sn_num root = 0 -> sn_is_leaf root = true ->
  sn_is_missing_leaf root = false -> sn_start root = 0 -> sn_stop root = length index0 ->
  INV root index0 (grow_init s root index0) (GL root index0).
Proof.
  intros root index0 H1 H2 H3 H4 H5. constructor; simpl; auto.
  - constructor; auto.
  - rewrite H1. auto.
  - rewrite H1. reflexivity.
  - intros p [<-|[]]. auto.
  - constructor; auto. constructor.
  - rewrite H4, H5. repeat split; lia.
  - intros n rows [E|[]]. injection E as <- <-. exists index0. split; auto.
    rewrite H4, H5. unfold slice. rewrite Nat.leb_refl. simpl. rewrite Nat.sub_0_r, firstn_all. auto.
  - intros n rows [E|[]]. injection E as <- <-. auto.
Qed.

(** Every state the loop reaches has an account, and the leaf count obeys max_leaves. *)
Lemma INV_reach : forall fuel policy pick root index0 st',
  sn_num root = 0 -> sn_is_leaf root = true -> sn_is_missing_leaf root = false ->
  sn_start root = 0 -> sn_stop root = length index0 ->
  grow_loop fuel policy pick s t max_leaves max_depth (grow_init s root index0) = Some st' ->
  exists g, INV root index0 st' g /\
    g_n_leaves st' <= Nat.max 1 (max_leaves + (if ternary then 1 else 0)) /\
    (g_pending st' = [] \/ max_leaves < g_n_leaves st' + 1).
Proof.
  intros fuel policy pick root index0 st' H1 H2 H3 H4 H5 H.
  apply grow_loop_steps in H. destruct H as [H HE].
  assert (exists g, INV root index0 st' g /\
    g_n_leaves st' <= Nat.max 1 (max_leaves + (if ternary then 1 else 0))) as (g & I & L).
  { apply (steps_ind s t max_leaves max_depth (fun st => exists g, INV root index0 st g /\
      g_n_leaves st <= Nat.max 1 (max_leaves + (if ternary then 1 else 0))) (grow_init s root index0) st'); auto.
    - intros a b (g & I & L) Hst. destruct (INV_step _ _ _ _ _ I Hst) as (g' & I' & L').
      exists g'. split; auto. revert L L'; destruct ternary; intros; lia.
    - exists (GL root index0). split; [apply INV_init; auto|apply Nat.le_max_l]. }
  exists g; auto.
Qed.
End Step.
