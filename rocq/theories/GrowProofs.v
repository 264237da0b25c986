(** The account of how a tree was grown, kept as a ghost tree beside the state of the growing
    loop, and the proof that every reachable state has one.  All later facts about fitted trees
    are read off this account. *)
From Coq Require Import List Arith NArith Lia Bool Permutation Relations.
From Verif Require Import Prelude Float Data Utils Histogram Node Splitter Tree PivotProofs Pivot3Proofs.
Import ListNotations.

(** *** Steps of the growing loop *)
Section Steps.
Context {FS : Floats}.
Variables (s : Splitter) (t : Train) (max_leaves max_depth : nat).
Notation lr := (sp_learning_rate (params s)).

Definition with_pending (st : Grow) (p : list SplittableNode) : Grow :=
  mkGrow (g_nodes st) p (g_index st) (g_n_nodes st) (g_n_leaves st).

(** One turn of the loop on a pending node (whichever one the queue hands out). *)
Inductive gstep : Grow -> Grow -> Prop :=
| gstep_intro : forall st p1 node p2 st',
    g_pending st = p1 ++ node :: p2 ->
    g_n_leaves st + 1 <= max_leaves ->
    grow_node s t max_depth node (with_pending st (p1 ++ p2)) = Some st' ->
    gstep st st'.

Lemma remove_nth : forall A (l : list A) i n, nth_error l i = Some n ->
  exists p1 p2, l = p1 ++ n :: p2 /\ firstn i l ++ skipn (S i) l = p1 ++ p2.
Proof.
  intros A l i n E. apply nth_error_split in E.
  destruct E as (p1 & p2 & E & Hlen). exists p1, p2. split; auto.
  rewrite E, <- Hlen. rewrite firstn_app, Nat.sub_diag, firstn_all, firstn_O, app_nil_r.
  f_equal. rewrite skipn_app. rewrite skipn_all2 by lia.
  replace (S (length p1) - length p1) with 1 by lia. reflexivity.
Qed.

Lemma pop_node_split : forall policy pick step l n rest,
  pop_node policy pick step l = Some (n, rest) ->
  exists p1 p2, l = p1 ++ n :: p2 /\ rest = p1 ++ p2.
Proof.
  intros policy pick step l n rest H. unfold pop_node in H.
  destruct l as [|first l']; [discriminate|].
  destruct policy.
  - inversion H; subst. exists [], rest. auto.
  - cbv zeta in H. inv_bind H. apply remove_nth in E. destruct E as (p1 & p2 & E1 & E2).
    exists p1, p2. rewrite E2 in H. injection H as <- <-. auto.
Qed.

Lemma grow_loop_steps : forall fuel policy pick st st',
  grow_loop fuel policy pick s t max_leaves max_depth st = Some st' ->
  clos_refl_trans_1n _ gstep st st' /\
  (g_pending st' = [] \/ max_leaves < g_n_leaves st' + 1).
Proof.
  induction fuel as [|f IH]; intros policy pick st st' H; simpl in H.
  - destruct (g_pending st) eqn:E.
    + inversion H; subst. split; auto. constructor.
    + destruct (Nat.ltb_spec max_leaves (g_n_leaves st + new_leaves_added s)); [|discriminate].
      inversion H; subst. split; [constructor|]. right. exact H0.
  - destruct (g_pending st) eqn:E.
    + inversion H; subst. split; auto. constructor.
    + destruct (Nat.ltb_spec max_leaves (g_n_leaves st + new_leaves_added s)).
      { inversion H; subst. split; [constructor|]. right. exact H0. }
      inv_bind H. destruct v as [node rest].
      inv_bind H. apply pop_node_split in E0. destruct E0 as (p1 & p2 & Ep & ->).
      destruct (IH _ _ _ _ H) as [IH1 IH2]. split; auto.
      eapply Relation_Operators.rt1n_trans; [|exact IH1].
      eapply gstep_intro with (p1 := p1) (node := node) (p2 := p2); eauto.
      * rewrite E. auto.
Qed.

Lemma steps_ind : forall (P : Grow -> Prop) st st',
  (forall a b, P a -> gstep a b -> P b) ->
  clos_refl_trans_1n _ gstep st st' -> P st -> P st'.
Proof. intros P st st' HS H. induction H; eauto. Qed.

(** *** What one split does *)

(** The histograms of the three children as the code builds them from the rows of each side: the
    side with the most rows by subtraction, the others from their rows. *)
Inductive hist2 (node : SplittableNode) (L R : list nat) (lh rh : HistogramMatrix) : Prop :=
| h2_left : hist_of t L = Some lh -> rh = hist_from_parent_child (sn_hist node) lh -> length L <= length R ->
    hist2 node L R lh rh
| h2_right : hist_of t R = Some rh -> lh = hist_from_parent_child (sn_hist node) rh -> length R <= length L ->
    hist2 node L R lh rh.

Inductive hist3 (node : SplittableNode) (M L R : list nat) (mh lh rh : HistogramMatrix) : Prop :=
| h3_none : M = [] -> mh = hist_empty -> hist2 node L R lh rh -> hist3 node M L R mh lh rh
| h3_m : M <> [] -> hist_of t L = Some lh -> hist_of t R = Some rh ->
    mh = hist_from_parent_two_children (sn_hist node) lh rh -> hist3 node M L R mh lh rh
| h3_l : M <> [] -> hist_of t M = Some mh -> hist_of t R = Some rh ->
    lh = hist_from_parent_two_children (sn_hist node) mh rh -> L <> [] -> hist3 node M L R mh lh rh
| h3_r : M <> [] -> hist_of t M = Some mh -> hist_of t L = Some lh ->
    rh = hist_from_parent_two_children (sn_hist node) mh lh -> R <> [] -> hist3 node M L R mh lh rh.

(** The split of [node], whose rows at that moment are [sub] (in this order). *)
Inductive split2 (node : SplittableNode) (si : SplitInfo) (mr : bool) (sub L R : list nat)
    (lh rh : HistogramMatrix) : Prop :=
| split2_intro : forall f,
    best_split s node (tr_cols t) = Some (Some si) ->
    si_missing si = (if mr then MRight else MLeft) ->
    m_get_col (tr_data t) (si_feature si) = Some f ->
    pivot_on_split sub f (si_bin si) mr = Some (L ++ R, length L) ->
    hist2 node L R lh rh ->
    split2 node si mr sub L R lh rh.

Definition missing_info_of (treatment : MissingNodeTreatment) (node : SplittableNode) (i : NodeInfo) : NodeInfo :=
  match treatment with
  | AssignToParent => mkNodeInfo (ni_grad i) (ni_gain i) (ni_cover i) (sn_weight node) (ni_bounds i)
  | _ => i
  end.

Inductive split3 (node : SplittableNode) (si : SplitInfo) (sub M L R : list nat)
    (mh lh rh : HistogramMatrix) (minfo : NodeInfo) (mleaf : bool) : Prop :=
| split3_intro : forall f p term treat force i,
    s = Branch p term treat force ->
    best_split s node (tr_cols t) = Some (Some si) ->
    (si_missing si = MBranch i /\ mleaf = (existsb (Nat.eqb (si_feature si)) term || (length M =? 0))%bool
     \/ si_missing si = MLeaf i /\ mleaf = true) ->
    minfo = missing_info_of treat node i ->
    m_get_col (tr_data t) (si_feature si) = Some f ->
    pivot_on_split_exclude_missing sub f (si_bin si) = Some (M ++ L ++ R, (length M, length M + length L)) ->
    hist3 node M L R mh lh rh ->
    split3 node si sub M L R mh lh rh minfo mleaf.

Lemma slice_splice : forall (index sub sub' : list nat) a b,
  slice index a b = Some sub -> length sub' = length sub ->
  forall i j, i <= j -> j <= length sub' ->
  slice (splice index a sub') (a + i) (a + j) = slice sub' i j.
Proof.
  intros index sub sub' a b H Hl i j Hij Hj.
  apply slice_Some in H. destruct H as (H1 & H2 & H3 & _).
  assert (LS : length (splice index a sub') = length index) by (apply splice_length; lia).
  unfold slice.
  assert ((a + i <=? a + j) && (a + j <=? length (splice index a sub')) = true) as ->.
  { rewrite LS. apply andb_true_iff; split; apply Nat.leb_le; lia. }
  assert ((i <=? j) && (j <=? length sub') = true) as ->.
  { apply andb_true_iff; split; apply Nat.leb_le; lia. }
  f_equal. replace (a + j - (a + i)) with (j - i) by lia.
  unfold splice. rewrite skipn_app. rewrite skipn_all2 by (rewrite firstn_length; lia).
  rewrite firstn_length_le by lia. replace (a + i - a) with i by lia. simpl.
  rewrite skipn_app. rewrite firstn_app.
  rewrite skipn_length. replace (j - i - (length sub' - i)) with 0 by lia.
  rewrite firstn_O, app_nil_r. reflexivity.
Qed.

Lemma slice_app : forall (A B C : list nat),
  slice (A ++ B ++ C) (length A) (length A + length B) = Some B.
Proof.
  intros. unfold slice. rewrite !app_length.
  assert ((length A <=? length A + length B) && (length A + length B <=? length A + (length B + length C)) = true) as ->.
  { apply andb_true_iff; split; apply Nat.leb_le; lia. }
  f_equal. rewrite skipn_app, skipn_all, Nat.sub_diag. simpl.
  replace (length A + length B - length A) with (length B) by lia.
  rewrite firstn_app, Nat.sub_diag, firstn_O, app_nil_r. apply firstn_all.
Qed.

Lemma app_split_at : forall (l : list nat) k, k <= length l ->
  exists a b, l = a ++ b /\ length a = k.
Proof.
  intros l k H. exists (firstn k l), (skipn k l). split; [symmetry; apply firstn_skipn|].
  apply firstn_length_le; auto.
Qed.

Lemma pivot_perm : forall sub f sv mr r k,
  pivot_on_split sub f sv mr = Some (r, k) -> Permutation sub r.
Proof.
  intros sub f sv mr r k E2. unfold pivot_on_split in E2. destruct (length sub) eqn:El; [discriminate|].
  rewrite <- El in *. clear El.
  revert E2. generalize (length sub + 1) as fu. generalize 0 at 1 as low. generalize n at 1 as high.
  intros high low fu; revert sub low high.
  induction fu as [|fu IH]; intros sub low high E2; simpl in E2.
  - destruct (low <? high); [discriminate|]. inversion E2; subst; auto.
  - destruct (low <? high); [|inversion E2; subst; auto].
    inv_bind E2. inv_bind E2. destruct (v <? v0).
    + inv_bind E2. apply IH in E2. eapply Permutation_trans; [eapply swap_perm; eauto|auto].
    + apply IH in E2. auto.
Qed.

(** The imputer split, unfolded once and for all. *)
Lemma handle_imputer_inv : forall p si n node index new node' index',
  s = Imputer p ->
  best_split s node (tr_cols t) = Some (Some si) ->
  handle_imputer t si n node index = Some (new, node', index') ->
  exists mr sub L R lh rh,
    slice index (sn_start node) (sn_stop node) = Some sub /\
    Permutation sub (L ++ R) /\
    split2 node si mr sub L R lh rh /\
    index' = splice index (sn_start node) (L ++ R) /\
    node' = update_children node (if mr then n + 1 else n) n (n + 1) si /\
    new = [from_node_info n lh (sn_depth node + 1) (sn_start node) (sn_start node + length L) (si_left si);
           from_node_info (n + 1) rh (sn_depth node + 1) (sn_start node + length L) (sn_stop node) (si_right si)].
Proof.
  intros p si n node index new node' index' Hs HB H. unfold handle_imputer in H.
  inv_bind H. rename v into mr. inv_bind H. rename v into sub.
  inv_bind H. rename v into f. inv_bind H. destruct v as [sub' k].
  destruct (Nat.leb_spec k (sn_stop node - sn_start node)) as [Hk|]; [|discriminate].
  assert (Hsl := E0). apply slice_Some in Hsl. destruct Hsl as (S1 & S2 & S3 & _).
  pose proof (pivot_perm _ _ _ _ _ _ E2) as PP.
  pose proof (Permutation_length PP) as PL. symmetry in PL.
  destruct (app_split_at sub' k) as (L & R & -> & HL); [rewrite PL; lia|]. subst k.
  rewrite app_length in PL.
  assert (Hl : slice (splice index (sn_start node) (L ++ R)) (sn_start node) (length L + sn_start node) = Some L).
  { replace (sn_start node) with (sn_start node + 0) at 2 by lia.
    replace (length L + sn_start node) with (sn_start node + length L) by lia.
    erewrite slice_splice; eauto; try lia; rewrite ?app_length; try lia.
    pose proof (slice_app [] L R) as SA. simpl in SA. auto. }
  assert (Hr : slice (splice index (sn_start node) (L ++ R)) (length L + sn_start node) (sn_stop node) = Some R).
  { replace (length L + sn_start node) with (sn_start node + length L) by lia.
    replace (sn_stop node) with (sn_start node + length (L ++ R)) by (rewrite app_length; lia).
    erewrite slice_splice; eauto; try lia; rewrite ?app_length; try lia.
    pose proof (slice_app L R []) as SA. rewrite app_nil_r in SA. auto. }
  replace (length L + sn_start node) with (sn_start node + length L) in * by lia.
  inv_bind H. destruct v as [lh rh].
  rewrite Hl, Hr in E3. simpl in E3.
  exists mr, sub, L, R, lh, rh.
  repeat split; auto.
  - apply split2_intro with (f := f); auto.
    + destruct (si_missing si); inversion E; subst; auto; discriminate.
    + match type of E3 with (if ?a <? ?b then _ else _) = _ => destruct (Nat.ltb_spec a b) as [Hc|Hc] end;
        inv_bind E3; inversion E3; subst; [apply h2_left|apply h2_right]; auto; lia.
  - inversion H; subst. auto.
  - inversion H; subst. auto.
  - inversion H; subst. auto.
Qed.

Lemma pivot3_low_perm : forall fuel sub f sv low mi m r l' m',
  pivot3_low fuel sub f sv low mi m = Some (r, l', m') -> Permutation sub r.
Proof.
  induction fuel as [|fu IH]; intros sub f sv low mi m r l' m' H; simpl in H.
  - destruct (low <? mi); [discriminate|]. inversion H; subst; auto.
  - destruct (low <? mi); [|inversion H; subst; auto].
    inv_bind H. inv_bind H. inv_bind H. destruct v1 as [idx mm].
    assert (Permutation sub idx) as HL.
    { destruct (v0 =? 0); [inv_bind E1; inversion E1; subst; eapply swap_perm; eauto|inversion E1; subst; auto]. }
    destruct (Nat.compare sv v0); try (inversion H; subst; auto; fail).
    apply IH in H. eapply Permutation_trans; eauto.
Qed.
Lemma pivot3_high_perm : forall fuel sub f sv low high m r l' h' m',
  pivot3_high fuel sub f sv low high m = Some (r, l', h', m') -> Permutation sub r.
Proof.
  induction fuel as [|fu IH]; intros sub f sv low high m r l' h' m' H; simpl in H.
  - destruct (low <? high); [discriminate|]. inversion H; subst; auto.
  - destruct (low <? high); [|inversion H; subst; auto].
    inv_bind H. inv_bind H. inv_bind H. destruct v1 as [[idx ll] mm].
    assert (Permutation sub idx) as HL.
    { destruct (v0 =? 0); [inv_bind E1; inversion E1; subst; eapply swap_perm; eauto|inversion E1; subst; auto]. }
    destruct (Nat.compare sv v0); try (apply IH in H; eapply Permutation_trans; eauto; fail); inversion H; subst; auto.
Qed.
Lemma pivot3_perm : forall sub f sv r x,
  pivot_on_split_exclude_missing sub f sv = Some (r, x) -> Permutation sub r.
Proof.
  intros sub f sv r x H. unfold pivot_on_split_exclude_missing in H.
  destruct (length sub) eqn:El; [discriminate|]. rewrite <- El in *. clear El.
  revert H. generalize (2 * length sub + 2) as fu. generalize 0 at 1 as low. generalize n at 1 as high.
  generalize 0 as m. intros m high low fu; revert sub low high m.
  induction fu as [|fu IH]; intros sub low high m H; simpl in H.
  - destruct (low <? high); [discriminate|]. inversion H; subst; auto.
  - destruct (low <? high); [|inversion H; subst; auto].
    inv_bind H. destruct v as [[i1 l1] m1]. inv_bind H. destruct v as [[[i2 l2] h2] m2].
    apply pivot3_low_perm in E. apply pivot3_high_perm in E0.
    destruct (l2 <? h2).
    + inv_bind H. apply IH in H. apply swap_perm in E1.
      eapply Permutation_trans; [exact E|]. eapply Permutation_trans; [exact E0|].
      eapply Permutation_trans; eauto.
    + apply IH in H. eapply Permutation_trans; [exact E|]. eapply Permutation_trans; [exact E0|]. auto.
Qed.

Lemma handle_branch_inv : forall p term treat force si n node index new node' index',
  s = Branch p term treat force ->
  best_split s node (tr_cols t) = Some (Some si) ->
  handle_branch p term treat t si n node index = Some (new, node', index') ->
  exists sub M L R mh lh rh minfo mleaf,
    slice index (sn_start node) (sn_stop node) = Some sub /\
    Permutation sub (M ++ L ++ R) /\
    split3 node si sub M L R mh lh rh minfo mleaf /\
    index' = splice index (sn_start node) (M ++ L ++ R) /\
    node' = update_children node n (n + 1) (n + 2) si /\
    new = [set_missing_leaf (from_node_info n mh (sn_depth node + 1) (sn_start node) (sn_start node + length M) minfo) mleaf;
           from_node_info (n + 1) lh (sn_depth node + 1) (sn_start node + length M)
              (sn_start node + length M + length L) (si_left si);
           from_node_info (n + 2) rh (sn_depth node + 1) (sn_start node + length M + length L)
              (sn_stop node) (si_right si)].
Proof.
  intros p term treat force si n node index new node' index' Hs HB H.
  unfold handle_branch in H.
  inv_bind H. destruct v as [mleaf0 info0]. inv_bind H. rename v into sub.
  inv_bind H. rename v into f. inv_bind H. destruct v as [sub' [ms sp]].
  cbn [sn_start sn_stop sn_depth sn_hist sn_weight update_children] in *.
  destruct (Nat.leb_spec sp (sn_stop node - sn_start node)) as [Hk|]; [|discriminate].
  match type of H with (if ?b then _ else _) = _ => destruct b eqn:Hk2; [|discriminate] end.
  apply Nat.leb_le in Hk2.
  assert (Hsl := E0). apply slice_Some in Hsl. destruct Hsl as (S1 & S2 & S3 & _).
  pose proof (pivot3_perm _ _ _ _ _ E2) as PP.
  pose proof (Permutation_length PP) as PL. symmetry in PL.
  destruct (app_split_at sub' ms) as (M & LR & -> & HM); [lia|]. subst ms.
  rewrite app_length in PL.
  destruct (app_split_at LR (sp - length M)) as (L & R & -> & HL); [lia|].
  rewrite app_length in PL.
  assert (sp = length M + length L) as -> by lia. clear HL.
  set (nm := sn_stop node - sn_start node - (sn_stop node - sn_start node - (length M + length L) +
      (sn_stop node - sn_start node - (sn_stop node - sn_start node - (length M + length L)) - length M))) in *.
  assert (Hnm : nm = length M) by (unfold nm; lia).
  clearbody nm. subst nm.
  assert (Hm : slice (splice index (sn_start node) (M ++ L ++ R)) (sn_start node) (sn_start node + length M) = Some M).
  { replace (sn_start node) with (sn_start node + 0) at 2 by lia.
    erewrite slice_splice; eauto; try lia; rewrite ?app_length; try lia.
    pose proof (slice_app [] M (L ++ R)) as SA. simpl in SA. auto. }
  assert (Hl : slice (splice index (sn_start node) (M ++ L ++ R)) (sn_start node + length M) (sn_start node + length M + length L) = Some L).
  { rewrite <- Nat.add_assoc.
    erewrite slice_splice; eauto; try lia; rewrite ?app_length; try lia.
    apply slice_app. }
  assert (Hr : slice (splice index (sn_start node) (M ++ L ++ R)) (sn_start node + length M + length L) (sn_stop node) = Some R).
  { replace (sn_stop node) with (sn_start node + length (M ++ L ++ R)) by (rewrite !app_length; lia).
    rewrite <- Nat.add_assoc.
    erewrite slice_splice; eauto; try lia; rewrite ?app_length; try lia.
    pose proof (slice_app (M ++ L) R []) as SA. rewrite app_nil_r, app_length, <- app_assoc in SA.
    rewrite Nat.add_assoc. auto. }
  replace (length M + length L + sn_start node) with (sn_start node + length M + length L) in * by lia.
  replace (length M + sn_start node) with (sn_start node + length M) in * by lia.
  inv_bind H. destruct v as [[[mleaf mh] lh] rh].
  rewrite Hl, Hr, Hm in E3. simpl in E3.
  exists sub, M, L, R, mh, lh, rh, (missing_info_of treat node info0), mleaf.
  split; auto. split; auto. split.
  - apply split3_intro with (f := f) (p := p) (term := term) (treat := treat) (force := force) (i := info0); auto.
    + destruct (Nat.eqb_spec (length M) 0) as [Hz|Hz]; simpl in E3.
      * assert (mleaf = true) as ->.
        { match type of E3 with (if ?b then _ else _) = _ => destruct b end;
            inv_bind E3; inversion E3; auto. }
        destruct (si_missing si); inversion E; subst; auto. left.
        rewrite orb_true_r. auto.
      * assert (mleaf = mleaf0) as ->.
        { match type of E3 with (if ?b then _ else _) = _ => destruct b end;
          [|match type of E3 with (if ?b then _ else _) = _ => destruct b end];
            inv_bind E3; inv_bind E3; inversion E3; auto. }
        destruct (si_missing si); inversion E; subst; auto. left.
        rewrite orb_false_r. auto.
    + destruct (Nat.eqb_spec (length M) 0) as [Hz|Hz]; simpl in E3.
      * assert (M = []) as -> by (destruct M; auto; discriminate).
        match type of E3 with (if ?a =? ?b then _ else _) = _ => destruct (Nat.eqb_spec a b) as [Hc|Hc] end;
          inv_bind E3; inversion E3; subst; apply h3_none; auto; [apply h2_right|apply h2_left]; auto;
          revert Hc; unfold argmax3; cbn [length];
          repeat (match goal with |- context [?a <=? ?b] => destruct (Nat.leb_spec a b) end); intros; lia.
      * assert (M <> []) by (intros ->; auto).
        match type of E3 with (if ?a =? ?b then _ else _) = _ => destruct (Nat.eqb_spec a b) as [Hc|Hc] end;
          [|match type of E3 with (if ?a =? ?b then _ else _) = _ => destruct (Nat.eqb_spec a b) as [Hd|Hd] end];
          inv_bind E3; inv_bind E3; inversion E3; subst.
        -- apply h3_m; auto.
        -- apply h3_l; auto. intros ->. revert Hd. unfold argmax3. cbn [length] in PL |- *.
           repeat (match goal with |- context [?a <=? ?b] => destruct (Nat.leb_spec a b) end); intros; lia.
        -- apply h3_r; auto. intros ->. revert Hc Hd. unfold argmax3. cbn [length] in PL |- *.
           assert (0 < length M) by (destruct M; simpl; [congruence|lia]).
           repeat (match goal with |- context [?a <=? ?b] => destruct (Nat.leb_spec a b) end); intros; lia.
  - inversion H; subst. repeat split; auto.
Qed.
End Steps.
