(** Contributions: lengths, rows, totality, the difference methods (any float arithmetic). *)
From Coq Require Import List Arith Lia Bool String.
From Verif Require Import Prelude Float Data DataProofs Utils Binning Histogram HistogramProofs Node Splitter Tree TreeWf PathProofs
  Objective Metric Sampler Contrib Booster PredictProofs.
Import ListNotations.

Section ContribG.
Context {FS : Floats}.

Lemma add_at_spec : forall c i v c', add_at c i v = Some c' ->
  exists x, nth_error c i = Some x /\ List.length c' = List.length c /\
    forall j, nth_error c' j = if j =? i then Some (x + v)%f64 else nth_error c j.
Proof.
  intros c i v c' H. unfold add_at in H. inv_bind H. exists v0. split; auto.
  split; [eapply update_length; eauto|]. intros j. eapply update_nth; eauto.
Qed.
Lemma add_at_total : forall c i v, i < List.length c -> exists c', add_at c i v = Some c'.
Proof.
  intros c i v H. unfold add_at. destruct (nth_error_lt c H) as [x ->]. simpl. apply update_total; auto.
Qed.
Lemma add_bias_length : forall c v c', add_bias c v = Some c' -> List.length c' = List.length c.
Proof.
  intros c v c' H. unfold add_bias in H. destruct (List.length c) eqn:E; [discriminate|].
  destruct (add_at_spec _ _ _ _ H) as (x & _ & L & _). congruence.
Qed.
Lemma add_bias_total : forall c v, c <> [] -> exists c', add_bias c v = Some c'.
Proof.
  intros c v H. unfold add_bias. destruct (List.length c) eqn:E; [destruct c; [tauto|discriminate]|]. apply add_at_total. lia.
Qed.

(** *** Lengths *)
Lemma contrib_walk_length : forall nodes row missing delta fuel i c n c',
  contrib_walk fuel nodes row missing delta i c = Some (n, c') -> List.length c' = List.length c.
Proof.
  induction fuel as [|f IH]; intros i c n c' H; simpl in H; [discriminate|].
  inv_bind H. destruct (n_is_leaf v); [congruence|]. inv_bind H. inv_bind H. inv_bind H. inv_bind H.
  apply IH in H. rewrite H. destruct v2.
  - destruct (add_at_spec _ _ _ _ E3) as (? & _ & L & _). auto.
  - congruence.
Qed.

Lemma leaf_contribs_length : forall is d w p c c', leaf_contribs is d w p c = Some c' -> List.length c' = List.length c.
Proof.
  induction is as [|i is IH]; intros d w p c c' H; simpl in H; [congruence|].
  inv_bind H. inv_bind H. inv_bind H. apply IH in H. destruct (add_at_spec _ _ _ _ E1) as (? & _ & L & _). congruence.
Qed.
Lemma foldM_length : forall A S (f : S -> A -> option S) (len : S -> nat) l s s', (forall s x s', In x l -> f s x = Some s' -> len s' = len s) ->
  foldM f l s = Some s' -> len s' = len s.
Proof.
  induction l as [|a l IH]; intros s s' H E; simpl in E; [congruence|].
  inv_bind E. rewrite (IH _ _ (fun s x s' Hx => H s x s' (or_intror Hx)) E). eapply H; eauto. left; auto.
Qed.
Lemma tree_shap_length : forall nodes row missing fuel i d p z o f c c',
  tree_shap fuel nodes row missing i d p z o f c = Some c' -> List.length c' = List.length c.
Proof.
  intros nodes row missing. induction fuel as [|fu IH]; intros i d p z o f c c' H; simpl in H; [discriminate|].
  inv_bind H. inv_bind H. destruct (n_is_leaf v); [eapply leaf_contribs_length; eauto|].
  inv_bind H. inv_bind H. inv_bind H. inv_bind H. destruct v4 as [[[iz io] p'] d'].
  refine (foldM_length _ _ _ (@List.length _) _ _ _ _ H). intros s [j ci] s' _ Hs. inv_bind Hs. eapply IH; eauto.
Qed.
Lemma row_method_length : forall m f, row_method m = Some f -> forall nodes row missing c c',
  f nodes row missing c = Some c' -> List.length c' = List.length c.
Proof.
  intros m f H nodes row missing c c' Hc. destruct m; simpl in H; try discriminate; injection H as <-.
  - unfold contrib_weight in Hc. inv_bind Hc. inv_bind Hc. inv_bind Hc. destruct v1. injection Hc as <-.
    apply contrib_walk_length in E1. apply add_bias_length in E0. congruence.
  - unfold contrib_branch_difference in Hc. inv_bind Hc. destruct v. injection Hc as <-. eapply contrib_walk_length; eauto.
  - unfold contrib_midpoint_difference in Hc. inv_bind Hc. destruct v. injection Hc as <-. eapply contrib_walk_length; eauto.
  - unfold contrib_mode_difference in Hc. inv_bind Hc. destruct v. injection Hc as <-. eapply contrib_walk_length; eauto.
  - unfold contrib_shapley in Hc. inv_bind Hc. inv_bind Hc. apply tree_shap_length in Hc. apply add_bias_length in E0. congruence.
Qed.
Lemma row_start_length : forall cols v, List.length (row_start cols v) = cols + 1.
Proof. intros. unfold row_start. rewrite app_length, repeat_length. reflexivity. Qed.

Lemma contrib_row_alone_length : forall b cols m f row c, row_method m = Some f ->
  contrib_row_alone b cols f row = Some c -> List.length c = cols + 1.
Proof.
  intros b cols m f row c Hm H. unfold contrib_row_alone in H. inv_bind H.
  rewrite (foldM_length _ _ _ (@List.length _) _ _ _ (fun s x s' _ Hs => row_method_length m f Hm x row _ s s' Hs) H).
  apply row_start_length.
Qed.
Lemma contrib_row_average_length : forall b cols ws row c, contrib_row_average b cols ws row = Some c -> List.length c = cols + 1.
Proof.
  intros b cols ws row c H. unfold contrib_row_average in H. inv_bind H.
  rewrite <- (row_start_length cols (gb_base_score b)).
  refine (foldM_length _ _ _ (@List.length _) _ _ _ _ H). intros s [t w] s' _ Hs.
  unfold contrib_average in Hs. inv_bind Hs. inv_bind Hs. inv_bind Hs. destruct v2. injection Hs as <-.
  apply contrib_walk_length in E2. apply add_bias_length in E1. congruence.
Qed.
Lemma contrib_row_probability_length : forall b cols row c, contrib_row_probability b cols row = Some c -> List.length c = cols + 1.
Proof.
  intros b cols row c H. unfold contrib_row_probability in H. inv_bind H. inv_bind H. destruct v0 as [acc c0]. injection H as <-.
  rewrite <- (row_start_length cols (odds (gb_base_score b))).
  refine (foldM_length _ _ _ (fun s => List.length (snd s)) _ _ _ _ E0). intros [a s] t [a' s'] _ Hs. simpl.
  unfold contrib_probability_change in Hs. inv_bind Hs. inv_bind Hs. inv_bind Hs. destruct v2. injection Hs as <- <-.
  apply contrib_walk_length in E3. apply add_bias_length in E2. congruence.
Qed.

(** What one row contributes, by method. *)
Definition contrib_row (b : Booster) (m : ContributionsMethod) (cols : nat) (row : list F64) : option (list F64) :=
  match m with
  | CAverage => let* ts := prediction_trees b in let* ws := mapM distribute_leaf_weights ts in contrib_row_average b cols ws row
  | CProbabilityChange => match p_objective (gb_params b) with LogLoss => contrib_row_probability b cols row | _ => None end
  | m => let* f := row_method m in contrib_row_alone b cols f row
  end.
Lemma contrib_row_length : forall b m cols row c, contrib_row b m cols row = Some c -> List.length c = cols + 1.
Proof.
  intros b m cols row c H.
  assert (A : forall f, row_method m = Some f -> contrib_row_alone b cols f row = Some c -> List.length c = cols + 1)
    by (intros f Hf; apply (contrib_row_alone_length b cols m f row c Hf)).
  destruct m; simpl in H; try (eapply A; [reflexivity|exact H]).
  - inv_bind H. inv_bind H. eapply contrib_row_average_length; eauto.
  - destruct (p_objective _); [|discriminate]. eapply contrib_row_probability_length; eauto.
Qed.

Theorem contributions_rows : forall sh b data m par r, m_index data = seq 0 (m_rows data) ->
  predict_contributions sh b data m par = Some r -> forall i row, i < m_rows data -> m_get_row data i = Some row ->
  exists c, contrib_row b m (m_cols data) row = Some c /\
    slice r (i * (m_cols data + 1)) (i * (m_cols data + 1) + (m_cols data + 1)) = Some c.
Proof.
  intros sh b data m par r HI H i row Hi HR. rewrite predict_contributions_serial in H.
  assert (A : forall f, row_method m = Some f -> for_rows false Seq data (contrib_row_alone b (m_cols data) f) = Some r ->
    exists c, contrib_row_alone b (m_cols data) f row = Some c /\
      slice r (i * (m_cols data + 1)) (i * (m_cols data + 1) + (m_cols data + 1)) = Some c).
  { intros f Hf Hr. eapply for_rows_row; eauto. intros. eapply contrib_row_alone_length; eauto. }
  destruct m; simpl in H; unfold predict_contributions_tree_alone in H; simpl in H;
    try (simpl; eapply A; [reflexivity|exact H]).
  - unfold predict_contributions_average in H. simpl. inv_bind H. inv_bind H. rewrite E. simpl. rewrite E0. simpl.
    eapply for_rows_row; eauto. intros. eapply contrib_row_average_length; eauto.
  - simpl. destruct (p_objective (gb_params b)); [|discriminate].
    unfold predict_contributions_probability in H. eapply for_rows_row; eauto. intros. eapply contrib_row_probability_length; eauto.
Qed.

(** C29 for contributions *)
Theorem contributions_row_only : forall sh sh' b data data' m par par' i i' row r r',
  m_index data = seq 0 (m_rows data) -> m_index data' = seq 0 (m_rows data') -> m_cols data = m_cols data' ->
  i < m_rows data -> i' < m_rows data' -> m_get_row data i = Some row -> m_get_row data' i' = Some row ->
  predict_contributions sh b data m par = Some r -> predict_contributions sh' b data' m par' = Some r' ->
  forall k, k <= m_cols data -> nth_error r (i * (m_cols data + 1) + k) = nth_error r' (i' * (m_cols data + 1) + k).
Proof.
  intros sh sh' b data data' m par par' i i' row r r' I I' C L L' R R' H H' k Hk.
  destruct (contributions_rows _ _ _ _ _ _ I H i row L R) as (c & Hc & Sc).
  destruct (contributions_rows _ _ _ _ _ _ I' H' i' row L' R') as (c' & Hc' & Sc').
  rewrite <- C in *. assert (c' = c) by congruence. subst c'.
  rewrite <- (slice_nth _ _ _ Sc) by lia. rewrite <- (slice_nth _ _ _ Sc') by lia. reflexivity.
Qed.

(** *** Totality *)
Lemma contrib_walk_total : forall nodes row missing delta x c, reps nodes x ->
  (forall i n ch m, In i (inums x) -> nth_error nodes i = Some n -> n_is_leaf n = false -> In ch (children n) -> nth_error nodes ch = Some m ->
     exists d, delta i n ch = Some d) ->
  valid_row missing (nth_error row) (tree_features nodes) ->
  (forall f, tree_features nodes f -> f < List.length c) ->
  forall fuel, iheight x < fuel -> exists r, contrib_walk fuel nodes row missing delta (inum x) c = Some r.
Proof.
  intros nodes row missing delta. induction x as [n|n mr l IHl r IHr|n m IHm l IHl r IHr]; intros c H D V L fuel Hf;
    (destruct fuel as [|fuel]; [lia|]); simpl; rewrite (reps_root _ _ H); cbn [bind iroot]; simpl in H, Hf.
  - destruct H as [_ ->]. eauto.
  - destruct H as (H1 & H2 & H3 & H4 & H5 & H6 & H7). rewrite H2.
    assert (TF : tree_features nodes (n_split_feature n)) by (exists n; split; [eapply nth_error_In; eauto|auto]).
    destruct (V _ TF) as (v & -> & VC). cbn [bind]. unfold get_child_idx. destruct (is_missing_valid v missing VC) as [b ->]. cbn [bind].
    assert (CH : exists y, (y = l \/ y = r) /\ (if b then n_missing n else if (v <? n_split_value n)%f64 then n_left n else n_right n) = inum y).
    { destruct b; [rewrite H5; destruct mr; eauto|]. destruct (v <? n_split_value n)%f64; eauto. }
    destruct CH as (y & Hy & ->).
    assert (RY : reps nodes y) by (destruct Hy; subst; auto).
    unfold inum at 1; cbn [iroot].
    destruct (D (n_num n) n (inum y) (iroot y)) as [d ->]; auto using reps_root.
    { left; auto. } { unfold children. destruct Hy; subst y; rewrite <- ?H3, <- ?H4; simpl; auto. }
    cbn [bind].
    assert (AC : exists c1, (match d with Some d => add_at c (n_split_feature n) d | None => Some c end) = Some c1 /\ List.length c1 = List.length c).
    { destruct d as [d|]; [|eauto]. destruct (add_at_total c (n_split_feature n) d) as [c1 Hc1]; auto. exists c1. split; auto.
      destruct (add_at_spec _ _ _ _ Hc1) as (? & _ & Lc & _). auto. }
    destruct AC as (c1 & -> & Lc1). cbn [bind].
    assert (DI : forall i, In i (inums y) -> In i (inums (IB2 n mr l r))).
    { intros i Hi. unfold inums in *. simpl. right. rewrite map_app, in_app_iff. destruct Hy; subst; auto. }
    destruct Hy; subst y; [apply IHl|apply IHr]; auto; try lia; try (intros; rewrite Lc1; auto); intros; eapply D; eauto.
  - destruct H as (H1 & H2 & H3 & H4 & H5 & H6 & H7 & H8 & H9 & H10). rewrite H2.
    assert (TF : tree_features nodes (n_split_feature n)) by (exists n; split; [eapply nth_error_In; eauto|auto]).
    destruct (V _ TF) as (v & -> & VC). cbn [bind]. unfold get_child_idx. destruct (is_missing_valid v missing VC) as [b ->]. cbn [bind].
    assert (CH : exists y, (y = m \/ y = l \/ y = r) /\ (if b then n_missing n else if (v <? n_split_value n)%f64 then n_left n else n_right n) = inum y).
    { destruct b; [eauto|]. destruct (v <? n_split_value n)%f64; eauto. }
    destruct CH as (y & Hy & ->).
    assert (RY : reps nodes y) by (destruct Hy as [|[|]]; subst; auto).
    unfold inum at 1; cbn [iroot].
    destruct (D (n_num n) n (inum y) (iroot y)) as [d ->]; auto using reps_root.
    { left; auto. } { unfold children. destruct Hy as [|[|]]; subst y; rewrite <- ?H3, <- ?H4, <- ?H5; simpl; auto. }
    cbn [bind].
    assert (AC : exists c1, (match d with Some d => add_at c (n_split_feature n) d | None => Some c end) = Some c1 /\ List.length c1 = List.length c).
    { destruct d as [d|]; [|eauto]. destruct (add_at_total c (n_split_feature n) d) as [c1 Hc1]; auto. exists c1. split; auto.
      destruct (add_at_spec _ _ _ _ Hc1) as (? & _ & Lc & _). auto. }
    destruct AC as (c1 & -> & Lc1). cbn [bind].
    assert (DI : forall i, In i (inums y) -> In i (inums (IB3 n m l r))).
    { intros i Hi. unfold inums in *. simpl. right. rewrite !map_app, !in_app_iff. destruct Hy as [|[|]]; subst; auto. }
    destruct Hy as [|[|]]; subst y; [apply IHm|apply IHl|apply IHr]; auto; try lia; try (intros; rewrite Lc1; auto); intros; eapply D; eauto.
Qed.

(** *** Averages over the leaves *)
Fixpoint iavg (x : itree) : F64 :=
  match x with
  | IL n => to64 (n_weight n)
  | IB2 n _ l r => ((to64 (n_hess (iroot l)) * iavg l + to64 (n_hess (iroot r)) * iavg r) / to64 (n_hess n))%f64
  | IB3 n m l r => ((to64 (n_hess (iroot l)) * iavg l + to64 (n_hess (iroot r)) * iavg r + to64 (n_hess (iroot m)) * iavg m)
                    / to64 (n_hess n))%f64
  end.
Fixpoint isubs (x : itree) : list itree :=
  match x with
  | IL n => [x]
  | IB2 n _ l r => x :: isubs l ++ isubs r
  | IB3 n m l r => x :: isubs m ++ isubs l ++ isubs r
  end.
Lemma isubs_nums : forall x, map inum (isubs x) = inums x.
Proof.
  unfold inums. induction x as [n|n mr l IHl r IHr|n m IHm l IHl r IHr]; simpl; auto; rewrite !map_app; f_equal; congruence.
Qed.
Lemma isubs_reps : forall nodes x, reps nodes x -> forall y, In y (isubs x) -> reps nodes y.
Proof.
  intros nodes. induction x as [n|n mr l IHl r IHr|n m IHm l IHl r IHr]; intros H y Hy.
  - destruct Hy as [<-|[]]. auto.
  - destruct Hy as [<-|Hy]; auto. simpl in H. apply in_app_iff in Hy. destruct Hy; [apply IHl|apply IHr]; tauto.
  - destruct Hy as [<-|Hy]; auto. simpl in H. rewrite !in_app_iff in Hy. destruct Hy as [?|[?|?]]; [apply IHm|apply IHl|apply IHr]; tauto.
Qed.

Lemma has_missing_IB2 : forall (n : Node) (mr : bool) (l r : itree), n_left n = inum l -> n_right n = inum r ->
  n_missing n = (if mr then inum r else inum l) -> has_missing_branch n = false.
Proof.
  intros n mr l r H1 H2 H3. unfold has_missing_branch. rewrite H1, H2, H3. destruct mr; rewrite Nat.eqb_refl; simpl; auto.
  apply andb_false_r.
Qed.
Lemma has_missing_IB3 : forall n : Node, n_missing n <> n_left n -> n_missing n <> n_right n -> has_missing_branch n = true.
Proof. intros n H1 H2. unfold has_missing_branch. apply Nat.eqb_neq in H1, H2. rewrite H1, H2. reflexivity. Qed.

Lemma average_reps : forall nodes x, reps nodes x -> forall fuel, iheight x < fuel -> average_leaf_weights fuel nodes (inum x) = Some (iavg x).
Proof.
  intros nodes. induction x as [n|n mr l IHl r IHr|n m IHm l IHl r IHr]; intros H fuel Hf;
    (destruct fuel as [|fuel]; [lia|]); simpl; rewrite (reps_root _ _ H); cbn [bind iroot]; simpl in H, Hf.
  - destruct H as [_ ->]. reflexivity.
  - destruct H as (H1 & H2 & H3 & H4 & H5 & H6 & H7). rewrite H2, H3, H4, (reps_root _ _ H6), (reps_root _ _ H7). cbn [bind].
    rewrite IHl, IHr by (auto; lia). cbn [bind].
    rewrite (has_missing_IB2 n mr l r H3 H4 H5). reflexivity.
  - destruct H as (H1 & H2 & H3 & H4 & H5 & H6 & H7 & H8 & H9 & H10).
    rewrite H2. rewrite (has_missing_IB3 n H6 H7). rewrite H3, H4, H5, (reps_root _ _ H8), (reps_root _ _ H9), (reps_root _ _ H10). cbn [bind].
    rewrite IHl, IHr, IHm by (auto; lia). reflexivity.
Qed.

Lemma NoDup_app_parts : forall A (a b : list A), NoDup (a ++ b) -> NoDup a /\ NoDup b /\ (forall x, In x a -> ~ In x b).
Proof.
  induction a as [|x a IH]; simpl; intros b H; [split; [constructor|auto]|].
  inversion H; subst. destruct (IH b H3) as (H4 & H5 & H6). split; [constructor; auto; intros Q; apply H2; apply in_app_iff; auto|].
  split; auto. intros y [<-|Hy]; auto. intros Q. apply H2. apply in_app_iff. auto.
Qed.

Lemma distribute_reps : forall nodes x, reps nodes x -> NoDup (inums x) -> forall fuel ws, iheight x < fuel ->
  (forall i, In i (inums x) -> i < List.length ws) ->
  exists ws', distribute fuel nodes (inum x) ws = Some (iavg x, ws') /\ List.length ws' = List.length ws /\
    (forall y, In y (isubs x) -> nth_error ws' (inum y) = Some (iavg y)) /\
    (forall j, ~ In j (inums x) -> nth_error ws' j = nth_error ws j).
Proof.
  intros nodes. induction x as [n|n mr l IHl r IHr|n m IHm l IHl r IHr]; intros H ND fuel ws Hf L;
    (destruct fuel as [|fuel]; [lia|]); cbn [distribute]; rewrite (reps_root _ _ H); cbn [bind iroot]; simpl in H, Hf; unfold inums in *; simpl in L, ND.
  - destruct H as [_ ->]. unfold inum. simpl. destruct (update_total ws (i := n_num n) (to64 (n_weight n))) as [ws' HU]; [apply L; auto|].
    rewrite HU. simpl. exists ws'. split; auto. split; [eapply update_length; eauto|]. pose proof (update_nth _ _ _ HU) as UN.
    split.
    + intros y [<-|[]]. unfold inum. simpl. rewrite UN, Nat.eqb_refl. reflexivity.
    + intros j Hj. rewrite UN. destruct (Nat.eqb_spec j (n_num n)); auto. subst. tauto.
  - destruct H as (H1 & H2 & H3 & H4 & H5 & H6 & H7). rewrite H2, (has_missing_IB2 n mr l r H3 H4 H5), H3, H4, (reps_root _ _ H6), (reps_root _ _ H7). cbn [bind].
    rewrite map_app in *. inversion ND as [|? ? N0 N1]; subst. apply NoDup_app_parts in N1. destruct N1 as (Nl & Nr & DJ).
    destruct (IHl H6 Nl fuel ws) as (w1 & -> & L1 & S1 & O1); [lia|intros; apply L; right; apply in_app_iff; auto|]. cbn [bind].
    destruct (IHr H7 Nr fuel w1) as (w2 & -> & L2 & S2 & O2); [lia|intros; rewrite L1; apply L; right; apply in_app_iff; auto|]. cbn [bind].
    change (inum (IB2 n mr l r)) with (n_num n).
    match goal with |- context [update w2 (n_num n) ?v] => destruct (update_total w2 (i := n_num n) v) as [w3 HU]; [rewrite L2, L1; apply L; auto|] end.
    rewrite HU. cbn [bind]. exists w3. split; auto.
    split; [rewrite (update_length _ _ _ HU); congruence|]. pose proof (update_nth _ _ _ HU) as UN. 
    split.
    + simpl. intros y [<-|Hy].
      * unfold inum. simpl. rewrite UN, Nat.eqb_refl. reflexivity.
      * assert (NY : In (inum y) (map n_num (inodes l)) \/ In (inum y) (map n_num (inodes r))).
        { apply in_app_iff in Hy. destruct Hy as [Hy|Hy]; [left|right]; [rewrite <- (isubs_nums l : _ = map n_num _)|rewrite <- (isubs_nums r : _ = map n_num _)]; apply in_map; auto. }
        rewrite UN. destruct (Nat.eqb_spec (inum y) (n_num n)) as [EQ|_].
        { exfalso. apply N0. rewrite <- EQ. apply in_app_iff. auto. }
        apply in_app_iff in Hy. destruct Hy as [Hy|Hy]; auto.
        rewrite O2; auto. apply DJ. rewrite <- (isubs_nums l : _ = map n_num _). apply in_map; auto.
    + simpl. intros j Hj. rewrite UN. destruct (Nat.eqb_spec j (n_num n)) as [->|_]; [tauto|].
      rewrite map_app, in_app_iff in Hj. rewrite O2, O1; auto; tauto.
  - destruct H as (H1 & H2 & H3 & H4 & H5 & H6 & H7 & H8 & H9 & H10).
    rewrite H2, (has_missing_IB3 n H6 H7), H3, H4, H5, (reps_root _ _ H8), (reps_root _ _ H9), (reps_root _ _ H10). cbn [bind].
    rewrite !map_app in *. inversion ND as [|? ? N0 N1]; subst. apply NoDup_app_parts in N1. destruct N1 as (Nm & N1 & DJm).
    apply NoDup_app_parts in N1. destruct N1 as (Nl & Nr & DJ).
    destruct (IHl H9 Nl fuel ws) as (w1 & -> & L1 & S1 & O1); [lia|intros; apply L; right; rewrite !in_app_iff; auto|]. cbn [bind].
    destruct (IHr H10 Nr fuel w1) as (w2 & -> & L2 & S2 & O2); [lia|intros; rewrite L1; apply L; right; rewrite !in_app_iff; auto|]. cbn [bind].
    destruct (IHm H8 Nm fuel w2) as (w4 & -> & L4 & S4 & O4); [lia|intros; rewrite L2, L1; apply L; right; rewrite !in_app_iff; auto|]. cbn [bind].
    change (inum (IB3 n m l r)) with (n_num n).
    match goal with |- context [update w4 (n_num n) ?v] => destruct (update_total w4 (i := n_num n) v) as [w3 HU]; [rewrite L4, L2, L1; apply L; auto|] end.
    rewrite HU. cbn [bind]. exists w3. split; auto.
    split; [rewrite (update_length _ _ _ HU); congruence|]. pose proof (update_nth _ _ _ HU) as UN.
    assert (IM : forall y z, In y (isubs z) -> In (inum y) (map n_num (inodes z))).
    { intros y z Hy. rewrite <- (isubs_nums z : _ = map n_num _). apply in_map; auto. }
    split.
    + simpl. intros y [<-|Hy].
      * unfold inum. simpl. rewrite UN, Nat.eqb_refl. reflexivity.
      * rewrite !in_app_iff in Hy. rewrite UN. destruct (Nat.eqb_spec (inum y) (n_num n)) as [EQ|_].
        { exfalso. apply N0. rewrite <- EQ. rewrite !in_app_iff. destruct Hy as [Hy|[Hy|Hy]]; apply IM in Hy; auto. }
        destruct Hy as [Hy|[Hy|Hy]]; auto.
        -- rewrite O4, O2; auto. intros Q. exact (DJm _ Q ltac:(apply in_app_iff; left; apply IM; auto)).
        -- rewrite O4; auto. intros Q. exact (DJm _ Q ltac:(apply in_app_iff; right; apply IM; auto)).
    + simpl. intros j Hj. rewrite UN. destruct (Nat.eqb_spec j (n_num n)) as [->|_]; [tauto|].
      rewrite !map_app, !in_app_iff in Hj. rewrite O4, O2, O1; auto; tauto.
Qed.

Lemma distribute_wf : forall nodes x, well_formed nodes -> reps nodes x -> inum x = 0 ->
  exists ws, distribute_leaf_weights nodes = Some ws /\ List.length ws = List.length nodes /\
    forall y, In y (isubs x) -> nth_error ws (inum y) = Some (iavg y).
Proof.
  intros nodes x W R R0. unfold distribute_leaf_weights.
  destruct (distribute_reps nodes x R (reps_nodup _ W _ R) (List.length nodes) (repeat (fzero f64) (List.length nodes))) as (ws & D & L & S & _).
  - rewrite <- (reps_size _ W _ R R0). apply iheight_size.
  - intros i Hi. rewrite repeat_length. apply (reps_ge _ W _ R) in Hi. lia.
  - rewrite R0 in D. rewrite D. simpl. exists ws. rewrite repeat_length in L. auto.
Qed.

(** every node is the root of one of the subtrees *)
Lemma reps_subtree : forall nodes x, well_formed nodes -> reps nodes x -> inum x = 0 ->
  forall i n, nth_error nodes i = Some n -> exists y, In y (isubs x) /\ inum y = i /\ iroot y = n /\ reps nodes y.
Proof.
  intros nodes x W R R0 i n Hn.
  assert (Hi : In i (inums x)).
  { eapply Permutation.Permutation_in; [symmetry; apply (reps_all _ W _ R R0)|]. apply in_seq. apply nth_error_Some_lt in Hn. lia. }
  rewrite <- isubs_nums in Hi. apply in_map_iff in Hi. destruct Hi as (y & <- & Hy). exists y. split; auto. split; auto.
  pose proof (isubs_reps _ _ R _ Hy) as RY. rewrite (reps_root _ _ RY) in Hn. split; auto. congruence.
Qed.

(** *** What a walk adds to each cell *)
Definition steps (l : list nat) : list (nat * nat) := combine l (tl l).
Definition deltas (nodes : list Node) (delta : nat -> Node -> nat -> option (option F64)) (f : nat) (st : list (nat * nat)) : list F64 :=
  flat_map (fun '(a, b) => match nth_error nodes a with
    | Some n => if n_split_feature n =? f then match delta a n b with Some (Some d) => [d] | _ => [] end else []
    | None => [] end) st.

Lemma path_head : forall nodes row missing fuel i l, path fuel nodes row missing i = Some l -> exists r, l = i :: r.
Proof.
  intros nodes row missing fuel i l H. destruct fuel; simpl in H; [discriminate|]. inv_bind H. destruct (n_is_leaf v).
  - injection H as <-. eauto.
  - inv_bind H. inv_bind H. inv_bind H. injection H as <-. eauto.
Qed.

Lemma contrib_walk_cells : forall nodes row missing delta fuel i c n c',
  contrib_walk fuel nodes row missing delta i c = Some (n, c') ->
  walk fuel nodes (nth_error row) missing i = Some n /\
  exists l, path fuel nodes (nth_error row) missing i = Some l /\
    forall f, nth_error c' f = option_map (fun x => fold_left (fadd f64) (deltas nodes delta f (steps l)) x) (nth_error c f).
Proof.
  induction fuel as [|fu IH]; intros i c n c' H; cbn [contrib_walk] in H; [discriminate|].
  inv_bind H. cbn [walk path]. rewrite E. cbn [bind]. destruct (n_is_leaf v) eqn:EL.
  - injection H as <- <-. split; auto. exists [i]. split; auto. intros f. simpl. destruct (nth_error c f); reflexivity.
  - inv_bind H. inv_bind H. inv_bind H. inv_bind H. rewrite E0. cbn [bind]. rewrite E1. cbn [bind].
    apply IH in H. destruct H as (HW & l & Hl & HC). split; auto. rewrite Hl. cbn [bind]. exists (i :: l). split; auto.
    intros f. rewrite HC. destruct (path_head _ _ _ _ _ _ Hl) as [r ->]. unfold steps. cbn [tl combine]. unfold deltas at 2. cbn [flat_map].
    rewrite E, E2. destruct v2 as [d|].
    + destruct (add_at_spec _ _ _ _ E3) as (x & Hx & L & N). rewrite N.
      rewrite (Nat.eqb_sym (n_split_feature v) f). destruct (Nat.eqb_spec f (n_split_feature v)) as [->|_]; simpl; auto.
      rewrite Hx. reflexivity.
    + injection E3 as <-. destruct (n_split_feature v =? f); reflexivity.
Qed.

(** C37: the difference one step from node a to node b adds *)
Definition step_difference (m : ContributionsMethod) (nodes : list Node) (a b : nat) : list F64 :=
  match nth_error nodes a, nth_error nodes b with
  | Some n, Some ch =>
      if negb (n_missing n =? n_right n) && negb (n_missing n =? n_left n) && (b =? n_missing n) then []
      else match nth_error nodes (n_left n), nth_error nodes (n_right n) with
      | Some l, Some r =>
          let o := if b =? n_left n then r else l in
          match m with
          | CBranchDifference => [to64 (n_weight ch - n_weight o)%f32]
          | CMidpointDifference =>
              [to64 (n_weight ch - (n_weight ch * n_hess ch + n_weight o * n_hess o) / (n_hess ch + n_hess o))%f32]
          | CModeDifference =>
              [to64 (if (n_hess l =? n_hess r)%f32 then fzero f32
                     else if (n_hess r <? n_hess l)%f32 then n_weight ch - n_weight l else n_weight ch - n_weight r)%f32]
          | _ => []
          end
      | _, _ => []
      end
  | _, _ => []
  end.
(** The differences a row collects for feature f in a tree, in the order of the splits passed. *)
Definition row_differences (m : ContributionsMethod) (nodes : list Node) (row : nat -> option F64) (missing : F64) (f : nat) : list F64 :=
  match full_path nodes row missing with
  | Some l => flat_map (fun '(a, b) => match nth_error nodes a with
       | Some n => if n_split_feature n =? f then step_difference m nodes a b else [] | None => [] end) (steps l)
  | None => []
  end.
Definition is_difference (m : ContributionsMethod) : bool :=
  match m with CBranchDifference | CMidpointDifference | CModeDifference => true | _ => false end.

Lemma flat_map_ext2 : forall A B (f g : A -> list B) l, (forall x, In x l -> f x = g x) -> flat_map f l = flat_map g l.
Proof. induction l as [|a l IH]; simpl; intros H; auto. rewrite (H a), IH; auto. Qed.

(** along a path every step goes from an inner node to one of its children *)
Lemma path_steps : forall nodes row missing fuel i l, path fuel nodes row missing i = Some l ->
  forall a b, In (a, b) (steps l) -> exists n m, nth_error nodes a = Some n /\ n_is_leaf n = false /\ nth_error nodes b = Some m /\
    (b = n_left n \/ b = n_right n \/ b = n_missing n).
Proof.
  induction fuel as [|fu IH]; intros i l H a b Hs; cbn [path] in H; [discriminate|].
  inv_bind H. destruct (n_is_leaf v) eqn:EL; [injection H as <-; destruct Hs|].
  inv_bind H. inv_bind H. inv_bind H. injection H as <-.
  destruct (path_head _ _ _ _ _ _ E2) as [r ->]. unfold steps in Hs. cbn [tl combine] in Hs. destruct Hs as [Hs|Hs].
  - injection Hs as <- <-. exists v.
    assert (Hm : exists m, nth_error nodes v1 = Some m).
    { destruct fu; cbn [path] in E2; [discriminate|]. inv_bind E2. eauto. }
    destruct Hm as [m Hm]. exists m. repeat split; auto. unfold get_child_idx in E1. inv_bind E1. injection E1 as <-.
    destruct v2; auto. destruct (_ <? _)%f64; auto.
  - eapply IH; eauto.
Qed.

Lemma difference_method_cells : forall m, is_difference m = true -> forall fn nodes row missing c c',
  row_method m = Some fn -> well_formed nodes -> fn nodes row missing c = Some c' ->
  forall f, nth_error c' f = option_map (fun x => fold_left (fadd f64) (row_differences m nodes (nth_error row) missing f) x) (nth_error c f).
Proof.
  intros m D fn nodes row missing c c' Hm W H f.
  assert (KEY : forall delta leaf, contrib_walk (List.length nodes) nodes row missing delta 0 c = Some (leaf, c') ->
    (forall a n b, nth_error nodes a = Some n -> n_is_leaf n = false -> (exists ch, nth_error nodes b = Some ch) ->
       b = n_left n \/ b = n_right n \/ b = n_missing n ->
       match delta a n b with Some (Some d) => [d] | _ => [] end = step_difference m nodes a b) ->
    nth_error c' f = option_map (fun x => fold_left (fadd f64) (row_differences m nodes (nth_error row) missing f) x) (nth_error c f)).
  { intros delta leaf HW HD. destruct (contrib_walk_cells _ _ _ _ _ _ _ _ _ HW) as (_ & l & Hl & HC). rewrite HC.
    unfold row_differences, full_path. rewrite Hl. unfold deltas.
    rewrite (flat_map_ext2 _ _ _ (fun '(a, b) => match nth_error nodes a with
       | Some n => if n_split_feature n =? f then step_difference m nodes a b else [] | None => [] end) (steps l)); auto.
    intros [a b] Hab. destruct (path_steps _ _ _ _ _ _ Hl a b Hab) as (n & ch & Hn & HL & Hch & HB). rewrite Hn.
    destruct (_ =? _); auto. eapply HD; eauto. }
  assert (CH : forall a n, nth_error nodes a = Some n -> n_is_leaf n = false ->
    exists l r, nth_error nodes (n_left n) = Some l /\ nth_error nodes (n_right n) = Some r).
  { intros a n Hn HL. destruct (wf_child _ W a n (n_left n) Hn HL) as [_ (l & Hl & _)]; [simpl; auto|].
    destruct (wf_child _ W a n (n_right n) Hn HL) as [_ (r & Hr & _)]; [simpl; auto|]. eauto. }
  destruct m; try discriminate D; simpl in Hm; injection Hm as <-.
  - unfold contrib_branch_difference in H. inv_bind H. destruct v as [leaf c1]. injection H as ->.
    refine (KEY _ leaf E _). clear E KEY. intros a n b Hn HL [ch Hch] HB. unfold step_difference. rewrite Hn, Hch. unfold has_missing_branch.
    destruct (_ && _ && _); auto. destruct (CH a n Hn HL) as (l & r & Hl & Hr). rewrite Hl, Hr. unfold other_child.
    destruct (b =? n_left n); [rewrite Hr|rewrite Hl]; reflexivity.
  - unfold contrib_midpoint_difference in H. inv_bind H. destruct v as [leaf c1]. injection H as ->.
    refine (KEY _ leaf E _). clear E KEY. intros a n b Hn HL [ch Hch] HB. unfold step_difference. rewrite Hn, Hch. unfold has_missing_branch.
    destruct (CH a n Hn HL) as (l & r & Hl & Hr). rewrite Hl, Hr. unfold other_child. cbn [bind].
    destruct (_ && _ && _); auto. 
    destruct (b =? n_left n); [rewrite Hr|rewrite Hl]; reflexivity.
  - unfold contrib_mode_difference in H. inv_bind H. destruct v as [leaf c1]. injection H as ->.
    refine (KEY _ leaf E _). clear E KEY. intros a n b Hn HL [ch Hch] HB. unfold step_difference. rewrite Hn, Hch. unfold has_missing_branch.
    destruct (_ && _ && _); auto. destruct (CH a n Hn HL) as (l & r & Hl & Hr). rewrite Hl, Hr. reflexivity.
Qed.

Theorem difference_contributions : forall sh b data m par r ts, is_difference m = true ->
  m_index data = seq 0 (m_rows data) -> prediction_trees b = Some ts -> (forall t, In t ts -> well_formed t) ->
  predict_contributions sh b data m par = Some r -> forall i row, i < m_rows data -> m_get_row data i = Some row ->
  nth_error r (i * (m_cols data + 1) + m_cols data) =
    Some (fold_left (fadd f64) (flat_map (fun t => row_differences m t (nth_error row) (p_missing (gb_params b)) (m_cols data)) ts)
       (fzero f64 + gb_base_score b)%f64) /\
  forall f, f < m_cols data -> nth_error r (i * (m_cols data + 1) + f) =
    Some (fold_left (fadd f64) (flat_map (fun t => row_differences m t (nth_error row) (p_missing (gb_params b)) f) ts) (fzero f64)).
Proof.
  intros sh b data m par r ts D HI HT W H i row Li HR.
  destruct (contributions_rows _ _ _ _ _ _ HI H i row Li HR) as (c & Hc & Hs).
  assert (CELL : forall f, nth_error c f = option_map
     (fun x => fold_left (fadd f64) (flat_map (fun t => row_differences m t (nth_error row) (p_missing (gb_params b)) f) ts) x)
     (nth_error (row_start (m_cols data) (gb_base_score b)) f)).
  { assert (exists fn, row_method m = Some fn /\ contrib_row_alone b (m_cols data) fn row = Some c) as (fn & Hfn & Hal).
    { destruct m; try discriminate D; simpl in Hc |- *; eauto. }
    unfold contrib_row_alone in Hal. rewrite HT in Hal. cbn [bind] in Hal. clear - D Hfn Hal W.
    revert Hal. generalize (row_start (m_cols data) (gb_base_score b)). revert c. revert W.
    induction ts as [|t ts IH]; intros W c c0 H f; simpl in H.
    - injection H as ->. simpl. destruct (nth_error c f); reflexivity.
    - inv_bind H. rewrite (IH (fun t Ht => W t (or_intror Ht)) _ _ H f).
      rewrite (difference_method_cells m D fn t row _ c0 v Hfn (W t (or_introl eq_refl)) E f).
      simpl. destruct (nth_error c0 f); simpl; auto. rewrite fold_left_app. reflexivity. }
  split.
  - rewrite <- (slice_nth _ _ _ Hs) by lia. rewrite CELL. unfold row_start. rewrite nth_error_app2 by (rewrite repeat_length; auto).
    rewrite repeat_length, Nat.sub_diag. reflexivity.
  - intros f Hf. rewrite <- (slice_nth _ _ _ Hs) by lia. rewrite CELL. unfold row_start. rewrite nth_error_app1 by (rewrite repeat_length; auto).
    rewrite nth_error_repeat by auto. reflexivity.
Qed.

Lemma row_differences_other : forall m nodes row missing f, ~ tree_features nodes f -> row_differences m nodes row missing f = [].
Proof.
  intros m nodes row missing f H. unfold row_differences. destruct (full_path nodes row missing) as [l|] eqn:E; auto.
  unfold full_path in E. pose proof (path_steps _ _ _ _ _ _ E) as PS. induction (steps l) as [|[a b] st IH]; auto.
  cbn [flat_map]. rewrite IH by (intros; apply PS; right; auto). destruct (PS a b (or_introl eq_refl)) as (n & ch & Hn & HL & _). rewrite Hn.
  destruct (Nat.eqb_spec (n_split_feature n) f); auto. exfalso. apply H. exists n. split; [eapply nth_error_In; eauto|auto].
Qed.

Theorem difference_contributions' : forall sh b data m par r ts, is_difference m = true ->
  m_index data = seq 0 (m_rows data) -> prediction_trees b = Some ts ->
  (forall t, In t ts -> well_formed t /\ forall f, tree_features t f -> f < m_cols data) ->
  predict_contributions sh b data m par = Some r -> forall i row, i < m_rows data -> m_get_row data i = Some row ->
  nth_error r (i * (m_cols data + 1) + m_cols data) = Some (fzero f64 + gb_base_score b)%f64 /\
  forall f, f < m_cols data -> nth_error r (i * (m_cols data + 1) + f) =
    Some (fold_left (fadd f64) (flat_map (fun t => row_differences m t (nth_error row) (p_missing (gb_params b)) f) ts) (fzero f64)).
Proof.
  intros sh b data m par r ts D HI HT W H i row Li HR.
  destruct (difference_contributions sh b data m par r ts D HI HT (fun t Ht => proj1 (W t Ht)) H i row Li HR) as [B C]. split; auto.
  rewrite B. f_equal.
  replace (flat_map _ ts) with (@nil F64); auto. clear - W. induction ts as [|t ts IH]; auto.
  cbn [flat_map]. rewrite <- IH by (intros; apply W; right; auto). rewrite row_differences_other; auto.
  intros Q. apply (W t (or_introl eq_refl)) in Q. lia.
Qed.

(** *** Contributions never panic on valid data (the Shapley method apart) *)
Lemma row_method_total : forall m fn, row_method m = Some fn -> m <> CShapley -> forall nodes row missing c,
  well_formed nodes -> valid_row missing (nth_error row) (tree_features nodes) ->
  (forall f, tree_features nodes f -> f < List.length c) -> c <> [] -> exists c', fn nodes row missing c = Some c'.
Proof.
  intros m fn Hm NS nodes row missing c W V F NE. destruct (reps_exists nodes W) as (x & R & R0).
  assert (HF : iheight x < List.length nodes) by (rewrite <- (reps_size _ W _ R R0); apply iheight_size).
  assert (CH : forall i n ch, nth_error nodes i = Some n -> n_is_leaf n = false -> In ch (children n) -> exists m, nth_error nodes ch = Some m).
  { intros i n ch Hn HL Hc. destruct (wf_child _ W i n ch Hn HL Hc) as [_ (m' & Hm' & _)]. eauto. }
  assert (WK : forall delta c, (forall f, tree_features nodes f -> f < List.length c) ->
    (forall i n ch m, nth_error nodes i = Some n -> n_is_leaf n = false -> In ch (children n) -> nth_error nodes ch = Some m -> exists d, delta i n ch = Some d) ->
    exists r, contrib_walk (List.length nodes) nodes row missing delta 0 c = Some r).
  { intros delta c0 F0 D. rewrite <- R0. apply contrib_walk_total; auto. intros; eapply D; eauto. }
  destruct m; try tauto; simpl in Hm; try discriminate; injection Hm as <-.
  - unfold contrib_weight. destruct (wf_root _ W) as (root & -> & _). cbn [bind].
    destruct (add_bias_total c (to64 (n_weight root)) NE) as [c1 H1]. rewrite H1. cbn [bind].
    match goal with |- context [contrib_walk _ _ _ _ ?d _ c1] => destruct (WK d c1) as [[leaf c2] ->]; [| |simpl; eauto] end.
    + rewrite (add_bias_length _ _ _ H1). auto.
    + intros i n ch m Hn HL Hc ->. simpl. eauto.
  - unfold contrib_branch_difference.
    match goal with |- context [contrib_walk _ _ _ _ ?d _ c] => destruct (WK d c) as [[leaf c2] ->]; auto; [|simpl; eauto] end.
    intros i n ch m Hn HL Hc Hm. destruct (_ && _); eauto. unfold other_child. rewrite Hm.
    destruct (CH i n (n_left n) Hn HL) as [l Hl]; [simpl; auto|]. destruct (CH i n (n_right n) Hn HL) as [r Hr]; [simpl; auto|].
    destruct (_ =? _); rewrite ?Hr, ?Hl; simpl; eauto.
  - unfold contrib_midpoint_difference.
    match goal with |- context [contrib_walk _ _ _ _ ?d _ c] => destruct (WK d c) as [[leaf c2] ->]; auto; [|simpl; eauto] end.
    intros i n ch m Hn HL Hc Hm. rewrite Hm. cbn [bind]. destruct (_ && _); eauto. unfold other_child.
    destruct (CH i n (n_left n) Hn HL) as [l Hl]; [simpl; auto|]. destruct (CH i n (n_right n) Hn HL) as [r Hr]; [simpl; auto|].
    destruct (_ =? _); rewrite ?Hr, ?Hl; simpl; eauto.
  - unfold contrib_mode_difference.
    match goal with |- context [contrib_walk _ _ _ _ ?d _ c] => destruct (WK d c) as [[leaf c2] ->]; auto; [|simpl; eauto] end.
    intros i n ch m Hn HL Hc Hm. destruct (_ && _); eauto. rewrite Hm.
    destruct (CH i n (n_left n) Hn HL) as [l Hl]; [simpl; auto|]. destruct (CH i n (n_right n) Hn HL) as [r Hr]; [simpl; auto|].
    rewrite Hl, Hr; simpl; eauto.
Qed.

Lemma average_total : forall nodes ws row missing c, well_formed nodes -> distribute_leaf_weights nodes = Some ws ->
  valid_row missing (nth_error row) (tree_features nodes) ->
  (forall f, tree_features nodes f -> f < List.length c) -> c <> [] -> exists c', contrib_average nodes row ws missing c = Some c'.
Proof.
  intros nodes ws row missing c W HD V F NE. destruct (reps_exists nodes W) as (x & R & R0).
  assert (HF : iheight x < List.length nodes) by (rewrite <- (reps_size _ W _ R R0); apply iheight_size).
  destruct (distribute_wf nodes x W R R0) as (ws' & HD' & LW & _). assert (ws' = ws) by congruence. subst ws'.
  unfold contrib_average. destruct (nth_error_lt ws (i := 0)) as [w0 ->]; [rewrite LW; destruct (wf_root _ W) as (root & HR0 & _); eapply nth_error_Some_lt; eauto|]. cbn [bind].
  destruct (add_bias_total c w0 NE) as [c1 H1]. rewrite H1. cbn [bind]. 
  match goal with |- context [contrib_walk _ _ _ _ ?d _ c1] => destruct (contrib_walk_total nodes row missing d x c1 R) with (fuel := List.length nodes) as [[leaf c2] HW]; auto end.
  - intros i n ch m _ Hn HL Hc Hm. destruct (nth_error_lt ws (i := i)) as [wi ->]; [rewrite LW; eapply nth_error_Some_lt; eauto|].
    destruct (nth_error_lt ws (i := ch)) as [wc ->]; [rewrite LW; eapply nth_error_Some_lt; eauto|]. simpl. eauto.
  - rewrite (add_bias_length _ _ _ H1). auto.
  - rewrite R0 in HW. rewrite HW. simpl. eauto.
Qed.

Lemma probability_total : forall nodes row missing acc c, well_formed nodes ->
  valid_row missing (nth_error row) (tree_features nodes) ->
  (forall f, tree_features nodes f -> f < List.length c) -> c <> [] -> exists r, contrib_probability_change nodes row missing acc c = Some r.
Proof.
  intros nodes row missing acc c W V F NE. destruct (reps_exists nodes W) as (x & R & R0).
  assert (HF : iheight x < List.length nodes) by (rewrite <- (reps_size _ W _ R R0); apply iheight_size).
  unfold contrib_probability_change. destruct (wf_root _ W) as (root & -> & _). cbn [bind].
  match goal with |- context [add_bias c ?v] => destruct (add_bias_total c v NE) as [c1 H1] end. rewrite H1. cbn [bind].
  match goal with |- context [contrib_walk _ _ _ _ ?d _ c1] => destruct (contrib_walk_total nodes row missing d x c1 R) with (fuel := List.length nodes) as [[leaf c2] HW]; auto end.
  - intros i n ch m _ Hn HL Hc ->. simpl. eauto.
  - rewrite (add_bias_length _ _ _ H1). auto.
  - rewrite R0 in HW. rewrite HW. simpl. eauto.
Qed.

Lemma nth_error_combine_inv : forall A B (l : list A) (r : list B) k x y, nth_error (combine l r) k = Some (x, y) ->
  nth_error l k = Some x /\ nth_error r k = Some y.
Proof.
  induction l as [|a l IH]; intros [|b r] [|k] x y H; simpl in *; try discriminate; auto. injection H as <- <-. auto.
Qed.
Lemma foldM_total : forall A S (f : S -> A -> option S) (P : S -> Prop) l s,
  (forall s x, P s -> In x l -> exists s', f s x = Some s' /\ P s') -> P s -> exists s', foldM f l s = Some s' /\ P s'.
Proof.
  induction l as [|a l IH]; intros s H Ps; simpl; eauto. destruct (H s a Ps (or_introl eq_refl)) as (s' & -> & P'). simpl.
  apply IH; auto. intros; apply H; auto. right; auto.
Qed.

Theorem contributions_total : forall sh b data m par, m <> CShapley ->
  (m = CProbabilityChange -> p_objective (gb_params b) = LogLoss) ->
  m_index data = seq 0 (m_rows data) ->
  (forall t, In t (gb_trees b) -> well_formed t /\ forall f, tree_features t f -> f < m_cols data) ->
  match gb_pred b with Some n => n <= List.length (gb_trees b) | None => True end ->
  List.length (m_data data) = m_rows data * m_cols data ->
  (forall v, In v (m_data data) -> valid_cell (p_missing (gb_params b)) v) ->
  exists r, predict_contributions sh b data m par = Some r.
Proof.
  intros sh b data m par NS PO HI HT HP LD HV. rewrite predict_contributions_serial.
  assert (TS : exists ts, prediction_trees b = Some ts /\ forall t, In t ts -> In t (gb_trees b)).
  { unfold prediction_trees.
    destruct (slice_total (gb_trees b) (i := 0) (j := match gb_pred b with Some n => n | None => List.length (gb_trees b) end)) as [ts Hts].
    { lia. } { destruct (gb_pred b); lia. }
    exists ts. split; [destruct (gb_pred b); exact Hts|]. intros t Ht. destruct (slice_Some _ _ _ Hts) as (_ & _ & _ & ->). simpl.
    apply in_app_iff. auto. }
  destruct TS as (ts & HTS & INC).
  assert (ROW : forall i, i < m_rows data -> exists row, m_get_row data i = Some row /\ List.length row = m_cols data /\
     forall f, f < m_cols data -> exists v, nth_error row f = Some v /\ valid_cell (p_missing (gb_params b)) v).
  { intros i Hi. destruct (get_row_spec data LD i Hi) as (row & HR & L & V). exists row. split; auto. split; auto.
    intros f Hf. destruct (nth_error row f) as [v|] eqn:E; [|apply nth_error_None in E; lia]. exists v. split; auto.
    apply HV. rewrite V in E by auto. unfold m_get in E. eapply nth_error_In; eauto. }
  assert (VR : forall i row t, i < m_rows data -> m_get_row data i = Some row -> In t ts ->
    well_formed t /\ valid_row (p_missing (gb_params b)) (nth_error row) (tree_features t) /\ forall f, tree_features t f -> f < m_cols data + 1).
  { intros i row t Hi HR Ht. destruct (HT t (INC t Ht)) as [W F]. split; auto. destruct (ROW i Hi) as (row' & HR' & L & V).
    assert (row' = row) by congruence. subst. split; intros f Hf; specialize (F f Hf); auto. lia. }
  assert (FR : forall f : list F64 -> option (list F64), (forall i row, i < m_rows data -> m_get_row data i = Some row -> exists c, f row = Some c) ->
    exists r, for_rows false Seq data f = Some r).
  { intros f Hf. unfold for_rows.
    destruct (mapM_total (fun i => let* r := m_get_row data i in f r) (m_index data)) as [rs Hrs].
    { intros i Hi. rewrite HI in Hi. apply in_seq in Hi. destruct (ROW i) as (row & HR & _); [lia|]. rewrite HR. simpl. eapply Hf; eauto. lia. }
    simpl in Hrs |- *. rewrite Hrs. simpl. eauto. }
  assert (LS : forall v, List.length (row_start (m_cols data) v) = m_cols data + 1) by (intros; apply row_start_length).
  assert (NE : forall c : list F64, List.length c = m_cols data + 1 -> c <> []) by (intros c Hc ->; simpl in Hc; lia).
  assert (AL : forall fn, row_method m = Some fn -> exists r, for_rows false Seq data (contrib_row_alone b (m_cols data) fn) = Some r).
  { intros fn Hfn. apply FR. intros i row Hi HR. unfold contrib_row_alone. rewrite HTS. cbn [bind].
    destruct (foldM_total _ _ (fun c t => fn t row (p_missing (gb_params b)) c) (fun c => List.length c = m_cols data + 1) ts (row_start (m_cols data) (gb_base_score b))) as (c & Hc & _); eauto.
    intros c t Lc Ht. destruct (VR i row t Hi HR Ht) as (W & V & F).
    destruct (row_method_total m fn Hfn NS t row (p_missing (gb_params b)) c W V) as [c' Hc']; auto.
    { intros; rewrite Lc; auto. }
    exists c'. split; auto. rewrite <- Lc. eapply row_method_length; eauto. }
  destruct m; try tauto; simpl; unfold predict_contributions_tree_alone; simpl; try (apply AL; reflexivity).
  - unfold predict_contributions_average. rewrite HTS. cbn [bind].
    destruct (mapM_total distribute_leaf_weights ts) as [ws Hws].
    { intros t Ht. destruct (HT t (INC t Ht)) as [W _]. destruct (reps_exists t W) as (x & R & R0).
      destruct (distribute_wf t x W R R0) as (w & Hw & _). eauto. }
    cbn [bind]. rewrite Hws. cbn [bind]. apply FR. intros i row Hi HR. unfold contrib_row_average. rewrite HTS. cbn [bind].
    match goal with |- context [foldM ?f ?l ?s] => destruct (foldM_total _ _ f (fun c => List.length c = m_cols data + 1) l s) as (c & Hc & _); eauto end.
    intros c [t w] Lc Htw. assert (Ht := in_combine_l _ _ _ _ Htw). destruct (VR i row t Hi HR Ht) as (W & V & F).
    assert (Hw : distribute_leaf_weights t = Some w).
    { apply In_nth_error in Htw. destruct Htw as [k Hk]. destruct (nth_error_combine_inv _ _ _ _ _ _ _ Hk) as [K1 K2].
      destruct (mapMn _ _ Hws k t K1) as (w' & W' & D). congruence. }
    destruct (average_total t w row (p_missing (gb_params b)) c W Hw V) as [c' Hc']; auto.
    { intros; rewrite Lc; auto. }
    exists c'. split; auto. unfold contrib_average in Hc'. inv_bind Hc'. inv_bind Hc'. inv_bind Hc'. destruct v1. injection Hc' as <-.
    apply contrib_walk_length in E1. apply add_bias_length in E0. congruence.
  - rewrite (PO eq_refl). unfold predict_contributions_probability. apply FR. intros i row Hi HR. unfold contrib_row_probability. rewrite HTS. cbn [bind].
    match goal with |- context [foldM ?f ?l ?s] => destruct (foldM_total _ _ f (fun c => List.length (snd c) = m_cols data + 1) l s) as ([a c] & Hc & _); [|apply LS|rewrite Hc; simpl; eauto] end.
    intros [a c] t Lc Ht. destruct (VR i row t Hi HR Ht) as (W & V & F). simpl in Lc.
    destruct (probability_total t row (p_missing (gb_params b)) a c W V) as [[a' c'] Hc']; auto.
    { intros; rewrite Lc; auto. }
    exists (a', c'). split; auto. simpl. unfold contrib_probability_change in Hc'. inv_bind Hc'. inv_bind Hc'. inv_bind Hc'. destruct v1. injection Hc' as _ <-.
    apply contrib_walk_length in E1. apply add_bias_length in E0. congruence.
Qed.

(** *** The methods that follow one quantity from the root to the leaf *)
(** Changes of [phi] over the splits on feature f a row passes. *)
Definition path_changes (nodes : list Node) (phi : nat -> F64) (row : nat -> option F64) (missing : F64) (f : nat) : list F64 :=
  match full_path nodes row missing with
  | Some l => flat_map (fun '(a, b) => match nth_error nodes a with
       | Some n => if n_split_feature n =? f then [(phi b - phi a)%f64] else [] | None => [] end) (steps l)
  | None => []
  end.

Lemma add_bias_spec : forall c v c', add_bias c v = Some c' ->
  forall f, nth_error c' f = if S f =? List.length c then option_map (fun x => (x + v)%f64) (nth_error c f) else nth_error c f.
Proof.
  intros c v c' H f. unfold add_bias in H. destruct (List.length c) as [|k] eqn:E; [discriminate|].
  destruct (add_at_spec _ _ _ _ H) as (x & Hx & _ & N). rewrite N. simpl. destruct (Nat.eqb_spec f k) as [->|_]; auto.
  rewrite Hx. reflexivity.
Qed.

Lemma phi_cells : forall nodes row missing phi delta c leaf c',
  (forall a n b m, nth_error nodes a = Some n -> n_is_leaf n = false -> nth_error nodes b = Some m -> delta a n b = Some (Some (phi b - phi a)%f64)) ->
  contrib_walk (List.length nodes) nodes row missing delta 0 c = Some (leaf, c') ->
  forall f, nth_error c' f = option_map (fun x => fold_left (fadd f64) (path_changes nodes phi (nth_error row) missing f) x) (nth_error c f).
Proof.
  intros nodes row missing phi delta c leaf c' HD H f.
  destruct (contrib_walk_cells _ _ _ _ _ _ _ _ _ H) as (_ & l & Hl & HC). rewrite HC. unfold path_changes, full_path. rewrite Hl. unfold deltas.
  rewrite (flat_map_ext2 _ _ _ (fun '(a, b) => match nth_error nodes a with
       | Some n => if n_split_feature n =? f then [(phi b - phi a)%f64] else [] | None => [] end) (steps l)); auto.
  intros [a b] Hab. destruct (path_steps _ _ _ _ _ _ Hl a b Hab) as (n & ch & Hn & HL & Hch & HB). rewrite Hn.
  destruct (_ =? _); auto. rewrite (HD a n b ch); auto.
Qed.
Lemma path_changes_other : forall nodes phi row missing f, ~ tree_features nodes f -> path_changes nodes phi row missing f = [].
Proof.
  intros nodes phi row missing f H. unfold path_changes. destruct (full_path nodes row missing) as [l|] eqn:E; auto.
  unfold full_path in E. pose proof (path_steps _ _ _ _ _ _ E) as PS. induction (steps l) as [|[a b] st IH]; auto.
  cbn [flat_map]. rewrite IH by (intros; apply PS; right; auto). destruct (PS a b (or_introl eq_refl)) as (n & ch & Hn & HL & _). rewrite Hn.
  destruct (Nat.eqb_spec (n_split_feature n) f); auto. exfalso. apply H. exists n. split; [eapply nth_error_In; eauto|auto].
Qed.

(** node weight; average of the leaves under a node *)
Definition weight_at (nodes : list Node) (k : nat) : F64 :=
  match nth_error nodes k with Some n => to64 (n_weight n) | None => fzero f64 end.
Definition average_at (nodes : list Node) (k : nat) : F64 :=
  match average_leaf_weights (List.length nodes) nodes k with Some v => v | None => fzero f64 end.

Lemma iheight_sub : forall x y, In y (isubs x) -> iheight y <= iheight x.
Proof.
  induction x as [n|n mr l IHl r IHr|n m IHm l IHl r IHr]; intros y Hy.
  - destruct Hy as [<-|[]]. auto.
  - destruct Hy as [<-|Hy]; auto. simpl. apply in_app_iff in Hy. destruct Hy as [Hy|Hy]; [apply IHl in Hy|apply IHr in Hy]; lia.
  - destruct Hy as [<-|Hy]; auto. simpl. rewrite !in_app_iff in Hy. destruct Hy as [Hy|[Hy|Hy]]; [apply IHm in Hy|apply IHl in Hy|apply IHr in Hy]; lia.
Qed.

Lemma distribute_is_average : forall nodes ws, well_formed nodes -> distribute_leaf_weights nodes = Some ws ->
  List.length ws = List.length nodes /\ forall k, k < List.length nodes -> nth_error ws k = Some (average_at nodes k).
Proof.
  intros nodes ws W H. destruct (reps_exists nodes W) as (x & R & R0). destruct (distribute_wf nodes x W R R0) as (ws' & H' & L & S).
  assert (ws' = ws) by congruence. subst ws'. split; auto. intros k Hk. destruct (nth_error_lt nodes Hk) as [n Hn].
  destruct (reps_subtree nodes x W R R0 k n Hn) as (y & Hy & <- & _ & RY). rewrite (S y Hy). unfold average_at.
  rewrite (average_reps nodes y RY); auto. pose proof (iheight_sub x y Hy). pose proof (iheight_size x). rewrite (reps_size _ W _ R R0) in H1. lia.
Qed.

Lemma weight_cells : forall nodes row missing c c', contrib_weight nodes row missing c = Some c' -> 
  exists c1, add_bias c (weight_at nodes 0) = Some c1 /\
  forall f, nth_error c' f = option_map (fun x => fold_left (fadd f64) (path_changes nodes (weight_at nodes) (nth_error row) missing f) x) (nth_error c1 f).
Proof.
  intros nodes row missing c c' H. unfold contrib_weight in H. inv_bind H. inv_bind H. inv_bind H. destruct v1 as [leaf c2]. injection H as ->.
  exists v0. unfold weight_at at 1. rewrite E. split; auto. eapply phi_cells; [|exact E1].
  intros a n b m Hn _ Hm. unfold weight_at. rewrite Hn, Hm. reflexivity.
Qed.
Lemma average_cells : forall nodes ws row missing c c', well_formed nodes -> distribute_leaf_weights nodes = Some ws ->
  contrib_average nodes row ws missing c = Some c' -> 
  exists c1, add_bias c (average_at nodes 0) = Some c1 /\
  forall f, nth_error c' f = option_map (fun x => fold_left (fadd f64) (path_changes nodes (average_at nodes) (nth_error row) missing f) x) (nth_error c1 f).
Proof.
  intros nodes ws row missing c c' W HD H. destruct (distribute_is_average nodes ws W HD) as [L N].
  unfold contrib_average in H. inv_bind H. inv_bind H. inv_bind H. destruct v1 as [leaf c2]. injection H as ->.
  exists v0. rewrite N in E by (destruct (wf_root _ W) as (root & HR0 & _); eapply nth_error_Some_lt; eauto). injection E as <-. split; auto.
  eapply phi_cells; [|exact E1].
  intros a n b m Hn _ Hm. cbv beta. rewrite !N by (eapply nth_error_Some_lt; eauto). reflexivity.
Qed.

Definition follows (m : ContributionsMethod) (nodes : list Node) (k : nat) : option F64 :=
  match m with CWeight => Some (weight_at nodes k) | CAverage => Some (average_at nodes k) | _ => None end.

Lemma nth_start : forall cols v f, nth_error (row_start cols v) f =
  if f <? cols then Some (fzero f64) else if f =? cols then Some (fzero f64 + v)%f64 else None.
Proof.
  intros cols v f. unfold row_start. destruct (Nat.ltb_spec f cols).
  - rewrite nth_error_app1 by (rewrite repeat_length; auto). apply nth_error_repeat; auto.
  - rewrite nth_error_app2 by (rewrite repeat_length; auto). rewrite repeat_length. destruct (Nat.eqb_spec f cols) as [->|].
    + rewrite Nat.sub_diag. reflexivity.
    + destruct (f - cols) as [|[|k]] eqn:E; try reflexivity. lia.
Qed.

(** one tree after the other *)
Lemma followed_cells : forall (ts : list (list Node)) phi row missing cols step c0 c,
  (forall t, In t ts -> forall f, tree_features t f -> f < cols) ->
  (forall k t c c', nth_error ts k = Some t -> List.length c = cols + 1 -> step c k t = Some c' -> List.length c' = cols + 1 /\ exists c1, add_bias c (phi t 0) = Some c1 /\
     forall f, nth_error c' f = option_map (fun x => fold_left (fadd f64) (path_changes t (phi t) (nth_error row) missing f) x) (nth_error c1 f)) ->
  List.length c0 = cols + 1 ->
  foldM (fun c '(k, t) => step c k t) (combine (seq 0 (List.length ts)) ts) c0 = Some c ->
  (forall f, f < cols -> nth_error c f = option_map (fun x => fold_left (fadd f64) (flat_map (fun t => path_changes t (phi t) (nth_error row) missing f) ts) x) (nth_error c0 f)) /\
  nth_error c cols = option_map (fun x => fold_left (fadd f64) (map (fun t => phi t 0) ts) x) (nth_error c0 cols).
Proof.
  intros ts phi row missing cols step c0 c HF HS.
  enough (G : forall k0 us c0, (forall k t, nth_error us k = Some t -> nth_error ts (k0 + k) = Some t) -> List.length c0 = cols + 1 ->
    foldM (fun c '(k, t) => step c k t) (combine (seq k0 (List.length us)) us) c0 = Some c ->
    (forall f, f < cols -> nth_error c f = option_map (fun x => fold_left (fadd f64) (flat_map (fun t => path_changes t (phi t) (nth_error row) missing f) us) x) (nth_error c0 f)) /\
    nth_error c cols = option_map (fun x => fold_left (fadd f64) (map (fun t => phi t 0) us) x) (nth_error c0 cols)).
  { intros L H. apply (G 0 ts c0); auto. }
  clear c0. intros k0 us. revert k0. induction us as [|t us IH]; intros k0 c0 Hus L H; simpl in H.
  - injection H as ->. split; [intros f Hf|]; simpl; destruct (nth_error c _); reflexivity.
  - inv_bind H.
    assert (Ht : nth_error ts k0 = Some t) by (rewrite <- (Nat.add_0_r k0); apply Hus; reflexivity).
    destruct (HS k0 t c0 v Ht L E) as (Lv & c1 & Hb & HC).
    destruct (IH (S k0) v) as [I1 I2]; auto.
    { intros k t' Hk. rewrite Nat.add_succ_l, <- Nat.add_succ_r. apply Hus. auto. }
    pose proof (add_bias_spec _ _ _ Hb) as BS. rewrite L in BS. split.
    + intros f Hf. rewrite (I1 f Hf), HC, BS. destruct (Nat.eqb_spec (S f) (cols + 1)); [lia|].
      destruct (nth_error c0 f); simpl; auto. rewrite fold_left_app. reflexivity.
    + rewrite I2, HC, BS. replace (S cols =? cols + 1) with true by (symmetry; apply Nat.eqb_eq; lia).
      rewrite path_changes_other. { destruct (nth_error c0 cols); reflexivity. }
      intros Q. apply (HF t) in Q; [lia|]. eapply nth_error_In; eauto.
Qed.

Lemma combine_fold : forall A S (f : S -> nat -> A -> option S) (l : list A) g, (forall k x s, nth_error l k = Some x -> f s k x = g s x) ->
  forall s, foldM (fun s '(k, x) => f s k x) (combine (seq 0 (List.length l)) l) s = foldM g l s.
Proof.
  intros A S f l g H.
  enough (G : forall us k0 s, (forall k x, nth_error us k = Some x -> nth_error l (k0 + k) = Some x) ->
    foldM (fun s '(k, x) => f s k x) (combine (seq k0 (List.length us)) us) s = foldM g us s).
  { intros s. apply G. auto. }
  induction us as [|a us IH]; intros k0 s Hus; simpl; auto.
  rewrite (H k0 a s) by (rewrite <- (Nat.add_0_r k0); apply Hus; reflexivity). destruct (g s a); simpl; auto. apply IH.
  intros k x Hk. rewrite Nat.add_succ_l, <- Nat.add_succ_r. apply Hus. auto.
Qed.
Lemma combine_fold2 : forall A B S (f : S -> A * B -> option S) (l : list A) (ws : list B) s, List.length ws = List.length l ->
  foldM f (combine l ws) s = foldM (fun s '(k, x) => let* w := nth_error ws k in f s (x, w)) (combine (seq 0 (List.length l)) l) s.
Proof.
  intros A B S f l ws.
  enough (G : forall l us k0 s, List.length us = List.length l -> (forall k x, nth_error us k = Some x -> nth_error ws (k0 + k) = Some x) ->
     foldM f (combine l us) s = foldM (fun s '(k, x) => let* w := nth_error ws k in f s (x, w)) (combine (seq k0 (List.length l)) l) s).
  { intros s L. apply G; auto. }
  clear l. induction l as [|a l IH]; intros [|u us] k0 s L Hus; simpl in *; try discriminate; auto.
  rewrite <- (Nat.add_0_r k0) at 1. rewrite (Hus 0 u eq_refl). simpl. destruct (f s (a, u)); simpl; auto. apply IH; auto.
  intros k x Hk. rewrite Nat.add_succ_l, <- Nat.add_succ_r. apply Hus. auto.
Qed.

(** Weight and Average: every feature gets the changes of the followed quantity over the splits on it,
    the bias gets the root values. *)
Theorem followed_contributions : forall sh b data m par r ts phi, (m = CWeight /\ phi = weight_at \/ m = CAverage /\ phi = average_at) ->
  m_index data = seq 0 (m_rows data) -> prediction_trees b = Some ts ->
  (forall t, In t ts -> well_formed t /\ forall f, tree_features t f -> f < m_cols data) ->
  predict_contributions sh b data m par = Some r -> forall i row, i < m_rows data -> m_get_row data i = Some row ->
  nth_error r (i * (m_cols data + 1) + m_cols data) =
    Some (fold_left (fadd f64) (map (fun t => phi t 0) ts) (fzero f64 + gb_base_score b)%f64) /\
  forall f, f < m_cols data -> nth_error r (i * (m_cols data + 1) + f) =
    Some (fold_left (fadd f64) (flat_map (fun t => path_changes t (phi t) (nth_error row) (p_missing (gb_params b)) f) ts) (fzero f64)).
Proof.
  intros sh b data m par r ts phi HM HI HT W H i row Li HR.
  destruct (contributions_rows _ _ _ _ _ _ HI H i row Li HR) as (c & Hc & Hs).
  assert (CELLS : (forall f, f < m_cols data -> nth_error c f = option_map (fun x => fold_left (fadd f64) (flat_map (fun t => path_changes t (phi t) (nth_error row) (p_missing (gb_params b)) f) ts) x) (nth_error (row_start (m_cols data) (gb_base_score b)) f)) /\
    nth_error c (m_cols data) = option_map (fun x => fold_left (fadd f64) (map (fun t => phi t 0) ts) x) (nth_error (row_start (m_cols data) (gb_base_score b)) (m_cols data))).
  { destruct HM as [[-> ->]|[-> ->]].
    - simpl in Hc. unfold contrib_row_alone in Hc. rewrite HT in Hc. cbn [bind] in Hc.
      rewrite <- (combine_fold _ _ (fun c _ t => contrib_weight t row (p_missing (gb_params b)) c) ts) in Hc by auto.
      apply (followed_cells ts weight_at row (p_missing (gb_params b)) (m_cols data) (fun c _ t => contrib_weight t row (p_missing (gb_params b)) c)); auto using row_start_length.
      { intros t Ht. apply (W t Ht). }
      intros k t c1 c2 Hk L Hst. split; [rewrite (row_method_length CWeight _ eq_refl _ _ _ _ _ Hst); auto|]. apply weight_cells; auto.
    - simpl in Hc. rewrite HT in Hc. cbn [bind] in Hc. inv_bind Hc. unfold contrib_row_average in Hc. rewrite HT in Hc. cbn [bind] in Hc.
      rewrite combine_fold2 in Hc by (apply mapM_length in E; auto).
      refine (followed_cells ts average_at row (p_missing (gb_params b)) (m_cols data) (fun c k t => let* w := nth_error v k in contrib_average t row w (p_missing (gb_params b)) c) _ _ _ _ _ Hc); auto using row_start_length.
      { intros t Ht. apply (W t Ht). }
      intros k t c1 c2 Hk L Hst. destruct (mapMn _ _ E k t Hk) as (w & Hw & HD). rewrite Hw in Hst. cbn [bind] in Hst.
      split; [|eapply average_cells; eauto; apply W; eapply nth_error_In; eauto].
      unfold contrib_average in Hst. inv_bind Hst. inv_bind Hst. inv_bind Hst. destruct v2. injection Hst as <-.
      apply contrib_walk_length in E2. apply add_bias_length in E1. congruence. }
  destruct CELLS as [C1 C2]. split.
  - rewrite <- (slice_nth _ _ _ Hs) by lia. rewrite C2, nth_start, Nat.ltb_irrefl, Nat.eqb_refl. reflexivity.
  - intros f Hf. rewrite <- (slice_nth _ _ _ Hs) by lia. rewrite C1, nth_start by auto. replace (f <? m_cols data) with true by (symmetry; apply Nat.ltb_lt; auto). reflexivity.
Qed.

(** The average of a leaf is its weight, that of an inner node the cover-weighted mean of its children's. *)
Lemma average_at_eq : forall nodes k n, well_formed nodes -> nth_error nodes k = Some n ->
  average_at nodes k =
    if n_is_leaf n then to64 (n_weight n)
    else let share c := match nth_error nodes c with Some m => (to64 (n_hess m) * average_at nodes c)%f64 | None => fzero f64 end in
         ((if has_missing_branch n then share (n_left n) + share (n_right n) + share (n_missing n)
           else share (n_left n) + share (n_right n)) / to64 (n_hess n))%f64.
Proof.
  intros nodes k n W Hn. destruct (reps_exists nodes W) as (x & R & R0).
  destruct (reps_subtree nodes x W R R0 k n Hn) as (y & Hy & Ey & Ry & RY).
  assert (HS : forall z, In z (isubs x) -> reps nodes z -> average_at nodes (inum z) = iavg z).
  { intros z Hz RZ. unfold average_at. rewrite (average_reps nodes z RZ); auto. pose proof (iheight_sub x z Hz). pose proof (iheight_size x).
    rewrite (reps_size _ W _ R R0) in H0. lia. }
  assert (TR : forall z y, In y (isubs x) -> In z (isubs y) -> In z (isubs x)).
  { clear. intros z y. induction x as [n|n mr l IHl r IHr|n m IHm l IHl r IHr]; intros H1 H2.
    - destruct H1 as [<-|[]]. auto.
    - destruct H1 as [<-|H1]; auto. simpl. right. apply in_app_iff in H1. apply in_app_iff. tauto.
    - destruct H1 as [<-|H1]; auto. simpl. right. rewrite !in_app_iff in *. tauto. }
  assert (SELF : forall z, In z (isubs z)) by (intros []; simpl; auto).
  rewrite <- Ey, (HS y Hy RY). destruct y as [n0|n0 mr l r|n0 m l r]; simpl in Ry; subst n0.
  - simpl in RY. destruct RY as [_ ->]. reflexivity.
  - simpl in RY. destruct RY as (H1 & H2 & H3 & H4 & H5 & H6 & H7). rewrite H2, (has_missing_IB2 n mr l r H3 H4 H5), H3, H4.
    cbv zeta beta. rewrite (reps_root _ _ H6), (reps_root _ _ H7).
    rewrite (HS l), (HS r); auto; try reflexivity; (eapply TR; [exact Hy|]); simpl; right; apply in_app_iff; auto.
  - simpl in RY. destruct RY as (H1 & H2 & H3 & H4 & H5 & H6 & H7 & H8 & H9 & H10). rewrite H2, (has_missing_IB3 n H6 H7), H3, H4, H5.
    cbv zeta beta. rewrite (reps_root _ _ H8), (reps_root _ _ H9), (reps_root _ _ H10).
    rewrite (HS l), (HS r), (HS m); auto; try reflexivity; (eapply TR; [exact Hy|]); simpl; right; rewrite !in_app_iff; auto.
Qed.

(** ProbabilityChange: the quantity followed is the probability at the log-odds reached so far. *)
Definition prob_at (acc : F64) (nodes : list Node) (k : nat) : F64 :=
  match nth_error nodes k with Some n => odds (to64 (n_weight n) + acc)%f64 | None => fzero f64 end.
Fixpoint prob_changes (ts : list (list Node)) (acc : F64) (row : nat -> option F64) (missing : F64) (f : nat) : list F64 :=
  match ts with
  | [] => []
  | t :: ts =>
      path_changes t (prob_at acc t) row missing f ++
      match walk (List.length t) t row missing 0 with
      | Some leaf => prob_changes ts (acc + to64 (n_weight leaf))%f64 row missing f
      | None => []
      end
  end.
Lemma prob_cells : forall nodes row missing acc c a' c', contrib_probability_change nodes row missing acc c = Some (a', c') ->
  (exists leaf, walk (List.length nodes) nodes (nth_error row) missing 0 = Some leaf /\ a' = (acc + to64 (n_weight leaf))%f64) /\
  exists c1 v, add_bias c v = Some c1 /\
  forall f, nth_error c' f = option_map (fun x => fold_left (fadd f64) (path_changes nodes (prob_at acc nodes) (nth_error row) missing f) x) (nth_error c1 f).
Proof.
  intros nodes row missing acc c a' c' H. unfold contrib_probability_change in H. inv_bind H. inv_bind H. inv_bind H. destruct v1 as [leaf c2]. injection H as <- ->.
  split. { exists leaf. split; auto. apply (contrib_walk_cells _ _ _ _ _ _ _ _ _ E1). }
  eexists _, _. split; [exact E0|]. eapply phi_cells; [|exact E1].
  intros a n b m Hn _ Hm. unfold prob_at. rewrite Hn, Hm. reflexivity.
Qed.
Theorem probability_contributions : forall sh b data par r ts,
  m_index data = seq 0 (m_rows data) -> prediction_trees b = Some ts ->
  predict_contributions sh b data CProbabilityChange par = Some r -> forall i row, i < m_rows data -> m_get_row data i = Some row ->
  forall f, f < m_cols data -> nth_error r (i * (m_cols data + 1) + f) =
    Some (fold_left (fadd f64) (prob_changes ts (gb_base_score b) (nth_error row) (p_missing (gb_params b)) f) (fzero f64)).
Proof.
  intros sh b data par r ts HI HT H i row Li HR f Hf.
  destruct (contributions_rows _ _ _ _ _ _ HI H i row Li HR) as (c & Hc & Hs).
  rewrite <- (slice_nth _ _ _ Hs) by lia. simpl in Hc. destruct (p_objective (gb_params b)); [|discriminate].
  unfold contrib_row_probability in Hc. rewrite HT in Hc. cbn [bind] in Hc. inv_bind Hc. destruct v as [a c1]. injection Hc as ->.
  assert (G : forall ts acc c0 a c, List.length c0 = m_cols data + 1 ->
    foldM (fun '(acc, c) t => contrib_probability_change t row (p_missing (gb_params b)) acc c) ts (acc, c0) = Some (a, c) ->
    nth_error c f = option_map (fun x => fold_left (fadd f64) (prob_changes ts acc (nth_error row) (p_missing (gb_params b)) f) x) (nth_error c0 f)).
  { clear - Hf. induction ts as [|t ts IH]; intros acc c0 a c L H; simpl in H.
    - injection H as _ ->. simpl. destruct (nth_error c f); reflexivity.
    - inv_bind H. destruct v as [a1 c1]. destruct (prob_cells _ _ _ _ _ _ _ E) as ((leaf & HW & ->) & c2 & v & HB & HC).
      assert (L1 : List.length c1 = m_cols data + 1).
      { unfold contrib_probability_change in E. inv_bind E. inv_bind E. inv_bind E. destruct v2. injection E as _ ->.
        apply contrib_walk_length in E2. apply add_bias_length in E1. congruence. }
      rewrite (IH _ _ _ _ L1 H), HC, (add_bias_spec _ _ _ HB).
      destruct (Nat.eqb_spec (S f) (List.length c0)); [lia|]. cbn [prob_changes]. rewrite HW.
      destruct (nth_error c0 f); simpl; auto. rewrite fold_left_app. reflexivity. }
  rewrite (G _ _ _ _ _ (row_start_length _ _) E), nth_start. replace (f <? m_cols data) with true by (symmetry; apply Nat.ltb_lt; auto). reflexivity.
Qed.
End ContribG.
