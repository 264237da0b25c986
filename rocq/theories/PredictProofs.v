(** Predictions: schedules do not matter, rows are independent, nothing panics. *)
From Coq Require Import List Arith Lia Bool String.
From Verif Require Import Prelude Float Data DataProofs Utils Binning Histogram HistogramProofs Node Splitter Tree TreeWf
  Objective Metric Sampler Contrib Booster.
Import ListNotations.

Lemma mapMn : forall A B (f : A -> option B) l r, mapM f l = Some r ->
  forall i x, nth_error l i = Some x -> exists y, nth_error r i = Some y /\ f x = Some y.
Proof. intros A B f l r H i x Hx. eapply mapM_nth; eauto. Qed.
Arguments mapMn {A B} f l {r} H i x Hx.

Lemma F2_length : forall A B (R : A -> B -> Prop) l r, Forall2 R l r -> List.length l = List.length r.
Proof. induction 1; simpl; auto. Qed.
Arguments F2_length {A B R l r} _.

Section Predict.
Context {FS : Floats}.

(** *** Schedules *)
Lemma any_serial : forall par sh nodes data missing, tree_predict_any par sh nodes data missing = tree_predict nodes data missing.
Proof. intros [] sh nodes data missing; simpl; auto. unfold tree_predict_parallel. rewrite par_map_mapM. reflexivity. Qed.

Definition preds_after (missing : F64) (ts : list (list Node)) (data : Matrix F64) (y0 : list F64) : option (list F64) :=
  foldM (fun acc t => let* pr := tree_predict t data missing in Some (add_preds acc pr)) ts y0.

Lemma foldM_combine_seq : forall A S (f : S -> A -> option S) l k s,
  foldM (fun s '(_, x) => f s x) (combine (seq k (List.length l)) l) s = foldM f l s.
Proof.
  induction l as [|a l IH]; intros k s; simpl; auto. destruct (f s a); simpl; auto.
Qed.

Lemma foldM_ext : forall A S (f g : S -> A -> option S) l s, (forall s x, In x l -> f s x = g s x) -> foldM f l s = foldM g l s.
Proof.
  induction l as [|a l IH]; intros s H; simpl; auto. rewrite H by (left; auto). destruct (g s a); simpl; auto.
  apply IH. intros; apply H; right; auto.
Qed.

Lemma predict_serial : forall shs b data par,
  predict shs b data par =
  (let* ts := prediction_trees b in preds_after (p_missing (gb_params b)) ts data (repeat (gb_base_score b) (m_rows data))).
Proof.
  intros shs b data par. unfold predict. destruct (prediction_trees b) as [ts|]; simpl; auto.
  unfold preds_after. rewrite <- (foldM_combine_seq _ _ _ ts 0).
  apply foldM_ext. intros s [k t] _. rewrite any_serial. reflexivity.
Qed.

Lemma for_rows_serial : forall A par sh data (f : list F64 -> option (list A)), for_rows par sh data f = for_rows false Seq data f.
Proof. intros A [] sh data f; unfold for_rows; auto. rewrite par_map_mapM. reflexivity. Qed.

Theorem predict_contributions_serial : forall sh b data m par,
  predict_contributions sh b data m par = predict_contributions Seq b data m false.
Proof.
  intros sh b data m par. unfold predict_contributions, predict_contributions_average, predict_contributions_probability,
    predict_contributions_tree_alone.
  destruct m; simpl; rewrite ?(for_rows_serial _ par sh); auto.
  - destruct (prediction_trees b) as [ts|]; simpl; auto.
    replace (if par then par_map sh distribute_leaf_weights ts else mapM distribute_leaf_weights ts) with (mapM distribute_leaf_weights ts).
    + destruct (mapM distribute_leaf_weights ts); simpl; auto. apply for_rows_serial.
    + destruct par; auto. rewrite par_map_mapM. reflexivity.
Qed.

Definition leaf_nums (missing : F64) (data : Matrix F64) (t : list Node) : option (list nat) :=
  mapM (fun i => let* n := predict_leaf t data i missing in Some (n_num n)) (m_index data).
Lemma predict_leaf_indices_serial : forall shs b data,
  predict_leaf_indices shs b data =
  (let* ts := prediction_trees b in let* ls := mapM (leaf_nums (p_missing (gb_params b)) data) ts in Some (List.concat ls)).
Proof.
  intros shs b data. unfold predict_leaf_indices. destruct (prediction_trees b) as [ts|]; simpl; auto.
  f_equal.
  assert (G : forall k, mapM (fun '(k, nodes) => tree_predict_leaf_indices (shs k) nodes data (p_missing (gb_params b)))
    (combine (seq k (List.length ts)) ts) = mapM (leaf_nums (p_missing (gb_params b)) data) ts).
  { induction ts as [|t ts IH]; intros k; simpl; auto. rewrite IH. unfold tree_predict_leaf_indices, leaf_nums. rewrite par_map_mapM. reflexivity. }
  rewrite G. reflexivity.
Qed.

(** *** One row at a time *)
Definition score (missing : F64) (ts : list (list Node)) (row : nat -> option F64) (base : F64) : option F64 :=
  foldM (fun acc t => let* n := walk (List.length t) t row missing 0 in Some (acc + to64 (n_weight n))%f64) ts base.

Lemma add_preds_same : forall a b, List.length a = List.length b -> add_preds a b = map (fun '(a, b) => (a + b)%f64) (combine a b).
Proof. intros a b H. unfold add_preds. rewrite <- H, skipn_all. apply app_nil_r. Qed.
Lemma add_preds_length : forall a b, List.length (add_preds a b) = List.length a.
Proof. intros. unfold add_preds. rewrite app_length, map_length, combine_length, skipn_length. lia. Qed.

Lemma preds_after_rows : forall missing data ts acc, List.length acc = List.length (m_index data) ->
  preds_after missing ts data acc = mapM (fun '(i, a) => score missing ts (fun f => m_get data i f) a) (combine (m_index data) acc).
Proof.
  intros missing data. induction ts as [|t ts IH]; intros acc L.
  - simpl. unfold score. simpl. revert L. generalize (m_index data). clear.
    induction acc as [|a acc IH]; intros [|i l] L; simpl in *; try discriminate; auto.
    rewrite <- IH by lia. reflexivity.
  - simpl. unfold preds_after in *. simpl. unfold tree_predict at 1.
    destruct (mapM (fun i => let* n := predict_leaf t data i missing in Some (to64 (n_weight n))) (m_index data)) as [pr|] eqn:E; simpl.
    + assert (LP := mapM_length _ _ E).
      rewrite IH by (rewrite add_preds_length; auto).
      rewrite add_preds_same by lia. clear IH.
      unfold predict_leaf in E. revert acc pr E L LP. generalize (m_index data).
      induction l as [|i l IH]; intros [|a acc] [|p pr] E L LP; simpl in *; try discriminate; auto.
      inv_bind E. inv_bind E. inv_bind E0. injection E as <- <-. injection E0 as <-.
      unfold score at 1 3. simpl. rewrite E2. simpl.
      match goal with |- bind ?a _ = bind ?b _ => change a with b; destruct b end; simpl; auto.
      rewrite (IH acc _ E1) by lia. reflexivity.
    + symmetry. destruct (mapM (fun '(i, a) => score missing (t :: ts) (fun f => m_get data i f) a) (combine (m_index data) acc)) as [r|] eqn:F; auto.
      exfalso. assert (X : exists pr, mapM (fun i => let* n := predict_leaf t data i missing in Some (to64 (n_weight n))) (m_index data) = Some pr).
      { apply mapM_total. intros i Hi. apply In_nth_error in Hi. destruct Hi as [k Hk].
        destruct (nth_error acc k) as [a|] eqn:Ha.
        - destruct (mapMn _ _ F k (i, a)) as (s & _ & Hs); [apply nth_error_combine; auto|].
          unfold score in Hs. simpl in Hs. inv_bind Hs. inv_bind E0. unfold predict_leaf. rewrite E1. simpl. eauto.
        - apply nth_error_None in Ha. apply nth_error_Some_lt in Hk. lia. }
      destruct X. congruence.
Qed.

Lemma combine_repeat : forall A B (l : list A) (b : B) n, List.length l = n -> combine l (repeat b n) = map (fun x => (x, b)) l.
Proof. induction l as [|a l IH]; intros b [|n] H; simpl in *; try discriminate; auto. f_equal. auto. Qed.
Lemma mapM_map2 : forall A B C (g : A -> B) (f : B -> option C) l, mapM f (map g l) = mapM (fun x => f (g x)) l.
Proof. induction l as [|a l IH]; simpl; auto. destruct (f (g a)); simpl; auto. rewrite IH. reflexivity. Qed.

Theorem predict_rows : forall shs b data par, List.length (m_index data) = m_rows data ->
  predict shs b data par =
  (let* ts := prediction_trees b in
   mapM (fun i => score (p_missing (gb_params b)) ts (fun f => m_get data i f) (gb_base_score b)) (m_index data)).
Proof.
  intros shs b data par L. rewrite predict_serial. destruct (prediction_trees b) as [ts|]; simpl; auto.
  rewrite preds_after_rows by (rewrite repeat_length; auto).
  rewrite combine_repeat by auto. rewrite mapM_map2. reflexivity.
Qed.

(** *** C28 *)
Lemma score_leaves : forall missing row ts base v, score missing ts row base = Some v ->
  exists leaves, Forall2 (fun t n => walk (List.length t) t row missing 0 = Some n) ts leaves /\
    v = fold_left (fun acc n => (acc + to64 (n_weight n))%f64) leaves base.
Proof.
  intros missing row. unfold score. induction ts as [|t ts IH]; intros base v H; simpl in H.
  - injection H as <-. exists []. split; auto.
  - inv_bind H. inv_bind E. injection E as <-. apply IH in H. destruct H as (leaves & F & ->).
    exists (v1 :: leaves). split; auto.
Qed.
Lemma score_total : forall missing row ts base, (forall t, In t ts -> exists n, walk (List.length t) t row missing 0 = Some n) ->
  exists v, score missing ts row base = Some v.
Proof.
  intros missing row. unfold score. induction ts as [|t ts IH]; intros base H; simpl; eauto.
  destruct (H t (or_introl eq_refl)) as [n Hn]. rewrite Hn. simpl. apply IH. intros; apply H; right; auto.
Qed.

Lemma walk_in : forall nodes row missing fuel i n, walk fuel nodes row missing i = Some n ->
  n_is_leaf n = true /\ exists j, nth_error nodes j = Some n.
Proof.
  induction fuel as [|f IH]; intros i n H; simpl in H; [discriminate|].
  inv_bind H. destruct (n_is_leaf v) eqn:EL; [injection H as <-; eauto|].
  inv_bind H. inv_bind H. eauto.
Qed.

Lemma concat_nth : forall A (ls : list (list A)) n k i l x, (forall l, In l ls -> List.length l = n) ->
  nth_error ls k = Some l -> nth_error l i = Some x -> nth_error (List.concat ls) (k * n + i) = Some x.
Proof.
  induction ls as [|l0 ls IH]; intros n k i l x H Hk Hi; simpl in *; [destruct k; discriminate|].
  assert (L0 : List.length l0 = n) by (apply H; auto).
  destruct k as [|k]; simpl in *.
  - injection Hk as ->. rewrite nth_error_app1; auto. eapply nth_error_Some_lt; eauto.
  - rewrite nth_error_app2 by lia. replace (n + k * n + i - List.length l0) with (k * n + i) by lia. eapply IH; eauto.
Qed.

Theorem predict_is_leaf_sum : forall shs shs' b data par preds,
  m_index data = seq 0 (m_rows data) -> (forall t, In t (gb_trees b) -> well_formed t) ->
  predict shs b data par = Some preds ->
  exists ts ls, ts = firstn (match gb_pred b with Some n => n | None => List.length (gb_trees b) end) (gb_trees b) /\
    predict_leaf_indices shs' b data = Some ls /\ List.length preds = m_rows data /\
    List.length ls = List.length ts * m_rows data /\
    forall i, i < m_rows data -> exists leaves,
      List.length leaves = List.length ts /\
      (forall k t n, nth_error ts k = Some t -> nth_error leaves k = Some n ->
         n_is_leaf n = true /\ exists j, nth_error ls (k * m_rows data + i) = Some j /\ nth_error t j = Some n) /\
      nth_error preds i = Some (fold_left (fun acc n => (acc + to64 (n_weight n))%f64) leaves (gb_base_score b)).
Proof.
  intros shs shs' b data par preds HI WF H.
  rewrite predict_rows in H by (rewrite HI; apply seq_length).
  rewrite predict_leaf_indices_serial.
  unfold prediction_trees in *. destruct (slice _ _ _) as [ts|] eqn:ES; simpl in *; [|discriminate].
  assert (Ets : ts = firstn (match gb_pred b with Some n => n | None => List.length (gb_trees b) end) (gb_trees b)).
  { unfold slice in ES. destruct (_ && _)%bool; [|discriminate]. injection ES as <-. rewrite Nat.sub_0_r. reflexivity. }
  assert (WFT : forall t, In t ts -> well_formed t).
  { intros t Ht. apply WF. rewrite Ets in Ht. rewrite <- (firstn_skipn (match gb_pred b with Some n => n | None => List.length (gb_trees b) end) (gb_trees b)). apply in_app_iff. auto. }
  assert (LP := mapM_length _ _ H). rewrite HI, seq_length in LP.
  assert (TOT : exists ls, mapM (leaf_nums (p_missing (gb_params b)) data) ts = Some ls).
  { apply mapM_total. intros t Ht. unfold leaf_nums. apply mapM_total. intros i Hi.
    apply In_nth_error in Hi. destruct Hi as [k Hk].
    destruct (mapMn _ _ H k i Hk) as (v & _ & Hs). apply score_leaves in Hs. destruct Hs as (leaves & F & _).
    apply In_nth_error in Ht. destruct Ht as [m Hm]. destruct (Forall2_nth_l F m Hm) as (n & _ & Hn).
    unfold predict_leaf. rewrite Hn. simpl. eauto. }
  destruct TOT as [ls HL]. rewrite HL. simpl.
  assert (LL : forall l, In l ls -> List.length l = m_rows data).
  { intros l Hl. apply In_nth_error in Hl. destruct Hl as [k Hk]. apply mapM_Forall2 in HL.
    destruct (Forall2_nth_r HL k Hk) as (t & _ & Ht). unfold leaf_nums in Ht. apply mapM_length in Ht.
    rewrite HI, seq_length in Ht. auto. }
  exists ts, (List.concat ls). split; auto. split; auto. split; auto. split.
  { assert (L := mapM_length _ _ HL). rewrite <- L. clear - LL. induction ls as [|l ls IH]; simpl; auto.
    rewrite app_length, IH by (intros; apply LL; right; auto). rewrite (LL l) by (left; auto). reflexivity. }
  intros i Hi.
  assert (Hk : nth_error (m_index data) i = Some i) by (rewrite HI; apply nth_error_seq; auto).
  destruct (mapMn _ _ H i i Hk) as (v & Hv & Hs). apply score_leaves in Hs. destruct Hs as (leaves & F & ->).
  exists leaves. split; [apply (eq_sym (F2_length F))|]. split; auto.
  intros k t n Ht Hn.
  destruct (Forall2_nth_l F k Ht) as (n' & Hn' & HW). assert (n' = n) by congruence. subst n'.
  destruct (walk_in _ _ _ _ _ _ HW) as [EL [j Hj]]. split; auto.
  destruct (mapMn _ _ HL k t Ht) as (l & Hl & HLN). unfold leaf_nums in HLN.
  destruct (mapMn _ _ HLN i i Hk) as (j' & Hj' & HP). unfold predict_leaf in HP. rewrite HW in HP. simpl in HP. injection HP as <-.
  exists (n_num n). split; [eapply concat_nth; eauto|].
  assert (W : well_formed t) by (apply WFT; eapply nth_error_In; eauto).
  rewrite (wf_num _ W _ _ Hj). auto.
Qed.

(** *** C29 *)
Lemma walk_ext : forall nodes row row' missing fuel i, (forall f, row f = row' f) ->
  walk fuel nodes row missing i = walk fuel nodes row' missing i.
Proof.
  induction fuel as [|f IH]; intros i H; simpl; auto. destruct (nth_error nodes i) as [n|]; simpl; auto.
  destruct (n_is_leaf n); auto. rewrite H. destruct (row' (n_split_feature n)) as [v|]; simpl; auto.
  destruct (get_child_idx n v missing); simpl; auto.
Qed.
Lemma score_ext : forall missing ts row row' base, (forall f, row f = row' f) -> score missing ts row base = score missing ts row' base.
Proof.
  intros. unfold score. apply foldM_ext. intros s t _. rewrite (walk_ext t row row'); auto.
Qed.

Theorem predict_row_only : forall shs shs' b data data' par par' i i' p p',
  m_index data = seq 0 (m_rows data) -> m_index data' = seq 0 (m_rows data') ->
  i < m_rows data -> i' < m_rows data' -> (forall f, m_get data i f = m_get data' i' f) ->
  predict shs b data par = Some p -> predict shs' b data' par' = Some p' ->
  nth_error p i = nth_error p' i'.
Proof.
  intros shs shs' b data data' par par' i i' p p' I1 I2 L1 L2 HR H1 H2.
  rewrite predict_rows in H1 by (rewrite I1; apply seq_length).
  rewrite predict_rows in H2 by (rewrite I2; apply seq_length).
  destruct (prediction_trees b) as [ts|]; simpl in *; [|discriminate].
  destruct (mapMn _ _ H1 i i) as (v & -> & Hv); [rewrite I1; apply nth_error_seq; auto|].
  destruct (mapMn _ _ H2 i' i') as (v' & -> & Hv'); [rewrite I2; apply nth_error_seq; auto|].
  rewrite (score_ext _ _ _ (fun f => m_get data' i' f)) in Hv by auto. congruence.
Qed.

Lemma concat_nth_len : forall A (ls : list (list A)) n k i l, (forall l, In l ls -> List.length l = n) ->
  nth_error ls k = Some l -> i < n -> nth_error (List.concat ls) (k * n + i) = nth_error l i.
Proof.
  intros A ls n k i l H Hk Hi.
  assert (List.length l = n) by (apply H; eapply nth_error_In; eauto).
  destruct (nth_error l i) as [x|] eqn:E; [eapply concat_nth; eauto|]. apply nth_error_None in E. lia.
Qed.

Theorem leaf_indices_row_only : forall shs shs' b data data' i i' p p' k,
  m_index data = seq 0 (m_rows data) -> m_index data' = seq 0 (m_rows data') ->
  i < m_rows data -> i' < m_rows data' -> (forall f, m_get data i f = m_get data' i' f) ->
  predict_leaf_indices shs b data = Some p -> predict_leaf_indices shs' b data' = Some p' ->
  (exists ts, prediction_trees b = Some ts /\ k < List.length ts) ->
  nth_error p (k * m_rows data + i) = nth_error p' (k * m_rows data' + i').
Proof.
  intros shs shs' b data data' i i' p p' k I1 I2 L1 L2 HR H1 H2 (ts & ET & LK).
  rewrite predict_leaf_indices_serial in H1, H2. rewrite ET in *. simpl in *.
  inv_bind H1. inv_bind H2. injection H1 as <-. injection H2 as <-.
  destruct (nth_error_lt ts LK) as [t Ht].
  destruct (mapMn _ _ E k t Ht) as (l & Hl & HL). destruct (mapMn _ _ E0 k t Ht) as (l' & Hl' & HL').
  assert (LL : forall l, In l v -> List.length l = m_rows data).
  { intros l0 Hl0. apply In_nth_error in Hl0. destruct Hl0 as [m Hm]. apply mapM_Forall2 in E.
    destruct (Forall2_nth_r E m Hm) as (t0 & _ & Ht0). unfold leaf_nums in Ht0. apply mapM_length in Ht0.
    rewrite I1, seq_length in Ht0. auto. }
  assert (LL' : forall l, In l v0 -> List.length l = m_rows data').
  { intros l0 Hl0. apply In_nth_error in Hl0. destruct Hl0 as [m Hm]. apply mapM_Forall2 in E0.
    destruct (Forall2_nth_r E0 m Hm) as (t0 & _ & Ht0). unfold leaf_nums in Ht0. apply mapM_length in Ht0.
    rewrite I2, seq_length in Ht0. auto. }
  rewrite (concat_nth_len _ _ _ _ _ l LL Hl) by auto.
  rewrite (concat_nth_len _ _ _ _ _ l' LL' Hl') by auto.
  unfold leaf_nums in HL, HL'.
  destruct (mapMn _ _ HL i i) as (x & -> & Hx); [rewrite I1; apply nth_error_seq; auto|].
  destruct (mapMn _ _ HL' i' i') as (x' & -> & Hx'); [rewrite I2; apply nth_error_seq; auto|].
  unfold predict_leaf in Hx, Hx'. rewrite (walk_ext t _ (fun f => m_get data' i' f)) in Hx by auto. congruence.
Qed.

(** contributions: the block of a row *)
Lemma for_rows_row : forall A par sh data (f : list F64 -> option (list A)) n r i row,
  m_index data = seq 0 (m_rows data) -> (forall row c, f row = Some c -> List.length c = n) ->
  for_rows par sh data f = Some r -> i < m_rows data -> m_get_row data i = Some row ->
  exists c, f row = Some c /\ slice r (i * n) (i * n + n) = Some c.
Proof.
  intros A par sh data f n r i row HI HL H Li HR. rewrite for_rows_serial in H. unfold for_rows in H. inv_bind H. injection H as <-.
  destruct (mapMn _ _ E i i) as (c & Hc & Hf); [rewrite HI; apply nth_error_seq; auto|].
  rewrite HR in Hf. simpl in Hf. exists c. split; auto.
  assert (LL : forall l, In l v -> List.length l = n).
  { intros l Hl. apply In_nth_error in Hl. destruct Hl as [m Hm]. apply mapM_Forall2 in E.
    destruct (Forall2_nth_r E m Hm) as (t0 & _ & Ht0). inv_bind Ht0. eauto. }
  assert (Lv : List.length (List.concat v) = List.length v * n).
  { clear - LL. induction v as [|l v IH]; simpl; auto. rewrite app_length, IH by (intros; apply LL; right; auto).
    rewrite (LL l) by (left; auto). reflexivity. }
  assert (LV := mapM_length _ _ E). rewrite HI, seq_length in LV.
  destruct (slice_total (List.concat v) (i := i * n) (j := i * n + n)) as [s Hs]; [lia|rewrite Lv, LV; nia|].
  rewrite Hs. f_equal. apply list_ext_nth. intros k.
  assert (Lc : List.length c = n) by (apply LL; eapply nth_error_In; eauto).
  destruct (slice_Some _ _ _ Hs) as (_ & _ & Ls & _).
  destruct (Nat.lt_ge_cases k n) as [Hk|Hk].
  - rewrite (slice_nth _ _ _ Hs) by lia. apply concat_nth_len; auto.
  - rewrite (proj2 (nth_error_None _ _)), (proj2 (nth_error_None _ _)); auto; lia.
Qed.

(** *** No panics on valid rows *)
Definition valid_cell (missing v : F64) : Prop := fisnan f64 missing = true \/ fisnan f64 v = false.
Definition valid_row (missing : F64) (row : nat -> option F64) (features : nat -> Prop) : Prop :=
  forall f, features f -> exists v, row f = Some v /\ valid_cell missing v.
Lemma is_missing_valid : forall v missing, valid_cell missing v -> exists m, is_missing v missing = Some m.
Proof.
  intros v missing [H|H]; unfold is_missing; rewrite H; eauto.
  destruct (fisnan f64 missing); eauto.
Qed.
Definition tree_features (nodes : list Node) (f : nat) : Prop := exists n, In n nodes /\ n_is_leaf n = false /\ n_split_feature n = f.

Lemma descend_total : forall nodes row missing x, reps nodes x -> valid_row missing row (tree_features nodes) ->
  exists n, descend x row missing = Some n.
Proof.
  intros nodes row missing. induction x as [n|n mr l IHl r IHr|n m IHm l IHl r IHr]; intros H V; simpl in *; eauto.
  - destruct H as (H1 & H2 & H3 & H4 & H5 & H6 & H7).
    destruct (V (n_split_feature n)) as (v & -> & C).
    { exists n. split; auto. eapply nth_error_In; eauto. }
    simpl. destruct (is_missing_valid v missing C) as [b ->]. simpl.
    destruct b; [destruct mr|destruct (v <? n_split_value n)%f64]; auto.
  - destruct H as (H1 & H2 & H3 & H4 & H5 & H6 & H7 & H8 & H9).
    destruct (V (n_split_feature n)) as (v & -> & C).
    { exists n. split; auto. eapply nth_error_In; eauto. }
    simpl. destruct (is_missing_valid v missing C) as [b ->]. simpl.
    destruct b; [tauto|destruct (v <? n_split_value n)%f64; tauto].
Qed.

Lemma walk_total : forall nodes row missing, well_formed nodes -> valid_row missing row (tree_features nodes) ->
  exists n, walk (List.length nodes) nodes row missing 0 = Some n.
Proof.
  intros nodes row missing W V. destruct (reps_exists nodes W) as (x & R & R0).
  rewrite (walk_wf nodes x row missing W R R0). eapply descend_total; eauto.
Qed.

Theorem predict_total : forall shs b data par,
  m_index data = seq 0 (m_rows data) ->
  (forall t, In t (gb_trees b) -> well_formed t /\ forall f, tree_features t f -> f < m_cols data) ->
  match gb_pred b with Some n => n <= List.length (gb_trees b) | None => True end ->
  List.length (m_data data) = m_rows data * m_cols data ->
  (forall v, In v (m_data data) -> valid_cell (p_missing (gb_params b)) v) ->
  exists preds, predict shs b data par = Some preds /\ List.length preds = m_rows data.
Proof.
  intros shs b data par HI HT HP LD HV. rewrite predict_rows by (rewrite HI; apply seq_length).
  unfold prediction_trees.
  destruct (slice_total (gb_trees b) (i := 0) (j := match gb_pred b with Some n => n | None => List.length (gb_trees b) end)) as [ts Hts].
  { lia. } { destruct (gb_pred b); lia. }
  rewrite Hts. simpl.
  assert (INC : incl ts (gb_trees b)).
  { unfold slice in Hts. destruct (_ && _)%bool; [|discriminate]. injection Hts as <-. simpl. intros t Ht. rewrite Nat.sub_0_r in Ht.
    rewrite <- (firstn_skipn (match gb_pred b with Some n => n | None => List.length (gb_trees b) end) (gb_trees b)). apply in_app_iff. auto. }
  destruct (mapM_total (fun i => score (p_missing (gb_params b)) ts (fun f => m_get data i f) (gb_base_score b)) (m_index data)) as [r Hr].
  - intros i Hi. rewrite HI in Hi. apply in_seq in Hi. apply score_total. intros t Ht.
    destruct (HT t (INC t Ht)) as [W F]. apply walk_total; auto.
    intros f Hf. specialize (F f Hf).
    unfold m_get, m_item_index. destruct (nth_error (m_data data) (1 * i + f * m_rows data)) as [v|] eqn:E.
    + exists v. split; auto. apply HV. eapply nth_error_In; eauto.
    + apply nth_error_None in E. rewrite LD in E. nia.
  - exists r. split; auto. apply mapM_length in Hr. rewrite HI, seq_length in Hr. auto.
Qed.

Theorem leaf_indices_total : forall shs b data,
  m_index data = seq 0 (m_rows data) ->
  (forall t, In t (gb_trees b) -> well_formed t) ->
  (exists preds, predict shs b data false = Some preds) -> exists ls, predict_leaf_indices shs b data = Some ls.
Proof.
  intros shs b data HI WF [p H].
  destruct (predict_is_leaf_sum shs shs b data false p HI WF H) as (ts & ls & _ & E & _). eauto.
Qed.
End Predict.
