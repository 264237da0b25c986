(** Columns no split of the model uses: answers do not depend on them and credit nothing to them
    (any float arithmetic). *)
From Coq Require Import List Arith Lia Bool String.
From Verif Require Import Prelude Float Data DataProofs Utils Binning Histogram HistogramProofs Node Splitter Tree TreeWf PathProofs
  Objective Metric Sampler Contrib Booster PredictProofs ContribProofs.
Import ListNotations.

Section Unused.
Context {FS : Floats}.

Lemma bind_ext : forall A B (x : option A) (f g : A -> option B), (forall a, x = Some a -> f a = g a) -> (let* a := x in f a) = (let* a := x in g a).
Proof. intros A B [a|] f g H; simpl; auto. Qed.
Lemma mapM_ext2 : forall A B (f g : A -> option B) l, (forall a, In a l -> f a = g a) -> mapM f l = mapM g l.
Proof. induction l as [|a l IH]; intros H; simpl; auto. rewrite H by (left; auto). rewrite IH by (intros; apply H; right; auto). reflexivity. Qed.

(** *** Rows that agree on the features of a tree *)
Lemma walk_agree : forall nodes row row' missing, (forall f, tree_features nodes f -> row f = row' f) ->
  forall fuel i, walk fuel nodes row missing i = walk fuel nodes row' missing i.
Proof.
  intros nodes row row' missing H. induction fuel as [|fuel IH]; intros i; simpl; auto.
  destruct (nth_error nodes i) as [n|] eqn:N; simpl; auto. destruct (n_is_leaf n) eqn:L; auto.
  rewrite (H (n_split_feature n)) by (exists n; split; [eapply nth_error_In; eauto|auto]).
  destruct (row' (n_split_feature n)) as [v|]; simpl; auto. destruct (get_child_idx n v missing); simpl; auto.
Qed.
Lemma score_agree : forall missing ts row row' base, (forall t f, In t ts -> tree_features t f -> row f = row' f) ->
  score missing ts row base = score missing ts row' base.
Proof.
  intros missing ts row row' base H. unfold score. apply foldM_ext. intros s t Ht.
  rewrite (walk_agree t row row' missing (fun f Hf => H t f Ht Hf)). reflexivity.
Qed.

Lemma contrib_walk_agree : forall nodes row row' missing delta, (forall f, tree_features nodes f -> nth_error row f = nth_error row' f) ->
  forall fuel i c, contrib_walk fuel nodes row missing delta i c = contrib_walk fuel nodes row' missing delta i c.
Proof.
  intros nodes row row' missing delta H. induction fuel as [|fuel IH]; intros i c; simpl; auto.
  destruct (nth_error nodes i) as [n|] eqn:N; simpl; auto. destruct (n_is_leaf n) eqn:L; auto.
  rewrite (H (n_split_feature n)) by (exists n; split; [eapply nth_error_In; eauto|auto]).
  repeat (apply bind_ext; intros). apply IH.
Qed.
Lemma tree_shap_agree : forall nodes row row' missing, (forall f, tree_features nodes f -> nth_error row f = nth_error row' f) ->
  forall fuel i d p z o f c, tree_shap fuel nodes row missing i d p z o f c = tree_shap fuel nodes row' missing i d p z o f c.
Proof.
  intros nodes row row' missing H. induction fuel as [|fuel IH]; intros i d p z o f c; simpl; auto.
  destruct (nth_error nodes i) as [n|] eqn:N; simpl; auto. apply bind_ext. intros p' _. destruct (n_is_leaf n) eqn:L; auto.
  rewrite (H (n_split_feature n)) by (exists n; split; [eapply nth_error_In; eauto|auto]).
  do 3 (apply bind_ext; intros). apply bind_ext. intros [[[iz io] p1] d1] _.
  apply foldM_ext. intros s [j ci] _. apply bind_ext. intros. apply IH.
Qed.

Lemma row_method_agree : forall m fn, row_method m = Some fn -> forall nodes row row' missing c, List.length row = List.length row' ->
  (forall f, tree_features nodes f -> nth_error row f = nth_error row' f) -> fn nodes row missing c = fn nodes row' missing c.
Proof.
  intros m fn Hm nodes row row' missing c L H.
  destruct m; try discriminate; injection Hm as <-; unfold contrib_weight, contrib_branch_difference, contrib_midpoint_difference,
    contrib_mode_difference, contrib_shapley; repeat (apply bind_ext; intros); rewrite ?L;
    try (rewrite (contrib_walk_agree nodes row row' missing _ H); reflexivity).
  apply tree_shap_agree; auto.
Qed.

Lemma contrib_row_agree : forall b m cols row row', List.length row = List.length row' ->
  (forall ts t f, prediction_trees b = Some ts -> In t ts -> tree_features t f -> nth_error row f = nth_error row' f) ->
  contrib_row b m cols row = contrib_row b m cols row'.
Proof.
  intros b m cols row row' L H.
  assert (A : forall fn, row_method m = Some fn -> contrib_row_alone b cols fn row = contrib_row_alone b cols fn row').
  { intros fn Hf. unfold contrib_row_alone. apply bind_ext. intros ts Hts. apply foldM_ext. intros c t Ht.
    eapply row_method_agree; eauto. }
  destruct m; simpl; try (apply A; reflexivity).
  - do 2 (apply bind_ext; intros). unfold contrib_row_average. apply bind_ext. intros ts Hts. apply foldM_ext. intros c [t w] Ht.
    apply in_combine_l in Ht. unfold contrib_average. repeat (apply bind_ext; intros).
    rewrite (contrib_walk_agree t row row') by (intros; eauto). reflexivity.
  - destruct (p_objective _); auto. unfold contrib_row_probability. apply bind_ext. intros ts Hts.
    replace (foldM (fun '(acc, c) t => contrib_probability_change t row' (p_missing (gb_params b)) acc c) ts (gb_base_score b, row_start cols (odds (gb_base_score b))))
      with (foldM (fun '(acc, c) t => contrib_probability_change t row (p_missing (gb_params b)) acc c) ts (gb_base_score b, row_start cols (odds (gb_base_score b)))); auto.
    apply foldM_ext. intros [acc c] t Ht. unfold contrib_probability_change. repeat (apply bind_ext; intros).
    rewrite (contrib_walk_agree t row row') by (intros; eauto). reflexivity.
Qed.

(** *** Matrices that agree on the used columns *)
Section Matrices.
Variables (b : Booster) (d d' : Matrix F64).
Definition used (b : Booster) (f : nat) : Prop := exists ts t, prediction_trees b = Some ts /\ In t ts /\ tree_features t f.
Hypotheses (HR : m_rows d' = m_rows d) (HI : m_index d = seq 0 (m_rows d)) (HI' : m_index d' = seq 0 (m_rows d'))
  (HA : forall i f, i < m_rows d -> used b f -> m_get d i f = m_get d' i f).

Theorem predict_agree : forall shs shs' par par', predict shs b d par = predict shs' b d' par'.
Proof.
  intros. rewrite !predict_rows by (rewrite ?HI, ?HI', seq_length; auto). apply bind_ext. intros ts Hts. rewrite HI, HI', HR.
  apply mapM_ext2. intros i Hi. apply in_seq in Hi. apply score_agree. intros t f Ht Hf. apply HA; [lia|]. exists ts, t. auto.
Qed.
Theorem leaf_indices_agree : forall shs shs', predict_leaf_indices shs b d = predict_leaf_indices shs' b d'.
Proof.
  intros. rewrite !predict_leaf_indices_serial. apply bind_ext. intros ts Hts.
  replace (mapM (leaf_nums (p_missing (gb_params b)) d') ts) with (mapM (leaf_nums (p_missing (gb_params b)) d) ts); auto.
  apply mapM_ext2. intros t Ht. unfold leaf_nums. rewrite HI, HI', HR. apply mapM_ext2. intros i Hi. apply in_seq in Hi.
  unfold predict_leaf. rewrite (walk_agree t (fun f => m_get d i f) (fun f => m_get d' i f)); auto.
  intros f Hf. apply HA; [lia|]. exists ts, t. auto.
Qed.

Hypotheses (HC : m_cols d' = m_cols d) (LD : List.length (m_data d) = m_rows d * m_cols d) (LD' : List.length (m_data d') = m_rows d' * m_cols d').

Lemma rows_agree : forall m i, i < m_rows d -> (let* r := m_get_row d i in contrib_row b m (m_cols d) r) = (let* r := m_get_row d' i in contrib_row b m (m_cols d') r).
Proof.
  intros m i Hi. destruct (get_row_spec d LD i Hi) as (row & -> & L & V). rewrite <- HR in Hi.
  destruct (get_row_spec d' LD' i Hi) as (row' & -> & L' & V'). simpl. rewrite HC. apply contrib_row_agree; [lia|].
  intros ts t f Hts Ht Hf. destruct (Nat.lt_ge_cases f (m_cols d)) as [Lf|Lf].
  - rewrite V, V' by (rewrite ?HC; auto). apply HA; [lia|]. exists ts, t. auto.
  - rewrite !(proj2 (nth_error_None _ _)) by lia. reflexivity.
Qed.

Theorem contributions_agree : forall sh sh' m par par', predict_contributions sh b d m par = predict_contributions sh' b d' m par'.
Proof.
  intros. rewrite (predict_contributions_serial sh), (predict_contributions_serial sh').
  assert (A : forall g g' : list F64 -> option (list F64), (forall i, i < m_rows d -> (let* r := m_get_row d i in g r) = (let* r := m_get_row d' i in g' r)) ->
    for_rows false Seq d g = for_rows false Seq d' g').
  { intros g g' Hg. unfold for_rows. rewrite HI, HI', HR. f_equal. apply mapM_ext2. intros i Hi. apply in_seq in Hi. apply Hg. lia. }
  pose proof (rows_agree m) as R.
  destruct m; simpl in *; unfold predict_contributions_tree_alone; simpl; try (apply A; exact R).
  - unfold predict_contributions_average. destruct (prediction_trees b) as [ts|] eqn:T; simpl in *; auto.
    destruct (mapM distribute_leaf_weights ts) as [ws|]; simpl in *; auto.
  - destruct (p_objective _); auto. apply A. exact R.
Qed.
End Matrices.

(** *** Cells of an unused column *)
Section Cells.
Variable f : nat.

Lemma add_at_other : forall c i v c', add_at c i v = Some c' -> i <> f -> nth_error c' f = nth_error c f.
Proof. intros c i v c' H N. destruct (add_at_spec _ _ _ _ H) as (x & _ & _ & C). rewrite C. destruct (Nat.eqb_spec f i); congruence. Qed.
Lemma add_bias_other : forall c v c', add_bias c v = Some c' -> S f < List.length c -> nth_error c' f = nth_error c f.
Proof.
  intros c v c' H N. unfold add_bias in H. destruct (List.length c) eqn:E; [discriminate|].
  eapply add_at_other; eauto. lia.
Qed.

Lemma contrib_walk_other : forall nodes row missing delta, ~ tree_features nodes f -> forall fuel i c n c',
  contrib_walk fuel nodes row missing delta i c = Some (n, c') -> nth_error c' f = nth_error c f.
Proof.
  intros nodes row missing delta U. induction fuel as [|fuel IH]; intros i c n c' H; simpl in H; [discriminate|].
  inv_bind H. destruct (n_is_leaf v) eqn:L; [injection H as <- <-; auto|].
  inv_bind H. inv_bind H. inv_bind H. inv_bind H. rewrite (IH _ _ _ _ H).
  destruct v2 as [w|]; [|injection E3 as <-; auto]. eapply add_at_other; eauto.
  intros E4. apply U. exists v. split; [eapply nth_error_In; eauto|auto].
Qed.

(** The path of the Shapley recursion never holds the feature. *)
Definition avoids (p : list PathElement) : Prop := Forall (fun e => pe_feature e <> f) p.

Lemma path_get_in : forall p i e, i < List.length p -> path_get p i = Some e -> nth_error p i = Some e.
Proof. intros p i e L H. unfold path_get, path_grow in H. destruct (Nat.eqb_spec i (List.length p)); [lia|auto]. Qed.
Lemma avoids_get : forall p i e, avoids p -> i < List.length p -> path_get p i = Some e -> pe_feature e <> f.
Proof. intros p i e A L H. apply path_get_in in H; auto. eapply Forall_forall in A; [exact A|]. eapply nth_error_In; eauto. Qed.
Lemma avoids_set : forall p i e p', avoids p -> i <= List.length p -> pe_feature e <> f -> path_set p i e = Some p' ->
  avoids p' /\ List.length p <= List.length p' /\ i < List.length p'.
Proof.
  intros p i e p' A L N H. unfold path_set, path_grow in H. pose proof H as UL. apply update_length in UL. pose proof H as US. apply update_Some_lt in US.
  apply update_app in H. destruct H as (a & y & q & E & La & ->). unfold avoids in *.
  destruct (Nat.eqb_spec i (List.length p)) as [Ei|Ni].
  - assert (E2 : a = p /\ [y] ++ q = [pe_default]).
    { apply app_eq_app in E. destruct E as (l & [[E1 E2]|[E1 E2]]).
      - subst p. rewrite app_length in Ei. destruct l; [|simpl in Ei; lia]. rewrite app_nil_r. split; [reflexivity|]. exact E2.
      - subst a. rewrite app_length in La. destruct l; [|simpl in La; lia]. rewrite app_nil_r. split; [reflexivity|]. exact (eq_sym E2). }
    destruct E2 as [-> E2]. injection E2 as -> ->. split; [|rewrite app_length in *; simpl in *; lia].
    apply Forall_app. split; auto.
  - rewrite E in A. apply Forall_app in A. destruct A as [A1 A2]. inversion A2; subst. split; [apply Forall_app; split; auto|].
    rewrite !app_length in *. simpl in *. lia.
Qed.

Lemma extend_loop_avoids : forall is d z o p p', (forall i, In i is -> i + 1 < List.length p) -> avoids p ->
  extend_loop is d z o p = Some p' -> avoids p' /\ List.length p <= List.length p'.
Proof.
  induction is as [|i is IH]; intros d z o p p' HI A H; simpl in H; [injection H as <-; auto|].
  pose proof (HI i (or_introl eq_refl)) as Li. inv_bind H. inv_bind H. inv_bind H. inv_bind H.
  eapply avoids_set in E1; [|exact A|lia|cbn [pe_feature set_pweight]; eapply avoids_get; [exact A| |eassumption]; lia]; destruct E1 as (A1 & L1 & _).
  eapply avoids_set in E2; [|exact A1|lia|cbn [pe_feature set_pweight]; eapply avoids_get; [exact A| |eassumption]; lia]; destruct E2 as (A2 & L2 & _).
  destruct (IH _ _ _ _ _ (fun j Hj => Nat.lt_le_trans _ _ _ (HI j (or_intror Hj)) (Nat.le_trans _ _ _ L1 L2)) A2 H) as [A3 L3]. split; [auto|lia].
Qed.
Lemma extend_path_avoids : forall p d z o k p', avoids p -> d <= List.length p -> k <> f -> extend_path p d z o k = Some p' -> avoids p' /\ d < List.length p'.
Proof.
  intros p d z o k p' A L N H. unfold extend_path in H. inv_bind H. destruct (avoids_set _ _ _ _ A L (N : pe_feature (mkPE _ _ _ _) <> f) E) as (A1 & _ & L1).
  apply extend_loop_avoids in H; auto. { destruct H. split; [auto|lia]. }
  intros i Hi. apply in_rev, in_seq in Hi. lia.
Qed.
Lemma unwind_loop_avoids : forall is d z o nx p p', (forall i, In i is -> i < List.length p) -> avoids p ->
  unwind_loop is d z o nx p = Some p' -> avoids p' /\ List.length p <= List.length p'.
Proof.
  induction is as [|i is IH]; intros d z o nx p p' HI A H; simpl in H; [injection H as <-; auto|].
  pose proof (HI i (or_introl eq_refl)) as Li. inv_bind H.
  destruct (negb _).
  - inv_bind H. eapply avoids_set in E0; [|exact A|lia|cbn [pe_feature set_pweight]; eapply avoids_get; [exact A| |eassumption]; lia]; destruct E0 as (A1 & L1 & _).
    destruct (IH _ _ _ _ _ _ (fun j Hj => Nat.lt_le_trans _ _ _ (HI j (or_intror Hj)) L1) A1 H) as [A3 L3]. split; [auto|lia].
  - inv_bind H. eapply avoids_set in E0; [|exact A|lia|cbn [pe_feature set_pweight]; eapply avoids_get; [exact A| |eassumption]; lia]; destruct E0 as (A1 & L1 & _).
    destruct (IH _ _ _ _ _ _ (fun j Hj => Nat.lt_le_trans _ _ _ (HI j (or_intror Hj)) L1) A1 H) as [A3 L3]. split; [auto|lia].
Qed.
Lemma shift_loop_avoids : forall is p p', (forall i, In i is -> i + 1 < List.length p) -> avoids p ->
  shift_loop is p = Some p' -> avoids p' /\ List.length p <= List.length p'.
Proof.
  induction is as [|i is IH]; intros p p' HI A H; simpl in H; [injection H as <-; auto|].
  pose proof (HI i (or_introl eq_refl)) as Li. inv_bind H. inv_bind H. inv_bind H.
  eapply avoids_set in E1; [|exact A|lia|cbn [pe_feature set_pweight]; eapply avoids_get; [exact A| |eassumption]; lia]; destruct E1 as (A1 & L1 & _).
  destruct (IH _ _ (fun j Hj => Nat.lt_le_trans _ _ _ (HI j (or_intror Hj)) L1) A1 H) as [A3 L3]. split; [auto|lia].
Qed.
Lemma unwind_path_avoids : forall p d k p', avoids p -> d < List.length p -> unwind_path p d k = Some p' -> avoids p' /\ d < List.length p'.
Proof.
  intros p d k p' A L H. unfold unwind_path in H. inv_bind H. inv_bind H. inv_bind H.
  apply unwind_loop_avoids in E1; auto. 2: { intros i Hi. apply in_rev, in_seq in Hi. lia. }
  destruct E1 as [A1 L1]. apply shift_loop_avoids in H; auto. { destruct H. split; [auto|lia]. }
  intros i Hi. apply in_seq in Hi. lia.
Qed.

Lemma leaf_contribs_other : forall is d w p c c', avoids p -> (forall i, In i is -> i < List.length p) ->
  leaf_contribs is d w p c = Some c' -> nth_error c' f = nth_error c f.
Proof.
  induction is as [|i is IH]; intros d w p c c' A HI H; simpl in H; [injection H as <-; auto|].
  inv_bind H. inv_bind H. inv_bind H. rewrite (IH _ _ _ _ _ A (fun j Hj => HI j (or_intror Hj)) H).
  eapply add_at_other; eauto. eapply avoids_get; eauto. apply HI. left. auto.
Qed.

Lemma foldM_keeps : forall A S (g : S -> A -> option S) (T : S -> S -> Prop) l s s', (forall s, T s s) -> (forall a b c, T a b -> T b c -> T a c) ->
  (forall s x s', In x l -> g s x = Some s' -> T s s') -> foldM g l s = Some s' -> T s s'.
Proof.
  intros A S g T l. induction l as [|x l IH]; intros s s' HR HT H E; simpl in E; [injection E as <-; auto|].
  inv_bind E. eapply HT; [eapply H; [left; reflexivity|eauto]|]. eapply IH; eauto. intros. eapply H; [right; eauto|eauto].
Qed.

Lemma tree_shap_other : forall nodes row missing, ~ tree_features nodes f -> forall fuel i d p z o k c c', avoids p -> d <= List.length p -> k <> f ->
  tree_shap fuel nodes row missing i d p z o k c = Some c' -> nth_error c' f = nth_error c f.
Proof.
  intros nodes row missing U. induction fuel as [|fuel IH]; intros i d p z o k c c' A L N H; simpl in H; [discriminate|].
  inv_bind H. inv_bind H. destruct (extend_path_avoids _ _ _ _ _ _ A L N E0) as [A1 L1].
  destruct (n_is_leaf v) eqn:LF.
  { eapply leaf_contribs_other; eauto. intros j Hj. apply in_seq in Hj. lia. }
  inv_bind H. inv_bind H. inv_bind H. apply bind_Some in H. destruct H as ([[[iz io] p1] d1] & E4 & H).
  assert (Q : avoids p1 /\ d1 + 1 <= List.length p1).
  { destruct (negb _).
    - inv_bind E4. inv_bind E4. match type of E4 with (if ?x then _ else _) = _ => destruct x; [|discriminate E4] end. injection E4 as <- <- <- <-.
      destruct (unwind_path_avoids _ _ _ _ A1 L1 E6) as [A2 L2]. split; [auto|lia].
    - injection E4 as <- <- <- <-. split; [auto|lia]. }
  destruct Q as [A2 L2]. symmetry.
  apply (foldM_keeps _ _ _ (fun s s' => nth_error s f = nth_error s' f)) in H; auto; [intros; congruence|].
  intros s [j ci] s' _ Hs. inv_bind Hs. symmetry. eapply IH; [exact A2|exact L2| |exact Hs].
  intros Q. apply U. exists v. split; [eapply nth_error_In; eauto|auto].
Qed.

Lemma row_method_other : forall m fn, row_method m = Some fn -> forall nodes row missing c c', ~ tree_features nodes f ->
  S f < List.length c -> f < List.length row -> fn nodes row missing c = Some c' -> nth_error c' f = nth_error c f.
Proof.
  intros m fn Hm nodes row missing c c' U L LR H.
  destruct m; try discriminate; injection Hm as <-.
  - unfold contrib_weight in H. inv_bind H. inv_bind H. inv_bind H. destruct v1. injection H as <-.
    erewrite contrib_walk_other by eauto. eapply add_bias_other; eauto.
  - unfold contrib_branch_difference in H. inv_bind H. destruct v. injection H as <-. eapply contrib_walk_other; eauto.
  - unfold contrib_midpoint_difference in H. inv_bind H. destruct v. injection H as <-. eapply contrib_walk_other; eauto.
  - unfold contrib_mode_difference in H. inv_bind H. destruct v. injection H as <-. eapply contrib_walk_other; eauto.
  - unfold contrib_shapley in H. inv_bind H. inv_bind H.
    erewrite tree_shap_other; [eapply add_bias_other; eauto| |constructor| | |exact H]; simpl; auto; lia.
Qed.

Lemma contrib_row_other : forall b m cols row c, f < cols -> List.length row = cols ->
  (forall ts t, prediction_trees b = Some ts -> In t ts -> ~ tree_features t f) ->
  contrib_row b m cols row = Some c -> nth_error c f = Some (fzero f64).
Proof.
  intros b m cols row c Lf LR U H.
  assert (Z : forall v, nth_error (row_start cols v) f = Some (fzero f64)).
  { intros v. rewrite nth_start. destruct (Nat.ltb_spec f cols); [auto|lia]. }
  set (T := fun c c' : list F64 => S f < List.length c -> List.length c' = List.length c /\ nth_error c' f = nth_error c f).
  assert (T1 : forall s, T s s) by (intros s Hs; auto).
  assert (T2 : forall a b c, T a b -> T b c -> T a c).
  { intros a b0 c0 H1 H2 L. destruct (H1 L) as [L1 E1]. destruct (H2 ltac:(lia)) as [L2 E2]. split; congruence. }
  assert (S0 : forall v c, T (row_start cols v) c -> nth_error c f = Some (fzero f64)).
  { intros v c0 H1. rewrite <- (Z v). apply H1. rewrite row_start_length. lia. }
  assert (A : forall fn, row_method m = Some fn -> contrib_row_alone b cols fn row = Some c -> nth_error c f = Some (fzero f64)).
  { intros fn Hf Hc. unfold contrib_row_alone in Hc. inv_bind Hc. apply (S0 (gb_base_score b)).
    eapply foldM_keeps; [exact T1|exact T2| |exact Hc]. intros s t s' Ht Hs L. cbv beta in Hs.
    split; [exact (row_method_length _ _ Hf _ _ _ _ _ Hs)|]. assert (LF : f < List.length row) by lia.
    exact (row_method_other _ _ Hf _ _ _ _ _ (U _ _ E Ht) L LF Hs). }
  destruct m; simpl in H; try (eapply A; [reflexivity|exact H]).
  - inv_bind H. inv_bind H. unfold contrib_row_average in H. rewrite E in H. simpl in H. apply (S0 (gb_base_score b)).
    eapply foldM_keeps; [exact T1|exact T2| |exact H]. intros s [t ws] s' Ht Hs L. apply in_combine_l in Ht.
    unfold contrib_average in Hs. inv_bind Hs. inv_bind Hs. inv_bind Hs. destruct v3. injection Hs as <-.
    split; [apply contrib_walk_length in E3; apply add_bias_length in E2; congruence|].
    erewrite contrib_walk_other by eauto. eapply add_bias_other; eauto.
  - destruct (p_objective _); [|discriminate]. unfold contrib_row_probability in H. inv_bind H. inv_bind H. destruct v0 as [a c0]. injection H as <-.
    apply (S0 (odds (gb_base_score b))).
    apply (foldM_keeps _ _ _ (fun s s' => T (snd s) (snd s'))) in E0; auto; [intros; eauto|].
    intros [a1 s] t [a2 s'] Ht Hs L. simpl in *. unfold contrib_probability_change in Hs. inv_bind Hs. inv_bind Hs. inv_bind Hs.
    destruct v2. injection Hs as <- <-. split; [apply contrib_walk_length in E3; apply add_bias_length in E2; congruence|].
    erewrite contrib_walk_other by eauto. eapply add_bias_other; eauto.
Qed.

Theorem unused_cell : forall sh b data m par r, m_index data = seq 0 (m_rows data) -> List.length (m_data data) = m_rows data * m_cols data ->
  ~ used b f -> f < m_cols data -> predict_contributions sh b data m par = Some r ->
  forall i, i < m_rows data -> nth_error r (i * (m_cols data + 1) + f) = Some (fzero f64).
Proof.
  intros sh b data m par r HI LD U Lf H i Hi. destruct (get_row_spec data LD i Hi) as (row & HR & L & _).
  destruct (contributions_rows _ _ _ _ _ _ HI H i row Hi HR) as (c & Hc & Sc).
  rewrite <- (slice_nth _ _ _ Sc) by lia. eapply contrib_row_other; eauto.
  intros ts t Hts Ht Hf. apply U. exists ts, t. auto.
Qed.

(** *** Partial dependence *)
Lemma partial_dependence_unused : forall nodes missing v v', ~ tree_features nodes f -> forall fuel i q,
  partial_dependence fuel nodes i f v q missing = partial_dependence fuel nodes i f v' q missing.
Proof.
  intros nodes missing v v' U. induction fuel as [|fuel IH]; intros i q; simpl; auto.
  destruct (nth_error nodes i) as [n|] eqn:N; simpl; auto. destruct (n_is_leaf n) eqn:L; auto.
  destruct (Nat.eqb_spec (n_split_feature n) f) as [E|_]. { exfalso. apply U. exists n. split; [eapply nth_error_In; eauto|auto]. }
  do 3 (apply bind_ext; intros). rewrite (IH (n_missing n)). apply bind_ext. intros. rewrite (IH (n_left n)). apply bind_ext. intros.
  rewrite (IH (n_right n)). reflexivity.
Qed.
Theorem unused_dependence : forall sh b v v', ~ used b f -> value_partial_dependence sh b f v = value_partial_dependence sh b f v'.
Proof.
  intros sh b v v' U. unfold value_partial_dependence. apply bind_ext. intros ts Hts.
  replace (mapM (fun t => tree_value_partial_dependence t f v' (p_missing (gb_params b))) ts)
    with (mapM (fun t => tree_value_partial_dependence t f v (p_missing (gb_params b))) ts); auto.
  apply mapM_ext2. intros t Ht. unfold tree_value_partial_dependence. apply partial_dependence_unused. intros Hf. apply U. exists ts, t. auto.
Qed.
End Cells.

(** *** Importances *)
Lemma stats_add_keys : forall k v s f, k <> f -> ~ In f (map fst s) -> ~ In f (map fst (stats_add k v s)).
Proof.
  intros k v s f N. induction s as [|[k' [x c]] s IH]; simpl; intros H; [intuition|].
  destruct (Nat.eqb_spec k k'); simpl; [auto|]. intuition.
Qed.
Lemma node_stats_keys : forall stat nodes f, ~ tree_features nodes f -> forall fuel i s s', node_stats fuel stat nodes i s = Some s' ->
  ~ In f (map fst s) -> ~ In f (map fst s').
Proof.
  intros stat nodes f U. induction fuel as [|fuel IH]; intros i s s' H N; simpl in H; [discriminate|].
  inv_bind H. destruct (n_is_leaf v) eqn:L; [injection H as <-; auto|]. inv_bind H. inv_bind H.
  assert (Q : ~ In f (map fst v1)).
  { eapply IH; [exact E1|]. eapply IH; [exact E0|]. apply stats_add_keys; auto. intros E2. apply U. exists v. split; [eapply nth_error_In; eauto|auto]. }
  destruct (has_missing_branch v); [eapply IH; eauto|]. injection H as <-. auto.
Qed.
Theorem unused_importance : forall b m n imp f, calculate_feature_importance b m n = Some imp ->
  (forall t, In t (gb_trees b) -> ~ tree_features t f) -> ~ In f (map fst imp).
Proof.
  intros b m n imp f H U. unfold calculate_feature_importance in H. destruct (importance_stat m) as [av stat]. inv_bind H.
  assert (Q : ~ In f (map fst v)).
  { unfold all_stats in E. apply (foldM_keeps _ _ _ (fun s s' : Stats => ~ In f (map fst s) -> ~ In f (map fst s'))) in E; auto.
    intros s t s' Ht Hs. eapply node_stats_keys; eauto. }
  assert (M : map fst (map (fun '(k, (x, c)) => (k, if av : bool then (x / fofnat f32 c)%f32 else x)) v) = map fst v).
  { rewrite map_map. apply map_ext. intros [k [x c]]. reflexivity. }
  destruct n; [|injection H as <-; rewrite M; auto]. inv_bind H. injection H as <-.
  rewrite map_map. erewrite map_ext; [rewrite M; exact Q|]. intros [k x]. reflexivity.
Qed.
End Unused.
