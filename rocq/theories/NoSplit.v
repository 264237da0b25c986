(** Options that forbid splitting: trees of one node, predictions that are the same for every row. *)
From Coq Require Import List Arith Lia Bool.
From Verif Require Import Prelude Float FloatLaws Data DataProofs Utils Binning Histogram Node Splitter SplitProofs
  Tree TreeWf TreeProofs FitProofs FitSplits PathProofs GrowInv GrowStep Objective Metric Sampler Contrib Booster PredictProofs BoostProofs FitModel.
Import ListNotations.

Section NoSplit.
Context {FS : Floats}.

Lemma wf_single : forall nodes, well_formed nodes -> (forall n, In n nodes -> n_is_leaf n = true) -> exists n, nodes = [n] /\ n_is_leaf n = true.
Proof.
  intros nodes W L. destruct (wf_root _ W) as (n & Hn & _). destruct nodes as [|a [|c nodes]]; [discriminate| |].
  - exists a. split; auto. apply L. left. reflexivity.
  - exfalso. destruct (wf_parent _ W 1) as (i & m & Hm & HL & _); [simpl; lia|]. rewrite (L m) in HL by (eapply nth_error_In; eauto). discriminate.
Qed.
Lemma wf_depth0 : forall nodes, well_formed nodes -> (forall n, In n nodes -> n_depth n <= 0) -> forall n, In n nodes -> n_is_leaf n = true.
Proof.
  intros nodes W D n Hn. destruct (n_is_leaf n) eqn:L; auto. exfalso. apply In_nth_error in Hn. destruct Hn as [i Hi].
  destruct (wf_child _ W i n (n_left n) Hi L) as [_ (m & Hm & Dm)]; [right; left; reflexivity|].
  pose proof (D m (nth_error_In _ _ Hm)). lia.
Qed.
Lemma nth_error_skipn : forall A (l : list A) k j, nth_error (skipn k l) j = nth_error l (k + j).
Proof. induction l as [|a l IH]; intros [|k] j; simpl; auto. destruct j; auto. Qed.
Lemma later_split : forall l i, (exists j m, i < j /\ nth_error l j = Some m /\ n_is_leaf m = false) \/
  forall j m, i < j -> nth_error l j = Some m -> n_is_leaf m = true.
Proof.
  intros l i. destruct (forallb n_is_leaf (skipn (S i) l)) eqn:F.
  - right. intros j m Hj Hm. rewrite forallb_forall in F. apply F. apply (nth_error_In _ (j - S i)). rewrite nth_error_skipn. replace (S i + (j - S i)) with j by lia. exact Hm.
  - left. assert (G : forall r, forallb n_is_leaf r = false -> exists j m, nth_error r j = Some m /\ n_is_leaf m = false).
    { induction r as [|a r IH]; intros H; [discriminate|]. simpl in H. destruct (n_is_leaf a) eqn:La; [|exists 0, a; auto].
      destruct (IH H) as (j & m & H1 & H2). exists (S j), m. auto. }
    destruct (G _ F) as (j & m & H1 & H2). rewrite nth_error_skipn in H1. exists (S i + j), m. repeat split; auto. lia.
Qed.
(** A node that is split has two leaves below it. *)
Lemma wf_one_leaf : forall nodes, well_formed nodes -> length (filter n_is_leaf nodes) <= 1 -> forall n, In n nodes -> n_is_leaf n = true.
Proof.
  intros nodes W D.
  intros n Hn. destruct (n_is_leaf n) eqn:L; auto. exfalso. apply In_nth_error in Hn. destruct Hn as [i Hi].
  (* the last split node: all its children are leaves *)
  assert (LAST : exists i n, nth_error nodes i = Some n /\ n_is_leaf n = false /\ forall j m, i < j -> nth_error nodes j = Some m -> n_is_leaf m = true).
  { clear D. remember (length nodes - i) as k eqn:Ek. revert i n Hi L Ek. induction k as [k IH] using lt_wf_ind. intros i n Hi L Ek.
    assert (DEC : (exists j m, i < j /\ nth_error nodes j = Some m /\ n_is_leaf m = false) \/ forall j m, i < j -> nth_error nodes j = Some m -> n_is_leaf m = true).
    { apply later_split. }
    destruct DEC as [(j & m & H1 & H2 & H3)|H]; [|exists i, n; auto].
    apply (IH (length nodes - j)) with (i := j) (n := m); auto. pose proof (nth_error_Some_lt _ _ H2). lia. }
  destruct LAST as (i' & n' & Hi' & L' & LL).
  destruct (wf_child _ W i' n' (n_left n') Hi' L') as [G1 (a & Ha & _)]; [right; left; reflexivity|].
  destruct (wf_child _ W i' n' (n_right n') Hi' L') as [G2 (c & Hc & _)]; [right; right; left; reflexivity|].
  pose proof (wf_sides _ W _ _ Hi' L') as NE.
  assert (IA : In a (filter n_is_leaf nodes)) by (apply filter_In; split; [eapply nth_error_In; eassumption|eapply LL; [|eassumption]; assumption]).
  assert (IC : In c (filter n_is_leaf nodes)) by (apply filter_In; split; [eapply nth_error_In; eassumption|eapply LL; [|eassumption]; assumption]).
  destruct (filter n_is_leaf nodes) as [|x [|z r]]; [contradiction| |simpl in D; lia].
  destruct IA as [<-|[]]. destruct IC as [<-|[]]. pose proof (wf_num _ W _ _ Ha). pose proof (wf_num _ W _ _ Hc). congruence.
Qed.

(** *** Fitted models *)
Lemma fit_tree_is : forall E b data y w es b', clean b -> fit E b data y w es = Some (b', None) -> forall t, In t (gb_trees b') ->
  exists pick tr index st, tree_fit (p_grow_policy (gb_params b)) pick (splitter_of (gb_params b)) tr index (p_max_leaves (gb_params b)) (p_max_depth (gb_params b))
    (p_sample_method (gb_params b)) = Some (t, st).
Proof.
  intros E b data y w es b' C H t Ht. destruct (fit_ok _ _ _ _ _ _ _ H) as [_ HF].
  destruct (fit_trees_BI _ _ _ _ _ _ _ C HF) as (bd & base & l & _ & _ & -> & B & _).
  apply In_nth_error in Ht. destruct Ht as [k Hk].
  destruct (bi_trees _ _ _ _ _ _ _ _ _ _ _ _ _ B _ _ Hk) as (yh' & n & chosen & grad & hess & n' & cols & n'' & st & _ & _ & _ & P4). eauto.
Qed.

Definition one_node (b : Booster) : Prop := forall t, In t (gb_trees b) -> exists n, t = [n] /\ n_is_leaf n = true.

Theorem fit_depth0 : forall E b data y w es b', clean b -> fit E b data y w es = Some (b', None) -> p_max_depth (gb_params b) = 0 -> one_node b'.
Proof.
  intros E b data y w es b' C H D t Ht. destruct (fit_tree_is _ _ _ _ _ _ _ C H t Ht) as (pick & tr & index & st & HF).
  pose proof (fit_well_formed _ _ _ _ _ _ _ _ _ _ HF) as W. apply wf_single; auto. apply wf_depth0; auto.
  intros n Hn. rewrite <- D. eapply fit_depth; eauto.
Qed.
Theorem fit_one_leaf : forall E b data y w es b', clean b -> fit E b data y w es = Some (b', None) ->
  p_create_missing_branch (gb_params b) = false -> p_max_leaves (gb_params b) <= 1 -> one_node b'.
Proof.
  intros E b data y w es b' C H NB D t Ht. destruct (fit_tree_is _ _ _ _ _ _ _ C H t Ht) as (pick & tr & index & st & HF).
  pose proof (fit_well_formed _ _ _ _ _ _ _ _ _ _ HF) as W. apply wf_single; auto. apply wf_one_leaf; auto.
  apply fit_leaves in HF. unfold splitter_of in HF. rewrite NB in HF. cbn [ternary] in HF. change (n_leaves t) with (length (filter n_is_leaf t)) in HF. lia.
Qed.

(** *** Their predictions *)
Lemma one_node_predict : forall n (d : Matrix F64) missing, n_is_leaf n = true -> m_index d = seq 0 (m_rows d) ->
  tree_predict [n] d missing = Some (repeat (to64 (n_weight n)) (m_rows d)).
Proof.
  intros n d missing L HI. unfold tree_predict. rewrite HI. generalize 0 at 1. generalize (m_rows d). induction n0 as [|k IH]; intros s; [reflexivity|].
  cbn [seq mapM repeat]. unfold predict_leaf at 1. cbn [length walk nth_error bind]. rewrite L. cbn [bind]. rewrite IH. reflexivity.
Qed.
Lemma add_repeat : forall k (a c : F64), add_preds (repeat a k) (repeat c k) = repeat (a + c)%f64 k.
Proof. intros. rewrite add_preds_same by (rewrite !repeat_length; auto). induction k as [|k IH]; [reflexivity|]. cbn. rewrite IH. reflexivity. Qed.

Theorem one_node_constant : forall shs b (d : Matrix F64) par preds, one_node b -> m_index d = seq 0 (m_rows d) ->
  predict shs b d par = Some preds ->
  exists ws, preds = repeat (fold_left (fun a x => (a + x)%f64) ws (gb_base_score b)) (m_rows d) /\
    forall x, In x ws -> exists n, In [n] (gb_trees b) /\ x = to64 (n_weight n).
Proof.
  intros shs b d par preds ON HI HP. rewrite predict_serial in HP.
  destruct (prediction_trees b) as [ts|] eqn:ET; [cbn [bind] in HP|discriminate].
  assert (IN : forall t, In t ts -> In t (gb_trees b)).
  { intros t Ht. unfold prediction_trees in ET. apply slice_Some in ET. destruct ET as (_ & _ & _ & ->). apply in_or_app. right. apply in_or_app. left. exact Ht. }
  revert HP. unfold preds_after. generalize (gb_base_score b). clear ET. induction ts as [|t ts IH]; intros a HP.
  - cbn in HP. injection HP as <-. exists []. split; [reflexivity|]. intros x [].
  - cbn [foldM] in HP. destruct (ON t (IN t (or_introl eq_refl))) as (n & -> & L). rewrite (one_node_predict n d _ L HI) in HP. cbn [bind] in HP.
    rewrite add_repeat in HP. destruct (IH (fun t H => IN t (or_intror H)) _ HP) as (ws & E & HW).
    exists (to64 (n_weight n) :: ws). split; [exact E|]. intros x [<-|Hx]; [exists n; split; auto; apply IN; left; reflexivity|auto].
Qed.
End NoSplit.
