(** Monotone constraints for fitted trees and models. *)
From Coq Require Import List Arith NArith Lia Bool Permutation.
From Verif Require Import Prelude Float FloatLaws FloatMono Data Utils Histogram Node Splitter SplitProofs
  Tree GrowProofs GrowInv GrowStep TreeWf TreeProofs FitProofs FitSplits PathProofs GrowWeights GrowMono
  Objective Metric Sampler Contrib Booster PredictProofs BoostProofs FitModel.
Import ListNotations.

(** *** Fitted trees *)
Section Fit.
Context {FS : Floats}.
Variables (policy : GrowPolicy) (pick : pick_fn) (s : Splitter) (t : Train) (index : list nat)
  (max_leaves max_depth : nat) (sm : SampleMethod) (tame : fcar (@f32 FS) -> Prop).
Notation p := (params s).
Hypotheses (OL : OrdLaws (@f32 FS)) (OL64 : OrdLaws (@f64 FS)) (SL : SubLaws (@f32 FS)) (ML : MonoLaws (@f32 FS) tame).

(** In the nodes of a tree: below a split on a constrained feature, every split is on a constrained feature. *)
Definition splits_hereditary (C : nat -> Prop) (nodes : list Node) : Prop := forall n c m, In n nodes -> n_is_leaf n = false ->
  In c (children n) -> nth_error nodes c = Some m -> n_is_leaf m = false -> C (n_split_feature n) -> C (n_split_feature m).

Lemma walk_gleaf : forall nodes st g root row missing n,
  tree_fit policy pick s t index max_leaves max_depth sm = Some (nodes, st) -> no_average s ->
  root_node s t index sm = Some root -> INV s t max_depth root index st g -> nodes = g_nodes st ->
  (forall row missing, full_path nodes row missing = gpath g row missing) ->
  walk (length nodes) nodes row missing 0 = Some n ->
  exists sn, gleaf g row missing = Some sn /\ n_weight n = (sn_weight sn * sp_learning_rate p)%f32.
Proof.
  intros nodes st g root row missing n H NA HR I EN FP HW.
  pose proof (fit_well_formed _ _ _ _ _ _ _ _ _ _ H) as WF.
  pose proof (path_walk nodes row missing (wf_num _ WF) (length nodes) 0) as PW.
  specialize (FP row missing). unfold full_path in FP. rewrite FP in PW.
  destruct (gpath g row missing) as [l|] eqn:EP; [|congruence]. destruct PW as (n' & HW' & HLast).
  rewrite HW in HW'. injection HW' as <-. destruct (gleaf_path _ _ _ _ EP) as (sn & HG & HN).
  exists sn. split; auto. destruct (gleaf_in _ _ _ _ HG) as (z & rows & -> & Hz).
  assert (Hn : nth_error nodes (n_num n) = Some n).
  { destruct (walk_in _ _ _ _ _ _ HW) as [_ [j Hj]]. rewrite (wf_num _ WF _ _ Hj). auto. }
  rewrite <- HLast, HN in Hn. rewrite EN in Hn.
  pose proof (gall_agree s _ _ (iv_agree _ _ _ _ _ _ _ I) _ Hz) as A. unfold gnum in A. simpl in A. rewrite A in Hn. injection Hn as <-. reflexivity.
Qed.

(** C24 for one tree *)
Theorem fit_monotone : no_average s -> (fzero f32 <=? sp_l2 p)%f32 = true -> (fzero f32 <=? sp_min_leaf_weight p)%f32 = true ->
  (fzero f32 <=? sp_learning_rate p)%f32 = true ->
  forall nodes st, tree_fit policy pick s t index max_leaves max_depth sm = Some (nodes, st) ->
  splits_hereditary (constrained s) nodes ->
  forall f row1 row2 missing v1 v2 n1 n2, constrained s f -> row1 f = Some v1 -> row2 f = Some v2 ->
  is_missing v1 missing = Some false -> is_missing v2 missing = Some false ->
  (forall k, k <> f -> row1 k = row2 k) -> (v1 <=? v2)%f64 = true ->
  walk (length nodes) nodes row1 missing 0 = Some n1 -> walk (length nodes) nodes row2 missing 0 = Some n2 ->
  ordered s f f32 (n_weight n1) (n_weight n2).
Proof.
  intros NA HL2 HMW HLR nodes st H SH f row1 row2 missing v1 v2 n1 n2 HF R1 R2 M1 M2 SAME LE W1 W2.
  destruct (fit_agrees _ _ _ _ _ _ _ _ _ _ H) as (root & g & HR & I & AG & LN & G0 & ND & FP).
  assert (EN : nodes = g_nodes st).
  { pose proof H as H'. apply fit_account in H'. destruct H' as (_ & _ & _ & _ & _ & _ & C & _). eapply clean_id; eauto. }
  destruct (walk_gleaf _ _ _ _ _ _ _ H NA HR I EN FP W1) as (s1 & L1 & E1).
  destruct (walk_gleaf _ _ _ _ _ _ _ H NA HR I EN FP W2) as (s2 & L2 & E2).
  assert (HH : hereditary s g).
  { intros x c si sc Hx Hc HS HSC HC. pose proof (iv_valid _ _ _ _ _ _ _ I) as VG.
    assert (Vx : gvalid s t max_depth x) by (eapply gall_valid; eauto).
    assert (Hcg : In c (gall g)) by (eapply gall_trans; eauto; apply gchildren_all; auto).
    assert (Vc : gvalid s t max_depth c) by (apply (gall_valid s t max_depth g VG); auto).
    destruct (gsplit_node _ _ _ _ _ Vx HS) as (X1 & X2 & _). destruct (gsplit_node _ _ _ _ _ Vc HSC) as (Y1 & Y2 & _).
    rewrite <- Y2. rewrite <- X2 in HC.
    pose proof (gall_agree s _ _ (iv_agree _ _ _ _ _ _ _ I) _ Hx) as Ax. pose proof (gall_agree s _ _ (iv_agree _ _ _ _ _ _ _ I) _ Hcg) as Ac.
    rewrite <- EN in Ax, Ac. refine (SH (gnode s x) (gnum c) (gnode s c) (nth_error_In _ _ Ax) X1 _ Ac Y1 HC).
    destruct (gnode_facts s t max_depth x Vx) as (_ & _ & _ & _ & _ & K & _). apply K; auto. rewrite gkids_children. apply in_map. auto. }
  assert (GD : good s g).
  { assert (B : sn_lower root = fninf f32 /\ sn_upper root = finf f32).
    { unfold root_node in HR. inv_bind HR. destruct v as [[gs hs] so]. inv_bind HR. injection HR as <-. auto. }
    pose proof (iv_root _ _ _ _ _ _ _ I) as ER. split; [apply (inb_free tame OL ML); rewrite ER; tauto|]. rewrite ER. auto. }
  pose proof (tree_mono s t max_depth tame OL SL ML NA HL2 HMW g HH f row1 row2 missing v1 v2 OL64 HF R1 R2 M1 M2 SAME LE
    g (iv_valid _ _ _ _ _ _ _ I) (incl_refl _) GD _ _ L1 L2) as O.
  unfold ordered in *. rewrite E1, E2. destruct (dir_of s f); apply (ml_mul _ _ ML); auto.
Qed.
End Fit.

(** *** Models *)
Section Model.
Context {FS : Floats}.
Variables (tame32 : fcar (@f32 FS) -> Prop) (tame64 : fcar (@f64 FS) -> Prop).
Hypotheses (OL : OrdLaws (@f32 FS)) (OL64 : OrdLaws (@f64 FS)) (SL : SubLaws (@f32 FS)) (ML : MonoLaws (@f32 FS) tame32)
  (ML64 : MonoLaws (@f64 FS) tame64)
  (CONV : forall a b : F32, (b <? a)%f32 = false -> (to64 b <? to64 a)%f64 = false).

Lemma score_mono : forall s f missing row1 row2 ts base v1 v2,
  (forall t n1 n2, In t ts -> walk (length t) t row1 missing 0 = Some n1 -> walk (length t) t row2 missing 0 = Some n2 ->
     ordered s f f32 (n_weight n1) (n_weight n2)) ->
  score missing ts row1 base = Some v1 -> score missing ts row2 base = Some v2 -> ordered s f f64 v1 v2.
Proof.
  intros s f missing row1 row2 ts base v1 v2 H.
  assert (G : forall a b, ordered s f f64 a b -> score missing ts row1 a = Some v1 -> score missing ts row2 b = Some v2 -> ordered s f f64 v1 v2).
  { revert H. induction ts as [|t ts IH]; intros H a b O H1 H2; unfold score in *; simpl in *.
    - injection H1 as <-. injection H2 as <-. auto.
    - inv_bind H1. inv_bind E. injection E as <-. inv_bind H2. inv_bind E. injection E as <-.
      eapply IH; [intros; eapply H; eauto| |exact H1|exact H2].
      pose proof (H t _ _ (or_introl eq_refl) E0 E1) as Q. unfold ordered in *. destruct (dir_of s f); apply (ml_add _ _ ML64); auto. }
  apply G. unfold ordered. rewrite (ord_irrefl OL64). destruct (dir_of s f); auto.
Qed.

Lemma validated : forall (x : F32), validate_positive_float f32 x = true -> (fzero f32 <=? x)%f32 = true.
Proof.
  intros x H. unfold validate_positive_float in H. apply negb_true_iff in H. apply orb_false_iff in H. destruct H as [H _].
  apply orb_false_iff in H. destruct H as [H1 H2]. apply (ord_nlt_le OL); auto. apply (sl_zero_nan _ SL).
Qed.

(** C24 *)
Theorem model_monotone : forall E b data y w es b', clean b -> validate_parameters (gb_params b) = None ->
  fit E b data y w es = Some (b', None) ->
  no_average (splitter_of (gb_params b)) ->
  (forall t, In t (gb_trees b') -> splits_hereditary (constrained (splitter_of (gb_params b))) t) ->
  forall shs par data' preds i1 i2 f v1 v2 p1 p2, constrained (splitter_of (gb_params b)) f ->
  predict shs b' data' par = Some preds -> length (m_index data') = m_rows data' ->
  nth_error preds i1 = Some p1 -> nth_error preds i2 = Some p2 ->
  forall r1 r2, nth_error (m_index data') i1 = Some r1 -> nth_error (m_index data') i2 = Some r2 ->
  m_get data' r1 f = Some v1 -> m_get data' r2 f = Some v2 ->
  is_missing v1 (p_missing (gb_params b)) = Some false -> is_missing v2 (p_missing (gb_params b)) = Some false ->
  (forall k, k <> f -> m_get data' r1 k = m_get data' r2 k) -> (v1 <=? v2)%f64 = true ->
  ordered (splitter_of (gb_params b)) f f64 p1 p2.
Proof.
  intros E b data y w es b' C VP H NA SH shs par data' preds i1 i2 f v1 v2 p1 p2 HF HP HI N1 N2 r1 r2 HR1 HR2 G1 G2 M1 M2 SAME LE.
  destruct (tree_count _ _ _ _ _ _ _ C H) as (_ & _ & EP & _).
  pose proof H as H'. apply fit_ok in H'. destruct H' as [_ H'].
  destruct (fit_trees_BI _ _ _ _ _ _ _ C H') as (bd & base & l & HB & HBS & EB & B & _).
  rewrite predict_rows in HP by auto. rewrite EP in HP.
  unfold prediction_trees in HP. destruct (slice _ _ _) as [ts|] eqn:ES; simpl in HP; [|discriminate].
  assert (ITS : incl ts (gb_trees b')).
  { unfold slice in ES. destruct (_ && _)%bool; [|discriminate]. injection ES as <-. rewrite Nat.sub_0_r. simpl. intros z Hz.
    rewrite <- (firstn_skipn (match gb_pred b' with Some n => n | None => length (gb_trees b') end) (gb_trees b')). apply in_app_iff. auto. }
  destruct (mapMn _ _ HP _ _ HR1) as (q1 & Q1 & S1). destruct (mapMn _ _ HP _ _ HR2) as (q2 & Q2 & S2).
  rewrite N1 in Q1. injection Q1 as <-. rewrite N2 in Q2. injection Q2 as <-.
  eapply score_mono; [|exact S1|exact S2]. intros t n1 n2 Ht W1 W2. apply ITS in Ht.
  pose proof (SH t Ht) as HSH. apply In_nth_error in Ht. destruct Ht as [k Hk]. rewrite EB in Hk.
  pose proof (bi_trees _ _ _ _ _ _ _ _ _ _ _ _ _ B _ _ Hk) as (yhat & n & chosen & grad & hess & n' & cols & n'' & st & _ & _ & _ & HT).
  assert (PA : forall x, x = p_l2 (gb_params b) \/ x = p_min_leaf_weight (gb_params b) \/ x = p_learning_rate (gb_params b) -> (fzero f32 <=? x)%f32 = true).
  { intros x Hx. apply validated. clear - VP Hx. unfold validate_parameters in VP.
    repeat match type of VP with (if ?c then _ else _) = None => destruct c eqn:?; [|discriminate] end.
    destruct Hx as [->|[->| ->]]; auto. }
  assert (SP : sp_l2 (params (splitter_of (gb_params b))) = p_l2 (gb_params b) /\
    sp_min_leaf_weight (params (splitter_of (gb_params b))) = p_min_leaf_weight (gb_params b) /\
    sp_learning_rate (params (splitter_of (gb_params b))) = p_learning_rate (gb_params b)).
  { unfold splitter_of. destruct (p_create_missing_branch _); auto. }
  destruct SP as (X1 & X2 & X3).
  eapply (fit_monotone _ _ _ _ _ _ _ _ _ OL OL64 SL ML NA); [rewrite X1|rewrite X2|rewrite X3|exact HT|exact HSH|exact HF|exact G1|exact G2|exact M1|exact M2|exact SAME|exact LE|exact W1|exact W2]; apply PA; auto.
Qed.
End Model.
