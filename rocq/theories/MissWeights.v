(** Weights of missing nodes under the treatments None and AverageNodeWeight, and tree properties
    lifted to the trees of a fitted model. *)
From Coq Require Import List Arith Lia Bool.
From Verif Require Import Prelude Float FloatLaws FloatMono OrdProofs Data Utils Node Splitter Tree GrowProofs GrowInv GrowStep TreeWf TreeProofs
  FitProofs FitSplits EvalProofs GrowWeights GrowMono MonoFit Bracket MissTree Booster BoostProofs FitModel.
Import ListNotations.

Section Node.
Context {FS : Floats}.
Variables (tame : fcar (@f32 FS) -> Prop).
Hypotheses (OL : OrdLaws (@f32 FS)) (SL : SubLaws (@f32 FS)) (ML : MonoLaws (@f32 FS) tame).
Variables (policy : GrowPolicy) (pick : pick_fn) (t : Train) (index : list nat) (max_leaves max_depth : nat) (sm : SampleMethod).
Variables (p : SplitParams) (term : list nat) (treat : MissingNodeTreatment) (force : bool).
Notation s := (Branch p term treat force).

Theorem fit_missing_weight : forall nodes st, tree_fit policy pick s t index max_leaves max_depth sm = Some (nodes, st) ->
  treat <> AverageLeafWeight ->
  forall n, In n nodes -> n_is_leaf n = false ->
  exists l r m lw rw, nth_error nodes (n_left n) = Some l /\ nth_error nodes (n_right n) = Some r /\ nth_error nodes (n_missing n) = Some m /\
    n_weight l = (lw * sp_learning_rate p)%f32 /\ n_weight r = (rw * sp_learning_rate p)%f32 /\
    (treat = AverageNodeWeight -> n_weight m =
       ((rw * n_hess r + lw * n_hess l) / (n_hess r + n_hess l) * sp_learning_rate p)%f32) /\
    (treat = TNone -> (n_hess m =? fzero f32)%f32 = true -> n_weight m = n_weight n).
Proof.
  intros nodes st H NT n Hn Hl. apply fit_account in H. destruct H as (root & g & HR & I & L & P & C & S).
  assert (EN : nodes = g_nodes st) by (clear - C NT; destruct treat; simpl in C; congruence).
  clear C. subst nodes. apply In_nth_error in Hn. destruct Hn as [k Hk].
  destruct (INV_node _ _ _ _ _ _ _ I _ _ Hk) as (x & Hx & Ex & -> & V).
  destruct (gnode_leaf s t max_depth _ V Hl) as [si HS]. destruct (gsplit_best _ _ _ _ _ V HS) as [HB _].
  pose proof (chosen_facts s tame OL SL ML _ _ _ HB) as F. pose proof (sf_missing _ _ _ F) as M. cbv beta iota in M.
  destruct M as (i & HM & _ & _ & _ & HW).
  assert (KID : forall k, In k (gchildren x) -> exists m, nth_error (g_nodes st) (gnum k) = Some m /\
    n_weight m = (sn_weight (groot k) * sp_learning_rate p)%f32 /\ n_hess m = sn_hess (groot k)).
  { intros c Hc. assert (Hkg : In c (gall g)) by (eapply gall_trans; eauto; apply gchildren_all; auto).
    exists (gnode s c). split; [exact (gall_agree s _ _ (iv_agree _ _ _ _ _ _ _ I) _ Hkg)|].
    destruct (gnode_facts s t max_depth c) as (_ & _ & Q1 & Q2 & _); [|auto].
    apply (gall_valid s t max_depth g); auto. apply (iv_valid _ _ _ _ _ _ _ I). }
  destruct (gsplit_children _ _ _ _ _ V HS) as (gl & gr & Hil & Hir & El & Er & Cl & Cr & Wl & Wr).
  destruct (branch_ghost t max_depth p term treat force x V Hl) as (sn & rows & si' & m & l & r & mh & mi & mleaf & i' & Exx & Vm & GM & NL & NR & HM' & HI).
  assert (Him : In m (gchildren x)) by (rewrite Exx; simpl; auto).
  assert (ES : si' = si) by (rewrite Exx in HS; simpl in HS; congruence). subst si'.
  assert (EI : i' = i) by (destruct HM' as [[E _]|[E _]], HM as [E'|E']; rewrite E in E'; try discriminate; injection E'; auto). subst i'.
  destruct (KID _ Hil) as (nl & Hnl & Wnl & Hhl). destruct (KID _ Hir) as (nr & Hnr & Wnr & Hhr). destruct (KID _ Him) as (nm & Hnm & Wnm & Hhm).
  exists nl, nr, nm, (ni_weight (si_left si)), (ni_weight (si_right si)).
  rewrite El, Er. split; auto. split; auto. split; [rewrite Exx; simpl; exact Hnm|].
  rewrite Wnl, Wnr, Wl, Wr. split; auto. split; auto.
  assert (GW : sn_weight (groot m) = ni_weight mi) by (rewrite GM; reflexivity).
  assert (GH : sn_hess (groot m) = ni_cover mi) by (rewrite GM; reflexivity).
  assert (EX : groot x = sn) by (rewrite Exx; reflexivity).
  split.
  - intros ET. rewrite Wnm, GW, HI, ET. simpl. rewrite HW, ET. simpl. rewrite Hhl, Hhr, Cl, Cr. reflexivity.
  - intros ET EZ. destruct (gnode_facts s t max_depth x V) as (_ & _ & _ & -> & _). rewrite Wnm, GW, HI, ET.
    rewrite Hhm, GH, HI, ET in EZ. simpl in *. rewrite HW, ET. simpl. rewrite EZ. simpl. reflexivity.
Qed.
End Node.

Section Model.
Context {FS : Floats}.
(** Every tree of a fitted model comes from [tree_fit] with the parameters of the model. *)
Lemma model_tree : forall E b data y w es b', clean b -> fit E b data y w es = Some (b', None) ->
  forall tr, In tr (gb_trees b') -> exists pick t index st,
    tree_fit (p_grow_policy (gb_params b)) pick (splitter_of (gb_params b)) t index (p_max_leaves (gb_params b)) (p_max_depth (gb_params b))
      (p_sample_method (gb_params b)) = Some (tr, st).
Proof.
  intros E b data y w es b' C H tr Ht. apply fit_ok in H. destruct H as [_ H].
  destruct (fit_trees_BI _ _ _ _ _ _ _ C H) as (bd & base & l & HB & HBS & EB & B & _).
  apply In_nth_error in Ht. destruct Ht as [k Hk]. rewrite EB in Hk.
  pose proof (bi_trees _ _ _ _ _ _ _ _ _ _ _ _ _ B _ _ Hk) as (yhat & n & chosen & grad & hess & n' & cols & n'' & st & _ & _ & _ & HT).
  eauto 10.
Qed.

Lemma model_features : forall E b data y w es b', clean b -> rng_ok E (gb_params b) -> fit E b data y w es = Some (b', None) ->
  forall tr n, In tr (gb_trees b') -> In n tr -> n_is_leaf n = false -> n_split_feature n < m_cols data.
Proof.
  intros E b data y w es b' C RO H tr n Ht Hn Hl. apply fit_ok in H. destruct H as [_ H].
  destruct (fit_trees_BI _ _ _ _ _ _ _ C H) as (bd & base & l & HB & HBS & EB & B & _).
  apply In_nth_error in Ht. destruct Ht as [k Hk]. rewrite EB in Hk.
  eapply tree_step_features; [exact RO|exact (bi_trees _ _ _ _ _ _ _ _ _ _ _ _ _ B _ _ Hk)|exists n; auto].
Qed.

Lemma validate_ok : forall p, validate_parameters p = None ->
  validate_positive_float f32 (p_learning_rate p) = true /\ validate_positive_float f32 (p_l2 p) = true /\
  validate_positive_float f32 (p_min_leaf_weight p) = true.
Proof.
  intros p VP. unfold validate_parameters in VP.
  repeat match type of VP with (if ?c then _ else _) = None => destruct c eqn:?; [|discriminate] end. auto.
Qed.
Lemma splitter_params : forall p,
  sp_learning_rate (params (splitter_of p)) = p_learning_rate p /\ sp_max_delta_step (params (splitter_of p)) = p_max_delta_step p.
Proof. intros p. unfold splitter_of. destruct (p_create_missing_branch p); auto. Qed.

Variables (tame32 : fcar (@f32 FS) -> Prop).
Hypotheses (OL : OrdLaws (@f32 FS)) (SL : SubLaws (@f32 FS)) (ML : MonoLaws (@f32 FS) tame32).

Theorem model_delta : forall E b data y w es b', clean b -> validate_parameters (gb_params b) = None ->
  fit E b data y w es = Some (b', None) -> no_average (splitter_of (gb_params b)) ->
  let m := p_max_delta_step (gb_params b) in BoundLaws f32 m -> feq f32 m (fzero f32) = false ->
  forall tr n, In tr (gb_trees b') -> In n tr -> (m * p_learning_rate (gb_params b) <? fabs f32 (n_weight n))%f32 = false.
Proof.
  intros E b data y w es b' C VP H NA m BL HM tr n Ht Hn.
  destruct (model_tree _ _ _ _ _ _ _ C H tr Ht) as (pick & t & index & st & HT).
  destruct (splitter_params (gb_params b)) as [X1 X2]. destruct (validate_ok _ VP) as (V1 & _).
  unfold m in *. rewrite <- X1, <- X2 in *. eapply (fit_delta _ _ _ _ _ _ _ _ tame32); eauto.
  apply validated; auto.
Qed.

Theorem model_brackets : forall E b data y w es b', clean b -> validate_parameters (gb_params b) = None ->
  fit E b data y w es = Some (b', None) ->
  p_create_missing_branch (gb_params b) = true -> p_force_children_to_bound_parent (gb_params b) = true ->
  p_missing_node_treatment (gb_params b) <> AverageLeafWeight ->
  forall tr n l r, In tr (gb_trees b') -> In n tr -> n_is_leaf n = false ->
  nth_error tr (n_left n) = Some l -> nth_error tr (n_right n) = Some r ->
  brackets f32 (n_weight l) (n_weight r) (n_weight n).
Proof.
  intros E b data y w es b' C VP H HC HF HT tr n l r Ht Hn Hlf Hl Hr.
  destruct (model_tree _ _ _ _ _ _ _ C H tr Ht) as (pick & t & index & st & HTF).
  destruct (splitter_params (gb_params b)) as [X1 X2]. destruct (validate_ok _ VP) as (V1 & _).
  eapply (fit_brackets tame32 OL SL ML); [exact HTF| | |rewrite X1; apply validated; auto|exact Hn|exact Hlf|exact Hl|exact Hr].
  - unfold splitter_of, forces. rewrite HC. auto.
  - unfold splitter_of. rewrite HC. intros q term f E1. injection E1. intros. subst. congruence.
Qed.

Variables (tame64 : fcar (@f64 FS) -> Prop).
Hypotheses (OL64 : OrdLaws (@f64 FS)) (ML64 : MonoLaws (@f64 FS) tame64)
  (CONV : forall a b : F32, (b <? a)%f32 = false -> (to64 b <? to64 a)%f64 = false).

(** C24 when every column is constrained: no condition on the shape of the trees. *)
Theorem model_monotone_all : forall E b data y w es b', clean b -> validate_parameters (gb_params b) = None -> rng_ok E (gb_params b) ->
  fit E b data y w es = Some (b', None) ->
  no_average (splitter_of (gb_params b)) ->
  (forall f, f < m_cols data -> constrained (splitter_of (gb_params b)) f) ->
  forall shs par data' preds i1 i2 f v1 v2 p1 p2, f < m_cols data ->
  predict shs b' data' par = Some preds -> length (m_index data') = m_rows data' ->
  nth_error preds i1 = Some p1 -> nth_error preds i2 = Some p2 ->
  forall r1 r2, nth_error (m_index data') i1 = Some r1 -> nth_error (m_index data') i2 = Some r2 ->
  m_get data' r1 f = Some v1 -> m_get data' r2 f = Some v2 ->
  is_missing v1 (p_missing (gb_params b)) = Some false -> is_missing v2 (p_missing (gb_params b)) = Some false ->
  (forall k, k <> f -> m_get data' r1 k = m_get data' r2 k) -> (v1 <=? v2)%f64 = true ->
  ordered (splitter_of (gb_params b)) f f64 p1 p2.
Proof.
  intros E b data y w es b' C VP RO H NA HC shs par data' preds i1 i2 f v1 v2 p1 p2 HF HP HI N1 N2 r1 r2 HR1 HR2 G1 G2 M1 M2 SAME LE.
  eapply (model_monotone tame32 tame64 OL OL64 SL ML ML64 CONV); eauto.
  intros tr Ht n c m Hn Hl Hc Hm Hlm _. apply HC. eapply model_features; eauto. eapply nth_error_In; eauto.
Qed.
End Model.
