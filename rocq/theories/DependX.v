(** Partial dependence and importances under exact arithmetic. *)
From Coq Require Import List Arith Lia Bool Reals Lra String Permutation.
From Verif Require Import Prelude Float FloatX FloatLaws Data DataProofs Utils Binning Histogram HistogramProofs Node Splitter Tree TreeWf PathProofs
  Objective Metric MetricX Sampler Contrib Booster PredictProofs ContribProofs ContribX ImportProofs.
Import ListNotations.
Local Open Scope R_scope.

Notation XNode := (@Node XF).
Notation xtree := (@itree XF).
Definition hs (n : XNode) : R := val (n_hess n).

(** The child a value leads to. *)
Definition chosen (missing v : xr) (n : XNode) : nat :=
  if @cell_missing XF missing v then n_missing n else if xlt v (n_split_value n) then n_left n else n_right n.

Section Shares.
Variables (f : nat) (missing v : xr).
(** Share of child c among children with the total cover [tot]. *)
Definition part (n : XNode) (c : xtree) (tot : R) : R :=
  if (n_split_feature n =? f)%nat then (if (chosen missing v n =? inum c)%nat then 1 else 0) else hs (iroot c) / tot.
Definition scale (q : R) (l : list (R * XNode)) : list (R * XNode) := map (fun '(p, n) => (q * p, n)) l.

(** Every leaf with the product of the shares on the way to it. *)
Fixpoint shares (x : xtree) : list (R * XNode) :=
  match x with
  | IL n => [(1, n)]
  | IB2 n _ l r => let tot := hs (iroot l) + hs (iroot r) in scale (part n l tot) (shares l) ++ scale (part n r tot) (shares r)
  | IB3 n m l r =>
      let tot := hs (iroot l) + hs (iroot r) + hs (iroot m) in
      scale (part n l tot) (shares l) ++ scale (part n r tot) (shares r) ++ scale (part n m tot) (shares m)
  end.
Definition expectation (l : list (R * XNode)) : R := sumR (map (fun '(p, n) => p * val (n_weight n)) l).

Lemma expectation_app : forall a b, expectation (a ++ b) = expectation a + expectation b.
Proof. intros. unfold expectation. rewrite map_app, sumR_app. reflexivity. Qed.
Lemma expectation_scale : forall q l, expectation (scale q l) = q * expectation l.
Proof.
  intros q l. unfold expectation, scale. rewrite map_map. rewrite <- sumR_map_scal. apply (f_equal sumR). apply map_ext. intros [p n]. lra.
Qed.

(** each leaf occurs once *)
Lemma shares_leaves : forall t x, reps t x -> Permutation (map snd (shares x)) (filter n_is_leaf (inodes x)).
Proof.
  assert (SC : forall q l, map snd (scale q l) = map snd l).
  { intros q l. unfold scale. rewrite map_map. apply map_ext. intros []. reflexivity. }
  intros t. induction x as [n|n mr l IHl r IHr|n m IHm l IHl r IHr]; intros H; simpl in H; cbn [shares inodes filter]; cbv zeta.
  - destruct H as [_ ->]. auto.
  - destruct H as (H1 & H2 & H3 & H4 & H5 & H6 & H7). rewrite H2, map_app, !SC, filter_app2. apply Permutation_app; auto.
  - destruct H as (H1 & H2 & H3 & H4 & H5 & H6 & H7 & H8 & H9 & H10). rewrite H2, !map_app, !SC, !filter_app2.
    rewrite (Permutation_app_comm (filter _ (inodes m))). rewrite <- app_assoc. repeat apply Permutation_app; auto.
Qed.

(** covers finite; at splits on other features the children's covers do not cancel *)
Definition child_total (t : list XNode) (n : XNode) : R :=
  let h c := match nth_error t c with Some m => hs m | None => 0 end in
  h (n_left n) + h (n_right n) + (if has_missing_branch n then h (n_missing n) else 0).
Definition covers_ok (t : list XNode) : Prop :=
  (forall n, In n t -> xfin (n_hess n)) /\
  forall n, In n t -> n_is_leaf n = false -> n_split_feature n <> f -> child_total t n <> 0.

Lemma chosen_spec : forall n : XNode, @valid_cell XF missing v -> @get_child_idx XF n v missing = Some (chosen missing v n).
Proof. intros n V. exact (proj2 (@child_spec XF n v missing) V). Qed.

Lemma pd_X : forall t x, well_formed t -> reps t x -> finite_weights t -> covers_ok t -> @valid_cell XF missing v ->
  forall fuel p, (iheight x < fuel)%nat ->
  @partial_dependence XF fuel t (inum x) f v (Fin p) missing = Some (Fin (p * expectation (shares x))).
Proof.
  intros t x W. 
  assert (FH : forall n k, covers_ok t -> nth_error t k = Some n -> n_hess n = Fin (hs n)).
  { intros n k [F _] Hn. apply xfin_val. apply F. eapply nth_error_In; eauto. }
  induction x as [n|n mr l IHl r IHr|n m IHm l IHl r IHr]; intros R FW FC V fuel p Hf;
    (destruct fuel as [|fuel]; [lia|]); cbn [partial_dependence]; rewrite (reps_root _ _ R); cbn [bind iroot]; simpl in Hf.
  - simpl in R. destruct R as [R ->]. cbn [shares]. unfold expectation. cbn [map]. rewrite sumR_cons. unfold sumR. cbn [fold_right].
    assert (F : n_weight n = Fin (val (n_weight n))) by (apply xfin_val, FW; eapply nth_error_In; eauto).
    rewrite F at 1. change (Some (Fin (p * val (n_weight n))) = Some (Fin (p * (1 * val (n_weight n) + 0)))). do 2 f_equal. lra.
  - pose proof R as R'. simpl in R. destruct R as (H1 & H2 & H3 & H4 & H5 & H6 & H7). rewrite H2. cbn [shares]. cbv zeta.
    rewrite expectation_app, !expectation_scale. unfold part.
    assert (LR : inum l <> inum r) by (rewrite <- H3, <- H4; apply (wf_sides _ W _ _ H1 H2)).
    destruct (Nat.eqb_spec (n_split_feature n) f) as [EF|NF].
    + rewrite (chosen_spec n V). cbn [bind].
      assert (CH : chosen missing v n = inum l \/ chosen missing v n = inum r).
      { unfold chosen. rewrite H3, H4, H5. destruct (@cell_missing XF missing v); [destruct mr; auto|]. destruct (xlt v _); auto. }
      destruct CH as [-> | ->]; rewrite Nat.eqb_refl.
      * rewrite (IHl H6 FW FC V fuel p) by lia. destruct (Nat.eqb_spec (inum l) (inum r)); [tauto|]. do 2 f_equal. lra.
      * rewrite (IHr H7 FW FC V fuel p) by lia. destruct (Nat.eqb_spec (inum r) (inum l)); [congruence|]. do 2 f_equal. lra.
    + rewrite (has_missing_IB2 n mr l r H3 H4 H5), H3, H4, (reps_root _ _ H6), (reps_root _ _ H7). cbn [bind].
      assert (NZ : hs (iroot l) + hs (iroot r) <> 0).
      { destruct FC as [_ FC]. specialize (FC n (nth_error_In _ _ H1) H2 NF). unfold child_total in FC.
        rewrite (has_missing_IB2 n mr l r H3 H4 H5), H3, H4, (reps_root _ _ H6), (reps_root _ _ H7) in FC. lra. }
      rewrite (FH _ _ FC (reps_root _ _ H6)), (FH _ _ FC (reps_root _ _ H7)).
      change (@fadd (@f32 XF) (@fadd (@f32 XF) (Fin (hs (iroot l))) (Fin (hs (iroot r)))) (@fzero (@f32 XF))) with (Fin (hs (iroot l) + hs (iroot r) + 0)).
      change (@fdiv (@f32 XF)) with xdiv. rewrite !xdiv_fin by lra.
      change (@fmul (@f32 XF)) with xmul. rewrite !xmul_fin.
      rewrite (IHl H6 FW FC V) by lia. cbn [bind]. rewrite (IHr H7 FW FC V) by lia. cbn [bind].
      match goal with |- Some ?a = Some (Fin ?b) => change a with (Fin (p * (hs (iroot l) / (hs (iroot l) + hs (iroot r) + 0)) * expectation (shares l) +
        p * (hs (iroot r) / (hs (iroot l) + hs (iroot r) + 0)) * expectation (shares r) + 0)) end.
      do 2 f_equal. rewrite Rplus_0_r at 1. rewrite !(Rplus_0_r (hs (iroot l) + hs (iroot r))). lra.
  - pose proof R as R'. simpl in R. destruct R as (H1 & H2 & H3 & H4 & H5 & H6 & H7 & H8 & H9 & H10). rewrite H2. cbn [shares]. cbv zeta.
    rewrite !expectation_app, !expectation_scale. unfold part.
    assert (LR : inum l <> inum r) by (rewrite <- H3, <- H4; apply (wf_sides _ W _ _ H1 H2)).
    pose proof H6 as ML. pose proof H7 as MR. rewrite H5, H3 in ML. rewrite H5, H4 in MR.
    destruct (Nat.eqb_spec (n_split_feature n) f) as [EF|NF].
    + rewrite (chosen_spec n V). cbn [bind].
      assert (CH : chosen missing v n = inum l \/ chosen missing v n = inum r \/ chosen missing v n = inum m).
      { unfold chosen. rewrite H3, H4, H5. destruct (@cell_missing XF missing v); auto. destruct (xlt v _); auto. }
      destruct CH as [-> |[-> | ->]]; rewrite Nat.eqb_refl.
      * rewrite (IHl H9 FW FC V fuel p) by lia. destruct (Nat.eqb_spec (inum l) (inum r)); [tauto|]. destruct (Nat.eqb_spec (inum l) (inum m)); [congruence|]. do 2 f_equal. lra.
      * rewrite (IHr H10 FW FC V fuel p) by lia. destruct (Nat.eqb_spec (inum r) (inum l)); [congruence|]. destruct (Nat.eqb_spec (inum r) (inum m)); [congruence|]. do 2 f_equal. lra.
      * rewrite (IHm H8 FW FC V fuel p) by lia. destruct (Nat.eqb_spec (inum m) (inum l)); [congruence|]. destruct (Nat.eqb_spec (inum m) (inum r)); [congruence|]. do 2 f_equal. lra.
    + rewrite (has_missing_IB3 n H6 H7), H3, H4, H5, (reps_root _ _ H8), (reps_root _ _ H9), (reps_root _ _ H10). cbn [bind].
      assert (NZ : hs (iroot l) + hs (iroot r) + hs (iroot m) <> 0).
      { destruct FC as [_ FC]. specialize (FC n (nth_error_In _ _ H1) H2 NF). unfold child_total in FC.
        rewrite (has_missing_IB3 n H6 H7), H3, H4, H5, (reps_root _ _ H8), (reps_root _ _ H9), (reps_root _ _ H10) in FC. lra. }
      rewrite (FH _ _ FC (reps_root _ _ H8)), (FH _ _ FC (reps_root _ _ H9)), (FH _ _ FC (reps_root _ _ H10)).
      change (@fadd (@f32 XF) (@fadd (@f32 XF) (Fin (hs (iroot l))) (Fin (hs (iroot r)))) (Fin (hs (iroot m)))) with (Fin (hs (iroot l) + hs (iroot r) + hs (iroot m))).
      change (@fdiv (@f32 XF)) with xdiv. rewrite !xdiv_fin by lra.
      change (@fmul (@f32 XF)) with xmul. rewrite !xmul_fin.
      rewrite (IHm H8 FW FC V) by lia. cbn [bind]. rewrite (IHl H9 FW FC V) by lia. cbn [bind]. rewrite (IHr H10 FW FC V) by lia. cbn [bind].
      match goal with |- Some ?a = Some (Fin ?b) => change a with (Fin (p * (hs (iroot l) / (hs (iroot l) + hs (iroot r) + hs (iroot m))) * expectation (shares l) +
        p * (hs (iroot r) / (hs (iroot l) + hs (iroot r) + hs (iroot m))) * expectation (shares r) +
        p * (hs (iroot m) / (hs (iroot l) + hs (iroot r) + hs (iroot m))) * expectation (shares m))) end.
      do 2 f_equal. lra.
Qed.

(** with covers that are not negative the shares form a distribution over the leaves *)
Definition covers_positive (t : list XNode) : Prop :=
  (forall n, In n t -> xfin (n_hess n) /\ 0 <= hs n) /\ forall n, In n t -> n_is_leaf n = false -> 0 < child_total t n.
Lemma positive_ok : forall t, covers_positive t -> covers_ok t.
Proof. intros t [H1 H2]. split; [intros n Hn; apply H1; auto|]. intros n Hn HL _. specialize (H2 n Hn HL). lra. Qed.

Lemma sumR_fst_scale : forall q l, sumR (map fst (scale q l)) = q * sumR (map fst l).
Proof. intros q l. unfold scale. rewrite map_map, <- sumR_map_scal. apply (f_equal sumR). apply map_ext. intros [p n]. reflexivity. Qed.
Lemma scale_nonneg : forall q l, 0 <= q -> (forall p n, In (p, n) l -> 0 <= p) -> forall p n, In (p, n) (scale q l) -> 0 <= p.
Proof.
  intros q l Q H p n Hp. unfold scale in Hp. apply in_map_iff in Hp. destruct Hp as ([p' n'] & E & Hp'). injection E as <- <-.
  apply Rmult_le_pos; eauto.
Qed.

Lemma shares_distribution : forall t x, well_formed t -> reps t x -> covers_positive t ->
  sumR (map fst (shares x)) = 1 /\ forall p n, In (p, n) (shares x) -> 0 <= p.
Proof.
  intros t x W. induction x as [n|n mr l IHl r IHr|n m IHm l IHl r IHr]; intros R C.
  - split; [unfold sumR; simpl; lra|]. intros p n' [E|[]]. injection E as <- <-. lra.
  - pose proof R as R'. simpl in R. destruct R as (H1 & H2 & H3 & H4 & H5 & H6 & H7). cbn [shares]. cbv zeta.
    destruct (IHl H6 C) as [Sl Pl]. destruct (IHr H7 C) as [Sr Pr].
    destruct C as [C1 C2]. specialize (C2 n (nth_error_In _ _ H1) H2). unfold child_total in C2.
    rewrite (has_missing_IB2 n mr l r H3 H4 H5), H3, H4, (reps_root _ _ H6), (reps_root _ _ H7) in C2.
    destruct (C1 _ (nth_error_In _ _ (reps_root _ _ H6))) as [_ Pl1]. destruct (C1 _ (nth_error_In _ _ (reps_root _ _ H7))) as [_ Pr1].
    assert (LR : inum l <> inum r) by (rewrite <- H3, <- H4; apply (wf_sides _ W _ _ H1 H2)).
    assert (PP : forall c, c = l \/ c = r -> 0 <= part n c (hs (iroot l) + hs (iroot r))).
    { intros c Hc. unfold part. destruct (_ =? _)%nat; [destruct (_ =? _)%nat; lra|].
      apply Rmult_le_pos; [destruct Hc; subst; auto|]. left. apply Rinv_0_lt_compat. lra. }
    split.
    + rewrite map_app, sumR_app, !sumR_fst_scale, Sl, Sr. unfold part. destruct (_ =? _)%nat.
      * assert (CH : chosen missing v n = inum l \/ chosen missing v n = inum r).
        { unfold chosen. rewrite H3, H4, H5. destruct (@cell_missing XF missing v); [destruct mr; auto|]. destruct (xlt v _); auto. }
        destruct CH as [-> | ->]; rewrite Nat.eqb_refl.
        -- destruct (Nat.eqb_spec (inum l) (inum r)); [tauto|lra].
        -- destruct (Nat.eqb_spec (inum r) (inum l)); [congruence|lra].
      * field. lra.
    + intros p n' Hp. apply in_app_iff in Hp. destruct Hp as [Hp|Hp]; (eapply scale_nonneg; [|exact Pl|exact Hp] || (eapply scale_nonneg; [|exact Pr|exact Hp])); apply PP; auto.
  - pose proof R as R'. simpl in R. destruct R as (H1 & H2 & H3 & H4 & H5 & H6 & H7 & H8 & H9 & H10). cbn [shares]. cbv zeta.
    destruct (IHl H9 C) as [Sl Pl]. destruct (IHr H10 C) as [Sr Pr]. destruct (IHm H8 C) as [Sm Pm].
    destruct C as [C1 C2]. specialize (C2 n (nth_error_In _ _ H1) H2). unfold child_total in C2.
    rewrite (has_missing_IB3 n H6 H7), H3, H4, H5, (reps_root _ _ H8), (reps_root _ _ H9), (reps_root _ _ H10) in C2.
    destruct (C1 _ (nth_error_In _ _ (reps_root _ _ H8))) as [_ Pm1]. destruct (C1 _ (nth_error_In _ _ (reps_root _ _ H9))) as [_ Pl1]. destruct (C1 _ (nth_error_In _ _ (reps_root _ _ H10))) as [_ Pr1].
    assert (LR : inum l <> inum r) by (rewrite <- H3, <- H4; apply (wf_sides _ W _ _ H1 H2)).
    pose proof H6 as ML. pose proof H7 as MR. rewrite H5, H3 in ML. rewrite H5, H4 in MR.
    assert (PP : forall c, c = l \/ c = r \/ c = m -> 0 <= part n c (hs (iroot l) + hs (iroot r) + hs (iroot m))).
    { intros c Hc. unfold part. destruct (_ =? _)%nat; [destruct (_ =? _)%nat; lra|].
      apply Rmult_le_pos; [destruct Hc as [|[|]]; subst; auto|]. left. apply Rinv_0_lt_compat. lra. }
    split.
    + rewrite !map_app, !sumR_app, !sumR_fst_scale, Sl, Sr, Sm. unfold part. destruct (_ =? _)%nat.
      * assert (CH : chosen missing v n = inum l \/ chosen missing v n = inum r \/ chosen missing v n = inum m).
        { unfold chosen. rewrite H3, H4, H5. destruct (@cell_missing XF missing v); auto. destruct (xlt v _); auto. }
        destruct CH as [-> |[-> | ->]]; rewrite Nat.eqb_refl.
        -- destruct (Nat.eqb_spec (inum l) (inum r)); [tauto|]. destruct (Nat.eqb_spec (inum l) (inum m)); [congruence|lra].
        -- destruct (Nat.eqb_spec (inum r) (inum l)); [congruence|]. destruct (Nat.eqb_spec (inum r) (inum m)); [congruence|lra].
        -- destruct (Nat.eqb_spec (inum m) (inum l)); [congruence|]. destruct (Nat.eqb_spec (inum m) (inum r)); [congruence|lra].
      * field. lra.
    + intros p n' Hp. rewrite !in_app_iff in Hp. destruct Hp as [Hp|[Hp|Hp]]; [eapply scale_nonneg; [|exact Pl|exact Hp]|eapply scale_nonneg; [|exact Pr|exact Hp]|eapply scale_nonneg; [|exact Pm|exact Hp]]; apply PP; auto.
Qed.

Lemma expectation_bounds : forall (l : list (R * XNode)) lo hi, sumR (map fst l) = 1 -> (forall p n, In (p, n) l -> 0 <= p) ->
  (forall p n, In (p, n) l -> lo <= val (n_weight n) <= hi) -> lo <= expectation l <= hi.
Proof.
  intros l lo hi S P B.
  assert (G : lo * sumR (map fst l) <= expectation l <= hi * sumR (map fst l)).
  { clear S. unfold expectation. induction l as [|[p n] l IH]; [unfold sumR; simpl; lra|]. cbn [map]. rewrite !sumR_cons. simpl fst.
    destruct IH as [I1 I2]; [intros; eapply P; right; eauto|intros; eapply B; right; eauto|].
    specialize (P p n (or_introl eq_refl)). specialize (B p n (or_introl eq_refl)). nra. }
  rewrite S in G. lra.
Qed.
End Shares.

(** no split on f: the value does not matter *)
Lemma shares_indep : forall f missing v v' t x, reps t x -> ~ tree_features t f -> shares f missing v x = shares f missing v' x.
Proof.
  intros f missing v v' t x R NF.
  assert (NE : forall n, nth_error t (n_num n) = Some n -> n_is_leaf n = false -> (n_split_feature n =? f)%nat = false).
  { intros n Hn HL. apply Nat.eqb_neq. intros Q. apply NF. exists n. split; auto. eapply nth_error_In; eauto. }
  induction x as [n|n mr l IHl r IHr|n m IHm l IHl r IHr]; simpl in R; cbn [shares]; auto.
  - destruct R as (H1 & H2 & H3 & H4 & H5 & H6 & H7). cbv zeta. unfold part. rewrite (NE n H1 H2). rewrite IHl, IHr; auto.
  - destruct R as (H1 & H2 & H3 & H4 & H5 & H6 & H7 & H8 & H9 & H10). cbv zeta. unfold part. rewrite (NE n H1 H2). rewrite IHl, IHr, IHm; auto.
Qed.

Lemma par_sum_X : forall sh l, @par_sum XF sh (map Fin l) = Fin (sumR l).
Proof.
  induction sh as [|k a IHa b IHb]; intros l.
  - simpl. unfold fsum. refine (eq_trans (fold_xadd_fin l 0) _). rewrite Rplus_0_l. reflexivity.
  - cbn [par_sum]. rewrite firstn_map, skipn_map.
    refine (eq_trans (f_equal2 xadd (IHa (firstn k l)) (IHb (skipn k l))) _).
    rewrite xadd_fin, <- sumR_app, firstn_skipn. reflexivity.
Qed.

(** The tree as the structure its links describe. *)
Definition tree_shape (t : list XNode) (x : xtree) : Prop := reps t x /\ inum x = 0%nat.

Theorem partial_dependence_X : forall sh b f v base ts, gb_base_score b = Fin base -> @prediction_trees XF b = Some ts ->
  (forall t, In t ts -> well_formed t /\ finite_weights t /\ covers_ok f t) -> @valid_cell XF (p_missing (gb_params b)) v ->
  exists xs, Forall2 tree_shape ts xs /\
    @value_partial_dependence XF sh b f v = Some (Fin (sumR (map (fun x => expectation (shares f (p_missing (gb_params b)) v x)) xs) + base)).
Proof.
  intros sh b f v base ts HB HT H V. set (missing := p_missing (gb_params b)) in *.
  assert (XS : exists xs, Forall2 tree_shape ts xs /\
    mapM (fun t => @tree_value_partial_dependence XF t f v missing) ts = Some (map Fin (map (fun x => expectation (shares f missing v x)) xs))).
  { clear HT. induction ts as [|t ts IH]; [exists []; auto|].
    destruct IH as (xs & F & E); [intros; apply H; right; auto|]. destruct (H t (or_introl eq_refl)) as (W & FW & C).
    destruct (reps_exists t W) as (x & R & R0). exists (x :: xs). split; [constructor; auto; split; auto|].
    cbn [mapM map]. assert (P := pd_X f missing v t x W R FW C V (List.length t) 1). rewrite R0 in P.
    unfold tree_value_partial_dependence at 1. change (@fone (@f32 XF)) with (Fin 1). rewrite P by (rewrite <- (reps_size _ W _ R R0); apply iheight_size).
    cbn [bind]. rewrite E. cbn [bind]. rewrite Rmult_1_l. reflexivity. }
  destruct XS as (xs & F & E). exists xs. split; auto. unfold value_partial_dependence. rewrite HT. cbn [bind]. fold missing.
  unfold missing in E |- *. rewrite E. cbn [bind]. rewrite HB.
  destruct (p_parallel (gb_params b)).
  - rewrite par_sum_X. reflexivity.
  - refine (f_equal Some (eq_trans (f_equal2 xadd (par_sum_X Seq _) eq_refl) _)). reflexivity.
Qed.

(** leaves of the tree *)
Lemma shares_in : forall f missing v t x p n, well_formed t -> reps t x -> inum x = 0%nat -> In (p, n) (shares f missing v x) -> In n t /\ n_is_leaf n = true.
Proof.
  intros f missing v t x p n W R R0 H. assert (Q : In n (map snd (shares f missing v x))) by (change n with (snd (p, n)); apply in_map; auto).
  apply (Permutation_in _ (shares_leaves f missing v t x R)) in Q. apply filter_In in Q. destruct Q as [Q1 Q2]. split; auto.
  apply (Permutation_in _ (inodes_perm t x W R R0)); auto.
Qed.

Theorem partial_dependence_bounds : forall sh b f v base ts lo hi r, gb_base_score b = Fin base -> @prediction_trees XF b = Some ts ->
  (forall t, In t ts -> well_formed t /\ finite_weights t /\ covers_positive t) -> @valid_cell XF (p_missing (gb_params b)) v ->
  (forall t n, In t ts -> In n t -> n_is_leaf n = true -> lo t <= val (n_weight n) <= hi t) ->
  @value_partial_dependence XF sh b f v = Some r -> exists d, r = Fin d /\ base + sumR (map lo ts) <= d <= base + sumR (map hi ts).
Proof.
  intros sh b f v base ts lo hi r HB HT H V BD HR.
  destruct (partial_dependence_X sh b f v base ts HB HT) as (xs & F & E); auto.
  { intros t Ht. destruct (H t Ht) as (W & FW & C). split; auto. split; auto. apply positive_ok; auto. }
  rewrite HR in E. injection E as ->. eexists. split; [reflexivity|].
  enough (G : sumR (map lo ts) <= sumR (map (fun x => expectation (shares f (p_missing (gb_params b)) v x)) xs) <= sumR (map hi ts)) by lra.
  clear HR HT. induction F as [|t x ts xs [R R0] F IH]; [unfold sumR; simpl; lra|]. cbn [map]. rewrite !sumR_cons.
  destruct (H t (or_introl eq_refl)) as (W & FW & C). destruct (shares_distribution f (p_missing (gb_params b)) v t x W R C) as [S P].
  assert (B := expectation_bounds (shares f (p_missing (gb_params b)) v x) (lo t) (hi t) S P).
  destruct B as [B1 B2].
  { intros p n Hn. destruct (shares_in _ _ _ _ _ _ _ W R R0 Hn). apply BD; auto. left; auto. }
  destruct IH as [I1 I2]; [intros; apply H; right; auto|intros; apply BD; auto; right; auto|]. lra.
Qed.

Theorem partial_dependence_indep : forall sh sh' b f v v' ts base, gb_base_score b = Fin base -> @prediction_trees XF b = Some ts ->
  (forall t, In t ts -> well_formed t /\ finite_weights t /\ covers_ok f t /\ ~ tree_features t f) ->
  @valid_cell XF (p_missing (gb_params b)) v -> @valid_cell XF (p_missing (gb_params b)) v' ->
  @value_partial_dependence XF sh b f v = @value_partial_dependence XF sh' b f v'.
Proof.
  intros sh sh' b f v v' ts base HB HT H V V'.
  destruct (partial_dependence_X sh b f v base ts HB HT) as (xs & F & E); auto. { intros t Ht. destruct (H t Ht) as (? & ? & ? & ?); auto. }
  destruct (partial_dependence_X sh' b f v' base ts HB HT) as (xs' & F' & E'); auto. { intros t Ht. destruct (H t Ht) as (? & ? & ? & ?); auto. }
  rewrite E, E'. do 3 f_equal.
  clear E E' HT. revert xs' F'. induction F as [|t x ts xs [R R0] F IH]; intros xs' F'; inversion F' as [|? x' ? xs0 [R' R0'] F0]; subst; auto.
  cbn [map]. rewrite !sumR_cons. rewrite (IH (fun t Ht => H t (or_intror Ht)) _ F0). f_equal.
  destruct (H t (or_introl eq_refl)) as (W & FW & C & NF).
  assert (P := pd_X f (p_missing (gb_params b)) v t x W R FW C V (S (max (iheight x) (iheight x'))) 1).
  assert (P' := pd_X f (p_missing (gb_params b)) v t x' W R' FW C V (S (max (iheight x) (iheight x'))) 1).
  rewrite R0 in P. rewrite R0' in P'. rewrite P in P' by lia. specialize (P' ltac:(lia)). injection P' as P'. rewrite !Rmult_1_l in P'. rewrite P'.
  rewrite (shares_indep f _ v v' t x' R' NF). reflexivity.
Qed.

(** *** Importances *)
Lemma sum_from_first_X : forall A (g : A -> xr) l, l <> [] -> (forall a, In a l -> xfin (g a)) -> @sum_from_first XF (map g l) = Fin (sumR (map (fun a => val (g a)) l)).
Proof.
  intros A g [|a l] NE F; [tauto|]. unfold sum_from_first. cbn [map]. 
  replace (map g l) with (map Fin (map (fun a => val (g a)) l)).
  - rewrite (xfin_val (g a)) by (apply F; left; auto). refine (eq_trans (fold_xadd_fin _ _) _). reflexivity.
  - rewrite map_map. apply map_ext_in. intros x Hx. symmetry. apply xfin_val. apply F. right; auto.
Qed.
Lemma natR_sum : forall A (l : list A), sumR (map (fun _ => 1) l) = INR (List.length l).
Proof. induction l as [|a l IH]; [reflexivity|]. cbn [map List.length]. rewrite sumR_cons, S_INR, IH. lra. Qed.

(** What importance method m should report for the splits ns on a feature. *)
Definition importance_value (m : ImportanceMethod) (ns : list XNode) : R :=
  match m with
  | IWeight => INR (List.length ns)
  | ITotalGain => sumR (map (fun n => val (n_split_gain n)) ns)
  | IGain => sumR (map (fun n => val (n_split_gain n)) ns) / INR (List.length ns)
  | ITotalCover => sumR (map (fun n => val (n_hess n)) ns)
  | ICover => sumR (map (fun n => val (n_hess n)) ns) / INR (List.length ns)
  end.
Definition splits_on (b : @Booster XF) (k : nat) : list XNode :=
  filter (fun n => (n_split_feature n =? k)%nat && negb (n_is_leaf n)) (List.concat (gb_trees b)).

Lemma importance_value_perm : forall m a b, Permutation a b -> importance_value m a = importance_value m b.
Proof.
  intros m a b P. destruct m; simpl; rewrite ?(Permutation_length P); auto;
    match goal with |- context [map ?f a] => rewrite (sumR_perm _ _ (Permutation_map f P)) end; reflexivity.
Qed.

Lemma importance_of_X : forall m (ns : list XNode), ns <> [] -> (forall n, In n ns -> xfin (n_split_gain n) /\ xfin (n_hess n)) ->
  @importance_of XF m ns = Fin (importance_value m ns).
Proof.
  intros m ns NE F.
  assert (SG : @sum_from_first XF (map n_split_gain ns) = Fin (sumR (map (fun n => val (n_split_gain n)) ns))) by (apply (sum_from_first_X _ (@n_split_gain XF)); auto; intros; apply F; auto).
  assert (SH : @sum_from_first XF (map n_hess ns) = Fin (sumR (map (fun n => val (n_hess n)) ns))) by (apply (sum_from_first_X _ (@n_hess XF)); auto; intros; apply F; auto).
  assert (S1 : @sum_from_first XF (map (fun _ => @fone (@f32 XF)) ns) = Fin (sumR (map (fun _ => 1) ns))).
  { apply (sum_from_first_X XNode (fun _ => Fin 1)); auto. intros; eexists; reflexivity. }
  assert (NZ : INR (List.length ns) <> 0) by (apply not_0_INR; destruct ns; [tauto|discriminate]).
  assert (NF : @fofnat (@f32 XF) (List.length ns) = Fin (INR (List.length ns))) by reflexivity.
  destruct m; cbn [importance_of importance_value].
  - refine (eq_trans S1 _). rewrite natR_sum. reflexivity.
  - refine (eq_trans (f_equal2 xdiv SG NF) _). apply xdiv_fin; auto.
  - refine (eq_trans (f_equal2 xdiv SH NF) _). apply xdiv_fin; auto.
  - exact SG.
  - exact SH.
Qed.

Lemma splits_on_visits : forall (b : @Booster XF) k vs, Permutation vs (flat_map split_nodes (gb_trees b)) -> Permutation (on_feature k vs) (splits_on b k).
Proof.
  intros b k vs P. unfold on_feature, splits_on. refine (Permutation_trans (Permutation_filter2 _ _ _ _ P) _).
  match goal with |- Permutation ?a ?b => enough (Q : a = b) by (rewrite Q; apply Permutation_refl) end. clear P.
  induction (gb_trees b) as [|t ts IH]; [reflexivity|]. cbn [flat_map List.concat]. rewrite !filter_app2, IH. f_equal. unfold split_nodes.
  induction t as [|n t IHt]; simpl; auto. destruct (n_is_leaf n); simpl; [rewrite andb_false_r; auto|]. rewrite andb_true_r. destruct (_ =? _)%nat; rewrite IHt; auto.
Qed.

Theorem importance_X : forall b m, (forall t, In t (gb_trees b) -> well_formed t) ->
  (forall t n, In t (gb_trees b) -> In n t -> n_is_leaf n = false -> xfin (n_split_gain n) /\ xfin (n_hess n)) ->
  exists imp, @calculate_feature_importance XF b m false = Some imp /\ NoDup (map fst imp) /\
    (forall k v, In (k, v) imp <-> splits_on b k <> [] /\ v = Fin (importance_value m (splits_on b k))) /\
    exists imp', @calculate_feature_importance XF b m true = Some imp' /\ map fst imp' = map fst imp /\
      (sumR (map (fun kv => val (snd kv)) imp) <> 0 ->
       (forall k v, In (k, v) imp -> In (k, Fin (val v / sumR (map (fun kv => val (snd kv)) imp))) imp') /\
       exists ws, map snd imp' = map Fin ws /\ sumR ws = 1).
Proof.
  intros b m W F. destruct (@importance_raw XF b m W) as (imp & vs & E & P & ND & IM).
  assert (FN : forall k n, In n (splits_on b k) -> xfin (n_split_gain n) /\ xfin (n_hess n)).
  { intros k n Hn. unfold splits_on in Hn. apply filter_In in Hn. destruct Hn as [Hn Q]. apply andb_true_iff in Q. destruct Q as [_ Q].
    apply in_concat in Hn. destruct Hn as (t & Ht & Hn). apply (F t n Ht Hn). destruct (n_is_leaf n); [discriminate|auto]. }
  assert (IM' : forall k v, In (k, v) imp <-> splits_on b k <> [] /\ v = Fin (importance_value m (splits_on b k))).
  { intros k v. rewrite IM. pose proof (splits_on_visits b k vs P) as PK.
    assert (NE : on_feature k vs <> [] <-> splits_on b k <> []).
    { split; intros Q1 Q2; apply Q1; rewrite Q2 in PK; [apply Permutation_sym in PK|]; apply Permutation_nil; auto. }
    split.
    - intros [Q ->]. split; [apply NE; auto|]. rewrite (importance_of_X m _ Q).
      + f_equal. apply importance_value_perm; auto.
      + intros n Hn. apply (FN k). eapply Permutation_in; eauto.
    - intros [Q ->]. apply NE in Q. split; auto. rewrite (importance_of_X m _ Q).
      + f_equal. symmetry. apply importance_value_perm; auto.
      + intros n Hn. apply (FN k). eapply Permutation_in; eauto. }
  exists imp. split; auto. split; auto. split; auto.
  destruct (@importance_normalised XF b m imp E) as (EN & PS & _).
  assert (FI : forall k v, In (k, v) imp -> v = Fin (val v)) by (intros k v Hk; apply IM' in Hk; destruct Hk as [_ ->]; reflexivity).
  assert (SO : exists sorted, @sort_f32 XF (map snd imp) = Some sorted).
  { unfold sort_f32. replace (existsb (@fisnan (@f32 XF)) (map snd imp)) with false; [rewrite andb_false_r; eauto|].
    symmetry. apply not_true_iff_false. intros Q. apply existsb_exists in Q. destruct Q as (v & Hv & Nv). apply in_map_iff in Hv. destruct Hv as ([k v'] & <- & Hk).
    simpl in Nv. rewrite (FI _ _ Hk) in Nv. discriminate. }
  destruct SO as [sorted Hs]. rewrite EN, Hs. cbn [bind]. specialize (PS sorted Hs).
  assert (TOT : @fsum (@f32 XF) sorted = Fin (sumR (map (fun kv => val (snd kv)) imp))).
  { assert (VS : forall l : list xr, (forall v, In v l -> v = Fin (val v)) -> @fsum (@f32 XF) l = Fin (sumR (map val l))).
    { intros l Hl. unfold fsum. replace l with (map Fin (map val l)) at 1.
      - refine (eq_trans (fold_xadd_fin (map val l) 0) _). rewrite Rplus_0_l. reflexivity.
      - rewrite map_map. rewrite <- (map_id l) at 2. apply map_ext_in. intros v Hv. symmetry. apply Hl; auto. }
    rewrite VS.
    - f_equal. rewrite (sumR_perm _ _ (Permutation_map val PS)). rewrite map_map. reflexivity.
    - intros v Hv. apply (Permutation_in _ PS) in Hv. apply in_map_iff in Hv. destruct Hv as ([k v'] & <- & Hk). apply (FI _ _ Hk). }
  eexists. split; [reflexivity|]. split.
  { rewrite map_map. apply map_ext. intros []. reflexivity. }
  intros NZ. rewrite TOT. set (T := sumR (map (fun kv : nat * xr => val (snd kv)) imp)) in *.
  assert (MP : map (fun '(k, v) => (k, @fdiv (@f32 XF) v (Fin T))) imp = map (fun kv : nat * xr => (fst kv, Fin (val (snd kv) / T))) imp).
  { apply map_ext_in. intros [k v] Hk. rewrite (FI _ _ Hk) at 1. simpl. f_equal. apply xdiv_fin. auto. }
  split.
  - intros k v Hk. refine (eq_ind_r (fun l => In (k, Fin (val v / T)) l) _ MP). apply in_map_iff. exists (k, v). auto.
  - exists (map (fun kv : nat * xr => val (snd kv) / T) imp). split.
    + refine (eq_trans (f_equal (map snd) MP) _). rewrite !map_map. apply map_ext. intros []. reflexivity.
    + replace (map _ imp) with (map (fun kv : nat * xr => / T * val (snd kv)) imp) by (apply map_ext; intros; unfold Rdiv; lra).
      rewrite sumR_map_scal. fold T. field. auto.
Qed.
