(** In exact arithmetic every value of a fitted tree is finite. *)
From Coq Require Import Reals Lra List Arith NArith Lia Bool Permutation.
From Flocq Require Import Core.Raux.
From Verif Require Import Prelude Float FloatX FloatLaws FloatMono OrdProofs Data Utils UtilsX Binning Histogram HistogramX Node Splitter
  SplitProofs EvalProofs Tree GrowProofs GrowInv GrowStep TreeWf TreeProofs FitProofs FitSplits PathProofs RouteX RouteFit
  GrowWeights MissTree.
Import ListNotations.
Local Open Scope R_scope.

Definition xpos (x : xr) : Prop := exists r, x = Fin r /\ 0 < r.
Definition xnonneg (x : xr) : Prop := exists r, x = Fin r /\ 0 <= r.
Lemma xnonneg_fin : forall x, xnonneg x -> xfin x.
Proof. intros x (r & -> & _). exists r. reflexivity. Qed.
Lemma xpos_nonneg : forall x, xpos x -> xnonneg x.
Proof. intros x (r & -> & H). exists r. split; auto. lra. Qed.

(** *** The clean-up of AverageLeafWeight *)
Definition calm_node (n : @Node XF) : Prop := xfin (n_weight n) /\ xnonneg (n_hess n).
Fixpoint calm_tree (x : @itree XF) : Prop :=
  match x with
  | IL n => calm_node n
  | IB2 n _ l r => calm_node n /\ calm_tree l /\ calm_tree r
  | IB3 n m l r => calm_node n /\ xpos (n_hess (iroot l)) /\ calm_tree m /\ calm_tree l /\ calm_tree r
  end.
Lemma calm_root : forall x, calm_tree x -> calm_node (iroot x).
Proof. destruct x; simpl; tauto. Qed.

Lemma cavg_fin : forall x, calm_tree x -> xfin (@cavg XF x).
Proof.
  induction x as [n|n mr l IHl r IHr|n m IHm l IHl r IHr]; intros H; cbn [calm_tree] in H; cbn [cavg].
  - apply H.
  - apply H.
  - destruct H as (Hn & (lh & EL & LP) & Hm & Hl & Hr).
    destruct (IHl Hl) as [la ->]. destruct (IHr Hr) as [ra ->].
    destruct (proj2 (calm_root _ Hr)) as (rh & ER & RP). destruct (proj2 (calm_root _ Hm)) as (mh & EM & MP). destruct (IHm Hm) as [ma EA].
    rewrite EL, ER, EM, EA. clear - LP RP MP.
    change (@to64 XF) with (fun x : xr => x). cbv beta. change (@fadd (@f64 XF)) with xadd. change (@fmul (@f64 XF)) with xmul.
    change (@fdiv (@f64 XF)) with xdiv. change (fzero (@f64 XF)) with (Fin 0).
    destruct (ileaf m); rewrite !xmul_fin, !xadd_fin, xdiv_fin by lra; eexists; reflexivity.
Qed.

Lemma cleaned_fin : forall x, calm_tree x -> forall n, In n (inodes (@cleaned XF x)) -> xfin (n_weight n).
Proof.
  induction x as [n|n mr l IHl r IHr|n m IHm l IHl r IHr]; intros H n' Hn.
  - simpl in Hn. destruct Hn as [<-|[]]. apply H.
  - simpl in Hn, H. destruct H as (H1 & H2 & H3).
    assert (ALL : forall x, calm_tree x -> forall n, In n (inodes x) -> xfin (n_weight n)).
    { clear. induction x as [n|n mr l IHl r IHr|n m IHm l IHl r IHr]; simpl; intros H n' Hn.
      - destruct Hn as [<-|[]]. apply H.
      - rewrite in_app_iff in Hn. destruct H as (H1 & H2 & H3). destruct Hn as [<-|[Hn|Hn]]; [apply H1| |]; auto.
      - rewrite !in_app_iff in Hn. destruct H as (H1 & _ & H2 & H3 & H4). destruct Hn as [<-|[Hn|[Hn|Hn]]]; [apply H1| | |]; auto. }
    rewrite in_app_iff in Hn. destruct Hn as [<-|[Hn|Hn]]; [apply H1| |]; eauto.
  - pose proof (cavg_fin _ H) as A. cbn [cleaned inodes] in Hn. set (a := @cavg XF (IB3 n m l r)) in *.
    cbn [calm_tree] in H. destruct H as (H1 & _ & H2 & H3 & H4).
    cbn [In] in Hn. rewrite !in_app_iff in Hn. destruct Hn as [<-|[Hn|[Hn|Hn]]]; [exact A| |auto|auto].
    destruct m as [k|k ? ? ?|k mm ml mr']; auto. simpl in Hn. destruct Hn as [<-|[]]. exact A.
Qed.

(** *** Growing *)
Section Fin.
Variables (S : Sorts) (data : Matrix xr) (sw : list xr) (nbins : nat) (missing : xr) (bd : @BinnedData XF).
Variables (policy : GrowPolicy) (pick : pick_fn) (s : @Splitter XF) (t : @Train XF) (index : list nat).
Variables (max_leaves max_depth : nat) (sm : SampleMethod).
Notation p := (params s).
Hypothesis TD : trained S data sw nbins missing bd s t index sm.
Variables (l1 l2 mds lr : R).
Hypotheses (E1 : sp_l1 p = Fin l1) (P1 : 0 <= l1) (E2 : sp_l2 p = Fin l2) (P2 : 0 <= l2)
  (E3 : sp_max_delta_step p = Fin mds) (P3 : 0 <= mds) (E4 : sp_learning_rate p = Fin lr).
Hypothesis HN : forall x, In x (tr_hess t) -> xnonneg x.
Hypothesis RT : 0 < sumR (map (fun i => val (nth i (tr_hess t) (Fin 0))) index) + l2.

Lemma hess_sum_nonneg : forall rows, 0 <= sumR (map (fun i => val (nth i (tr_hess t) (Fin 0))) rows).
Proof.
  intros rows. apply sumR_nonneg. intros x Hx. apply in_map_iff in Hx. destruct Hx as (i & <- & _).
  destruct (nth_in_or_default i (tr_hess t) (Fin 0)) as [Hi|E]; [|setoid_rewrite E; simpl; lra].
  destruct (HN _ Hi) as (r & E & Hr). setoid_rewrite E. simpl. auto.
Qed.

Lemma cover_pos : forall c : xr, @flt (@f32 XF) c (sp_min_leaf_weight p) = false -> xlt (xadd c (Fin l2)) (Fin 0) = false.
Proof.
  intros c H. destruct (td_mlw _ _ _ _ _ _ _ _ _ _ TD) as (mlw & EM & MP). rewrite EM in H.
  destruct c as [c| | |]; simpl in *; auto; try discriminate. destruct (Rlt_boolP c mlw) as [[E _]|[_ E]]; [congruence|].
  destruct (Rlt_boolP (c + l2) 0) as [[_ E']|[E' _]]; auto. lra.
Qed.
Lemma gain_fin : forall g c w : xr, xlt (xadd c (Fin l2)) (Fin 0) = false ->
  xlt NInf (@gain_given_weight XF (Fin l2) g c w) = true -> xfin w.
Proof. intros g c w HC HG. unfold gain_given_weight in HG. exact (FloatMono.ml_gain _ _ x_mono_laws _ _ _ HG HC). Qed.

Lemma ggw_fin : forall g c w : xr, xfin g -> xfin c -> xfin w -> xfin (@gain_given_weight XF (Fin l2) g c w).
Proof. intros g c w [a ->] [b ->] [d ->]. unfold gain_given_weight. eexists. reflexivity. Qed.
Lemma sums_fin : forall n rows, sums_ok t n rows -> xfin (sn_grad n) /\ xfin (sn_hess n).
Proof. intros n rows [A B]. rewrite A, B. split; eexists; reflexivity. Qed.

(** weights and gains of all nodes while growing *)
Lemma ghost_fin : forall nodes st, @tree_fit XF policy pick s t index max_leaves max_depth sm = Some (nodes, st) ->
  forall root g fcols ccols, @root_node XF s t index sm = Some root -> INV s t max_depth root index st g -> routed t fcols ccols g ->
  forall x, In x (gall g) -> xfin (sn_weight (groot x)) /\ xfin (sn_gain (groot x)).
Proof.
  intros nodes st H root g fcols ccols HR I R.
  assert (SUM : forall x, In x (gall g) -> xnonneg (sn_hess (groot x))).
  { intros x Hx. destruct (routed_sums _ _ _ _ R _ Hx) as [_ SH]. rewrite SH. eexists. split; [reflexivity|]. apply hess_sum_nonneg. }
  assert (SF : forall x, In x (gall g) -> xfin (sn_grad (groot x)) /\ xfin (sn_hess (groot x))).
  { intros x Hx. apply (sums_fin _ (grows x)). apply (routed_sums _ _ _ _ R _ Hx). }
  apply (ghost_ind_in s t max_depth (fun x => xfin (sn_weight (groot x)) /\ xfin (sn_gain (groot x))) g); [|apply (iv_valid _ _ _ _ _ _ _ I)|apply incl_refl|].
    - intros x c Hx V Hc [Wx Gx].
      assert (HC : In c (gall g)) by (eapply gall_trans; eauto; apply gchildren_all; auto).
      assert (HSI : exists si, gsplit x = Some si) by (destruct x; simpl in Hc; [destruct Hc| |]; simpl; eauto).
      destruct HSI as [si HSI]. destruct (gsplit_best _ _ _ _ _ V HSI) as [HB _].
      pose proof (@chosen_facts XF s x_tame x_ord_laws x_sub_laws x_mono_laws _ _ _ HB) as F.
      assert (FL : xfin (ni_weight (si_left si))).
      { destruct (sf_gain_l _ _ _ F) as [O EG]. rewrite EG, E2 in O.
        eapply gain_fin; [|exact O]. apply cover_pos. apply (sf_cover_l _ _ _ F). }
      assert (FR : xfin (ni_weight (si_right si))).
      { destruct (sf_gain_r _ _ _ F) as [O EG]. rewrite EG, E2 in O.
        eapply gain_fin; [|exact O]. apply cover_pos. apply (sf_cover_r _ _ _ F). }
      pose proof (SUM _ HC) as SC. destruct (SF _ HC) as [CG CH].
      assert (GL : xfin (ni_grad (si_left si)) -> xfin (ni_cover (si_left si)) -> xfin (ni_gain (si_left si))).
      { intros A B. destruct (sf_gain_l _ _ _ F) as [_ EG]. rewrite EG, E2. apply ggw_fin; auto. }
      assert (GR : xfin (ni_grad (si_right si)) -> xfin (ni_cover (si_right si)) -> xfin (ni_gain (si_right si))).
      { intros A B. destruct (sf_gain_r _ _ _ F) as [_ EG]. rewrite EG, E2. apply ggw_fin; auto. }
      inversion V; subst; simpl in Hc, HSI; [destruct Hc| |]; injection HSI as ->.
      + destruct Hc as [<-|[<-|[]]]; match goal with H : groot ?g = _ |- context [groot ?g] => rewrite H in CG, CH |- *; simpl in CG, CH |- *; auto end.
      + destruct Hc as [<-|[<-|[<-|[]]]];
          [|match goal with H : groot ?g = _ |- context [groot ?g] => rewrite H in CG, CH |- *; simpl in CG, CH |- *; auto end
           |match goal with H : groot ?g = _ |- context [groot ?g] => rewrite H in CG, CH |- *; simpl in CG, CH |- *; auto end].
        match goal with H : split3 _ _ _ _ _ _ _ _ _ _ _ _ _ |- _ => destruct H as [f q term treat force i HS' _ HM HI _ _ _] end.
        match goal with H : groot m = _ |- _ => rewrite H in SC, CG, CH |- * end. simpl in SC, CG, CH |- *.
        pose proof (sf_missing _ _ _ F) as M. rewrite HS' in M. destruct M as (i' & HM' & _ & O & EG & _).
        assert (i' = i) by (destruct HM as [[E _]|[E _]], HM' as [E'|E']; rewrite E in E'; try discriminate; injection E'; auto). subst i'.
        assert (EI : sp_l2 q = Fin l2) by (rewrite HS' in E2; exact E2).
        assert (FI : xfin (ni_weight i)).
        { rewrite EG in O. cbn [params] in O. rewrite EI in O. eapply gain_fin; [|exact O].
          assert (SC' : xnonneg (ni_cover i)) by (rewrite HI in SC; destruct treat; exact SC).
          destruct SC' as (r0 & -> & Hr). simpl. destruct (Rlt_boolP (r0 + l2) 0) as [[_ ?]|[? _]]; auto. lra. }
        assert (FGI : xfin (ni_gain i)).
        { rewrite EG. cbn [params]. rewrite EI. rewrite HI in CG, CH. apply ggw_fin; auto; destruct treat; auto. }
        rewrite HI. destruct treat; simpl; auto.
    - rewrite (iv_root _ _ _ _ _ _ _ I).
      pose proof (root_sums_ok _ _ _ _ _ _ _ _ _ _ TD _ HR) as [_ SH].
      unfold root_node in HR. inv_bind HR. destruct v as [[gs hs] so]. inv_bind HR. injection HR as <-. simpl in SH |- *.
      assert (GF : xfin gs).
      { pose proof (root_sums_ok _ _ _ _ _ _ _ _ _ _ TD) as RS. unfold root_node in RS. rewrite E in RS. cbn [bind] in RS. rewrite E0 in RS. cbn [bind] in RS.
        destruct (RS _ eq_refl) as [SG _]. simpl in SG. rewrite SG. eexists; reflexivity. }
      destruct GF as [G ->]. rewrite SH, E1, E2, E3. split.
      + destruct (weight_X l1 l2 mds G (sumR (map (fun i => val (nth i (tr_hess t) (Fin 0))) index)) P1 P3 RT) as (w & EW & _).
        exists w. exact EW.
      + unfold gain. eexists. apply xdiv_fin. apply Rgt_not_eq. exact RT.
Qed.

Lemma grown_fin : forall nodes st, @tree_fit XF policy pick s t index max_leaves max_depth sm = Some (nodes, st) ->
  forall n, In n (g_nodes st) -> calm_node n /\
    (n_is_leaf n = false -> exists l, nth_error (g_nodes st) (n_left n) = Some l /\ xpos (n_hess l)).
Proof.
  intros nodes st H.
  destruct (fit_routed_in _ _ _ _ _ _ policy pick _ _ _ max_leaves max_depth _ TD _ _ H) as (root & g & fcols & ccols & HR & I & R & _).
  assert (SUM : forall x, In x (gall g) -> xnonneg (sn_hess (groot x))).
  { intros x Hx. destruct (routed_sums _ _ _ _ R _ Hx) as [_ SH]. rewrite SH. eexists. split; [reflexivity|]. apply hess_sum_nonneg. }
  assert (FW : forall x, In x (gall g) -> xfin (sn_weight (groot x))).
  { intros x Hx. apply (ghost_fin _ _ H _ _ _ _ HR I R x Hx). }
  intros n Hn. apply In_nth_error in Hn. destruct Hn as [k Hk].
  destruct (INV_node _ _ _ _ _ _ _ I _ _ Hk) as (x & Hx & Ex & -> & V).
  destruct (gnode_facts s t max_depth x V) as (_ & _ & QH & QW & _). split; [split|].
  - rewrite QW, E4. destruct (FW x Hx) as [w ->]. eexists; reflexivity.
  - rewrite QH. auto.
  - intros Hl. destruct (gnode_leaf s t max_depth _ V Hl) as [si HS]. destruct (gsplit_best _ _ _ _ _ V HS) as [HB _].
    pose proof (@chosen_facts XF s x_tame x_ord_laws x_sub_laws x_mono_laws _ _ _ HB) as F.
    destruct (gsplit_children _ _ _ _ _ V HS) as (gl & gr & Hil & Hir & El & Er & Cl & Cr & Wl & Wr).
    assert (Hg : In gl (gall g)) by (eapply gall_trans; eauto; apply gchildren_all; auto).
    exists (gnode s gl). rewrite El. split; [exact (gall_agree s _ _ (iv_agree _ _ _ _ _ _ _ I) _ Hg)|].
    destruct (gnode_facts s t max_depth gl) as (_ & _ & QL & _); [apply (gall_valid s t max_depth g); auto; apply (iv_valid _ _ _ _ _ _ _ I)|].
    rewrite QL. destruct (SUM gl Hg) as (h & Eh & _). rewrite Eh in Cl |- *. exists h. split; auto.
    pose proof (sf_cover_l _ _ _ F) as CV. rewrite <- Cl in CV.
    destruct (td_mlw _ _ _ _ _ _ _ _ _ _ TD) as (mlw & EM & MP). rewrite EM in CV. simpl in CV.
    destruct (Rlt_boolP h mlw) as [[E _]|[_ E]]; [congruence|]. lra.
Qed.

Theorem fit_finite : forall nodes st, @tree_fit XF policy pick s t index max_leaves max_depth sm = Some (nodes, st) ->
  forall n, In n nodes -> xfin (n_weight n).
Proof.
  intros nodes st H n Hn. pose proof (grown_fin _ _ H) as G.
  assert (C : nodes = g_nodes st \/ exists q term force, s = Branch q term AverageLeafWeight force).
  { destruct (fit_account _ _ _ _ _ _ _ _ _ _ H) as (_ & _ & _ & _ & _ & _ & C & _). clear - C.
    destruct s as [q|q term [] force]; simpl in C; try (left; congruence). right; eauto. }
  destruct C as [->|(q & term & force & HS)].
  - apply (G n Hn).
  - rewrite HS in H. destruct (@fit_cleaned XF policy pick t index max_leaves max_depth sm q term AverageLeafWeight force eq_refl _ _ H) as (x & R & T & _ & A).
    apply (cleaned_fin x); auto. clear - G R T.
    induction x as [m|m mr l IHl r IHr|m x IHm l IHl r IHr]; [|destruct T|].
    + simpl in R |- *. apply G. destruct R as [R _]. eapply nth_error_In; eauto.
    + cbn [reps] in R. destruct R as (H1 & H2 & H3 & H4 & H5 & H6 & H7 & H8 & H9 & H10). destruct T as (T1 & T2 & T3).
      destruct (G m (nth_error_In _ _ H1)) as [CM CL]. destruct (CL H2) as (lf & HL & PL).
      cbn [calm_tree]. split; auto. split; auto. rewrite H3, (reps_root _ _ H9) in HL. injection HL as <-. auto.
Qed.

(** The recorded gains are finite. *)
Theorem fit_gain_fin : forall nodes st, @tree_fit XF policy pick s t index max_leaves max_depth sm = Some (nodes, st) ->
  forall n, In n nodes -> n_is_leaf n = false -> xfin (n_split_gain n).
Proof.
  intros nodes st H n Hn Hl.
  destruct (fit_routed_in _ _ _ _ _ _ policy pick _ _ _ max_leaves max_depth _ TD _ _ H) as (root & g & fcols & ccols & HR & I & R & AG & LN & ND & FP & _).
  pose proof (ghost_fin _ _ H _ _ _ _ HR I R) as GF.
  apply In_nth_error in Hn. destruct Hn as [k Hk].
  assert (Hin : In k (gnums g)).
  { pose proof (iv_nums _ _ _ _ _ _ _ I) as P. apply (Permutation_in _ (Permutation_sym P)). apply in_seq.
    apply Permutation_length in P. rewrite seq_length in P. apply nth_error_Some_lt in Hk. lia. }
  destruct (gall_by_num _ _ Hin) as (x & Hx & Ex). destruct (AG _ Hx) as (m & EA & EB). rewrite Ex, Hk in EA. injection EA as <-.
  apply reweighted_eq in EB. destruct EB as (_ & _ & _ & _ & _ & R6 & _ & _ & _ & R10 & _).
  pose proof (gall_valid _ _ _ _ (iv_valid _ _ _ _ _ _ _ I) _ Hx) as V.
  rewrite R10 in Hl. destruct (gnode_leaf s t max_depth _ V Hl) as [si HS].
  destruct (gsplit_node _ _ _ _ _ V HS) as (_ & _ & _ & EG). rewrite R6, EG.
  destruct (gsplit_best _ _ _ _ _ V HS) as [HB _].
  pose proof (@chosen_facts XF s x_tame x_ord_laws x_sub_laws x_mono_laws _ _ _ HB) as F.
  destruct (proj2 (GF x Hx)) as [gx EX].
  assert (KID : forall c, In c (gchildren x) -> xfin (sn_gain (groot c))).
  { intros c Hc. apply GF. eapply gall_trans; eauto. apply gchildren_all; auto. }
  unfold get_split_gain. rewrite EX.
  inversion V; subst; simpl in HS; try discriminate; injection HS as ->.
  - pose proof (KID l (or_introl eq_refl)) as KL. pose proof (KID r (or_intror (or_introl eq_refl))) as KR.
    match goal with H : groot l = _ |- _ => rewrite H in KL end. match goal with H : groot r = _ |- _ => rewrite H in KR end. simpl in KL, KR.
    destruct KL as [a ->]. destruct KR as [b ->].
    pose proof (sf_missing _ _ _ F) as M. cbv beta iota in M. destruct M as [-> | ->]; eexists; reflexivity.
  - pose proof (KID m (or_introl eq_refl)) as KM. pose proof (KID l (or_intror (or_introl eq_refl))) as KL.
    pose proof (KID r (or_intror (or_intror (or_introl eq_refl)))) as KR.
    match goal with H : groot l = _ |- _ => rewrite H in KL end. match goal with H : groot r = _ |- _ => rewrite H in KR end.
    match goal with H : groot m = _ |- _ => rewrite H in KM end. simpl in KL, KR, KM.
    destruct KL as [a ->]. destruct KR as [b ->].
    match goal with H : split3 _ _ _ _ _ _ _ _ _ _ _ _ _ |- _ => destruct H as [f q term treat force i HS' _ HM HI _ _ _] end.
    assert (GI : xfin (ni_gain i)) by (rewrite HI in KM; destruct treat; exact KM). destruct GI as [c EC].
    destruct HM as [[-> _]|[-> _]]; rewrite EC; eexists; reflexivity.
Qed.

(** Without a missing branch every node has a positive regularised cover. *)
Theorem fit_cover_pos : forall q, s = Imputer q -> forall nodes st,
  @tree_fit XF policy pick s t index max_leaves max_depth sm = Some (nodes, st) ->
  forall n, In n nodes -> exists h, n_hess n = Fin h /\ 0 < h + l2.
Proof.
  intros q HQ nodes st H.
  destruct (fit_routed_in _ _ _ _ _ _ policy pick _ _ _ max_leaves max_depth _ TD _ _ H) as (root & g & fcols & ccols & HR & I & R & _).
  assert (SUM : forall x, In x (gall g) -> xnonneg (sn_hess (groot x))).
  { intros x Hx. destruct (routed_sums _ _ _ _ R _ Hx) as [_ SH]. rewrite SH. eexists. split; [reflexivity|]. apply hess_sum_nonneg. }
  destruct (td_mlw _ _ _ _ _ _ _ _ _ _ TD) as (mlw & EM & MP).
  assert (BIG : forall c : xr, xnonneg c -> @flt (@f32 XF) c (sp_min_leaf_weight p) = false -> exists h, c = Fin h /\ 0 < h + l2).
  { intros c (h & -> & _) CV. exists h. split; auto. rewrite EM in CV. simpl in CV. destruct (Rlt_boolP h mlw) as [[E _]|[_ E]]; [congruence|]. lra. }
  assert (FW : forall x, In x (gall g) -> exists h, sn_hess (groot x) = Fin h /\ 0 < h + l2).
  { apply (ghost_ind_in s t max_depth (fun x => exists h, sn_hess (groot x) = Fin h /\ 0 < h + l2) g); [|apply (iv_valid _ _ _ _ _ _ _ I)|apply incl_refl|].
    - intros x c Hx V Hc [Wx Gx].
      assert (HC : In c (gall g)) by (eapply gall_trans; eauto; apply gchildren_all; auto).
      assert (HSI : exists si, gsplit x = Some si) by (destruct x; simpl in Hc; [destruct Hc| |]; simpl; eauto).
      destruct HSI as [si HSI]. destruct (gsplit_best _ _ _ _ _ V HSI) as [HB _].
      pose proof (@chosen_facts XF s x_tame x_ord_laws x_sub_laws x_mono_laws _ _ _ HB) as F.
      pose proof (SUM _ HC) as SC. pose proof (sf_cover_l _ _ _ F) as CL. pose proof (sf_cover_r _ _ _ F) as CR.
      inversion V; subst; simpl in Hc, HSI; [destruct Hc| |]; injection HSI as ->.
      + destruct Hc as [<-|[<-|[]]]; match goal with H : groot ?g = _ |- context [groot ?g] => rewrite H in SC |- *; simpl in SC |- *; apply BIG; auto end.
      + match goal with H : split3 _ _ _ _ _ _ _ _ _ _ _ _ _ |- _ => destruct H as [? ? ? ? ? ? HS' _ _ _ _ _ _] end. discriminate HS'.
    - rewrite (iv_root _ _ _ _ _ _ _ I). pose proof (root_sums_ok _ _ _ _ _ _ _ _ _ _ TD _ HR) as [_ SH]. rewrite SH. eauto. }
  assert (nodes = g_nodes st) as ->.
  { destruct (fit_account _ _ _ _ _ _ _ _ _ _ H) as (_ & _ & _ & _ & _ & _ & C & _). clear - C HQ. rewrite HQ in C. simpl in C. congruence. }
  intros n Hn. apply In_nth_error in Hn. destruct Hn as [k Hk].
  destruct (INV_node _ _ _ _ _ _ _ I _ _ Hk) as (x & Hx & Ex & -> & V).
  destruct (gnode_facts s t max_depth x V) as (_ & _ & QH & _). rewrite QH. auto.
Qed.
End Fin.
