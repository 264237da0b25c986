(** What every split of a fitted tree satisfies. *)
From Coq Require Import List Arith NArith Lia Bool Permutation Sorting.
From Verif Require Import Prelude Float FloatLaws Data DataProofs Utils Histogram HistogramProofs Node Splitter SplitProofs
  Tree GrowProofs GrowInv GrowStep TreeWf TreeProofs FitProofs.
Import ListNotations.

Section Ghost.
Context {FS : Floats}.
Variables (s : Splitter) (t : Train) (max_depth : nat).
Notation gvalid := (gvalid s t max_depth).
Notation p := (params s).

Lemma gvalid_rows : forall g, gvalid g -> forall x, In x (gall g) -> incl (grows x) (grows g).
Proof.
  intros g V. induction V as [n rows Hl|p0 n rows si mr l r sub lh rh E0 E1 E2 E3 E4 P S N1 N2 GL' GR' V1 IH1 V2 IH2
                             |n rows si m l r sub mh lh rh mi ml E1 E2 E3 E4 P S N1 N2 N3 GM' GL' GR' V0 IH0 V1 IH1 V2 IH2]; simpl; intros x Hx.
  - destruct Hx as [<-|[]]. apply incl_refl.
  - destruct Hx as [<-|Hx]; [apply incl_refl|].
    destruct S as [f _ _ _ HP _]. apply pivot_perm in HP.
    assert (PP : Permutation rows (grows l ++ grows r)) by (etransitivity; eauto).
    apply in_app_iff in Hx. intros i Hi. apply (Permutation_in _ (Permutation_sym PP)). apply in_app_iff.
    destruct Hx as [Hx|Hx]; [left; apply (IH1 x)|right; apply (IH2 x)]; auto.
  - destruct Hx as [<-|Hx]; [apply incl_refl|].
    destruct S as [f p' term treat force i _ _ _ _ _ HP _]. apply pivot3_perm in HP.
    assert (PP : Permutation rows (grows m ++ grows l ++ grows r)) by (etransitivity; eauto).
    rewrite !in_app_iff in Hx. intros j Hj. apply (Permutation_in _ (Permutation_sym PP)). rewrite !in_app_iff.
    destruct Hx as [Hx|[Hx|Hx]]; [left; apply (IH0 x)|right; left; apply (IH1 x)|right; right; apply (IH2 x)]; auto.
Qed.

(** The split recorded at an internal ghost node. *)
Definition gsplit (x : gtree) : option SplitInfo :=
  match x with GL _ _ => None | GB2 _ _ si _ _ _ | GB3 _ _ si _ _ _ => Some si end.

Lemma gsplit_best : forall x si, gvalid x -> gsplit x = Some si ->
  best_split s (groot x) (tr_cols t) = Some (Some si) /\ sn_is_missing_leaf (groot x) = false.
Proof.
  intros x si V H. inversion V; subst; simpl in *; try discriminate; injection H as <-.
  - split; auto. match goal with H : split2 _ _ _ _ _ _ _ _ _ _ |- _ => destruct H; auto end.
  - split; auto. match goal with H : split3 _ _ _ _ _ _ _ _ _ _ _ _ _ |- _ => destruct H; auto end.
Qed.

Lemma gsplit_node : forall x si, gvalid x -> gsplit x = Some si ->
  n_is_leaf (gnode s x) = false /\
  n_split_feature (gnode s x) = si_feature si /\ n_split_value (gnode s x) = si_value si /\
  n_split_gain (gnode s x) = get_split_gain (groot x) (si_left si) (si_right si) (si_missing si) (fzero f32).
Proof. intros x si V H. inversion V; subst; simpl in *; try discriminate; injection H as <-; auto. Qed.

Lemma gnode_leaf : forall x, gvalid x -> n_is_leaf (gnode s x) = false -> exists si, gsplit x = Some si.
Proof. intros x V H. inversion V; subst; simpl in *; eauto; congruence. Qed.

(** The ghost children behind the children of the node. *)
Lemma gsplit_children : forall x si, gvalid x -> gsplit x = Some si ->
  exists l r, In l (gchildren x) /\ In r (gchildren x) /\
    n_left (gnode s x) = gnum l /\ n_right (gnode s x) = gnum r /\
    sn_hess (groot l) = ni_cover (si_left si) /\ sn_hess (groot r) = ni_cover (si_right si) /\
    sn_weight (groot l) = ni_weight (si_left si) /\ sn_weight (groot r) = ni_weight (si_right si).
Proof.
  intros x si V H. inversion V; subst; simpl in *; try discriminate; injection H as <-.
  - exists l, r. repeat match goal with H : groot ?g = _ |- _ => 
      pose proof (f_equal sn_hess H); pose proof (f_equal sn_weight H); clear H end. simpl in *. auto 12.
  - exists l, r. repeat match goal with H : groot ?g = _ |- _ => 
      pose proof (f_equal sn_hess H); pose proof (f_equal sn_weight H); clear H end. simpl in *. auto 12.
Qed.
End Ghost.

Section Thms.
Context {FS : Floats}.
Variables (policy : GrowPolicy) (pick : pick_fn) (s : Splitter) (t : Train) (index : list nat)
  (max_leaves max_depth : nat) (sm : SampleMethod).
Notation fit := (tree_fit policy pick s t index max_leaves max_depth sm).
Notation p := (params s).

(** Link from the returned nodes to the account. *)
Lemma fit_ghost : forall nodes st, fit = Some (nodes, st) ->
  exists root g, root_node s t index sm = Some root /\ INV s t max_depth root index st g /\
  forall i n, nth_error nodes i = Some n -> exists x, In x (gall g) /\ gnum x = i /\ gvalid s t max_depth x /\
    reweighted (gnode s x) n.
Proof.
  intros nodes st H. apply fit_account in H. destruct H as (root & g & HR & I & L & P & C & S).
  exists root, g. split; auto. split; auto. intros i n Hn.
  destruct (Forall2_nth_r _ _ _ _ _ S _ _ Hn) as (m & Hm & R).
  destruct (INV_node _ _ _ _ _ _ _ I _ _ Hm) as (x & Hx & E & -> & V). eauto 8.
Qed.

Lemma fit_ghost_child : forall nodes st root g, fit = Some (nodes, st) -> INV s t max_depth root index st g ->
  same_shape (g_nodes st) nodes ->
  forall c, In c (gall g) -> forall n, nth_error nodes (gnum c) = Some n -> reweighted (gnode s c) n.
Proof.
  intros nodes st root g H I S c Hc n Hn.
  destruct (Forall2_nth_r _ _ _ _ _ S _ _ Hn) as (m & Hm & R).
  rewrite (gall_agree s _ _ (iv_agree _ _ _ _ _ _ _ I) _ Hc) in Hm. injection Hm as <-. auto.
Qed.

(** C15 *)
Theorem fit_min_leaf_weight : forall nodes st, fit = Some (nodes, st) ->
  forall n, In n nodes -> n_is_leaf n = false ->
  forall c m, c = n_left n \/ c = n_right n -> nth_error nodes c = Some m ->
  (n_hess m <? sp_min_leaf_weight p)%f32 = false.
Proof.
  intros nodes st H n Hn Hl c m Hc Hm.
  pose proof H as H'. apply fit_account in H'. destruct H' as (root & g & HR & I & L & P & C & S).
  apply In_nth_error in Hn. destruct Hn as [i Hi].
  destruct (Forall2_nth_r _ _ _ _ _ S _ _ Hi) as (m0 & Hm0 & R).
  destruct (INV_node _ _ _ _ _ _ _ I _ _ Hm0) as (x & Hx & E & -> & V).
  apply reweighted_eq in R. destruct R as (_ & _ & _ & _ & _ & _ & R7 & R8 & R9 & R10 & _).
  rewrite R10 in Hl. destruct (gnode_leaf s t max_depth _ V Hl) as [si HS].
  destruct (gsplit_best _ _ _ _ _ V HS) as [HB _].
  destruct (gsplit_children _ _ _ _ _ V HS) as (l & r & Hil & Hir & El & Er & Hhl & Hhr & _).
  assert (COV : (ni_cover (si_left si) <? sp_min_leaf_weight p)%f32 = false /\
                (ni_cover (si_right si) <? sp_min_leaf_weight p)%f32 = false).
  { destruct (best_split_admissible _ _ _ _ HB) as (k & j & A). eapply admissible_cover; eauto. }
  assert (KID : forall k, In k (gchildren x) -> nth_error nodes (gnum k) = Some m -> n_hess m = sn_hess (groot k)).
  { intros k Hk Hn'. assert (Hkg : In k (gall g)) by (eapply gall_trans; eauto; apply gchildren_all; auto).
    pose proof (fit_ghost_child _ _ _ _ H I S _ Hkg _ Hn') as R. apply reweighted_eq in R.
    destruct R as (_ & -> & _).
    apply (gnode_facts s t max_depth k). apply (gall_valid s t max_depth g); auto. apply (iv_valid _ _ _ _ _ _ _ I). }
  destruct Hc as [->| ->].
  - rewrite R8, El in Hm. rewrite (KID l Hil Hm), Hhl. tauto.
  - rewrite R9, Er in Hm. rewrite (KID r Hir Hm), Hhr. tauto.
Qed.

(** The splits of a fitted tree, with the node as it was when it was split. *)
Theorem fit_splits : forall (OL : OrdLaws (@f32 FS)) (SL : SubLaws (@f32 FS)) nodes st, fit = Some (nodes, st) ->
  forall i n, nth_error nodes i = Some n -> n_is_leaf n = false ->
  exists sn si k j,
    sn_num sn = i /\ sn_hess sn = n_hess n /\ sn_depth sn = n_depth n /\
    best_split s sn (tr_cols t) = Some (Some si) /\
    n_split_feature n = si_feature si /\ n_split_value n = si_value si /\
    admissible s sn (tr_cols t) k j si /\ (fzero f32 <? si_gain si)%f32 = true /\
    (forall k' j' si', admissible s sn (tr_cols t) k' j' si' -> (si_gain si' <=? si_gain si)%f32 = true) /\
    (forall k' j' si', before k' j' k j -> admissible s sn (tr_cols t) k' j' si' -> (si_gain si' <? si_gain si)%f32 = true) /\
    (sp_gamma p <? n_split_gain n)%f32 = true.
Proof.
  intros OL SL nodes st H i n Hn Hl. destruct (fit_ghost _ _ H) as (root & g & HR & I & G).
  destruct (G _ _ Hn) as (x & Hx & E & V & R).
  apply reweighted_eq in R. destruct R as (R1 & R2 & R3 & R4 & R5 & R6 & R7 & R8 & R9 & R10 & _).
  rewrite R10 in Hl. destruct (gnode_leaf s t max_depth _ V Hl) as [si HS].
  destruct (gsplit_best _ _ _ _ _ V HS) as [HB _].
  destruct (gsplit_node _ _ _ _ _ V HS) as (_ & F1 & F2 & F3).
  destruct (gnode_facts s t max_depth x V) as (N1 & N2 & N3 & _).
  destruct (best_split_some s (groot x) OL (sl_zero_nan _ SL) _ _ HB) as (k & j & A & HG & M1 & M2).
  exists (groot x), si, k, j.
  split; [exact E|]. split; [congruence|]. split; [congruence|]. split; [auto|].
  split; [congruence|]. split; [congruence|]. split; [auto|]. split; [auto|]. split; [auto|]. split; [auto|].
  rewrite R6, F3. eapply admissible_gain; eauto.
Qed.

(** C16 *)
Corollary fit_gamma : forall (OL : OrdLaws (@f32 FS)) (SL : SubLaws (@f32 FS)) nodes st, fit = Some (nodes, st) ->
  forall n, In n nodes -> n_is_leaf n = false -> (sp_gamma p <? n_split_gain n)%f32 = true.
Proof.
  intros OL SL nodes st H n Hn Hl. apply In_nth_error in Hn. destruct Hn as [i Hi].
  destruct (fit_splits OL SL _ _ H _ _ Hi Hl) as (sn & si & k & j & A). tauto.
Qed.

(** C18, second half: why each leaf is a leaf. *)
Theorem fit_leaves_done : forall (OL : OrdLaws (@f32 FS)) (SL : SubLaws (@f32 FS)) nodes st, fit = Some (nodes, st) ->
  forall i n, nth_error nodes i = Some n -> n_is_leaf n = true ->
  n_leaves nodes + 1 > max_leaves \/
  exists sn, sn_num sn = i /\ sn_hess sn = n_hess n /\ sn_depth sn = n_depth n /\
   (sn_is_missing_leaf sn = true \/ n_depth n = max_depth \/
    forall k j si, admissible s sn (tr_cols t) k j si -> (si_gain si <=? fzero f32)%f32 = true).
Proof.
  intros OL SL nodes st H i n Hn Hl.
  pose proof (fit_depth _ _ _ _ _ _ _ _ _ _ H n (nth_error_In _ _ Hn)) as HD.
  apply fit_account in H. destruct H as (root & g & HR & I & L & P & C & S).
  rewrite (same_shape_n_leaves _ _ S), (INV_n_leaves _ _ _ _ _ _ _ I), <- (iv_leaves _ _ _ _ _ _ _ I).
  destruct P as [P|P]; [right|left; lia].
  destruct (Forall2_nth_r _ _ _ _ _ S _ _ Hn) as (m0 & Hm0 & R).
  destruct (INV_node _ _ _ _ _ _ _ I _ _ Hm0) as (x & Hx & E & -> & V).
  apply reweighted_eq in R. destruct R as (R1 & R2 & R3 & R4 & R5 & R6 & R7 & R8 & R9 & R10 & _).
  rewrite R10 in Hl. destruct (gnode_facts s t max_depth x V) as (N1 & N2 & N3 & N4 & N5 & _).
  apply N5 in Hl. destruct Hl as (sn & rows & ->). simpl in *.
  apply gleaves_gall in Hx. exists sn. repeat (split; [congruence|]).
  destruct (iv_done _ _ _ _ _ _ _ I _ _ Hx) as [HP|[D|[D|D]]].
  - rewrite P in HP. destruct HP.
  - auto.
  - right; left. rewrite R3 in *. lia.
  - right; right. apply (best_split_none s sn OL (sl_zero_nan _ SL)). auto.
Qed.

(** *** C17: only sampled features, only their cut points *)
Variables (fcols : list (list nat)) (ccols : list (list F64)).
Hypothesis HI : hist_inputs (tr_data t) (tr_cuts t) (tr_grad t) (tr_hess t) (tr_cols t) fcols ccols.
Hypothesis Hindex : forall i, In i index -> i < m_rows (tr_data t).
(** Without sampling the rows are all rows in order (gradientbooster.rs:585-590). *)
Hypothesis Hnosample : sm = SNone -> index = seq 0 (m_rows (tr_data t)).

Notation lay := (layout (tr_data t) (tr_cuts t) (tr_cols t) ccols).

Lemma root_hist : forall root, root_node s t index sm = Some root ->
  sn_hist root = hist_spec (tr_data t) (tr_cuts t) (tr_grad t) (tr_hess t) (tr_cols t) fcols ccols index.
Proof.
  intros root H. unfold root_node in H. inv_bind H. destruct v as [[gs hs] sort].
  inv_bind H. injection H as <-. simpl.
  destruct sm eqn:Esm; simpl in E.
  - injection E as <- <- <-. rewrite Hnosample in * by auto.
    rewrite (hist_new_unsorted _ _ _ _ _ _ _ HI) in E0. congruence.
  - inv_bind E. inv_bind E. injection E as <- <- <-. rewrite (hist_new_sorted _ _ _ _ _ _ _ HI) in E0 by auto. congruence.
  - inv_bind E. inv_bind E. injection E as <- <- <-. rewrite (hist_new_sorted _ _ _ _ _ _ _ HI) in E0 by auto. congruence.
Qed.

Lemma hist_of_layout : forall L h, incl L index -> hist_of t L = Some h -> lay h.
Proof.
  intros L h HL H. unfold hist_of in H. rewrite (hist_new_sorted _ _ _ _ _ _ _ HI) in H by auto.
  injection H as <-. eapply layout_spec; eauto.
Qed.

Lemma gvalid_layout : forall g, gvalid s t max_depth g -> incl (grows g) index ->
  (sn_is_missing_leaf (groot g) = false -> lay (sn_hist (groot g))) ->
  forall x, In x (gall g) -> sn_is_missing_leaf (groot x) = false -> lay (sn_hist (groot x)).
Proof.
  intros g V. induction V as [n rows Hl|p0 n rows si mr l r sub lh rh E0 E1 E2 E3 E4 P S N1 N2 GL' GR' V1 IH1 V2 IH2
                             |n rows si m l r sub mh lh rh mi ml E1 E2 E3 E4 P S N1 N2 N3 GM' GL' GR' V0 IH0 V1 IH1 V2 IH2];
    simpl; intros HR HL x Hx.
  - destruct Hx as [<-|[]]. auto.
  - destruct Hx as [<-|Hx]; [auto|]. destruct S as [f _ _ _ HP HH]. apply pivot_perm in HP.
    assert (PP : Permutation rows (grows l ++ grows r)) by (etransitivity; eauto).
    assert (IL : incl (grows l) index).
    { intros i Hi. apply HR. apply (Permutation_in _ (Permutation_sym PP)). apply in_app_iff; auto. }
    assert (IR : incl (grows r) index).
    { intros i Hi. apply HR. apply (Permutation_in _ (Permutation_sym PP)). apply in_app_iff; auto. }
    assert (lay lh /\ lay rh) as [LL LR].
    { destruct HH as [H1 H2|H1 H2].
      - assert (lay lh) by (eapply hist_of_layout; [|eassumption]; auto). split; auto. subst rh. apply layout_parent_child; auto.
      - assert (lay rh) by (eapply hist_of_layout; [|eassumption]; auto). split; auto. subst lh. apply layout_parent_child; auto. }
    apply in_app_iff in Hx. destruct Hx as [Hx|Hx].
    + apply IH1; auto. rewrite GL'; simpl; auto.
    + apply IH2; auto. rewrite GR'; simpl; auto.
  - destruct Hx as [<-|Hx]; [auto|]. destruct S as [f p' term treat force i _ _ HM _ _ HP HH]. apply pivot3_perm in HP.
    assert (PP : Permutation rows (grows m ++ grows l ++ grows r)) by (etransitivity; eauto).
    assert (IM : incl (grows m) index).
    { intros i' Hi. apply HR. apply (Permutation_in _ (Permutation_sym PP)). rewrite !in_app_iff; auto. }
    assert (IL : incl (grows l) index).
    { intros i' Hi. apply HR. apply (Permutation_in _ (Permutation_sym PP)). rewrite !in_app_iff; auto. }
    assert (IR : incl (grows r) index).
    { intros i' Hi. apply HR. apply (Permutation_in _ (Permutation_sym PP)). rewrite !in_app_iff; auto. }
    assert ((ml = false -> lay mh) /\ lay lh /\ lay rh) as (LM & LL & LR).
    { destruct HH as [HE HME [H1 H2|H1 H2]|HE H1 H2 H3|HE H1 H2 H3|HE H1 H2 H3].
      - assert (lay lh) by (eapply hist_of_layout; [|eassumption]; auto). split; [|split; auto; subst rh; apply layout_parent_child; auto].
        intros HF. destruct HM as [[_ HM]|[_ HM]]; [|congruence]. rewrite HE in HM. simpl in HM. rewrite orb_true_r in HM. congruence.
      - assert (lay rh) by (eapply hist_of_layout; [|eassumption]; auto). split; [|split; auto; subst lh; apply layout_parent_child; auto].
        intros HF. destruct HM as [[_ HM]|[_ HM]]; [|congruence]. rewrite HE in HM. simpl in HM. rewrite orb_true_r in HM. congruence.
      - assert (lay lh) by (eapply hist_of_layout; [|eassumption]; auto). assert (lay rh) by (eapply hist_of_layout; [|eassumption]; auto).
        split; auto. intros _. subst mh. apply layout_parent_two; auto.
      - assert (lay mh) by (eapply hist_of_layout; [|eassumption]; auto). assert (lay rh) by (eapply hist_of_layout; [|eassumption]; auto).
        split; auto. split; auto. subst lh. apply layout_parent_two; auto.
      - assert (lay mh) by (eapply hist_of_layout; [|eassumption]; auto). assert (lay lh) by (eapply hist_of_layout; [|eassumption]; auto).
        split; auto. split; auto. subst rh. apply layout_parent_two; auto. }
    rewrite !in_app_iff in Hx. destruct Hx as [Hx|[Hx|Hx]].
    + apply IH0; auto. rewrite GM'; simpl; auto.
    + apply IH1; auto. rewrite GL'; simpl; auto.
    + apply IH2; auto. rewrite GR'; simpl; auto.
Qed.

Lemma admissible_cut : forall sn k j si, lay (sn_hist sn) -> admissible s sn (tr_cols t) k j si ->
  nth_error (tr_cols t) k = Some (si_feature si) /\
  nth_error (removelast (ccol ccols (si_feature si))) j = Some (si_value si) /\
  si_bin si = as_u16 (j + 1).
Proof.
  intros sn k j si LY [f missing bins bin Hf Hcol Hb HC].
  destruct (candidate_inv _ _ _ _ _ _ _ _ _ HC) as (l & r & m & _ & F1 & F2 & F3 & _).
  destruct (layout_lookup _ _ _ _ _ _ _ HI _ LY _ _ Hf) as (col & Hc & Hm).
  rewrite Hcol in Hc. injection Hc as <-. simpl in Hm. injection Hm as _ Hm.
  rewrite F1, F2. split; auto. split; auto. rewrite <- Hm. rewrite nth_error_map, Hb. reflexivity.
Qed.

(** C17 *)
Theorem fit_split_cut : forall nodes st, fit = Some (nodes, st) ->
  forall n, In n nodes -> n_is_leaf n = false ->
  In (n_split_feature n) (tr_cols t) /\ In (n_split_value n) (removelast (ccol ccols (n_split_feature n))).
Proof.
  intros nodes st H n Hn Hl. destruct (fit_ghost _ _ H) as (root & g & HR & I & G).
  apply In_nth_error in Hn. destruct Hn as [i Hi].
  destruct (G _ _ Hi) as (x & Hx & E & V & R).
  apply reweighted_eq in R. destruct R as (R1 & R2 & R3 & R4 & R5 & R6 & R7 & R8 & R9 & R10 & _).
  rewrite R10 in Hl. destruct (gnode_leaf s t max_depth _ V Hl) as [si HS].
  destruct (gsplit_best _ _ _ _ _ V HS) as [HB HML].
  destruct (gsplit_node _ _ _ _ _ V HS) as (_ & F1 & F2 & F3).
  destruct (best_split_admissible _ _ _ _ HB) as (k & j & A).
  assert (LY : lay (sn_hist (groot x))).
  { apply (gvalid_layout g); auto.
    - apply (iv_valid _ _ _ _ _ _ _ I).
    - rewrite (iv_grows _ _ _ _ _ _ _ I). apply incl_refl.
    - intros _. rewrite (iv_root _ _ _ _ _ _ _ I). rewrite (root_hist _ HR). eapply layout_spec; eauto. }
  destruct (admissible_cut _ _ _ _ LY A) as (A1 & A2 & A3).
  rewrite R5, R4, F1, F2. split; eapply nth_error_In; eauto.
Qed.
End Thms.
