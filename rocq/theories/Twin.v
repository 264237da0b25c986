(** Two columns that are binned alike are never both split on: the search visits the columns in
    order and replaces its choice only by a strictly larger gain. *)
From Coq Require Import List Arith NArith Lia Bool Permutation Sorting.
From Verif Require Import Prelude Float FloatLaws Data DataProofs OrdProofs Utils Binning BinningProofs CutProofs Histogram HistogramProofs Node Splitter
  SplitProofs Tree GrowProofs GrowInv GrowStep TreeWf TreeProofs FitProofs FitSplits Objective Metric Sampler SamplerProofs Booster PredictProofs BoostProofs FitModel
  BinMatrix HistBinned RouteFit Rescale RescaleFit.
Import ListNotations.

(** *** Slices of a combined list *)
Section Slices.
Context {FS : Floats}.

Lemma skipn_combine : forall A B n (l : list A) (l' : list B), skipn n (combine l l') = combine (skipn n l) (skipn n l').
Proof.
  induction n as [|n IH]; intros [|a l] [|b l']; simpl; auto. destruct (skipn n l); auto.
Qed.

Lemma slice_combine : forall A B (l : list A) (l' : list B) i j, length l = length l' ->
  slice (combine l l') i j = match slice l i j, slice l' i j with Some a, Some b => Some (combine a b) | _, _ => None end.
Proof.
  intros A B l l' i j L. unfold slice. rewrite combine_length, <- L, Nat.min_id. destruct (_ && _); auto.
  rewrite skipn_combine, combine_firstn. reflexivity.
Qed.
Lemma slice_map : forall A B (f : A -> B) l i j, slice (map f l) i j = option_map (map f) (slice l i j).
Proof.
  intros A B f l i j. unfold slice. rewrite map_length. destruct (_ && _); auto. simpl. rewrite skipn_map, firstn_map. reflexivity.
Qed.

Definition sums (l : list (Bin F32)) : list (F32 * F32) := map (fun b => (gradient_sum b, hessian_sum b)) l.

Lemma sums_one : forall p c p' c', sums p = sums p' -> sums c = sums c' ->
  sums (map (fun '(r, c) => bin_from_parent_child r c) (combine p c)) = sums (map (fun '(r, c) => bin_from_parent_child r c) (combine p' c')).
Proof.
  induction p as [|a p IH]; intros [|b c] [|a' p'] [|b' c'] H1 H2; simpl in *; try discriminate; auto.
  injection H1 as A1 A2 A3. injection H2 as B1 B2 B3. f_equal; [congruence|]. apply IH; auto.
Qed.
Lemma sums_two : forall p a b p' a' b', sums p = sums p' -> sums a = sums a' -> sums b = sums b' ->
  sums (map (fun '(r, a, b) => bin_from_parent_two_children r a b) (combine (combine p a) b)) =
  sums (map (fun '(r, a, b) => bin_from_parent_two_children r a b) (combine (combine p' a') b')).
Proof.
  induction p as [|x p IH]; intros [|y a] [|z b] [|x' p'] [|y' a'] [|z' b'] H1 H2 H3; simpl in *; try discriminate; auto.
  injection H1 as A1 A2 A3. injection H2 as B1 B2 B3. injection H3 as C1 C2 C3. f_equal; [congruence|]. apply IH; auto.
Qed.

Lemma col_one : forall (p c : HistogramMatrix) k, j_ends p = j_ends c -> length (j_data p) = length (j_data c) ->
  j_get_col (hist_from_parent_child p c) k = match j_get_col p k, j_get_col c k with
    | Some a, Some b => Some (map (fun '(r, c) => bin_from_parent_child r c) (combine a b)) | _, _ => None end.
Proof.
  intros p c k HE HL. unfold j_get_col, hist_from_parent_child. simpl. rewrite HE. destruct (k <? _); auto.
  destruct (nth_error (j_ends c) k) as [j|]; simpl; auto.
  destruct (match k with 0 => Some 0 | S c0 => nth_error (j_ends c) c0 end) as [i|]; simpl; auto.
  rewrite slice_map, slice_combine by auto.
  destruct (slice (j_data p) i j); auto. destruct (slice (j_data c) i j); auto.
Qed.
Lemma col_two : forall (p a b : HistogramMatrix) k, j_ends p = j_ends a -> j_ends b = j_ends a ->
  length (j_data p) = length (j_data a) -> length (j_data p) = length (j_data b) ->
  j_get_col (hist_from_parent_two_children p a b) k = match j_get_col p k, j_get_col a k, j_get_col b k with
    | Some x, Some y, Some z => Some (map (fun '(r, a, b) => bin_from_parent_two_children r a b) (combine (combine x y) z)) | _, _, _ => None end.
Proof.
  intros p a b k HE HE2 HL HL2. unfold j_get_col, hist_from_parent_two_children. simpl. rewrite HE, HE2. destruct (k <? _); auto.
  destruct (nth_error (j_ends a) k) as [j|]; simpl; auto.
  destruct (match k with 0 => Some 0 | S c0 => nth_error (j_ends a) c0 end) as [i|]; simpl; auto.
  rewrite slice_map, slice_combine by (rewrite combine_length; lia). rewrite slice_combine by auto.
  destruct (slice (j_data p) i j); auto. destruct (slice (j_data a) i j); auto. destruct (slice (j_data b) i j); auto.
Qed.

Lemma feature_sums : forall f c c' index g h, length c = length c' -> sums (feature_bins f c index g h) = sums (feature_bins f c' index g h).
Proof. intros f c c' index g h L. unfold sums, feature_bins. rewrite !map_map. simpl. rewrite L. reflexivity. Qed.

Lemma left_sum_g : forall l l' j, sums l = sums l' -> left_sum gradient_sum l j = left_sum gradient_sum l' j.
Proof.
  intros l l' j H. unfold left_sum. generalize (fzero f32). revert l l' H.
  induction j as [|j IH]; intros [|a l] [|b l'] H acc; simpl in *; try discriminate; auto. injection H as A B C. rewrite A. apply IH; auto.
Qed.
Lemma left_sum_h : forall l l' j, sums l = sums l' -> left_sum hessian_sum l j = left_sum hessian_sum l' j.
Proof.
  intros l l' j H. unfold left_sum. generalize (fzero f32). revert l l' H.
  induction j as [|j IH]; intros [|a l] [|b l'] H acc; simpl in *; try discriminate; auto. injection H as A B C. rewrite B. apply IH; auto.
Qed.
End Slices.

(** *** One tree *)
Section Tree.
Context {FS : Floats}.
Variables (policy : GrowPolicy) (pick : pick_fn) (s : Splitter) (t : Train) (index : list nat)
  (max_leaves max_depth : nat) (sm : SampleMethod).
Notation fit := (tree_fit policy pick s t index max_leaves max_depth sm).
Variables (fcols : list (list nat)) (ccols : list (list F64)).
Hypothesis HI : hist_inputs (tr_data t) (tr_cuts t) (tr_grad t) (tr_hess t) (tr_cols t) fcols ccols.
Hypothesis Hindex : forall i, In i index -> i < m_rows (tr_data t).
Hypothesis Hnosample : sm = SNone -> index = seq 0 (m_rows (tr_data t)).
Variables (a b ka kb : nat).
Hypotheses (Ha : nth_error (tr_cols t) ka = Some a) (Hb : nth_error (tr_cols t) kb = Some b) (Hk : ka < kb).
Hypotheses (HF : fcol fcols a = fcol fcols b) (HC : length (ccol ccols a) = length (ccol ccols b))
  (HM : get_constraint s a = get_constraint s b).

Notation lay := (layout (tr_data t) (tr_cuts t) (tr_cols t) ccols).
Definition tw (h : HistogramMatrix) : Prop := lay h /\
  exists ca cb, j_get_col h ka = Some ca /\ j_get_col h kb = Some cb /\ sums ca = sums cb.

Lemma tw_one : forall p c, tw p -> tw c -> tw (hist_from_parent_child p c).
Proof.
  intros p c (L1 & pa & pb & P1 & P2 & P3) (L2 & c1 & c2 & C1 & C2 & C3). split; [apply layout_parent_child; auto|].
  pose proof (layout_length _ _ _ _ _ _ L1 L2) as LL. destruct L1 as (_ & E1 & _). destruct L2 as (_ & E2 & _).
  rewrite !col_one by congruence. rewrite P1, P2, C1, C2. do 2 eexists. split; [reflexivity|]. split; [reflexivity|]. apply sums_one; auto.
Qed.
Lemma tw_two : forall p x z, tw p -> tw x -> tw z -> tw (hist_from_parent_two_children p x z).
Proof.
  intros p x z (L1 & pa & pb & P1 & P2 & P3) (L2 & c1 & c2 & C1 & C2 & C3) (L3 & d1 & d2 & D1 & D2 & D3). split; [apply layout_parent_two; auto|].
  pose proof (layout_length _ _ _ _ _ _ L1 L2) as LL. pose proof (layout_length _ _ _ _ _ _ L1 L3) as LL3.
  destruct L1 as (_ & E1 & _). destruct L2 as (_ & E2 & _). destruct L3 as (_ & E3 & _).
  rewrite !col_two by congruence. rewrite P1, P2, C1, C2, D1, D2. do 2 eexists. split; [reflexivity|]. split; [reflexivity|]. apply sums_two; auto.
Qed.

Lemma tw_spec : forall L, tw (hist_spec (tr_data t) (tr_cuts t) (tr_grad t) (tr_hess t) (tr_cols t) fcols ccols L).
Proof.
  intros L. split; [eapply layout_spec; eauto|].
  rewrite (hist_col_lookup _ _ _ _ _ _ _ _ _ _ Ha), (hist_col_lookup _ _ _ _ _ _ _ _ _ _ Hb).
  do 2 eexists. split; [reflexivity|]. split; [reflexivity|]. rewrite HF. apply feature_sums. exact HC.
Qed.

Lemma hist_of_tw : forall L h, incl L index -> hist_of t L = Some h -> tw h.
Proof.
  intros L h HL H. unfold hist_of in H. rewrite (hist_new_sorted _ _ _ _ _ _ _ HI) in H by auto.
  injection H as <-. apply tw_spec.
Qed.

Lemma gvalid_tw : forall g, gvalid s t max_depth g -> incl (grows g) index ->
  (sn_is_missing_leaf (groot g) = false -> tw (sn_hist (groot g))) ->
  forall x, In x (gall g) -> sn_is_missing_leaf (groot x) = false -> tw (sn_hist (groot x)).
Proof.
  intros g V. induction V as [n rows Hl|p0 n rows si mr l r sub lh rh E0 E1 E2 E3 E4 P S N1 N2 GL' GR' V1 IH1 V2 IH2
                             |n rows si m l r sub mh lh rh mi ml E1 E2 E3 E4 P S N1 N2 N3 GM' GL' GR' V0 IH0 V1 IH1 V2 IH2];
    simpl; intros HR HL x Hx.
  - destruct Hx as [<-|[]]. auto.
  - destruct Hx as [<-|Hx]; [auto|]. destruct S as [f _ _ _ HP HH]. apply pivot_perm in HP.
    assert (PP : Permutation rows (grows l ++ grows r)) by (etransitivity; eauto).
    assert (IL : incl (grows l) index).
    { intros i Hi. apply HR. apply (Permutation_in _ (Permutation_sym PP)). apply in_app_iff; auto. }
    assert (IR : incl (grows r) index).
    { intros i Hi. apply HR. apply (Permutation_in _ (Permutation_sym PP)). apply in_app_iff; auto. }
    assert (tw lh /\ tw rh) as [LL LR].
    { destruct HH as [H1 H2|H1 H2].
      - assert (tw lh) by (eapply hist_of_tw; [|eassumption]; auto). split; auto. subst rh. apply tw_one; auto.
      - assert (tw rh) by (eapply hist_of_tw; [|eassumption]; auto). split; auto. subst lh. apply tw_one; auto. }
    apply in_app_iff in Hx. destruct Hx as [Hx|Hx].
    + apply IH1; auto. rewrite GL'; simpl; auto.
    + apply IH2; auto. rewrite GR'; simpl; auto.
  - destruct Hx as [<-|Hx]; [auto|]. destruct S as [f p' term treat force i _ _ HMI _ _ HP HH]. apply pivot3_perm in HP.
    assert (PP : Permutation rows (grows m ++ grows l ++ grows r)) by (etransitivity; eauto).
    assert (IM : incl (grows m) index).
    { intros i' Hi. apply HR. apply (Permutation_in _ (Permutation_sym PP)). rewrite !in_app_iff; auto. }
    assert (IL : incl (grows l) index).
    { intros i' Hi. apply HR. apply (Permutation_in _ (Permutation_sym PP)). rewrite !in_app_iff; auto. }
    assert (IR : incl (grows r) index).
    { intros i' Hi. apply HR. apply (Permutation_in _ (Permutation_sym PP)). rewrite !in_app_iff; auto. }
    assert ((ml = false -> tw mh) /\ tw lh /\ tw rh) as (LM & LL & LR).
    { destruct HH as [HE HME [H1 H2|H1 H2]|HE H1 H2 H3|HE H1 H2 H3|HE H1 H2 H3].
      - assert (tw lh) by (eapply hist_of_tw; [|eassumption]; auto). split; [|split; auto; subst rh; apply tw_one; auto].
        intros HF'. destruct HMI as [[_ HM']|[_ HM']]; [|congruence]. rewrite HE in HM'. simpl in HM'. rewrite orb_true_r in HM'. congruence.
      - assert (tw rh) by (eapply hist_of_tw; [|eassumption]; auto). split; [|split; auto; subst lh; apply tw_one; auto].
        intros HF'. destruct HMI as [[_ HM']|[_ HM']]; [|congruence]. rewrite HE in HM'. simpl in HM'. rewrite orb_true_r in HM'. congruence.
      - assert (tw lh) by (eapply hist_of_tw; [|eassumption]; auto). assert (tw rh) by (eapply hist_of_tw; [|eassumption]; auto).
        split; auto. intros _. subst mh. apply tw_two; auto.
      - assert (tw mh) by (eapply hist_of_tw; [|eassumption]; auto). assert (tw rh) by (eapply hist_of_tw; [|eassumption]; auto).
        split; auto. split; auto. subst lh. apply tw_two; auto.
      - assert (tw mh) by (eapply hist_of_tw; [|eassumption]; auto). assert (tw lh) by (eapply hist_of_tw; [|eassumption]; auto).
        split; auto. split; auto. subst rh. apply tw_two; auto. }
    rewrite !in_app_iff in Hx. destruct Hx as [Hx|[Hx|Hx]].
    + apply IH0; auto. rewrite GM'; simpl; auto.
    + apply IH1; auto. rewrite GL'; simpl; auto.
    + apply IH2; auto. rewrite GR'; simpl; auto.
Qed.

Lemma strict_NoDup : forall l, StronglySorted lt l -> NoDup l.
Proof.
  induction 1 as [|x l SS IH F]; constructor; auto. intros HX. rewrite Forall_forall in F. specialize (F _ HX). lia.
Qed.

(** A candidate on column b has its like on column a. *)
Lemma candidate_like : forall sn m m' x x' j cg ch si, 
  gradient_sum m = gradient_sum m' -> hessian_sum m = hessian_sum m' ->
  candidate s sn b m x j cg ch = Some (Some si) ->
  exists si', candidate s sn a m' x' j cg ch = Some (Some si') /\ si_gain si' = si_gain si.
Proof.
  intros sn m m' x x' j cg ch si E1 E2 H. unfold candidate in *. rewrite HM, <- E1, <- E2. inv_bind H. rewrite E. cbn [bind].
  destruct v as [[[l r] mm]|]; [|discriminate]. cbv zeta in *.
  destruct (_ <=? _)%f32; [discriminate|]. destruct (child_bounds _ _ _ _ _) as [lb rb]. injection H as <-.
  eexists. split; reflexivity.
Qed.

Lemma admissible_like : forall sn j si, tw (sn_hist sn) -> admissible s sn (tr_cols t) kb j si ->
  exists si', admissible s sn (tr_cols t) ka j si' /\ si_gain si' = si_gain si.
Proof.
  intros sn j si (_ & ca & cb & C1 & C2 & C3) [f missing bins bin Hf Hcol Hj HCN].
  rewrite Hb in Hf. injection Hf as <-. rewrite C2 in Hcol. injection Hcol as ->.
  destruct ca as [|m ca]; [discriminate|]. simpl in C3. injection C3 as M1 M2 M3.
  assert (exists x, nth_error ca j = Some x) as [x Hx].
  { apply nth_error_lt. pose proof (f_equal (@length _) M3) as M4. unfold sums in M4. rewrite !map_length in M4.
    apply nth_error_Some_lt in Hj. lia. }
  destruct (candidate_like sn missing m bin x j _ _ si (eq_sym M1) (eq_sym M2) HCN) as (si' & A1 & A2).
  exists si'. split; auto. eapply adm_intro; eauto.
  rewrite (left_sum_g _ _ _ M3), (left_sum_h _ _ _ M3). exact A1.
Qed.

Theorem tree_twin : forall (OL : OrdLaws (@f32 FS)) (SL : SubLaws (@f32 FS)) nodes st, fit = Some (nodes, st) ->
  forall n, In n nodes -> n_is_leaf n = false -> n_split_feature n <> b.
Proof.
  intros OL SL nodes st H n Hn Hl EB. destruct (fit_ghost _ _ _ _ _ _ _ _ _ _ H) as (root & g & HR & I & G).
  apply In_nth_error in Hn. destruct Hn as [i Hi].
  destruct (G _ _ Hi) as (x & Hx & E & V & R).
  apply reweighted_eq in R. destruct R as (R1 & R2 & R3 & R4 & R5 & R6 & R7 & R8 & R9 & R10 & _).
  rewrite R10 in Hl. destruct (gnode_leaf s t max_depth _ V Hl) as [si HS].
  destruct (gsplit_best _ _ _ _ _ V HS) as [HB HML].
  destruct (gsplit_node _ _ _ _ _ V HS) as (_ & F1 & F2 & F3).
  destruct (best_split_some s (groot x) OL (sl_zero_nan _ SL) _ _ HB) as (k & j & A & _ & _ & M2).
  assert (T : tw (sn_hist (groot x))).
  { apply (gvalid_tw g); auto.
    - apply (iv_valid _ _ _ _ _ _ _ I).
    - rewrite (iv_grows _ _ _ _ _ _ _ I). apply incl_refl.
    - intros _. rewrite (iv_root _ _ _ _ _ _ _ I). rewrite (root_hist s t index sm fcols ccols HI Hindex Hnosample _ HR). apply tw_spec. }
  assert (k = kb).
  { pose proof A as [f missing bins bin Hf _ _ HCN]. destruct (candidate_inv _ _ _ _ _ _ _ _ _ HCN) as (? & ? & ? & _ & F & _).
    assert (f = b) by congruence. subst f. 
    assert (ND : NoDup (tr_cols t)). { apply strict_NoDup. exact (hi_sorted _ _ _ _ _ _ _ HI). }
    apply (proj1 (NoDup_nth_error _) ND); [eapply nth_error_Some_lt; eauto|congruence]. }
  subst k. destruct (admissible_like _ _ _ T A) as (si' & A1 & A2).
  assert (BF : before ka j kb j) by (left; auto).
  specialize (M2 _ _ _ BF A1). rewrite A2 in M2. rewrite (o_lt_irrefl _ OL) in M2. discriminate.
Qed.
End Tree.

(** *** A whole fit *)
Section Fit.
Context {FS : Floats}.

Lemma preds_length : forall missing (d : Matrix F64) ts y0 yh, preds_after missing ts d y0 = Some yh -> length yh = length y0.
Proof.
  intros missing d. induction ts as [|t ts IH]; intros y0 yh H; unfold preds_after in H; simpl in H; [injection H as <-; auto|].
  inv_bind H. inv_bind E. injection E as <-. rewrite (IH _ _ H). apply add_preds_length.
Qed.

Definition bcol (data : Matrix F64) (bd : BinnedData) (j : nat) : option (list nat) := m_get_col (binned data bd) j.

(** [alike bd a b]: the two columns have the same bins and as many cuts. *)
Definition alike (data : Matrix F64) (bd : BinnedData) (a b : nat) : Prop :=
  bcol data bd a = bcol data bd b /\
  option_map (@length F64) (j_get_col (b_cuts bd) a) = option_map (@length F64) (j_get_col (b_cuts bd) b).

Variables (E : Env) (bo bo' : Booster) (data : Matrix F64) (y w : list F64) (es : option (list EvalData)).
Notation p := (gb_params bo).
Hypotheses (OL : OrdLaws (@f32 FS)) (SL : SubLaws (@f32 FS)) (CL : clean bo) (RO : rng_ok E p).
Hypotheses (LD : length (m_data data) = m_rows data * m_cols data) (HX : m_index data = seq 0 (m_rows data))
  (LY : length y = m_rows data) (LW : length w = m_rows data).
Hypothesis HFIT : fit E bo data y w es = Some (bo', None).
Variables (a b : nat).
Hypotheses (Hab : a < b) (HB : b < m_cols data).
Hypothesis HM : get_constraint (splitter_of p) a = get_constraint (splitter_of p) b.
Hypothesis HA : forall bd, bin_matrix (e_sorts E) data w (p_nbins p) (p_missing p) = Some bd -> alike data bd a b.

Theorem fit_alike : forall k t, nth_error (gb_trees bo') k = Some t ->
  exists n cols n', column_sample E p n (m_cols data) = (cols, n') /\
    (forall m, In m t -> n_is_leaf m = false -> In (n_split_feature m) cols) /\
    (In a cols -> forall m, In m t -> n_is_leaf m = false -> n_split_feature m <> b).
Proof.
  intros k t Ht. pose proof HFIT as H. apply fit_ok in H. destruct H as [_ H].
  destruct (fit_trees_BI _ _ _ _ _ _ _ CL H) as (bd & base & l & HBM & _ & -> & B & _ & _).
  destruct (bi_trees _ _ _ _ _ _ _ _ _ _ _ _ _ B _ _ Ht) as (yhat & n & chosen & grad & hess & n' & cols & n'' & st & P1 & P2 & P3 & P4).
  destruct (bin_matrix_spec _ _ _ _ _ _ HBM) as (ccols & J & LC & _ & HC & LB & _).
  assert (NE : forall c, In c ccols -> c <> []).
  { intros c Hc. apply In_nth_error in Hc. destruct Hc as [j Hj]. destruct (HC _ _ Hj) as (col & _ & H2). unfold col_cuts in H2.
    inv_bind H2. inv_bind H2. injection H2 as <-. destruct v0; discriminate. }
  destruct (column_sorted _ _ _ _ _ _ RO P3) as [SO CB].
  destruct (sample_length (fun _ _ => True) (fun _ v => v) _ _ _ _ _ _ _ _ _ _ P2) as (LG & LH & NS).
  pose proof (preds_length _ _ _ _ _ P1) as LYH. rewrite repeat_length, LY in LYH.
  destruct (grad_hess_length (p_objective p) y yhat w (m_rows data) LY LYH LW) as [LG2 LH2].
  assert (HI := hist_inputs_of data bd ccols grad hess cols J LC (eq_trans LB LD) NE SO CB (eq_trans LG LG2) (eq_trans LH LH2)).
  exists n', cols, n''. split; auto.
  assert (IX : forall i, In i chosen -> i < m_rows data).
  { intros i Hi. destruct (p_sample_method p) eqn:ES.
    - rewrite NS, HX in Hi by auto. apply in_seq in Hi. lia.
    - destruct (fit_ghost _ _ _ _ _ _ _ _ _ _ P4) as (root & g & HR & _). rewrite <- LG2, <- LG.
      apply (root_rows _ _ _ _ _ HR ltac:(discriminate) i Hi).
    - destruct (fit_ghost _ _ _ _ _ _ _ _ _ _ P4) as (root & g & HR & _). rewrite <- LG2, <- LG.
      apply (root_rows _ _ _ _ _ HR ltac:(discriminate) i Hi). }
  assert (NS' : p_sample_method p = SNone -> chosen = seq 0 (m_rows data)) by (intros Q; rewrite (NS Q); exact HX).
  split.
  - intros m Hm Hl. change cols with (tr_cols (mkTrain (matrix_new (b_data bd) (m_rows data) (m_cols data)) (b_cuts bd) grad hess cols)).
    eapply fit_split_col; eauto.
  - intros Ia m Hm Hl EB.
    assert (Ib : In b cols).
    { rewrite <- EB. change cols with (tr_cols (mkTrain (matrix_new (b_data bd) (m_rows data) (m_cols data)) (b_cuts bd) grad hess cols)).
      eapply fit_split_col; eauto. }
    apply In_nth_error in Ia. destruct Ia as [ka Hka]. apply In_nth_error in Ib. destruct Ib as [kb Hkb].
    assert (LT : ka < kb).
    { destruct (Nat.lt_trichotomy ka kb) as [Q|[Q|Q]]; auto; exfalso; [rewrite Q in Hka; assert (a = b) by congruence; lia|].
      clear - SO Q Hka Hkb Hab. revert ka kb Q Hka Hkb. induction SO as [|x l SS IH F]; intros ka kb Q Hka Hkb.
      - destruct ka; discriminate.
      - destruct ka as [|ka]; [lia|]. destruct kb as [|kb]; simpl in *.
        + injection Hkb as ->. rewrite Forall_forall in F. apply nth_error_In in Hka. specialize (F _ Hka). lia.
        + apply (IH ka kb); auto. lia. }
    destruct (HA bd HBM) as [A1 A2]. unfold bcol in A1.
    refine (tree_twin (p_grow_policy p) (e_pick E k) (splitter_of p)
      (mkTrain (matrix_new (b_data bd) (m_rows data) (m_cols data)) (b_cuts bd) grad hess cols) chosen (p_max_leaves p) (p_max_depth p)
      (p_sample_method p) _ ccols HI IX NS' a b ka kb Hka Hkb LT _ _ HM OL SL _ _ P4 m Hm Hl EB).
    + unfold fcol. rewrite !nth_indep with (d := []) (d' := match m_get_col (binned data bd) 0 with Some c => c | None => [] end)
        by (rewrite map_length, seq_length; lia).
      rewrite !(map_nth (fun j => match m_get_col (binned data bd) j with Some c => c | None => [] end)).
      rewrite !seq_nth by lia. simpl. rewrite A1. reflexivity.
    + unfold ccol. rewrite !(jrep_get_col _ _ _ J) in A2.
      destruct (nth_error_lt ccols (i := a)) as [ca Hca]; [lia|]. destruct (nth_error_lt ccols (i := b)) as [cb Hcb]; [lia|].
      rewrite Hca, Hcb in A2. simpl in A2. injection A2 as A2.
      rewrite (nth_error_nth_eq _ _ [] Hca), (nth_error_nth_eq _ _ [] Hcb). exact A2.
Qed.
End Fit.

(** *** Columns that are binned alike *)
Section Alike.
Context {FS : Floats}.
Notation FM := (fmax (@f64 FS)).

Lemma bin_cell : forall S data sw nbins missing bd, length (m_data data) = m_rows data * m_cols data ->
  bin_matrix S data sw nbins missing = Some bd -> forall j, j < m_cols data ->
  exists col cc, m_get_col data j = Some col /\ j_get_col (b_cuts bd) j = Some cc /\ col_cuts S col sw (bin_pcts nbins) missing = Some cc /\
    forall i v, i < m_rows data -> m_get data i j = Some v -> exists n, map_bin cc v missing = Some (Some n) /\ m_get (binned data bd) i j = Some n.
Proof.
  intros S data sw nbins missing bd LD H j Hj.
  destruct (bin_matrix_spec _ _ _ _ _ _ H) as (ccols & J & LC & _ & HC & LB & HK).
  destruct (nth_error_lt ccols (i := j)) as [cc Hcc]; [lia|].
  destruct (HC _ _ Hcc) as (col & C1 & C2). exists col, cc. split; auto. rewrite (jrep_get_col _ _ _ J). split; auto. split; auto.
  intros i v Hi Hv. unfold m_get in Hv. destruct (HK _ _ Hv) as (cc' & n & K1 & K2 & K3).
  assert (D : m_item_index data i j / m_rows data = j).
  { unfold m_item_index. rewrite Nat.div_add by lia. rewrite Nat.div_small by lia. reflexivity. }
  rewrite D in K1. assert (cc' = cc) by congruence. subst cc'. exists n. split; auto.
Qed.

Lemma bcol_eq : forall data bd a b, length (b_data bd) = m_rows data * m_cols data -> a < m_cols data -> b < m_cols data ->
  (forall i, i < m_rows data -> m_get (binned data bd) i a = m_get (binned data bd) i b) -> bcol data bd a = bcol data bd b.
Proof.
  intros data bd a b LB Ha Hb H. unfold bcol.
  destruct (get_col_spec (binned data bd)) with (j := a) as (c1 & E1 & E2 & E3); auto.
  destruct (get_col_spec (binned data bd)) with (j := b) as (c2 & F1 & F2 & F3); auto.
  rewrite E1, F1. f_equal. simpl in *. apply list_ext_nth. intros k. destruct (Nat.lt_ge_cases k (m_rows data)) as [L|L].
  - rewrite E3, F3, H by auto. reflexivity.
  - rewrite !(proj2 (nth_error_None _ _)) by lia. reflexivity.
Qed.

Lemma cell_some : forall (data : Matrix F64) i j, length (m_data data) = m_rows data * m_cols data -> i < m_rows data -> j < m_cols data ->
  exists v, m_get data i j = Some v.
Proof.
  intros data i j L Hi Hj. destruct (get_col_spec data L j Hj) as (c & E1 & E2 & E3). rewrite <- E3 by auto. apply nth_error_lt. lia.
Qed.

(** Equal columns. *)
Lemma equal_alike : forall S data sw nbins missing bd a b, length (m_data data) = m_rows data * m_cols data ->
  a < m_cols data -> b < m_cols data -> (forall i, i < m_rows data -> m_get data i a = m_get data i b) ->
  bin_matrix S data sw nbins missing = Some bd -> alike data bd a b.
Proof.
  intros S data sw nbins missing bd a b LD Ha Hb HE H.
  destruct (bin_cell _ _ _ _ _ _ LD H a Ha) as (ca & cca & A1 & A2 & A3 & A4).
  destruct (bin_cell _ _ _ _ _ _ LD H b Hb) as (cb & ccb & B1 & B2 & B3 & B4).
  assert (ca = cb).
  { destruct (get_col_spec data LD a Ha) as (c1 & E1 & E2 & E3). destruct (get_col_spec data LD b Hb) as (c2 & F1 & F2 & F3).
    assert (c1 = ca) by congruence. assert (c2 = cb) by congruence. subst. apply list_ext_nth. intros k.
    destruct (Nat.lt_ge_cases k (m_rows data)) as [L|L]; [rewrite E3, F3, HE by auto; reflexivity|].
    rewrite !(proj2 (nth_error_None _ _)) by lia. reflexivity. }
  subst cb. assert (cca = ccb) by congruence. subst ccb. split; [|rewrite A2, B2; reflexivity].
  destruct (bin_matrix_spec _ _ _ _ _ _ H) as (_ & _ & _ & _ & _ & LB & _).
  apply bcol_eq; auto; [congruence|]. intros i Hi. destruct (cell_some data i a LD Hi Ha) as [v Hv].
  destruct (A4 i v Hi Hv) as (n & N1 & N2). rewrite HE in Hv by auto. destruct (B4 i v Hi Hv) as (n' & N1' & N2'). congruence.
Qed.

(** The second column an increasing function of the first. *)
Lemma increasing_alike : OrdLaws (@f64 FS) -> forall S data sw nbins missing bd a b psi, compares S ->
  length (m_data data) = m_rows data * m_cols data ->
  a < m_cols data -> b < m_cols data -> 
  recoding (fun _ v => exists i, i < m_rows data /\ m_get data i a = Some v) missing (fun _ => psi) ->
  (forall i, i < m_rows data -> m_get data i b = option_map psi (m_get data i a)) ->
  bin_matrix S data sw nbins missing = Some bd -> alike data bd a b.
Proof.
  intros OL S data sw nbins missing bd a b psi CS LD Ha Hb RC HE H.
  set (D := fun (_ : nat) v => exists i, i < m_rows data /\ m_get data i a = Some v) in *.
  destruct (bin_cell _ _ _ _ _ _ LD H a Ha) as (ca & cca & A1 & A2 & A3 & A4).
  destruct (bin_cell _ _ _ _ _ _ LD H b Hb) as (cb & ccb & B1 & B2 & B3 & B4).
  destruct (get_col_spec data LD a Ha) as (c1 & E1 & E2 & E3). destruct (get_col_spec data LD b Hb) as (c2 & F1 & F2 & F3).
  assert (c1 = ca) by congruence. assert (c2 = cb) by congruence. subst c1 c2.
  assert (EC : cb = map psi ca).
  { apply list_ext_nth. intros k. rewrite nth_error_map.
    destruct (Nat.lt_ge_cases k (m_rows data)) as [L|L]; [rewrite E3, F3, HE by auto; reflexivity|].
    rewrite !(proj2 (nth_error_None _ _)) by lia. reflexivity. }
  assert (FD : Forall (D 0) ca).
  { apply Forall_forall. intros v Hv. apply In_nth_error in Hv. destruct Hv as [i Hi]. exists i.
    assert (i < m_rows data) by (rewrite <- E2; eapply nth_error_Some_lt; eauto). split; auto. rewrite <- E3; auto. }
  destruct (col_cuts_map OL D missing (fun _ => psi) RC S 0 ca sw (bin_pcts nbins) cca CS FD A3) as (k & K1 & K2 & K3).
  rewrite <- EC in K3. assert (ccb = map psi k ++ [FM]) by congruence.
  split; [|rewrite A2, B2; simpl; f_equal; subst; rewrite !app_length, map_length; reflexivity].
  destruct (bin_matrix_spec _ _ _ _ _ _ H) as (_ & _ & _ & _ & _ & LB & _).
  apply bcol_eq; auto; [congruence|]. intros i Hi. destruct (cell_some data i a LD Hi Ha) as [v Hv].
  destruct (A4 i v Hi Hv) as (n & N1 & N2).
  assert (Hv' : m_get data i b = Some (psi v)) by (rewrite HE, Hv by auto; reflexivity).
  destruct (B4 i _ Hi Hv') as (n' & N1' & N2').
  assert (BR : bin_rel D missing (fun _ => psi) 0 cca ccb) by (exists k; auto).
  pose proof (map_bin_map OL D missing (fun _ => psi) RC 0 cca ccb v BR) as Q. cbv beta in Q. rewrite Q in N1' by (exists i; auto). congruence.
Qed.
End Alike.
