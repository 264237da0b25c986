(** Properties C11-C21, C57, C59, C60: growing a tree. *)
From Coq Require Import Reals Lra ZArith NArith List Arith Lia Bool Permutation Sorting.
From Flocq Require Import Core.Raux.
From Verif Require Import Prelude Float FloatX FloatI FloatLaws OrdProofs Data DataProofs Utils UtilsX Binning
  BinningProofs CutProofs BinMatrix BinningX Histogram HistogramProofs Node Splitter SplitProofs Tree GrowInv GrowStep TreeWf TreeProofs
  FitProofs FitSplits PathProofs RouteX RouteFit NoPanic PropBinning.
Import ListNotations.


(** *** Any arithmetic, hence IEEE *)
Section Any.
Context {FS : Floats}.
Variables (policy : GrowPolicy) (pick : pick_fn) (s : Splitter) (t : Train) (index : list nat)
  (max_leaves max_depth : nat) (sm : SampleMethod).
Notation fit := (tree_fit policy pick s t index max_leaves max_depth sm).

(** C11: [well_formed] is spelled out in TreeWf.v, without reference to how trees grow. *)
Theorem C11_well_formed : forall nodes st, fit = Some (nodes, st) -> well_formed nodes.
Proof. exact (fit_well_formed policy pick s t index max_leaves max_depth sm). Qed.

(** C12 *)
Theorem C12_max_depth : forall nodes st, fit = Some (nodes, st) -> forall n, In n nodes -> n_depth n <= max_depth.
Proof. exact (fit_depth policy pick s t index max_leaves max_depth sm). Qed.

(** C13 *)
Theorem C13_max_leaves : forall nodes st p, s = Imputer p -> fit = Some (nodes, st) ->
  length (filter n_is_leaf nodes) <= Nat.max 1 max_leaves.
Proof.
  intros nodes st p E H. apply fit_leaves in H. rewrite E in H. simpl in H. rewrite Nat.add_0_r in H. exact H.
Qed.

(** C14: what does hold with a missing branch; one leaf too many is possible (refuted below). *)
Theorem C14_max_leaves_branch : forall nodes st, fit = Some (nodes, st) ->
  length (filter n_is_leaf nodes) <= Nat.max 1 (max_leaves + 1).
Proof.
  intros nodes st H. apply fit_leaves in H. unfold n_leaves in H. destruct (ternary s); lia.
Qed.

(** C15 *)
Theorem C15_min_leaf_weight : forall nodes st, fit = Some (nodes, st) ->
  forall n c m, In n nodes -> n_is_leaf n = false -> c = n_left n \/ c = n_right n -> nth_error nodes c = Some m ->
  flt f32 (n_hess m) (sp_min_leaf_weight (params s)) = false.
Proof. intros nodes st H n c m Hn Hl Hc Hm. eapply fit_min_leaf_weight; eauto. Qed.

(** C19: [tiles] is defined in FitProofs.v: consecutive ranges without gaps. *)
Theorem C19_rows_tiled : forall nodes st, fit = Some (nodes, st) ->
  Permutation index (g_index st) /\
  exists ranges, tiles ranges 0 (length index) /\ NoDup (map fst ranges) /\
    (forall i, In i (map fst ranges) <-> exists n, nth_error nodes i = Some n /\ n_is_leaf n = true).
Proof. exact (fit_rows_tiled policy pick s t index max_leaves max_depth sm). Qed.

(** C57: the number of turns is bounded whatever the queue does, fitting never fails for lack of
    fuel, and the tree is of bounded size. *)
Theorem C57_turns : forall root k st, sn_depth root = 0 ->
  nsteps s t max_leaves max_depth k (grow_init s root index) st -> k <= 4 ^ max_depth.
Proof. intros root k st. apply grow_turns_bounded. Qed.

Theorem C57_size : forall nodes st, fit = Some (nodes, st) -> 2 * length nodes + 1 <= 3 ^ (max_depth + 1).
Proof. exact (fit_size policy pick s t index max_leaves max_depth sm). Qed.

Theorem C57_fails_only_by_panic : fit = None ->
  root_node s t index sm = None \/
  exists root k st p1 node p2,
    root_node s t index sm = Some root /\
    nsteps s t max_leaves max_depth k (grow_init s root index) st /\
    g_pending st = p1 ++ node :: p2 /\ g_n_leaves st + 1 <= max_leaves /\
    grow_node s t max_depth node (GrowProofs.with_pending st (p1 ++ p2)) = None.
Proof. exact (fit_None policy pick s t index max_leaves max_depth sm). Qed.
End Any.

(** *** IEEE arithmetic *)
Section IEEE.
Variables iexp iln iln1p : b64 -> b64.
Notation FI := (IF iexp iln iln1p).
Variables (policy : GrowPolicy) (pick : @pick_fn FI) (s : @Splitter FI) (t : @Train FI) (index : list nat)
  (max_leaves max_depth : nat) (sm : SampleMethod).
Notation fit := (@tree_fit FI policy pick s t index max_leaves max_depth sm).

(** C16 *)
Theorem C16_gamma : forall nodes st, fit = Some (nodes, st) ->
  forall n, In n nodes -> n_is_leaf n = false -> flt IOps32 (sp_gamma (params s)) (n_split_gain n) = true.
Proof.
  exact (@fit_gamma FI policy pick s t index max_leaves max_depth sm i32_ord_laws (i_sub_laws 24 128 eq_refl eq_refl)).
Qed.

(** C17 *)
Theorem C17_split_cut : forall (S : @Sorts FI) data sw nbins missing bd, SortSpec S ->
  bin_matrix S data sw nbins missing = Some bd -> length (m_data data) = m_rows data * m_cols data ->
  (forall j x, In x (@col_values FI data sw missing j) -> fle IOps64 x (fmax IOps64) = true) ->
  tr_data t = binned data bd -> tr_cuts t = b_cuts bd ->
  StronglySorted lt (tr_cols t) -> (forall c, In c (tr_cols t) -> c < m_cols data) ->
  length (tr_grad t) = m_rows data -> length (tr_hess t) = m_rows data ->
  (forall i, In i index -> i < m_rows data) -> (sm = SNone -> index = seq 0 (m_rows data)) ->
  forall nodes st, fit = Some (nodes, st) -> forall n, In n nodes -> n_is_leaf n = false ->
  In (n_split_feature n) (tr_cols t) /\
  exists cuts m, j_get_col (b_cuts bd) (n_split_feature n) = Some (cuts ++ [m]) /\ In (n_split_value n) cuts.
Proof.
  intros S data sw nbins missing bd SS HB LD HV TD TC SO CB LG LH HI HN nodes st H n Hn Hl.
  destruct (@bin_hist_inputs FI i64_ord_laws S data sw nbins missing bd (tr_grad t) (tr_hess t) (tr_cols t)
              SS eq_refl HB LD HV SO CB LG LH) as (fcols & ccols & INP & _).
  rewrite <- TD, <- TC in INP.
  assert (MR : m_rows (tr_data t) = m_rows data) by (rewrite TD; reflexivity).
  rewrite <- MR in HI, HN.
  destruct (@fit_split_cut FI policy pick s t index max_leaves max_depth sm fcols ccols INP HI HN nodes st H n Hn Hl) as [A B].
  split; auto.
  pose proof (CB _ A) as C.
  assert (NE : ccol ccols (n_split_feature n) <> []) by (intros E; rewrite E in B; destruct B).
  exists (removelast (ccol ccols (n_split_feature n))), (last (ccol ccols (n_split_feature n)) (fzero IOps64)).
  split; auto. rewrite <- app_removelast_last by auto.
  rewrite <- TC. refine (eq_trans (jrep_get_col _ _ _ (hi_cuts _ _ _ _ _ _ _ INP) _) _).
  unfold ccol. apply nth_error_nth'. rewrite (hi_ccols _ _ _ _ _ _ _ INP), TD. exact C.
Qed.

(** C18 *)
Theorem C18_best_split : forall sn cols si, @best_split FI s sn cols = Some (Some si) ->
  exists k j, admissible s sn cols k j si /\ flt IOps32 (fzero IOps32) (si_gain si) = true /\
    (forall k' j' si', admissible s sn cols k' j' si' -> fle IOps32 (si_gain si') (si_gain si) = true) /\
    (forall k' j' si', k' < k \/ (k' = k /\ j' < j) -> admissible s sn cols k' j' si' ->
       flt IOps32 (si_gain si') (si_gain si) = true).
Proof. intros sn. exact (@best_split_some FI s sn i32_ord_laws eq_refl). Qed.

Theorem C18_no_split : forall sn cols, @best_split FI s sn cols = Some None ->
  forall k j si, admissible s sn cols k j si -> fle IOps32 (si_gain si) (fzero IOps32) = true.
Proof. intros sn. exact (@best_split_none FI s sn i32_ord_laws eq_refl). Qed.

Theorem C18_tree_splits : forall nodes st, fit = Some (nodes, st) ->
  forall i n, nth_error nodes i = Some n -> n_is_leaf n = false ->
  exists sn si, sn_num sn = i /\ sn_hess sn = n_hess n /\ sn_depth sn = n_depth n /\
    n_split_feature n = si_feature si /\ n_split_value n = si_value si /\
    best_split s sn (tr_cols t) = Some (Some si) /\
    (forall k' j' si', admissible s sn (tr_cols t) k' j' si' -> fle IOps32 (si_gain si') (si_gain si) = true).
Proof.
  intros nodes st H i n Hn Hl.
  destruct (@fit_splits FI policy pick s t index max_leaves max_depth sm i32_ord_laws (i_sub_laws 24 128 eq_refl eq_refl)
              nodes st H i n Hn Hl) as (sn & si & k & j & A1 & A2 & A3 & A4 & A5 & A6 & A7 & A8 & A9 & _).
  exists sn, si. tauto.
Qed.

(** C59: growth is exhaustive: unless the leaf budget is used up, a leaf is a node that must not be
    split (missing leaf), is at the maximal depth, or has no candidate with positive gain. *)
Theorem C59_leaves_done : forall nodes st, fit = Some (nodes, st) ->
  forall i n, nth_error nodes i = Some n -> n_is_leaf n = true ->
  length (filter n_is_leaf nodes) + 1 > max_leaves \/
  exists sn, sn_num sn = i /\ sn_hess sn = n_hess n /\ sn_depth sn = n_depth n /\
   (sn_is_missing_leaf sn = true \/ n_depth n = max_depth \/
    forall k j si, admissible s sn (tr_cols t) k j si -> fle IOps32 (si_gain si) (fzero IOps32) = true).
Proof.
  exact (@fit_leaves_done FI policy pick s t index max_leaves max_depth sm i32_ord_laws (i_sub_laws 24 128 eq_refl eq_refl)).
Qed.
End IEEE.

(** *** Exact arithmetic *)
Section Exact.
Variables (S : Sorts) (data : Matrix xr) (sw : list xr) (nbins : nat) (missing : xr) (bd : @BinnedData XF).
Variables (policy : GrowPolicy) (pick : pick_fn) (s : @Splitter XF) (t : @Train XF) (index : list nat).
Variables (max_leaves max_depth : nat) (sm : SampleMethod).
Notation fit := (@tree_fit XF policy pick s t index max_leaves max_depth sm).

(** C20 *)
Theorem C20_routes : trained S data sw nbins missing bd s t index sm ->
  forall nodes st, fit = Some (nodes, st) ->
  Permutation index (g_index st) /\
  exists ranges, tiles ranges 0 (length index) /\ NoDup (map fst ranges) /\
    (forall i, In i (map fst ranges) <-> exists n, nth_error nodes i = Some n /\ n_is_leaf n = true) /\
    forall k a b pos i, In (k, (a, b)) ranges -> (a <= pos < b)%nat -> nth_error (g_index st) pos = Some i ->
      exists n, predict_leaf nodes data i missing = Some n /\ n_num n = k.
Proof. exact (fun TD => fit_routes S data sw nbins missing bd policy pick s t index max_leaves max_depth sm TD). Qed.

(** C21 *)
Theorem C21_cover : trained S data sw nbins missing bd s t index sm ->
  forall nodes st, fit = Some (nodes, st) ->
  forall k n, nth_error nodes k = Some n ->
  n_hess n = Fin (sumR (map (fun i => val (nth i (tr_hess t) (Fin 0)))
                          (filter (fun i => passes nodes (fun f => m_get data i f) missing k) index))).
Proof. exact (fun TD => fit_cover S data sw nbins missing bd policy pick s t index max_leaves max_depth sm TD). Qed.

(** C61: values of nodes. *)
Theorem C61_values : forall p, trained S data sw nbins missing bd s t index sm ->
  s = Imputer p -> (forall f, get_constraint s f = None) ->
  forall nodes st, fit = Some (nodes, st) -> forall k n, nth_error nodes k = Some n ->
  let rows := filter (fun i => passes nodes (fun f => m_get data i f) missing k) index in
  n_weight n =
    (@weight XF (sp_l1 p) (sp_l2 p) (sp_max_delta_step p)
       (Fin (sumR (map (fun i => val (nth i (tr_grad t) (Fin 0))) rows)))
       (Fin (sumR (map (fun i => val (nth i (tr_hess t) (Fin 0))) rows))) * sp_learning_rate p)%f32.
Proof.
  exact (fun p TD E HC nodes st => fit_values S data sw nbins missing bd policy pick s t index max_leaves max_depth sm TD p nodes st E HC).
Qed.

(** C60 *)
Theorem C60_never_panics : trained S data sw nbins missing bd s t index sm -> never_forces s ->
  exists nodes st, fit = Some (nodes, st).
Proof. exact (fit_never_panics S data sw nbins missing bd policy pick s t index max_leaves max_depth sm). Qed.
End Exact.

(** *** A run in IEEE arithmetic *)
Definition z32 (z : Z) : b32 := q32 z 1.
Definition ex_params : @SplitParams IE := @mkSP IE (z32 0) (z32 1) (z32 0) (z32 0) (z32 1) (z32 1) false [].
Definition ex_train : @Train IE :=
  @mkTrain IE (@binned IE ex_data ex_bd) (b_cuts ex_bd) (map z32 [-3; 2; 1; -4; 2]%Z) (map z32 [1; 1; 1; 1; 1]%Z) [0; 1].
Definition ex_pick : @pick_fn IE := fun _ _ => 0.
Definition ex_fit (s : @Splitter IE) (ml : nat) := @tree_fit IE DepthWise ex_pick s ex_train [0; 1; 2; 3; 4] ml 5 SNone.
Definition no_fit : list (@Node IE) * @Grow IE := ([], mkGrow [] [] [] 0 0).

Definition ex_nodes s ml := fst (get no_fit (ex_fit s ml)).
Definition ex_state s ml := snd (get no_fit (ex_fit s ml)).
Lemma ex_fit_some : forall s ml, is_some (ex_fit s ml) = true -> ex_fit s ml = Some (ex_nodes s ml, ex_state s ml).
Proof.
  intros s ml. unfold ex_nodes, ex_state. destruct (ex_fit s ml) as [[a b]|]; [reflexivity|discriminate].
Qed.
Definition shape (nodes : list (@Node IE)) :=
  map (fun n => (n_is_leaf n, n_depth n, n_split_feature n, (n_missing n, n_left n, n_right n))) nodes.

(** C14, as stated: two leaves allowed, three made. *)
Theorem C14_max_leaves_branch_refuted : exists p st nodes,
  ex_fit (Branch p [] TNone false) 2 = Some (nodes, st) /\
  length (filter n_is_leaf nodes) = 3.
Proof.
  exists ex_params, (ex_state (Branch ex_params [] TNone false) 2), (ex_nodes (Branch ex_params [] TNone false) 2).
  split; [|vm_compute; reflexivity].
  apply ex_fit_some. vm_compute. reflexivity.
Qed.

(** C11-C19, C57, C59: the hypothesis is met, with trees of two levels. *)
Example ex_fitted : forall s, s = Imputer ex_params \/ s = Branch ex_params [] TNone false ->
  ex_fit s 10 = Some (ex_nodes s 10, ex_state s 10).
Proof.
  intros s H. apply ex_fit_some. destruct H as [->| ->]; vm_compute; reflexivity.
Qed.

Example ex_shapes :
  shape (ex_nodes (Imputer ex_params) 10) =
    [(false, 0, 0, (1, 1, 2)); (true, 1, 0, (0, 0, 0)); (false, 1, 1, (4, 3, 4)); (true, 2, 0, (0, 0, 0)); (true, 2, 0, (0, 0, 0))] /\
  shape (ex_nodes (Branch ex_params [] TNone false) 10) =
    [(false, 0, 1, (1, 2, 3)); (true, 1, 0, (0, 0, 0)); (false, 1, 0, (4, 5, 6)); (true, 1, 0, (0, 0, 0));
     (true, 2, 0, (0, 0, 0)); (true, 2, 0, (0, 0, 0)); (true, 2, 0, (0, 0, 0))] /\
  g_index (ex_state (Imputer ex_params) 10) = [2; 1; 0; 3; 4].
Proof. vm_compute. auto. Qed.

(** C17 *)
Example ex_C17 : tr_data ex_train = @binned IE ex_data ex_bd /\ tr_cuts ex_train = b_cuts ex_bd /\
  StronglySorted lt (tr_cols ex_train) /\ (forall c, In c (tr_cols ex_train) -> c < m_cols ex_data) /\
  length (tr_grad ex_train) = m_rows ex_data /\ length (tr_hess ex_train) = m_rows ex_data /\
  [0; 1; 2; 3; 4] = seq 0 (m_rows ex_data).
Proof.
  repeat split; auto.
  - repeat constructor.
  - simpl. intros c [<-|[<-|[]]]; lia.
Qed.

(** C20, C21, C60, C61: three rows, one of them missing its only value. *)
Definition exx_data : Matrix xr := matrix_new [Fin 1; XNaN; Fin 3] 3 1.
Definition exx_sw : list xr := [Fin 1; Fin 1; Fin 1].
Definition exx_params : @SplitParams XF := @mkSP XF (Fin 0) (Fin 1) (Fin 0) (Fin 0) (Fin (1/2)) (Fin 1) false [].
Definition exx_train (bd : @BinnedData XF) : @Train XF :=
  @mkTrain XF (@binned XF exx_data bd) (b_cuts bd) [Fin 1; Fin (-2); Fin 3] [Fin 1; Fin 1; Fin 1] [0].

Example exx_trained : exists bd,
  forall s, params s = exx_params -> trained (@isorts XF) exx_data exx_sw 2 XNaN bd s (exx_train bd) [0; 1; 2] SNone.
Proof.
  assert (LT : forall r : R, (r <= 3)%R -> xlt (Fin r) xmax = true).
  { intros r Hr. apply Rlt_bool_true. eapply Rle_lt_trans; [exact Hr|]. apply IZR_lt. reflexivity. }
  assert (CV : @col_values XF exx_data exx_sw XNaN 0 = [Fin 1; Fin 3]) by reflexivity.
  assert (CW : @col_weights XF exx_data exx_sw XNaN 0 = [Fin 1; Fin 1]) by reflexivity.
  assert (CVS : forall j, @col_values XF exx_data exx_sw XNaN (S j) = []).
  { intros j. unfold col_values. destruct (@m_get_col (fcar (@f64 XF)) exx_data (S j)) as [col|] eqn:E; [|reflexivity]. exfalso.
    unfold m_get_col, m_get_col_slice, m_item_index in E. apply slice_Some in E. destruct E as (_ & E & _). cbn in E. lia. }
  destruct (@bin_matrix_total XF x_ord_laws (@isorts XF) exx_data exx_sw 2 XNaN (@isorts_spec XF x_ord_laws) eq_refl eq_refl eq_refl
              ltac:(lia)) as [bd HB].
  { discriminate. }
  { simpl. intros x [<-|[<-|[<-|[]]]]; [right|left|right]; try (split; [reflexivity|]; apply LT; lra). reflexivity. }
  exists bd. intros s Es. constructor; auto; try reflexivity; try discriminate.
  - exact (@isorts_spec XF x_ord_laws).
  - intros [|j] x; [rewrite CV; intros [<-|[<-|[]]]; apply LT; lra|rewrite CVS; intros []].
  - intros w Hw. simpl in Hw. assert (w = Fin 1) as -> by (destruct Hw as [<-|[<-|[<-|[]]]]; auto).
    split; [apply Rle_bool_true; lra|reflexivity].
  - intros [|j]; [right|left; apply CVS]. exists (Fin 1). rewrite CW. split; [left; auto|apply Rlt_bool_true; lra].
  - repeat constructor.
  - simpl. intros c [<-|[]]. lia.
  - simpl. intros x [<-|[<-|[<-|[]]]]; eexists; reflexivity.
  - simpl. intros x [<-|[<-|[<-|[]]]]; eexists; reflexivity.
  - simpl. intros i Hi. lia.
  - rewrite Es. exists (1/2)%R. split; [reflexivity|lra].
Qed.

Example exx_fitted : exists bd nodes st,
  trained (@isorts XF) exx_data exx_sw 2 XNaN bd (Imputer exx_params) (exx_train bd) [0; 1; 2] SNone /\
  @tree_fit XF DepthWise (fun _ _ => 0) (Imputer exx_params) (exx_train bd) [0; 1; 2] 10 5 SNone = Some (nodes, st).
Proof.
  destruct exx_trained as [bd T]. specialize (T (Imputer exx_params) eq_refl).
  destruct (C60_never_panics _ _ _ _ _ _ DepthWise (fun _ _ => 0) _ _ _ 10 5 _ T I) as (nodes & st & H). eauto.
Qed.

Print Assumptions C11_well_formed. Print Assumptions C12_max_depth. Print Assumptions C13_max_leaves.
Print Assumptions C14_max_leaves_branch. Print Assumptions C14_max_leaves_branch_refuted.
Print Assumptions C15_min_leaf_weight. Print Assumptions C16_gamma. Print Assumptions C17_split_cut.
Print Assumptions C18_best_split. Print Assumptions C18_no_split. Print Assumptions C18_tree_splits.
Print Assumptions C19_rows_tiled. Print Assumptions C20_routes. Print Assumptions C21_cover.
Print Assumptions C57_turns. Print Assumptions C57_size. Print Assumptions C57_fails_only_by_panic.
Print Assumptions C59_leaves_done. Print Assumptions C60_never_panics. Print Assumptions C61_values.
