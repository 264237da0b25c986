(** Contents of histograms (histogram.rs). *)
From Coq Require Import List Arith Lia Bool Permutation Sorting.Sorted.
From Verif Require Import Prelude Float Data DataProofs Utils Histogram.
Import ListNotations.

Section Contents.
Context {FS : Floats}.

(** Does row [i] fall in bin [b] of the binned column [f]? *)
Definition in_bin (f : list nat) (b i : nat) : bool :=
  match nth_error f i with Some b' => b' =? b | None => false end.

(** Sum of f32 values as the histogram code does it: widened, added left to right, rounded. *)
Definition sum64 (l : list F32) : F64 := fold_left (fun a g => (a + to64 g)%f64) l (fzero f64).

Lemma add_row_length : forall hist b g h, length (add_row hist b g h) = length hist.
Proof.
  intros. unfold add_row. destruct (nth_error hist b); auto.
  destruct (update hist b _) eqn:E; auto. eapply update_length; eauto.
Qed.

Lemma add_row_nth : forall hist b g h k, nth_error (add_row hist b g h) k =
  match nth_error hist k with
  | Some v => Some (if k =? b then mkBin (gradient_sum v + to64 g)%f64 (hessian_sum v + to64 h)%f64 (cut_value v) else v)
  | None => None
  end.
Proof.
  intros hist b g h k. unfold add_row. destruct (nth_error hist b) as [v|] eqn:Eb.
  - destruct (update_total hist (i := b) (mkBin (gradient_sum v + to64 g)%f64 (hessian_sum v + to64 h)%f64 (cut_value v)))
      as [l' Hl']; [eapply nth_error_Some_lt; eauto|].
    rewrite Hl'. rewrite (update_nth _ _ _ Hl').
    destruct (Nat.eqb_spec k b) as [->|]; [rewrite Eb; auto|]. destruct (nth_error hist k); auto.
  - destruct (nth_error hist k) eqn:Ek; auto. destruct (Nat.eqb_spec k b) as [->|]; auto. congruence.
Qed.

Definition hist_step (f : list nat) (hist : list (Bin F64)) '(i, g, h) : option (list (Bin F64)) :=
  let* b := nth_error f i in Some (add_row hist b g h).

Lemma hist_fold : forall f l hist hist', foldM (hist_step f) l hist = Some hist' ->
  length hist' = length hist /\
  (forall i, In i (map (fun x => fst (fst x)) l) -> i < length f) /\
  forall k v, nth_error hist k = Some v ->
   nth_error hist' k = Some (mkBin
     (fold_left (fun a g => (a + to64 g)%f64)
        (map (fun x => snd (fst x)) (filter (fun x => in_bin f k (fst (fst x))) l)) (gradient_sum v))
     (fold_left (fun a g => (a + to64 g)%f64)
        (map snd (filter (fun x => in_bin f k (fst (fst x))) l)) (hessian_sum v))
     (cut_value v)).
Proof.
  intros f. induction l as [|[[i g] h] l IH]; intros hist hist' H; simpl in H.
  - injection H as <-. split; auto. split; [simpl; tauto|]. intros k [] Hk; simpl; auto.
  - inv_bind H. inv_bind E. rename v0 into b. injection E as <-.
    destruct (IH _ _ H) as (I1 & I2 & I3). rewrite add_row_length in I1. split; auto.
    split. { simpl. intros j [<-|Hj]; [eapply nth_error_Some_lt; eauto|auto]. }
    intros k v Hk. assert (A := add_row_nth hist b g h k). rewrite Hk in A.
    rewrite (I3 _ _ A). simpl.
    assert (in_bin f k i = (k =? b)) as -> by (unfold in_bin; rewrite E0; apply Nat.eqb_sym).
    destruct (k =? b); simpl; reflexivity.
Qed.

Lemma hist_fold_total : forall f l hist, (forall i, In i (map (fun x => fst (fst x)) l) -> i < length f) ->
  exists hist', foldM (hist_step f) l hist = Some hist'.
Proof.
  intros f. induction l as [|[[i g] h] l IH]; intros hist H; simpl; [eauto|].
  destruct (nth_error_lt f (i := i)) as [b Hb]; [apply H; simpl; auto|]. rewrite Hb. simpl.
  apply IH. intros j Hj. apply H. simpl. auto.
Qed.

(** The bins of one feature for the rows [index] with per-row gradients [g] and hessians [h]. *)
Definition feature_bins (f : list nat) (cuts : list F64) (index : list nat) (g h : nat -> F32) : list (Bin F32) :=
  map (fun b => mkBin (to32 (sum64 (map g (filter (in_bin f b) index))))
                      (to32 (sum64 (map h (filter (in_bin f b) index))))
                      (nth b (fnan f64 :: removelast cuts) (fnan f64)))
      (seq 0 (length cuts)).

Lemma combine_map3 : forall index (g h : nat -> F32),
  combine (combine index (map g index)) (map h index) = map (fun i => (i, g i, h i)) index.
Proof. induction index; simpl; intros; f_equal; auto. Qed.

Lemma filter_map_comm : forall A B (p : B -> bool) (f : A -> B) l, filter p (map f l) = map f (filter (fun x => p (f x)) l).
Proof. induction l; simpl; auto. destruct (p (f a)); simpl; congruence. Qed.

Lemma removelast_firstn_len : forall A (l : list A), removelast l = firstn (length l - 1) l.
Proof.
  intros A l. rewrite removelast_firstn_len. f_equal. lia.
Qed.

Theorem create_feature_histogram_spec : forall f cuts index g h,
  cuts <> [] -> (forall i, In i index -> i < length f) ->
  create_feature_histogram f cuts (map g index) (map h index) index = Some (feature_bins f cuts index g h).
Proof.
  intros f cuts index g h Hc Hi. unfold create_feature_histogram.
  destruct cuts as [|c0 cuts']; [tauto|]. remember (c0 :: cuts') as cuts.
  rewrite combine_map3.
  set (hist0 := new_f64 (fnan f64) :: map new_f64 (firstn (length cuts - 1) cuts)).
  destruct (hist_fold_total f (map (fun i => (i, g i, h i)) index) hist0) as [hist' H].
  { rewrite map_map. simpl. intros i Hin. apply in_map_iff in Hin. destruct Hin as (j & <- & Hj). auto. }
  assert (H' := H). apply hist_fold in H'. destruct H' as (H1 & _ & H3).
  unfold hist_step in H. rewrite H. simpl bind. f_equal.
  assert (L0 : length hist0 = length cuts).
  { unfold hist0. simpl. rewrite map_length, firstn_length. subst cuts; simpl; lia. }
  apply list_ext_nth. intros k. unfold feature_bins.
  destruct (Nat.lt_ge_cases k (length cuts)) as [Hk|Hk].
  - assert (N0 : nth_error hist0 k = Some (new_f64 (nth k (fnan f64 :: removelast cuts) (fnan f64)))).
    { unfold hist0. rewrite removelast_firstn_len. change (new_f64 (fnan f64) :: map new_f64 (firstn (length cuts - 1) cuts))
        with (map new_f64 (fnan f64 :: firstn (length cuts - 1) cuts)).
      rewrite nth_error_map. erewrite nth_error_nth'; [reflexivity|].
      simpl. rewrite firstn_length. lia. }
    specialize (H3 _ _ N0).
    rewrite !nth_error_map. rewrite H3. simpl.
    assert (S : nth_error (seq 0 (length cuts)) k = Some k).
    { erewrite nth_error_nth' with (d := 0); [|rewrite seq_length; auto]. rewrite seq_nth by auto. reflexivity. }
    rewrite S. simpl. unfold as_f32_bin, sum64; simpl. f_equal. f_equal.
    + f_equal. f_equal. rewrite filter_map_comm, map_map. simpl. reflexivity.
    + f_equal. f_equal. rewrite filter_map_comm, map_map. simpl. reflexivity.
  - rewrite (proj2 (nth_error_None _ _)); [rewrite (proj2 (nth_error_None _ _)); auto|];
      rewrite map_length; rewrite ?seq_length; lia.
Qed.
End Contents.

(** *** A training set *)
Section Hist.
Context {FS : Floats}.
Variables (data : Matrix nat) (cuts : Jagged F64) (grad hess : list F32) (cols : list nat).
Variables (fcols : list (list nat)) (ccols : list (list F64)).

(** The inputs of a histogram fit together: [fcols] are the columns of the binned matrix,
    [ccols] the non-empty lists of cuts, [cols] an increasing choice of columns. *)
Record hist_inputs : Prop := mkHI {
  hi_cols : length fcols = m_cols data;
  hi_ccols : length ccols = m_cols data;
  hi_col : forall j f, nth_error fcols j = Some f -> m_get_col data j = Some f /\ length f = m_rows data;
  hi_cuts : jrep cuts ccols;
  hi_cuts_ne : forall c, In c ccols -> c <> [];
  hi_sorted : StronglySorted lt cols;
  hi_bound : forall c, In c cols -> c < m_cols data;
  hi_grad : length grad = m_rows data;
  hi_hess : length hess = m_rows data
}.
Hypothesis HI : hist_inputs.

Definition gof (i : nat) : F32 := nth i grad (fzero f32).
Definition hof (i : nat) : F32 := nth i hess (fzero f32).
Definition fcol (j : nat) : list nat := nth j fcols [].
Definition ccol (j : nat) : list F64 := nth j ccols [].

(** The histogram of the rows [index], as a matrix: one list of bins per sampled column. *)
Definition hist_cols (index : list nat) : list (list (Bin F32)) :=
  map (fun j => feature_bins (fcol j) (ccol j) index gof hof) cols.
Definition hist_ends : list nat := psums 0 (map (fun j => length (ccol j)) cols).
Definition hist_nrec : nat := if length cols =? m_cols data then j_nrecords cuts else fold_left Nat.add hist_ends 0.
Definition hist_spec (index : list nat) : HistogramMatrix :=
  mkJagged (concat (hist_cols index)) hist_ends (length cols) hist_nrec.

Lemma ss_lower : forall l a, StronglySorted lt (a :: l) -> forall i x, nth_error (a :: l) i = Some x -> a + i <= x.
Proof.
  induction l as [|b l IH]; intros a S i x Hx.
  - destruct i as [|[|i]]; simpl in Hx; try discriminate. injection Hx as <-. lia.
  - inversion S; subst. destruct i as [|i]; simpl in Hx; [injection Hx as <-; lia|].
    apply (IH b H1 i x) in Hx. rewrite Forall_forall in H2. specialize (H2 b (or_introl eq_refl)). lia.
Qed.

Lemma ss_full : forall n l, StronglySorted lt l -> (forall c, In c l -> c < n) -> length l <= n.
Proof.
  intros n l S B. destruct l as [|a l]; simpl; [lia|].
  destruct (nth_error_lt (a :: l) (i := length l)) as [x Hx]; [simpl; lia|].
  pose proof (ss_lower l a S _ _ Hx). apply nth_error_In in Hx. apply B in Hx. lia.
Qed.

Lemma ss_seq : forall n l k, StronglySorted lt l -> (forall c, In c l -> k <= c < k + n) -> length l = n -> l = seq k n.
Proof.
  induction n as [|n IH]; intros l k S B L.
  - destruct l; [reflexivity|discriminate].
  - destruct l as [|a l]; [discriminate|]. simpl in L. injection L as L. inversion S; subst.
    assert (a = k).
    { destruct (nth_error_lt (a :: l) (i := length l)) as [x Hx]; [simpl; lia|].
      pose proof (ss_lower l a S _ _ Hx). apply nth_error_In in Hx.
      pose proof (B _ Hx). pose proof (B a (or_introl eq_refl)). lia. }
    subst a. simpl. f_equal. apply IH; auto. intros c Hc. rewrite Forall_forall in H2.
    pose proof (H2 _ Hc). pose proof (B c (or_intror Hc)). lia.
Qed.

Lemma cols_full : length cols = m_cols data -> cols = seq 0 (m_cols data).
Proof.
  intros L. apply ss_seq; auto; [apply (hi_sorted HI)|]. intros c Hc. pose proof (hi_bound HI c Hc). lia.
Qed.

Lemma fcol_ok : forall j, j < m_cols data -> m_get_col data j = Some (fcol j) /\ length (fcol j) = m_rows data.
Proof.
  intros j Hj. rewrite <- (hi_cols HI) in Hj. destruct (nth_error_lt fcols Hj) as [f Hf].
  unfold fcol. rewrite (nth_error_nth_eq _ _ [] Hf). apply (hi_col HI _ _ Hf).
Qed.

Lemma ccol_ok : forall j, j < m_cols data -> j_get_col cuts j = Some (ccol j) /\ ccol j <> [].
Proof.
  intros j Hj. rewrite <- (hi_ccols HI) in Hj. destruct (nth_error_lt ccols Hj) as [f Hf].
  unfold ccol. rewrite (nth_error_nth_eq _ _ [] Hf). rewrite (jrep_get_col _ _ _ (hi_cuts HI)). split; auto.
  apply (hi_cuts_ne HI). eapply nth_error_In; eauto.
Qed.

Lemma feature_bins_length : forall f c index g h, length (feature_bins f c index g h) = length c.
Proof. intros. unfold feature_bins. rewrite map_length, seq_length. reflexivity. Qed.


Lemma scan_ends_spec : forall l a, (forall c, In c l -> c < m_cols data) ->
  scan_ends cuts l a = Some (psums a (map (fun j => length (ccol j)) l)).
Proof.
  induction l as [|j l IH]; intros a B; simpl; auto.
  destruct (ccol_ok j) as [E _]; [apply B; simpl; auto|]. rewrite E. simpl. rewrite IH by (intros; apply B; simpl; auto).
  reflexivity.
Qed.

Lemma assemble_spec : forall hists, hist_assemble data cuts cols hists = Some (mkJagged (concat hists) hist_ends (length cols) hist_nrec).
Proof.
  intros hists. unfold hist_assemble, hist_nrec. destruct (Nat.eqb_spec (length cols) (m_cols data)) as [E|E].
  - simpl. f_equal. f_equal. destruct (hi_cuts HI) as [_ ->]. unfold hist_ends. rewrite (cols_full E).
    rewrite <- (hi_ccols HI). unfold ccol. rewrite <- (map_map (fun j => nth j ccols []) (@length _)), map_nth_seq. reflexivity.
  - rewrite scan_ends_spec by apply (hi_bound HI). reflexivity.
Qed.

Lemma mapM_some_map : forall A B (f : A -> option B) g l, (forall x, In x l -> f x = Some (g x)) -> mapM f l = Some (map g l).
Proof.
  intros A B f g l H. rewrite (mapM_ext f (fun x => Some (g x)) l H). apply mapM_map.
Qed.

Lemma gather : forall (v : list F32) index, (forall i, In i index -> i < length v) ->
  mapM (nth_error v) index = Some (map (fun i => nth i v (fzero f32)) index).
Proof.
  intros v index H. apply mapM_some_map. intros i Hi. apply nth_error_nth'. auto.
Qed.

Lemma col_histogram_spec : forall index, (forall i, In i index -> i < m_rows data) ->
  forall j, In j cols ->
  col_histogram data cuts (map gof index) (map hof index) index j = Some (feature_bins (fcol j) (ccol j) index gof hof).
Proof.
  intros index B j Hj. apply (hi_bound HI) in Hj. unfold col_histogram.
  destruct (fcol_ok j Hj) as [E1 L1]. destruct (ccol_ok j Hj) as [E2 N2]. rewrite E1, E2. simpl.
  apply create_feature_histogram_spec; auto. rewrite L1. auto.
Qed.

(** C08, with reordered gradients (row sampling, and every node below the root). *)
Theorem hist_new_sorted : forall index, (forall i, In i index -> i < m_rows data) ->
  hist_new_serial data cuts grad hess index cols true = Some (hist_spec index).
Proof.
  intros index B. unfold hist_new_serial, sort_gh.
  rewrite (gather grad) by (rewrite (hi_grad HI); auto). rewrite (gather hess) by (rewrite (hi_hess HI); auto). simpl bind.
  fold gof hof. change (map (fun i => nth i grad (fzero f32)) index) with (map gof index).
  change (map (fun i => nth i hess (fzero f32)) index) with (map hof index).
  rewrite (mapM_some_map _ _ _ (fun j => feature_bins (fcol j) (ccol j) index gof hof)).
  - simpl bind. rewrite assemble_spec. reflexivity.
  - apply col_histogram_spec; auto.
Qed.

(** C08 at the root without row sampling: the gradients are taken in storage order, which is
    right because the index is then 0, 1, 2, ... *)
Theorem hist_new_unsorted : hist_new_serial data cuts grad hess (seq 0 (m_rows data)) cols false = Some (hist_spec (seq 0 (m_rows data))).
Proof.
  unfold hist_new_serial, sort_gh. simpl bind.
  assert (Eg : grad = map gof (seq 0 (m_rows data))) by (rewrite <- (hi_grad HI); symmetry; apply map_nth_seq).
  assert (Eh : hess = map hof (seq 0 (m_rows data))) by (rewrite <- (hi_hess HI); symmetry; apply map_nth_seq).
  rewrite (mapM_some_map _ _ _ (fun j => feature_bins (fcol j) (ccol j) (seq 0 (m_rows data)) gof hof)).
  - simpl bind. rewrite assemble_spec. reflexivity.
  - intros j Hj. rewrite Eg at 1. rewrite Eh at 1. apply col_histogram_spec; auto. intros i Hi. apply in_seq in Hi. lia.
Qed.

(** Looking up the k-th sampled column. *)
Lemma hist_spec_rep : forall index, jrep (hist_spec index) (hist_cols index).
Proof.
  intros index. split; simpl; auto. unfold hist_ends, hist_cols. rewrite map_map. f_equal.
  apply map_ext. intros j. symmetry. apply feature_bins_length.
Qed.

Theorem hist_col_lookup : forall index k j, nth_error cols k = Some j ->
  j_get_col (hist_spec index) k = Some (feature_bins (fcol j) (ccol j) index gof hof).
Proof.
  intros index k j H. rewrite (jrep_get_col _ _ _ (hist_spec_rep index)). unfold hist_cols.
  rewrite nth_error_map, H. reflexivity.
Qed.

(** *** Layout shared by all histograms of one fit *)
Definition layout (h : HistogramMatrix) : Prop :=
  map cut_value (j_data h) = concat (map (fun j => fnan f64 :: removelast (ccol j)) cols) /\
  j_ends h = hist_ends /\ j_cols h = length cols /\ j_nrecords h = hist_nrec.

Lemma feature_bins_cuts : forall f c index g h, c <> [] ->
  map cut_value (feature_bins f c index g h) = fnan f64 :: removelast c.
Proof.
  intros f c index g h Hc. unfold feature_bins. rewrite map_map. simpl.
  assert (L : length c = length (fnan f64 :: removelast c)).
  { rewrite removelast_firstn_len. simpl. rewrite firstn_length. destruct c; [tauto|]. simpl. lia. }
  rewrite L. apply (map_nth_seq _ (fnan f64 :: removelast c)).
Qed.

Lemma layout_spec : forall index, layout (hist_spec index).
Proof.
  intros index. split; simpl; auto. unfold hist_cols. rewrite concat_map, map_map. f_equal.
  apply map_ext_in. intros j Hj. apply feature_bins_cuts. apply ccol_ok. apply (hi_bound HI); auto.
Qed.

Lemma map_combine_fst : forall A B C (f : A -> C) (l1 : list A) (l2 : list B), length l1 = length l2 ->
  map (fun p => f (fst p)) (combine l1 l2) = map f l1.
Proof. induction l1; intros [|b l2] H; simpl in *; try discriminate; auto. f_equal; auto. Qed.

Lemma layout_length : forall h1 h2, layout h1 -> layout h2 -> length (j_data h1) = length (j_data h2).
Proof.
  intros h1 h2 (H1 & _) (H2 & _). rewrite <- (map_length cut_value (j_data h1)), H1, <- H2, map_length. reflexivity.
Qed.

Lemma layout_parent_child : forall p c, layout p -> layout c -> layout (hist_from_parent_child p c).
Proof.
  intros p c Lp Lc. pose proof (layout_length _ _ Lp Lc) as LL.
  destruct Lp as (P1 & P2 & P3 & P4). destruct Lc as (C1 & C2 & C3 & C4).
  unfold layout, hist_from_parent_child; simpl. repeat split; auto.
  rewrite map_map. rewrite <- P1. rewrite <- (map_combine_fst _ _ _ cut_value _ _ LL).
  apply map_ext. intros [a b]; reflexivity.
Qed.

Lemma layout_parent_two : forall p a b, layout p -> layout a -> layout b -> layout (hist_from_parent_two_children p a b).
Proof.
  intros p a b Lp La Lb. pose proof (layout_length _ _ Lp La) as L1. pose proof (layout_length _ _ Lp Lb) as L2.
  destruct Lp as (P1 & P2 & P3 & P4). destruct La as (C1 & C2 & C3 & C4).
  unfold layout, hist_from_parent_two_children; simpl. repeat split; auto.
  rewrite map_map. rewrite <- P1. rewrite <- (map_combine_fst _ _ _ cut_value _ _ L1).
  rewrite <- (map_combine_fst _ _ _ (fun p => cut_value (fst p)) (combine (j_data p) (j_data a)) (j_data b)).
  - apply map_ext. intros [[x y] z]; reflexivity.
  - rewrite combine_length. lia.
Qed.

Lemma layout_lookup : forall h, layout h -> forall k j, nth_error cols k = Some j ->
  exists col, j_get_col h k = Some col /\ map cut_value col = fnan f64 :: removelast (ccol j).
Proof.
  intros h (H1 & H2 & _) k j Hk.
  assert (LR : forall j, In j cols -> length (fnan f64 :: removelast (ccol j)) = length (ccol j)).
  { intros j' Hj'. destruct (ccol_ok j') as [_ N]; [apply (hi_bound HI); auto|].
    rewrite removelast_firstn_len. simpl. rewrite firstn_length. destruct (ccol j'); [tauto|]. simpl. lia. }
  set (hc := mkJagged (map cut_value (j_data h)) (j_ends h) 0 0).
  assert (R : jrep hc (map (fun j => fnan f64 :: removelast (ccol j)) cols)).
  { split; simpl; auto. rewrite H2. unfold hist_ends. f_equal. rewrite map_map. apply map_ext_in. intros j' Hj'.
    symmetry. apply LR; auto. }
  pose proof (jrep_get_col _ _ _ R k) as G. rewrite nth_error_map, Hk in G. simpl option_map in G.
  (* j_get_col commutes with map *)
  unfold j_get_col in *. simpl j_ends in G. simpl j_data in G.
  destruct (k <? length (j_ends h)); [|discriminate].
  inv_bind G. inv_bind G. unfold slice in *. rewrite map_length in G. rewrite E. simpl bind. rewrite E0. simpl bind.
  destruct ((v0 <=? v) && (v <=? length (j_data h))); [|discriminate].
  eexists. split; [reflexivity|]. injection G as G. rewrite <- G.
  rewrite <- firstn_map, <- skipn_map. reflexivity.
Qed.
End Hist.

(** *** Schedules *)
Lemma par_map_mapM : forall {FS : Floats} A B (f : A -> option B) sh l, par_map sh f l = mapM f l.
Proof.
  intros FS A B f. induction sh as [|k s1 IH1 s2 IH2]; intros l; simpl; auto.
  rewrite IH1, IH2, <- mapM_app, firstn_skipn. reflexivity.
Qed.

Theorem hist_parallel_serial : forall {FS : Floats} sh data cuts grad hess index cols sort,
  hist_new_parallel sh data cuts grad hess index cols sort = hist_new_serial data cuts grad hess index cols sort.
Proof.
  intros. unfold hist_new_parallel, hist_new_serial. destruct (sort_gh grad hess index sort) as [[sg shh]|]; auto.
  simpl. rewrite par_map_mapM. reflexivity.
Qed.
