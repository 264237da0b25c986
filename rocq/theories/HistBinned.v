(** Histograms of binned data. *)
From Coq Require Import List Arith NArith Lia Bool Permutation Reals Sorting.
From Verif Require Import Prelude Float FloatX FloatLaws Data DataProofs OrdProofs Utils UtilsX Binning BinningProofs CutProofs BinMatrix
  Histogram HistogramProofs HistogramX PivotProofs Node Splitter SplitProofs EvalProofs Tree GrowProofs RouteFit.
Import ListNotations.

Section Bin.
Context {FS : Floats}.
Variable OL : OrdLaws (@f64 FS).
Notation FM := (fmax (@f64 FS)).

Theorem hist_binned : fisnan f64 FM = false ->
  forall S data sw nbins missing bd grad hess cols index sort, SortSpec S ->
  bin_matrix S data sw nbins missing = Some bd ->
  length (m_data data) = m_rows data * m_cols data ->
  (forall j x, In x (col_values data sw missing j) -> fle f64 x FM = true) ->
  StronglySorted lt cols -> (forall c, In c cols -> c < m_cols data) ->
  length grad = m_rows data -> length hess = m_rows data ->
  (forall i, In i index -> i < m_rows data) -> (sort = false -> index = seq 0 (m_rows data)) ->
  exists h, hist_new_serial (binned data bd) (b_cuts bd) grad hess index cols sort = Some h /\
    forall k f, nth_error cols k = Some f -> exists cuts bins,
      j_get_col (b_cuts bd) f = Some cuts /\ j_get_col h k = Some bins /\ length bins = length cuts /\
      forall b bin, nth_error bins b = Some bin ->
        let rows := filter (fun i => match m_get (binned data bd) i f with Some c => c =? b | None => false end) index in
        gradient_sum bin = to32 (fsum f64 (map (fun i => to64 (nth i grad (fzero f32))) rows)) /\
        hessian_sum bin = to32 (fsum f64 (map (fun i => to64 (nth i hess (fzero f32))) rows)) /\
        cut_value bin = (match b with 0 => fnan f64 | S b' => nth b' cuts (fnan f64) end).
Proof.
  intros NM S data sw nbins missing bd grad hess cols index sort SS H LD HV SO HB LG LH HI HS.
  destruct (bin_hist_inputs OL S data sw nbins missing bd grad hess cols SS NM H LD HV SO HB LG LH) as (fcols & ccols & HH & _).
  exists (hist_spec (binned data bd) (b_cuts bd) grad hess cols fcols ccols index). split.
  { destruct sort; [apply hist_new_sorted; auto|]. rewrite (HS eq_refl). apply hist_new_unsorted; auto. }
  intros k f Hk.
  assert (Hf : f < m_cols (binned data bd)) by (simpl; apply HB; eapply nth_error_In; eauto).
  exists (ccol ccols f), (feature_bins (fcol fcols f) (ccol ccols f) index (gof grad) (hof hess)).
  destruct (ccol_ok _ _ _ _ _ _ _ HH f Hf) as [C1 C2]. destruct (fcol_ok _ _ _ _ _ _ _ HH f Hf) as [F1 F2].
  split; [exact C1|]. split; [apply hist_col_lookup; auto|].
  assert (LB : length (feature_bins (fcol fcols f) (ccol ccols f) index (gof grad) (hof hess)) = length (ccol ccols f)).
  { unfold feature_bins. rewrite map_length, seq_length. auto. }
  split; [exact LB|].
  intros b bin Hb. cbv zeta. pose proof (nth_error_Some_lt _ _ Hb) as Lb. rewrite LB in Lb.
  unfold feature_bins in Hb. rewrite nth_error_map, (nth_error_seq 0 Lb) in Hb. simpl in Hb. injection Hb as <-. simpl.
  assert (EF : filter (in_bin (fcol fcols f) b) index =
     filter (fun i => match m_get (binned data bd) i f with Some c => c =? b | None => false end) index).
  { apply filter_ext_in. intros i Hi. unfold in_bin.
    destruct (get_col_spec (binned data bd)) with (j := f) as (col & E1 & E2 & E3); auto.
    { simpl. destruct (bin_matrix_spec _ _ _ _ _ _ H) as (? & _ & _ & _ & _ & LB' & _). congruence. }
    rewrite F1 in E1. injection E1 as <-. rewrite E3 by (simpl; auto). reflexivity. }
  assert (SM : forall (w : nat -> F32) l, sum64 (map w l) = fsum f64 (map (fun i => to64 (w i)) l)).
  { intros w l. unfold sum64, fsum. generalize (fzero (@f64 FS)) as a. induction l as [|x l IH]; intros a; simpl; auto. }
  rewrite EF, !SM. split; [reflexivity|]. split; [reflexivity|].
  destruct b as [|b]; [reflexivity|]. simpl.
  destruct (ccol ccols f) as [|c0 cs] eqn:EC using rev_ind; [congruence|].
  rewrite removelast_last. rewrite app_length in Lb. simpl in Lb. rewrite app_nth1 by lia. reflexivity.
Qed.
End Bin.

(** The histogram of the rest of a node from those of the node and of one or two children. *)
Section Sub.
Variables (data : Matrix nat) (cuts : Jagged xr) (grad hess : list xr) (cols : list nat) (fcols : list (list nat)) (ccols : list (list xr)).
Hypothesis HI : @hist_inputs XF data cuts grad hess cols fcols ccols.
Hypothesis FG : forall x, In x grad -> xfin x.
Hypothesis FH : forall x, In x hess -> xfin x.
Notation hist l := (@hist_new_serial XF data cuts grad hess l cols true).

Theorem hist_subtract_new : forall P A B hp ha, Permutation P (A ++ B) -> (forall i, In i P -> i < m_rows data) ->
  hist P = Some hp -> hist A = Some ha ->
  hist B = Some (hist_from_parent_child hp ha).
Proof.
  intros P A B hp ha HP HR E1 E2.
  assert (HA : forall i, In i A -> i < m_rows data).
  { intros i Hi. apply HR. apply (Permutation_in _ (Permutation_sym HP)). apply in_or_app; auto. }
  assert (HB : forall i, In i B -> i < m_rows data).
  { intros i Hi. apply HR. apply (Permutation_in _ (Permutation_sym HP)). apply in_or_app; auto. }
  rewrite (hist_new_sorted _ _ _ _ _ _ _ HI P HR) in E1. rewrite (hist_new_sorted _ _ _ _ _ _ _ HI A HA) in E2.
  injection E1 as <-. injection E2 as <-. rewrite (hist_new_sorted _ _ _ _ _ _ _ HI B HB). f_equal. symmetry.
  apply hist_subtract; auto.
Qed.

Theorem hist_subtract_two_new : forall P A B C hp ha hb, Permutation P (A ++ B ++ C) -> (forall i, In i P -> i < m_rows data) ->
  hist P = Some hp -> hist A = Some ha -> hist B = Some hb ->
  hist C = Some (hist_from_parent_two_children hp ha hb).
Proof.
  intros P A B C hp ha hb HP HR E1 E2 E3.
  assert (HIN : forall i, In i (A ++ B ++ C) -> i < m_rows data).
  { intros i Hi. apply HR. apply (Permutation_in _ (Permutation_sym HP)). auto. }
  assert (HA : forall i, In i A -> i < m_rows data) by (intros; apply HIN; rewrite !in_app_iff; auto).
  assert (HB : forall i, In i B -> i < m_rows data) by (intros; apply HIN; rewrite !in_app_iff; auto).
  assert (HC : forall i, In i C -> i < m_rows data) by (intros; apply HIN; rewrite !in_app_iff; auto).
  rewrite (hist_new_sorted _ _ _ _ _ _ _ HI P HR) in E1. rewrite (hist_new_sorted _ _ _ _ _ _ _ HI A HA) in E2.
  rewrite (hist_new_sorted _ _ _ _ _ _ _ HI B HB) in E3.
  injection E1 as <-. injection E2 as <-. injection E3 as <-. rewrite (hist_new_sorted _ _ _ _ _ _ _ HI C HC). f_equal. symmetry.
  apply hist_subtract_two; auto.
Qed.
End Sub.

Section SubBinned.
Variables (S : @Sorts XF) (data : Matrix xr) (sw : list xr) (nbins : nat) (missing : xr) (bd : @BinnedData XF).
Variables (grad hess : list xr) (cols : list nat).
Hypothesis SS : SortSpec S.
Hypothesis HB : @bin_matrix XF S data sw nbins missing = Some bd.
Hypothesis LD : length (m_data data) = m_rows data * m_cols data.
Hypothesis HV : forall j x, In x (@col_values XF data sw missing j) -> xle x xmax = true.
Hypothesis SO : StronglySorted lt cols.
Hypothesis CB : forall c, In c cols -> c < m_cols data.
Hypothesis LG : length grad = m_rows data.
Hypothesis LH : length hess = m_rows data.
Hypothesis FG : forall x, In x grad -> xfin x.
Hypothesis FH : forall x, In x hess -> xfin x.
Notation hist l := (@hist_new_serial XF (binned data bd) (b_cuts bd) grad hess l cols true).

Theorem hist_subtract_binned : forall P A B hp ha, Permutation P (A ++ B) -> (forall i, In i P -> i < m_rows data) ->
  hist P = Some hp -> hist A = Some ha ->
  hist B = Some (hist_from_parent_child hp ha).
Proof.
  destruct (@bin_hist_inputs XF x_ord_laws S data sw nbins missing bd grad hess cols SS eq_refl HB LD HV SO CB LG LH) as (fcols & ccols & HI & _).
  exact (hist_subtract_new _ _ _ _ _ _ _ HI FG FH).
Qed.

Theorem hist_subtract_two_binned : forall P A B C hp ha hb, Permutation P (A ++ B ++ C) -> (forall i, In i P -> i < m_rows data) ->
  hist P = Some hp -> hist A = Some ha -> hist B = Some hb ->
  hist C = Some (hist_from_parent_two_children hp ha hb).
Proof.
  destruct (@bin_hist_inputs XF x_ord_laws S data sw nbins missing bd grad hess cols SS eq_refl HB LD HV SO CB LG LH) as (fcols & ccols & HI & _).
  exact (hist_subtract_two_new _ _ _ _ _ _ _ HI FG FH).
Qed.
End SubBinned.

(** The two-way partition without the helper predicate. *)
Lemma goes_left_match : forall sv mr b, goes_left sv mr b = match b with 0 => negb mr | _ => b <? sv end.
Proof. intros sv mr [|b]; unfold goes_left; simpl; destruct mr; auto. Qed.

Theorem pivot_two_way_left : forall index feature sv (missing_right : bool),
  (forall x, In x index -> x < length feature) ->
  let left b := match b with 0 => negb missing_right | _ => b <? sv end in
  (exists x b, In x index /\ nth_error feature x = Some b /\ left b = false) ->
  exists index' k,
    pivot_on_split index feature sv missing_right = Some (index', k) /\
    Permutation index index' /\ k < length index /\
    (forall x, In x (firstn k index') -> exists b, nth_error feature x = Some b /\ left b = true) /\
    (forall x, In x (skipn k index') -> exists b, nth_error feature x = Some b /\ left b = false).
Proof.
  intros index feature sv mr HR left (x & b & H1 & H2 & H3). subst left. cbv beta in *.
  destruct (pivot_two_way index feature sv mr HR) as (index' & k & E & P & Hk & A & B).
  { exists x, b. rewrite goes_left_match. auto. }
  exists index', k. repeat split; auto; intros y Hy; [apply A in Hy|apply B in Hy]; destruct Hy as (c & C1 & C2);
    exists c; rewrite goes_left_match in C2; auto.
Qed.

Theorem pivot_all_left : forall index feature sv (missing_right : bool), index <> [] ->
  let left b := match b with 0 => negb missing_right | _ => b <? sv end in
  (forall x, In x index -> exists b, nth_error feature x = Some b /\ left b = true) ->
  exists index', pivot_on_split index feature sv missing_right = Some (index', length index - 1) /\
    Permutation index index'.
Proof.
  intros index feature sv mr HN left H. subst left. cbv beta in *. apply pivot_two_way_all_left; auto.
  intros x Hx. destruct (H x Hx) as (b & B1 & B2). exists b. rewrite goes_left_match. auto.
Qed.

Theorem accessors_agree : forall (T : Type) (m : Matrix T), length (m_data m) = m_rows m * m_cols m ->
  forall i j, i < m_rows m -> j < m_cols m ->
  exists x col row, m_get m i j = Some x /\ m_get_col m j = Some col /\ nth_error col i = Some x /\
    m_get_row m i = Some row /\ nth_error row j = Some x /\ length col = m_rows m /\ length row = m_cols m.
Proof.
  intros T m HD i j Hi Hj.
  destruct (get_in_range m HD i j Hi Hj) as [x Hx].
  destruct (get_col_spec m HD j Hj) as (col & C1 & C2 & C3). destruct (get_row_spec m HD i Hi) as (row & R1 & R2 & R3).
  exists x, col, row. rewrite C3, R3 by auto. auto 10.
Qed.
