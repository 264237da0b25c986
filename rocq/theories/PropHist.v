(** Properties C06-C09, C10 (histograms), C22, C55, C56. *)
From Coq Require Import Reals Lra ZArith NArith List Arith Lia Bool Permutation Sorting.
From Verif Require Import Prelude Float FloatX FloatI FloatLaws OrdProofs Data DataProofs Utils UtilsX Binning
  BinningProofs CutProofs BinMatrix BinningX Histogram HistogramProofs HistogramX PivotProofs Pivot3Proofs HistBinned PropBinning.
Import ListNotations.

(** C06.  A row with bin b goes left when b is below the split bin, missing rows (bin 0) when
    missing goes left. *)
Theorem C06_two_way_partition : forall index feature sv (missing_right : bool),
  (forall x, In x index -> x < length feature) ->
  let left b := match b with 0 => negb missing_right | _ => b <? sv end in
  (exists x b, In x index /\ nth_error feature x = Some b /\ left b = false) ->
  exists index' k,
    pivot_on_split index feature sv missing_right = Some (index', k) /\
    Permutation index index' /\ k < length index /\
    (forall x, In x (firstn k index') -> exists b, nth_error feature x = Some b /\ left b = true) /\
    (forall x, In x (skipn k index') -> exists b, nth_error feature x = Some b /\ left b = false).
Proof. exact pivot_two_way_left. Qed.

(** C06 without a row on the right: still a permutation, but the last row is reported on the
    right; no rows: panic. *)
Theorem C06_all_left_refuted : forall index feature sv (missing_right : bool), index <> [] ->
  let left b := match b with 0 => negb missing_right | _ => b <? sv end in
  (forall x, In x index -> exists b, nth_error feature x = Some b /\ left b = true) ->
  exists index', pivot_on_split index feature sv missing_right = Some (index', length index - 1) /\
    Permutation index index'.
Proof. exact pivot_all_left. Qed.

Theorem C06_empty_panics : forall feature sv mr, pivot_on_split [] feature sv mr = None.
Proof. exact pivot_two_way_empty_panics. Qed.

(** C07 *)
Theorem C07_three_way_partition : forall index feature sv,
  0 < sv ->
  (forall x, In x index -> x < length feature) ->
  (exists x b, In x index /\ nth_error feature x = Some b /\ sv <= b) ->
  exists index' m k,
    pivot_on_split_exclude_missing index feature sv = Some (index', (m, k)) /\
    Permutation index index' /\ m <= k < length index /\
    (forall x, In x (firstn m index') -> nth_error feature x = Some 0) /\
    (forall x, In x (firstn (k - m) (skipn m index')) ->
        exists b, nth_error feature x = Some b /\ 0 < b < sv) /\
    (forall x, In x (skipn k index') -> exists b, nth_error feature x = Some b /\ sv <= b).
Proof. exact pivot_three_way. Qed.

Theorem C07_permutes : forall index feature sv,
  0 < sv -> index <> [] -> (forall x, In x index -> x < length feature) ->
  exists index' m k,
    pivot_on_split_exclude_missing index feature sv = Some (index', (m, k)) /\
    Permutation index index' /\ m <= k < length index.
Proof. exact pivot_three_way_permutes. Qed.

(** C08, IEEE arithmetic: bin sums are the sums in row order in double precision, rounded once. *)
Theorem C08_histogram : forall (iexp iln iln1p : b64 -> b64), let FI := IF iexp iln iln1p in
  forall (S : @Sorts FI) data sw nbins missing bd grad hess cols index sort, SortSpec S ->
  bin_matrix S data sw nbins missing = Some bd ->
  length (m_data data) = m_rows data * m_cols data ->
  (forall j x, In x (@col_values FI data sw missing j) -> fle IOps64 x (fmax IOps64) = true) ->
  StronglySorted lt cols -> (forall c, In c cols -> c < m_cols data) ->
  length grad = m_rows data -> length hess = m_rows data ->
  (forall i, In i index -> i < m_rows data) -> (sort = false -> index = seq 0 (m_rows data)) ->
  exists h, @hist_new_serial FI (binned data bd) (b_cuts bd) grad hess index cols sort = Some h /\
    forall k f, nth_error cols k = Some f -> exists cuts bins,
      j_get_col (b_cuts bd) f = Some cuts /\ j_get_col h k = Some bins /\ length bins = length cuts /\
      forall b bin, nth_error bins b = Some bin ->
        let rows := filter (fun i => match m_get (binned data bd) i f with Some c => c =? b | None => false end) index in
        gradient_sum bin = conv32 (fsum IOps64 (map (fun i => conv64 (nth i grad (fzero IOps32))) rows)) /\
        hessian_sum bin = conv32 (fsum IOps64 (map (fun i => conv64 (nth i hess (fzero IOps32))) rows)) /\
        cut_value bin = (match b with 0 => fnan IOps64 | S b' => nth b' cuts (fnan IOps64) end).
Proof. exact (fun iexp iln iln1p => @hist_binned (IF iexp iln iln1p) i64_ord_laws eq_refl). Qed.

(** C08 again in exact arithmetic, from the same lemma: no rounding at all. *)
Theorem C08_histogram_exact : forall (S : @Sorts XF) data sw nbins missing bd grad hess cols index sort, SortSpec S ->
  bin_matrix S data sw nbins missing = Some bd ->
  length (m_data data) = m_rows data * m_cols data ->
  (forall j x, In x (@col_values XF data sw missing j) -> xle x xmax = true) ->
  StronglySorted lt cols -> (forall c, In c cols -> c < m_cols data) ->
  length grad = m_rows data -> length hess = m_rows data ->
  (forall i, In i index -> i < m_rows data) -> (sort = false -> index = seq 0 (m_rows data)) ->
  exists h, @hist_new_serial XF (binned data bd) (b_cuts bd) grad hess index cols sort = Some h /\
    forall k f, nth_error cols k = Some f -> exists cuts bins,
      j_get_col (b_cuts bd) f = Some cuts /\ j_get_col h k = Some bins /\ length bins = length cuts /\
      forall b bin, nth_error bins b = Some bin ->
        let rows := filter (fun i => match m_get (binned data bd) i f with Some c => c =? b | None => false end) index in
        gradient_sum bin = fsum XOps (map (fun i => nth i grad (Fin 0)) rows) /\
        hessian_sum bin = fsum XOps (map (fun i => nth i hess (Fin 0)) rows) /\
        cut_value bin = (match b with 0 => XNaN | S b' => nth b' cuts XNaN end).
Proof. exact (@hist_binned XF x_ord_laws eq_refl). Qed.

(** C09, exact arithmetic. *)
Theorem C09_subtract_one : forall (S : @Sorts XF) data sw nbins missing bd grad hess cols, SortSpec S ->
  @bin_matrix XF S data sw nbins missing = Some bd -> length (m_data data) = m_rows data * m_cols data ->
  (forall j x, In x (@col_values XF data sw missing j) -> xle x xmax = true) ->
  StronglySorted lt cols -> (forall c, In c cols -> c < m_cols data) ->
  length grad = m_rows data -> length hess = m_rows data ->
  (forall x, In x grad -> xfin x) -> (forall x, In x hess -> xfin x) ->
  let hist l := @hist_new_serial XF (binned data bd) (b_cuts bd) grad hess l cols true in
  forall P A B hp ha, Permutation P (A ++ B) -> (forall i, In i P -> i < m_rows data) ->
  hist P = Some hp -> hist A = Some ha -> hist B = Some (hist_from_parent_child hp ha).
Proof. exact hist_subtract_binned. Qed.

Theorem C09_subtract_two : forall (S : @Sorts XF) data sw nbins missing bd grad hess cols, SortSpec S ->
  @bin_matrix XF S data sw nbins missing = Some bd -> length (m_data data) = m_rows data * m_cols data ->
  (forall j x, In x (@col_values XF data sw missing j) -> xle x xmax = true) ->
  StronglySorted lt cols -> (forall c, In c cols -> c < m_cols data) ->
  length grad = m_rows data -> length hess = m_rows data ->
  (forall x, In x grad -> xfin x) -> (forall x, In x hess -> xfin x) ->
  let hist l := @hist_new_serial XF (binned data bd) (b_cuts bd) grad hess l cols true in
  forall P A B C hp ha hb, Permutation P (A ++ B ++ C) -> (forall i, In i P -> i < m_rows data) ->
  hist P = Some hp -> hist A = Some ha -> hist B = Some hb ->
  hist C = Some (hist_from_parent_two_children hp ha hb).
Proof. exact hist_subtract_two_binned. Qed.

(** C10, histograms: any arithmetic, any schedule. *)
Theorem C10_histogram_parallel : forall (FS : Floats) sh data cuts grad hess index cols sort,
  hist_new_parallel sh data cuts grad hess index cols sort = hist_new_serial data cuts grad hess index cols sort.
Proof. exact @hist_parallel_serial. Qed.

(** C22, exact arithmetic. *)
Theorem C22_weight_optimal : forall l1 l2 mds G H : R, (0 <= l1 -> 0 <= l2 -> 0 <= mds -> 0 < H + l2 ->
  let obj w := G * w + (H + l2) / 2 * (w * w) + l1 * Rabs w in
  exists w, @weight XF (Fin l1) (Fin l2) (Fin mds) (Fin G) (Fin H) = Fin w /\
    (mds = 0 \/ Rabs w <= mds) /\ forall w', mds = 0 \/ Rabs w' <= mds -> obj w <= obj w')%R.
Proof. exact weight_optimal. Qed.

Theorem C22_gain : forall l2 G H : R, (0 < H + l2 ->
  let obj w := G * w + (H + l2) / 2 * (w * w) + 0 * Rabs w in
  exists w, @weight XF (Fin 0) (Fin l2) (Fin 0) (Fin G) (Fin H) = Fin w /\
    @gain XF (Fin l2) (Fin G) (Fin H) = Fin (2 * (obj 0 - obj w)))%R.
Proof. exact gain_X. Qed.

Theorem C22_gain_given_weight : forall l2 G H w : R,
  let obj w := (G * w + (H + l2) / 2 * (w * w) + 0 * Rabs w)%R in
  @gain_given_weight XF (Fin l2) (Fin G) (Fin H) (Fin w) = Fin (2 * (obj 0 - obj w))%R.
Proof. exact gain_given_weight_X. Qed.

(** C55 *)
Theorem C55_column_major : forall (T : Type) (m : Matrix T), length (m_data m) = m_rows m * m_cols m ->
  forall i j, i < m_rows m -> j < m_cols m ->
  exists x col row, m_get m i j = Some x /\ m_get_col m j = Some col /\ nth_error col i = Some x /\
    m_get_row m i = Some row /\ nth_error row j = Some x /\ length col = m_rows m /\ length row = m_cols m.
Proof. exact accessors_agree. Qed.

Theorem C55_append_row : forall T (m m' : RowMajor T) items,
  length (r_data m) = r_rows m * r_cols m -> r_stride1 m = 1 -> r_stride2 m = r_cols m -> r_append_row m items = Some m' ->
  length (r_data m') = r_rows m' * r_cols m' /\ r_stride1 m' = 1 /\ r_stride2 m' = r_cols m' /\
  r_cols m' = r_cols m /\
  r_rows m' * r_cols m = r_rows m * r_cols m + length items /\
  (forall i j, i < r_rows m -> j < r_cols m -> r_get m' i j = r_get m i j) /\
  (forall k j, k < r_rows m' - r_rows m -> j < r_cols m ->
     r_get m' (r_rows m + k) j = nth_error items (k * r_cols m + j)).
Proof. exact @append_row_spec. Qed.

Theorem C55_append_row_total : forall T (m : RowMajor T) items, r_cols m <> 0 -> length items mod r_cols m = 0 ->
  exists m', r_append_row m items = Some m'.
Proof. exact @append_row_total. Qed.

Theorem C55_jagged : forall T (vecs : list (list T)) k, j_get_col (j_from_vecs vecs) k = nth_error vecs k.
Proof. exact from_vecs_get_col. Qed.

(** C56, exact arithmetic. *)
Theorem C56_fast_sum : forall l, fast_sum XOps (map Fin l) = Fin (sumR l).
Proof. exact fast_sum_X. Qed.
Theorem C56_fast_f64_sum : forall l, @fast_f64_sum XF (map Fin l) = Fin (sumR l).
Proof. exact fast_f64_sum_X. Qed.
Theorem C56_naive_sum : forall l, naive_sum XOps (map Fin l) = Fin (sumR l).
Proof. exact naive_sum_X. Qed.

(** *** Examples *)
Example C06_example : pivot_on_split [0; 1; 2; 3; 4] [3; 0; 1; 0; 2] 2 false = Some ([3; 1; 2; 0; 4], 3) /\
  pivot_on_split [0; 1; 2; 3; 4] [3; 0; 1; 0; 2] 2 true = Some ([2; 1; 0; 3; 4], 1) /\
  pivot_on_split [0; 1] [1; 1] 2 true = Some ([0; 1], 1).
Proof. repeat split; reflexivity. Qed.
Example C07_example :
  pivot_on_split_exclude_missing [0; 1; 2; 3; 4] [3; 0; 1; 0; 2] 2 = Some ([3; 1; 2; 0; 4], (2, 3)).
Proof. reflexivity. Qed.
(** Gradients 1..5 on the binned example matrix, second column only. *)
Example C08_example : exists h bins,
  @hist_new_serial IE (@binned IE ex_data ex_bd) (b_cuts ex_bd) (map (fun z => q32 z 1) [1; 2; 3; 4; 5]%Z)
    (map (fun z => q32 z 1) [1; 1; 1; 1; 1]%Z) [4; 0; 2] [1] true = Some h /\
  @j_get_col (@Bin IE b32) h 0 = Some bins /\
  map (fun b => feq IOps32 (gradient_sum b) (q32 1 1)) bins = [false; true; false] /\
  map (fun b => feq IOps32 (gradient_sum b) (q32 8 1)) bins = [false; false; true] /\
  map (fun b => ftonat IOps32 (hessian_sum b)) bins = [0; 1; 2].
Proof.
  eexists _, _. split; [apply (get_some _ j_new); vm_compute; reflexivity|].
  split; [apply (get_some _ []); vm_compute; reflexivity|]. vm_compute. auto.
Qed.
Example C22_example :
  @weight XF (Fin 1) (Fin 1) (Fin 2) (Fin (-9)) (Fin 3) = Fin 2 /\ @weight XF (Fin 1) (Fin 1) (Fin (1/2)) (Fin 5) (Fin 3) = Fin (-(1/2)).
Proof. exact weight_optimal_example. Qed.
Example C55_example : m_get (matrix_new [1; 2; 3; 4; 5; 6] 3 2) 1 1 = Some 5 /\ m_get_row (matrix_new [1; 2; 3; 4; 5; 6] 3 2) 1 = Some [2; 5] /\
  m_get_col (matrix_new [1; 2; 3; 4; 5; 6] 3 2) 1 = Some [4; 5; 6] /\ j_get_col (j_from_vecs [[1]; []; [2; 3]]) 2 = Some [2; 3].
Proof. repeat split; reflexivity. Qed.

Print Assumptions C06_two_way_partition.
Print Assumptions C06_all_left_refuted.
Print Assumptions C06_empty_panics.
Print Assumptions C07_three_way_partition.
Print Assumptions C07_permutes.
Print Assumptions C08_histogram.
Print Assumptions C08_histogram_exact.
Print Assumptions C09_subtract_one.
Print Assumptions C09_subtract_two.
Print Assumptions C10_histogram_parallel.
Print Assumptions C22_weight_optimal.
Print Assumptions C22_gain.
Print Assumptions C22_gain_given_weight.
Print Assumptions C55_column_major.
Print Assumptions C55_append_row.
Print Assumptions C55_append_row_total.
Print Assumptions C55_jagged.
Print Assumptions C56_fast_sum.
Print Assumptions C56_fast_f64_sum.
Print Assumptions C56_naive_sum.
