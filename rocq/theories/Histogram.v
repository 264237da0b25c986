(** /repo/src/histogram.rs. *)
From Coq Require Import List Arith Bool.
From Verif Require Import Prelude Float Data Utils.
Import ListNotations.

Section Histogram.
Context {FS : Floats}.

(** histogram.rs:7-16 *)
Record Bin (T : Type) := mkBin { gradient_sum : T; hessian_sum : T; cut_value : F64 }.
Arguments mkBin {T}. Arguments gradient_sum {T}. Arguments hessian_sum {T}. Arguments cut_value {T}.

(** histogram.rs:55-61 *)
Definition new_f64 (c : F64) : Bin F64 := mkBin (fzero f64) (fzero f64) c.

(** histogram.rs:63-69 *)
Definition as_f32_bin (b : Bin F64) : Bin F32 :=
  mkBin (to32 (gradient_sum b)) (to32 (hessian_sum b)) (cut_value b).

(** histogram.rs:29-35 *)
Definition bin_from_parent_child (root child : Bin F32) : Bin F32 :=
  mkBin (gradient_sum root - gradient_sum child)%f32
        (hessian_sum root - hessian_sum child)%f32 (cut_value root).

(** histogram.rs:39-51 *)
Definition bin_from_parent_two_children (root first second : Bin F32) : Bin F32 :=
  mkBin (gradient_sum root - (gradient_sum first + gradient_sum second))%f32
        (hessian_sum root - (hessian_sum first + hessian_sum second))%f32 (cut_value root).

(** histogram.rs:101-104: one row; a bin beyond the histogram is ignored (get_mut = None). *)
Definition add_row (hist : list (Bin F64)) (b : nat) (g h : F32) : list (Bin F64) :=
  match nth_error hist b with
  | None => hist
  | Some v =>
      match update hist b (mkBin (gradient_sum v + to64 g)%f64 (hessian_sum v + to64 h)%f64 (cut_value v)) with
      | Some hist' => hist'
      | None => hist
      end
  end.

(** histogram.rs:80-107.  [cuts.len() - 1] on empty cuts panics. *)
Definition create_feature_histogram (feature : list nat) (cuts : list F64)
    (sorted_grad sorted_hess : list F32) (index : list nat) : option (list (Bin F32)) :=
  match cuts with
  | [] => None
  | _ =>
    let hist0 := new_f64 (fnan f64) :: map new_f64 (firstn (length cuts - 1) cuts) in
    let* hist := foldM (fun hist '(i, g, h) =>
        let* b := nth_error feature i in Some (add_row hist b g h))
      (combine (combine index sorted_grad) sorted_hess) hist0 in
    Some (map as_f32_bin hist)
  end.

(** histogram.rs:74: HistogramMatrix is a newtype over the jagged matrix of bins. *)
Definition HistogramMatrix := Jagged (Bin F32).

(** histogram.rs:111-118 *)
Definition hist_empty : HistogramMatrix := mkJagged [] [] 0 0.

(** histogram.rs:183-189: [scan] of the column lengths *)
Fixpoint scan_ends (cuts : Jagged F64) (col_index : list nat) (state : nat) : option (list nat) :=
  match col_index with
  | [] => Some []
  | i :: r => let* c := j_get_col cuts i in
              let state := state + length c in
              let* rest := scan_ends cuts r state in Some (state :: rest)
  end.

(** histogram.rs:136-147: the gradients in index order when [sort], as they are otherwise *)
Definition sort_gh (grad hess : list F32) (index : list nat) (sort : bool)
  : option (list F32 * list F32) :=
  if sort then
    let* g := mapM (nth_error grad) index in
    let* h := mapM (nth_error hess) index in Some (g, h)
  else Some (grad, hess).

(** histogram.rs:150-174: the histogram of one column *)
Definition col_histogram (data : Matrix nat) (cuts : Jagged F64) (sg sh : list F32)
    (index : list nat) (col : nat) : option (list (Bin F32)) :=
  let* f := m_get_col data col in
  let* c := j_get_col cuts col in
  create_feature_histogram f c sg sh index.

(** histogram.rs:177-202: ends and record count, and assembly of the matrix *)
Definition hist_assemble (data : Matrix nat) (cuts : Jagged F64) (col_index : list nat)
    (hists : list (list (Bin F32))) : option HistogramMatrix :=
  let* ends := (if length col_index =? m_cols data then Some (j_ends cuts)
                else scan_ends cuts col_index 0) in
  let n := if length col_index =? m_cols data then j_nrecords cuts else fold_left Nat.add ends 0 in
  Some (mkJagged (concat hists) ends (length col_index) n).

(** histogram.rs:120-203 with parallel = false *)
Definition hist_new_serial (data : Matrix nat) (cuts : Jagged F64) (grad hess : list F32)
    (index col_index : list nat) (sort : bool) : option HistogramMatrix :=
  let* (sg, sh) := sort_gh grad hess index sort in
  let* hists := mapM (col_histogram data cuts sg sh index) col_index in
  hist_assemble data cuts col_index hists.

(** A rayon job over a slice: recursively split in two at arbitrary points, leaves processed
    sequentially, results of the halves concatenated in order (the contract of an indexed
    [collect]).  The shape is the schedule. *)
Inductive SplitShape := Seq | SplitAt (k : nat) (l r : SplitShape).
Fixpoint par_map {A B} (sh : SplitShape) (f : A -> option B) (l : list A) : option (list B) :=
  match sh with
  | Seq => mapM f l
  | SplitAt k s1 s2 =>
      let* a := par_map s1 f (firstn k l) in
      let* b := par_map s2 f (skipn k l) in
      Some (a ++ b)
  end.

(** histogram.rs:149-161 with parallel = true, under schedule [sh] *)
Definition hist_new_parallel (sh : SplitShape) (data : Matrix nat) (cuts : Jagged F64)
    (grad hess : list F32) (index col_index : list nat) (sort : bool) : option HistogramMatrix :=
  let* (sg, sh') := sort_gh grad hess index sort in
  let* hists := par_map sh (col_histogram data cuts sg sh' index) col_index in
  hist_assemble data cuts col_index hists.

(** histogram.rs:208-226 *)
Definition hist_from_parent_child (root child : HistogramMatrix) : HistogramMatrix :=
  mkJagged (map (fun '(r, c) => bin_from_parent_child r c) (combine (j_data root) (j_data child)))
           (j_ends child) (j_cols child) (j_nrecords child).

(** histogram.rs:231-254 *)
Definition hist_from_parent_two_children (root first second : HistogramMatrix) : HistogramMatrix :=
  mkJagged (map (fun '(r, a, b) => bin_from_parent_two_children r a b)
              (combine (combine (j_data root) (j_data first)) (j_data second)))
           (j_ends first) (j_cols first) (j_nrecords first).
End Histogram.
Arguments Bin {FS}. Arguments mkBin {FS T}. Arguments gradient_sum {FS T}.
Arguments hessian_sum {FS T}. Arguments cut_value {FS T}.
