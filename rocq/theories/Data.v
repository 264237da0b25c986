(** Matrix containers: /repo/src/data.rs. *)
From Coq Require Import List Arith Bool.
From Verif Require Import Prelude.
Import ListNotations.

(** data.rs:91-98 (struct Matrix), column major.  [stride1] = rows and [stride2] = 1 are set by
    the only constructor and never changed, so they are inlined.  The lifetime of the borrowed
    slice is not modelled. *)
Record Matrix (T : Type) := mkMatrix {
  m_data : list T; m_index : list nat; m_rows : nat; m_cols : nat }.
Arguments mkMatrix {T}. Arguments m_data {T}. Arguments m_index {T}.
Arguments m_rows {T}. Arguments m_cols {T}.

(** data.rs:102-111 Matrix::new *)
Definition matrix_new {T} (data : list T) (rows cols : nat) : Matrix T :=
  mkMatrix data (seq 0 rows) rows cols.

(** data.rs:121-125 Matrix::item_index *)
Definition m_item_index {T} (m : Matrix T) (i j : nat) : nat := 1 * i + j * m_rows m.

(** data.rs:117-119 Matrix::get *)
Definition m_get {T} (m : Matrix T) (i j : nat) : option T :=
  nth_error (m_data m) (m_item_index m i j).

(** data.rs:140-144 Matrix::get_col_slice *)
Definition m_get_col_slice {T} (m : Matrix T) (col start stop : nat) : option (list T) :=
  slice (m_data m) (m_item_index m start col) (m_item_index m stop col).

(** data.rs:149-151 Matrix::get_col *)
Definition m_get_col {T} (m : Matrix T) (col : nat) : option (list T) :=
  m_get_col_slice m col 0 (m_rows m).

(** std: Iterator::step_by, first element taken after skipping [c]. *)
Fixpoint step_by {T} (n c : nat) (l : list T) : list T :=
  match l with
  | [] => []
  | x :: r => match c with
              | 0 => x :: step_by n (n - 1) r
              | S c' => step_by n c' r
              end
  end.

(** data.rs:128-133, 159-161 Matrix::get_row_iter / get_row.  step_by(0) panics. *)
Definition m_get_row {T} (m : Matrix T) (row : nat) : option (list T) :=
  if m_rows m =? 0 then None else Some (step_by (m_rows m) 0 (skipn row (m_data m))).

(** data.rs:171-177 RowMajorMatrix *)
Record RowMajor (T : Type) := mkRM { r_data : list T; r_rows : nat; r_cols : nat; r_stride1 : nat; r_stride2 : nat }.
Arguments mkRM {T}. Arguments r_data {T}. Arguments r_rows {T}. Arguments r_cols {T}.
Arguments r_stride1 {T}. Arguments r_stride2 {T}.

(** data.rs:181-189 RowMajorMatrix::new *)
Notation mkRowMajor data rows cols := (mkRM data rows cols 1 cols).

(** data.rs:195-203 RowMajorMatrix::get *)
Definition r_get {T} (m : RowMajor T) (i j : nat) : option T :=
  nth_error (r_data m) (r_stride2 m * i + j * r_stride1 m).

(** data.rs:207-212 RowMajorMatrix::append_row.  [% 0] panics. *)
Definition r_append_row {T} (m : RowMajor T) (items : list T) : option (RowMajor T) :=
  if r_cols m =? 0 then None
  else if length items mod r_cols m =? 0
       then Some (mkRM (r_data m ++ items) (r_rows m + length items / r_cols m) (r_cols m) (r_stride1 m) (r_stride2 m))
       else None.

(** data.rs:240-249 JaggedMatrix *)
Record Jagged (T : Type) := mkJagged {
  j_data : list T; j_ends : list nat; j_cols : nat; j_nrecords : nat }.
Arguments mkJagged {T}. Arguments j_data {T}. Arguments j_ends {T}.
Arguments j_cols {T}. Arguments j_nrecords {T}.

(** data.rs:282-289 JaggedMatrix::new *)
Definition j_new {T} : Jagged T := mkJagged [] [] 0 0.

(** data.rs:256-277 JaggedMatrix::from_vecs.  (n_records sums the ends, as in the code.) *)
Definition j_from_vecs {T} (vecs : list (list T)) : Jagged T :=
  let '(data, ends, e, n) :=
    fold_left (fun '(data, ends, e, n) (vec : list T) =>
        let e' := e + length vec in (data ++ vec, ends ++ [e'], e', n + e'))
      vecs ([], [], 0, 0) in
  mkJagged data ends (length vecs) n.

(** data.rs:291-299 JaggedMatrix::get_col *)
Definition j_get_col {T} (m : Jagged T) (col : nat) : option (list T) :=
  if col <? length (j_ends m) then
    let* j := nth_error (j_ends m) col in
    let* i := (match col with 0 => Some 0 | S c => nth_error (j_ends m) c end) in
    slice (j_data m) i j
  else None.
