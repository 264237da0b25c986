(** /repo/src/binning.rs. *)
From Coq Require Import List Arith NArith Bool.
From Verif Require Import Prelude Float Data Utils.
Import ListNotations.

Section Binning.
Context {FS : Floats}.

(** [sort_unstable_by] is modelled by the order of positions it produces.  The two calls in
    the code (the values themselves in percentiles_or_value, the positions in percentiles) may
    break ties differently, so each has its own oracle; [SortSpec] below says what the
    standard library guarantees. *)
Record Sorts := mkSorts { sort_vals : list F64 -> list nat; sort_pos : list F64 -> list nat }.

(** std: Vec::dedup, keeps the first of each run of equal elements. *)
Fixpoint dedup_from (last : F64) (l : list F64) : list F64 :=
  match l with
  | [] => []
  | x :: r => if (x =? last)%f64 then dedup_from last r else x :: dedup_from x r
  end.
Definition dedup (l : list F64) : list F64 :=
  match l with [] => [] | x :: r => x :: dedup_from x r end.

(** binning.rs:11-23.  The comparison panics on NaN once two elements are compared. *)
Definition percentiles_or_value (S : Sorts) (v sample_weight pcts : list F64) : option (list F64) :=
  if (1 <? length v) && existsb (fisnan f64) v then None
  else
    let* sorted := mapM (nth_error v) (sort_vals S v) in
    let v_u := dedup sorted in
    if length v_u <=? length pcts + 1 then Some v_u
    else percentiles (sort_pos S v) v sample_weight pcts.

(** binning.rs:80-85: the percentiles i / nbins for i in 0..nbins *)
Definition bin_pcts (nbins : nat) : list F64 :=
  map (fun i => (fofnat f64 i / fofnat f64 nbins)%f64) (seq 0 nbins).

(** binning.rs:92-99: the non-missing values of a column with their weights ([zip] stops at the
    shorter of the two).  None = is_missing panicked. *)
Definition split_missing (col sample_weight : list F64) (missing : F64) : option (list (F64 * F64)) :=
  let zipped := combine col sample_weight in
  let* flags := mapM (fun vw => is_missing (fst vw) missing) zipped in
  Some (map snd (filter (fun fv => negb (fst fv)) (combine flags zipped))).

(** binning.rs:92-103: the cuts of one column *)
Definition col_cuts (S : Sorts) (col sample_weight : list F64) (pcts : list F64) (missing : F64)
  : option (list F64) :=
  let* kept := split_missing col sample_weight missing in
  let* c := percentiles_or_value S (map fst kept) (map snd kept) pcts in
  Some (dedup (c ++ [fmax f64])).

(** binning.rs:109-118: append one column of cuts *)
Definition push_cuts (cuts : Jagged F64) (cc : list F64) : Jagged F64 :=
  let l := length cc in
  let e := match j_ends cuts with [] => l | _ => last (j_ends cuts) 0 + l end in
  let ends := j_ends cuts ++ [e] in
  mkJagged (j_data cuts ++ cc) ends (length ends) (fold_left Nat.add ends 0).

(** binning.rs:48-66.  The column is i / rows; the bin must fit u16 ([unwrap]). *)
Definition bin_matrix_from_cuts (data : Matrix F64) (cuts : Jagged F64) (missing : F64)
  : option (list nat) :=
  mapM (fun iv : nat * F64 =>
      if m_rows data =? 0 then None else
      let* cc := j_get_col cuts (fst iv / m_rows data) in
      let* b := map_bin cc (snd iv) missing in b)
    (combine (seq 0 (length (m_data data))) (m_data data)).

(** binning.rs:37-41 *)
Record BinnedData := mkBinned { b_data : list nat; b_cuts : Jagged F64; b_nunique : list nat }.

(** binning.rs:74-128.  The Result is always Ok; None = panic. *)
Definition bin_matrix (S : Sorts) (data : Matrix F64) (sample_weight : list F64) (nbins : nat)
    (missing : F64) : option BinnedData :=
  let pcts := bin_pcts nbins in
  let* (cuts, nunique) := foldM (fun '(cuts, nunique) i =>
      let* col := m_get_col data i in
      let* cc := col_cuts S col sample_weight pcts missing in
      Some (push_cuts cuts cc, nunique ++ [length cc]))
    (seq 0 (m_cols data)) (j_new, []) in
  let* binned := bin_matrix_from_cuts data cuts missing in
  Some (mkBinned binned cuts nunique).
End Binning.
