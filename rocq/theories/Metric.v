(** /repo/src/metric.rs. *)
From Coq Require Import List Arith Bool String Permutation Sorting.
From Verif Require Import Prelude Float Utils Objective.
Import ListNotations.

Section Metric.
Context {FS : Floats}.

(** metric.rs:12-32; `value > comparison` is [comparison < value] *)
Definition is_comparison_better (value comparison : F64) (maximize : bool) : bool :=
  match fisnan f64 value, fisnan f64 comparison with
  | true, true | false, true => false
  | true, false => true
  | false, false => if maximize then (value <? comparison)%f64 else (comparison <? value)%f64
  end.

(** metric.rs:42-64; None = ParseString error *)
Definition metric_from_str (s : string) : option Metric :=
  if String.eqb s "AUC" then Some AUC
  else if String.eqb s "LogLoss" then Some MLogLoss
  else if String.eqb s "RootMeanSquaredLogError" then Some RootMeanSquaredLogError
  else if String.eqb s "RootMeanSquaredError" then Some RootMeanSquaredError
  else None.

(** `x.powi(2)` is one multiplication. *)
Definition square (x : F64) : F64 := (x * x)%f64.

(** metric.rs:126-167: sum of the row losses over sum of the weights; both sums run over the
    zipped rows in order. *)
Definition weighted_mean (row : F64 -> F64 -> F64 -> F64) (y yhat w : list F64) : F64 :=
  let rows := zip3 y yhat w in
  (fsum f64 (map (fun '(y, yhat, w) => row y yhat w) rows) / fsum f64 (map snd rows))%f64.

(** metric.rs:126-139 *)
Definition log_loss (y yhat w : list F64) : F64 := weighted_mean logloss_row y yhat w.

(** metric.rs:141-153 *)
Definition rmsle_row (y yhat w : F64) : F64 := (square (fln1p y - fln1p yhat) * w)%f64.
Definition root_mean_squared_log_error (y yhat w : list F64) : F64 := fsqrt f64 (weighted_mean rmsle_row y yhat w).

(** metric.rs:155-167 *)
Definition rmse_row (y yhat w : F64) : F64 := (square (y - yhat) * w)%f64.
Definition root_mean_squared_error (y yhat w : list F64) : F64 := fsqrt f64 (weighted_mean rmse_row y yhat w).

(** metric.rs:169-171 *)
Definition trapezoid_area (x0 x1 y0 y1 : F64) : F64 :=
  (fabs f64 (x0 - x1) * (y0 + y1) * lit_ratio f64 1 2)%f64.

(** metric.rs:175: [sort_unstable_by] on the scores, descending in total_cmp; which order of
    equal scores comes out is not fixed. *)
Definition sort_desc := list F64 -> list nat.
Definition SortDescSpec (S : sort_desc) : Prop := forall v,
  Permutation (S v) (seq 0 (List.length v)) /\
  StronglySorted (fun a b => forall x y, nth_error v a = Some x -> nth_error v b = Some y -> ftotal f64 y x <> Gt) (S v).

(** metric.rs:185-195: the loop; [prev] is indices[i - 1] *)
Fixpoint auc_loop (y yhat w : list F64) (idx : list nat) (prev : F64) (auc fp tp fp_prev tp_prev : F64)
  : option (F64 * F64 * F64 * F64 * F64) :=
  match idx with
  | [] => Some (auc, fp, tp, fp_prev, tp_prev)
  | i :: rest =>
      let* s := nth_error yhat i in
      let '(auc, fp_prev, tp_prev) :=
        (if negb (s =? prev)%f64
         then ((auc + trapezoid_area fp_prev fp tp_prev tp)%f64, fp, tp)
         else (auc, fp_prev, tp_prev)) in
      let* label := nth_error y i in
      let* wi := nth_error w i in
      auc_loop y yhat w rest s auc (fp + (fone f64 - label) * wi)%f64 (tp + label * wi)%f64 fp_prev tp_prev
  end.

(** metric.rs:173-205.  The sort compares yhat[b], yhat[a] for positions up to y.len(): with
    two or more rows a shorter yhat panics there, and with one row at the first use; the model
    sorts the first y.len() scores. *)
Definition roc_auc_score (S : sort_desc) (y yhat w : list F64) : option F64 :=
  assert* List.length y <=? List.length yhat in
  match S (firstn (List.length y) yhat) with
  | [] => None
  | i0 :: rest =>
      let* label := nth_error y i0 in
      let* w0 := nth_error w i0 in
      let* s0 := nth_error yhat i0 in
      let fp := ((fone f64 - label) * w0)%f64 in
      let tp := (label * w0)%f64 in
      let* (auc, fp, tp, fp_prev, tp_prev) := auc_loop y yhat w rest s0 (fzero f64) fp tp (fzero f64) (fzero f64) in
      let auc := (auc + trapezoid_area fp_prev fp tp_prev tp)%f64 in
      let '(auc, fp, tp) :=
        (if ((fp <=? fzero f64)%f64 || (tp <=? fzero f64)%f64)%bool
         then (fzero f64, fzero f64, fzero f64) else (auc, fp, tp)) in
      Some (auc / (tp * fp))%f64
  end.

(** metric.rs:66-124 *)
Definition metric_fn (S : sort_desc) (m : Metric) (y yhat w : list F64) : option F64 :=
  match m with
  | AUC => roc_auc_score S y yhat w
  | MLogLoss => Some (log_loss y yhat w)
  | RootMeanSquaredLogError => Some (root_mean_squared_log_error y yhat w)
  | RootMeanSquaredError => Some (root_mean_squared_error y yhat w)
  end.
Definition metric_maximize (m : Metric) : bool := match m with AUC => true | _ => false end.
End Metric.
