(** /repo/src/objective.rs. *)
From Coq Require Import List Arith Bool.
From Verif Require Import Prelude Float Utils.
Import ListNotations.

(** objective.rs:6-10 *)
Inductive ObjectiveType := LogLoss | SquaredLoss.
(** metric.rs:34-40 *)
Inductive Metric := AUC | MLogLoss | RootMeanSquaredLogError | RootMeanSquaredError.

Section Objective.
Context {FS : Floats}.

(** `a.iter().zip(b).zip(c)`: stops at the shortest *)
Definition zip3 {A B C} (a : list A) (b : list B) (c : list C) : list (A * B * C) := combine (combine a b) c.

(** objective.rs:43, 65: the inverse link (also utils.rs:190-192) *)
Definition sigmoid (v : F64) : F64 := (fone f64 / (fone f64 + fexp (- v)))%f64.

(** objective.rs:38-47 LogLoss::calc_loss *)
Definition logloss_row (y yhat w : F64) : F64 :=
  let p := sigmoid yhat in
  ((- (y * fln p + (fone f64 - y) * fln (fone f64 - p))) * w)%f64.

(** objective.rs:84-93 SquaredLoss::calc_loss *)
Definition squared_row (y yhat w : F64) : F64 := let s := (y - yhat)%f64 in (s * s * w)%f64.

Definition calc_loss (o : ObjectiveType) (y yhat w : list F64) : list F32 :=
  map (fun '(y, yhat, w) => to32 (match o with LogLoss => logloss_row y yhat w | SquaredLoss => squared_row y yhat w end))
    (zip3 y yhat w).

(** objective.rs:60-72, 107-113: one row of calc_grad_hess *)
Definition grad_hess_row (o : ObjectiveType) (y yhat w : F64) : F32 * F32 :=
  match o with
  | LogLoss => let p := sigmoid yhat in
               (to32 ((p - y) * w)%f64, to32 (p * (fone f64 - p) * w)%f64)
  | SquaredLoss => (to32 ((yhat - y) * w)%f64, to32 w)
  end.

(** objective.rs:12-17, 60-72, 107-113 *)
Definition calc_grad_hess (o : ObjectiveType) (y yhat w : list F64) : list F32 * list F32 :=
  split (map (fun '(y, yhat, w) => grad_hess_row o y yhat w) (zip3 y yhat w)).

(** objective.rs:49-55, 95-101: the two running sums; sample_weight[i] may be out of bounds *)
Definition init_sums (y w : list F64) : option (F64 * F64) :=
  foldM (fun '(ytot, ntot) i =>
           let* yi := nth_error y i in
           let* wi := nth_error w i in
           Some ((ytot + wi * yi)%f64, (ntot + wi)%f64))
    (seq 0 (length y)) (fzero f64, fzero f64).

(** objective.rs:19-24, 49-57, 95-104 *)
Definition calc_init (o : ObjectiveType) (y w : list F64) : option F64 :=
  let* (ytot, ntot) := init_sums y w in
  Some (match o with
        | LogLoss => fln (ytot / (ntot - ytot))%f64
        | SquaredLoss => (ytot / ntot)%f64
        end).

(** objective.rs:74-76, 114-116 *)
Definition default_metric (o : ObjectiveType) : Metric :=
  match o with LogLoss => MLogLoss | SquaredLoss => RootMeanSquaredLogError end.
End Objective.
