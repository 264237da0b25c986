(** /repo/src/utils.rs and /repo/src/constraints.rs. *)
From Coq Require Import List Arith NArith Bool.
From Verif Require Import Prelude Float.
Import ListNotations.

(** constraints.rs:4-9 *)
Inductive Constraint := Positive | Negative | Unconstrained.

(** constraints.rs:11; HashMap as an association list, [get] = first match. *)
Definition ConstraintMap := list (nat * Constraint).
Fixpoint assoc {A} (k : nat) (l : list (nat * A)) : option A :=
  match l with
  | [] => None
  | (k', v) :: r => if k =? k' then Some v else assoc k r
  end.

(** Values of type u16 are kept as [nat]; this is the [u16::try_from] range check. *)
Definition fits_u16 (n : nat) : bool := (N.of_nat n <? 65536)%N.

Section Utils.
Context {FS : Floats}.

(** utils.rs:98-109.  None = the panic on a NaN value when [missing] is not NaN. *)
Definition is_missing (value missing : F64) : option bool :=
  if fisnan f64 missing then Some (fisnan f64 value)
  else if fisnan f64 value then None
  else Some (value =? missing)%f64.

(** utils.rs:237-247 *)
Definition l1_regularization (w l1 : F32) : F32 :=
  if (l1 =? fzero f32)%f32 then w
  else if (l1 <? w)%f32 then (w - l1)%f32
  else if (w <? - l1)%f32 then (w + l1)%f32
  else fzero f32.

(** utils.rs:252-264 *)
Definition weight (l1 l2 max_delta_step gradient_sum hessian_sum : F32) : F32 :=
  let w := (- (l1_regularization gradient_sum l1 / (hessian_sum + l2)))%f32 in
  if negb (max_delta_step =? fzero f32)%f32 && (max_delta_step <? fabs f32 w)%f32
  then fcopysign f32 max_delta_step w
  else w.

(** utils.rs:115-138 *)
Definition constrained_weight (l1 l2 max_delta_step gradient_sum hessian_sum
    lower_bound upper_bound : F32) (constraint : option Constraint) : F32 :=
  let w := weight l1 l2 max_delta_step gradient_sum hessian_sum in
  match constraint with
  | None | Some Unconstrained => w
  | _ => if (upper_bound <? w)%f32 then upper_bound
         else if (w <? lower_bound)%f32 then lower_bound
         else w
  end.

(** utils.rs:142-148 *)
Definition between (i j v : F32) : bool :=
  if (j <? i)%f32 then (v <=? i)%f32 && (j <=? v)%f32
  else (i <=? v)%f32 && (v <=? j)%f32.

(** utils.rs:151-186 *)
Definition bound_to_parent (parent_weight left_weight right_weight : F32) : F32 * F32 :=
  if between left_weight right_weight parent_weight then (left_weight, right_weight)
  else if (right_weight <? left_weight)%f32 then
    if (left_weight <? parent_weight)%f32 then (parent_weight, right_weight)
    else (left_weight, parent_weight)
  else
    if (right_weight <? parent_weight)%f32 then (left_weight, parent_weight)
    else (parent_weight, right_weight).

(** utils.rs:190-192 *)
Definition odds (v : F64) : F64 := (fone f64 / (fone f64 + fexp (- v)))%f64.

(** utils.rs:196-198 *)
Definition gain (l2 gradient_sum hessian_sum : F32) : F32 :=
  ((gradient_sum * gradient_sum) / (hessian_sum + l2))%f32.

(** utils.rs:204-206 *)
Definition gain_given_weight (l2 gradient_sum hessian_sum w : F32) : F32 :=
  (- ((lit f32 2 * gradient_sum) * w + (hessian_sum + l2) * (w * w)))%f32.

(** utils.rs:210-233 *)
Definition cull_gain (gain left_weight right_weight : F32) (constraint : option Constraint) : F32 :=
  match constraint with
  | None | Some Unconstrained => gain
  | Some Negative => if (left_weight <=? right_weight)%f32 then fninf f32 else gain
  | Some Positive => if (right_weight <=? left_weight)%f32 then fninf f32 else gain
  end.

(** utils.rs:266 *)
Definition LANES := 16.

(** utils.rs:276-282: one pass over the exact chunks, adding lane-wise. *)
Fixpoint add_lanes (F : FloatOps) (acc chunk : list (fcar F)) : list (fcar F) :=
  match acc, chunk with
  | a :: ar, c :: cr => fadd F a c :: add_lanes F ar cr
  | _, _ => acc
  end.
Fixpoint fold_chunks (F : FloatOps) (k : nat) (l acc : list (fcar F)) : list (fcar F) * list (fcar F) :=
  match k with
  | 0 => (acc, l)
  | S k' => fold_chunks F k' (skipn LANES l) (add_lanes F acc (firstn LANES l))
  end.

(** utils.rs:272-291 *)
Definition fast_sum (F : FloatOps) (values : list (fcar F)) : fcar F :=
  let '(sum, remainder) := fold_chunks F (length values / LANES) values (repeat (fzero F) LANES) in
  fadd F (fold_left (fadd F) sum (fzero F)) (fsum F remainder).

(** utils.rs:298-319: the same with every element widened to f64 first. *)
Definition fast_f64_sum (values : list F32) : F32 :=
  to32 (fast_sum f64 (map to64 values)).

(** utils.rs:321-323 *)
Definition naive_sum (F : FloatOps) (values : list (fcar F)) : fcar F := fsum F values.

(** utils.rs:358-364: the inner while loop of [percentiles].  [inl p] = early return. *)
Fixpoint pct_inner (cuml cur : F64) (pcts : list F64) (value : F64) (p : list F64)
  : list F64 + (F64 * list F64 * list F64) :=
  if (cur <=? cuml)%f64 then
    match pcts with
    | [] => inl (p ++ [value])
    | p_ :: pcts' => pct_inner cuml p_ pcts' value (p ++ [value])
    end
  else inr (cur, pcts, p).

(** utils.rs:350-371: the loop over the sorted positions. *)
Fixpoint pct_loop (v sample_weight : list F64) (total : F64) (last_value : F64) (idx : list nat)
    (cuml cur : F64) (pcts : list F64) (current_value : F64) (p : list F64) : option (list F64) :=
  match idx with
  | [] => Some p
  | i :: rest =>
      let* vi := nth_error v i in
      let current_value := if (current_value =? vi)%f64 then current_value else vi in
      let* wi := nth_error sample_weight i in
      let cuml := (cuml + wi / total)%f64 in
      if ((cur =? fzero f64)%f64 || (cur <=? cuml)%f64)%bool then
        match pct_inner cuml cur pcts current_value p with
        | inl p' => Some p'
        | inr (cur', pcts', p') => pct_loop v sample_weight total last_value rest cuml cur' pcts' current_value p'
        end
      else if (cur =? fone f64)%f64 then Some (p ++ [last_value])
      else pct_loop v sample_weight total last_value rest cuml cur pcts current_value p
  end.

(** utils.rs:333-373, at T = f64 (its only instantiation outside tests).  [idx] is what
    [sort_unstable_by] returned: any order of the positions sorted by value (see
    [Binning.sort_spec]).  [partial_cmp(..).unwrap()] panics on NaN as soon as there are two
    elements to compare; empty percentiles and an empty vector panic too. *)
Definition percentiles (idx : list nat) (v sample_weight pcts : list F64) : option (list F64) :=
  if (1 <? length v) && existsb (fisnan f64) v then None
  else match pcts with
  | [] => None
  | cur :: pcts' =>
      let* i0 := nth_error idx 0 in
      let* v0 := nth_error v i0 in
      let* vl := nth_error v (last idx 0) in
      pct_loop v sample_weight (fast_sum f64 sample_weight) vl idx (fzero f64) cur pcts' v0 []
  end.

(** utils.rs:389-401: the binary search loop; the fuel [length x] always suffices. *)
Fixpoint bsearch (fuel : nat) (x : list F64) (v : F64) (low high : nat) : option nat :=
  if low =? high then Some low
  else match fuel with
  | 0 => None
  | S f =>
      let mid := (low + high) / 2 in
      let* xm := nth_error x mid in
      if (xm <=? v)%f64 then bsearch f x v (mid + 1) high else bsearch f x v low mid
  end.

(** utils.rs:385-403, at T = f64.  Outer None = panic (never happens, see Binning proofs);
    inner None = the bin does not fit u16. *)
Definition map_bin (x : list F64) (v missing : F64) : option (option nat) :=
  if (fisnan f64 v || (v =? missing)%f64)%bool then Some (Some 0)
  else let* low := bsearch (length x) x v 0 (length x) in
       Some (if fits_u16 low then Some low else None).
End Utils.

(** utils.rs:533-547 *)
Definition missing_compare (split_value cmp_value : nat) (missing_right : bool) : comparison :=
  if cmp_value =? 0 then (if missing_right then Lt else Gt)
  else Nat.compare split_value cmp_value.

(** utils.rs:430-436: advance [low].  Fuel = number of positions left. *)
Fixpoint pivot_low (fuel : nat) (index feature : list nat) (sv : nat) (mr : bool)
    (low max_idx : nat) : option nat :=
  if low <? max_idx then
    match fuel with
    | 0 => None
    | S f =>
        let* i := nth_error index low in
        let* l := nth_error feature i in
        match missing_compare sv l mr with
        | Lt | Eq => Some low
        | Gt => pivot_low f index feature sv mr (low + 1) max_idx
        end
    end
  else Some low.

(** utils.rs:437-446: retreat [high]. *)
Fixpoint pivot_high (fuel : nat) (index feature : list nat) (sv : nat) (mr : bool)
    (low high : nat) : option nat :=
  if low <? high then
    match fuel with
    | 0 => None
    | S f =>
        let* i := nth_error index high in
        let* h := nth_error feature i in
        match missing_compare sv h mr with
        | Lt | Eq => pivot_high f index feature sv mr low (high - 1)
        | Gt => Some high
        end
    end
  else Some high.

(** utils.rs:426-450: the outer loop. *)
Fixpoint pivot_loop (fuel : nat) (index feature : list nat) (sv : nat) (mr : bool)
    (low high max_idx : nat) : option (list nat * nat) :=
  if low <? high then
    match fuel with
    | 0 => None
    | S f =>
        let* low := pivot_low (length index) index feature sv mr low max_idx in
        let* high := pivot_high (length index) index feature sv mr low high in
        if low <? high then
          let* index := swap index high low in
          pivot_loop f index feature sv mr low high max_idx
        else pivot_loop f index feature sv mr low high max_idx
    end
  else Some (index, low).

(** utils.rs:416-452.  [index.len() - 1] on an empty slice panics (debug) or wraps and then
    indexes out of bounds (release): both are panics. *)
Definition pivot_on_split (index feature : list nat) (split_value : nat) (missing_right : bool)
  : option (list nat * nat) :=
  match length index with
  | 0 => None
  | S max_idx =>
      pivot_loop (length index + 1) index feature split_value missing_right 0 max_idx max_idx
  end.

(** utils.rs:487-497 *)
Fixpoint pivot3_low (fuel : nat) (index feature : list nat) (sv : nat)
    (low max_idx missing : nat) : option (list nat * nat * nat) :=
  if low <? max_idx then
    match fuel with
    | 0 => None
    | S f =>
        let* i := nth_error index low in
        let* l := nth_error feature i in
        let* (index, missing) :=
          (if l =? 0 then let* index := swap index missing low in Some (index, missing + 1)
           else Some (index, missing)) in
        match Nat.compare sv l with
        | Lt | Eq => Some (index, low, missing)
        | Gt => pivot3_low f index feature sv (low + 1) max_idx missing
        end
    end
  else Some (index, low, missing).

(** utils.rs:498-521 *)
Fixpoint pivot3_high (fuel : nat) (index feature : list nat) (sv : nat)
    (low high missing : nat) : option (list nat * nat * nat * nat) :=
  if low <? high then
    match fuel with
    | 0 => None
    | S f =>
        let* i := nth_error index high in
        let* h := nth_error feature i in
        let* (index, low, missing) :=
          (if h =? 0 then
             let* index := swap index missing high in
             let missing := missing + 1 in
             Some (index, if low <? missing then missing else low, missing)
           else Some (index, low, missing)) in
        match Nat.compare sv h with
        | Lt | Eq => pivot3_high f index feature sv low (high - 1) missing
        | Gt => Some (index, low, high, missing)
        end
    end
  else Some (index, low, high, missing).

(** utils.rs:483-525 *)
Fixpoint pivot3_loop (fuel : nat) (index feature : list nat) (sv : nat)
    (low high max_idx missing : nat) : option (list nat * (nat * nat)) :=
  if low <? high then
    match fuel with
    | 0 => None
    | S f =>
        let* (index, low, missing) := pivot3_low (length index) index feature sv low max_idx missing in
        let* (index, low, high, missing) := pivot3_high (length index) index feature sv low high missing in
        if low <? high then
          let* index := swap index high low in
          pivot3_loop f index feature sv low high max_idx missing
        else pivot3_loop f index feature sv low high max_idx missing
    end
  else Some (index, (missing, low)).

(** utils.rs:471-527 *)
Definition pivot_on_split_exclude_missing (index feature : list nat) (split_value : nat)
  : option (list nat * (nat * nat)) :=
  match length index with
  | 0 => None
  | S max_idx =>
      pivot3_loop (2 * length index + 2) index feature split_value 0 max_idx max_idx 0
  end.
