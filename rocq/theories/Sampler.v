(** /repo/src/sampler.rs. *)
From Coq Require Import List Arith Bool Permutation Sorting.
From Verif Require Import Prelude Float Utils Tree.
Import ListNotations.

Section Sampler.
Context {FS : Floats}.

(** The random generator: what it returns at its n-th use.  [draw32], [draw64] stand for
    `gen_range(0.0..1.0)` at the two types, [choose] for `choose_multiple` (rand, reservoir
    sampling). *)
Record Rng := mkRng {
  draw32 : nat -> F32; draw64 : nat -> F64;
  choose : nat -> nat -> list nat -> list nat }.

(** What the rand crate documents about these calls. *)
Record RngSpec (r : Rng) : Prop := mkRngSpec {
  rs_draw32 : forall n, fle f32 (fzero f32) (draw32 r n) = true /\ flt f32 (draw32 r n) (fone f32) = true;
  rs_draw64 : forall n, fle f64 (fzero f64) (draw64 r n) = true /\ flt f64 (draw64 r n) (fone f64) = true;
  rs_choose : forall n amount l, NoDup l ->
    NoDup (choose r n amount l) /\ incl (choose r n amount l) l /\
    length (choose r n amount l) = Nat.min amount (length l) }.

(** sampler.rs:37-55 RandomSampler::sample; [n] counts the uses of the generator *)
Fixpoint random_sample (r : Rng) (subsample : F32) (n : nat) (index : list nat) : list nat * list nat * nat :=
  match index with
  | [] => ([], [], n)
  | i :: rest =>
      let b := (draw32 r n <? subsample)%f32 in
      let '(chosen, excluded, n') := random_sample r subsample (S n) rest in
      if b then (i :: chosen, excluded, n') else (chosen, i :: excluded, n')
  end.

(** sampler.rs:90-91: [sort_unstable_by] on the positions, by absolute gradient descending *)
Definition sort_abs_desc := list F32 -> list nat.
Definition SortAbsSpec (S : sort_abs_desc) : Prop := forall g,
  Permutation (S g) (seq 0 (length g)) /\
  StronglySorted (fun a b => forall x y, nth_error g a = Some x -> nth_error g b = Some y ->
     ftotal f32 (fabs f32 y) (fabs f32 x) <> Gt) (S g).

(** sampler.rs:100-106: the loop over the small gradients *)
Fixpoint goss_loop (r : Rng) (fact : F32) (subsample : F64) (n : nat) (rest : list nat)
    (grad hess : list F32) (used : list nat) : option (list nat * list F32 * list F32 * nat) :=
  match rest with
  | [] => Some (used, grad, hess, n)
  | i :: rest =>
      if (draw64 r n <? subsample)%f64 then
        let* g := nth_error grad i in
        let* h := nth_error hess i in
        let* grad := update grad i (g * fact)%f32 in
        let* hess := update hess i (h * fact)%f32 in
        goss_loop r fact subsample (S n) rest grad hess (used ++ [i])
      else goss_loop r fact subsample (S n) rest grad hess used
  end.

(** sampler.rs:78-109 GossSampler::sample.  grad[..] is read for positions below index.len(), so a
    shorter gradient panics in the sort (when there is something to compare); the model sorts
    the first index.len() gradients. *)
Definition goss_sample (S : sort_abs_desc) (r : Rng) (a b : F64) (n : nat) (index : list nat) (grad hess : list F32)
  : option (list nat * list nat * list F32 * list F32 * nat) :=
  let fact := to32 ((fone f64 - a) / b)%f64 in
  let len := length index in
  let top_n := ftonat f64 (a * fofnat f64 len)%f64 in
  let rand_n := ftonat f64 (b * fofnat f64 len)%f64 in
  assert* len <=? length grad in
  let sorted := S (firstn len grad) in
  assert* top_n <=? length sorted in
  let subsample := (fofnat f64 rand_n / (fofnat f64 len - fofnat f64 top_n))%f64 in
  let* (used, grad, hess, n) := goss_loop r fact subsample n (skipn top_n sorted) grad hess (firstn top_n sorted) in
  Some (used, [], grad, hess, n).
End Sampler.
