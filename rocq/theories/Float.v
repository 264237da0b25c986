(** Floating point operations used by the crate.
    data.rs:7-86 (trait FloatData, impls for f64 and f32) plus the std float methods the
    code calls.  The record carries operations only, no laws: a theorem that quantifies over
    [Floats] holds whatever the arithmetic does. *)
From Coq Require Import List Arith Bool.
Import ListNotations.

Record FloatOps : Type := mkFloatOps {
  fcar : Type;
  fzero : fcar;                            (* T::ZERO *)
  fone : fcar;                             (* T::ONE *)
  fnan : fcar;                             (* T::NAN *)
  finf : fcar;                             (* T::INFINITY *)
  fninf : fcar;                            (* T::NEG_INFINITY *)
  fmax : fcar;                             (* T::MAX *)
  fadd : fcar -> fcar -> fcar;
  fsub : fcar -> fcar -> fcar;
  fmul : fcar -> fcar -> fcar;
  fdiv : fcar -> fcar -> fcar;
  fneg : fcar -> fcar;
  fabs : fcar -> fcar;
  fsqrt : fcar -> fcar;
  fcopysign : fcar -> fcar -> fcar;        (* x.copysign(s) *)
  flt : fcar -> fcar -> bool;              (* < , false on NaN *)
  fle : fcar -> fcar -> bool;              (* <=, false on NaN *)
  feq : fcar -> fcar -> bool;              (* ==, false on NaN *)
  fisnan : fcar -> bool;
  ftotal : fcar -> fcar -> comparison;     (* total_cmp *)
  fofnat : nat -> fcar;                    (* usize/u16 as float *)
  ftonat : fcar -> nat                     (* float as usize: truncating, saturating, NaN -> 0 *)
}.

(** The two formats with their conversions, and the libm functions the code calls on f64. *)
Class Floats : Type := mkFloats {
  f32 : FloatOps;
  f64 : FloatOps;
  to64 : fcar f32 -> fcar f64;             (* f64::from(x), x as f64 *)
  to32 : fcar f64 -> fcar f32;             (* x as f32 *)
  fexp : fcar f64 -> fcar f64;
  fln : fcar f64 -> fcar f64;
  fln1p : fcar f64 -> fcar f64
}.

Notation F32 := (fcar (@f32 _)).
Notation F64 := (fcar (@f64 _)).

Declare Scope f32_scope.
Declare Scope f64_scope.
Delimit Scope f32_scope with f32.
Delimit Scope f64_scope with f64.

Notation "x + y" := (fadd (@f32 _) x y) : f32_scope.
Notation "x - y" := (fsub (@f32 _) x y) : f32_scope.
Notation "x * y" := (fmul (@f32 _) x y) : f32_scope.
Notation "x / y" := (fdiv (@f32 _) x y) : f32_scope.
Notation "- x" := (fneg (@f32 _) x) : f32_scope.
Notation "x <? y" := (flt (@f32 _) x y) : f32_scope.
Notation "x <=? y" := (fle (@f32 _) x y) : f32_scope.
Notation "x =? y" := (feq (@f32 _) x y) : f32_scope.

Notation "x + y" := (fadd (@f64 _) x y) : f64_scope.
Notation "x - y" := (fsub (@f64 _) x y) : f64_scope.
Notation "x * y" := (fmul (@f64 _) x y) : f64_scope.
Notation "x / y" := (fdiv (@f64 _) x y) : f64_scope.
Notation "- x" := (fneg (@f64 _) x) : f64_scope.
Notation "x <? y" := (flt (@f64 _) x y) : f64_scope.
Notation "x <=? y" := (fle (@f64 _) x y) : f64_scope.
Notation "x =? y" := (feq (@f64 _) x y) : f64_scope.

(** Small literals.  [n / d] of exactly represented integers is correctly rounded, so these
    are the same values as the Rust literals 2.0, 0.5, 0.1, ... *)
Definition lit (F : FloatOps) (n : nat) : fcar F := fofnat F n.
Definition lit_ratio (F : FloatOps) (n d : nat) : fcar F := fdiv F (fofnat F n) (fofnat F d).

(** [Iterator::sum] for floats: left fold starting from 0 (std starts from 0.0 or -0.0
    depending on the version; only the sign of an all-negative-zero sum differs). *)
Definition fsum (F : FloatOps) (l : list (fcar F)) : fcar F :=
  fold_left (fadd F) l (fzero F).

(** Order laws shared by IEEE comparisons and the exact extended reals; proved for both
    instances, used as hypotheses of the format-independent lemmas. *)
Record OrdLaws (F : FloatOps) : Prop := mkOrdLaws {
  ol_le_nan : forall x y, fle F x y = true -> fisnan F x = false /\ fisnan F y = false;
  ol_lt_nan : forall x y, flt F x y = true -> fisnan F x = false /\ fisnan F y = false;
  ol_le_refl : forall x, fisnan F x = false -> fle F x x = true;
  ol_le_trans : forall x y z, fle F x y = true -> fle F y z = true -> fle F x z = true;
  ol_lt_le : forall x y, fisnan F x = false -> fisnan F y = false ->
     flt F x y = negb (fle F y x);
  ol_le_total : forall x y, fisnan F x = false -> fisnan F y = false ->
     fle F x y = true \/ fle F y x = true;
  ol_eq : forall x y, feq F x y = (fle F x y && fle F y x)%bool
}.
