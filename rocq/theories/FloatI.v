(** IEEE-754 instance: binary32 and binary64 with round-to-nearest-even (Flocq,
    BinarySingleNaN).  One NaN: its payload and sign are not modelled, [total_cmp] puts it
    above everything (Rust's NaN constant and the NaNs produced by arithmetic may carry a
    sign, which [total_cmp] would put below everything; noted where it matters). *)
From Coq Require Import Reals Lra Lia ZArith List Bool.
From Flocq Require Import Core IEEE754.BinarySingleNaN.
From Verif Require Import Float.
Import ListNotations.

Section Format.
Variables prec emax : Z.
Context (Hprec : Prec_gt_0 prec) (Hmax : Prec_lt_emax prec emax).

Notation bf := (binary_float prec emax).

Definition i_ofZ (z : Z) : bf := binary_normalize prec emax Hprec Hmax mode_NE z 0 false.

(** x.copysign(s) *)
Definition i_copysign (x s : bf) : bf :=
  if Bsign s then Bopp (Babs x) else Babs x.

(** f64::total_cmp, with a single (positive) NaN *)
Definition i_total (x y : bf) : comparison :=
  match Bcompare x y with
  | Some Lt => Lt
  | Some Gt => Gt
  | Some Eq =>
      match x, y with
      | B754_zero s1, B754_zero s2 =>
          match s1, s2 with true, false => Lt | false, true => Gt | _, _ => Eq end
      | _, _ => Eq
      end
  | None =>
      match is_nan x, is_nan y with
      | true, true => Eq
      | true, false => Gt
      | false, _ => Lt
      end
  end.

(** `x as usize` *)
Definition i_tonat (x : bf) : nat :=
  match x with
  | B754_infinity false => N.to_nat 18446744073709551615%N
  | B754_finite false _ _ _ => Z.to_nat (Btrunc x)
  | _ => 0%nat
  end.

Definition IOps : FloatOps := {|
  fcar := bf;
  fzero := B754_zero false;
  fone := i_ofZ 1;
  fnan := B754_nan;
  finf := B754_infinity false;
  fninf := B754_infinity true;
  fmax := Bmax_float;
  fadd := Bplus mode_NE;
  fsub := Bminus mode_NE;
  fmul := Bmult mode_NE;
  fdiv := Bdiv mode_NE;
  fneg := @Bopp prec emax;
  fabs := @Babs prec emax;
  fsqrt := Bsqrt mode_NE;
  fcopysign := i_copysign;
  flt := @Bltb prec emax;
  fle := @Bleb prec emax;
  feq := @Beqb prec emax;
  fisnan := @is_nan prec emax;
  ftotal := i_total;
  fofnat := fun n => i_ofZ (Z.of_nat n);
  ftonat := i_tonat |}.

(** Comparisons through an order embedding into the extended reals. *)
Inductive ext := ENInf | EFin (r : R) | EPInf.
Definition ext_le (a b : ext) : Prop :=
  match a, b with
  | ENInf, _ => True
  | _, EPInf => True
  | EFin x, EFin y => (x <= y)%R
  | _, _ => False
  end.
Definition to_ext (x : bf) : ext :=
  match x with
  | B754_infinity false => EPInf
  | B754_infinity true => ENInf
  | _ => EFin (B2R x)
  end.

Lemma Bleb_spec : forall x y : bf, is_nan x = false -> is_nan y = false ->
  (Bleb x y = true <-> ext_le (to_ext x) (to_ext y)).
Proof.
  intros x y Hx Hy.
  destruct (is_finite x) eqn:Fx; destruct (is_finite y) eqn:Fy.
  - rewrite Bleb_correct by auto.
    assert (to_ext x = EFin (B2R x)) as -> by (destruct x; try discriminate; auto).
    assert (to_ext y = EFin (B2R y)) as -> by (destruct y; try discriminate; auto).
    simpl. destruct (Rle_bool_spec (B2R x) (B2R y)); split; intros; try discriminate; auto; lra.
  - destruct y as [|[]| |]; try discriminate; destruct x as [[]|[]| |[]]; try discriminate;
      simpl; split; intros; auto; try discriminate; tauto.
  - destruct x as [|[]| |]; try discriminate; destruct y as [[]|[]| |[]]; try discriminate;
      simpl; split; intros; auto; try discriminate; tauto.
  - destruct x as [|[]| |]; try discriminate; destruct y as [|[]| |]; try discriminate;
      simpl; split; intros; auto; try discriminate; tauto.
Qed.

Lemma Bltb_Bleb : forall x y : bf, is_nan x = false -> is_nan y = false ->
  Bltb x y = negb (Bleb y x).
Proof.
  intros x y Hx Hy.
  destruct (is_finite x) eqn:Fx; destruct (is_finite y) eqn:Fy.
  - rewrite Bltb_correct, Bleb_correct by auto. symmetry. apply negb_Rlt_bool || (symmetry; rewrite <- (negb_Rlt_bool (B2R x) (B2R y)); rewrite negb_involutive; reflexivity).
  - destruct y as [|[]| |]; try discriminate; destruct x as [[]|[]| |[]]; try discriminate; reflexivity.
  - destruct x as [|[]| |]; try discriminate; destruct y as [[]|[]| |[]]; try discriminate; reflexivity.
  - destruct x as [|[]| |]; try discriminate; destruct y as [|[]| |]; try discriminate; reflexivity.
Qed.

Lemma Beqb_Bleb : forall x y : bf, Beqb x y = (Bleb x y && Bleb y x)%bool.
Proof.
  intros x y. unfold Beqb, Bleb, SpecFloat.SFeqb, SpecFloat.SFleb.
  assert (E : SpecFloat.SFcompare (B2SF y) (B2SF x) =
          match SpecFloat.SFcompare (B2SF x) (B2SF y) with Some c => Some (CompOpp c) | None => None end).
  { pose proof (Bcompare_swap _ _ x y) as S. unfold Bcompare in S. exact S. }
  rewrite E. destruct (SpecFloat.SFcompare (B2SF x) (B2SF y)) as [[]|]; reflexivity.
Qed.

Lemma Bleb_nan : forall x y : bf, Bleb x y = true -> is_nan x = false /\ is_nan y = false.
Proof. intros [] [] H; try discriminate; auto. Qed.
Lemma Bltb_nan : forall x y : bf, Bltb x y = true -> is_nan x = false /\ is_nan y = false.
Proof. intros [] [] H; try discriminate; auto. Qed.

Lemma i_ord_laws : OrdLaws IOps.
Proof.
  constructor; simpl.
  - apply Bleb_nan.
  - apply Bltb_nan.
  - intros x H. apply Bleb_spec; auto. destruct x as [|[]| |]; simpl; auto; try discriminate; lra.
  - intros x y z H1 H2.
    destruct (Bleb_nan _ _ H1). destruct (Bleb_nan _ _ H2).
    apply Bleb_spec in H1; auto. apply Bleb_spec in H2; auto. apply Bleb_spec; auto.
    destruct (to_ext x), (to_ext y), (to_ext z); simpl in *; auto; try tauto; lra.
  - apply Bltb_Bleb.
  - intros x y Hx Hy. rewrite !Bleb_spec by auto.
    destruct (to_ext x), (to_ext y); simpl; auto. lra.
  - apply Beqb_Bleb.
Qed.
End Format.

#[global] Instance Hprec32 : Prec_gt_0 24 := eq_refl.
#[global] Instance Hmax32 : Prec_lt_emax 24 128 := eq_refl.
#[global] Instance Hprec64 : Prec_gt_0 53 := eq_refl.
#[global] Instance Hmax64 : Prec_lt_emax 53 1024 := eq_refl.

Definition IOps32 : FloatOps := IOps 24 128 Hprec32 Hmax32.
Definition IOps64 : FloatOps := IOps 53 1024 Hprec64 Hmax64.
Notation b32 := (binary_float 24 128).
Notation b64 := (binary_float 53 1024).

(** f64::from(f32): exact *)
Definition conv64 (x : b32) : b64 :=
  match x with
  | B754_zero s => B754_zero s
  | B754_infinity s => B754_infinity s
  | B754_nan => B754_nan
  | B754_finite s m e _ => binary_normalize 53 1024 Hprec64 Hmax64 mode_NE (cond_Zopp s (Zpos m)) e s
  end.
(** x as f32: rounds to nearest even *)
Definition conv32 (x : b64) : b32 :=
  match x with
  | B754_zero s => B754_zero s
  | B754_infinity s => B754_infinity s
  | B754_nan => B754_nan
  | B754_finite s m e _ => binary_normalize 24 128 Hprec32 Hmax32 mode_NE (cond_Zopp s (Zpos m)) e s
  end.

(** The IEEE system; exp, ln and ln_1p are whatever libm provides. *)
Definition IF (iexp iln iln1p : b64 -> b64) : Floats := {|
  f32 := IOps32; f64 := IOps64; to64 := conv64; to32 := conv32;
  fexp := iexp; fln := iln; fln1p := iln1p |}.

Lemma i32_ord_laws : OrdLaws IOps32.
Proof. apply i_ord_laws. Qed.
Lemma i64_ord_laws : OrdLaws IOps64.
Proof. apply i_ord_laws. Qed.

(** Literals for examples: n/d. *)
Definition q64 (n d : Z) : b64 := Bdiv mode_NE (i_ofZ 53 1024 Hprec64 Hmax64 n) (i_ofZ 53 1024 Hprec64 Hmax64 d).
Definition q32 (n d : Z) : b32 := Bdiv mode_NE (i_ofZ 24 128 Hprec32 Hmax32 n) (i_ofZ 24 128 Hprec32 Hmax32 d).

Example ieee_computes :
  Bltb (q64 1 10) (Bplus mode_NE (q64 1 10) (q64 2 10)) = true
  /\ Beqb (q64 3 10) (Bplus mode_NE (q64 1 10) (q64 2 10)) = false
  /\ B2SF (conv32 (q64 1 2)) = B2SF (q32 1 2).
Proof. vm_compute. auto. Qed.
