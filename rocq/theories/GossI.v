(** Sampling a share of at most one of n rows asks for at most n rows, in binary64. *)
From Coq Require Import Reals Lra Lia ZArith List Bool.
From Flocq Require Import Core IEEE754.BinarySingleNaN.
From Verif Require Import Float FloatI FloatLaws FloatConv CountRoute CountI.

Section Format.
Variables prec emax : Z.
Context (Hprec : Prec_gt_0 prec) (Hmax : Prec_lt_emax prec emax).
Hypothesis HE : (3 - emax - prec <= 0)%Z.
Hypothesis H1 : (1 <= 2 ^ prec)%Z.
Notation bf := (binary_float prec emax).
Notation ofZ := (i_ofZ prec emax Hprec Hmax).

Lemma share_finite : forall a : bf, Bleb (B754_zero false) a = true -> Bleb a (ofZ 1) = true -> is_finite a = true.
Proof.
  intros a A0 A1. destruct (ofZ_int prec emax Hprec Hmax HE 1 ltac:(lia)) as (O1 & O2 & O3).
  destruct a as [s|[|]| |s m e B]; try reflexivity; try discriminate.
  destruct (ofZ 1) as [s'|s'| |s' m' e' B']; discriminate.
Qed.
Lemma share_tonat : forall (a : bf) n, Bleb (B754_zero false) a = true -> Bleb a (ofZ 1) = true -> (Z.of_nat n <= 2 ^ prec)%Z ->
  i_tonat prec emax (Bmult mode_NE a (ofZ (Z.of_nat n))) <= n.
Proof.
  intros a n A0 A1 HN. pose proof (share_finite a A0 A1) as AF.
  destruct (ofZ_int prec emax Hprec Hmax HE 1 ltac:(lia)) as (O1 & O2 & O3).
  destruct (ofZ_int prec emax Hprec Hmax HE (Z.of_nat n) ltac:(lia)) as (N1 & N2 & N3).
  apply Bleb_finite in A0; auto. apply Bleb_finite in A1; auto. rewrite O1 in A1. simpl in A0.
  pose proof (IZR_le 0 (Z.of_nat n) ltac:(lia)) as NN.
  pose proof (Bmult_correct prec emax Hprec Hmax mode_NE a (ofZ (Z.of_nat n))) as C. rewrite N1 in C.
  set (r := round radix2 (SpecFloat.fexp prec emax) (round_mode mode_NE) (B2R a * IZR (Z.of_nat n))) in *.
  assert (R0 : (0 <= r)%R).
  { unfold r. rewrite <- (round_0 radix2 (SpecFloat.fexp prec emax) (round_mode mode_NE)).
    apply round_le; [apply fexp_correct; auto|apply valid_rnd_round_mode|]. apply Rmult_le_pos; auto. }
  assert (R1 : (r <= IZR (Z.of_nat n))%R).
  { assert (G : round radix2 (SpecFloat.fexp prec emax) (round_mode mode_NE) (IZR (Z.of_nat n)) = IZR (Z.of_nat n)).
    { apply round_generic; [apply valid_rnd_round_mode|]. apply int_format; auto. lia. }
    rewrite <- G. unfold r. apply round_le; [apply fexp_correct; auto|apply valid_rnd_round_mode|].
    apply Rle_trans with (1 * IZR (Z.of_nat n))%R; [|lra]. apply Rmult_le_compat_r; auto. }
  rewrite Rlt_bool_true in C.
  2:{ rewrite Rabs_pos_eq by auto. apply Rle_lt_trans with (1 := R1).
      pose proof (int_small prec emax Hprec Hmax (Z.of_nat n) ltac:(lia)) as S. rewrite Rabs_pos_eq in S; auto. }
  destruct C as (C1 & C2 & _).
  unfold i_tonat. destruct (Bmult mode_NE a (ofZ (Z.of_nat n))) as [s|[|]| |[|] m e B] eqn:EM; try lia.
  - rewrite AF, N2 in C2. discriminate.
  - rewrite <- EM. rewrite <- EM in C1. pose proof (Btrunc_correct prec emax Hmax (Bmult mode_NE a (ofZ (Z.of_nat n)))) as T.
    rewrite C1 in T.
    assert (L : (IZR (Btrunc (Bmult mode_NE a (ofZ (Z.of_nat n)))) <= IZR (Z.of_nat n))%R).
    { rewrite T. unfold round, F2R, scaled_mantissa. simpl. rewrite !Rmult_1_r. apply IZR_le.
      rewrite <- (Ztrunc_IZR (Z.of_nat n)). apply Ztrunc_le. auto. }
    apply le_IZR in L. lia.
Qed.
End Format.

(** In the terms of the samplers. *)
Lemma share_rows : forall (a : b64) n, fle IOps64 (fzero IOps64) a = true -> fle IOps64 a (fone IOps64) = true -> (N.of_nat n <= 2 ^ 53)%N ->
  ftonat IOps64 (fmul IOps64 a (fofnat IOps64 n)) <= n.
Proof.
  intros a n A0 A1 HN. apply N2Z.inj_le in HN. rewrite nat_N_Z in HN.
  assert (E53 : (3 - 1024 - 53 <= 0)%Z) by lia. assert (O53 : (1 <= 2 ^ 53)%Z) by lia.
  exact (share_tonat 53 1024 Hprec64 Hmax64 E53 O53 a n A0 A1 HN).
Qed.
