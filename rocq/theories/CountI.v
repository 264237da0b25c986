(** Integers up to 2^24 are exact in binary32 and binary64: sums, differences and conversions. *)
From Coq Require Import Reals Lra Lia ZArith List Bool.
From Flocq Require Import Core IEEE754.BinarySingleNaN.
From Verif Require Import Float FloatI FloatConv CountRoute.

Section Format.
Variables prec emax : Z.
Context (Hprec : Prec_gt_0 prec) (Hmax : Prec_lt_emax prec emax).
Hypothesis HE : (3 - emax - prec <= 0)%Z.
Notation bf := (binary_float prec emax).
Notation ofZ := (i_ofZ prec emax Hprec Hmax).

Lemma int_format : forall z, (0 <= z <= 2 ^ prec)%Z -> generic_format radix2 (SpecFloat.fexp prec emax) (IZR z).
Proof.
  intros z Hz. change (SpecFloat.fexp prec emax) with (FLT_exp (3 - emax - prec) prec).
  destruct (Z.eq_dec z (2 ^ prec)) as [->|N].
  - rewrite (IZR_Zpower radix2) by (unfold Prec_gt_0 in Hprec; lia). apply generic_format_bpow. unfold FLT_exp.
    unfold Prec_gt_0 in Hprec. lia.
  - apply generic_format_FLT. exists (Float radix2 z 0).
    + unfold F2R. simpl. lra.
    + simpl. rewrite Z.abs_eq by lia. change (z < 2 ^ prec)%Z. lia.
    + exact HE.
Qed.
Lemma int_small : forall z, (0 <= z <= 2 ^ prec)%Z -> (Rabs (IZR z) < bpow radix2 emax)%R.
Proof.
  intros z Hz. rewrite Rabs_pos_eq by (apply IZR_le; lia). unfold Prec_gt_0, Prec_lt_emax in *.
  apply Rle_lt_trans with (bpow radix2 prec); [|apply bpow_lt; auto].
  rewrite <- (IZR_Zpower radix2) by lia. apply IZR_le. exact (proj2 Hz).
Qed.
Definition intf (x : bf) (z : Z) : Prop := B2R x = IZR z /\ is_finite x = true /\ Bsign x = false.
Lemma ofZ_int : forall z, (0 <= z <= 2 ^ prec)%Z -> intf (ofZ z) z.
Proof.
  intros z Hz. pose proof (binary_normalize_correct prec emax Hprec Hmax mode_NE z 0 false) as C. cbv zeta in C.
  assert (E : F2R (Float radix2 z 0) = IZR z) by (unfold F2R; simpl; lra). rewrite E in C.
  rewrite round_generic in C; [|apply valid_rnd_round_mode|apply int_format; auto].
  rewrite Rlt_bool_true in C by (apply int_small; auto). destruct C as (C1 & C2 & C3). split; auto. split; auto.
  unfold i_ofZ. rewrite C3. destruct (Z.eq_dec z 0) as [->|N].
  - rewrite Rcompare_Eq; auto.
  - rewrite Rcompare_Gt; auto. apply IZR_lt. lia.
Qed.
Lemma int_inj : forall x y z, intf x z -> intf y z -> x = y.
Proof. intros x y z (A1 & A2 & A3) (B1 & B2 & B3). apply B2R_Bsign_inj; congruence. Qed.
Lemma add_int : forall a b, (0 <= a)%Z -> (0 <= b)%Z -> (a + b <= 2 ^ prec)%Z -> Bplus mode_NE (ofZ a) (ofZ b) = ofZ (a + b).
Proof.
  intros a b HA HB HS. apply int_inj with (a + b)%Z; [|apply ofZ_int; lia].
  destruct (ofZ_int a) as (A1 & A2 & A3); [lia|]. destruct (ofZ_int b) as (B1 & B2 & B3); [lia|].
  pose proof (Bplus_correct prec emax Hprec Hmax mode_NE (ofZ a) (ofZ b) A2 B2) as C. rewrite A1, B1, <- plus_IZR in C.
  rewrite round_generic in C; [|apply valid_rnd_round_mode|apply int_format; lia].
  rewrite Rlt_bool_true in C by (apply int_small; lia). destruct C as (C1 & C2 & C3). split; auto. split; auto.
  rewrite C3, A3. destruct (Z.eq_dec (a + b) 0) as [->|N].
  - rewrite Rcompare_Eq; auto.
  - rewrite Rcompare_Gt; auto. apply IZR_lt. lia.
Qed.
Lemma sub_int : forall a b, (0 <= a)%Z -> (0 <= b)%Z -> (a + b <= 2 ^ prec)%Z -> Bminus mode_NE (ofZ (a + b)) (ofZ b) = ofZ a.
Proof.
  intros a b HA HB HS. apply int_inj with a; [|apply ofZ_int; lia].
  destruct (ofZ_int (a + b)) as (A1 & A2 & A3); [lia|]. destruct (ofZ_int b) as (B1 & B2 & B3); [lia|].
  pose proof (Bminus_correct prec emax Hprec Hmax mode_NE (ofZ (a + b)) (ofZ b) A2 B2) as C. rewrite A1, B1, <- minus_IZR in C.
  replace (a + b - b)%Z with a in C by lia.
  rewrite round_generic in C; [|apply valid_rnd_round_mode|apply int_format; lia].
  rewrite Rlt_bool_true in C by (apply int_small; lia). destruct C as (C1 & C2 & C3). split; auto. split; auto.
  rewrite C3, A3. destruct (Z.eq_dec a 0) as [->|N].
  - rewrite Rcompare_Eq; auto.
  - rewrite Rcompare_Gt; auto. apply IZR_lt. lia.
Qed.
Lemma eq_int : forall a, (0 <= a <= 2 ^ prec)%Z -> Beqb (ofZ a) (B754_zero false) = Z.eqb a 0.
Proof.
  intros a HA. destruct (ofZ_int a HA) as (A1 & A2 & A3). rewrite Beqb_correct; auto. rewrite A1. simpl.
  destruct (Z.eqb_spec a 0) as [->|N]; [apply Req_bool_true; auto|apply Req_bool_false; intros E; apply N; apply eq_IZR; auto].
Qed.
Lemma lt_int : forall a, (0 <= a <= 2 ^ prec)%Z -> Bltb (B754_zero false) (ofZ a) = Z.ltb 0 a.
Proof.
  intros a HA. destruct (ofZ_int a HA) as (A1 & A2 & A3). rewrite Bltb_correct; auto. rewrite A1. simpl.
  destruct (Z.ltb_spec 0 a); [apply Rlt_bool_true; apply IZR_lt; auto|apply Rlt_bool_false; apply IZR_le; auto].
Qed.
Lemma le_int : forall a, (0 <= a <= 2 ^ prec)%Z -> Bleb (B754_zero false) (ofZ a) = true.
Proof.
  intros a HA. destruct (ofZ_int a HA) as (A1 & A2 & A3). rewrite Bleb_correct; auto. rewrite A1. simpl.
  apply Rle_bool_true. apply IZR_le. lia.
Qed.
Lemma inf_int : forall a, (0 <= a <= 2 ^ prec)%Z -> Bltb (ofZ a) (B754_infinity false) = true.
Proof. intros a HA. destruct (ofZ_int a HA) as (A1 & A2 & A3). destruct (ofZ a); try discriminate; auto. Qed.
End Format.

Definition T24 : N := 16777216%N.
Lemma pow24 : Z.of_N T24 = (2 ^ 24)%Z. Proof. reflexivity. Qed.
Lemma pow53 : (2 ^ 24 <= 2 ^ 53)%Z. Proof. vm_compute. discriminate. Qed.
Lemma small_Z : forall n, (N.of_nat n <= T24)%N -> (Z.of_nat n <= 2 ^ 24)%Z.
Proof. intros n H. rewrite <- pow24. apply N2Z.inj_le in H. rewrite nat_N_Z in H. auto. Qed.

Lemma conv64_int : forall z, (0 <= z <= 2 ^ 24)%Z -> conv64 (i_ofZ 24 128 Hprec32 Hmax32 z) = i_ofZ 53 1024 Hprec64 Hmax64 z.
Proof.
  intros z Hz. pose proof pow53. destruct (Z.eq_dec z 0) as [->|N]; [reflexivity|].
  destruct (ofZ_int 24 128 Hprec32 Hmax32 ltac:(lia) z Hz) as (A1 & A2 & A3).
  destruct (ofZ_int 53 1024 Hprec64 Hmax64 ltac:(lia) z ltac:(lia)) as (B1 & B2 & B3).
  assert (NZ : IZR z <> 0%R) by (intros E; apply N, eq_IZR; auto).
  assert (ST : forall p e (x : binary_float p e), B2R x = IZR z -> is_finite x = true -> is_finite_strict x = true).
  { intros p e [s|s| |s m e' H'] E F; try discriminate; auto; simpl in E; congruence. }
  apply B2R_inj.
  - apply ST; [rewrite conv64_B2R; auto|rewrite conv64_finite; auto].
  - apply ST; auto.
  - rewrite conv64_B2R. congruence.
Qed.
Lemma conv32_int : forall z, (0 <= z <= 2 ^ 24)%Z -> conv32 (i_ofZ 53 1024 Hprec64 Hmax64 z) = i_ofZ 24 128 Hprec32 Hmax32 z.
Proof. intros z Hz. rewrite <- conv64_int by auto. apply to32_to64. Qed.

Section Laws.
Variables iexp iln iln1p : b64 -> b64.
Lemma i_count_laws : CountLaws (IF iexp iln iln1p) T24.
Proof.
  pose proof pow53. constructor; simpl; intros; try reflexivity; repeat match goal with H : (N.of_nat _ <= _)%N |- _ => apply small_Z in H end.
  - rewrite Nat2Z.inj_add. apply add_int; lia.
  - rewrite Nat2Z.inj_add. apply sub_int; lia.
  - rewrite Nat2Z.inj_add. apply add_int; lia.
  - apply conv64_int; lia.
  - apply conv32_int; lia.
  - rewrite eq_int by lia. destruct (Z.eqb_spec (Z.of_nat a) 0), (Nat.eqb_spec a 0); auto; lia.
  - rewrite lt_int by lia. destruct (Z.ltb_spec 0 (Z.of_nat a)), (Nat.ltb_spec 0 a); auto; lia.
  - apply le_int; lia.
  - apply inf_int; lia.
Qed.
End Laws.
