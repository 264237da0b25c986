(** IEEE: widening a 32-bit float to 64 bits and rounding it back returns it. *)
From Coq Require Import ZArith Reals Lia Lra.
From Flocq Require Import Core.Core IEEE754.BinarySingleNaN.
From Verif Require Import Float FloatI.

Lemma emin_bounded : forall prec emax m e, SpecFloat.bounded prec emax m e = true ->
  (Z.abs (Zpos m) < 2 ^ prec)%Z /\ (SpecFloat.emin prec emax <= e)%Z.
Proof.
  intros prec emax m e H. apply Bool.andb_true_iff in H. destruct H as [H1 H2]. apply Zeq_bool_eq in H1. unfold SpecFloat.fexp in H1.
  assert (D : (Zdigits radix2 (Zpos m) <= prec)%Z).
  { rewrite <- Digits.Zpos_digits2_pos in *. lia. }
  split; [|lia]. apply (Zpower_gt_Zdigits radix2) in D. exact D.
Qed.
Lemma to32_to64 : forall x : b32, conv32 (conv64 x) = x.
Proof.
  intros [s|s| |s m e H]; try reflexivity.
  set (x := B754_finite s m e H : b32). set (r := B2R x).
  assert (R : r = F2R (Float radix2 (cond_Zopp s (Zpos m)) e)) by reflexivity.
  destruct (emin_bounded _ _ _ _ H) as [D E].
  assert (AB : forall z, Z.abs (cond_Zopp s z) = Z.abs z) by (intros z; destruct s; simpl; auto using Z.abs_opp).
  assert (G : forall prec emin, (24 <= prec)%Z -> (emin <= -149)%Z -> generic_format radix2 (FLT_exp emin prec) r).
  { intros prec emin HP HE. rewrite R. apply generic_format_FLT. eexists; [reflexivity| |].
    - simpl. rewrite AB. eapply Z.lt_le_trans; [exact D|]. apply Z.pow_le_mono_r; lia.
    - simpl. unfold SpecFloat.emin in E. lia. }
  assert (NZ : r <> 0%R). { rewrite R. apply F2R_neq_0. destruct s; discriminate. }
  assert (LT : (Rabs r < bpow radix2 128)%R) by apply abs_B2R_lt_emax.
  assert (Y : B2R (conv64 x) = r /\ is_finite (conv64 x) = true).
  { unfold x at 1 2. cbn [conv64]. pose proof (binary_normalize_correct 53 1024 Hprec64 Hmax64 mode_NE (cond_Zopp s (Zpos m)) e s) as C.
    rewrite <- R in C. cbv zeta in C. rewrite round_generic in C; [|apply valid_rnd_round_mode|apply G; unfold SpecFloat.emin; lia].
    rewrite Rlt_bool_true in C; [tauto|]. eapply Rlt_trans; [exact LT|]. apply bpow_lt. lia. }
  destruct Y as [Y1 Y2]. destruct (conv64 x) as [s'|s'| |s' m' e' H'] eqn:EY; try discriminate; [simpl in Y1; congruence|].
  cbn [conv32]. pose proof (binary_normalize_correct 24 128 Hprec32 Hmax32 mode_NE (cond_Zopp s' (Zpos m')) e' s') as C.
  change (F2R (Float radix2 (cond_Zopp s' (Zpos m')) e')) with (B2R (B754_finite s' m' e' H' : b64)) in C. rewrite Y1 in C. cbv zeta in C.
  rewrite round_generic in C; [|apply valid_rnd_round_mode|apply G; unfold SpecFloat.emin; lia].
  rewrite Rlt_bool_true in C by exact LT. destruct C as (C1 & C2 & _).
  apply B2R_inj; [|reflexivity|exact C1].
  destruct (binary_normalize 24 128 Hprec32 Hmax32 mode_NE (cond_Zopp s' (Zpos m')) e' s'); auto; simpl in C1; congruence.
Qed.

Lemma conv64_B2R : forall x : b32, B2R (conv64 x) = B2R x.
Proof.
  intros [s|s| |s m e H]; try reflexivity.
  set (x := B754_finite s m e H : b32). set (r := B2R x).
  assert (R : r = F2R (Float radix2 (cond_Zopp s (Zpos m)) e)) by reflexivity.
  destruct (emin_bounded _ _ _ _ H) as [D E].
  assert (AB : forall z, Z.abs (cond_Zopp s z) = Z.abs z) by (intros z; destruct s; simpl; auto using Z.abs_opp).
  assert (G : forall prec emin, (24 <= prec)%Z -> (emin <= -149)%Z -> generic_format radix2 (FLT_exp emin prec) r).
  { intros prec emin HP HE. rewrite R. apply generic_format_FLT. eexists; [reflexivity| |].
    - simpl. rewrite AB. eapply Z.lt_le_trans; [exact D|]. apply Z.pow_le_mono_r; lia.
    - simpl. unfold SpecFloat.emin in E. lia. }
  assert (LT : (Rabs r < bpow radix2 128)%R) by apply abs_B2R_lt_emax.
  unfold x at 1. cbn [conv64]. pose proof (binary_normalize_correct 53 1024 Hprec64 Hmax64 mode_NE (cond_Zopp s (Zpos m)) e s) as C.
  rewrite <- R in C. cbv zeta in C. rewrite round_generic in C; [|apply valid_rnd_round_mode|apply G; unfold SpecFloat.emin; lia].
  rewrite Rlt_bool_true in C; [tauto|]. eapply Rlt_trans; [exact LT|]. apply bpow_lt. lia.
Qed.
Lemma conv64_finite : forall x : b32, is_finite (conv64 x) = is_finite x.
Proof.
  intros x. pose proof (to32_to64 x) as T. destruct x as [s|s| |s m e H]; try reflexivity.
  destruct (conv64 _) as [s'|s'| |s' m' e' H'] eqn:E; auto; simpl in T; discriminate.
Qed.
(** Widening keeps the order. *)
Lemma widen_lt : forall a b : b32, Bltb (conv64 a) (conv64 b) = Bltb a b.
Proof.
  intros a b. destruct (is_finite a) eqn:FA; destruct (is_finite b) eqn:FB.
  - rewrite !Bltb_correct by (rewrite ?conv64_finite; auto). now rewrite !conv64_B2R.
  - pose proof (conv64_finite a) as CA. rewrite FA in CA. destruct b as [s|s| |s m e H]; try discriminate FB.
    + cbn [conv64]. destruct (conv64 a); try discriminate CA; destruct a; try discriminate FA; destruct s; reflexivity.
    + cbn [conv64]. destruct (conv64 a); try discriminate CA; destruct a; try discriminate FA; reflexivity.
  - pose proof (conv64_finite b) as CB. rewrite FB in CB. destruct a as [s|s| |s m e H]; try discriminate FA.
    + cbn [conv64]. destruct (conv64 b); try discriminate CB; destruct b; try discriminate FB; destruct s; reflexivity.
    + cbn [conv64]. destruct (conv64 b); try discriminate CB; destruct b; try discriminate FB; reflexivity.
  - destruct a; try discriminate FA; destruct b; try discriminate FB; reflexivity.
Qed.
