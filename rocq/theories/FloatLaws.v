(** Further laws shared by the IEEE and the exact instance. *)
From Coq Require Import Reals Lra Lia ZArith List Bool.
From Flocq Require Import Core IEEE754.BinarySingleNaN.
From Verif Require Import Float FloatX FloatI.
Import ListNotations.
Local Open Scope R_scope.

(** Signs of differences. *)
Record SubLaws (F : FloatOps) : Prop := mkSubLaws {
  sl_pos : forall x y, flt F (fzero F) (fsub F x y) = true -> flt F y x = true;
  sl_zero : forall x y, flt F y x = true -> flt F y (fsub F x (fzero F)) = true;
  sl_ninf : flt F (fzero F) (fninf F) = false;
  sl_zero_nan : fisnan F (fzero F) = false
}.

Lemma x_sub_laws : SubLaws XOps.
Proof.
  constructor; simpl.
  - intros [] []; simpl; intros H; try discriminate; auto. repeat rcase; auto; try discriminate; lra.
  - intros [] []; simpl; intros H; try discriminate; auto. repeat rcase; auto; try discriminate; lra.
  - reflexivity.
  - reflexivity.
Qed.

(** Sums and shares of non-negative numbers, and 0/n. *)
Record NonnegLaws (F : FloatOps) : Prop := mkNonnegLaws {
  nn_add_l : forall x y, fle F (fzero F) x = true -> fle F (fzero F) y = true -> fle F x (fadd F x y) = true;
  nn_add_r : forall x y, fle F (fzero F) x = true -> fle F (fzero F) y = true -> fle F y (fadd F x y) = true;
  nn_div : forall w t, fle F (fzero F) w = true -> flt F w (finf F) = true -> flt F (fzero F) t = true ->
     fle F (fzero F) (fdiv F w t) = true;
  nn_zero_div : forall n, n <> O -> feq F (fdiv F (fofnat F 0) (fofnat F n)) (fzero F) = true;
  nn_inf_nan : fisnan F (finf F) = false;
  nn_max_inf : flt F (fmax F) (finf F) = true
}.

Lemma x_nonneg_laws : NonnegLaws XOps.
Proof.
  constructor; simpl; auto.
  - intros [] []; simpl; intros H1 H2; try discriminate; auto. repeat rcase; auto; try discriminate; lra.
  - intros [] []; simpl; intros H1 H2; try discriminate; auto. repeat rcase; auto; try discriminate; lra.
  - intros [a| | |] [b| | |]; simpl; intros H1 H2 H3; try discriminate; auto.
    + destruct (Rle_boolP 0 a) as [[_ Ha]|[Ha _]]; [|congruence].
      destruct (Rlt_boolP 0 b) as [[_ Hb]|[Hb _]]; [|congruence].
      rcase; [lra|]. simpl. apply Rle_bool_true.
      apply Rmult_le_pos; auto. left. apply Rinv_0_lt_compat. auto.
    + apply Rle_bool_true. lra.
  - intros n Hn. apply not_0_INR in Hn. rcase; [lra|]. simpl. apply Req_bool_true. unfold Rdiv. ring.
Qed.

Section FormatLaws.
Variables prec emax : Z.
Context (Hprec : Prec_gt_0 prec) (Hmax : Prec_lt_emax prec emax).
Notation bf := (binary_float prec emax).
Notation IO := (IOps prec emax Hprec Hmax).
Notation rnd := (round radix2 (SpecFloat.fexp prec emax) ZnearestE).

Lemma round_pos_inv : forall r, 0 < rnd r -> 0 < r.
Proof.
  intros r H. destruct (Rle_or_lt r 0) as [H0|]; auto.
  apply (round_le radix2 (SpecFloat.fexp prec emax) ZnearestE) in H0.
  rewrite round_0 in H0 by apply valid_rnd_N. lra.
Qed.

Lemma i_sub_pos : forall x y : bf, Bltb (B754_zero false) (Bminus mode_NE x y) = true -> Bltb y x = true.
Proof.
  intros x y H.
  destruct (is_finite x) eqn:Fx; destruct (is_finite y) eqn:Fy.
  - pose proof (Bminus_correct _ _ Hprec Hmax mode_NE x y Fx Fy) as C.
    rewrite Bltb_correct by auto. apply Rlt_bool_true.
    simpl round_mode in C.
    destruct (Rlt_bool_spec (Rabs (rnd (B2R x - B2R y))) (bpow radix2 emax)) as [Hlt|Hge].
    + destruct C as (C1 & C2 & _).
      rewrite Bltb_correct in H by auto. simpl in H.
      destruct (Rlt_bool_spec 0 (B2R (Bminus mode_NE x y))) as [H0|]; [|discriminate].
      rewrite C1 in H0. apply round_pos_inv in H0. lra.
    + destruct C as (C1 & C2).
      assert (B : B2R x - B2R y <> 0).
      { intros E. rewrite E, round_0, Rabs_R0 in Hge by apply valid_rnd_N.
        pose proof (bpow_gt_0 radix2 emax). lra. }
      (* the overflowed result is +inf, so x is positive and y negative *)
      assert (Sx : Bsign x = false).
      { destruct (Bsign x) eqn:Es; auto. exfalso.
        unfold Bltb in H. rewrite C1 in H. simpl in H. discriminate. }
      rewrite Sx in C2.
      assert (0 <= B2R x). { destruct x as [|[]| |[] m e Hb]; simpl in *; try discriminate; try lra.
        apply F2R_ge_0. simpl. lia. }
      assert (B2R y <= 0). { destruct y as [|[]| |[] m' e' Hb']; simpl in *; try discriminate; try lra.
        apply F2R_le_0. simpl. lia. }
      lra.
  - destruct y as [|[]| |]; try discriminate; destruct x as [[]|[]| |[]]; try discriminate; auto.
  - destruct x as [|[]| |]; try discriminate; destruct y as [[]|[]| |[]]; try discriminate; auto.
  - destruct x as [|[]| |]; try discriminate; destruct y as [|[]| |]; try discriminate; auto.
Qed.

Lemma Bminus_zero_R : forall x : bf, is_finite x = true ->
  is_finite (Bminus mode_NE x (B754_zero false)) = true /\ B2R (Bminus mode_NE x (B754_zero false)) = B2R x.
Proof.
  intros x Fx.
  pose proof (Bminus_correct _ _ Hprec Hmax mode_NE x (B754_zero false) Fx eq_refl) as C.
  simpl round_mode in C. simpl (B2R (B754_zero false)) in C. rewrite Rminus_0_r in C.
  rewrite round_generic in C; [|apply valid_rnd_N|apply generic_format_B2R].
  rewrite Rlt_bool_true in C by apply abs_B2R_lt_emax. tauto.
Qed.

Lemma i_sub_zero : forall x y : bf, Bltb y x = true -> Bltb y (Bminus mode_NE x (B754_zero false)) = true.
Proof.
  intros x y H. destruct (Bltb_nan _ _ _ _ H) as [Ny Nx].
  destruct (is_finite x) eqn:Fx.
  - destruct (Bminus_zero_R x Fx) as [F1 F2].
    destruct (is_finite y) eqn:Fy.
    + rewrite Bltb_correct in * by auto. rewrite F2. auto.
    + destruct y as [|[]| |]; try discriminate.
      * destruct (Bminus mode_NE x (B754_zero false)) as [|[]| |]; try discriminate; auto.
      * exfalso; destruct x as [[]|[]| |[]]; simpl in *; discriminate.
  - destruct x as [|[]| |]; try discriminate; auto.
Qed.

Lemma Bsign_nonneg : forall x : bf, is_finite x = true -> 0 < B2R x -> Bsign x = false.
Proof.
  intros [[]|[]| |[] m e Hb] F H; simpl in *; try discriminate; auto; try lra.
  exfalso. assert (F2R (Float radix2 (Z.neg m) e) <= 0) by (apply F2R_le_0; simpl; lia). lra.
Qed.

Lemma Bleb_finite : forall x y : bf, is_finite x = true -> is_finite y = true -> (Bleb x y = true <-> B2R x <= B2R y).
Proof. intros x y Fx Fy. rewrite Bleb_correct by auto. destruct (Rle_bool_spec (B2R x) (B2R y)); split; intros; auto; try discriminate; lra. Qed.
Lemma Bltb_finite : forall x y : bf, is_finite x = true -> is_finite y = true -> (Bltb x y = true <-> B2R x < B2R y).
Proof. intros x y Fx Fy. rewrite Bltb_correct by auto. destruct (Rlt_bool_spec (B2R x) (B2R y)); split; intros; auto; try discriminate; lra. Qed.

Lemma Bleb_inf : forall x : bf, is_nan x = false -> Bleb x (B754_infinity false) = true.
Proof. intros [|[]| |] H; try discriminate; auto. Qed.

Lemma nonneg_cases : forall x : bf, Bleb (B754_zero false) x = true ->
  x = B754_infinity false \/ (is_finite x = true /\ 0 <= B2R x).
Proof.
  intros x H. destruct (is_finite x) eqn:Fx.
  - right. split; auto. apply Bleb_finite in H; auto.
  - left. destruct x as [|[]| |]; try discriminate; auto.
Qed.

Lemma i_add_nonneg : forall x y : bf, Bleb (B754_zero false) x = true -> Bleb (B754_zero false) y = true ->
  Bleb x (Bplus mode_NE x y) = true /\ Bleb y (Bplus mode_NE x y) = true.
Proof.
  intros x y Hx Hy.
  destruct (nonneg_cases x Hx) as [->|[Fx Rx]]; destruct (nonneg_cases y Hy) as [->|[Fy Ry]].
  - split; reflexivity.
  - destruct y as [|[]| |]; try discriminate; simpl; split; auto.
  - destruct x as [|[]| |]; try discriminate; simpl; split; auto.
  - pose proof (Bplus_correct _ _ Hprec Hmax mode_NE x y Fx Fy) as C. simpl round_mode in C.
    destruct (Rlt_bool_spec (Rabs (rnd (B2R x + B2R y))) (bpow radix2 emax)) as [Hlt|Hge].
    + destruct C as (C1 & C2 & _). rewrite !Bleb_finite by auto. rewrite C1.
      split; (apply round_ge_generic; [apply fexp_correct; auto|apply valid_rnd_N|apply generic_format_B2R|lra]).
    + destruct C as (C1 & C2).
      assert (Bsign x = false) as Sx.
      { destruct (Rle_lt_or_eq_dec _ _ Rx) as [H0|H0]; [apply Bsign_nonneg; auto|].
        rewrite C2. destruct (Rle_lt_or_eq_dec _ _ Ry) as [H1|H1]; [apply Bsign_nonneg; auto|].
        exfalso. rewrite <- H0, <- H1, Rplus_0_r, round_0, Rabs_R0 in Hge by apply valid_rnd_N.
        pose proof (bpow_gt_0 radix2 emax). lra. }
      rewrite Sx in C1. simpl in C1.
      assert (Bplus mode_NE x y = B754_infinity false) as ->.
      { destruct (Bplus mode_NE x y) as [|s| |]; simpl in C1; try discriminate. injection C1 as ->. auto. }
      split; apply Bleb_inf; [destruct x|destruct y]; auto; discriminate.
Qed.

Lemma i_div_nonneg : forall w t : bf, Bleb (B754_zero false) w = true -> Bltb w (B754_infinity false) = true ->
  Bltb (B754_zero false) t = true -> Bleb (B754_zero false) (Bdiv mode_NE w t) = true.
Proof.
  intros w t Hw Wf Ht.
  destruct (nonneg_cases w Hw) as [->|[Fw Rw]]; [discriminate|].
  destruct (is_finite t) eqn:Ft.
  - apply Bltb_finite in Ht; auto. simpl in Ht.
    pose proof (Bdiv_correct _ _ Hprec Hmax mode_NE w t) as C. simpl round_mode in C.
    specialize (C ltac:(lra)).
    assert (Q : 0 <= B2R w / B2R t).
    { apply Rmult_le_pos; auto. left. apply Rinv_0_lt_compat. auto. }
    destruct (Rlt_bool_spec (Rabs (rnd (B2R w / B2R t))) (bpow radix2 emax)) as [Hlt|Hge].
    + destruct C as (C1 & C2 & _). rewrite Bleb_finite; auto; [|congruence]. rewrite C1. simpl.
      rewrite <- (round_0 radix2 (SpecFloat.fexp prec emax) ZnearestE). apply round_le; auto.
      apply fexp_correct; auto. apply valid_rnd_N.
    + rewrite (Bsign_nonneg t Ft Ht) in C.
      assert (Bsign w = false) as Sw.
      { destruct (Rle_lt_or_eq_dec _ _ Rw) as [H0|H0]; [apply Bsign_nonneg; auto|].
        exfalso. unfold Rdiv in Hge. rewrite <- H0, Rmult_0_l, round_0, Rabs_R0 in Hge by apply valid_rnd_N.
        pose proof (bpow_gt_0 radix2 emax). lra. }
      rewrite Sw in C. simpl in C.
      assert (Bdiv mode_NE w t = B754_infinity false) as ->; auto.
      destruct (Bdiv mode_NE w t) as [|s| |]; simpl in C; try discriminate. injection C as ->. auto.
  - destruct t as [|[]| |]; try discriminate. destruct w as [| | |]; try discriminate; auto.
Qed.

Lemma i_ofZ_pos : forall z, (0 < z)%Z -> exists n,
  i_ofZ prec emax Hprec Hmax z = B754_infinity false \/ (is_finite n = true /\ 0 < B2R n /\ i_ofZ prec emax Hprec Hmax z = n).
Proof.
  intros z Hz. unfold i_ofZ. exists (binary_normalize prec emax Hprec Hmax mode_NE z 0 false).
  pose proof (binary_normalize_correct prec emax Hprec Hmax mode_NE z 0 false) as C.
  cbv zeta in C. simpl round_mode in C.
  assert (Hr : 1 <= F2R (Float radix2 z 0)).
  { unfold F2R. simpl. rewrite Rmult_1_r. apply IZR_le. lia. }
  assert (H1 : 1 <= rnd (F2R (Float radix2 z 0))).
  { apply round_ge_generic; auto; [apply fexp_correct; auto|apply valid_rnd_N|].
    change 1 with (bpow radix2 0). apply generic_format_bpow'; [apply fexp_correct; auto|].
    unfold SpecFloat.fexp, SpecFloat.emin, Prec_gt_0, Prec_lt_emax in *. lia. }
  destruct (Rlt_bool_spec (Rabs (rnd (F2R (Float radix2 z 0)))) (bpow radix2 emax)) as [Hlt|Hge].
  - right. destruct C as (C1 & C2 & _). split; auto. split; auto. rewrite C1. lra.
  - left. rewrite Rlt_bool_false in C by lra. simpl in C.
    destruct (binary_normalize prec emax Hprec Hmax mode_NE z 0 false) as [|s| |]; simpl in C; try discriminate.
    injection C as ->. auto.
Qed.

Lemma i_zero_div : forall n, n <> O ->
  Beqb (Bdiv mode_NE (i_ofZ prec emax Hprec Hmax (Z.of_nat 0)) (i_ofZ prec emax Hprec Hmax (Z.of_nat n))) (B754_zero false) = true.
Proof.
  intros n Hn. assert (E0 : i_ofZ prec emax Hprec Hmax (Z.of_nat 0) = B754_zero false).
  { unfold i_ofZ. simpl. reflexivity. }
  rewrite E0. destruct (i_ofZ_pos (Z.of_nat n)) as (m & [->|(F & P & ->)]); [lia|reflexivity|].
  destruct m as [| | |]; try discriminate; simpl in *; try lra. reflexivity.
Qed.

Lemma Bmax_lt_inf : Bltb Bmax_float (B754_infinity false) = true.
Proof. reflexivity. Qed.

Lemma i_nonneg_laws : NonnegLaws IO.
Proof.
  constructor; simpl; auto.
  - intros x y Hx Hy. apply i_add_nonneg; auto.
  - intros x y Hx Hy. apply i_add_nonneg; auto.
  - apply i_div_nonneg.
  - apply i_zero_div.
Qed.

Lemma i_sub_laws : SubLaws IO.
Proof.
  constructor; simpl; auto.
  - apply i_sub_pos.
  - apply i_sub_zero.
Qed.
End FormatLaws.

Lemma i32_sub_laws : SubLaws IOps32.
Proof. apply i_sub_laws. Qed.
Lemma i64_nonneg_laws : NonnegLaws IOps64.
Proof. apply i_nonneg_laws. Qed.
