(** IEEE arithmetic is symmetric under change of sign: the number a float stands for (zeros of either sign being
    one number) determines the number every operation returns, and rounding to nearest even is odd. *)
From Coq Require Import List Arith NArith ZArith Lia Bool Reals Lra.
From Flocq Require Import Core IEEE754.BinarySingleNaN.
From Verif Require Import Prelude Float FloatI FloatX Utils Objective Metric Booster Scale ScaleFit.
Import ListNotations.
Local Open Scope R_scope.

Section Value.
Variables prec emax : Z.
Context (Hprec : Prec_gt_0 prec) (Hmax : Prec_lt_emax prec emax).
Notation bf := (binary_float prec emax).
Notation rnd := (round radix2 (SpecFloat.fexp prec emax) ZnearestE).

(** the number [x] stands for *)
Definition val (x : bf) : xr :=
  match x with B754_nan => XNaN | B754_infinity false => PInf | B754_infinity true => NInf | _ => Fin (B2R x) end.
Lemma val_fin : forall x, is_finite x = true -> val x = Fin (B2R x).
Proof. intros [] H; try discriminate; auto. Qed.
Lemma val_inv : forall x r, val x = Fin r -> is_finite x = true /\ B2R x = r.
Proof. intros [|[]| |] r H; simpl in *; try discriminate; injection H as <-; auto. Qed.
Lemma val_pinf : forall x, val x = PInf -> x = B754_infinity false.
Proof. intros [|[]| |] H; try discriminate; auto. Qed.
Lemma val_ninf : forall x, val x = NInf -> x = B754_infinity true.
Proof. intros [|[]| |] H; try discriminate; auto. Qed.
Lemma val_nan : forall x, val x = XNaN -> x = B754_nan.
Proof. intros [|[]| |] H; try discriminate; auto. Qed.

Definition xround (r : R) : xr :=
  if Rlt_bool (Rabs (rnd r)) (bpow radix2 emax) then Fin (rnd r) else if Rlt_bool r 0 then NInf else PInf.

Lemma sign_neg : forall x : bf, is_finite x = true -> Bsign x = true -> B2R x <= 0.
Proof. intros [[]|[]| |[] m e Hb] F S; simpl in *; try discriminate; try lra. apply F2R_le_0. simpl. lia. Qed.
Lemma sign_pos : forall x : bf, is_finite x = true -> Bsign x = false -> 0 <= B2R x.
Proof. intros [[]|[]| |[] m e Hb] F S; simpl in *; try discriminate; try lra. apply F2R_ge_0. simpl. lia. Qed.
Lemma sign_lt : forall x : bf, is_finite x = true -> B2R x <> 0 -> Bsign x = Rlt_bool (B2R x) 0.
Proof.
  intros x F N. destruct (Bsign x) eqn:S; [pose proof (sign_neg x F S)|pose proof (sign_pos x F S)]; rcase; auto; lra.
Qed.
Lemma round_zero : rnd 0 = 0. Proof. apply round_0, valid_rnd_N. Qed.
Lemma over_nonzero : forall r, bpow radix2 emax <= Rabs (rnd r) -> r <> 0.
Proof. intros r H ->. rewrite round_zero, Rabs_R0 in H. pose proof (bpow_gt_0 radix2 emax). lra. Qed.
Lemma over_val : forall (z : bf) s, B2SF z = binary_overflow prec emax mode_NE s -> val z = if s then NInf else PInf.
Proof. intros [|[]| |] []; simpl; intros H; try discriminate; auto. Qed.

Lemma xround_neg : forall r, xround (- r) = xneg (xround r).
Proof.
  intros r. unfold xround. rewrite round_NE_opp, Rabs_Ropp. destruct (Rlt_bool_spec (Rabs (rnd r)) (bpow radix2 emax)) as [H|H]; auto.
  apply over_nonzero in H. repeat rcase; auto; lra.
Qed.

Lemma val_add_fin : forall x y : bf, is_finite x = true -> is_finite y = true -> val (Bplus mode_NE x y) = xround (B2R x + B2R y).
Proof.
  intros x y Fx Fy. pose proof (Bplus_correct _ _ Hprec Hmax mode_NE x y Fx Fy) as C. simpl round_mode in C. unfold xround.
  destruct (Rlt_bool_spec (Rabs (rnd (B2R x + B2R y))) (bpow radix2 emax)) as [H|H].
  - destruct C as (C1 & C2 & _). rewrite val_fin by auto. rewrite C1. reflexivity.
  - destruct C as (C1 & C2). rewrite (over_val _ _ C1). apply over_nonzero in H.
    destruct (Bsign x) eqn:S; symmetry in C2; [pose proof (sign_neg x Fx S); pose proof (sign_neg y Fy C2)|pose proof (sign_pos x Fx S); pose proof (sign_pos y Fy C2)];
      rcase; auto; lra.
Qed.
Lemma val_sub_fin : forall x y : bf, is_finite x = true -> is_finite y = true -> val (Bminus mode_NE x y) = xround (B2R x - B2R y).
Proof.
  intros x y Fx Fy. pose proof (Bminus_correct _ _ Hprec Hmax mode_NE x y Fx Fy) as C. simpl round_mode in C. unfold xround.
  destruct (Rlt_bool_spec (Rabs (rnd (B2R x - B2R y))) (bpow radix2 emax)) as [H|H].
  - destruct C as (C1 & C2 & _). rewrite val_fin by auto. rewrite C1. reflexivity.
  - destruct C as (C1 & C2). rewrite (over_val _ _ C1). apply over_nonzero in H.
    destruct (Bsign x) eqn:S; destruct (Bsign y) eqn:S'; try discriminate;
      [pose proof (sign_neg x Fx S); pose proof (sign_pos y Fy S')|pose proof (sign_pos x Fx S); pose proof (sign_neg y Fy S')];
      rcase; auto; lra.
Qed.
Lemma val_mul_fin : forall x y : bf, is_finite x = true -> is_finite y = true -> val (Bmult mode_NE x y) = xround (B2R x * B2R y).
Proof.
  intros x y Fx Fy. pose proof (Bmult_correct _ _ Hprec Hmax mode_NE x y) as C. simpl round_mode in C. unfold xround.
  destruct (Rlt_bool_spec (Rabs (rnd (B2R x * B2R y))) (bpow radix2 emax)) as [H|H].
  - destruct C as (C1 & C2 & _). rewrite Fx, Fy in C2. rewrite val_fin by auto. rewrite C1. reflexivity.
  - rewrite (over_val _ _ C). apply over_nonzero in H.
    destruct (Bsign x) eqn:S; destruct (Bsign y) eqn:S';
      try (pose proof (sign_neg x Fx S)); try (pose proof (sign_neg y Fy S')); try (pose proof (sign_pos x Fx S)); try (pose proof (sign_pos y Fy S'));
      simpl; rcase; auto; nra.
Qed.
Lemma val_div_fin : forall x y : bf, is_finite x = true -> B2R y <> 0 -> val (Bdiv mode_NE x y) = xround (B2R x / B2R y).
Proof.
  intros x y Fx Ny. assert (Fy : is_finite y = true) by (destruct y; simpl in Ny; auto; lra).
  pose proof (Bdiv_correct _ _ Hprec Hmax mode_NE x y Ny) as C. simpl round_mode in C. unfold xround.
  destruct (Rlt_bool_spec (Rabs (rnd (B2R x / B2R y))) (bpow radix2 emax)) as [H|H].
  - destruct C as (C1 & C2 & _). rewrite Fx in C2. rewrite val_fin by auto. rewrite C1. reflexivity.
  - rewrite (over_val _ _ C). apply over_nonzero in H.
    assert (Nx : B2R x <> 0) by (intros E; rewrite E in H; unfold Rdiv in H; rewrite Rmult_0_l in H; lra).
    rewrite (sign_lt x Fx Nx), (sign_lt y Fy Ny).
    assert (Q : B2R x / B2R y * B2R y = B2R x) by (field; auto).
    set (q := B2R x / B2R y) in *. repeat rcase; auto; simpl; try nra.
Qed.

Lemma zero_or : forall x : bf, is_finite x = true -> B2R x = 0 -> exists s, x = B754_zero s.
Proof.
  intros [s|s| |s m e Hb] F H; try discriminate; [exists s; auto|]. exfalso.
  apply eq_0_F2R in H. destruct s; discriminate.
Qed.
Lemma xround_0 : xround 0 = Fin 0.
Proof. unfold xround. rewrite round_zero, Rabs_R0. rewrite Rlt_bool_true by apply bpow_gt_0. reflexivity. Qed.

(** *** operations on numbers *)
Definition ng (b : bool) (x : xr) : xr := if b then xneg x else x.
Definition rel (b : bool) (x x' : bf) : Prop := val x' = ng b (val x).

Lemma rel_cases : forall b x x', rel b x x' ->
  (is_finite x = true /\ is_finite x' = true /\ B2R x' = if b then - B2R x else B2R x) \/
  (exists s, x = B754_infinity s /\ x' = B754_infinity (xorb b s)) \/ (x = B754_nan /\ x' = B754_nan).
Proof.
  unfold rel, ng. intros b x x' H. destruct x as [s|[]| |s m e Hb]; simpl in H.
  - left. destruct b; apply val_inv in H as [H1 H2]; auto.
  - right; left. exists true. destruct b; simpl in *; [apply val_pinf in H|apply val_ninf in H]; auto.
  - right; left. exists false. destruct b; simpl in *; [apply val_ninf in H|apply val_pinf in H]; auto.
  - right; right. destruct b; apply val_nan in H; auto.
  - left. destruct b; apply val_inv in H as [H1 H2]; auto.
Qed.

Lemma rel_add : forall b x x' y y', rel b x x' -> rel b y y' -> rel b (Bplus mode_NE x y) (Bplus mode_NE x' y').
Proof.
  intros b x x' y y' H1 H2. unfold rel.
  destruct (rel_cases b x x' H1) as [(F & F' & E)|[(s & -> & ->)|[-> ->]]]; destruct (rel_cases b y y' H2) as [(K & K' & E')|[(t & -> & ->)|[-> ->]]].
  - rewrite !val_add_fin by auto. rewrite E, E'. destruct b; [|reflexivity]. unfold ng. rewrite <- xround_neg. f_equal. lra.
  - destruct x; try discriminate; destruct x'; try discriminate; destruct b, t; reflexivity.
  - destruct x; try discriminate; destruct x'; try discriminate; destruct b; reflexivity.
  - destruct y; try discriminate; destruct y'; try discriminate; destruct b, s; reflexivity.
  - destruct b, s, t; reflexivity.
  - destruct b, s; reflexivity.
  - destruct y; try discriminate; destruct y'; try discriminate; destruct b; reflexivity.
  - destruct b, t; reflexivity.
  - destruct b; reflexivity.
Qed.
Lemma rel_opp : forall b x x', rel b x x' -> rel b (Bopp x) (Bopp x').
Proof.
  intros b x x' H. unfold rel. destruct (rel_cases b x x' H) as [(F & F' & E)|[(s & -> & ->)|[-> ->]]].
  - rewrite !val_fin by (rewrite is_finite_Bopp; auto). rewrite !B2R_Bopp, E. destruct b; reflexivity.
  - destruct b, s; reflexivity.
  - destruct b; reflexivity.
Qed.
Lemma rel_sub : forall b x x' y y', rel b x x' -> rel b y y' -> rel b (Bminus mode_NE x y) (Bminus mode_NE x' y').
Proof.
  intros b x x' y y' H1 H2. unfold rel.
  destruct (rel_cases b x x' H1) as [(F & F' & E)|[(s & -> & ->)|[-> ->]]]; destruct (rel_cases b y y' H2) as [(K & K' & E')|[(t & -> & ->)|[-> ->]]].
  - rewrite !val_sub_fin by auto. rewrite E, E'. destruct b; [|reflexivity]. unfold ng. rewrite <- xround_neg. f_equal. lra.
  - destruct x; try discriminate; destruct x'; try discriminate; destruct b, t; reflexivity.
  - destruct x; try discriminate; destruct x'; try discriminate; destruct b; reflexivity.
  - destruct y; try discriminate; destruct y'; try discriminate; destruct b, s; reflexivity.
  - destruct b, s, t; reflexivity.
  - destruct b, s; reflexivity.
  - destruct y; try discriminate; destruct y'; try discriminate; destruct b; reflexivity.
  - destruct b, t; reflexivity.
  - destruct b; reflexivity.
Qed.

(** finite by infinity *)
Lemma mul_fin_inf : forall (x : bf) s, is_finite x = true ->
  val (Bmult mode_NE x (B754_infinity s)) = if Req_bool (B2R x) 0 then XNaN else if xorb (Rlt_bool (B2R x) 0) s then NInf else PInf.
Proof.
  intros x s F. destruct (Req_bool_spec (B2R x) 0) as [Z|N].
  - destruct (zero_or x F Z) as [t ->]. reflexivity.
  - rewrite <- (sign_lt x F N). destruct x as [t|t| |t m e Hb]; try discriminate; [simpl in N; lra|]. destruct t, s; reflexivity.
Qed.
Lemma mul_comm_val : forall x y : bf, val (Bmult mode_NE x y) = val (Bmult mode_NE y x).
Proof.
  intros x y. destruct (is_finite x) eqn:F; destruct (is_finite y) eqn:K.
  - rewrite !val_mul_fin by auto. f_equal. lra.
  - destruct y as [|[]| |]; try discriminate; destruct x as [[]|[]| |[]]; try discriminate; reflexivity.
  - destruct x as [|[]| |]; try discriminate; destruct y as [[]|[]| |[]]; try discriminate; reflexivity.
  - destruct x as [|[]| |]; try discriminate; destruct y as [|[]| |]; try discriminate; reflexivity.
Qed.
Lemma inf_fin : forall (b c : bool) (x x' : bf) s, is_finite x = true -> is_finite x' = true -> B2R x' = (if b then - B2R x else B2R x) ->
  val (Bmult mode_NE x' (B754_infinity (xorb c s))) = ng (xorb b c) (val (Bmult mode_NE x (B754_infinity s))).
Proof.
  intros b c x x' s F F' E. rewrite !mul_fin_inf by auto. rewrite E.
  destruct b, c, s; repeat (rcase; simpl; try lra); reflexivity.
Qed.
Lemma rel_mul : forall (b c : bool) x x' y y', rel b x x' -> rel c y y' -> rel (xorb b c) (Bmult mode_NE x y) (Bmult mode_NE x' y').
Proof.
  intros b c x x' y y' H1 H2. unfold rel.
  destruct (rel_cases b x x' H1) as [(F & F' & E)|[(s & -> & ->)|[-> ->]]]; destruct (rel_cases c y y' H2) as [(K & K' & E')|[(t & -> & ->)|[-> ->]]].
  - rewrite !val_mul_fin by auto. rewrite E, E'. destruct b, c; unfold ng; simpl; try rewrite <- xround_neg; f_equal; lra.
  - apply inf_fin; auto.
  - destruct x; try discriminate; destruct x'; try discriminate; destruct b, c; reflexivity.
  - rewrite (mul_comm_val _ y'), (mul_comm_val _ y). rewrite (xorb_comm b c). apply inf_fin; auto.
  - destruct b, c, s, t; reflexivity.
  - destruct b, c, s; reflexivity.
  - destruct y; try discriminate; destruct y'; try discriminate; destruct b, c; reflexivity.
  - destruct b, c, t; reflexivity.
  - destruct b, c; reflexivity.
Qed.
(** by the same divisor: its sign matters when it is zero *)
Lemma rel_div : forall b x x' h, rel b x x' -> rel b (Bdiv mode_NE x h) (Bdiv mode_NE x' h).
Proof.
  intros b x x' h H. unfold rel.
  destruct (rel_cases b x x' H) as [(F & F' & E)|[(s & -> & ->)|[-> ->]]].
  - destruct h as [t|t| |t m e Hb].
    + destruct (Req_dec (B2R x) 0) as [Z|N].
      * destruct (zero_or x F Z) as [u ->]. destruct (zero_or x' F' ltac:(rewrite E, Z; destruct b; lra)) as [u' ->]. destruct b; reflexivity.
      * pose proof (sign_lt x F N) as S. assert (N' : B2R x' <> 0) by (rewrite E; destruct b; lra). pose proof (sign_lt x' F' N') as S'.
        rewrite E in S'.
        destruct x as [u|u| |u m e Hb]; try discriminate; [simpl in N; lra|]. destruct x' as [u'|u'| |u' m' e' Hb']; try discriminate; [simpl in N'; lra|].
        cbn [Bsign] in S, S'. assert (U : u' = xorb b u) by (rewrite S, S'; destruct b; repeat rcase; auto; lra).
        rewrite U. destruct b, u, t; reflexivity.
    + assert (Z : forall z : bf, is_finite z = true -> val (Bdiv mode_NE z (B754_infinity t)) = Fin 0) by (intros [] HF; try discriminate; reflexivity).
      rewrite !Z by auto. destruct b; simpl; f_equal; lra.
    + destruct x; try discriminate; destruct x'; try discriminate; destruct b; reflexivity.
    + assert (N : B2R (B754_finite t m e Hb : bf) <> 0) by (intros Z; apply zero_or in Z; auto; destruct Z; discriminate).
      rewrite !val_div_fin by auto. rewrite E. destruct b; [|reflexivity]. unfold ng. rewrite <- xround_neg. f_equal. unfold Rdiv. lra.
  - destruct h as [t|t| |t m e Hb]; destruct b, s; try destruct t; reflexivity.
  - destruct h; destruct b; reflexivity.
Qed.

(** *** comparisons *)
Lemma val_lt : forall x y : bf, Bltb x y = xlt (val x) (val y).
Proof.
  intros x y. destruct (is_finite x) eqn:F; destruct (is_finite y) eqn:K.
  - rewrite Bltb_correct by auto. rewrite !val_fin by auto. reflexivity.
  - rewrite (val_fin x) by auto. destruct y as [|[]| |]; try discriminate; destruct x as [[]|[]| |[]]; try discriminate; reflexivity.
  - rewrite (val_fin y) by auto. destruct x as [|[]| |]; try discriminate; destruct y as [[]|[]| |[]]; try discriminate; reflexivity.
  - destruct x as [|[]| |]; try discriminate; destruct y as [|[]| |]; try discriminate; reflexivity.
Qed.
Lemma val_le : forall x y : bf, Bleb x y = xle (val x) (val y).
Proof.
  intros x y. destruct (is_finite x) eqn:F; destruct (is_finite y) eqn:K.
  - rewrite Bleb_correct by auto. rewrite !val_fin by auto. reflexivity.
  - rewrite (val_fin x) by auto. destruct y as [|[]| |]; try discriminate; destruct x as [[]|[]| |[]]; try discriminate; reflexivity.
  - rewrite (val_fin y) by auto. destruct x as [|[]| |]; try discriminate; destruct y as [[]|[]| |[]]; try discriminate; reflexivity.
  - destruct x as [|[]| |]; try discriminate; destruct y as [|[]| |]; try discriminate; reflexivity.
Qed.
Lemma val_eq : forall x y : bf, Beqb x y = xeq (val x) (val y).
Proof.
  intros x y. rewrite Beqb_Bleb, !val_le. destruct (val x), (val y); simpl; auto. repeat rcase; auto; lra.
Qed.
Lemma val_isnan : forall x : bf, is_nan x = xisnan (val x).
Proof. intros [|[]| |]; reflexivity. Qed.
Lemma xlt_neg : forall x y, xlt (xneg x) (xneg y) = xlt y x.
Proof. intros [] []; simpl; auto. repeat rcase; auto; lra. Qed.
Lemma xle_neg : forall x y, xle (xneg x) (xneg y) = xle y x.
Proof. intros [] []; simpl; auto. repeat rcase; auto; lra. Qed.
Lemma rel_lt : forall b x x' y y', rel b x x' -> rel b y y' -> Bltb x' y' = if b then Bltb y x else Bltb x y.
Proof. unfold rel. intros b x x' y y' H1 H2. rewrite !val_lt, H1, H2. destruct b; auto. apply xlt_neg. Qed.
Lemma rel_le : forall b x x' y y', rel b x x' -> rel b y y' -> Bleb x' y' = if b then Bleb y x else Bleb x y.
Proof. unfold rel. intros b x x' y y' H1 H2. rewrite !val_le, H1, H2. destruct b; auto. apply xle_neg. Qed.
Lemma rel_eq0 : forall b x x', rel b x x' -> Beqb x' (B754_zero false) = Beqb x (B754_zero false).
Proof. unfold rel. intros b x x' H. rewrite !val_eq, H. destruct b, (val x); simpl; auto. repeat rcase; auto; lra. Qed.
Lemma rel_nan : forall b x x', rel b x x' -> is_nan x' = is_nan x.
Proof. unfold rel. intros b x x' H. rewrite !val_isnan, H. destruct b, (val x); reflexivity. Qed.

(** absolute values: the sign of a zero goes as well *)
Lemma rel_abs_eq : forall b x x', rel b x x' -> Babs x' = Babs x.
Proof.
  intros b x x' H. destruct (rel_cases b x x' H) as [(F & F' & E)|[(s & -> & ->)|[-> ->]]]; auto.
  apply B2R_Bsign_inj; try (rewrite is_finite_Babs; auto).
  - rewrite !B2R_Babs, E. destruct b; auto. apply Rabs_Ropp.
  - rewrite !Bsign_Babs; auto.
Qed.
Lemma rel_sqrt : forall x x', rel false x x' -> rel false (Bsqrt mode_NE x) (Bsqrt mode_NE x').
Proof.
  intros x x' H. unfold rel. simpl. destruct (rel_cases false x x' H) as [(F & F' & E)|[(s & -> & ->)|[-> ->]]]; [|destruct s; reflexivity|reflexivity].
  destruct (Req_dec (B2R x) 0) as [Z|N].
  - destruct (zero_or x F Z) as [u ->]. destruct (zero_or x' F' ltac:(rewrite E; auto)) as [u' ->]. reflexivity.
  - assert (X : x' = x); [|rewrite X; reflexivity]. apply B2R_Bsign_inj; auto. rewrite (sign_lt x F N). rewrite sign_lt by (auto; rewrite E; auto).
    rewrite E. reflexivity.
Qed.
Lemma rel_refl : forall x, rel false x x.
Proof. reflexivity. Qed.
Lemma rel_zero : forall b s, rel b (B754_zero s) (B754_zero s).
Proof. intros [] s; unfold rel; simpl; auto. f_equal. lra. Qed.
Lemma rel_bopp : forall x : bf, rel true x (Bopp x).
Proof.
  intros x. unfold rel. simpl. destruct (is_finite x) eqn:F.
  - rewrite !val_fin by (try rewrite is_finite_Bopp; auto). rewrite B2R_Bopp. reflexivity.
  - destruct x as [|[]| |]; try discriminate; reflexivity.
Qed.
End Value.

(** conversions *)
Lemma val_norm : forall prec emax (Hp : Prec_gt_0 prec) (Hm : Prec_lt_emax prec emax) m e s, m <> 0%Z -> s = Z.ltb m 0 ->
  val prec emax (binary_normalize prec emax Hp Hm mode_NE m e s) = xround prec emax (F2R (Float radix2 m e)).
Proof.
  intros prec emax Hp Hm m e s NM HS. pose proof (binary_normalize_correct _ _ Hp Hm mode_NE m e s) as C. cbv zeta in C. simpl round_mode in C. unfold xround.
  destruct (Rlt_bool_spec (Rabs (round radix2 (SpecFloat.fexp prec emax) ZnearestE (F2R (Float radix2 m e)))) (bpow radix2 emax)) as [H|H].
  - destruct C as (C1 & C2 & _). rewrite val_fin by auto. rewrite C1. reflexivity.
  - rewrite (over_val _ _ _ _ C). reflexivity.
Qed.
Lemma rel_conv64 : forall b x x', rel 24 128 b x x' -> rel 53 1024 b (conv64 x) (conv64 x').
Proof.
  intros b x x' H. destruct (rel_cases _ _ b x x' H) as [(F & F' & E)|[(s & -> & ->)|[-> ->]]].
  - assert (K : forall z : b32, is_finite z = true -> val 53 1024 (conv64 z) = xround 53 1024 (B2R z)).
    { intros [s|s| |s m e Hb] HF; try discriminate.
      - unfold conv64. simpl B2R. rewrite xround_0. reflexivity.
      - unfold conv64. rewrite val_norm; [reflexivity|destruct s; discriminate|destruct s; reflexivity]. }
    unfold rel. rewrite !K by auto. rewrite E. destruct b; [apply xround_neg|reflexivity].
  - destruct b, s; reflexivity.
  - destruct b; reflexivity.
Qed.
Lemma rel_conv32 : forall b x x', rel 53 1024 b x x' -> rel 24 128 b (conv32 x) (conv32 x').
Proof.
  intros b x x' H. destruct (rel_cases _ _ b x x' H) as [(F & F' & E)|[(s & -> & ->)|[-> ->]]].
  - assert (K : forall z : b64, is_finite z = true -> val 24 128 (conv32 z) = xround 24 128 (B2R z)).
    { intros [s|s| |s m e Hb] HF; try discriminate.
      - unfold conv32. simpl B2R. rewrite xround_0. reflexivity.
      - unfold conv32. rewrite val_norm; [reflexivity|destruct s; discriminate|destruct s; reflexivity]. }
    unfold rel. rewrite !K by auto. rewrite E. destruct b; [apply xround_neg|reflexivity].
  - destruct b, s; reflexivity.
  - destruct b; reflexivity.
Qed.

Section Negation.
Variables iexp iln iln1p : b64 -> b64.
Notation FI := (IF iexp iln iln1p).
Definition opp32 : b32 -> b32 -> Prop := rel 24 128 true.
Definition same32 : b32 -> b32 -> Prop := rel 24 128 false.
Definition opp64 : b64 -> b64 -> Prop := rel 53 1024 true.
Definition same64 : b64 -> b64 -> Prop := rel 53 1024 false.

Theorem neg_laws : @ScaleLaws FI true opp32 same32 opp64.
Proof.
  constructor; cbn [f32 f64 to32 to64 IF IOps32 IOps64 IOps fzero fadd fsub fmul fdiv fneg flt fle feq finf fninf fabs ftotal fisnan fcar] in *.
  - apply rel_zero.
  - intros. apply rel_add; auto.
  - intros. apply rel_sub; auto.
  - intros. apply (rel_mul _ _ _ _ true false); auto. apply rel_refl.
  - intros. apply (rel_mul _ _ _ _ false true); auto. apply rel_refl.
  - intros. apply rel_div; auto.
  - intros. apply (rel_lt _ _ true); auto.
  - intros. apply (rel_le _ _ true); auto.
  - intros. eapply rel_eq0; eauto.
  - split; reflexivity.
  - reflexivity.
  - intros x x' y y' H1 H2. rewrite (rel_abs_eq _ _ _ _ _ H1), (rel_abs_eq _ _ _ _ _ H2). reflexivity.
  - intros. apply (rel_mul _ _ _ _ true true); auto.
  - apply rel_zero.
  - reflexivity.
  - intros. apply rel_add; auto.
  - intros. apply rel_sub; auto.
  - intros. apply rel_opp; auto.
  - intros. apply (rel_mul _ _ _ _ false false); auto. apply rel_refl.
  - intros. apply rel_div; auto.
  - intros. apply (rel_lt _ _ false); auto.
  - intros. apply (rel_le _ _ false); auto.
  - intros. eapply rel_nan; eauto.
  - apply rel_zero.
  - intros. apply rel_add; auto.
  - intros. apply (rel_mul _ _ _ _ true false); auto. apply rel_refl.
  - intros. apply rel_div; auto.
  - intros. apply rel_conv64; auto.
  - intros. apply rel_conv32; auto.
Qed.

Lemma l1_neg : forall g g' l, Bleb (B754_zero false) l = true -> opp32 g g' -> opp32 (@l1_regularization FI g l) (@l1_regularization FI g' l).
Proof.
  intros g g' l HL H.
  change (opp32 (if Beqb l (B754_zero false) then g else if Bltb l g then Bminus mode_NE g l else if Bltb g (Bopp l) then Bplus mode_NE g l else B754_zero false)
    (if Beqb l (B754_zero false) then g' else if Bltb l g' then Bminus mode_NE g' l else if Bltb g' (Bopp l) then Bplus mode_NE g' l else B754_zero false)).
  destruct (Beqb l (B754_zero false)) eqn:EZ; auto.
  assert (OL : rel 24 128 true l (Bopp l)) by apply rel_bopp.
  assert (OL' : rel 24 128 true (Bopp l) l) by (unfold rel in *; rewrite OL; simpl; destruct (val 24 128 l); simpl; auto; f_equal; lra).
  rewrite (rel_lt _ _ true (Bopp l) l g g' OL' H), (rel_lt _ _ true g g' l (Bopp l) H OL).
  destruct (Bltb l g) eqn:E1.
  - assert (E2 : Bltb g (Bopp l) = false).
    { rewrite val_lt in *. rewrite val_le in HL. rewrite val_eq in EZ. unfold rel in OL. rewrite OL. simpl in *.
      destruct (val 24 128 l), (val 24 128 g); simpl in *; auto; try discriminate. revert HL E1. repeat rcase; auto; try discriminate; lra. }
    rewrite E2.
    assert (E : Bminus mode_NE g l = Bplus mode_NE g (Bopp l)) by (destruct g, l; reflexivity).
    assert (E' : rel 24 128 true (Bminus mode_NE g l) (Bplus mode_NE g' l)).
    { unfold rel. destruct (rel_cases _ _ true g g' H) as [(F & F' & X)|[(s & -> & ->)|[-> ->]]].
      - destruct (is_finite l) eqn:FL.
        + rewrite val_sub_fin, val_add_fin by auto. simpl. rewrite <- xround_neg. f_equal. rewrite X. lra.
        + destruct l as [|[]| |]; try discriminate. destruct g; try discriminate; destruct g'; try discriminate; reflexivity.
      - destruct l as [|[]| |[]]; try discriminate; destruct s; try reflexivity; try discriminate.
      - destruct l as [|[]| |[]]; discriminate. }
    exact E'.
  - destruct (Bltb g (Bopp l)) eqn:E2; [|apply rel_zero].
    unfold opp32, rel. destruct (rel_cases _ _ true g g' H) as [(F & F' & X)|[(s & -> & ->)|[-> ->]]].
    + destruct (is_finite l) eqn:FL.
      * rewrite val_sub_fin, val_add_fin by auto. simpl. rewrite <- xround_neg. f_equal. rewrite X. lra.
      * destruct l as [|[]| |]; try discriminate. destruct g; try discriminate; destruct g'; try discriminate; reflexivity.
    + destruct l as [|[]| |[]]; try discriminate; destruct s; try reflexivity; try discriminate.
    + destruct l as [|[]| |[]]; discriminate.
Qed.

Lemma weight_neg : forall l1 l2 mds g g' h, Bleb (B754_zero false) l1 = true -> Bleb (B754_zero false) mds = true -> opp32 g g' ->
  opp32 (@weight FI l1 l2 mds g h) (@weight FI l1 l2 mds g' h).
Proof.
  intros l1 l2 mds g g' h H1 H2 H. unfold weight. pose proof (l1_neg g g' l1 H1 H) as R.
  set (r := @l1_regularization FI g l1) in *. set (r' := @l1_regularization FI g' l1) in *. clearbody r r'.
  pose proof (rel_opp _ _ _ _ _ (rel_div _ _ _ _ true r r' (fadd IOps32 h l2) R)) as W.
  set (w := Bopp (Bdiv mode_NE r (fadd IOps32 h l2))) in *. set (w' := Bopp (Bdiv mode_NE r' (fadd IOps32 h l2))) in *.
  change (opp32 (if negb (Beqb mds (B754_zero false)) && Bltb mds (Babs w) then i_copysign 24 128 mds w else w)
                (if negb (Beqb mds (B754_zero false)) && Bltb mds (Babs w') then i_copysign 24 128 mds w' else w')).
  rewrite (rel_abs_eq _ _ _ _ _ W).
  destruct (negb (Beqb mds (B754_zero false)) && Bltb mds (Babs w)) eqn:C; [|exact W].
  apply andb_true_iff in C. destruct C as [_ C]. clearbody w w'.
  assert (S : Bsign w' = negb (Bsign w)).
  { destruct (rel_cases _ _ true w w' W) as [(F & F' & E)|[(s & -> & ->)|[-> ->]]].
    - assert (N : B2R w <> 0).
      { intros Z. destruct (zero_or _ _ w F Z) as [t ->]. rewrite val_lt in C. rewrite val_le in H2. simpl in *.
        destruct (val 24 128 mds); simpl in *; try discriminate. revert H2 C. repeat rcase; try discriminate; lra. }
      rewrite (sign_lt _ _ w F N), (sign_lt _ _ w' F' ltac:(rewrite E; lra)), E. repeat rcase; auto; lra.
    - destruct s; reflexivity.
    - exfalso. destruct mds as [|[]| |]; discriminate. }
  unfold i_copysign. rewrite S. destruct (Bsign w); simpl; [|apply rel_bopp].
  unfold opp32, rel. pose proof (rel_bopp 24 128 (Babs mds)) as B. unfold rel in B. rewrite B. simpl. destruct (val 24 128 (Babs mds)); simpl; auto. f_equal. lra.
Qed.

(** *** Squared loss *)
Lemma neg_fit_laws : @FitLaws FI opp32 opp64 opp64 opp64 SquaredLoss.
Proof.
  constructor.
  - intros. apply rel_add; auto.
  - intros y y' H. eapply rel_nan; eauto.
  - intros y y' s s' w H1 H2. split; [|reflexivity]. apply rel_conv32. apply (rel_mul _ _ _ _ true false); [|apply rel_refl]. apply rel_sub; auto.
Qed.

Lemma sum_rel : forall b (l l' : list b64) s s', Forall2 (rel 53 1024 b) l l' -> rel 53 1024 b s s' ->
  rel 53 1024 b (fold_left (fadd IOps64) l s) (fold_left (fadd IOps64) l' s').
Proof. intros b l l' s s' H. revert s s'. induction H; intros s s' HS; simpl; auto. apply IHForall2. apply rel_add; auto. Qed.
Lemma rel64_div_same : forall x x' t, rel 53 1024 false x x' -> rel 53 1024 false (fdiv IOps64 x t) (fdiv IOps64 x' t).
Proof. intros. apply rel_div; auto. Qed.

Lemma neg_metric_laws : forall S, @MetricLaws FI opp64 opp64 same64 S RootMeanSquaredError.
Proof.
  intros S. constructor.
  - intros y y' s s' w F1 F2. simpl. unfold root_mean_squared_error, weighted_mean, zip3.
    pose proof (F2_combine _ _ _ _ _ _ _ _ _ _ (F2_combine _ _ _ _ _ _ _ _ _ _ F1 F2) (F2_refl _ w)) as H.
    set (l := combine (combine y s) w) in *. set (l' := combine (combine y' s') w) in *.
    assert (E : map snd l' = map snd l).
    { clear -H. induction H as [|[[? ?] ?] [[? ?] ?] ? ? [? ?]]; simpl in *; subst; auto. f_equal; auto. }
    rewrite E. apply rel_sqrt. apply rel64_div_same.
    change (rel 53 1024 false (fold_left (fadd IOps64) (map (fun '(y, yhat, w) => @rmse_row FI y yhat w) l) (fzero IOps64))
      (fold_left (fadd IOps64) (map (fun '(y, yhat, w) => @rmse_row FI y yhat w) l') (fzero IOps64))).
    apply sum_rel; [|apply rel_refl].
    clear -H. induction H as [|[[a b] c] [[a' b'] c'] ? ? [[A B] C]]; simpl in *; constructor; auto. subst.
    apply (rel_mul _ _ _ _ false false); [|apply rel_refl]. apply (rel_mul _ _ _ _ true true); apply rel_sub; auto.
  - intros a a' b b' HA HB. unfold is_comparison_better. cbn [metric_maximize].
    change (fisnan f64 a') with (is_nan a'). change (fisnan f64 b') with (is_nan b').
    rewrite (rel_nan _ _ _ _ _ HA), (rel_nan _ _ _ _ _ HB).
    change (@flt (@f64 FI) b' a') with (Bltb b' a'). rewrite (rel_lt _ _ false b b' a a' HB HA). reflexivity.
Qed.

Lemma neg_init : forall y y' w, Forall2 opp64 y y' -> orel opp64 (@calc_init FI SquaredLoss y w) (@calc_init FI SquaredLoss y' w).
Proof.
  intros y y' w F. unfold calc_init, init_sums.
  assert (LN : @length (fcar (@f64 FI)) y' = @length (fcar (@f64 FI)) y) by exact (F2_len _ _ _ _ _ F). rewrite LN.
  eapply (orel_bind _ _ _ _ (fun a a' => opp64 (fst a) (fst a') /\ snd a' = snd a)).
  - eapply orel_foldM; [apply F2_refl| |split; [apply rel_zero|reflexivity]].
    intros [t n] [t' n'] i j [H1 H2] E. simpl in H1, H2. subst.
    eapply orel_bind; [apply orel_nth; exact F|]. intros u u' U. destruct (nth_error w j) as [wi|]; simpl; auto.
    split; auto. apply rel_add; auto. apply (rel_mul _ _ _ _ false true); auto. apply rel_refl.
  - intros [t n] [t' n'] [H1 H2]. simpl in *. subst. apply rel_div; auto.
Qed.

Lemma neg_splitter : forall p : @Params FI, Bleb (B754_zero false) (p_l1 p) = true -> Bleb (B754_zero false) (p_max_delta_step p) = true ->
  (forall f, free (@Splitter.get_constraint FI (splitter_of p) f)) ->
  splitter_rel (FS := FI) true opp32 same32 (splitter_of p) (splitter_of p).
Proof.
  intros p H1 H2 HF.
  assert (PR : params_rel (FS := FI) true opp32 same32 (Splitter.params (splitter_of p)) (Splitter.params (splitter_of p))).
  { constructor; try reflexivity.
    - intros g g' h H. unfold splitter_of. destruct (p_create_missing_branch p); apply weight_neg; auto.
    - intros f. specialize (HF f). unfold Splitter.get_constraint in HF. destruct HF as [E|E]; rewrite E; reflexivity. }
  unfold splitter_of in *. destruct (p_create_missing_branch p); constructor; exact PR.
Qed.

(** The whole run.  Without constraints in force and with nodes taken in order of depth. *)
Theorem neg_fit : forall (E : @Env FI) (b b' : @Booster FI) data y y' w evals evals', let p := gb_params b in
  p_objective p = SquaredLoss -> Bleb (B754_zero false) (p_l1 p) = true -> Bleb (B754_zero false) (p_max_delta_step p) = true ->
  (forall f, free (@Splitter.get_constraint FI (splitter_of p) f)) ->
  (p_create_missing_branch p = true -> p_force_children_to_bound_parent p = false) ->
  p_grow_policy p <> Tree.LossGuide ->
  (p_sample_method p = Tree.SGoss -> abs_based (e_goss E)) ->
  (evals <> None -> p_evaluation_metric p = Some RootMeanSquaredError) ->
  orel (Forall2 (eval_data_rel (FS := FI) opp64)) evals evals' -> Forall2 opp64 y y' ->
  kept_rel (FS := FI) opp32 same32 same64 p (p_l1 p) (p_gamma p) (p_max_delta_step p) (p_monotone_constraints p) b b' ->
  (p_initialize_base_score p = false -> opp64 (gb_base_score b) (gb_base_score b')) ->
  orel (fun r r' : @Booster FI * option ForustError => snd r' = snd r /\ (snd r = None ->
     booster_rel (FS := FI) opp32 same32 opp64 same64 p (p_l1 p) (p_gamma p) (p_max_delta_step p) (p_monotone_constraints p) (fst r) (fst r')))
    (fit E b data y w evals) (fit E b' data y' w evals').
Proof.
  intros E b b' data y y' w evals evals' p PO H1 H2 HF NF NP GO ME EV HT KR HB.
  assert (WU : with_units p (p_l1 p) (p_gamma p) (p_max_delta_step p) (p_monotone_constraints p) = p) by (destruct p; reflexivity).
  apply (fit_rel (FS := FI) true opp32 same32 opp64 opp64 opp64 same64 neg_laws i32_ord_laws E p); auto.
  - rewrite WU. apply neg_splitter; auto.
  - tauto.
  - rewrite PO. apply neg_fit_laws.
  - intros NE. unfold get_metric. rewrite (ME NE). apply neg_metric_laws.
  - rewrite PO. destruct (p_initialize_base_score p); auto. apply neg_init; auto.
Qed.
Theorem neg_predict : forall (b b' : @Booster FI) p shs data parallel, p_objective p = SquaredLoss ->
  booster_rel (FS := FI) opp32 same32 opp64 same64 p (p_l1 p) (p_gamma p) (p_max_delta_step p) (p_monotone_constraints p) b b' ->
  orel (Forall2 opp64) (predict shs b data parallel) (predict shs b' data parallel).
Proof.
  intros b b' p shs data parallel PO BR. pose proof neg_fit_laws as FL. rewrite <- PO in FL.
  eapply (predict_rel (FS := FI) true opp32 same32 opp64 opp64 opp64 same64 neg_laws _ _ _ _ _ FL). exact BR.
Qed.
End Negation.
