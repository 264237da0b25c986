(** Monotonicity laws shared by the IEEE and the exact instance.  "a is not above b" is written
    [flt b a = false]: it also holds when one of the two is NaN. *)
From Coq Require Import Reals Lra Lia ZArith List Bool.
From Flocq Require Import Core IEEE754.BinarySingleNaN.
From Verif Require Import Float FloatX FloatI FloatLaws.
Import ListNotations.
Local Open Scope R_scope.

Definition fmid (F : FloatOps) (a b : fcar F) : fcar F := fdiv F (fadd F a b) (lit F 2).

Record MonoLaws (F : FloatOps) (tame : fcar F -> Prop) : Prop := mkMonoLaws {
  ml_add : forall a b u v, flt F b a = false -> flt F v u = false -> flt F (fadd F b v) (fadd F a u) = false;
  ml_mul : forall a b c, fle F (fzero F) c = true -> flt F b a = false -> flt F (fmul F b c) (fmul F a c) = false;
  ml_zero : fle F (fzero F) (fadd F (fzero F) (fzero F)) = true;
  ml_inf : forall x, flt F (finf F) x = false;
  ml_ninf : forall x, flt F x (fninf F) = false;
  ml_inf_nan : fisnan F (finf F) = false /\ fisnan F (fninf F) = false;
  ml_tame_nan : forall a, tame a -> fisnan F a = false;
  ml_mid_nan : forall a b, tame a -> tame b -> fisnan F (fmid F a b) = false;
  ml_mid_lo : forall a b l, tame a -> tame b -> flt F a l = false -> flt F b l = false -> flt F (fmid F a b) l = false;
  ml_mid_hi : forall a b u, tame a -> tame b -> flt F u a = false -> flt F u b = false -> flt F u (fmid F a b) = false;
  (** a value above -inf has summands above -inf *)
  ml_ok_add : forall a b, flt F (fninf F) (fadd F a b) = true -> flt F (fninf F) a = true /\ flt F (fninf F) b = true;
  ml_ok_sub : forall a b, flt F (fninf F) (fsub F a b) = true -> flt F (fninf F) a = true /\ fisnan F b = false;
  ml_gain : forall x d w, flt F (fninf F) (fneg F (fadd F x (fmul F d (fmul F w w)))) = true -> flt F d (fzero F) = false -> tame w;
  ml_gain_nan : forall x d w, flt F (fninf F) (fneg F (fadd F x (fmul F d (fmul F w w)))) = true -> fisnan F w = false
}.

(** |x| is not above m *)
Definition bounded (F : FloatOps) (m x : fcar F) : Prop := flt F m (fabs F x) = false.

Record BoundLaws (F : FloatOps) (m : fcar F) : Prop := mkBoundLaws {
  bl_copysign : forall w, bounded F m (fcopysign F m w);
  bl_mid : forall a b, bounded F m a -> bounded F m b -> bounded F m (fmid F a b);
  bl_mul : forall c w, fle F (fzero F) c = true -> bounded F m w -> flt F (fmul F m c) (fabs F (fmul F w c)) = false
}.

(** *** Exact *)
Definition x_tame (x : xr) : Prop := xfin x.

Ltac xfinish := simpl in *; auto; try discriminate; repeat (rcase; simpl in *); auto; try discriminate; try lra; try nra.

Lemma x_mono_laws : MonoLaws XOps x_tame.
Proof.
  constructor; cbn [fcar flt fle fadd fmul fzero finf fninf fisnan fsub fneg XOps].
  - intros [a| | |] [b| | |] [u| | |] [v| | |]; xfinish.
  - intros [a| | |] [b| | |] [c| | |]; unfold xmul, xsgn; xfinish.
  - xfinish.
  - intros []; reflexivity.
  - intros []; reflexivity.
  - auto.
  - intros a [r ->]; reflexivity.
  - intros a b [x ->] [y ->]. unfold fmid, lit. simpl. rewrite Req_bool_false by lra. reflexivity.
  - intros a b l [x ->] [y ->]. unfold fmid, lit. simpl. rewrite Req_bool_false by lra. destruct l; simpl; auto. repeat rcase; auto; try discriminate; lra.
  - intros a b l [x ->] [y ->]. unfold fmid, lit. simpl. rewrite Req_bool_false by lra. destruct l; simpl; auto. repeat rcase; auto; try discriminate; lra.
  - intros [] []; simpl; auto; discriminate.
  - intros [] []; simpl; auto; discriminate.
  - intros x d w. destruct w as [w| | |]; [eexists; reflexivity| | |]; destruct d as [d| | |], x as [x| | |]; unfold xmul, xsgn; xfinish.
  - intros x d [w| | |]; auto. destruct d as [d| | |], x as [x| | |]; discriminate.
Qed.

Lemma x_bound_laws : forall m, 0 < m -> BoundLaws XOps (Fin m).
Proof.
  intros m Hm. constructor; unfold bounded; cbn [fcar flt fle fadd fmul fzero fabs fcopysign XOps].
  - intros w. unfold xcopysign. destruct (xneg_sign w); simpl; rewrite ?Rabs_Ropp, ?(Rabs_pos_eq m), ?(Rabs_pos_eq m) by lra; rcase; auto; lra.
  - intros [a| | |] [b| | |]; unfold fmid, lit; simpl; auto; try discriminate; rewrite Req_bool_false by lra; simpl; auto.
    intros H1 H2. repeat rcase; auto. exfalso.
    match goal with H : m < Rabs ((a + b) / _) |- _ => revert H end. intros H.
    assert (Rabs ((a + b) / (1 + 1)) <= m); [|lra]. apply Rabs_le. 
    assert (-m <= a <= m) by (apply Rabs_le_inv; lra). assert (-m <= b <= m) by (apply Rabs_le_inv; lra). lra.
  - intros c w Hc Hw. destruct c as [c| | |]; try discriminate; simpl in Hc; unfold xmul, xsgn.
    + destruct w as [w| | |]; simpl in *; auto; try discriminate. rewrite Rabs_mult. repeat rcase; auto. exfalso.
      rewrite (Rabs_pos_eq c) in * by lra. nra.
    + rewrite Rlt_bool_true by lra. destruct (match w with Fin b => _ | PInf => _ | NInf => _ | XNaN => _ end); reflexivity.
Qed.

(** *** IEEE *)
Section Format.
Variables prec emax : Z.
Context (Hprec : Prec_gt_0 prec) (Hmax : Prec_lt_emax prec emax).
Hypothesis Hem : (4 <= emax)%Z.
Notation bf := (binary_float prec emax).
Notation IO := (IOps prec emax Hprec Hmax).
Notation rnd := (round radix2 (SpecFloat.fexp prec emax) ZnearestE).
Notation big := (bpow radix2 emax).

Local Instance vfexp : Valid_exp (SpecFloat.fexp prec emax) := fexp_correct prec emax Hprec.
Local Instance vrnd : Valid_rnd ZnearestE := valid_rnd_N _.

(** the correctly rounded value, with overflow *)
Lemma ext_top : forall e, ext_le e EPInf.
Proof. intros []; exact I. Qed.
Definition Rx (r : R) : ext := if Rlt_bool (Rabs (rnd r)) big then EFin (rnd r) else if Rlt_bool r 0 then ENInf else EPInf.

Lemma big_pos : 0 < big.
Proof. apply bpow_gt_0. Qed.
Lemma rnd_le : forall a b, a <= b -> rnd a <= rnd b.
Proof. intros. apply round_le; auto; typeclasses eauto. Qed.
Lemma rnd_0 : rnd 0 = 0.
Proof. apply round_0. typeclasses eauto. Qed.
Lemma rnd_sign : forall r, (0 <= r -> 0 <= rnd r) /\ (r <= 0 -> rnd r <= 0).
Proof. intros r. split; intros; rewrite <- rnd_0; apply rnd_le; lra. Qed.

Lemma Rx_cases : forall r, (Rabs (rnd r) < big /\ Rx r = EFin (rnd r)) \/ (r < 0 /\ rnd r <= - big /\ Rx r = ENInf) \/ (0 < r /\ big <= rnd r /\ Rx r = EPInf).
Proof.
  intros r. unfold Rx. pose proof big_pos as BP. destruct (Rlt_bool_spec (Rabs (rnd r)) big) as [H|H]; [left; auto|right].
  destruct (Rlt_bool_spec r 0) as [Hn|Hn]; [left|right].
  - destruct (rnd_sign r) as [_ S]. specialize (S ltac:(lra)). rewrite Rabs_left1 in H by lra. repeat split; auto. lra.
  - destruct (rnd_sign r) as [S _]. specialize (S Hn). rewrite Rabs_pos_eq in H by lra. repeat split; auto. 
    destruct Hn as [Hn|Hn]; auto. subst r. rewrite rnd_0 in H. lra.
Qed.

Lemma Rx_mono : forall a b, a <= b -> ext_le (Rx a) (Rx b).
Proof.
  intros a b H. pose proof (rnd_le _ _ H) as HR. pose proof big_pos.
  destruct (Rx_cases a) as [[A ->]|[(A & A' & ->)|(A & A' & ->)]]; destruct (Rx_cases b) as [[B ->]|[(B & B' & ->)|(B & B' & ->)]]; simpl; auto;
    try (apply Rabs_def2 in A); try (apply Rabs_def2 in B); lra.
Qed.

Lemma ext_of_finite : forall x : bf, is_finite x = true -> to_ext prec emax x = EFin (B2R x).
Proof. intros [|[]| |] H; try discriminate; auto. Qed.
Lemma ext_of_SF_inf : forall (x : bf) s, B2SF x = SpecFloat.S754_infinity s -> x = B754_infinity s.
Proof. intros x s H. destruct x; simpl in H; try discriminate. congruence. Qed.

Lemma sign_le : forall x : bf, is_finite x = true -> (Bsign x = true -> B2R x <= 0) /\ (Bsign x = false -> 0 <= B2R x).
Proof.
  intros [[]|[]| |[] m e Hb] F; simpl in *; try discriminate; split; intros; try discriminate; try lra.
  - apply F2R_le_0. simpl. lia.
  - apply F2R_ge_0. simpl. lia.
Qed.

Lemma over_sign : forall r (s : bool), big <= Rabs (rnd r) -> (s = true -> r <= 0) -> (s = false -> 0 <= r) ->
  Rx r = if s then ENInf else EPInf.
Proof.
  intros r s H S1 S2. pose proof big_pos. destruct (Rx_cases r) as [[A E]|[(A & A' & E)|(A & A' & E)]]; [lra| |];
    rewrite E; destruct s; auto; [specialize (S2 eq_refl); lra|specialize (S1 eq_refl); lra].
Qed.

Lemma finish_op : forall (z : bf) r s,
  (if Rlt_bool (Rabs (rnd r)) big then B2R z = rnd r /\ is_finite z = true else B2SF z = SpecFloat.S754_infinity s) ->
  (s = true -> r <= 0) -> (s = false -> 0 <= r) -> is_nan z = false /\ to_ext prec emax z = Rx r.
Proof.
  intros z r s H S1 S2. destruct (Rlt_bool_spec (Rabs (rnd r)) big) as [L|L].
  - destruct H as [H1 H2]. split; [destruct z; auto; discriminate|]. rewrite ext_of_finite, H1 by auto. unfold Rx. rewrite Rlt_bool_true by auto. reflexivity.
  - apply ext_of_SF_inf in H. subst z. split; auto. rewrite (over_sign r s L S1 S2). destruct s; reflexivity.
Qed.

Lemma plus_ext : forall x y : bf, is_finite x = true -> is_finite y = true ->
  is_nan (Bplus mode_NE x y) = false /\ to_ext prec emax (Bplus mode_NE x y) = Rx (B2R x + B2R y).
Proof.
  intros x y Fx Fy. pose proof (Bplus_correct _ _ Hprec Hmax mode_NE x y Fx Fy) as C. simpl round_mode in C.
  destruct (sign_le x Fx) as [X1 X2]. destruct (sign_le y Fy) as [Y1 Y2].
  destruct (Rlt_bool_spec (Rabs (rnd (B2R x + B2R y))) big) as [L|L].
  - destruct C as (C1 & C2 & _). split; [destruct (Bplus mode_NE x y); auto; discriminate|]. rewrite ext_of_finite, C1 by auto.
    unfold Rx. rewrite Rlt_bool_true by auto. auto.
  - destruct C as (C1 & C2). simpl in C1. apply ext_of_SF_inf in C1. rewrite C1. split; auto.
    assert (S1 : Bsign x = true -> B2R x + B2R y <= 0).
    { intros E. rewrite E in C2. specialize (X1 E). specialize (Y1 (eq_sym C2)). lra. }
    assert (S2 : Bsign x = false -> 0 <= B2R x + B2R y).
    { intros E. rewrite E in C2. specialize (X2 E). specialize (Y2 (eq_sym C2)). lra. }
    rewrite (over_sign _ (Bsign x) L S1 S2). destruct (Bsign x); reflexivity.
Qed.

Lemma mult_ext : forall x y : bf, is_finite x = true -> is_finite y = true ->
  is_nan (Bmult mode_NE x y) = false /\ to_ext prec emax (Bmult mode_NE x y) = Rx (B2R x * B2R y).
Proof.
  intros x y Fx Fy. pose proof (Bmult_correct _ _ Hprec Hmax mode_NE x y) as C. simpl round_mode in C. rewrite Fx, Fy in C. simpl andb in C.
  destruct (sign_le x Fx) as [X1 X2]. destruct (sign_le y Fy) as [Y1 Y2].
  apply (finish_op _ _ (xorb (Bsign x) (Bsign y))).
  - destruct (Rlt_bool_spec (Rabs (rnd (B2R x * B2R y))) big); [tauto|exact C].
  - destruct (Bsign x), (Bsign y); simpl; intros; try discriminate; [specialize (X1 eq_refl); specialize (Y2 eq_refl)|specialize (X2 eq_refl); specialize (Y1 eq_refl)]; nra.
  - destruct (Bsign x), (Bsign y); simpl; intros; try discriminate; [specialize (X1 eq_refl); specialize (Y1 eq_refl)|specialize (X2 eq_refl); specialize (Y2 eq_refl)]; nra.
Qed.

Lemma div_ext : forall x y : bf, is_finite x = true -> is_finite y = true -> 0 < B2R y ->
  is_nan (Bdiv mode_NE x y) = false /\ to_ext prec emax (Bdiv mode_NE x y) = Rx (B2R x / B2R y).
Proof.
  intros x y Fx Fy Py. pose proof (Bdiv_correct _ _ Hprec Hmax mode_NE x y ltac:(lra)) as C. simpl round_mode in C.
  destruct (sign_le x Fx) as [X1 X2]. rewrite (Bsign_nonneg prec emax y Fy Py), Bool.xorb_false_r in C.
  apply (finish_op _ _ (Bsign x)).
  - destruct (Rlt_bool_spec (Rabs (rnd (B2R x / B2R y))) big); [|exact C]. destruct C as (C1 & C2 & _). split; congruence.
  - intros E. specialize (X1 E). unfold Rdiv. assert (0 < / B2R y) by (apply Rinv_0_lt_compat; auto). nra.
  - intros E. specialize (X2 E). unfold Rdiv. assert (0 < / B2R y) by (apply Rinv_0_lt_compat; auto). nra.
Qed.

Lemma Bltb_ext : forall x y : bf, (Bltb y x = false <-> is_nan x = true \/ is_nan y = true \/ ext_le (to_ext prec emax x) (to_ext prec emax y)).
Proof.
  intros x y. destruct (is_nan x) eqn:Nx.
  { split; auto. intros _. destruct x; try discriminate. destruct y as [|[]| |]; reflexivity. }
  destruct (is_nan y) eqn:Ny.
  { split; auto. intros _. destruct y; try discriminate. reflexivity. }
  rewrite Bltb_Bleb, negb_false_iff, Bleb_spec by auto. split; auto. intros [|[|]]; auto; discriminate.
Qed.

Lemma finite_nan : forall x : bf, is_finite x = true -> is_nan x = false.
Proof. intros []; auto; discriminate. Qed.

Lemma i_add_mono : forall a b u v : bf, Bltb b a = false -> Bltb v u = false -> Bltb (Bplus mode_NE b v) (Bplus mode_NE a u) = false.
Proof.
  intros a b u v H1 H2. apply Bltb_ext in H1, H2. apply Bltb_ext.
  destruct (is_nan a) eqn:Na; [left; destruct a; try discriminate; reflexivity|].
  destruct (is_nan u) eqn:Nu; [left; destruct u; try discriminate; destruct a as [|[]| |]; reflexivity|].
  destruct (is_nan b) eqn:Nb; [right; left; destruct b; try discriminate; reflexivity|].
  destruct (is_nan v) eqn:Nv; [right; left; destruct v; try discriminate; destruct b as [|[]| |]; reflexivity|].
  destruct H1 as [|[|H1]]; try discriminate. destruct H2 as [|[|H2]]; try discriminate.
  destruct (is_finite a) eqn:Fa; destruct (is_finite b) eqn:Fb; destruct (is_finite u) eqn:Fu; destruct (is_finite v) eqn:Fv.
  1: { right. right. rewrite !ext_of_finite in H1, H2 by auto. simpl in H1, H2.
    destruct (plus_ext a u Fa Fu) as [_ ->]. destruct (plus_ext b v Fb Fv) as [_ ->]. apply Rx_mono. lra. }
  all: destruct a as [sa|[]| |sa ma ea Ba]; try discriminate; destruct b as [sb|[]| |sb mb eb Bb]; try discriminate;
    destruct u as [su|[]| |su mu eu Bu]; try discriminate; destruct v as [sv|[]| |sv mv ev Bv]; try discriminate; simpl in H1, H2; try tauto;
    first [left; reflexivity | right; left; reflexivity | right; right; simpl; exact I
      | right; right; match goal with |- ext_le _ (to_ext _ _ (Bplus _ (B754_infinity false) _)) => simpl; apply ext_top
          | |- ext_le _ (to_ext _ _ (Bplus _ _ (B754_infinity false))) => simpl; apply ext_top
          | _ => idtac end].
Qed.

Lemma pos_finite : forall m e (H : SpecFloat.bounded prec emax m e = true), 0 < B2R (B754_finite false m e H).
Proof. intros. simpl. apply F2R_gt_0. simpl. lia. Qed.
Lemma neg_finite : forall m e (H : SpecFloat.bounded prec emax m e = true), B2R (B754_finite true m e H) < 0.
Proof. intros. simpl. apply F2R_lt_0. simpl. lia. Qed.

Lemma i_mul_mono : forall a b c : bf, Bleb (B754_zero false) c = true -> Bltb b a = false -> Bltb (Bmult mode_NE b c) (Bmult mode_NE a c) = false.
Proof.
  intros a b c Hc H. apply Bltb_ext in H. apply Bltb_ext.
  destruct (is_nan a) eqn:Na; [left; destruct a; try discriminate; reflexivity|].
  destruct (is_nan b) eqn:Nb; [right; left; destruct b; try discriminate; reflexivity|].
  destruct H as [|[|H]]; try discriminate.
  destruct (nonneg_cases prec emax c Hc) as [->|[Fc Rc]].
  - destruct a as [sa|[]| |sa ma ea Ba]; try discriminate; destruct b as [sb|[]| |sb mb eb Bb]; try discriminate; simpl in H; try tauto;
      try (left; reflexivity); try (right; left; reflexivity); try (right; right; simpl; exact I).
    + destruct sa; right; right; simpl; auto.
    + destruct sa, sb; right; right; try (simpl; exact I).
      pose proof (pos_finite ma ea Ba). pose proof (neg_finite mb eb Bb). simpl in *. lra.
  - destruct (is_finite a) eqn:Fa; destruct (is_finite b) eqn:Fb.
    + right. right. rewrite !ext_of_finite in H by auto. simpl in H. destruct (mult_ext a c Fa Fc) as [_ ->]. destruct (mult_ext b c Fb Fc) as [_ ->].
      apply Rx_mono. nra.
    + destruct b as [sb|[]| |sb mb eb Bb]; try discriminate.
      * exfalso. rewrite (ext_of_finite a Fa) in H. exact H.
      * destruct c as [sc|[]| |[] mc ec Bc]; try discriminate; [right; left; reflexivity|right; right; simpl; apply ext_top].
    + destruct a as [sa|[]| |sa ma ea Ba]; try discriminate.
      * destruct c as [sc|[]| |[] mc ec Bc]; try discriminate; [left; reflexivity|right; right; simpl; exact I].
      * exfalso. rewrite (ext_of_finite b Fb) in H. exact H.
    + destruct a as [sa|[]| |sa ma ea Ba]; try discriminate; destruct b as [sb|[]| |sb mb eb Bb]; try discriminate; simpl in H; try tauto;
        destruct c as [sc|[]| |[] mc ec Bc]; try discriminate; try (left; reflexivity); right; right; simpl; exact I.
Qed.

(** *** Numbers whose sum cannot overflow *)
Definition i_tame (x : bf) : Prop := is_finite x = true /\ Rabs (B2R x) <= bpow radix2 (emax - 2).

Lemma i_two : is_finite (i_ofZ prec emax Hprec Hmax (Z.of_nat 2)) = true /\ B2R (i_ofZ prec emax Hprec Hmax (Z.of_nat 2)) = 2.
Proof.
  pose proof (binary_normalize_correct prec emax Hprec Hmax mode_NE (Z.of_nat 2) 0 false) as C. cbv zeta in C. simpl round_mode in C.
  assert (V : F2R (Float radix2 (Z.of_nat 2) 0) = bpow radix2 1) by (unfold F2R; simpl; lra). rewrite V in C.
  assert (G : rnd (bpow radix2 1) = bpow radix2 1).
  { apply round_generic; [typeclasses eauto|]. apply generic_format_bpow'; [typeclasses eauto|].
    unfold SpecFloat.fexp, SpecFloat.emin, Prec_gt_0, Prec_lt_emax in *. lia. }
  rewrite G in C. rewrite Rlt_bool_true in C.
  - destruct C as (C1 & C2 & _). unfold i_ofZ. split; [exact C2|rewrite C1; reflexivity].
  - rewrite Rabs_pos_eq by (apply bpow_ge_0). apply bpow_lt. lia.
Qed.

Lemma double_format : forall x : bf, is_finite x = true -> generic_format radix2 (SpecFloat.fexp prec emax) (2 * B2R x).
Proof.
  intros x Fx. pose proof (generic_format_B2R prec emax x) as G.
  assert (FL : FLT_format radix2 (SpecFloat.emin prec emax) prec (B2R x)).
  { apply FLT_format_generic; auto. }
  destruct FL as [[m e] E1 E2 E3]. apply (generic_format_FLT radix2 (SpecFloat.emin prec emax) prec).
  exists (Float radix2 m (e + 1)); auto.
  - rewrite E1. unfold F2R. simpl. rewrite bpow_plus. simpl. lra.
  - simpl in *. lia.
Qed.

Lemma bpow_format : forall e, (SpecFloat.emin prec emax <= e)%Z -> generic_format radix2 (SpecFloat.fexp prec emax) (bpow radix2 e).
Proof.
  intros e He. apply generic_format_bpow'; [typeclasses eauto|]. unfold SpecFloat.fexp, Prec_gt_0 in *. lia.
Qed.

Lemma mid_R : forall a b : bf, i_tame a -> i_tame b ->
  is_finite (fmid IO a b) = true /\ B2R (fmid IO a b) = rnd (rnd (B2R a + B2R b) / 2).
Proof.
  intros a b [Fa Ta] [Fb Tb]. unfold fmid, lit. simpl. destruct i_two as [F2 R2]. set (two := i_ofZ prec emax Hprec Hmax (Z.of_nat 2)) in *.
  assert (EM : (SpecFloat.emin prec emax <= emax - 2)%Z) by (unfold SpecFloat.emin, Prec_gt_0, Prec_lt_emax in *; lia).
  assert (B2 : bpow radix2 (emax - 2) + bpow radix2 (emax - 2) = bpow radix2 (emax - 1)).
  { replace (emax - 1)%Z with (emax - 2 + 1)%Z by lia. rewrite bpow_plus. simpl. lra. }
  assert (B1 : bpow radix2 (emax - 1) < big) by (apply bpow_lt; lia).
  assert (S : Rabs (rnd (B2R a + B2R b)) <= bpow radix2 (emax - 1)).
  { apply abs_round_le_generic; [typeclasses eauto|typeclasses eauto|apply bpow_format; lia|]. rewrite <- B2. eapply Rle_trans; [apply Rabs_triang|lra]. }
  pose proof (Bplus_correct _ _ Hprec Hmax mode_NE a b Fa Fb) as C. simpl round_mode in C. rewrite Rlt_bool_true in C by lra.
  destruct C as (C1 & C2 & _).
  pose proof (Bdiv_correct _ _ Hprec Hmax mode_NE (Bplus mode_NE a b) two ltac:(lra)) as D. simpl round_mode in D. rewrite R2, C1 in D.
  rewrite Rlt_bool_true in D.
  - destruct D as (D1 & D2 & _). split; [exact (eq_trans D2 C2)|exact D1].
  - assert (Rabs (rnd (rnd (B2R a + B2R b) / 2)) <= bpow radix2 (emax - 1)); [|lra].
    apply abs_round_le_generic; [typeclasses eauto|typeclasses eauto|apply bpow_format; lia|].
    unfold Rdiv. rewrite Rabs_mult. rewrite (Rabs_pos_eq (/ 2)) by lra. pose proof (bpow_gt_0 radix2 (emax - 1)). lra.
Qed.

Lemma rnd_ge : forall x r, generic_format radix2 (SpecFloat.fexp prec emax) x -> x <= r -> x <= rnd r.
Proof. intros. apply round_ge_generic; auto; typeclasses eauto. Qed.
Lemma rnd_le_gen : forall x r, generic_format radix2 (SpecFloat.fexp prec emax) x -> r <= x -> rnd r <= x.
Proof. intros. apply round_le_generic; auto; typeclasses eauto. Qed.

Lemma i_mid_lo : forall a b l : bf, i_tame a -> i_tame b -> Bltb a l = false -> Bltb b l = false -> Bltb (fmid IO a b) l = false.
Proof.
  intros a b l Ta Tb Ha Hb. destruct (mid_R a b Ta Tb) as [FM RM]. destruct Ta as [Fa _], Tb as [Fb _].
  apply Bltb_ext in Ha, Hb. apply Bltb_ext. rewrite (finite_nan _ Fa) in Ha. rewrite (finite_nan _ Fb) in Hb. rewrite (ext_of_finite _ Fa) in Ha. rewrite (ext_of_finite _ Fb) in Hb.
  destruct (is_nan l) eqn:Nl; auto. destruct Ha as [|[|Ha]]; try discriminate. destruct Hb as [|[|Hb]]; try discriminate.
  right. right. rewrite (ext_of_finite _ FM). destruct (is_finite l) eqn:Fl.
  - rewrite (ext_of_finite l Fl) in *. cbn [ext_le] in *. rewrite RM. apply rnd_ge; [apply generic_format_B2R|].
    assert (2 * B2R l <= rnd (B2R a + B2R b)); [|lra]. apply rnd_ge; [apply double_format; auto|lra].
  - destruct l as [|[]| |]; try discriminate; simpl in *; auto.
Qed.

Lemma i_mid_hi : forall a b l : bf, i_tame a -> i_tame b -> Bltb l a = false -> Bltb l b = false -> Bltb l (fmid IO a b) = false.
Proof.
  intros a b l Ta Tb Ha Hb. destruct (mid_R a b Ta Tb) as [FM RM]. destruct Ta as [Fa _], Tb as [Fb _].
  apply Bltb_ext in Ha, Hb. apply Bltb_ext. rewrite (finite_nan _ Fa) in Ha. rewrite (finite_nan _ Fb) in Hb. rewrite (ext_of_finite _ Fa) in Ha. rewrite (ext_of_finite _ Fb) in Hb.
  destruct (is_nan l) eqn:Nl; auto. destruct Ha as [|[|Ha]]; try discriminate. destruct Hb as [|[|Hb]]; try discriminate.
  right. right. rewrite (ext_of_finite _ FM). destruct (is_finite l) eqn:Fl.
  - rewrite (ext_of_finite l Fl) in *. cbn [ext_le] in *. rewrite RM. apply rnd_le_gen; [apply generic_format_B2R|].
    assert (rnd (B2R a + B2R b) <= 2 * B2R l); [|lra]. apply rnd_le_gen; [apply double_format; auto|lra].
  - destruct l as [|[]| |]; try discriminate; simpl in *; auto.
Qed.

Lemma ok_spec : forall x : bf, Bltb (B754_infinity true) x = true <-> is_nan x = false /\ x <> B754_infinity true.
Proof. intros [|[]| |]; simpl; split; intros; try discriminate; try tauto; try (split; [auto|discriminate]); destruct H; congruence. Qed.

Lemma i_ok_add : forall a b : bf, Bltb (B754_infinity true) (Bplus mode_NE a b) = true ->
  Bltb (B754_infinity true) a = true /\ Bltb (B754_infinity true) b = true.
Proof.
  intros a b H. destruct a as [|[]| |]; destruct b as [|[]| |]; try discriminate; auto.
Qed.
Lemma i_ok_sub : forall a b : bf, Bltb (B754_infinity true) (Bminus mode_NE a b) = true ->
  Bltb (B754_infinity true) a = true /\ is_nan b = false.
Proof.
  intros a b H. destruct a as [|[]| |]; destruct b as [|[]| |]; try discriminate; auto.
Qed.

Lemma square_big : forall w : bf, is_nan w = false -> ~ i_tame w -> Bmult mode_NE w w = B754_infinity false.
Proof.
  intros w Nw HT. destruct (is_finite w) eqn:Fw.
  - assert (L : bpow radix2 (emax - 2) < Rabs (B2R w)).
    { destruct (Rle_or_lt (Rabs (B2R w)) (bpow radix2 (emax - 2))); auto. exfalso. apply HT. split; auto. }
    pose proof (Bmult_correct _ _ Hprec Hmax mode_NE w w) as C. simpl round_mode in C. rewrite Rlt_bool_false in C.
    + apply ext_of_SF_inf. rewrite Bool.xorb_nilpotent in C. exact C.
    + eapply Rle_trans; [|apply Rle_abs]. 
      assert (bpow radix2 emax <= B2R w * B2R w).
      { rewrite <- (Rabs_pos_eq (B2R w * B2R w)) by nra. rewrite Rabs_mult.
        apply Rle_trans with (bpow radix2 (emax - 2) * bpow radix2 (emax - 2)).
        - rewrite <- bpow_plus. apply bpow_le. lia.
        - pose proof (bpow_gt_0 radix2 (emax - 2)). nra. }
      apply rnd_ge; auto. apply bpow_format. unfold SpecFloat.emin, Prec_gt_0, Prec_lt_emax in *. lia.
  - destruct w as [|[]| |]; try discriminate; reflexivity.
Qed.

Lemma i_gain_tame : forall x d w : bf, Bltb (B754_infinity true) (Bopp (Bplus mode_NE x (Bmult mode_NE d (Bmult mode_NE w w)))) = true ->
  Bltb d (B754_zero false) = false -> i_tame w.
Proof.
  intros x d w H Hd. destruct (is_nan w) eqn:Nw.
  { destruct w; try discriminate. destruct d as [|[]| |]; destruct x as [|[]| |]; discriminate. }
  destruct (is_finite w && Rle_bool (Rabs (B2R w)) (bpow radix2 (emax - 2)))%bool eqn:E.
  { apply andb_true_iff in E. destruct E as [E1 E2]. split; auto. destruct (Rle_bool_spec (Rabs (B2R w)) (bpow radix2 (emax - 2))); auto; discriminate. }
  rewrite (square_big w Nw) in H.
  - exfalso. destruct d as [|[]| |[] md ed Bd]; destruct x as [|[]| |]; try discriminate H; try discriminate Hd.
  - intros [F L]. rewrite F, Rle_bool_true in E by auto. discriminate.
Qed.

Lemma i_mono_laws : MonoLaws IO i_tame.
Proof.
  constructor; cbn [fcar flt fle fadd fmul fzero finf fninf fisnan fsub fneg IOps].
  - apply i_add_mono.
  - apply i_mul_mono.
  - reflexivity.
  - intros [|[]| |]; reflexivity.
  - intros [|[]| |]; reflexivity.
  - auto.
  - intros a [F _]. apply finite_nan; auto.
  - intros a b Ta Tb. apply finite_nan. apply mid_R; auto.
  - apply i_mid_lo.
  - apply i_mid_hi.
  - apply i_ok_add.
  - apply i_ok_sub.
  - apply i_gain_tame.
  - intros x d w. destruct w as [|[]| |]; auto. destruct d as [|[]| |], x as [|[]| |]; discriminate.
Qed.

(** *** Bounds *)
Lemma bounded_cases : forall m x : bf, i_tame m -> bounded IO m x -> is_nan x = true \/ (i_tame x /\ Rabs (B2R x) <= B2R m).
Proof.
  intros m x [Fm Tm] H. unfold bounded in H. simpl in H. destruct (is_nan x) eqn:Nx; auto. right.
  destruct (is_finite x) eqn:Fx.
  - assert (FA : is_finite (Babs x) = true) by (rewrite is_finite_Babs; auto).
    rewrite Bltb_correct in H by auto. rewrite B2R_Babs in H. destruct (Rlt_bool_spec (B2R m) (Rabs (B2R x))) as [|L]; try discriminate.
    split; auto. split; auto. pose proof (Rle_abs (B2R m)). lra.
  - destruct x as [|[]| |]; try discriminate; destruct m as [|[]| |]; discriminate.
Qed.
Lemma bounded_intro : forall m x : bf, is_finite m = true -> is_nan x = true \/ (is_finite x = true /\ Rabs (B2R x) <= B2R m) -> bounded IO m x.
Proof.
  intros m x Fm [N|[Fx L]]; unfold bounded; simpl.
  - destruct x; try discriminate. destruct m as [|[]| |]; reflexivity.
  - rewrite Bltb_correct by (rewrite ?is_finite_Babs; auto). rewrite B2R_Babs. apply Rlt_bool_false. lra.
Qed.

Lemma i_bound_laws : forall m : bf, i_tame m -> 0 < B2R m -> BoundLaws IO m.
Proof.
  intros m Tm Pm. destruct Tm as [Fm Lm]. assert (Tm : i_tame m) by (split; auto). constructor; cbn [fcar fle fadd fmul fzero fabs fcopysign IOps].
  - intros w. apply bounded_intro; auto. right. unfold i_copysign.
    destruct (Bsign w); rewrite ?is_finite_Bopp, ?B2R_Bopp, ?is_finite_Babs, ?B2R_Babs, ?Rabs_Ropp, ?Rabs_Rabsolu; split; auto; rewrite Rabs_pos_eq by lra; lra.
  - intros a b Ha Hb. destruct (bounded_cases m a Tm Ha) as [Na|[Ta La]].
    { apply bounded_intro; auto. left. destruct a; try discriminate. reflexivity. }
    destruct (bounded_cases m b Tm Hb) as [Nb|[Tb Lb]].
    { apply bounded_intro; auto. left. destruct b; try discriminate. destruct a as [|[]| |]; reflexivity. }
    destruct (mid_R a b Ta Tb) as [FM RM]. apply bounded_intro; auto. right. split; auto. rewrite RM.
    apply abs_round_le_generic; [typeclasses eauto|typeclasses eauto|apply generic_format_B2R|].
    unfold Rdiv. rewrite Rabs_mult, (Rabs_pos_eq (/ 2)) by lra.
    assert (Rabs (rnd (B2R a + B2R b)) <= 2 * B2R m); [|lra].
    apply abs_round_le_generic; [typeclasses eauto|typeclasses eauto|apply double_format; auto|]. eapply Rle_trans; [apply Rabs_triang|lra].
  - intros c w Hc Hw. unfold bounded in *. cbn [fcar flt fle fadd fmul fzero fabs IOps] in *. apply Bltb_ext.
    destruct (bounded_cases m w Tm Hw) as [Nw|[[Fw _] Lw]].
    { left. destruct w; try discriminate. reflexivity. }
    destruct (nonneg_cases prec emax c Hc) as [->|[Fc Rc]].
    + right. right. destruct m as [|[]| |[] mm em Bm]; try discriminate; simpl in Pm; try lra.
      * pose proof (neg_finite mm em Bm) as NF. simpl in NF. lra.
      * simpl. destruct (to_ext _ _ _); exact I.
    + destruct (mult_ext w c Fw Fc) as [NW EW]. destruct (mult_ext m c Fm Fc) as [NM EM].
      right. right. rewrite EM.
      assert (A : forall z : bf, is_nan z = false -> to_ext prec emax (Babs z) = match to_ext prec emax z with EFin r => EFin (Rabs r) | _ => EPInf end).
      { intros z Nz. destruct (is_finite z) eqn:Fz.
        - rewrite !ext_of_finite by (rewrite ?is_finite_Babs; auto). rewrite B2R_Babs. auto.
        - destruct z as [|[]| |]; try discriminate; reflexivity. }
      rewrite A, EW by auto. clear A.
      assert (LE : Rabs (B2R w * B2R c) <= B2R m * B2R c).
      { rewrite Rabs_mult, (Rabs_pos_eq (B2R c)) by auto. nra. }
      assert (LR : Rabs (rnd (B2R w * B2R c)) <= rnd (B2R m * B2R c)).
      { rewrite <- round_NE_abs by typeclasses eauto. apply rnd_le. auto. }
      pose proof big_pos. pose proof (Rle_abs (rnd (B2R m * B2R c))).
      destruct (Rx_cases (B2R m * B2R c)) as [[X ->]|[(X & X' & ->)|(X & X' & ->)]];
        destruct (Rx_cases (B2R w * B2R c)) as [[Y ->]|[(Y & Y' & ->)|(Y & Y' & ->)]]; simpl; auto;
        try (apply Rabs_le_inv in LR); try (apply Rabs_def2 in X); try lra; nra.
Qed.
End Format.

(** conversion to f64 is exact *)
Lemma conv64_mono : forall a b : b32, Bltb b a = false -> Bltb (conv64 b) (conv64 a) = false.
Proof.
  assert (FIN : forall x : b32, is_finite x = true -> is_finite (conv64 x) = true /\ B2R (conv64 x) = B2R x).
  { intros [s|s| |s m e Hb] F; try discriminate; [simpl; auto|].
    pose proof (binary_normalize_correct 53 1024 Hprec64 Hmax64 mode_NE (cond_Zopp s (Zpos m)) e s) as C. cbv zeta in C. simpl round_mode in C.
    change (F2R (Float radix2 (cond_Zopp s (Zpos m)) e)) with (B2R (B754_finite s m e Hb)) in C.
    assert (G : generic_format radix2 (SpecFloat.fexp 53 1024) (B2R (B754_finite s m e Hb))).
    { pose proof (generic_format_B2R 24 128 (B754_finite s m e Hb)) as G.
      eapply generic_inclusion_mag; [|exact G]. intros _. unfold SpecFloat.fexp, SpecFloat.emin. lia. }
    rewrite round_generic in C; [|apply valid_rnd_N|exact G]. rewrite Rlt_bool_true in C.
    - destruct C as (C1 & C2 & _). split; auto.
    - eapply Rlt_trans; [apply abs_B2R_lt_emax|]. apply bpow_lt. lia. }
  intros a b H. apply Bltb_ext in H. apply Bltb_ext.
  destruct (is_nan a) eqn:Na; [left; destruct a; try discriminate; reflexivity|].
  destruct (is_nan b) eqn:Nb; [right; left; destruct b; try discriminate; reflexivity|].
  destruct H as [|[|H]]; try discriminate. right. right.
  destruct (is_finite a) eqn:Fa; destruct (is_finite b) eqn:Fb.
  - destruct (FIN a Fa) as [FA RA]. destruct (FIN b Fb) as [FB RB]. rewrite !ext_of_finite in * by auto. simpl in *. lra.
  - destruct b as [|[]| |]; try discriminate; [|simpl; apply ext_top]. rewrite (ext_of_finite _ _ a Fa) in H. destruct H.
  - destruct a as [|[]| |]; try discriminate; [simpl; auto|]. rewrite (ext_of_finite _ _ b Fb) in H. destruct H.
  - destruct a as [|[]| |]; try discriminate; destruct b as [|[]| |]; try discriminate; simpl in *; auto.
Qed.

Lemma i32_mono_laws : MonoLaws IOps32 (i_tame 24 128).
Proof. apply i_mono_laws. lia. Qed.
Lemma i64_mono_laws : MonoLaws IOps64 (i_tame 53 1024).
Proof. apply i_mono_laws. lia. Qed.
Lemma i32_bound_laws : forall m, i_tame 24 128 m -> 0 < B2R m -> BoundLaws IOps32 m.
Proof. apply i_bound_laws. lia. Qed.
