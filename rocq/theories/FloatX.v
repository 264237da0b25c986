(** Exact instance: real numbers extended with +inf, -inf and NaN.  The special values follow
    the IEEE rules; there is one zero only, so x/0 takes the sign of x. *)
From Coq Require Import Reals Lra Lia ZArith List Bool Permutation.
From Flocq Require Import Core.Raux.
From Verif Require Import Float.
Import ListNotations.
Local Open Scope R_scope.

Inductive xr := Fin (r : R) | PInf | NInf | XNaN.

Definition xneg x := match x with Fin a => Fin (- a) | PInf => NInf | NInf => PInf | XNaN => XNaN end.
Definition xabs x := match x with Fin a => Fin (Rabs a) | PInf | NInf => PInf | XNaN => XNaN end.

Definition xadd x y :=
  match x, y with
  | XNaN, _ | _, XNaN => XNaN
  | Fin a, Fin b => Fin (a + b)
  | PInf, NInf | NInf, PInf => XNaN
  | PInf, _ | _, PInf => PInf
  | NInf, _ | _, NInf => NInf
  end.
Definition xsub x y := xadd x (xneg y).

(** sign of an infinity times/over a finite or infinite factor *)
Definition xsgn (s : R) : xr := if Rlt_bool 0 s then PInf else if Rlt_bool s 0 then NInf else XNaN.
Definition xmul x y :=
  match x, y with
  | XNaN, _ | _, XNaN => XNaN
  | Fin a, Fin b => Fin (a * b)
  | PInf, Fin b | Fin b, PInf => xsgn b
  | NInf, Fin b | Fin b, NInf => xsgn (- b)
  | PInf, PInf | NInf, NInf => PInf
  | PInf, NInf | NInf, PInf => NInf
  end.
Definition xdiv x y :=
  match x, y with
  | XNaN, _ | _, XNaN => XNaN
  | Fin a, Fin b => if Req_bool b 0 then xsgn a else Fin (a / b)
  | Fin _, PInf | Fin _, NInf => Fin 0
  | PInf, Fin b => if Rlt_bool b 0 then NInf else PInf
  | NInf, Fin b => if Rlt_bool b 0 then PInf else NInf
  | _, _ => XNaN
  end.
Definition xsqrt x :=
  match x with
  | Fin a => if Rlt_bool a 0 then XNaN else Fin (sqrt a)
  | PInf => PInf
  | _ => XNaN
  end.
Definition xneg_sign x := match x with Fin a => Rlt_bool a 0 | NInf => true | _ => false end.
Definition xcopysign x s :=
  let a := xabs x in if xneg_sign s then xneg a else a.
Definition xlt x y :=
  match x, y with
  | XNaN, _ | _, XNaN => false
  | Fin a, Fin b => Rlt_bool a b
  | NInf, NInf => false
  | NInf, _ => true
  | _, NInf => false
  | PInf, _ => false
  | Fin _, PInf => true
  end.
Definition xle x y :=
  match x, y with
  | XNaN, _ | _, XNaN => false
  | Fin a, Fin b => Rle_bool a b
  | NInf, _ => true
  | _, PInf => true
  | _, NInf => false
  | PInf, Fin _ => false
  end.
Definition xeq x y :=
  match x, y with
  | Fin a, Fin b => Req_bool a b
  | PInf, PInf | NInf, NInf => true
  | _, _ => false
  end.
Definition xisnan x := match x with XNaN => true | _ => false end.
Definition xtotal x y :=
  match x, y with
  | XNaN, XNaN => Eq
  | XNaN, _ => Gt
  | _, XNaN => Lt
  | _, _ => if xlt x y then Lt else if xlt y x then Gt else Eq
  end.
Definition xofnat (n : nat) := Fin (INR n).
Definition xtonat x :=
  match x with
  | Fin a => Z.to_nat (Zfloor a)
  | PInf => N.to_nat 18446744073709551615%N
  | _ => 0%nat
  end.
(** the largest finite binary64 number *)
Definition xmax := Fin (IZR ((2 ^ 53 - 1) * 2 ^ 971)).

Definition XOps : FloatOps := {|
  fcar := xr; fzero := Fin 0; fone := Fin 1; fnan := XNaN; finf := PInf; fninf := NInf;
  fmax := xmax;
  fadd := xadd; fsub := xsub; fmul := xmul; fdiv := xdiv; fneg := xneg; fabs := xabs;
  fsqrt := xsqrt; fcopysign := xcopysign; flt := xlt; fle := xle; feq := xeq;
  fisnan := xisnan; ftotal := xtotal; fofnat := xofnat; ftonat := xtonat |}.

Definition xexp x := match x with Fin a => Fin (exp a) | PInf => PInf | NInf => Fin 0 | XNaN => XNaN end.
Definition xln x :=
  match x with
  | Fin a => if Rlt_bool 0 a then Fin (ln a) else if Req_bool a 0 then NInf else XNaN
  | PInf => PInf
  | _ => XNaN
  end.
Definition xln1p x := xln (xadd (Fin 1) x).

#[global] Instance XF : Floats := {|
  f32 := XOps; f64 := XOps; to64 := fun x => x; to32 := fun x => x;
  fexp := xexp; fln := xln; fln1p := xln1p |}.

(** Case analysis on real comparisons. *)
Lemma Rlt_boolP : forall a b, (Rlt_bool a b = true /\ a < b) \/ (Rlt_bool a b = false /\ b <= a).
Proof. intros; destruct (Rlt_bool_spec a b); auto. Qed.
Lemma Rle_boolP : forall a b, (Rle_bool a b = true /\ a <= b) \/ (Rle_bool a b = false /\ b < a).
Proof. intros; destruct (Rle_bool_spec a b); auto. Qed.
Lemma Req_boolP : forall a b, (Req_bool a b = true /\ a = b) \/ (Req_bool a b = false /\ a <> b).
Proof. intros; destruct (Req_bool_spec a b); auto. Qed.

Ltac rcase :=
  match goal with
  | |- context [Rlt_bool ?a ?b] => destruct (Rlt_boolP a b) as [[-> ?]|[-> ?]]
  | |- context [Rle_bool ?a ?b] => destruct (Rle_boolP a b) as [[-> ?]|[-> ?]]
  | |- context [Req_bool ?a ?b] => destruct (Req_boolP a b) as [[-> ?]|[-> ?]]
  | H : context [Rlt_bool ?a ?b] |- _ => destruct (Rlt_boolP a b) as [[E ?]|[E ?]]; rewrite E in H; clear E
  | H : context [Rle_bool ?a ?b] |- _ => destruct (Rle_boolP a b) as [[E ?]|[E ?]]; rewrite E in H; clear E
  | H : context [Req_bool ?a ?b] |- _ => destruct (Req_boolP a b) as [[E ?]|[E ?]]; rewrite E in H; clear E
  end.

(** Decide comparisons of closed rational expressions (used by the examples). *)
Ltac rdec :=
  repeat match goal with
  | |- context [Rlt_bool ?a ?b] =>
      first [ replace (Rlt_bool a b) with true by (symmetry; apply Rlt_bool_true; lra)
            | replace (Rlt_bool a b) with false by (symmetry; apply Rlt_bool_false; lra) ]
  | |- context [Rle_bool ?a ?b] =>
      first [ replace (Rle_bool a b) with true by (symmetry; apply Rle_bool_true; lra)
            | replace (Rle_bool a b) with false by (symmetry; apply Rle_bool_false; lra) ]
  | |- context [Req_bool ?a ?b] =>
      first [ replace (Req_bool a b) with true by (symmetry; apply Req_bool_true; lra)
            | replace (Req_bool a b) with false by (symmetry; apply Req_bool_false; lra) ]
  end.

Lemma x_ord_laws : OrdLaws XOps.
Proof.
  constructor; simpl.
  - intros [] []; simpl; intros H; try discriminate; auto.
  - intros [] []; simpl; intros H; try discriminate; auto.
  - intros []; simpl; intros H; try discriminate; auto. rcase; auto; lra.
  - intros [] [] []; simpl; intros H1 H2; try discriminate; auto.
    repeat rcase; auto; try discriminate; lra.
  - intros [] []; simpl; intros H1 H2; try discriminate; auto.
    repeat rcase; auto; lra.
  - intros [] []; simpl; intros H1 H2; try discriminate; auto.
    repeat rcase; auto; lra.
  - intros [] []; simpl; auto. repeat rcase; simpl; auto; lra.
Qed.

(** Finite values and their computation rules. *)
Definition xfin (x : xr) := exists r, x = Fin r.
Definition val (x : xr) : R := match x with Fin r => r | _ => 0 end.

Lemma xfin_val : forall x, xfin x -> x = Fin (val x).
Proof. intros x [r ->]; reflexivity. Qed.
Lemma xadd_fin : forall a b, xadd (Fin a) (Fin b) = Fin (a + b).
Proof. reflexivity. Qed.
Lemma xsub_fin : forall a b, xsub (Fin a) (Fin b) = Fin (a - b).
Proof. reflexivity. Qed.
Lemma xmul_fin : forall a b, xmul (Fin a) (Fin b) = Fin (a * b).
Proof. reflexivity. Qed.
Lemma xneg_fin : forall a, xneg (Fin a) = Fin (- a).
Proof. reflexivity. Qed.
Lemma xdiv_fin : forall a b, b <> 0 -> xdiv (Fin a) (Fin b) = Fin (a / b).
Proof. intros; simpl. rcase; auto; lra. Qed.

Lemma fold_xadd_fin : forall (l : list R) (a : R),
  fold_left xadd (map Fin l) (Fin a) = Fin (a + fold_right Rplus 0 l).
Proof.
  induction l as [|x l IH]; intros a; simpl.
  - f_equal; lra.
  - rewrite IH. f_equal; lra.
Qed.

(** Sum of a list of reals. *)
Definition sumR (l : list R) : R := fold_right Rplus 0 l.

Lemma sumR_app : forall l1 l2, sumR (l1 ++ l2) = sumR l1 + sumR l2.
Proof. induction l1; intros; simpl; [|rewrite IHl1]; lra. Qed.
Lemma sumR_cons : forall x l, sumR (x :: l) = x + sumR l.
Proof. reflexivity. Qed.
Lemma sumR_perm : forall l1 l2, Permutation l1 l2 -> sumR l1 = sumR l2.
Proof. induction 1; simpl; lra. Qed.
Lemma sumR_map_plus : forall A (f g : A -> R) l,
  sumR (map (fun x => f x + g x) l) = sumR (map f l) + sumR (map g l).
Proof. induction l; simpl; lra. Qed.
Lemma sumR_map_minus : forall A (f g : A -> R) l,
  sumR (map (fun x => f x - g x) l) = sumR (map f l) - sumR (map g l).
Proof. induction l; simpl; lra. Qed.
Lemma sumR_map_scal : forall A (f : A -> R) c l,
  sumR (map (fun x => c * f x) l) = c * sumR (map f l).
Proof. induction l; simpl; [|rewrite IHl]; lra. Qed.
Lemma sumR_map_ext : forall A (f g : A -> R) l,
  (forall x, In x l -> f x = g x) -> sumR (map f l) = sumR (map g l).
Proof. induction l; simpl; intros H; auto. rewrite H, IHl; auto. Qed.
Lemma sumR_nonneg : forall l, (forall x, In x l -> 0 <= x) -> 0 <= sumR l.
Proof.
  induction l; simpl; intros H; [lra|].
  assert (0 <= a) by auto. assert (0 <= sumR l) by auto. lra.
Qed.
Lemma sumR_zero : forall A (l : list A), sumR (map (fun _ => 0) l) = 0.
Proof. induction l; simpl; [|rewrite IHl]; lra. Qed.
