(** The two evaluate_split functions read backwards: what an accepted split consists of
    (splitter.rs:347-495, 783-946). *)
From Coq Require Import List Arith NArith Lia Bool.
From Verif Require Import Prelude Float FloatLaws Data Utils Histogram Node Splitter SplitProofs.
Import ListNotations.

Section Eval.
Context {FS : Floats}.
Variables (p : SplitParams) (lg lh rg rh mg mh lo up pw : F32) (c : option Constraint).
Notation cw g h := (cweight p g h lo up c).
Notation ggw g h w := (gain_given_weight (sp_l2 p) g h w).

(** Does the node have missing rows, as the code sees it? *)
Definition sees_missing : bool := (negb (feq f32 mg (fzero f32)) || negb (feq f32 mh (fzero f32)))%bool.

(** Weight and gain of the left (right) child when it also takes the missing rows. *)
Definition ml_weight := cw (lg + mg)%f32 (lh + mh)%f32.
Definition ml_gain := cull_gain (ggw (lg + mg)%f32 (lh + mh)%f32 ml_weight) ml_weight (cw rg rh) c.
Definition mr_weight := cw (rg + mg)%f32 (rh + mh)%f32.
Definition mr_gain := cull_gain (ggw (rg + mg)%f32 (rh + mh)%f32 mr_weight) (cw lg lh) mr_weight c.
(** Is sending the missing rows left the larger improvement? *)
Definition left_wins : bool := ((mr_gain - ggw rg rh (cw rg rh)) <? (ml_gain - ggw lg lh (cw lg lh)))%f32.

Definition inf_bounds : F32 * F32 := (fninf f32, finf f32).

Inductive imputer_result : EvalResult -> Prop :=
| ir_none : sees_missing = false ->
    imputer_result (mkNodeInfo lg (ggw lg lh (cw lg lh)) lh (cw lg lh) inf_bounds,
                    mkNodeInfo rg (ggw rg rh (cw rg rh)) rh (cw rg rh) inf_bounds, MRight)
| ir_left : sees_missing = true -> left_wins = true ->
    imputer_result (mkNodeInfo (lg + mg)%f32 ml_gain (lh + mh)%f32 ml_weight inf_bounds,
                    mkNodeInfo rg (ggw rg rh (cw rg rh)) rh (cw rg rh) inf_bounds, MLeft)
| ir_right : sees_missing = true -> left_wins = false ->
    imputer_result (mkNodeInfo lg (ggw lg lh (cw lg lh)) lh (cw lg lh) inf_bounds,
                    mkNodeInfo (rg + mg)%f32 mr_gain (rh + mh)%f32 mr_weight inf_bounds, MRight).

Lemma imputer_inv : forall e, evaluate_split_imputer p lg lh rg rh mg mh lo up c = Some e -> imputer_result e.
Proof.
  intros e H. unfold evaluate_split_imputer in H.
  match type of H with (if ?b then _ else _) = _ => destruct b; [discriminate|] end. cbv zeta in H.
  match type of H with (if ?b then _ else _) = _ => destruct b; [discriminate|] end.
  fold sees_missing in H. destruct sees_missing eqn:ES.
  - fold ml_weight mr_weight in H. fold ml_gain mr_gain in H. fold left_wins in H.
    destruct left_wins eqn:EL;
      match type of H with (if ?b then _ else _) = _ => destruct b; [discriminate|] end; injection H as <-.
    + apply ir_left; auto.
    + apply ir_right; auto.
  - match type of H with (if ?b then _ else _) = _ => destruct b; [discriminate|] end. injection H as <-.
    apply ir_none; auto.
Qed.

Variables (treat : MissingNodeTreatment) (force : bool).

(** Child weights with a missing branch. *)
Definition branch_weights : F32 * F32 :=
  if force then bound_to_parent pw (cw lg lh) (cw rg rh) else (cw lg lh, cw rg rh).

Lemma branch_inv : forall e, evaluate_split_branch p treat force lg lh rg rh mg mh lo up pw c = Some (Some e) ->
  let lw := fst branch_weights in
  let rw := snd branch_weights in
  let mw := missing_weight_of p treat lg lh rg rh mg mh lw rw lo up pw c in
  let info := mkNodeInfo mg (ggw mg mh mw) mh mw (lo, up) in
  e = (mkNodeInfo lg (ggw lg lh lw) lh lw inf_bounds, mkNodeInfo rg (ggw rg rh rw) rh rw inf_bounds,
       if sees_missing && sp_allow_missing_splits p then MBranch info else MLeaf info) /\
  (force = true -> between lo up lw = true /\ between lo up rw = true).
Proof.
  intros e H. unfold evaluate_split_branch in H.
  match type of H with (if ?b then _ else _) = _ => destruct b; [discriminate|] end. cbv zeta in H.
  inv_bind H. destruct v as [lw rw].
  assert (B : branch_weights = (lw, rw) /\ (force = true -> between lo up lw = true /\ between lo up rw = true)).
  { unfold branch_weights. destruct force.
    - destruct (bound_to_parent pw (cw lg lh) (cw rg rh)) as [a b].
      destruct (between lo up a && between lo up b)%bool eqn:Eb; [|discriminate].
      injection E as <- <-. apply andb_true_iff in Eb. auto.
    - injection E as <- <-. split; [auto|discriminate]. }
  destruct B as [B1 B2]. rewrite B1. simpl fst. simpl snd. cbv zeta.
  match type of H with (if ?b then _ else _) = _ => destruct b; [discriminate|] end.
  injection H as <-. split; auto.
Qed.

(** The only way evaluation aborts is the assertion of force_children_to_bound_parent. *)
Lemma branch_panics : evaluate_split_branch p treat force lg lh rg rh mg mh lo up pw c = None ->
  force = true /\ let (lw, rw) := branch_weights in (between lo up lw && between lo up rw)%bool = false.
Proof.
  intros H. unfold evaluate_split_branch in H.
  match type of H with (if ?b then _ else _) = _ => destruct b; [discriminate|] end. cbv zeta in H.
  unfold branch_weights. destruct force.
  - destruct (bound_to_parent pw (cw lg lh) (cw rg rh)) as [a b]. split; auto.
    destruct (between lo up a && between lo up b)%bool eqn:Eb; auto. simpl in H.
    match type of H with (if ?b then _ else _) = _ => destruct b; discriminate end.
  - simpl in H. match type of H with (if ?b then _ else _) = _ => destruct b; discriminate end.
Qed.
End Eval.
