(** Properties C23-C27: leaf weights. *)
From Coq Require Import ZArith Reals List Arith Lia Lra Bool.
From Flocq Require Import IEEE754.BinarySingleNaN.
From Verif Require Import Prelude Float FloatX FloatI FloatLaws FloatMono OrdProofs Data Utils Pivot3Proofs Binning BinningX PropBinning Histogram Node Splitter
  Tree TreeWf PathProofs RouteX RouteFit PropTree Objective Metric Sampler Contrib Booster PredictProofs BoostProofs FitModel PropPredict
  EvalProofs GrowWeights GrowMono MonoFit Bracket MissTree MissDir MissWeights.
Import ListNotations.

Section IEEE.
Variables (iexp iln iln1p : b64 -> b64).
Notation I := (IF iexp iln iln1p).

(** *** C23.  [i_tame 24 128 m]: m is finite and at most 2^126. *)
Theorem C23_max_delta_step : forall (E : @Env I) b data y w es b', clean b -> validate_parameters (gb_params b) = None ->
  fit E b data y w es = Some (b', None) -> no_average (splitter_of (gb_params b)) ->
  i_tame 24 128 (p_max_delta_step (gb_params b)) -> (0 < B2R (p_max_delta_step (gb_params b)))%R ->
  forall tr n, In tr (gb_trees b') -> In n tr ->
  flt IOps32 (fmul IOps32 (p_max_delta_step (gb_params b)) (p_learning_rate (gb_params b))) (fabs IOps32 (n_weight n)) = false.
Proof.
  intros E b data y w es b' C V H NA HT HP tr n Ht Hn.
  refine (@model_delta I _ i32_ord_laws (i_sub_laws 24 128 eq_refl eq_refl) i32_mono_laws E b data y w es b' C V H NA (i32_bound_laws _ HT HP) _ tr n Ht Hn).
  apply Bool.not_true_iff_false. intros Z. change (Beqb (p_max_delta_step (gb_params b)) (fzero IOps32) = true) in Z.
  destruct (p_max_delta_step (gb_params b)) as [s|s| |s m e B]; simpl in *; try lra; try discriminate; destruct s; discriminate.
Qed.

(** *** C24.  [constrained s f]: f is Positive or Negative; [ordered s f F a b]: not (b < a) for
    Positive, not (a < b) for Negative. *)
Theorem C24_monotone : forall (E : @Env I) b data y w es b', clean b -> validate_parameters (gb_params b) = None -> rng_ok E (gb_params b) ->
  fit E b data y w es = Some (b', None) ->
  no_average (splitter_of (gb_params b)) ->
  (forall f, f < m_cols data -> constrained (splitter_of (gb_params b)) f) ->
  forall shs par data' preds i1 i2 f v1 v2 p1 p2, f < m_cols data ->
  predict shs b' data' par = Some preds -> length (m_index data') = m_rows data' ->
  nth_error preds i1 = Some p1 -> nth_error preds i2 = Some p2 ->
  forall r1 r2, nth_error (m_index data') i1 = Some r1 -> nth_error (m_index data') i2 = Some r2 ->
  m_get data' r1 f = Some v1 -> m_get data' r2 f = Some v2 ->
  is_missing v1 (p_missing (gb_params b)) = Some false -> is_missing v2 (p_missing (gb_params b)) = Some false ->
  (forall k, k <> f -> m_get data' r1 k = m_get data' r2 k) -> fle IOps64 v1 v2 = true ->
  ordered (splitter_of (gb_params b)) f IOps64 p1 p2.
Proof. exact (@model_monotone_all I _ i32_ord_laws (i_sub_laws 24 128 eq_refl eq_refl) i32_mono_laws _ i64_ord_laws i64_mono_laws conv64_mono). Qed.

(** the same when only some columns are constrained, but no unconstrained column is split on below
    a split on a constrained one *)
Theorem C24_monotone_below : forall (E : @Env I) b data y w es b', clean b -> validate_parameters (gb_params b) = None ->
  fit E b data y w es = Some (b', None) ->
  no_average (splitter_of (gb_params b)) ->
  (forall t n c m, In t (gb_trees b') -> In n t -> n_is_leaf n = false -> In c [n_missing n; n_left n; n_right n] -> nth_error t c = Some m ->
     n_is_leaf m = false -> constrained (splitter_of (gb_params b)) (n_split_feature n) -> constrained (splitter_of (gb_params b)) (n_split_feature m)) ->
  forall shs par data' preds i1 i2 f v1 v2 p1 p2, constrained (splitter_of (gb_params b)) f ->
  predict shs b' data' par = Some preds -> length (m_index data') = m_rows data' ->
  nth_error preds i1 = Some p1 -> nth_error preds i2 = Some p2 ->
  forall r1 r2, nth_error (m_index data') i1 = Some r1 -> nth_error (m_index data') i2 = Some r2 ->
  m_get data' r1 f = Some v1 -> m_get data' r2 f = Some v2 ->
  is_missing v1 (p_missing (gb_params b)) = Some false -> is_missing v2 (p_missing (gb_params b)) = Some false ->
  (forall k, k <> f -> m_get data' r1 k = m_get data' r2 k) -> fle IOps64 v1 v2 = true ->
  ordered (splitter_of (gb_params b)) f IOps64 p1 p2.
Proof.
  intros E b data y w es b' C V H NA HS.
  refine (@model_monotone I _ _ i32_ord_laws i64_ord_laws (i_sub_laws 24 128 eq_refl eq_refl) i32_mono_laws i64_mono_laws conv64_mono
    E b data y w es b' C V H NA _).
  intros t Ht n c m Hn Hl Hc. exact (HS t n c m Ht Hn Hl Hc).
Qed.

(** *** C25 *)
Theorem C25_brackets : forall (E : @Env I) b data y w es b', clean b -> validate_parameters (gb_params b) = None ->
  fit E b data y w es = Some (b', None) ->
  p_create_missing_branch (gb_params b) = true -> p_force_children_to_bound_parent (gb_params b) = true ->
  p_missing_node_treatment (gb_params b) <> AverageLeafWeight ->
  forall tr n l r, In tr (gb_trees b') -> In n tr -> n_is_leaf n = false ->
  nth_error tr (n_left n) = Some l -> nth_error tr (n_right n) = Some r ->
  (flt IOps32 (n_weight n) (n_weight l) = false /\ flt IOps32 (n_weight r) (n_weight n) = false) \/
  (flt IOps32 (n_weight n) (n_weight r) = false /\ flt IOps32 (n_weight l) (n_weight n) = false).
Proof. exact (@model_brackets I _ i32_ord_laws (i_sub_laws 24 128 eq_refl eq_refl) i32_mono_laws). Qed.

(** *** C26: treatments whose weights depend on the choice of the split *)
Theorem C26_missing_weight : forall policy pick (t : @Train I) index max_leaves max_depth sm p term treat force nodes st,
  tree_fit policy pick (Branch p term treat force) t index max_leaves max_depth sm = Some (nodes, st) ->
  treat <> AverageLeafWeight ->
  forall n, In n nodes -> n_is_leaf n = false ->
  exists l r m lw rw, nth_error nodes (n_left n) = Some l /\ nth_error nodes (n_right n) = Some r /\ nth_error nodes (n_missing n) = Some m /\
    n_weight l = (lw * sp_learning_rate p)%f32 /\ n_weight r = (rw * sp_learning_rate p)%f32 /\
    (treat = AverageNodeWeight -> n_weight m =
       ((rw * n_hess r + lw * n_hess l) / (n_hess r + n_hess l) * sp_learning_rate p)%f32) /\
    (treat = TNone -> feq IOps32 (n_hess m) (fzero IOps32) = true -> n_weight m = n_weight n).
Proof. exact (@fit_missing_weight I _ i32_ord_laws (i_sub_laws 24 128 eq_refl eq_refl) i32_mono_laws). Qed.
End IEEE.

Section Any.
Context {FS : Floats}.
(** *** C26 *)
Theorem C26_missing_branch : forall policy pick t index max_leaves max_depth sm p term treat force nodes st,
  tree_fit policy pick (Branch p term treat force) t index max_leaves max_depth sm = Some (nodes, st) ->
  forall n, In n nodes -> n_is_leaf n = false ->
  n_missing n <> n_left n /\ n_missing n <> n_right n /\
  exists m, nth_error nodes (n_missing n) = Some m /\
    (In (n_split_feature n) term -> n_is_leaf m = true) /\
    (treat = AssignToParent -> n_weight m = n_weight n).
Proof. exact fit_missing_child. Qed.

(** [averages nodes i a]: a is the weight of leaf i, or the cover-weighted average of the averages
    of the left, right and (unless a leaf) missing child of i. *)
Theorem C26_average_leaf_weight : forall policy pick t index max_leaves max_depth sm p term force nodes st,
  tree_fit policy pick (Branch p term AverageLeafWeight force) t index max_leaves max_depth sm = Some (nodes, st) ->
  forall n, In n nodes -> n_is_leaf n = false ->
  exists a, averages nodes (n_num n) a /\ n_weight n = to32 a /\
    (forall m, nth_error nodes (n_missing n) = Some m -> n_is_leaf m = true -> n_weight m = n_weight n).
Proof. intros policy pick t index max_leaves max_depth sm p term force nodes st H n Hn. exact (fit_averaged policy pick t index max_leaves max_depth sm p term _ force eq_refl nodes st H n Hn). Qed.
End Any.

Section Exact.
Open Scope R_scope.
(** *** C23, C24 and C25 without rounding *)
Theorem C23_max_delta_step_exact : forall (E : @Env XF) b data y w es b' m, clean b -> validate_parameters (gb_params b) = None ->
  fit E b data y w es = Some (b', None) -> no_average (splitter_of (gb_params b)) ->
  p_max_delta_step (gb_params b) = Fin m -> 0 < m ->
  forall tr n, In tr (gb_trees b') -> In n tr ->
  xlt (xmul (Fin m) (p_learning_rate (gb_params b))) (xabs (n_weight n)) = false.
Proof.
  intros E b data y w es b' m C V H NA HM HP tr n Ht Hn.
  pose proof (@model_delta XF x_tame x_ord_laws x_sub_laws x_mono_laws E b data y w es b' C V H NA) as D. cbv zeta in D. rewrite HM in D.
  refine (D (x_bound_laws m HP) _ tr n Ht Hn).
  apply Bool.not_true_iff_false. intros Z. change (xeq (Fin m) (Fin 0) = true) in Z. unfold xeq in Z.
  revert Z. destruct (Raux.Req_bool_spec m 0); [lra|discriminate].
Qed.

Theorem C24_monotone_exact : forall (E : @Env XF) b data y w es b', clean b -> validate_parameters (gb_params b) = None -> rng_ok E (gb_params b) ->
  fit E b data y w es = Some (b', None) ->
  no_average (splitter_of (gb_params b)) ->
  (forall f, (f < m_cols data)%nat -> constrained (splitter_of (gb_params b)) f) ->
  forall shs par data' preds i1 i2 f v1 v2 p1 p2, (f < m_cols data)%nat ->
  predict shs b' data' par = Some preds -> length (m_index data') = m_rows data' ->
  nth_error preds i1 = Some p1 -> nth_error preds i2 = Some p2 ->
  forall r1 r2, nth_error (m_index data') i1 = Some r1 -> nth_error (m_index data') i2 = Some r2 ->
  m_get data' r1 f = Some v1 -> m_get data' r2 f = Some v2 ->
  is_missing v1 (p_missing (gb_params b)) = Some false -> is_missing v2 (p_missing (gb_params b)) = Some false ->
  (forall k, k <> f -> m_get data' r1 k = m_get data' r2 k) -> xle v1 v2 = true ->
  ordered (splitter_of (gb_params b)) f XOps p1 p2.
Proof. exact (@model_monotone_all XF x_tame x_ord_laws x_sub_laws x_mono_laws x_tame x_ord_laws x_mono_laws (fun a b H => H)). Qed.

(** no abort: constraints on all columns or on none *)
Theorem C25_no_abort : forall S data sw nbins missing bd policy pick s t index max_leaves max_depth sm,
  trained S data sw nbins missing bd s t index sm ->
  forall l2, (forall x : xr, In x (tr_hess t) -> xle (Fin 0) x = true) ->
  xle (Fin 0) (sp_l1 (params s)) = true -> sp_l2 (params s) = Fin l2 -> 0 < l2 -> no_average s ->
  (forall f, In f (tr_cols t) -> constrained s f) \/ (forall f, In f (tr_cols t) -> ~ constrained s f) ->
  exists nodes st, tree_fit policy pick s t index max_leaves max_depth sm = Some (nodes, st).
Proof. exact forced_fit_total. Qed.

(** *** C26: the formula for AverageLeafWeight *)
Theorem C26_average_formula : forall policy pick t index max_leaves max_depth sm p term force nodes st,
  @tree_fit XF policy pick (Branch p term AverageLeafWeight force) t index max_leaves max_depth sm = Some (nodes, st) ->
  forall n, In n nodes -> n_is_leaf n = false ->
  exists l r m, nth_error nodes (n_left n) = Some l /\ nth_error nodes (n_right n) = Some r /\ nth_error nodes (n_missing n) = Some m /\
    if n_is_leaf m then
      n_weight m = n_weight n /\
      n_weight n = xdiv (xadd (xmul (n_weight r) (n_hess r)) (xmul (n_weight l) (n_hess l))) (xadd (n_hess l) (n_hess r))
    else
      n_weight n = xdiv (xadd (xadd (xmul (n_weight r) (n_hess r)) (xmul (n_weight l) (n_hess l))) (xmul (n_weight m) (n_hess m)))
                        (xadd (xadd (n_hess l) (n_hess r)) (n_hess m)).
Proof. exact fit_average_weights. Qed.

(** *** C27.  [part Le], [part Ri], [part Mi]: the rows of the node below, not below, missing. *)
Theorem C27_missing_side : forall S data sw nbins missing bd policy pick p t index max_leaves max_depth sm l2,
  trained S data sw nbins missing bd (Imputer p) t index sm ->
  (forall x : xr, In x (tr_hess t) -> xle (Fin 0) x = true) ->
  sp_l1 p = Fin 0 -> sp_max_delta_step p = Fin 0 -> sp_l2 p = Fin l2 -> 0 < l2 ->
  forall nodes st, tree_fit policy pick (Imputer p) t index max_leaves max_depth sm = Some (nodes, st) ->
  forall k n, nth_error nodes k = Some n -> n_is_leaf n = false -> get_constraint (Imputer p) (n_split_feature n) = None ->
  let rows := filter (fun i => passes nodes (fun f => m_get data i f) missing k) index in
  let part d := filter (side_of_row data missing (n_split_feature n) (n_split_value n) d) rows in
  let G l := sumR (map (fun i => val (nth i (tr_grad t) (Fin 0))) l) in
  let H l := sumR (map (fun i => val (nth i (tr_hess t) (Fin 0))) l) in
  let gain l := G l * G l / (H l + l2) in
  (n_missing n = n_left n \/ n_missing n = n_right n) /\
  (n_missing n = n_left n <->
     gain (part Le) + gain (part Ri ++ part Mi) < gain (part Le ++ part Mi) + gain (part Ri)).
Proof.
  intros S data sw nbins missing bd policy pick p t index max_leaves max_depth sm l2 T HH E1 E2 E3 HL2 nodes st HF k n Hk Hl HC rows part G H gain.
  assert (POS : forall x : xr, xle (Fin 0) x = true -> xfin x -> 0 <= val x).
  { intros ? Q1 [x ->]. simpl in *. revert Q1. destruct (Raux.Rle_bool_spec 0 x); [auto|discriminate]. }
  assert (HP : forall l, 0 <= H l).
  { intros l. unfold H. induction l as [|i l IH]; simpl; [lra|]. apply Rplus_le_le_0_compat; auto.
    destruct (Nat.lt_ge_cases i (length (tr_hess t))) as [Hi|Hi].
    - apply POS; [exact (HH _ (nth_In _ _ Hi))|exact (td_hess_fin _ _ _ _ _ _ _ _ _ _ T _ (nth_In _ _ Hi))].
    - rewrite nth_overflow by auto. simpl. lra. }
  assert (SC : forall l, val (score p (tr_grad t) (tr_hess t) l) = gain l).
  { intros l. rewrite (score_plain p l2 _ _ _ E1 E2 E3); [reflexivity|]. apply Rgt_not_eq. apply Rplus_le_lt_0_compat; [exact (HP l)|auto]. }
  pose proof (fit_missing_side S data sw nbins missing bd policy pick p t index max_leaves max_depth sm l2 T HH) as Q.
  rewrite E1, E2 in Q. specialize (Q ltac:(apply Raux.Rle_bool_true; lra) E3 HL2 (ex_intro _ 0 eq_refl) nodes st HF k n Hk Hl HC). cbv zeta in Q. rewrite !SC in Q. exact Q.
Qed.

(** no missing rows in the node: to the right *)
Theorem C27_missing_right_by_default : forall S data sw nbins missing bd policy pick p t index max_leaves max_depth sm l2,
  trained S data sw nbins missing bd (Imputer p) t index sm ->
  (forall x : xr, In x (tr_hess t) -> xle (Fin 0) x = true) ->
  sp_l1 p = Fin 0 -> sp_max_delta_step p = Fin 0 -> sp_l2 p = Fin l2 -> 0 < l2 ->
  forall nodes st, tree_fit policy pick (Imputer p) t index max_leaves max_depth sm = Some (nodes, st) ->
  forall k n, nth_error nodes k = Some n -> n_is_leaf n = false -> get_constraint (Imputer p) (n_split_feature n) = None ->
  (forall i, In i index -> passes nodes (fun f => m_get data i f) missing k = true ->
     side_of_row data missing (n_split_feature n) (n_split_value n) Mi i = false) ->
  n_missing n = n_right n.
Proof.
  intros S data sw nbins missing bd policy pick p t index max_leaves max_depth sm l2 T HH E1 E2 E3 HL2 nodes st HF k n Hk Hl HC NM.
  destruct (C27_missing_side _ _ _ _ _ _ _ _ _ _ _ _ _ _ _ T HH E1 E2 E3 HL2 _ _ HF _ _ Hk Hl HC) as [[E|E] Q]; auto.
  apply (proj1 Q) in E. exfalso. revert E.
  match goal with |- context [filter (side_of_row data missing (n_split_feature n) (n_split_value n) Mi) ?l] =>
    assert (Z : filter (side_of_row data missing (n_split_feature n) (n_split_value n) Mi) l = []) end.
  { match goal with |- filter ?f ?l = [] => assert (G : forall x, In x l -> f x = false) end.
    { intros x Hx. apply filter_In in Hx. destruct Hx. auto. }
    revert G. match goal with |- (forall x, In x ?l -> _) -> _ => generalize l end.
    intros l G. induction l as [|a l IH]; simpl; auto. rewrite (G a (or_introl eq_refl)). apply IH. intros x Hx. apply G. right. auto. }
  rewrite Z, !app_nil_r. apply Rlt_irrefl.
Qed.
End Exact.

(** *** Runs in IEEE arithmetic: eight rows, two columns of zeros and ones, one tree *)
Definition exw_data : Matrix b64 := matrix_new (map z64 [0; 0; 0; 0; 1; 1; 1; 1;  0; 0; 0; 1; 0; 0; 1; 1]%Z) 8 2.
Definition exw_y : list b64 := map z64 [-10; -10; -10; 5; 3; 3; 3; 3]%Z.
Definition exw_w : list b64 := map z64 [1; 1; 1; 1; 1; 1; 1; 1]%Z.
Definition exw_params (branch force : bool) (treat : MissingNodeTreatment) (mds : b32) (cm : ConstraintMap) : @Params IE :=
  @mkParams IE SquaredLoss 1 (z32 1) 5 10 (z32 0) (z32 1) (z32 0) mds (z32 1) 3
    true false (Some cm) (z32 1) (z64 1) (z64 1) (z64 1) 7%N (fnan IOps64) branch SNone DepthWise None None false [] treat 0 force.
Definition exw_new branch force treat mds cm : @Booster IE := @mkBooster IE (exw_params branch force treat mds cm) (z64 0) None None None [] [].
Notation exw_fit b := (@fit IE exb_env b exw_data exw_y exw_w None).
Definition exw_out (b : @Booster IE) : @Booster IE := fst (get (b, None) (exw_fit b)).
Lemma exw_some : forall b, match exw_fit b with Some (_, None) => true | _ => false end = true -> exw_fit b = Some (exw_out b, None).
Proof. intros b. unfold exw_out. destruct (exw_fit b) as [[b' [e|]]|]; simpl; try discriminate. reflexivity. Qed.

(** C24 in general: column 0 is Positive, column 1 is split on below it without constraint; row 3
    (0, 1) is predicted above row 7 (1, 1). *)
Definition cm0 : ConstraintMap := [(0, Positive)].
Theorem C24_monotone_refuted : exists (E : @Env IE) b data y w b' preds p3 p7,
  clean b /\ is_some (validate_parameters (gb_params b)) = false /\ rng_ok E (gb_params b) /\
  fit E b data y w None = Some (b', None) /\ no_average (splitter_of (gb_params b)) /\
  get_constraint (splitter_of (gb_params b)) 0 = Some Positive /\
  predict (fun _ => Seq) b' data false = Some preds /\
  nth_error preds 3 = Some p3 /\ nth_error preds 7 = Some p7 /\
  m_get data 3 0 = Some (z64 0) /\ m_get data 7 0 = Some (z64 1) /\
  (forall k, k <> 0 -> k < m_cols data -> m_get data 3 k = m_get data 7 k) /\
  flt IOps64 p7 p3 = true.
Proof.
  set (b := exw_new false false TNone (z32 0) cm0).
  set (preds := get [] (predict (fun _ => Seq) (exw_out b) exw_data false)).
  exists exb_env, b, exw_data, exw_y, exw_w, (exw_out b), preds, (nth 3 preds (z64 0)), (nth 7 preds (z64 0)).
  split; [intros _; split; reflexivity|]. split; [vm_compute; reflexivity|]. split; [left; vm_compute; reflexivity|].
  split; [apply exw_some; vm_compute; reflexivity|]. split; [exact I|]. split; [reflexivity|].
  split; [apply get_some; vm_compute; reflexivity|].
  assert (L : Nat.ltb 7 (length preds) = true) by (vm_compute; reflexivity). apply Nat.ltb_lt in L.
  split; [apply nth_error_nth'; lia|]. split; [apply nth_error_nth'; lia|]. split; [reflexivity|]. split; [reflexivity|].
  split; [|vm_compute; reflexivity].
  intros [|[|k]] Hk Hlt; [congruence|reflexivity|simpl in Hlt; lia].
Qed.

(** C25 in general: the assertion fails when column 1 is not constrained. *)
Theorem C25_abort_refuted : exists (E : @Env IE) b data y w,
  clean b /\ is_some (validate_parameters (gb_params b)) = false /\ rng_ok E (gb_params b) /\
  is_some (validate_inputs y w None) = false /\
  p_create_missing_branch (gb_params b) = true /\ p_force_children_to_bound_parent (gb_params b) = true /\
  p_missing_node_treatment (gb_params b) = TNone /\
  fit E b data y w None = None /\
  (exists r, fit E (mkBooster (exw_params true false TNone (z32 0) cm0) (z64 0) None None None [] []) data y w None = Some (r, None)).
Proof.
  exists exb_env, (exw_new true true TNone (z32 0) cm0), exw_data, exw_y, exw_w.
  split; [intros _; split; reflexivity|]. split; [vm_compute; reflexivity|]. split; [left; vm_compute; reflexivity|].
  split; [vm_compute; reflexivity|]. split; [reflexivity|]. split; [reflexivity|]. split; [reflexivity|]. split.
  - assert (N : is_some (exw_fit (exw_new true true TNone (z32 0) cm0)) = false) by (vm_compute; reflexivity).
    destruct (@fit IE exb_env (exw_new true true TNone (z32 0) cm0) exw_data exw_y exw_w None); [discriminate|reflexivity].
  - exists (exw_out (exw_new true false TNone (z32 0) cm0)). apply exw_some. vm_compute. reflexivity.
Qed.

(** C23-C26: their hypotheses are met by runs with splits: limited steps; both columns constrained;
    forced children; averaged leaves. *)
Definition cm2 : ConstraintMap := [(0, Positive); (1, Positive)].
Example exw_runs :
  (forall b, In b [exw_new false false TNone (fone IOps32) cm0; exw_new true true TNone (z32 0) cm2; exw_new true true AssignToParent (z32 0) [];
                   exw_new true false AverageNodeWeight (z32 0) []; exw_new true false AverageLeafWeight (z32 0) []] ->
     clean b /\ is_some (validate_parameters (gb_params b)) = false /\ rng_ok exb_env (gb_params b) /\ exw_fit b = Some (exw_out b, None) /\
     existsb (existsb (fun n => negb (n_is_leaf n))) (gb_trees (exw_out b)) = true) /\
  (forall f, f < m_cols exw_data -> constrained (splitter_of (exw_params true true TNone (z32 0) cm2)) f) /\
  i_tame 24 128 (fone IOps32) /\ (0 < B2R (fone IOps32))%R /\
  is_some (predict (fun _ => Seq) (exw_out (exw_new true true TNone (z32 0) cm2)) exw_data false) = true.
Proof.
  split; [|split; [|split; [|split]]].
  - intros b Hb. simpl in Hb.
    repeat (destruct Hb as [<-|Hb]; [split; [intros _; split; reflexivity|]; split; [vm_compute; reflexivity|]; split; [left; vm_compute; reflexivity|];
      split; [apply exw_some; vm_compute; reflexivity|vm_compute; reflexivity]|]). destruct Hb.
  - intros [|[|f]] Hf; simpl in Hf; [left|left|lia]; reflexivity.
  - split; [reflexivity|]. change (Rabs (B2R (@Bone 24 128 eq_refl eq_refl)) <= Raux.bpow Zaux.radix2 126)%R. rewrite Bone_correct.
    rewrite Rabs_pos_eq by lra. apply Rle_trans with (Raux.bpow Zaux.radix2 0); [simpl; lra|apply Raux.bpow_le; lia].
  - change (0 < B2R (@Bone 24 128 eq_refl eq_refl))%R. rewrite Bone_correct. lra.
  - vm_compute. reflexivity.
Qed.

(** C25, C26, C27 without rounding: the training data of [exx_trained]. *)
Example exx_weights : exists bd,
  (forall s, params s = exx_params -> trained (@isorts XF) exx_data exx_sw 2 XNaN bd s (exx_train bd) [0; 1; 2] SNone) /\
  (forall x : xr, In x (tr_hess (exx_train bd)) -> xle (Fin 0) x = true) /\
  xle (Fin 0) (sp_l1 exx_params) = true /\ sp_l1 exx_params = Fin 0 /\ sp_max_delta_step exx_params = Fin 0 /\
  sp_l2 exx_params = Fin 1 /\ (0 < 1)%R /\ no_average (Branch exx_params [] AssignToParent true) /\
  (forall f, ~ constrained (Branch exx_params [] AssignToParent true) f) /\
  exists nodes st, @tree_fit XF DepthWise (fun _ _ => 0) (Branch exx_params [0] AverageLeafWeight false) (exx_train bd) [0; 1; 2] 10 5 SNone = Some (nodes, st).
Proof.
  destruct exx_trained as [bd T]. exists bd. split; [exact T|].
  split; [intros x [<-|[<-|[<-|[]]]]; apply Raux.Rle_bool_true; lra|].
  split; [apply Raux.Rle_bool_true; lra|]. split; [reflexivity|]. split; [reflexivity|]. split; [reflexivity|]. split; [lra|].
  split; [right; reflexivity|]. split; [intros f [E|E]; discriminate|].
  exact (C60_never_panics _ _ _ _ _ _ DepthWise (fun _ _ => 0) _ _ _ 10 5 _ (T (Branch exx_params [0] AverageLeafWeight false) eq_refl) eq_refl).
Qed.

Print Assumptions C23_max_delta_step. Print Assumptions C23_max_delta_step_exact. Print Assumptions C24_monotone.
Print Assumptions C24_monotone_below. Print Assumptions C24_monotone_exact. Print Assumptions C24_monotone_refuted.
Print Assumptions C25_brackets. Print Assumptions C25_no_abort. Print Assumptions C25_abort_refuted.
Print Assumptions C26_missing_branch. Print Assumptions C26_missing_weight. Print Assumptions C26_average_leaf_weight.
Print Assumptions C26_average_formula. Print Assumptions C27_missing_side. Print Assumptions C27_missing_right_by_default.
