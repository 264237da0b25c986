(** Exact arithmetic: a fit commutes with a change of unit, sign and origin of the targets (squared loss), and
    with the exchange of the two labels (log loss). *)
From Coq Require Import List Arith NArith Lia Bool Reals Lra.
From Flocq Require Import Core.Raux.
From Verif Require Import Prelude Float FloatX Data Utils Binning Histogram Node Splitter Tree Objective Metric Sampler Contrib Booster TrainMore Scale ScaleFit ScaleX.
Import ListNotations.
Local Open Scope R_scope.

Lemma F2_impl : forall A B (R S : A -> B -> Prop) l l', (forall x y, R x y -> S x y) -> Forall2 R l l' -> Forall2 S l l'.
Proof. intros A B R S l l' H F. induction F; constructor; auto. Qed.
Lemma F2_fun : forall A B (f : A -> B) l l', Forall2 (fun x x' => x' = f x) l l' -> l' = map f l.
Proof. induction 1; simpl; subst; auto. Qed.
Lemma fun_F2 : forall A B (f : A -> B) l, Forall2 (fun x x' => x' = f x) l (map f l).
Proof. induction l; simpl; auto. Qed.
Lemma orel_fun : forall A B (f : A -> B) o o', orel (fun x x' => x' = f x) o o' -> o' = option_map f o.
Proof. intros A B f [x|] [y|] H; simpl in *; subst; tauto. Qed.
Lemma fun_orel : forall A B (f : A -> B) o, orel (fun x x' => x' = f x) o (option_map f o).
Proof. intros A B f [x|]; simpl; auto. Qed.

Lemma fit_error : forall {FS : Floats} (E : Env) b data y w evals r, fit E b data y w evals = Some r -> snd r <> None -> fst r = b.
Proof.
  intros FS E b data y w evals r. unfold fit. destruct (validate_inputs y w evals); [intros HH _; injection HH as <-; reflexivity|].
  intros HH. inv_bind HH. injection HH as <-. simpl. tauto.
Qed.

(** With the base score taken from the data, the one the booster holds is not read. *)
Lemma fit_base : forall {FS : Floats} (E : Env) p x x' h i n ts md data y w es m, p_initialize_base_score p = true ->
  fit E (mkBooster p x h i n ts md) data y w es = Some (m, None) -> fit E (mkBooster p x' h i n ts md) data y w es = Some (m, None).
Proof.
  intros FS E p x x' h i n ts md data y w es m IN. unfold fit. destruct (validate_inputs y w es); [discriminate|].
  unfold fit_trees, fit_start. destruct ts; cbn [reset gb_params gb_base_score gb_history gb_best gb_pred gb_trees gb_metadata]; rewrite IN; auto.
Qed.
Lemma fit_keeps : forall {FS : Floats} (E : Env) b data y w es m, fit E b data y w es = Some (m, None) -> gb_params m = gb_params b.
Proof.
  intros FS E b data y w es m HF. unfold fit in HF. destruct (validate_inputs y w es); [discriminate|]. inv_bind HF. injection HF as <-.
  eapply fit_params. eassumption.
Qed.

(** *** The map on models: leaf weights times [a], gains times [a * a], scores through [f], metrics through [g]. *)
Section Map.
Variables (a : R) (f g : xr -> xr).
Definition scale_node (n : @Node XF) : @Node XF :=
  mkNode (n_num n) (sx a (n_weight n)) (n_hess n) (n_depth n) (n_split_value n) (n_split_feature n) (sq a (n_split_gain n))
    (n_missing n) (n_left n) (n_right n) (n_is_leaf n).
Definition turn_map (cm : ConstraintMap) : ConstraintMap := map (fun kc => (fst kc, turn (xneg_b a) (snd kc))) cm.
Definition scale_params (p : @Params XF) : @Params XF :=
  with_units p (sm a (p_l1 p)) (sq a (p_gamma p)) (sm a (p_max_delta_step p)) (option_map turn_map (p_monotone_constraints p)).
Definition scale_history (h : RowMajor xr) : RowMajor xr := mkRM (map g (r_data h)) (r_rows h) (r_cols h) (r_stride1 h) (r_stride2 h).
Definition scale_booster (b : @Booster XF) : @Booster XF :=
  mkBooster (scale_params (gb_params b)) (f (gb_base_score b)) (option_map scale_history (gb_history b)) (gb_best b) (gb_pred b)
    (map (map scale_node) (gb_trees b)) (gb_metadata b).

Lemma node_fun : forall n n', @node_rel XF (fun x x' => x' = sx a x) (fun x x' => x' = sq a x) n n' <-> n' = scale_node n.
Proof.
  intros n n'. split.
  - intros []. destruct n, n'; unfold scale_node; simpl in *; subst; reflexivity.
  - intros ->. constructor; reflexivity.
Qed.
Lemma trees_fun : forall ts ts', Forall2 (Forall2 (@node_rel XF (fun x x' => x' = sx a x) (fun x x' => x' = sq a x))) ts ts' <-> ts' = map (map scale_node) ts.
Proof.
  intros ts ts'. split.
  - intros F. apply F2_fun. eapply F2_impl; [|exact F]. intros l l' F'. apply F2_fun. eapply F2_impl; [|exact F']. apply node_fun.
  - intros ->. eapply F2_impl; [|apply fun_F2]. intros l l' ->. eapply F2_impl; [|apply fun_F2]. intros; apply node_fun; auto.
Qed.
Lemma history_fun : forall h h', hist_m (FS := XF) (fun x x' => x' = g x) h h' <-> h' = scale_history h.
Proof.
  intros [d r c s1 s2] [d' r' c' s1' s2']. unfold hist_m, scale_history. simpl. split.
  - intros (H & -> & -> & -> & ->). apply F2_fun in H. subst. reflexivity.
  - intros E. injection E as -> -> -> -> ->. repeat split; auto. apply fun_F2.
Qed.
Lemma booster_fun : forall p b b', booster_rel (fun x x' => x' = sx a x) (fun x x' => x' = sq a x) (fun x x' => x' = f x) (fun x x' => x' = g x)
   p (sm a (p_l1 p)) (sq a (p_gamma p)) (sm a (p_max_delta_step p)) (option_map turn_map (p_monotone_constraints p)) b b' ->
  b' = scale_booster b.
Proof.
  intros p b b' [[K1 K2 K3 K4 K5 K6 K7] KB]. apply trees_fun in K6.
  assert (H : gb_history b' = option_map scale_history (gb_history b)).
  { destruct (gb_history b), (gb_history b'); simpl in *; try tauto. f_equal. apply history_fun; auto. }
  destruct b, b'. unfold scale_booster. simpl in *. subst. reflexivity.
Qed.
Lemma kept_scale : forall b, kept_rel (FS := XF) (fun x x' => x' = sx a x) (fun x x' => x' = sq a x) (fun x x' => x' = g x)
   (gb_params b) (sm a (p_l1 (gb_params b))) (sq a (p_gamma (gb_params b))) (sm a (p_max_delta_step (gb_params b)))
   (option_map turn_map (p_monotone_constraints (gb_params b))) b (scale_booster b).
Proof.
  intros b. constructor; try reflexivity.
  - simpl. destruct (gb_history b); simpl; auto. apply history_fun. reflexivity.
  - simpl. apply trees_fun. reflexivity.
Qed.

Lemma assoc_turn : forall k cm, assoc k (turn_map cm) = option_map (turn (xneg_b a)) (assoc k cm).
Proof. intros k cm. induction cm as [|[k' c] cm IH]; simpl; auto. destruct (k =? k')%nat; auto. Qed.

Hypothesis A : a <> 0.
Lemma splitter_scale : forall p, xle (Fin 0) (p_l1 p) = true -> xle (Fin 0) (p_max_delta_step p) = true ->
  splitter_rel (FS := XF) (xneg_b a) (fun x x' => x' = sx a x) (fun x x' => x' = sq a x) (splitter_of p) (splitter_of (scale_params p)).
Proof.
  intros p H1 H2. unfold splitter_of. cbn [scale_params with_units p_create_missing_branch p_monotone_constraints].
  assert (PR : forall cm cm' , (forall k, assoc k cm' = oturn (xneg_b a) (assoc k cm)) ->
    params_rel (FS := XF) (xneg_b a) (fun x x' => x' = sx a x) (fun x x' => x' = sq a x)
      (mkSP (p_l1 p) (p_l2 p) (p_max_delta_step p) (p_gamma p) (p_min_leaf_weight p) (p_learning_rate p) (p_allow_missing_splits p) cm)
      (mkSP (p_l1 (scale_params p)) (p_l2 (scale_params p)) (p_max_delta_step (scale_params p)) (p_gamma (scale_params p))
            (p_min_leaf_weight (scale_params p)) (p_learning_rate (scale_params p)) (p_allow_missing_splits (scale_params p)) cm')).
  { intros cm cm' HC. constructor; try reflexivity; [|exact HC]. intros u u' h ->. apply weight_scale; auto. }
  assert (HC : forall k, assoc k (match option_map turn_map (p_monotone_constraints p) with Some m => m | None => [] end) =
     oturn (xneg_b a) (assoc k (match p_monotone_constraints p with Some m => m | None => [] end))).
  { intros k. destruct (p_monotone_constraints p) as [cm|]; simpl; auto. apply assoc_turn. }
  destruct (p_create_missing_branch p); constructor; apply PR; exact HC.
Qed.
End Map.

(** *** The common shape of the two theorems *)
Section Whole.
Variables (a : R) (ft fy g : xr -> xr).
Hypothesis A : a <> 0.
Definition map_evals : option (list (@EvalData XF)) -> option (list (@EvalData XF)) :=
  option_map (map (fun '(d, y, w) => (d, map ft y, w))).
Theorem whole_fit : forall (E : @Env XF) b data (y w : list xr) evals, let p := gb_params b in
  xle (Fin 0) (p_l1 p) = true -> xle (Fin 0) (p_max_delta_step p) = true ->
  (a < 0 -> p_create_missing_branch p = true -> p_force_children_to_bound_parent p = false) ->
  (p_grow_policy p = LossGuide -> forall i, order_based (e_pick E i)) ->
  (p_sample_method p = SGoss -> abs_based (e_goss E)) ->
  @FitLaws XF (fun x x' => x' = sx a x) (fun x x' => x' = sx a x) (fun x x' => x' = ft x) (fun x x' => x' = fy x) (p_objective p) ->
  (evals <> None -> @MetricLaws XF (fun x x' => x' = ft x) (fun x x' => x' = fy x) (fun x x' => x' = g x) (e_auc E) (get_metric p)) ->
  (p_initialize_base_score p = true ->
     orel (fun x x' => x' = fy x) (@calc_init XF (p_objective p) y w) (@calc_init XF (p_objective p) (map ft y) w)) ->
  fit E (scale_booster a fy g b) data (map ft y) w (map_evals evals) =
  option_map (fun r => (scale_booster a fy g (fst r), snd r)) (fit E b data y w evals).
Proof.
  intros E b data y w evals p H1 H2 NF PK GO FL ME IN.
  pose proof (fit_rel (FS := XF) (xneg_b a) (fun x x' => x' = sx a x) (fun x x' => x' = sq a x) (fun x x' => x' = sx a x)
    (fun x x' => x' = ft x) (fun x x' => x' = fy x) (fun x x' => x' = g x) (scale_laws a A) x_ord_laws E p
    (sm a (p_l1 p)) (sq a (p_gamma p)) (sm a (p_max_delta_step p)) (option_map (turn_map a) (p_monotone_constraints p))
    (splitter_scale a A p H1 H2)) as FR.
  specialize (FR ltac:(intros N; apply NF; unfold xneg_b in N; revert N; rcase; auto; discriminate)).
  specialize (FR (or_intror x_mid)).
  specialize (FR ltac:(intros PL; split; [apply PK; auto|apply x_total; auto])).
  specialize (FR GO FL evals ME (map_evals evals)).
  assert (EV : orel (Forall2 (eval_data_rel (fun x x' => x' = ft x))) evals (map_evals evals)).
  { destruct evals as [l|]; simpl; auto. clear. induction l as [|[[d v] u] l IH]; simpl; auto. constructor; auto. repeat split; simpl; auto. apply fun_F2. }
  specialize (FR EV b (scale_booster a fy g b) data y (map ft y) w (fun_F2 _ _ _ _) (kept_scale a fy g b)).
  assert (HB : if p_initialize_base_score p then orel (fun x x' => x' = fy x) (@calc_init XF (p_objective p) y w) (@calc_init XF (p_objective p) (map ft y) w)
    else gb_base_score (scale_booster a fy g b) = fy (gb_base_score b)).
  { destruct (p_initialize_base_score p); auto. }
  specialize (FR HB).
  pose proof (fun r => fit_error E b data y w evals r) as ER.
  pose proof (fun r => fit_error E (scale_booster a fy g b) data (map ft y) w (map_evals evals) r) as ER'.
  destruct (fit E b data y w evals) as [[m e]|]; destruct (fit E (scale_booster a fy g b) data (map ft y) w (map_evals evals)) as [[m' e']|];
    simpl in FR; try tauto. simpl. destruct FR as [F1 F2]. subst e'. f_equal. f_equal. destruct e as [e|].
  - specialize (ER _ eq_refl ltac:(discriminate)). specialize (ER' _ eq_refl ltac:(discriminate)). simpl in ER, ER'. subst. reflexivity.
  - eapply booster_fun. apply F2. reflexivity.
Qed.
Theorem whole_predict : forall b shs data parallel,
  @FitLaws XF (fun x x' => x' = sx a x) (fun x x' => x' = sx a x) (fun x x' => x' = ft x) (fun x x' => x' = fy x) (p_objective (gb_params b)) ->
  predict shs (scale_booster a fy g b) data parallel = option_map (map fy) (predict shs b data parallel).
Proof.
  intros b shs data parallel FL. apply orel_fun. eapply orel_impl; [|intros x x'; apply F2_fun].
  eapply (predict_rel (FS := XF) (xneg_b a) (fun x x' => x' = sx a x) (fun x x' => x' = sq a x) (fun x x' => x' = sx a x)
    (fun x x' => x' = ft x) (fun x x' => x' = fy x) (fun x x' => x' = g x) (scale_laws a A) _ _ _ _ _ FL).
  split; [apply kept_scale|reflexivity].
Qed.
End Whole.

(** *** Squared loss: y becomes a * y + c *)
Section Affine.
Variables a c : R.
Hypothesis A : a <> 0.
Definition aff (x : xr) : xr := xadd (xmul (Fin a) x) (Fin c).

Lemma aff_sub : forall x y, xsub (aff x) (aff y) = sx a (xsub x y).
Proof.
  intros x y. unfold aff, sx. rewrite mul_sub by auto. destruct (xmul (Fin a) x) as [r| | |], (xmul (Fin a) y) as [r'| | |]; simpl; auto. f_equal. lra.
Qed.
Lemma aff_add : forall x y, xadd (aff x) (sx a y) = aff (xadd x y).
Proof.
  intros x y. unfold aff, sx. rewrite mul_add by auto. destruct (xmul (Fin a) x) as [r| | |], (xmul (Fin a) y) as [r'| | |]; simpl; auto. f_equal. lra.
Qed.
Lemma aff_nan : forall x, xisnan (aff x) = xisnan x.
Proof. intros x. unfold aff. rewrite <- (mul_nan a x A). destruct (xmul (Fin a) x); reflexivity. Qed.

Lemma affine_fit_laws : @FitLaws XF (fun x x' => x' = sx a x) (fun x x' => x' = sx a x) (fun x x' => x' = aff x) (fun x x' => x' = aff x) SquaredLoss.
Proof.
  constructor.
  - intros x x' y y' -> ->. apply aff_add.
  - intros y y' ->. apply aff_nan.
  - intros y y' s s' w -> ->. split; [|reflexivity].
    change (xmul (xsub (aff s) (aff y)) w = sx a (xmul (xsub s y) w)). rewrite aff_sub. unfold sx. symmetry. apply mul_assoc; auto.
Qed.

Lemma fsum_scale : forall k (l : list xr), k <> 0 -> fsum XOps (map (xmul (Fin k)) l) = xmul (Fin k) (fsum XOps l).
Proof.
  intros k l K. unfold fsum. assert (Z : fzero XOps = xmul (Fin k) (fzero XOps)) by (simpl; f_equal; lra).
  rewrite Z at 1. generalize (fzero XOps). induction l as [|x l IH]; intros s; [reflexivity|].
  cbn [fold_left map]. rewrite <- IH. f_equal. symmetry. apply (mul_add k s x K).
Qed.
Lemma zip3_map : forall (f g : xr -> xr) (y s w : list xr), zip3 (map f y) (map g s) w = map (fun '(y, s, w) => (f y, g s, w)) (zip3 y s w).
Proof.
  intros f g y. unfold zip3. induction y as [|y0 y IH]; intros [|s0 s] [|w0 w]; simpl; auto. f_equal. apply IH.
Qed.
Lemma sqrt_scale : forall k x, 0 < k -> xsqrt (xmul (Fin (k * k)) x) = xmul (Fin k) (xsqrt x).
Proof.
  intros k x K. assert (KK : 0 < k * k) by nra. destruct x as [x| | |]; simpl; unfold xsgn.
  - destruct (Rlt_boolP x 0) as [[-> H]|[-> H]]; destruct (Rlt_boolP (k * k * x) 0) as [[-> H']|[-> H']]; simpl; auto; try nra.
    f_equal. rewrite sqrt_mult by nra. rewrite sqrt_square by lra. reflexivity.
  - repeat rcase; simpl; auto; lra.
  - repeat rcase; simpl; auto; lra.
  - reflexivity.
Qed.

Lemma affine_metric_laws : forall S, @MetricLaws XF (fun x x' => x' = aff x) (fun x x' => x' = aff x) (fun x x' => x' = sm a x) S RootMeanSquaredError.
Proof.
  intros S. assert (AB := a_abs a A). constructor.
  - intros y y' s s' w F1 F2. apply F2_fun in F1, F2. subst y' s'. simpl. unfold root_mean_squared_error, weighted_mean.
    rewrite zip3_map, !map_map.
    assert (E1 : map (fun x : xr * xr * xr => let '(y, yhat, w) := (let '(y, s, w) := x in (aff y, aff s, w)) in @rmse_row XF y yhat w) (zip3 y s w) =
      map (xmul (Fin (Rabs a * Rabs a))) (map (fun '(y, yhat, w) => @rmse_row XF y yhat w) (zip3 y s w))).
    { rewrite map_map. apply map_ext. intros [[u v] z].
      change (xmul (xmul (xsub (aff u) (aff v)) (xsub (aff u) (aff v))) z = xmul (Fin (Rabs a * Rabs a)) (xmul (xmul (xsub u v) (xsub u v)) z)).
      rewrite aff_sub, mul_sq by auto. unfold sq.
      assert (AA : Rabs a * Rabs a = a * a) by (unfold Rabs; destruct (Rcase_abs a); lra). rewrite AA. symmetry. apply mul_assoc. pose proof (a2 a A). lra. }
    assert (E2 : map (fun x : xr * xr * xr => snd (let '(y, s, w) := x in (aff y, aff s, w))) (zip3 y s w) = map snd (zip3 y s w)).
    { apply map_ext. intros [[u v] z]. reflexivity. }
    match goal with |- ?l = _ => change l with (xsqrt (xdiv (fsum XOps (map (fun x : xr * xr * xr => let '(y, yhat, w) := (let '(y, s, w) := x in (aff y, aff s, w)) in @rmse_row XF y yhat w) (zip3 y s w)))
      (fsum XOps (map (fun x : xr * xr * xr => snd (let '(y, s, w) := x in (aff y, aff s, w))) (zip3 y s w))))) end.
    rewrite E1, E2, fsum_scale by nra. rewrite <- mul_div by nra. rewrite sqrt_scale by auto. reflexivity.
  - intros x x' y y' -> ->. unfold is_comparison_better. simpl metric_maximize.
    change ((match xisnan (sm a x), xisnan (sm a y) with true, true | false, true => false | true, false => true | false, false => xlt (sm a y) (sm a x) end) =
            (match xisnan x, xisnan y with true, true | false, true => false | true, false => true | false, false => xlt y x end)).
    unfold sm. rewrite !mul_nan by lra. rewrite mul_lt_pos by auto. reflexivity.
Qed.

(** sums of the targets *)
Lemma init_fold : forall (y w : list xr) is s, (forall x, In x y -> xfin x) -> (forall x, In x w -> xfin x) ->
  forall u n, s = (Fin u, Fin n) ->
  exists r, orel (fun x x' => exists Y N, x = (Fin Y, Fin N) /\ x' = (Fin (a * Y + c * N), Fin N))
    (foldM (fun '(ytot, ntot) i => let* yi := nth_error y i in let* wi := nth_error w i in
           Some (xadd ytot (xmul wi yi), xadd ntot wi)) is s) r /\
    foldM (fun '(ytot, ntot) i => let* yi := nth_error (map aff y) i in let* wi := nth_error w i in
           Some (xadd ytot (xmul wi yi), xadd ntot wi)) is (Fin (a * u + c * n), Fin n) = r.
Proof.
  intros y w is. induction is as [|i is IH]; intros s FY FW u n ->; cbn [foldM].
  - eexists. split; [|reflexivity]. simpl. exists u, n. auto.
  - rewrite nth_error_map. destruct (nth_error y i) as [yi|] eqn:EY; [|exists None; simpl; auto].
    destruct (nth_error w i) as [wi|] eqn:EW; [|exists None; simpl; auto].
    destruct (FY yi (nth_error_In _ _ EY)) as [ry ->]. destruct (FW wi (nth_error_In _ _ EW)) as [rw ->].
    cbn [option_map bind aff xmul xadd].
    destruct (IH _ FY FW (u + rw * ry) (n + rw) eq_refl) as (r & R1 & R2). exists r. split; [exact R1|]. rewrite <- R2. f_equal. f_equal. f_equal. lra.
Qed.
Lemma affine_init : forall y w : list xr, (forall x, In x y -> xfin x) -> (forall x, In x w -> xfin x) ->
  orel (fun x x' => x' = aff x) (@calc_init XF SquaredLoss y w) (@calc_init XF SquaredLoss (map aff y) w).
Proof.
  intros y w FY FW. unfold calc_init, init_sums. rewrite map_length.
  destruct (init_fold y w (seq 0 (length y)) _ FY FW 0 0 eq_refl) as (r & R1 & R2).
  change (fzero f64, fzero f64) with (Fin 0, Fin 0).
  replace (a * 0 + c * 0) with 0 in R2 by lra.
  match goal with |- orel _ (bind ?e1 _) (bind ?e2 _) => change e1 with (foldM (fun '(ytot, ntot) i => let* yi := nth_error y i in let* wi := nth_error w i in
           Some (xadd ytot (xmul wi yi), xadd ntot wi)) (seq 0 (length y)) (Fin 0, Fin 0)); change e2 with
     (foldM (fun '(ytot, ntot) i => let* yi := nth_error (map aff y) i in let* wi := nth_error w i in
           Some (xadd ytot (xmul wi yi), xadd ntot wi)) (seq 0 (length y)) (Fin 0, Fin 0)) end.
  rewrite R2. eapply orel_bind; [exact R1|]. intros x x' (Y & N & -> & ->). simpl.
  destruct (Req_boolP N 0) as [[-> H]|[-> H]].
  - subst N. replace (a * Y + c * 0) with (a * Y) by lra. unfold aff, xsgn.
    destruct (Rlt_boolP 0 Y) as [[-> ?]|[-> ?]]; [|destruct (Rlt_boolP Y 0) as [[-> ?]|[-> ?]]]; simpl; unfold xsgn; repeat rcase; simpl; auto; nra.
  - unfold aff. simpl. f_equal. field. auto.
Qed.

Theorem affine_fit : forall (E : @Env XF) b data (y w : list xr) evals, let p := gb_params b in
  p_objective p = SquaredLoss -> xle (Fin 0) (p_l1 p) = true -> xle (Fin 0) (p_max_delta_step p) = true ->
  (a < 0 -> p_create_missing_branch p = true -> p_force_children_to_bound_parent p = false) ->
  (p_grow_policy p = LossGuide -> forall i, order_based (e_pick E i)) ->
  (p_sample_method p = SGoss -> abs_based (e_goss E)) ->
  (evals <> None -> p_evaluation_metric p = Some RootMeanSquaredError) ->
  (p_initialize_base_score p = true -> (forall x, In x y -> xfin x) /\ (forall x, In x w -> xfin x)) ->
  fit E (scale_booster a aff (sm a) b) data (map aff y) w (map_evals aff evals) =
  option_map (fun r => (scale_booster a aff (sm a) (fst r), snd r)) (fit E b data y w evals).
Proof.
  intros E b data y w evals p PO H1 H2 NF PK GO ME IN. apply whole_fit; auto.
  - fold p. rewrite PO. apply affine_fit_laws.
  - intros NE. unfold get_metric. fold p. rewrite (ME NE). apply affine_metric_laws.
  - intros I. destruct (IN I). fold p. rewrite PO. apply affine_init; auto.
Qed.
Theorem affine_predict : forall b shs data parallel, p_objective (gb_params b) = SquaredLoss ->
  predict shs (scale_booster a aff (sm a) b) data parallel = option_map (map aff) (predict shs b data parallel).
Proof. intros b shs data parallel PO. apply (whole_predict a aff aff (sm a) A). rewrite PO. apply affine_fit_laws. Qed.
End Affine.

(** A shift changes no parameter. *)
Lemma one_mul : forall x, xmul (Fin 1) x = x.
Proof. intros [r| | |]; simpl; unfold xsgn; repeat rcase; auto; try lra. f_equal. lra. Qed.
Lemma scale_node_1 : forall n, scale_node 1 n = n.
Proof.
  intros n. unfold scale_node, sx, sq.
  replace (xmul (Fin 1) (n_weight n)) with (n_weight n) by (rewrite one_mul; reflexivity).
  replace (xmul (Fin (1 * 1)) (n_split_gain n)) with (n_split_gain n) by (rewrite Rmult_1_r, one_mul; reflexivity).
  destruct n; reflexivity.
Qed.
Lemma scale_trees_1 : forall ts, map (map (scale_node 1)) ts = ts.
Proof.
  intros ts. transitivity (map (fun l : list (@Node XF) => l) ts); [|apply map_id]. apply map_ext. intros l.
  transitivity (map (fun n : @Node XF => n) l); [|apply map_id]. apply map_ext. apply scale_node_1.
Qed.
Lemma scale_params_1 : forall p, scale_params 1 p = p.
Proof.
  intros p. unfold scale_params, sm, sq.
  replace (xmul (Fin (Rabs 1)) (p_l1 p)) with (p_l1 p) by (rewrite Rabs_R1, one_mul; reflexivity).
  replace (xmul (Fin (Rabs 1)) (p_max_delta_step p)) with (p_max_delta_step p) by (rewrite Rabs_R1, one_mul; reflexivity).
  replace (xmul (Fin (1 * 1)) (p_gamma p)) with (p_gamma p) by (rewrite Rmult_1_r, one_mul; reflexivity).
  replace (option_map (turn_map 1) (p_monotone_constraints p)) with (p_monotone_constraints p); [destruct p; reflexivity|].
  destruct (p_monotone_constraints p) as [cm|]; simpl; auto. f_equal.
  unfold turn_map, turn, xneg_b. rewrite Rlt_bool_false by lra. induction cm as [|[k v] cm IH]; simpl; auto. rewrite <- IH. reflexivity.
Qed.
Lemma scale_history_1 : forall h, option_map (scale_history (sm 1)) h = h.
Proof.
  intros [[d r c s1 s2]|]; simpl; auto. unfold scale_history. simpl. f_equal. f_equal.
  transitivity (map (fun v : xr => v) d); [|apply map_id]. apply map_ext. intros v. unfold sm. rewrite Rabs_R1. apply one_mul.
Qed.
Theorem shift_fit : forall (E : @Env XF) b data (y w : list xr) c m, let p := gb_params b in
  p_objective p = SquaredLoss -> xle (Fin 0) (p_l1 p) = true -> xle (Fin 0) (p_max_delta_step p) = true ->
  (p_grow_policy p = LossGuide -> forall i, order_based (e_pick E i)) ->
  (p_sample_method p = SGoss -> abs_based (e_goss E)) ->
  p_initialize_base_score p = true -> (forall x, In x y -> xfin x) -> (forall x, In x w -> xfin x) ->
  fit E b data y w None = Some (m, None) ->
  exists m', fit E b data (map (fun v => xadd v (Fin c)) y) w None = Some (m', None) /\
    gb_trees m' = gb_trees m /\ gb_base_score m' = xadd (gb_base_score m) (Fin c) /\
    forall shs d par, predict shs m' d par = option_map (map (fun v => xadd v (Fin c))) (predict shs m d par).
Proof.
  intros E b data y w c m p PO H1 H2 PK GO IN FY FW HF.
  assert (EA : forall x, aff 1 c x = xadd x (Fin c)) by (intros x; unfold aff; rewrite one_mul; reflexivity).
  pose proof (affine_fit 1 c ltac:(lra) E b data y w None PO H1 H2 ltac:(intros; lra) PK GO ltac:(congruence) ltac:(auto)) as H.
  rewrite HF in H. cbn [option_map fst snd map_evals] in H. rewrite (map_ext _ _ EA) in H.
  exists (scale_booster 1 (aff 1 c) (sm 1) m). split; [|split; [|split]].
  - destruct b as [q1 q2 q3 q4 q5 q6 q7]. unfold scale_booster in H.
    cbn [gb_params gb_base_score gb_history gb_best gb_pred gb_trees gb_metadata] in H.
    rewrite scale_params_1, scale_trees_1, scale_history_1 in H. exact (fit_base E q1 _ q2 q3 q4 q5 q6 q7 data _ w None _ IN H).
  - apply scale_trees_1.
  - apply EA.
  - intros shs d par.
    assert (PM : p_objective (gb_params m) = SquaredLoss).
    { rewrite <- PO. unfold p. f_equal. exact (fit_keeps E b data y w None m HF). }
    rewrite (affine_predict 1 c ltac:(lra) m shs d par PM). destruct (predict shs m d par); simpl; auto. f_equal. apply map_ext. exact EA.
Qed.

(** *** Log loss: the two labels exchanged *)
Section Swap.
Definition other (y : xr) : xr := xsub (Fin 1) y.
Notation sig := (@sigmoid XF).

Lemma sig_val : forall x, sig x = XNaN /\ x = XNaN \/ exists p, sig x = Fin p /\ sig (xneg x) = Fin (1 - p).
Proof.
  intros [r| | |]; [right| right | right | left; auto]; unfold sigmoid; simpl.
  - pose proof (exp_pos (- r)) as E1. pose proof (exp_pos (- - r)) as E2.
    repeat rcase; try lra. eexists. split; [reflexivity|]. f_equal.
    assert (E : exp (- r) * exp (- - r) = 1) by (rewrite <- exp_plus; replace (- r + - - r) with 0 by lra; apply exp_0).
    replace (exp (- - r)) with (/ exp (- r)); [field; split; lra|]. apply (Rmult_eq_reg_l (exp (- r))); [|lra]. rewrite E. field. lra.
  - repeat rcase; try lra. exists 1. split; f_equal; field.
  - repeat rcase; try lra. exists 0. split; f_equal; field.
Qed.
Lemma neg_mul : forall x, sx (-1) x = xneg x.
Proof. intros [r| | |]; unfold sx; simpl; unfold xsgn; repeat rcase; auto; try lra. f_equal. lra. Qed.
Lemma other_other : forall y, xsub (Fin 1) (other y) = y.
Proof. intros [r| | |]; simpl; auto. f_equal. lra. Qed.

Lemma swap_fit_laws : @FitLaws XF (fun x x' => x' = sx (-1) x) (fun x x' => x' = sx (-1) x) (fun x x' => x' = other x) (fun x x' => x' = xneg x) LogLoss.
Proof.
  constructor.
  - intros x x' y y' -> ->. rewrite neg_mul. change (xadd (xneg x) (xneg y) = xneg (xadd x y)). destruct x, y; simpl; auto. f_equal. lra.
  - intros y y' ->. destruct y; reflexivity.
  - intros y y' s s' w -> ->. rewrite neg_mul.
    change (xmul (xsub (sig (xneg s)) (other y)) w = xneg (xmul (xsub (sig s) y) w) /\
            xmul (xmul (sig (xneg s)) (xsub (Fin 1) (sig (xneg s)))) w = xmul (xmul (sig s) (xsub (Fin 1) (sig s))) w).
    destruct (sig_val s) as [[E ->]|(q & E1 & E2)].
    + change (xneg XNaN) with XNaN in *. rewrite E. split; reflexivity.
    + rewrite E1, E2. split.
      * replace (xsub (Fin (1 - q)) (other y)) with (xmul (Fin (-1)) (xsub (Fin q) y)).
        -- rewrite <- mul_assoc by lra. apply neg_mul.
        -- destruct y as [r| | |]; simpl; unfold xsgn; repeat rcase; auto; try lra. f_equal. lra.
      * f_equal. simpl. f_equal. lra.
Qed.

Lemma swap_row : forall y s w, @logloss_row XF (other y) (xneg s) w = @logloss_row XF y s w.
Proof.
  intros y s w.
  change (xmul (xneg (xadd (xmul (other y) (xln (sig (xneg s)))) (xmul (xsub (Fin 1) (other y)) (xln (xsub (Fin 1) (sig (xneg s))))))) w =
          xmul (xneg (xadd (xmul y (xln (sig s))) (xmul (xsub (Fin 1) y) (xln (xsub (Fin 1) (sig s)))))) w).
  rewrite other_other. f_equal. f_equal. destruct (sig_val s) as [[E ->]|(q & E1 & E2)].
  - change (xneg XNaN) with XNaN. rewrite E. destruct y; reflexivity.
  - rewrite E1, E2. replace (xsub (Fin 1) (Fin (1 - q))) with (Fin q) by (simpl; f_equal; lra).
    change (xsub (Fin 1) (Fin q)) with (Fin (1 - q)). unfold other.
    generalize (xmul y (xln (Fin q))), (xmul (xsub (Fin 1) y) (xln (Fin (1 - q)))). intros [u| | |] [v| | |]; simpl; auto. f_equal. lra.
Qed.
Lemma swap_metric_laws : forall S, @MetricLaws XF (fun x x' => x' = other x) (fun x x' => x' = xneg x) (fun x x' => x' = x) S MLogLoss.
Proof.
  intros S. constructor.
  - intros y y' s s' w F1 F2. apply F2_fun in F1, F2. subst y' s'. simpl. unfold log_loss, weighted_mean.
    rewrite zip3_map, !map_map. f_equal; f_equal; apply map_ext; intros [[u v] z]; [apply swap_row|reflexivity].
  - intros x x' y y' -> ->. reflexivity.
Qed.

Lemma swap_fold : forall (y w : list xr) is s, (forall x, In x y -> exists r, x = Fin r /\ 0 <= r <= 1) -> (forall x, In x w -> exists r, x = Fin r /\ 0 <= r) ->
  forall u n, 0 <= u <= n -> s = (Fin u, Fin n) ->
  exists r, orel (fun x x' => exists Y N, 0 <= Y <= N /\ x = (Fin Y, Fin N) /\ x' = (Fin (N - Y), Fin N))
    (foldM (fun '(ytot, ntot) i => let* yi := nth_error y i in let* wi := nth_error w i in
           Some (xadd ytot (xmul wi yi), xadd ntot wi)) is s) r /\
    foldM (fun '(ytot, ntot) i => let* yi := nth_error (map other y) i in let* wi := nth_error w i in
           Some (xadd ytot (xmul wi yi), xadd ntot wi)) is (Fin (n - u), Fin n) = r.
Proof.
  intros y w is. induction is as [|i is IH]; intros s FY FW u n B ->; cbn [foldM].
  - eexists. split; [|reflexivity]. simpl. exists u, n. auto.
  - rewrite nth_error_map. destruct (nth_error y i) as [yi|] eqn:EY; [|exists None; simpl; auto].
    destruct (nth_error w i) as [wi|] eqn:EW; [|exists None; simpl; auto].
    destruct (FY yi (nth_error_In _ _ EY)) as (ry & -> & B1). destruct (FW wi (nth_error_In _ _ EW)) as (rw & -> & B2).
    change (option_map other (Some (Fin ry))) with (Some (Fin (1 + - ry))). cbn [bind xmul xadd].
    destruct (IH _ FY FW (u + rw * ry) (n + rw) ltac:(nra) eq_refl) as (r & R1 & R2). exists r. split; [exact R1|]. rewrite <- R2. f_equal. f_equal. f_equal. lra.
Qed.
Lemma swap_init : forall y w : list xr, (forall x, In x y -> exists r, x = Fin r /\ 0 <= r <= 1) -> (forall x, In x w -> exists r, x = Fin r /\ 0 <= r) ->
  orel (fun x x' => x' = xneg x) (@calc_init XF LogLoss y w) (@calc_init XF LogLoss (map other y) w).
Proof.
  intros y w FY FW. unfold calc_init, init_sums. rewrite map_length.
  destruct (swap_fold y w (seq 0 (length y)) _ FY FW 0 0 ltac:(lra) eq_refl) as (r & R1 & R2).
  change (fzero f64, fzero f64) with (Fin 0, Fin 0).
  replace (0 - 0) with 0 in R2 by lra.
  match goal with |- orel _ (bind ?e1 _) (bind ?e2 _) => change e1 with (foldM (fun '(ytot, ntot) i => let* yi := nth_error y i in let* wi := nth_error w i in
           Some (xadd ytot (xmul wi yi), xadd ntot wi)) (seq 0 (length y)) (Fin 0, Fin 0)); change e2 with
     (foldM (fun '(ytot, ntot) i => let* yi := nth_error (map other y) i in let* wi := nth_error w i in
           Some (xadd ytot (xmul wi yi), xadd ntot wi)) (seq 0 (length y)) (Fin 0, Fin 0)) end.
  rewrite R2. eapply orel_bind; [exact R1|]. intros x x' (Y & N & B & -> & ->).
  change (xln (xdiv (Fin (N - Y)) (xsub (Fin N) (Fin (N - Y)))) = xneg (xln (xdiv (Fin Y) (xsub (Fin N) (Fin Y))))).
  change (xsub (Fin N) (Fin (N - Y))) with (Fin (N + - (N - Y))). replace (N + - (N - Y)) with Y by lra.
  change (xsub (Fin N) (Fin Y)) with (Fin (N - Y)). assert (D : 0 <= N - Y) by lra. revert D. generalize (N - Y) as D. intros D HD.
  destruct B as [B _]. clear N R1 R2 FY FW. simpl.
  destruct (Req_boolP Y 0) as [[-> EY]|[-> NY]], (Req_boolP D 0) as [[-> ED]|[-> ND]]; unfold xsgn.
  - subst. repeat rcase; try lra. reflexivity.
  - subst Y. replace (0 / D) with 0 by (field; auto). repeat (rcase; try lra; simpl); reflexivity.
  - subst D. replace (0 / Y) with 0 by (field; auto). repeat (rcase; try lra; simpl); reflexivity.
  - assert (P1 : 0 < Y / D) by (apply Rdiv_lt_0_compat; lra). assert (P2 : 0 < D / Y) by (apply Rdiv_lt_0_compat; lra). simpl.
    destruct (Rlt_boolP 0 (Y / D)) as [[-> ?]|[-> ?]]; [|lra]. destruct (Rlt_boolP 0 (D / Y)) as [[-> ?]|[-> ?]]; [|lra].
    simpl. f_equal. unfold Rdiv. rewrite !ln_mult, !ln_Rinv by (try apply Rinv_0_lt_compat; lra). lra.
Qed.

Theorem swap_fit : forall (E : @Env XF) b data (y w : list xr) evals, let p := gb_params b in
  p_objective p = LogLoss -> xle (Fin 0) (p_l1 p) = true -> xle (Fin 0) (p_max_delta_step p) = true ->
  (p_create_missing_branch p = true -> p_force_children_to_bound_parent p = false) ->
  (p_grow_policy p = LossGuide -> forall i, order_based (e_pick E i)) ->
  (p_sample_method p = SGoss -> abs_based (e_goss E)) ->
  (evals <> None -> get_metric p = MLogLoss) ->
  (p_initialize_base_score p = true -> (forall x, In x y -> exists r, x = Fin r /\ 0 <= r <= 1) /\ (forall x, In x w -> exists r, x = Fin r /\ 0 <= r)) ->
  fit E (scale_booster (-1) xneg (fun m => m) b) data (map other y) w (map_evals other evals) =
  option_map (fun r => (scale_booster (-1) xneg (fun m => m) (fst r), snd r)) (fit E b data y w evals).
Proof.
  intros E b data y w evals p PO H1 H2 NF PK GO ME IN. apply whole_fit; auto; try lra.
  - fold p. rewrite PO. apply swap_fit_laws.
  - intros NE. fold p. rewrite (ME NE). apply swap_metric_laws.
  - intros I. destruct (IN I). fold p. rewrite PO. apply swap_init; auto.
Qed.
Theorem swap_predict : forall b shs data parallel, p_objective (gb_params b) = LogLoss ->
  predict shs (scale_booster (-1) xneg (fun m => m) b) data parallel = option_map (map xneg) (predict shs b data parallel).
Proof. intros b shs data parallel PO. apply (whole_predict (-1) other xneg (fun m => m) ltac:(lra)). rewrite PO. apply swap_fit_laws. Qed.
End Swap.
