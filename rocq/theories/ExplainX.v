(** Exact arithmetic: what a change of unit of the targets, and the exchange of the two labels, do to explanations. *)
From Coq Require Import List Arith Lia Bool Reals Lra.
From Flocq Require Import Core.Raux.
From Verif Require Import Prelude Float FloatX Data Utils Histogram HistogramProofs Node Splitter Tree Objective Metric Sampler Contrib Booster ContribProofs
  Scale ScaleFit ScaleX ScaleThm Explain.
Import ListNotations.
Local Open Scope R_scope.

Lemma add_swap : forall x y c, xadd (xadd x y) (Fin c) = xadd (xadd x (Fin c)) y.
Proof. intros [r| | |] [r'| | |] c; simpl; auto. f_equal. lra. Qed.
Lemma add_last : forall x y c, xadd (xadd x y) (Fin c) = xadd x (xadd y (Fin c)).
Proof. intros [r| | |] [r'| | |] c; simpl; auto. f_equal. lra. Qed.
Lemma neg_add : forall x y, xneg (xadd x y) = xadd (xneg x) (xneg y).
Proof. intros [r| | |] [r'| | |]; simpl; auto. f_equal. lra. Qed.
Lemma neg_mul_l : forall x y, xneg (xmul x y) = xmul (xneg x) y.
Proof. intros x y. rewrite <- !neg_mul. apply mul_assoc. lra. Qed.
Lemma neg_mul_r : forall x y, xneg (xmul x y) = xmul x (xneg y).
Proof. intros x y. rewrite <- !neg_mul. apply mul_assoc_r. lra. Qed.
Lemma neg_div : forall x y, xneg (xdiv x y) = xdiv (xneg x) y.
Proof. intros x y. rewrite <- !neg_mul. apply mul_div. lra. Qed.
Lemma neg_sub : forall x y, xneg (xsub x y) = xsub (xneg x) (xneg y).
Proof. intros x y. unfold xsub. apply neg_add. Qed.
Lemma neg_zero : xneg (Fin 0) = Fin 0.
Proof. simpl. f_equal. lra. Qed.
Lemma div_cancel : forall k x y, 0 < k -> xdiv (xmul (Fin k) x) (xmul (Fin k) y) = xdiv x y.
Proof.
  intros k [r| | |] [r'| | |] K; simpl; unfold xsgn; repeat rcase; simpl; auto; try lra; try nra; unfold xsgn; repeat rcase; simpl; auto; try lra; try nra.
  all: f_equal; field; split; lra.
Qed.

(** *** Importances *)
Section Imp.
Variables (s32 h sg : xr -> xr).
Hypothesis HA : forall x y, h (xadd x y) = xadd (h x) (h y).
Hypothesis H0 : h (Fin 0) = Fin 0.
Hypothesis HD : forall x y, h (xdiv x y) = xdiv (h x) y.
Hypothesis HL : forall x y, xlt (h x) (h y) = xlt x y.
Hypothesis HN : forall x, xisnan (h x) = xisnan x.
Hypothesis HC : forall x y, xdiv (h x) (h y) = xdiv x y.

Lemma insert_h : forall x l, @insert_f32 XF (h x) (map h l) = map h (@insert_f32 XF x l).
Proof. intros x. induction l as [|y l IH]; [reflexivity|]. simpl. rewrite HL. destruct (xlt y x); simpl; [rewrite IH|]; reflexivity. Qed.
Lemma sort_h : forall l, @sort_f32 XF (map h l) = option_map (map h) (@sort_f32 XF l).
Proof.
  intros l. unfold sort_f32. change (fcar (@f32 XF)) with xr. change (fisnan (@f32 XF)) with xisnan. rewrite map_length.
  assert (EN : existsb xisnan (map h l) = existsb xisnan l) by (induction l as [|x l IH]; simpl; [|rewrite HN, IH]; reflexivity).
  rewrite EN. destruct ((1 <? length l) && existsb xisnan l)%bool; [reflexivity|]. simpl. f_equal.
  clear EN. induction l as [|x l IH]; [reflexivity|]. cbn [map fold_right]. rewrite IH. apply insert_h.
Qed.
Lemma fsum_h : forall l, fsum (@f32 XF) (map h l) = h (fsum (@f32 XF) l).
Proof.
  intros l. unfold fsum. change (fzero (@f32 XF)) with (Fin 0). rewrite <- H0 at 1. generalize (Fin 0). induction l as [|x l IH]; intros z; [reflexivity|].
  cbn [map fold_left]. rewrite <- IH. f_equal. symmetry. apply HA.
Qed.
Definition hm : @Stats XF -> @Stats XF := map (fun '(k, (v, c)) => (k, (h v, c))).
Lemma importance_h : forall (b b' : @Booster XF) m normalize, gb_trees b' = map (map (@sn XF s32 sg)) (gb_trees b) ->
  (forall n, snd (@importance_stat XF m) (@sn XF s32 sg n) = h (snd (@importance_stat XF m) n)) ->
  @calculate_feature_importance XF b' m normalize =
  if normalize then @calculate_feature_importance XF b m true
  else option_map (map (fun kv => (fst kv, h (snd kv)))) (@calculate_feature_importance XF b m false).
Proof.
  intros b b' m normalize TS HS. unfold calculate_feature_importance. destruct (@importance_stat XF m) as [av stat]. cbn [snd] in HS.
  assert (NS : forall fuel nodes i s, @node_stats XF fuel stat (map (@sn XF s32 sg) nodes) i (hm s) = option_map hm (@node_stats XF fuel stat nodes i s))
    by (exact (proj2 (@stats_sn XF s32 sg stat stat h HS HA))).
  assert (AS : @all_stats XF stat (gb_trees b') = option_map hm (@all_stats XF stat (gb_trees b))).
  { unfold all_stats. rewrite TS. 
    change (foldM (fun s t => @node_stats XF (length t) stat t 0 s) (map (map (@sn XF s32 sg)) (gb_trees b)) (hm []) =
            option_map hm (foldM (fun s t => @node_stats XF (length t) stat t 0 s) (gb_trees b) [])). apply foldM_trees. intros s t. rewrite map_length. apply NS. }
  rewrite AS. destruct (@all_stats XF stat (gb_trees b)) as [st|]; [|destruct normalize; reflexivity]. cbn [option_map bind].
  set (im := map (fun '(k, (v, c)) => (k, if av then fdiv (@f32 XF) v (fofnat (@f32 XF) c) else v)) st).
  assert (IM : map (fun '(k, (v, c)) => (k, if av then fdiv (@f32 XF) v (fofnat (@f32 XF) c) else v)) (hm st) = map (fun kv => (fst kv, h (snd kv))) im).
  { unfold im, hm. rewrite !map_map. apply map_ext. intros [k [v c]]. cbn [fst snd]. destruct av; [|reflexivity]. f_equal. symmetry. apply HD. }
  rewrite IM. destruct normalize; [|reflexivity].
  assert (SM : forall q : list (nat * xr), @sort_f32 XF (map snd (map (fun kv => (fst kv, h (snd kv))) q)) = option_map (map h) (@sort_f32 XF (map snd q))).
  { intros q. rewrite <- sort_h, !map_map. reflexivity. }
  assert (FN : forall q : list (nat * xr),
    (let* sorted := @sort_f32 XF (map snd (map (fun kv => (fst kv, h (snd kv))) q)) in
     let total := fsum (@f32 XF) sorted in Some (map (fun '(k, v) => (k, fdiv (@f32 XF) v total)) (map (fun kv => (fst kv, h (snd kv))) q))) =
    (let* sorted := @sort_f32 XF (map snd q) in
     let total := fsum (@f32 XF) sorted in Some (map (fun '(k, v) => (k, fdiv (@f32 XF) v total)) q))).
  { intros q. rewrite SM. destruct (@sort_f32 XF (map snd q)) as [l|]; [|reflexivity]. cbn [option_map bind]. cbv zeta. f_equal. rewrite map_map.
    apply map_ext. intros [k v]. cbn [fst snd]. f_equal. etransitivity; [|apply HC]. exact (f_equal (xdiv (h v)) (fsum_h l)). }
  exact (FN im).
Qed.
End Imp.

(** *** Another unit *)
Section Unit.
Variables (a c : R).
Hypothesis A : a <> 0.
Notation sa := (fun x => xmul (Fin a) x).
Notation sq2 := (fun x => xmul (Fin (a * a)) x).
Notation fb := (fun x => xadd (xmul (Fin a) x) (Fin c)).
Section Model.
Variables b b' : @Booster XF.
Hypothesis TS : gb_trees b' = map (map (@sn XF sa sq2)) (gb_trees b).
Hypothesis PR : gb_pred b' = gb_pred b.
Hypothesis MI : p_missing (gb_params b') = p_missing (gb_params b).
Hypothesis PA : p_parallel (gb_params b') = p_parallel (gb_params b).
Hypothesis BS : gb_base_score b' = fb (gb_base_score b).
Lemma mz : xmul (Fin a) (Fin 0) = Fin 0.
Proof. simpl. f_equal. lra. Qed.
Lemma unit_contributions : forall sh data parallel m, m <> CProbabilityChange ->
  @predict_contributions XF sh b' data m parallel = option_map (@table XF sa fb (m_cols data)) (@predict_contributions XF sh b data m parallel).
Proof using A TS PR MI BS.
  intros sh data parallel m NP. apply (@contributions_table XF sa sa sq2); auto.
  - apply mz.
  - apply mz.
  - intros. apply mul_add; auto.
  - intros. apply mul_sub; auto.
  - intros. apply mul_assoc; auto.
  - intros. apply mul_assoc_r; auto.
  - intros. apply mul_div; auto.
  - intros. apply mul_add; auto.
  - intros. apply mul_sub; auto.
  - intros. apply mul_assoc_r; auto.
  - intros. apply mul_div; auto.
  - intros x d. change (xadd (xmul (Fin a) (xadd x d)) (Fin c) = xadd (xadd (xmul (Fin a) x) (Fin c)) (xmul (Fin a) d)). rewrite mul_add by auto. apply add_swap.
  - intros d x. change (xadd (xmul (Fin a) (xadd d x)) (Fin c) = xadd (xmul (Fin a) d) (xadd (xmul (Fin a) x) (Fin c))). rewrite mul_add by auto. apply add_last.
Qed.
Lemma unit_dependence : forall sh feature value,
  @value_partial_dependence XF sh b' feature value = option_map fb (@value_partial_dependence XF sh b feature value).
Proof using A TS PR MI PA BS.
  intros sh feature value. apply (@dependence_value XF sa sa sq2); auto.
  - apply mz.
  - intros. apply mul_assoc_r; auto.
  - intros. apply mul_add; auto.
  - intros d x. change (xadd (xmul (Fin a) (xadd d x)) (Fin c) = xadd (xmul (Fin a) d) (xadd (xmul (Fin a) x) (Fin c))). rewrite mul_add by auto. apply add_last.
Qed.
Lemma unit_importance : forall m,
  @calculate_feature_importance XF b' m true = @calculate_feature_importance XF b m true /\
  @calculate_feature_importance XF b' m false =
    match m with IGain | ITotalGain => option_map (map (fun kv => (fst kv, xmul (Fin (a * a)) (snd kv)))) (@calculate_feature_importance XF b m false)
               | _ => @calculate_feature_importance XF b m false end.
Proof using A TS.
  intros m. pose proof (a2 a A) as Q.
  assert (G : (forall n, snd (@importance_stat XF m) (@sn XF sa sq2 n) = xmul (Fin (a * a)) (snd (@importance_stat XF m) n)) ->
    forall nm, @calculate_feature_importance XF b' m nm = if nm then @calculate_feature_importance XF b m true
      else option_map (map (fun kv => (fst kv, xmul (Fin (a * a)) (snd kv)))) (@calculate_feature_importance XF b m false)).
  { intros HS nm. refine (importance_h sa sq2 sq2 _ _ _ _ _ _ b b' m nm TS HS).
    - intros. apply mul_add. lra.
    - simpl. f_equal. lra.
    - intros. apply mul_div. lra.
    - intros. apply mul_lt_pos. auto.
    - intros. apply mul_nan. lra.
    - intros. apply div_cancel. auto. }
  assert (I : (forall n, snd (@importance_stat XF m) (@sn XF sa sq2 n) = snd (@importance_stat XF m) n) ->
    forall nm, @calculate_feature_importance XF b' m nm = if nm then @calculate_feature_importance XF b m true
      else option_map (map (fun kv => (fst kv, snd kv))) (@calculate_feature_importance XF b m false)).
  { intros HS nm. refine (importance_h sa (fun x => x) sq2 _ _ _ _ _ _ b b' m nm TS HS); reflexivity. }
  assert (ID : forall o : option (list (nat * xr)), option_map (map (fun kv => (fst kv, snd kv))) o = o).
  { intros [l|]; simpl; auto. f_equal. rewrite <- (map_id l) at 2. apply map_ext. intros [? ?]; reflexivity. }
  destruct m; try (rewrite !G by reflexivity; split; reflexivity); (split; [rewrite I by reflexivity; reflexivity|]); rewrite I by reflexivity; apply ID.
Qed.
End Model.
End Unit.

(** *** The labels exchanged *)
Section Labels.
Variables b b' : @Booster XF.
Notation id32 := (fun x : xr => x).
Notation fb1 := (fun x => xsub (Fin 1) x).
Hypothesis TS : gb_trees b' = map (map (@sn XF xneg id32)) (gb_trees b).
Hypothesis PR : gb_pred b' = gb_pred b.
Hypothesis MI : p_missing (gb_params b') = p_missing (gb_params b).
Hypothesis PA : p_parallel (gb_params b') = p_parallel (gb_params b).
Hypothesis OB : p_objective (gb_params b') = p_objective (gb_params b).
Hypothesis BS : gb_base_score b' = xneg (gb_base_score b).
Lemma labels_contributions : forall sh data parallel m, m <> CProbabilityChange ->
  @predict_contributions XF sh b' data m parallel = option_map (@table XF xneg xneg (m_cols data)) (@predict_contributions XF sh b data m parallel).
Proof using TS PR MI BS.
  intros sh data parallel m NP. apply (@contributions_table XF xneg xneg id32); auto.
  - apply neg_zero.
  - apply neg_zero.
  - apply neg_add.
  - apply neg_sub.
  - apply neg_mul_l.
  - apply neg_mul_r.
  - apply neg_div.
  - apply neg_add.
  - apply neg_sub.
  - apply neg_mul_r.
  - apply neg_div.
  - apply neg_add.
  - apply neg_add.
Qed.
Lemma labels_dependence : forall sh feature value,
  @value_partial_dependence XF sh b' feature value = option_map xneg (@value_partial_dependence XF sh b feature value).
Proof using TS PR MI PA BS.
  intros sh feature value. apply (@dependence_value XF xneg xneg id32); auto.
  - apply neg_zero.
  - apply neg_mul_r.
  - apply neg_add.
  - apply neg_add.
Qed.
Lemma labels_importance : forall m nm, @calculate_feature_importance XF b' m nm = @calculate_feature_importance XF b m nm.
Proof using TS.
  intros m nm.
  assert (ID : forall o : option (list (nat * xr)), option_map (map (fun kv => (fst kv, snd kv))) o = o).
  { intros [l|]; simpl; auto. f_equal. rewrite <- (map_id l) at 2. apply map_ext. intros [? ?]; reflexivity. }
  assert (I : forall nm, @calculate_feature_importance XF b' m nm = if nm then @calculate_feature_importance XF b m true
      else option_map (map (fun kv => (fst kv, snd kv))) (@calculate_feature_importance XF b m false)).
  { intros n0. refine (importance_h xneg (fun x => x) id32 _ _ _ _ _ _ b b' m n0 TS _); try reflexivity. intros n. destruct m; reflexivity. }
  rewrite I. destruct nm; [reflexivity|apply ID].
Qed.

Notation oddsx := (@odds XF).
Lemma odds_neg : forall v, oddsx (xneg v) = xsub (Fin 1) (oddsx v).
Proof.
  intros v. change oddsx with (@sigmoid XF). destruct (sig_val v) as [[E ->]|(q & E1 & E2)].
  - simpl. reflexivity.
  - rewrite E1, E2. reflexivity.
Qed.
Lemma sub_sub : forall x y, xsub (xsub (Fin 1) x) (xsub (Fin 1) y) = xneg (xsub x y).
Proof. intros [r| | |] [r'| | |]; simpl; auto. f_equal. lra. Qed.
Lemma one_sub_add : forall x d, xsub (Fin 1) (xadd x d) = xadd (xsub (Fin 1) x) (xneg d).
Proof. intros [r| | |] [r'| | |]; simpl; auto. f_equal. lra. Qed.
Notation cl := (@cell XF xneg fb1).
Lemma cl_add : forall cols i x d, cl cols i (fadd (@f64 XF) x d) = fadd (@f64 XF) (cl cols i x) (xneg d).
Proof. intros cols i x d. unfold cell. destruct (i =? cols)%nat; [apply one_sub_add|apply neg_add]. Qed.

Lemma probability_tree : forall nodes row missing logodds cols v,
  @contrib_probability_change XF (map (@sn XF xneg id32) nodes) row missing (xneg logodds) (mapi (cl cols) 0 v) =
  option_map (fun lc => (xneg (fst lc), mapi (cl cols) 0 (snd lc))) (@contrib_probability_change XF nodes row missing logodds v).
Proof.
  intros nodes row missing logodds cols v. unfold contrib_probability_change. rewrite nth_sn, bind_map, map_bind. apply bind_ext. intros root _.
  assert (EB : forall l w : xr, xsub (oddsx (xadd (xneg l) (xneg w))) (oddsx (xneg l)) = xneg (xsub (oddsx (xadd l w)) (oddsx l))).
  { intros l w. rewrite <- neg_add, !odds_neg. apply sub_sub. }
  match goal with |- context [add_bias (mapi (cl cols) 0 v) ?d] =>
    change d with (xsub (oddsx (xadd (xneg logodds) (xneg (n_weight root)))) (oddsx (xneg logodds))) end.
  rewrite EB. rewrite (@add_bias_M XF xneg (cl cols) (cl_add cols)), bind_map, map_bind. apply bind_ext. intros v1 _. rewrite map_length.
  rewrite (@walk_M XF xneg xneg id32 (cl cols) (cl_add cols) nodes row missing
     (fun _ n ch => let* m := nth_error nodes ch in
        Some (Some (fsub (@f64 XF) (oddsx (fadd (@f64 XF) (to64 (n_weight m)) logodds)) (oddsx (fadd (@f64 XF) (to64 (n_weight n)) logodds)))))).
  - rewrite bind_map, map_bind. apply bind_ext. intros [leaf v2] _. cbn [fst snd sn n_weight option_map].
    do 2 f_equal. change (xadd (xneg logodds) (xneg (n_weight leaf)) = xneg (xadd logodds (n_weight leaf))). symmetry. apply neg_add.
  - intros i n ch. rewrite nth_sn, bind_map, map_bind. apply bind_ext. intros m _. cbn [sn n_weight option_map]. do 2 f_equal.
    change (xsub (oddsx (xadd (xneg (n_weight m)) (xneg logodds))) (oddsx (xadd (xneg (n_weight n)) (xneg logodds))) =
            xneg (xsub (oddsx (xadd (n_weight m) logodds)) (oddsx (xadd (n_weight n) logodds)))).
    rewrite <- !neg_add, !odds_neg. apply sub_sub.
Qed.
Lemma labels_probability : forall sh data parallel,
  @predict_contributions XF sh b' data CProbabilityChange parallel =
  option_map (@table XF xneg fb1 (m_cols data)) (@predict_contributions XF sh b data CProbabilityChange parallel).
Proof using TS PR MI OB BS.
  intros sh data parallel. unfold predict_contributions. rewrite OB. destruct (p_objective (gb_params b)); [|reflexivity].
  unfold predict_contributions_probability. apply rows_table.
  - intros row. unfold contrib_row_probability. rewrite (@trees_sn XF xneg id32 b b' TS PR), bind_map, map_bind. apply bind_ext. intros ts _. rewrite MI, BS.
    rewrite odds_neg. rewrite (@start_cell XF xneg neg_zero fb1 (m_cols data) (oddsx (gb_base_score b))).
    + change (xneg (gb_base_score b), mapi (cl (m_cols data)) 0 (@row_start XF (m_cols data) (oddsx (gb_base_score b)))) with
        ((fun lc : xr * list xr => (xneg (fst lc), mapi (cl (m_cols data)) 0 (snd lc))) (gb_base_score b, @row_start XF (m_cols data) (oddsx (gb_base_score b)))).
      rewrite (foldM_trees _ _ (fun '(acc, c) t => @contrib_probability_change XF t row (p_missing (gb_params b)) acc c) _ (map (@sn XF xneg id32))).
      * rewrite bind_map, map_bind. apply bind_ext. intros [l v] _. reflexivity.
      * intros [l v] t. cbn [fst snd]. apply probability_tree.
    + change (xsub (Fin 1) (xadd (Fin 0) (oddsx (gb_base_score b))) = xadd (Fin 0) (xsub (Fin 1) (oddsx (gb_base_score b)))).
      destruct (oddsx (gb_base_score b)); simpl; auto. f_equal. lra.
  - intros row v. apply contrib_row_probability_length.
Qed.
End Labels.
