(** The boosting loop: what a fitted model consists of. *)
From Coq Require Import List Arith Lia Bool String.
From Verif Require Import Prelude Float FloatLaws OrdProofs Data DataProofs Utils Binning BinMatrix Histogram HistogramProofs Node Splitter
  SplitProofs Tree GrowInv TreeWf TreeProofs FitProofs FitSplits Objective Metric MetricProofs Sampler Contrib Booster PredictProofs.
Import ListNotations.

Section Boost.
Context {FS : Floats}.

(** *** Features used by a fitted tree *)
Lemma fit_split_col : forall policy pick s t index ml md sm nodes st,
  tree_fit policy pick s t index ml md sm = Some (nodes, st) ->
  forall n, In n nodes -> n_is_leaf n = false -> In (n_split_feature n) (tr_cols t).
Proof.
  intros policy pick s t index ml md sm nodes st H n Hn Hl.
  destruct (fit_ghost _ _ _ _ _ _ _ _ _ _ H) as (root & g & HR & I & G).
  apply In_nth_error in Hn. destruct Hn as [i Hi]. destruct (G _ _ Hi) as (x & Hx & E & V & R).
  apply reweighted_eq in R. destruct R as (R1 & R2 & R3 & R4 & R5 & R6 & R7 & R8 & R9 & R10 & _).
  rewrite R10 in Hl. destruct (gnode_leaf s t md _ V Hl) as [si HS].
  destruct (gsplit_best _ _ _ _ _ V HS) as [HB HML].
  destruct (gsplit_node _ _ _ _ _ V HS) as (_ & F1 & F2 & F3).
  destruct (best_split_admissible _ _ _ _ HB) as (k & j & A).
  destruct A as [f missing bins bin Hf Hcol Hb HC].
  destruct (candidate_inv _ _ _ _ _ _ _ _ _ HC) as (l & r & m & _ & F & _).
  rewrite R5, F1, F. eapply nth_error_In; eauto.
Qed.

Lemma insert_nat_in : forall x l y, In y (insert_nat x l) <-> y = x \/ In y l.
Proof.
  induction l as [|a l IH]; simpl; intros y; [intuition|].
  destruct (x <=? a); simpl; [intuition|]. rewrite IH. intuition.
Qed.
Lemma sort_nat_in : forall l y, In y (sort_nat l) <-> In y l.
Proof. induction l as [|a l IH]; simpl; intros y; [tauto|]. rewrite insert_nat_in, IH. intuition. Qed.

Definition rng_ok (E : Env) (p : Params) : Prop := (p_colsample_bytree p =? fone f64)%f64 = true \/ RngSpec (e_rng E (p_seed p)).

Lemma column_sample_bound : forall E p n cols l n', rng_ok E p -> column_sample E p n cols = (l, n') ->
  forall c, In c l -> c < cols.
Proof.
  intros E p n cols l n' R H c Hc. unfold column_sample in H. destruct (_ =? _)%f64 eqn:EQ.
  - injection H as <- <-. apply in_seq in Hc. lia.
  - destruct R as [R|R]; [unfold F64 in *; congruence|]. injection H as <- <-. apply (proj1 (sort_nat_in _ _)) in Hc.
    destruct (rs_choose _ R n (ftonat f64 (fofnat f64 cols * p_colsample_bytree p)%f64) (seq 0 cols) (seq_NoDup _ _)) as (_ & I & _).
    apply I in Hc. apply in_seq in Hc. lia.
Qed.

Lemma combine_app2 : forall A B (a : list A) (b : list B) a' b', List.length a = List.length b ->
  combine (a ++ a') (b ++ b') = combine a b ++ combine a' b'.
Proof. induction a as [|x a IH]; intros [|z b] a' b' H; simpl in *; try discriminate; auto. f_equal. auto. Qed.

Section Run.
Variables (E : Env) (data : Matrix F64) (y w : list F64) (bd : BinnedData) (p : Params) (base : F64).
Notation miss := (p_missing p).

(** Tree number k, given the earlier trees: grown on the gradients of the objective at the
    predictions of the earlier trees, after row and column sampling. *)
Definition tree_step (k : nat) (earlier : list (list Node)) (nodes : list Node) : Prop :=
  exists yhat n chosen grad hess n' cols n'' st,
    preds_after miss earlier data (repeat base (List.length y)) = Some yhat /\
    sample_index E p n (m_index data) (fst (calc_grad_hess (p_objective p) y yhat w))
      (snd (calc_grad_hess (p_objective p) y yhat w)) = Some (chosen, grad, hess, n') /\
    column_sample E p n' (m_cols data) = (cols, n'') /\
    tree_fit (p_grow_policy p) (e_pick E k) (splitter_of p)
      (mkTrain (matrix_new (b_data bd) (m_rows data) (m_cols data)) (b_cuts bd) grad hess cols) chosen
      (p_max_leaves p) (p_max_depth p) (p_sample_method p) = Some (nodes, st).

Lemma tree_step_wf : forall k ts nodes, tree_step k ts nodes -> well_formed nodes.
Proof.
  intros k ts nodes (yhat & n & chosen & grad & hess & n' & cols & n'' & st & _ & _ & _ & H).
  eapply fit_well_formed; eauto.
Qed.
Lemma tree_step_features : forall k ts nodes, rng_ok E p -> tree_step k ts nodes ->
  forall f, tree_features nodes f -> f < m_cols data.
Proof.
  intros k ts nodes R (yhat & n & chosen & grad & hess & n' & cols & n'' & st & _ & _ & HC & H) f (m & Hm & Hl & <-).
  eapply column_sample_bound; eauto. change cols with (tr_cols (mkTrain (matrix_new (b_data bd) (m_rows data) (m_cols data)) (b_cuts bd) grad hess cols)).
  eapply fit_split_col; eauto.
Qed.

(** *** Predictions along the trees *)
Lemma preds_after_snoc : forall ts t d y0, preds_after miss (ts ++ [t]) d y0 =
  (let* yh := preds_after miss ts d y0 in let* pr := tree_predict t d miss in Some (add_preds yh pr)).
Proof.
  intros. unfold preds_after. rewrite foldM_app. destruct (foldM _ ts y0); simpl; auto.
  destruct (tree_predict t d miss); simpl; auto.
Qed.
Lemma update_serial : forall sh yh t d, update_predictions p sh yh t d = (let* pr := tree_predict t d miss in Some (add_preds yh pr)).
Proof. intros. unfold update_predictions. rewrite any_serial. reflexivity. Qed.

Definition eval_preds (ts : list (list Node)) (d : EvalData) (yh : list F64) : Prop :=
  preds_after miss ts (fst (fst d)) (repeat base (List.length (snd (fst d)))) = Some yh.
Definition eval_metric (ts : list (list Node)) (d : EvalData) (m : F64) : Prop :=
  exists yh, eval_preds ts d yh /\ metric_fn (e_auc E) (get_metric p) (snd (fst d)) yh (snd d) = Some m.

Lemma eval_loop_spec : forall nodes ts i n es j yhs s sets' ms s',
  Forall2 (eval_preds ts) es yhs -> j + List.length es = n ->
  eval_loop E p nodes i j n (combine es yhs) s = Some (sets', ms, s') ->
  (exists yhs', sets' = combine es yhs' /\ Forall2 (eval_preds (ts ++ [nodes])) es yhs') /\
  Forall2 (eval_metric (ts ++ [nodes])) es ms /\
  (es = [] -> s' = s) /\
  (forall pre m, ms = pre ++ [m] -> s' = early_stop (p_early_stopping_rounds p) (metric_maximize (get_metric p)) i m s).
Proof.
  induction es as [|[[d ey] ew] es IH]; intros j yhs s sets' ms s' F L H; inversion F; subst; simpl in *.
  - injection H as <- <- <-. split; [exists []; auto|]. split; auto. split; auto. intros [|? ?] m HH; discriminate.
  - rewrite update_serial in H. inv_bind H. inv_bind E0. injection E0 as <-. inv_bind H. inv_bind H. rename E2 into E3. destruct v1 as [[sets2 ms2] s2].
    injection H as <- <- <-. simpl in *.
    assert (EP : eval_preds (ts ++ [nodes]) (d, ey, ew) (add_preds y0 v0)).
    { unfold eval_preds in *. simpl in *. rewrite preds_after_snoc. rewrite H2. simpl. rewrite E1. reflexivity. }
    destruct (Nat.eqb_spec (j + 1) (j + S (List.length es))) as [EQ|NQ].
    + destruct es; [|simpl in EQ; lia]. inversion H4; subst. simpl in E3. injection E3 as <- <- <-.
      split; [exists [add_preds y0 v0]; split; auto|]. split; [constructor; auto; exists (add_preds y0 v0); auto|].
      split; [discriminate|]. intros [|a pre] m HH; simpl in HH; [|destruct pre; discriminate]. injection HH as ->. auto.
    + destruct (IH (S j) _ _ _ _ _ H4 ltac:(lia) E3) as ((yhs' & -> & F1) & F2 & F3 & F4).
      split; [exists (add_preds y0 v0 :: yhs'); split; auto|].
      split; [constructor; auto; exists (add_preds y0 v0); auto|]. split; [discriminate|].
      intros [|a pre] m HH; simpl in HH.
      * injection HH as -> ->. inversion F2; subst. simpl in NQ. lia.
      * injection HH as -> ->. eapply F4; eauto.
Qed.

(** *** The stopping state as a fold over the metrics *)
Definition stop_fold (ms : list F64) (s0 : Stop) : Stop :=
  fold_left (fun s '(i, m) => early_stop (p_early_stopping_rounds p) (metric_maximize (get_metric p)) i m s)
    (combine (seq 0 (List.length ms)) ms) s0.
Lemma stop_fold_snoc : forall ms m s0, stop_fold (ms ++ [m]) s0 =
  early_stop (p_early_stopping_rounds p) (metric_maximize (get_metric p)) (List.length ms) m (stop_fold ms s0).
Proof.
  intros. unfold stop_fold. rewrite app_length. simpl. rewrite seq_app. simpl.
  rewrite (combine_app2 _ _ (seq 0 (List.length ms)) ms [List.length ms] [m]) by (rewrite seq_length; auto).
  rewrite fold_left_app. reflexivity.
Qed.

Variables (md : list (string * string)) (best0 pred0 : option nat).
Definition stop0 : Stop := mkStop None best0 pred0 false.

(** the history after k trees: one row per tree *)
Definition hist_of_rows (k n : nat) (rows : list (list F64)) : option (RowMajor F64) :=
  match k with 0 => None | _ => Some (mkRowMajor (List.concat rows) k n) end.
Record BI (es : option (list EvalData)) (k : nat) (l : Loop) : Prop := mkBI {
  bi_params : gb_params (l_booster l) = p;
  bi_base : gb_base_score (l_booster l) = base;
  bi_meta : gb_metadata (l_booster l) = md;
  bi_len : List.length (gb_trees (l_booster l)) = k;
  bi_yhat : preds_after miss (gb_trees (l_booster l)) data (repeat base (List.length y)) = Some (l_yhat l);
  bi_grad : l_stop l = false -> (l_grad l, l_hess l) = calc_grad_hess (p_objective p) y (l_yhat l) w;
  bi_trees : forall j t, nth_error (gb_trees (l_booster l)) j = Some t -> tree_step j (firstn j (gb_trees (l_booster l))) t;
  bi_evals : match es with
    | None => l_evals l = None /\ gb_history (l_booster l) = None /\
        mkStop (l_best_metric l) (gb_best (l_booster l)) (gb_pred (l_booster l)) (l_stop l) = stop0
    | Some es => exists yhs rows ms,
        l_evals l = Some (combine es yhs) /\ Forall2 (eval_preds (gb_trees (l_booster l))) es yhs /\
        gb_history (l_booster l) = hist_of_rows k (List.length es) rows /\ (k <> 0 -> es <> []) /\
        List.length rows = k /\
        (forall j r, nth_error rows j = Some r -> Forall2 (eval_metric (firstn (S j) (gb_trees (l_booster l)))) es r) /\
        Forall2 (fun r m => exists pre, r = pre ++ [m]) rows ms /\
        mkStop (l_best_metric l) (gb_best (l_booster l)) (gb_pred (l_booster l)) (l_stop l) = stop_fold ms stop0 /\
        (forall j, j < k -> s_stop (stop_fold (firstn j ms) stop0) = false)
    end }.

Lemma firstn_snoc : forall A (l : list A) j a, j <= List.length l -> firstn j (l ++ [a]) = firstn j l.
Proof. intros. rewrite firstn_app. replace (j - List.length l) with 0 by lia. simpl. apply app_nil_r. Qed.

Lemma combine_fst : forall A B (l : list A) (r : list B), List.length (combine l r) = List.length r -> List.length r = List.length l ->
  map fst (combine l r) = l.
Proof. induction l as [|a l IH]; intros [|b r] H H'; simpl in *; try discriminate; auto. f_equal. apply IH; lia. Qed.

Lemma boost_step_BI : forall es k l l', BI es k l -> l_stop l = false ->
  boost_step E data y w bd k l = Some l' -> BI es (S k) l'.
Proof.
  intros es k l l' B NS H. destruct B as [B1 B2 B3 B4 B5 B6 B7 B8]. specialize (B6 NS).
  unfold boost_step in H. rewrite B1 in H. rewrite (f_equal fst B6 : l_grad l = _), (f_equal snd B6 : l_hess l = _) in H.
  inv_bind H. destruct v as [[[chosen grad] hess] n']. destruct (column_sample E p n' (m_cols data)) as [cols n''] eqn:EC.
  inv_bind H. destruct v as [nodes st]. rewrite update_serial in H. inv_bind H. inv_bind E2. injection E2 as <-. rename v0 into pr.
  inv_bind H. destruct v as [[hist evals] s].
  set (trees := gb_trees (l_booster l)) in *.
  assert (PS : preds_after miss (trees ++ [nodes]) data (repeat base (List.length y)) = Some (add_preds (l_yhat l) pr)).
  { rewrite preds_after_snoc, B5. simpl. rewrite E3. reflexivity. }
  assert (TS : tree_step k trees nodes).
  { exists (l_yhat l), (l_rng l), chosen, grad, hess, n', cols, n'', st. auto. }
  assert (TT : forall j t, nth_error (trees ++ [nodes]) j = Some t -> tree_step j (firstn j (trees ++ [nodes])) t).
  { intros j t Ht. destruct (Nat.lt_ge_cases j (List.length trees)) as [Hj|Hj].
    - rewrite nth_error_app1 in Ht by auto. rewrite firstn_snoc by lia. auto.
    - rewrite nth_error_app2 in Ht by auto. destruct (j - List.length trees) as [|m] eqn:Em; simpl in Ht; [|destruct m; discriminate].
      injection Ht as <-. assert (j = k) by lia. subst j. rewrite firstn_snoc by lia. rewrite firstn_all2 by lia. auto. }
  assert (GR : s_stop s = false -> (if s_stop s then (grad, hess) else calc_grad_hess (p_objective p) y (add_preds (l_yhat l) pr) w)
     = calc_grad_hess (p_objective p) y (add_preds (l_yhat l) pr) w) by (intros ->; auto).
  destruct (if s_stop s then (grad, hess) else calc_grad_hess (p_objective p) y (add_preds (l_yhat l) pr) w) as [g h].
  injection H as <-.
  constructor; cbn [l_booster l_yhat l_grad l_hess l_evals l_best_metric l_rng l_stop gb_params gb_base_score gb_history gb_best gb_pred gb_trees gb_metadata]; auto.
  { rewrite app_length. simpl. lia. }
  destruct es as [es|].
  - destruct B8 as (yhs & rows & ms & A1 & A2 & A3 & A4 & A5 & A6 & A7 & A8 & A9).
    rewrite A1 in E2. inv_bind E2. destruct v as [[sets' mm] s2]. inv_bind E2. injection E2 as <- <- <-.
    assert (LC : List.length (combine es yhs) = List.length es) by (rewrite combine_length, <- (F2_length A2); lia).
    rewrite LC in *.
    destruct (eval_loop_spec nodes trees k (List.length es) es 0 yhs _ _ _ _ A2 (eq_refl _) E4) as ((yhs' & -> & F1) & F2 & F3 & F4).
    rename v into h'. rename E5 into EA.
    assert (NE : es <> [] /\ h' = mkRowMajor (List.concat (rows ++ [mm])) (S k) (List.length es)).
    { assert (Q : forall h0, h0 = mkRowMajor (List.concat rows) k (List.length es) -> r_append_row h0 mm = Some h' ->
         es <> [] /\ h' = mkRowMajor (List.concat (rows ++ [mm])) (S k) (List.length es)).
      { intros h0 -> HA. unfold r_append_row in HA. simpl in HA. rewrite <- (F2_length F2) in HA.
        destruct (Nat.eqb_spec (List.length es) 0) as [|N0]; [discriminate|].
        rewrite Nat.mod_same, Nat.div_same in HA by auto. simpl in HA. injection HA as <-.
        split; [destruct es; auto; discriminate|]. rewrite concat_app. simpl. rewrite app_nil_r, Nat.add_1_r. reflexivity. }
      rewrite A3 in EA. unfold hist_of_rows in EA. destruct k as [|k0].
      - destruct rows; [|discriminate]. apply (Q (mkRowMajor [] 0 (List.length es))); auto.
      - apply (Q _ eq_refl EA). }
    destruct NE as [NE ->].
    assert (LM : exists pre m, mm = pre ++ [m]).
    { destruct (@exists_last _ mm) as (pre & m & ->); eauto. intros ->. inversion F2; subst. auto. }
    destruct LM as (pre & m & ->). specialize (F4 pre m eq_refl).
    exists yhs', (rows ++ [pre ++ [m]]), (ms ++ [m]).
    split; auto. split; auto. split; [reflexivity|]. split; auto. split; [rewrite app_length; simpl; lia|].
    assert (LMS : List.length ms = k) by (rewrite <- (F2_length A7); auto).
    split; [|split; [|split]].
    + intros j r Hr. destruct (Nat.lt_ge_cases j (List.length rows)) as [Hj|Hj].
      * rewrite nth_error_app1 in Hr by auto. rewrite firstn_snoc by lia. auto.
      * rewrite nth_error_app2 in Hr by auto. destruct (j - List.length rows) as [|q] eqn:Em; simpl in Hr; [|destruct q; discriminate].
        injection Hr as <-. rewrite firstn_all2 by (rewrite app_length; simpl; lia). auto.
    + apply Forall2_app; auto. constructor; [eauto|constructor].
    + rewrite stop_fold_snoc, LMS, <- A8. simpl in F4. destruct s2; simpl in *. auto.
    + intros j Hj. destruct (Nat.eq_dec j k) as [->|].
      * rewrite firstn_snoc by lia. rewrite firstn_all2 by lia. rewrite <- A8. simpl. auto.
      * rewrite firstn_snoc by lia. apply A9. lia.
  - destruct B8 as (A1 & A2 & A3). rewrite A1 in E2. injection E2 as <- <- <-. simpl in *. auto.
Qed.

Lemma boost_loop_BI : forall es n k l l', BI es k l -> l_stop l = false ->
  boost_loop E data y w bd (seq k n) l = Some l' ->
  exists k', BI es k' l' /\ k <= k' <= k + n /\ (k' < k + n -> l_stop l' = true).
Proof.
  intros es. induction n as [|n IH]; intros k l l' B NS H; simpl in H.
  - injection H as <-. exists k. split; auto. lia.
  - inv_bind H. pose proof (boost_step_BI _ _ _ _ B NS E0) as B'.
    destruct (l_stop v) eqn:ES.
    + injection H as <-. exists (S k). split; auto. split; [lia|]. auto.
    + destruct (IH _ _ _ B' ES H) as (k' & B2 & L & S2). exists k'. split; auto. split; [lia|]. intros; apply S2; lia.
Qed.
End Run.

(** *** A whole fit *)
Definition start_booster (b : Booster) : Booster := match gb_trees b with [] => b | _ => reset b end.

(** A booster that has never been fitted, or whose earlier fit will be discarded. *)
Definition clean (b : Booster) : Prop :=
  gb_trees b = [] -> gb_history b = None /\ gb_best b = None.

Lemma repeat_eval : forall (base : F64) (es : list EvalData),
  map (fun d : EvalData => (d, repeat base (List.length (snd (fst d))))) es =
  combine es (map (fun d : EvalData => repeat base (List.length (snd (fst d)))) es).
Proof. induction es as [|d es IH]; simpl; auto. f_equal. auto. Qed.

Lemma fit_trees_BI : forall E b data y w es b', clean b ->
  fit_trees E b data y w es = Some b' ->
  exists bd base l,
    bin_matrix (e_sorts E) data w (p_nbins (gb_params b)) (p_missing (gb_params b)) = Some bd /\
    (if p_initialize_base_score (gb_params b) then calc_init (p_objective (gb_params b)) y w else Some (gb_base_score b)) = Some base /\
    b' = l_booster l /\
    BI E data y w bd (gb_params b) base (gb_metadata b) None (match gb_trees b with [] => gb_pred b | _ => None end) es
      (List.length (gb_trees b')) l /\
    List.length (gb_trees b') <= p_iterations (gb_params b) /\
    (List.length (gb_trees b') < p_iterations (gb_params b) -> l_stop l = true).
Proof.
  intros E b data y w es b' C H. unfold fit_trees in H. inv_bind H. destruct v as [bd l0]. inv_bind H. injection H as <-.
  rename v into l. unfold fit_start in E0. fold (start_booster b) in E0. inv_bind E0. rename v into base.
  destruct (calc_grad_hess _ _ _ _) as [g h] eqn:EG. inv_bind E0. injection E0 as <- <-.
  assert (EP : gb_params (start_booster b) = gb_params b /\ gb_base_score (start_booster b) = gb_base_score b /\
     gb_trees (start_booster b) = [] /\ gb_history (start_booster b) = None /\ gb_best (start_booster b) = None /\
     gb_metadata (start_booster b) = gb_metadata b /\ gb_pred (start_booster b) = match gb_trees b with [] => gb_pred b | _ => None end).
  { unfold start_booster. unfold clean in C. destruct (gb_trees b) eqn:ET; simpl; [|auto 10]. destruct C; auto 10. }
  destruct EP as (P1 & P2 & P3 & P4 & P5 & P6 & P7). rewrite P1 in *. rewrite P2 in E2.
  match type of E1 with boost_loop _ _ _ _ _ _ ?l0 = _ =>
  pose proof (fun B => boost_loop_BI E data y w v (gb_params b) base (gb_metadata b) None (match gb_trees b with [] => gb_pred b | _ => None end)
    es (p_iterations (gb_params b)) 0 l0 l B eq_refl E1) as Q end.
  destruct Q as (k & B & L & S).
  - constructor; simpl; auto; rewrite ?P3; auto.
    { intros j t Hj. destruct j; discriminate. }
    destruct es as [es|]; simpl.
    + exists (map (fun d : EvalData => repeat base (List.length (snd (fst d)))) es), [], [].
      split; [f_equal; apply repeat_eval|]. split; [|split; [auto|split; [tauto|split; [auto|split; [|split; [constructor|split; [|intros; lia]]]]]]].
      * clear. induction es as [|d es IH]; simpl; constructor; auto. reflexivity.
      * intros j r Hj. destruct j; discriminate.
      * rewrite P5, P7. reflexivity.
    + rewrite P4, P5, P7. auto.
  - exists v, base, l. rewrite (bi_len _ _ _ _ _ _ _ _ _ _ _ _ _ B). split; auto. split; auto. split; auto. split; auto.
    split; [lia|]. intros. apply S. lia.
Qed.
End Boost.
