(** A fit never panics, whatever the arithmetic: the labels, weights, hyper parameters and
    gradients may round, overflow or be NaN. *)
From Coq Require Import List Arith NArith Lia Bool String Permutation Sorting.
From Verif Require Import Prelude Float FloatLaws OrdProofs Data DataProofs Utils Binning BinningProofs CutProofs BinMatrix
  Histogram HistogramProofs Node Splitter Tree TreeWf TreeProofs FitProofs FitSplits Objective Metric Sampler SamplerProofs Contrib Booster
  PredictProofs BoostProofs FitModel TrainMore RouteFit NoPanic NoPanicAny RescaleFit BoostX.
Import ListNotations.
Local Notation length := List.length.
Local Open Scope nat_scope.

Section Fit.
Context {FS : Floats}.
Notation FM := (fmax (@f64 FS)).

(** What is asked of the hyper parameters for a training set of [rows] rows. *)
Record able_params (p : Params) (rows : nat) : Prop := mkAbleP {
  ap_nbins : p_nbins p <> 0 /\ (N.of_nat (p_nbins p) <= 65534)%N;
  ap_force : p_create_missing_branch p = true -> p_force_children_to_bound_parent p = false;
  ap_weight : p_create_missing_branch p = false -> p_allow_missing_splits p = true ->
                (fzero f32 <? p_min_leaf_weight p)%f32 = true;
  ap_goss : p_sample_method p = SGoss -> ftonat f64 (p_top_rate p * fofnat f64 rows)%f64 <= rows }.

(** A matrix made by Matrix::new of the right size without NaN other than the missing value. *)
Definition able_matrix (missing : F64) (data : Matrix F64) : Prop :=
  m_index data = seq 0 (m_rows data) /\ length (m_data data) = m_rows data * m_cols data /\
  forall v, In v (m_data data) -> valid_cell missing v.

(** The training set: known values below f64::MAX, as many labels and weights as rows. *)
Record able_data (p : Params) (data : Matrix F64) (y w : list F64) : Prop := mkAbleD {
  ad_matrix : able_matrix (p_missing p) data;
  ad_max : forall v, In v (m_data data) -> is_missing v (p_missing p) = Some false -> (v <? FM)%f64 = true;
  ad_y : length y = m_rows data;
  ad_w : length w = m_rows data }.

(** What the sorts and the generator are assumed to do. *)
Record able_env (E : Env) (p : Params) : Prop := mkAbleE {
  ae_sort : SortSpec (e_sorts E);
  ae_rng : rng_ok E p;
  ae_goss : p_sample_method p = SGoss -> SortAbsSpec (e_goss E);
  ae_auc : get_metric p = AUC -> SortDescSpec (e_auc E) }.

Definition able_eval (p : Params) (cols : nat) (d : EvalData) : Prop :=
  able_matrix (p_missing p) (fst (fst d)) /\ m_cols (fst (fst d)) = cols /\
  length (snd (fst d)) = m_rows (fst (fst d)) /\ length (snd d) = m_rows (fst (fst d)) /\
  (get_metric p = AUC -> m_rows (fst (fst d)) <> 0).
Definition able_evals (p : Params) (cols : nat) (es : option (list EvalData)) : Prop :=
  match es with None => True | Some l => l <> [] /\ Forall (able_eval p cols) l end.

Lemma tree_predict_total : forall missing (data : Matrix F64) nodes, able_matrix missing data -> well_formed nodes ->
  (forall f, tree_features nodes f -> f < m_cols data) ->
  exists pr, tree_predict nodes data missing = Some pr /\ length pr = m_rows data.
Proof.
  intros missing data nodes (HI & LD & HV) W F.
  destruct (mapM_total (fun i => let* n := predict_leaf nodes data i missing in Some (to64 (n_weight n))) (m_index data)) as [pr Hpr].
  { intros i Hi. rewrite HI in Hi. apply in_seq in Hi.
    assert (exists n, predict_leaf nodes data i missing = Some n) as [n ->]; [|simpl; eauto].
    apply walk_total; auto. intros f Hf. specialize (F f Hf).
    unfold m_get, m_item_index. destruct (nth_error (m_data data) (1 * i + f * m_rows data)) as [v|] eqn:E.
    - exists v. split; auto. apply HV. eapply nth_error_In; eauto.
    - apply nth_error_None in E. rewrite LD in E. nia. }
  exists pr. split; [exact Hpr|]. rewrite (mapM_length _ _ Hpr), HI. apply seq_length.
Qed.

Hypothesis ZL : ZeroLaws FS.
Hypothesis OL : OrdLaws (@f64 FS).
Hypothesis NM : fisnan (@f64 FS) FM = false.

Section Step.
Variables (E : Env) (data : Matrix F64) (y w : list F64) (bd : BinnedData) (p : Params).
Notation rows := (m_rows data).
Hypotheses (AP : able_params p rows) (AD : able_data p data y w) (AE : able_env E p).
Hypothesis HB : bin_matrix (e_sorts E) data w (p_nbins p) (p_missing p) = Some bd.

Lemma sample_total : forall n grad hess, length grad = rows -> length hess = rows ->
  exists chosen grad' hess' n', sample_index E p n (m_index data) grad hess = Some (chosen, grad', hess', n') /\
    (forall i, In i chosen -> i < rows) /\ (p_sample_method p = SNone -> chosen = seq 0 rows).
Proof.
  intros n grad hess LG LH. destruct (ad_matrix _ _ _ _ AD) as (HI & _). unfold sample_index.
  destruct (p_sample_method p) eqn:ES.
  - exists (m_index data), grad, hess, n. rewrite HI. repeat split; auto. intros i Hi. apply in_seq in Hi. lia.
  - pose proof (random_sample_flags (e_rng E (p_seed p)) (p_subsample p) (m_index data) n) as RF. cbv zeta in RF.
    rewrite RF. eexists _, grad, hess, _. split; [reflexivity|]. split; [|congruence].
    intros i Hi. apply (flagged_incl nat) in Hi. rewrite HI in Hi. apply in_seq in Hi. lia.
  - destruct (goss_spec (e_goss E) (e_rng E (p_seed p)) (p_top_rate p) (p_other_rate p) n grad hess (ae_goss _ _ AE ES))
      as (top & kept & grad' & hess' & k' & EQ & ND & IX & _); [congruence|rewrite LG; apply (ap_goss _ _ AP ES)|].
    rewrite LG in EQ. rewrite HI, EQ. cbn [bind]. exists (top ++ kept), grad', hess', k'. split; auto. split; [|congruence].
    rewrite <- LG. exact IX.
Qed.

Lemma step_tree : forall i chosen grad hess n cols n', length grad = rows -> length hess = rows ->
  (forall i, In i chosen -> i < rows) -> (p_sample_method p = SNone -> chosen = seq 0 rows) ->
  column_sample E p n (m_cols data) = (cols, n') ->
  exists nodes st, tree_fit (p_grow_policy p) (e_pick E i) (splitter_of p)
      (mkTrain (matrix_new (b_data bd) rows (m_cols data)) (b_cuts bd) grad hess cols) chosen
      (p_max_leaves p) (p_max_depth p) (p_sample_method p) = Some (nodes, st) /\
    well_formed nodes /\ forall f, tree_features nodes f -> f < m_cols data.
Proof.
  intros i chosen grad hess n cols n' LG LH HC HN EC. destruct (ad_matrix _ _ _ _ AD) as (HI & LD & HV).
  assert (HX : forall j x, In x (col_values data w (p_missing p) j) -> fle f64 x FM = true).
  { intros j x Hx. apply (o_lt_le _ OL). unfold col_values in Hx. destruct (m_get_col data j) as [col|] eqn:EG; [|inversion Hx].
    apply in_map_iff in Hx. destruct Hx as ([v v'] & <- & Hv). unfold observed in Hv. apply filter_In in Hv. destruct Hv as [Hv NM'].
    apply in_combine_l in Hv.
    assert (IN : In v (m_data data)).
    { apply In_nth_error in Hv. destruct Hv as [k Hk]. unfold m_get_col, m_get_col_slice in EG.
      pose proof (slice_Some _ _ _ EG) as (_ & _ & HL & _). assert (Hlt := nth_error_Some_lt _ _ Hk).
      rewrite (slice_nth _ _ _ EG) in Hk by lia. eapply nth_error_In; eauto. }
    apply (ad_max _ _ _ _ AD); auto. destruct (is_missing_valid v (p_missing p) (HV _ IN)) as [b Hb].
    cbn [fst] in NM'. rewrite (is_missing_bin OL _ _ _ Hb) in NM'. destruct b; [discriminate|]. exact Hb. }
  destruct (bin_hist_inputs OL (e_sorts E) data w (p_nbins p) (p_missing p) bd grad hess cols (ae_sort _ _ AE) NM HB LD HX) as (fcols & ccols & HIN & CL);
    auto; [eapply column_sample_sorted; [apply (ae_rng _ _ AE)|exact EC]|eapply column_sample_bound; [apply (ae_rng _ _ AE)|exact EC]|].
  destruct (fit_never_panics_any ZL (splitter_of p) (mkTrain (matrix_new (b_data bd) rows (m_cols data)) (b_cuts bd) grad hess cols)
    (p_max_leaves p) (p_max_depth p) chosen (p_sample_method p) fcols ccols) with (policy := p_grow_policy p) (pick := e_pick E i) as (nodes & st & HF).
  - exact HIN.
  - intros c Hc. pose proof (CL _ Hc). destruct (ap_nbins _ _ AP). lia.
  - exact HC.
  - exact HN.
  - unfold rejects_empty, splitter_of. destruct (p_create_missing_branch p) eqn:EB; [exact I|]. simpl.
    destruct (p_allow_missing_splits p) eqn:EA; auto. right. apply (ap_weight _ _ AP EB EA).
  - unfold never_forces, splitter_of. destruct (p_create_missing_branch p) eqn:EB; [|exact I]. apply (ap_force _ _ AP EB).
  - exists nodes, st. split; [exact HF|]. split; [eapply fit_well_formed; eauto|].
    intros f (m & Hm & Hl & <-). eapply column_sample_bound; [apply (ae_rng _ _ AE)|exact EC|].
    change cols with (tr_cols (mkTrain (matrix_new (b_data bd) rows (m_cols data)) (b_cuts bd) grad hess cols)).
    eapply fit_split_col; eauto.
Qed.

Lemma eval_total : forall nodes i n sets j s, well_formed nodes -> (forall f, tree_features nodes f -> f < m_cols data) ->
  Forall (able_eval p (m_cols data)) (map fst sets) ->
  Forall (fun q => length (snd q) = m_rows (fst (fst (fst q)))) sets ->
  exists sets' ms s', eval_loop E p nodes i j n sets s = Some (sets', ms, s') /\
    map fst sets' = map fst sets /\ length ms = length sets /\ Forall (fun q => length (snd q) = m_rows (fst (fst (fst q)))) sets'.
Proof.
  intros nodes i n sets j s W TF FE F. revert j s.
  induction sets as [|[[[d ey] ew] yh] sets IH]; intros j s; simpl.
  - exists [], [], s. auto.
  - simpl in FE. inversion FE as [|? ? SV FE']; subst. inversion F as [|? ? HL F']; subst.
    destruct SV as (SM & SC & S1 & S2 & S5). simpl in *.
    rewrite update_serial. destruct (tree_predict_total _ _ _ SM W) as (pr & -> & LP); [rewrite SC; auto|]. cbn [bind].
    assert (LA : length (add_preds yh pr) = m_rows d) by (rewrite add_preds_length; auto).
    destruct (metric_total (e_auc E) (get_metric p) ey (add_preds yh pr) ew (m_rows d)) as [m Hm]; auto.
    { intros EA. split; auto. apply (ae_auc _ _ AE EA). }
    rewrite Hm. cbn [bind].
    match goal with |- context [eval_loop E p nodes i (S j) n sets ?s0] => destruct (IH FE' F' (S j) s0) as (sets' & ms & s' & -> & I1 & I2 & I3) end.
    cbn [bind]. exists (((d, ey, ew), add_preds yh pr) :: sets'), (m :: ms), s'. simpl. split; auto. split; [congruence|]. split; [congruence|].
    constructor; auto.
Qed.

Record LA (es : option (list EvalData)) (l : Loop) : Prop := mkLA {
  la_p : gb_params (l_booster l) = p;
  la_yhat : length (l_yhat l) = rows;
  la_grad : length (l_grad l) = rows;
  la_hess : length (l_hess l) = rows;
  la_sets : match es, l_evals l with
            | None, None => True
            | Some es, Some sets => map fst sets = es /\ Forall (fun q => length (snd q) = m_rows (fst (fst (fst q)))) sets /\
                match gb_history (l_booster l) with Some h => r_cols h = length es | None => True end
            | _, _ => False
            end }.

Lemma step_total : forall es k l, able_evals p (m_cols data) es -> LA es l ->
  exists l', boost_step E data y w bd k l = Some l' /\ LA es l'.
Proof.
  intros es k l AV [L1 L2 L3 L4 L5]. unfold boost_step. rewrite L1.
  destruct (sample_total (l_rng l) _ _ L3 L4) as (chosen & grad & hess & n' & HS & HC & HN). rewrite HS. cbn [bind].
  destruct (sample_length (fun _ _ => True) (fun _ v => v) _ _ _ _ _ _ _ _ _ _ HS) as (LG & LH & _). rewrite L3 in LG. rewrite L4 in LH.
  destruct (column_sample E p n' (m_cols data)) as [cols n''] eqn:EC.
  destruct (step_tree k _ _ _ _ _ _ LG LH HC HN EC) as (nodes & st & HF & W & TF). rewrite HF. cbn [bind].
  rewrite update_serial. destruct (tree_predict_total _ _ _ (ad_matrix _ _ _ _ AD) W TF) as (pr & -> & LP). cbn [bind].
  assert (LY : length (add_preds (l_yhat l) pr) = rows) by (rewrite add_preds_length; auto).
  assert (GL : forall s, let gh := if s_stop s then (grad, hess) else calc_grad_hess (p_objective p) y (add_preds (l_yhat l) pr) w in
    length (fst gh) = rows /\ length (snd gh) = rows).
  { intros s. destruct (s_stop s); simpl; auto. apply grad_hess_length; auto; [apply (ad_y _ _ _ _ AD)|apply (ad_w _ _ _ _ AD)]. }
  destruct es as [es|], (l_evals l) as [sets|]; try contradiction.
  - destruct L5 as (M & F & H). destruct AV as [NE FE]. rewrite <- M in FE.
    match goal with |- context [eval_loop E p nodes k 0 ?n sets ?s0] => destruct (eval_total nodes k n sets 0 s0 W TF FE F) as (sets' & ms & s' & -> & I1 & I2 & I3) end.
    cbn [bind]. assert (LS : length sets = length es) by (rewrite <- M, map_length; reflexivity).
    assert (NZ : length es <> 0) by (destruct es; simpl; [congruence|lia]).
    set (h := match gb_history (l_booster l) with Some h => h | None => mkRowMajor [] 0 (length sets) end).
    assert (RC : r_cols h = length es) by (unfold h; destruct (gb_history (l_booster l)); auto).
    destruct (append_total _ h ms) as [h' Hh]; [congruence|congruence|]. rewrite Hh. cbn [bind].
    specialize (GL s'). destruct (if s_stop s' then _ else _) as [g2 h2]. destruct GL as [G1 G2].
    eexists. split; [reflexivity|]. constructor; simpl; auto. split; [congruence|]. split; auto.
    unfold r_append_row in Hh. destruct (r_cols h =? 0); [discriminate|]. destruct (_ =? 0); [|discriminate]. injection Hh as <-. auto.
  - cbn [bind]. match goal with |- context [if s_stop ?s' then _ else _] => specialize (GL s'); destruct (if s_stop s' then _ else _) as [g2 h2] end.
    destruct GL as [G1 G2]. eexists. split; [reflexivity|]. constructor; simpl; auto.
Qed.

Lemma loop_total : forall es, able_evals p (m_cols data) es -> forall ks l, LA es l -> exists l', boost_loop E data y w bd ks l = Some l'.
Proof.
  intros es AV. induction ks as [|k ks IH]; intros l L; simpl; eauto.
  destruct (step_total _ k _ AV L) as (l' & -> & L'). cbn [bind]. destruct (l_stop l'); eauto.
Qed.
End Step.

Lemma init_total : forall o (y w : list F64), length w = length y -> exists b, calc_init o y w = Some b.
Proof.
  intros o y w L. unfold calc_init. assert (exists r, init_sums y w = Some r) as [[a b] ->]; [|simpl; eauto].
  unfold init_sums. assert (G : forall ks acc, (forall k, In k ks -> k < length y) -> exists r, foldM (fun '(ytot, ntot) i =>
           let* yi := nth_error y i in let* wi := nth_error w i in Some ((ytot + wi * yi)%f64, (ntot + wi)%f64)) ks acc = Some r).
  { induction ks as [|k ks IH]; intros [a b] H; simpl; eauto.
    destruct (nth_error_lt y (i := k)) as [yi ->]; [apply H; left; auto|].
    destruct (nth_error_lt w (i := k)) as [wi ->]; [rewrite L; apply H; left; auto|]. simpl. apply IH. intros k' Hk. apply H. right; auto. }
  apply G. intros k Hk. apply in_seq in Hk. lia.
Qed.

Theorem fit_never_panics_any : forall E b data y w es, let p := gb_params b in
  able_params p (m_rows data) -> able_data p data y w -> able_env E p -> able_evals p (m_cols data) es -> clean b ->
  exists b' e, fit E b data y w es = Some (b', e) /\ (e = None <-> ~ bad_inputs y w es).
Proof.
  intros E b data y w es p AP AD AE AV C. unfold fit. pose proof (validate_inputs_iff y w es) as VI.
  destruct (validate_inputs y w es) as [e|]; [exists b, (Some e); split; auto; split; [discriminate|intros N; exfalso; apply N, VI; eauto]|].
  assert (VN : (None : option ForustError) = None <-> ~ bad_inputs y w es).
  { split; auto. intros _ N. apply VI in N. destruct N; discriminate. }
  destruct (ad_matrix _ _ _ _ AD) as (HI & LD & HV). destruct (ap_nbins _ _ AP) as [N1 N2].
  destruct (bin_matrix_total OL (e_sorts E) data w (p_nbins p) (p_missing p)) as [bd Hbd]; auto.
  { apply (ae_sort _ _ AE). } { apply (ad_w _ _ _ _ AD). }
  { intros v Hv. destruct (is_missing_valid v (p_missing p) (HV _ Hv)) as [[] Hb]; auto. right. split; auto.
    exact (ad_max _ _ _ _ AD _ Hv Hb). }
  assert (FT : exists b', fit_trees E b data y w es = Some b'); [|destruct FT as [b' ->]; simpl; eauto].
  unfold fit_trees, fit_start.
  set (b0 := match gb_trees b with [] => b | _ => reset b end).
  assert (P0 : gb_params b0 = p /\ gb_history b0 = None).
  { unfold b0. unfold clean in C. destruct (gb_trees b); simpl; [|auto]. split; [auto|]. destruct (C eq_refl); auto. }
  destruct P0 as [P0 H0]. rewrite P0.
  assert (exists base, (if p_initialize_base_score p then calc_init (p_objective p) y w else Some (gb_base_score b0)) = Some base) as [base ->].
  { destruct (p_initialize_base_score p); eauto. apply init_total. rewrite (ad_y _ _ _ _ AD). apply (ad_w _ _ _ _ AD). }
  cbn [bind]. destruct (calc_grad_hess (p_objective p) y (repeat base (length y)) w) as [g h] eqn:EG. rewrite Hbd. cbn [bind].
  destruct (grad_hess_length (p_objective p) y (repeat base (length y)) w (m_rows data)) as [G1 G2];
    [apply (ad_y _ _ _ _ AD)|rewrite repeat_length; apply (ad_y _ _ _ _ AD)|apply (ad_w _ _ _ _ AD)|].
  rewrite EG in G1, G2. simpl in G1, G2.
  match goal with |- exists b', (let* l := boost_loop _ _ _ _ _ ?ks ?l0 in _) = _ =>
    destruct (loop_total E data y w bd p AP AD AE Hbd es AV ks l0) as [l' Hl'] end; [|rewrite Hl'; simpl; eauto].
  constructor; simpl; auto.
  - rewrite repeat_length. apply (ad_y _ _ _ _ AD).
  - destruct es as [es|]; simpl; auto. split; [rewrite map_map; simpl; apply map_id|]. split; [|rewrite H0; auto].
    apply Forall_forall. intros q Hq. apply in_map_iff in Hq. destruct Hq as (d & <- & Hd). simpl. rewrite repeat_length.
    destruct AV as [_ FE]. rewrite Forall_forall in FE. destruct (FE _ Hd) as (_ & _ & Q & _). exact Q.
Qed.
End Fit.
