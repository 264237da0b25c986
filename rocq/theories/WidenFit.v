(** Training on a matrix to which a copy of one of its columns was appended gives the same model. *)
From Coq Require Import List Arith Lia Bool String Permutation Sorting.
From Verif Require Import Prelude Float FloatLaws OrdProofs Data DataProofs Utils Binning BinningProofs CutProofs BinMatrix
  Histogram HistogramProofs Node Splitter SplitProofs Tree TreeWf FitSplits Objective Metric Sampler Contrib Booster PredictProofs BoostProofs FitModel
  TrainMore Sim Recode Rescale RescaleFit Twin Unused Widen.
Import ListNotations.
Local Notation length := List.length.

(** [d] with the column [col] added after the others *)
Definition append_col {A} (d : Matrix A) (col : list A) : Matrix A :=
  mkMatrix (m_data d ++ col) (m_index d) (m_rows d) (S (m_cols d)).

Section Cells.
Context {A : Type}.
Variables (d : Matrix A) (col : list A).
Hypotheses (LD : length (m_data d) = m_rows d * m_cols d) (LC : length col = m_rows d).

Lemma append_length : length (m_data (append_col d col)) = m_rows (append_col d col) * m_cols (append_col d col).
Proof. simpl. rewrite app_length. lia. Qed.
Lemma append_get : forall i j, i < m_rows d -> j < m_cols d -> m_get (append_col d col) i j = m_get d i j.
Proof.
  intros i j Hi Hj. unfold m_get, m_item_index. simpl. rewrite nth_error_app1; auto. rewrite LD. nia.
Qed.
Lemma append_get_last : forall i, i < m_rows d -> m_get (append_col d col) i (m_cols d) = nth_error col i.
Proof.
  intros i Hi. unfold m_get, m_item_index. simpl. rewrite nth_error_app2 by (rewrite LD; nia). f_equal. rewrite LD. nia.
Qed.
Lemma append_cols : forall j, j < m_cols d -> m_get_col (append_col d col) j = m_get_col d j.
Proof.
  intros j Hj. destruct (get_col_spec d LD j Hj) as (c & E & _). rewrite E.
  unfold m_get_col, m_get_col_slice, m_item_index in *. simpl in *. apply slice_prefix; auto.
Qed.
Lemma append_last : m_get_col (append_col d col) (m_cols d) = Some col.
Proof.
  destruct (get_col_spec (append_col d col) append_length (m_cols d)) as (c & E & L & V); [simpl; lia|].
  rewrite E. f_equal. simpl in *. apply list_ext_nth. intros k. destruct (Nat.lt_ge_cases k (m_rows d)) as [Hk|Hk].
  - rewrite V by auto. apply append_get_last; auto.
  - rewrite !(proj2 (nth_error_None _ _)) by lia. reflexivity.
Qed.

(** [append_col] is the only matrix with these cells. *)
Lemma append_is : forall d' : Matrix A, m_rows d' = m_rows d -> m_cols d' = S (m_cols d) -> m_index d' = m_index d ->
  length (m_data d') = m_rows d' * m_cols d' ->
  (forall i j, i < m_rows d -> j < m_cols d -> m_get d' i j = m_get d i j) ->
  (forall i, i < m_rows d -> m_get d' i (m_cols d) = nth_error col i) -> d' = append_col d col.
Proof.
  intros d' R C X LD' HG HL. destruct d' as [dd ix rr cc]. simpl in *. subst. unfold append_col. f_equal.
  apply list_ext_nth. intros k. destruct (Nat.lt_ge_cases k (m_rows d * m_cols d)) as [Hk|Hk].
  - rewrite nth_error_app1 by lia. assert (N0 : m_rows d <> 0) by lia.
    pose proof (Nat.mod_upper_bound k (m_rows d) N0) as HU. pose proof (Nat.div_mod k (m_rows d) N0) as DM.
    assert (HJ : k / m_rows d < m_cols d) by (apply Nat.div_lt_upper_bound; auto).
    specialize (HG (k mod m_rows d) (k / m_rows d) HU HJ). unfold m_get, m_item_index in HG. cbn [m_data m_rows] in HG.
    replace (1 * (k mod m_rows d) + k / m_rows d * m_rows d) with k in HG by nia. exact HG.
  - rewrite nth_error_app2 by lia. destruct (Nat.lt_ge_cases k (m_rows d * S (m_cols d))) as [Hk2|Hk2].
    + assert (HI : k - m_rows d * m_cols d < m_rows d) by nia.
      specialize (HL _ HI). rewrite LD, <- HL. unfold m_get, m_item_index. cbn [m_data m_rows]. f_equal. nia.
    + rewrite !(proj2 (nth_error_None _ _)) by lia. reflexivity.
Qed.
End Cells.

Section Fit.
Context {FS : Floats}.

(** *** The binned matrix *)
Lemma bin_wide : forall S (data : Matrix F64) sw nbins missing bd col cc,
  length (m_data data) = m_rows data * m_cols data -> length col = m_rows data ->
  col_cuts S col sw (bin_pcts nbins) missing = Some cc ->
  (forall k v, nth_error col k = Some v -> exists b, map_bin cc v missing = Some (Some b)) ->
  bin_matrix S data sw nbins missing = Some bd ->
  exists bd' bcol ccols, bin_matrix S (append_col data col) sw nbins missing = Some bd' /\
    b_data bd' = b_data bd ++ bcol /\ jrep (b_cuts bd) ccols /\ jrep (b_cuts bd') (ccols ++ [cc]) /\ cc <> [] /\
    length ccols = m_cols data /\ (forall c, In c ccols -> c <> []) /\ length (b_data bd) = m_rows data * m_cols data /\ length bcol = m_rows data.
Proof.
  intros S data sw nbins missing bd col cc LD LC ECC VB H.
  destruct (bin_matrix_spec _ _ _ _ _ _ H) as (ccols & J & LL & _ & HC & LB & HK).
  assert (NCC : cc <> []).
  { clear - ECC. unfold col_cuts in ECC. inv_bind ECC. inv_bind ECC. injection ECC as <-. destruct v0; discriminate. }
  assert (NE : forall c, In c ccols -> c <> []).
  { intros c Hc. apply In_nth_error in Hc. destruct Hc as [j Hj]. destruct (HC _ _ Hj) as (x & _ & H2). unfold col_cuts in H2.
    inv_bind H2. inv_bind H2. injection H2 as <-. destruct v0; discriminate. }
  unfold bin_matrix in H. inv_bind H. destruct v as [cuts nu]. inv_bind H. rename v into bins. injection H as <-. simpl in *.
  assert (EF : foldM (fun '(cuts, nunique) i =>
      let* col := m_get_col (append_col data col) i in
      let* cc := col_cuts S col sw (bin_pcts nbins) missing in
      Some (push_cuts cuts cc, nunique ++ [length cc])) (seq 0 (m_cols (append_col data col))) (j_new, []) =
      Some (push_cuts cuts cc, nu ++ [length cc])).
  { simpl m_cols. rewrite seq_S, foldM_app. simpl plus.
    rewrite (foldM_ext _ _ _ (fun '(cuts, nunique) i =>
      let* col := m_get_col data i in
      let* cc := col_cuts S col sw (bin_pcts nbins) missing in
      Some (push_cuts cuts cc, nunique ++ [length cc]))).
    - rewrite E. cbn [bind foldM]. rewrite append_last by auto. cbn [bind]. rewrite ECC. reflexivity.
    - intros [x y] i Hi. apply in_seq in Hi. rewrite append_cols by (auto; lia). reflexivity. }
  pose proof (push_jrep _ _ cc J) as J'.
  set (g := fun iv : nat * F64 => if m_rows data =? 0 then None else
      let* cc := j_get_col (push_cuts cuts cc) (fst iv / m_rows data) in
      let* b := map_bin cc (snd iv) missing in b).
  assert (EB : exists bcol, bin_matrix_from_cuts (append_col data col) (push_cuts cuts cc) missing = Some (bins ++ bcol) /\ length bcol = m_rows data).
  { unfold bin_matrix_from_cuts in *. cbn [append_col m_data m_rows]. rewrite app_length, seq_app.
    rewrite combine_app by (rewrite seq_length; auto). rewrite mapM_app. fold g.
    assert (P1 : mapM g (combine (seq 0 (length (m_data data))) (m_data data)) = Some bins).
    { rewrite <- E0. apply mapM_ext. intros [i v] Hi. unfold g. cbn [fst snd]. destruct (m_rows data =? 0) eqn:R0; auto.
      apply Nat.eqb_neq in R0. apply in_combine_l, in_seq in Hi.
      assert (i / m_rows data < m_cols data) by (apply Nat.div_lt_upper_bound; lia).
      rewrite (jrep_get_col _ _ _ J), (jrep_get_col _ _ _ J'), nth_error_app1 by lia. reflexivity. }
    rewrite P1. cbn [bind].
    assert (P2 : exists r, mapM g (combine (seq (0 + length (m_data data)) (length col)) col) = Some r /\ length r = m_rows data).
    { assert (Q : forall x, In x (combine (seq (0 + length (m_data data)) (length col)) col) -> exists b, g x = Some b).
      { intros x Hx. apply In_nth_error in Hx. destruct Hx as [k Hk].
        assert (Lk : k < m_rows data) by (apply nth_error_Some_lt in Hk; rewrite combine_length, seq_length in Hk; lia).
        destruct (nth_error_lt col (i := k)) as [v Hv]; [lia|].
        rewrite (nth_error_combine _ _ k (x := length (m_data data) + k) (y := v)) in Hk; auto;
          [|apply nth_error_seq; lia].
        injection Hk as <-. unfold g. cbn [fst snd].
        replace (m_rows data =? 0) with false by (symmetry; apply Nat.eqb_neq; lia).
        assert (EK : (length (m_data data) + k) / m_rows data = length ccols).
        { rewrite LL, LD. replace (m_rows data * m_cols data + k) with (k + m_cols data * m_rows data) by lia.
          rewrite Nat.div_add by lia. rewrite Nat.div_small by lia. reflexivity. }
        rewrite EK, (jrep_get_col _ _ _ J'), nth_error_app2, Nat.sub_diag by lia. cbn [nth_error bind].
        destruct (VB _ _ Hv) as [b Hb]. rewrite Hb. cbn [bind]. eauto. }
      destruct (mapM g (combine (seq (0 + length (m_data data)) (length col)) col)) as [r|] eqn:EM.
      - exists r. split; auto. apply mapM_length in EM. rewrite EM, combine_length, seq_length. lia.
      - exfalso. revert Q EM. generalize (combine (seq (0 + length (m_data data)) (length col)) col). clear.
        induction l as [|x l IH]; intros Q EM; simpl in EM; [discriminate|].
        destruct (Q x (or_introl eq_refl)) as [b Hb]. rewrite Hb in EM. cbn [bind] in EM.
        destruct (mapM g l) eqn:EL; [discriminate|]. apply IH; auto. intros y Hy. apply Q. right; auto. }
    destruct P2 as (r & P2 & P3). rewrite P2. cbn [bind]. eauto. }
  destruct EB as (bcol & EB & LBC).
  unfold bin_matrix. rewrite EF. cbn [bind]. rewrite EB. cbn [bind].
  eexists _, bcol, ccols. split; [reflexivity|]. cbn [b_data b_cuts]. split; auto. split; auto. split; auto.
  split; auto. split; auto. split; auto. split; auto. congruence.
Qed.

(** *** Prediction *)
(** the two matrices agree on the first [C] columns *)
Definition widens (C : nat) (d d' : Matrix F64) : Prop :=
  m_rows d' = m_rows d /\ m_index d' = m_index d /\ forall i f, In i (m_index d) -> f < C -> m_get d' i f = m_get d i f.
Definition widens_eval (C : nat) (x x' : EvalData) : Prop :=
  widens C (fst (fst x)) (fst (fst x')) /\ snd (fst x') = snd (fst x) /\ snd x' = snd x.

Definition tree_within (C : nat) (nodes : list Node) : Prop := forall f, tree_features nodes f -> f < C.

Lemma update_wide : forall C p sh yh nodes d d', tree_within C nodes -> widens C d d' ->
  update_predictions p sh yh nodes d' = update_predictions p sh yh nodes d.
Proof.
  intros C p sh yh nodes d d' HT (W1 & W2 & W3). rewrite !update_serial.
  replace (tree_predict nodes d' (p_missing p)) with (tree_predict nodes d (p_missing p)); auto.
  unfold tree_predict. rewrite W2. apply mapM_ext. intros i Hi. unfold predict_leaf.
  rewrite (walk_agree nodes (fun f => m_get d i f) (fun f => m_get d' i f)); auto.
  intros f Hf. symmetry. apply W3; auto.
Qed.

Definition erel (C : nat) (x x' : EvalData * list F64) : Prop := widens_eval C (fst x) (fst x') /\ snd x' = snd x.
Definition osrel (C : nat) (e e' : option (list (EvalData * list F64))) : Prop :=
  match e, e' with Some l, Some l' => Forall2 (erel C) l l' | None, None => True | _, _ => False end.

Lemma eval_loop_wide : forall C E p nodes, tree_within C nodes ->
  forall i n sets sets' j s sets2 ms s2, Forall2 (erel C) sets sets' ->
  eval_loop E p nodes i j n sets s = Some (sets2, ms, s2) ->
  exists sets2', eval_loop E p nodes i j n sets' s = Some (sets2', ms, s2) /\ Forall2 (erel C) sets2 sets2'.
Proof.
  intros C E p nodes HT i n sets sets' j s sets2 ms s2 F. revert j s sets2 ms s2.
  induction F as [|[[[d y] w] yh] [[[d' y'] w'] yh'] sets sets' [(W & W1 & W2) W3] F IH]; intros j s sets2 ms s2 H; simpl in *.
  - injection H as <- <- <-. eauto.
  - subst y' w' yh'. rewrite (update_wide C p _ _ _ d d') by auto. inv_bind H. rewrite E0. cbn [bind]. inv_bind H. rewrite E1. cbn [bind].
    inv_bind H. destruct v1 as [[sets3 ms3] s3]. injection H as <- <- <-.
    destruct (IH _ _ _ _ _ E2) as (sets2' & X1 & X2). rewrite X1. cbn [bind]. eexists. split; [reflexivity|].
    constructor; auto. split; [split|]; auto.
Qed.

Section Step.
Variables (E : Env) (data : Matrix F64) (y w col : list F64) (bd bd' : BinnedData) (bcol : list nat) (cc : list F64) (ccols : list (list F64)) (p : Params).
Notation C := (m_cols data).
Notation data' := (append_col data col).
Hypothesis LD : length (m_data data) = m_rows data * m_cols data.
Hypothesis LCOL : length col = m_rows data.
Hypothesis HX : m_index data = seq 0 (m_rows data).
Hypothesis LY : length y = m_rows data.
Hypothesis LW : length w = m_rows data.
Hypothesis CS : (p_colsample_bytree p =? fone f64)%f64 = true.
Hypothesis GB : forall k, gain_based (e_pick E k).
Hypothesis EBD : b_data bd' = b_data bd ++ bcol.
Hypothesis J : jrep (b_cuts bd) ccols.
Hypothesis J' : jrep (b_cuts bd') (ccols ++ [cc]).
Hypothesis NCC : cc <> [].
Hypothesis LL : length ccols = C.
Hypothesis NE : forall c, In c ccols -> c <> [].
Hypothesis LB : length (b_data bd) = m_rows data * m_cols data.
Hypothesis LBC : length bcol = m_rows data.
(** some property of the histograms keeps the new column from being chosen *)
Hypothesis QUIET : forall grad hess fc,
  hist_inputs (binned data' bd') (b_cuts bd') grad hess (seq 0 C ++ [C]) fc (ccols ++ [cc]) ->
  exists T : HistogramMatrix -> Prop,
    (forall p h, T p -> T h -> T (hist_from_parent_child p h)) /\
    (forall p a b, T p -> T a -> T b -> T (hist_from_parent_two_children p a b)) /\
    (forall L, T (hist_spec (binned data' bd') (b_cuts bd') grad hess (seq 0 C ++ [C]) fc (ccols ++ [cc]) L)) /\
    (forall n, T (sn_hist n) -> best_split (splitter_of p) n (seq 0 C ++ [C]) = best_split (splitter_of p) n (seq 0 C)).

Lemma binned_wide : binned data' bd' = append_col (binned data bd) bcol.
Proof. unfold binned, append_col, matrix_new. simpl. rewrite EBD. reflexivity. Qed.

Lemma tree_wide : forall policy pick index ml md sm grad hess nodes st,
  length grad = m_rows data -> length hess = m_rows data -> gain_based pick -> (sm = SNone -> index = seq 0 (m_rows data)) ->
  tree_fit policy pick (splitter_of p) (mkTrain (binned data bd) (b_cuts bd) grad hess (seq 0 C)) index ml md sm = Some (nodes, st) ->
  tree_within C nodes /\ exists st',
  tree_fit policy pick (splitter_of p) (mkTrain (binned data' bd') (b_cuts bd') grad hess (seq 0 (S C))) index ml md sm = Some (nodes, st').
Proof.
  intros policy pick index ml md sm grad hess nodes st LG LH G HS H. split.
  { intros f (n & Hn & Hl & <-). apply (fit_split_col _ _ _ _ _ _ _ _ _ _ H) in Hn; auto. simpl in Hn. apply in_seq in Hn. lia. }
  assert (HI := hist_inputs_of data bd ccols grad hess (seq 0 C) J LL LB NE (seq_sorted _ _)
    (fun c Hc => match proj1 (in_seq _ _ _) Hc with conj _ h => h end) LG LH).
  assert (HI' := hist_inputs_of data' bd' (ccols ++ [cc]) grad hess (seq 0 (S C)) J').
  specialize (HI' ltac:(rewrite app_length; simpl; lia) ltac:(rewrite EBD, app_length; simpl; lia)).
  specialize (HI' ltac:(intros c Hc; apply in_app_iff in Hc; destruct Hc as [Hc|[<-|[]]]; auto) (seq_sorted _ _)).
  specialize (HI' (fun c Hc => match proj1 (in_seq _ _ _) Hc with conj _ h => h end) LG LH).
  rewrite seq_S in *. simpl plus in *.
  set (fc := map (fun j => match m_get_col (binned data bd) j with Some c => c | None => [] end) (seq 0 C)) in *.
  set (fc' := map (fun j => match m_get_col (binned data' bd') j with Some c => c | None => [] end) (seq 0 (m_cols data'))) in *.
  assert (FC : forall f, f <= C -> fcol fc' f = match m_get_col (binned data' bd') f with Some c => c | None => [] end).
  { intros f Hf. unfold fcol, fc'. rewrite nth_indep with (d := []) (d' := match m_get_col (binned data' bd') 0 with Some c => c | None => [] end)
      by (rewrite map_length, seq_length; simpl; lia).
    rewrite (map_nth (fun j => match m_get_col (binned data' bd') j with Some c => c | None => [] end)).
    rewrite seq_nth by (simpl; lia). reflexivity. }
  assert (FC0 : forall f, f < C -> fcol fc f = match m_get_col (binned data bd) f with Some c => c | None => [] end).
  { intros f Hf. unfold fcol, fc. rewrite nth_indep with (d := []) (d' := match m_get_col (binned data bd) 0 with Some c => c | None => [] end)
      by (rewrite map_length, seq_length; simpl; lia).
    rewrite (map_nth (fun j => match m_get_col (binned data bd) j with Some c => c | None => [] end)).
    rewrite seq_nth by (simpl; lia). reflexivity. }
  assert (GC : forall f, f < C -> m_get_col (binned data' bd') f = m_get_col (binned data bd) f).
  { intros f Hf. rewrite binned_wide. apply append_cols; auto. }
  assert (CC : forall f, f < C -> ccol (ccols ++ [cc]) f = ccol ccols f).
  { intros f Hf. unfold ccol. apply app_nth1. lia. }
  destruct (QUIET grad hess fc' HI') as (T & T1 & T2 & T3 & T4).
  refine (tree_fit_wide (splitter_of p) (binned data bd) (binned data' bd') (b_cuts bd) (b_cuts bd') grad hess (seq 0 C) C fc fc' ccols (ccols ++ [cc])
    HI HI' eq_refl _ _ _ T T1 T2 T3 T4 policy pick index ml md sm nodes st G HS H).
  - intros f Hf. apply in_seq in Hf. apply GC. lia.
  - intros f Hf. apply in_seq in Hf. rewrite FC, FC0, GC by lia. reflexivity.
  - intros f Hf. apply in_seq in Hf. apply CC. lia.
Qed.

Record wide_ok (l l' : Loop) : Prop := mkWide {
  wo_par : gb_params (l_booster l) = p;
  wo_yhat : length (l_yhat l) = m_rows data; wo_grad : length (l_grad l) = m_rows data; wo_hess : length (l_hess l) = m_rows data;
  wo_booster : l_booster l' = l_booster l; wo_y : l_yhat l' = l_yhat l; wo_g : l_grad l' = l_grad l; wo_h : l_hess l' = l_hess l;
  wo_bm : l_best_metric l' = l_best_metric l; wo_rng : l_rng l' = l_rng l; wo_stop : l_stop l' = l_stop l;
  wo_evals : osrel C (l_evals l) (l_evals l') }.

Lemma data_widens : widens C data data'.
Proof.
  split; auto. split; auto. intros i f Hi Hf. rewrite HX in Hi. apply in_seq in Hi. apply append_get; auto. lia.
Qed.

Lemma step_wide : forall i l l' l2, wide_ok l l' -> boost_step E data y w bd i l = Some l2 ->
  exists l2', boost_step E data' y w bd' i l' = Some l2' /\ wide_ok l2 l2'.
Proof.
  intros i l l' l2 [O1 O2 O3 O4 B1 B2 B3 B4 B5 B6 B7 B8] H. unfold boost_step in *. cbv zeta in *.
  rewrite B1, B2, B3, B4, B5, B6, B7. rewrite O1 in *.
  inv_bind H. destruct v as [[[chosen grad] hess] n]. cbn [append_col m_index m_cols m_rows]. rewrite E0. cbn [bind].
  destruct (sample_length (fun _ _ => True) (fun _ v => v) _ _ _ _ _ _ _ _ _ _ E0) as (LG & LH & CI).
  unfold column_sample in *. rewrite CS in *.
  inv_bind H. destruct v as [nodes st].
  destruct (tree_wide (p_grow_policy p) (e_pick E i) chosen (p_max_leaves p) (p_max_depth p) (p_sample_method p) grad hess nodes st)
    as (TW & st' & E1'); auto; try congruence.
  { intros X. rewrite CI by auto. auto. }
  unfold binned in E1'. cbn [append_col m_cols m_rows] in E1'. rewrite E1'. cbn [bind].
  rewrite (update_wide C p _ _ _ data data') by (auto; apply data_widens). inv_bind H. rewrite E2. cbn [bind]. rename v into yhat.
  assert (LYH : length yhat = m_rows data).
  { rewrite update_serial in E2. inv_bind E2. injection E2 as <-. rewrite add_preds_length. auto. }
  inv_bind H. destruct v as [[hist evals] s].
  assert (X : exists evals', (match l_evals l' with
     | None => Some (gb_history (l_booster l), None, mkStop (l_best_metric l) (gb_best (l_booster l)) (gb_pred (l_booster l)) (l_stop l))
     | Some sets =>
         let h := match gb_history (l_booster l) with Some h => h | None => mkRowMajor [] 0 (length sets) end in
         let* (sets, ms, s) := eval_loop E p nodes i 0 (length sets) sets
             (mkStop (l_best_metric l) (gb_best (l_booster l)) (gb_pred (l_booster l)) (l_stop l)) in
         let* h := r_append_row h ms in
         Some (Some h, Some sets, s)
     end) = Some (hist, evals', s) /\ osrel C evals evals').
  { destruct (l_evals l) as [sets|]; destruct (l_evals l') as [sets'|]; simpl in B8; try contradiction.
    - cbv beta iota zeta in *. rewrite <- (Recode.Forall2_length _ _ _ _ _ B8). inv_bind E3. destruct v as [[sets2 ms] s2].
      destruct (eval_loop_wide C E p nodes TW _ _ _ _ _ _ _ _ _ B8 E4) as (sets2' & X1 & X2). rewrite X1. cbn [bind].
      inv_bind E3. rewrite E5. cbn [bind]. injection E3 as <- <- <-. eexists. split; [reflexivity|]. auto.
    - injection E3 as <- <- <-. eexists. split; [reflexivity|]. exact I. }
  destruct X as (evals' & X1 & X2).
  match goal with |- exists l2', bind ?e _ = _ /\ _ => replace e with (Some (hist, evals', s)) by (symmetry; exact X1) end.
  cbn [bind].
  destruct (if s_stop s then (grad, hess) else calc_grad_hess (p_objective p) y yhat w) as [g2 h2] eqn:EG.
  injection H as <-. eexists. split; [reflexivity|].
  assert (LGH : length g2 = m_rows data /\ length h2 = m_rows data).
  { destruct (s_stop s); [injection EG as <- <-; split; congruence|].
    destruct (grad_hess_length (p_objective p) y yhat w (m_rows data)) as [G1 G2]; auto. rewrite EG in G1, G2. auto. }
  constructor; simpl; tauto.
Qed.

Lemma loop_wide : forall is l l' l2, wide_ok l l' -> boost_loop E data y w bd is l = Some l2 ->
  exists l2', boost_loop E data' y w bd' is l' = Some l2' /\ wide_ok l2 l2'.
Proof.
  induction is as [|i is IH]; intros l l' l2 O H; simpl in *.
  - injection H as <-. eauto.
  - inv_bind H. destruct (step_wide _ _ _ _ O E0) as (v' & S1 & S2). rewrite S1. cbn [bind]. rewrite (wo_stop _ _ S2).
    destruct (l_stop v); [injection H as <-; eauto|]. eapply IH; eauto.
Qed.
End Step.

(** the evaluation sets of the two trainings *)
Definition evals_wide (C : nat) (es es' : option (list EvalData)) : Prop :=
  match es, es' with Some l, Some l' => Forall2 (widens_eval C) l l' | None, None => True | _, _ => False end.

Lemma validate_wide : forall C y w es es', evals_wide C es es' -> validate_inputs y w es' = validate_inputs y w es.
Proof.
  intros C y w es es' H. unfold validate_inputs. destruct es as [l|], es' as [l'|]; simpl in H; try contradiction; auto.
  assert (EV : forall i, validate_evals i l' = validate_evals i l); [|rewrite EV; reflexivity].
  simpl in H. induction H as [|[[d yy] ww] [[d' yy'] ww'] l l' (W & W1 & W2) F IH]; intros i; simpl in *; auto.
  subst. rewrite IH. reflexivity.
Qed.

(** A column that no histogram of the wide matrix lets win. *)
Definition quiet (p : Params) (data' : Matrix F64) (C : nat) (bd' : BinnedData) (cuts' : list (list F64)) : Prop :=
  forall grad hess fc,
  hist_inputs (binned data' bd') (b_cuts bd') grad hess (seq 0 C ++ [C]) fc cuts' ->
  exists T : HistogramMatrix -> Prop,
    (forall p h, T p -> T h -> T (hist_from_parent_child p h)) /\
    (forall p a b, T p -> T a -> T b -> T (hist_from_parent_two_children p a b)) /\
    (forall L, T (hist_spec (binned data' bd') (b_cuts bd') grad hess (seq 0 C ++ [C]) fc cuts' L)) /\
    (forall n, T (sn_hist n) -> best_split (splitter_of p) n (seq 0 C ++ [C]) = best_split (splitter_of p) n (seq 0 C)).

Theorem fit_wide : forall E b data y w es es' b' col cc,
  length (m_data data) = m_rows data * m_cols data -> m_index data = seq 0 (m_rows data) -> 
  length y = m_rows data -> length w = m_rows data ->
  (forall k, gain_based (e_pick E k)) -> (p_colsample_bytree (gb_params b) =? fone f64)%f64 = true ->
  length col = m_rows data ->
  evals_wide (m_cols data) es es' ->
  fit E b data y w es = Some (b', None) ->
  col_cuts (e_sorts E) col w (bin_pcts (p_nbins (gb_params b))) (p_missing (gb_params b)) = Some cc ->
  (forall k v, nth_error col k = Some v -> exists b0, map_bin cc v (p_missing (gb_params b)) = Some (Some b0)) ->
  (forall bd' ccols, bin_matrix (e_sorts E) (append_col data col) w (p_nbins (gb_params b)) (p_missing (gb_params b)) = Some bd' ->
     length ccols = m_cols data -> jrep (b_cuts bd') (ccols ++ [cc]) -> quiet (gb_params b) (append_col data col) (m_cols data) bd' (ccols ++ [cc])) ->
  fit E b (append_col data col) y w es' = Some (b', None).
Proof.
  intros E b data y w es es' b' col cc LD HX LY LW GB CS LC EW H ECC VB QU.
  unfold fit in *. rewrite (validate_wide _ _ _ _ _ EW). destruct (validate_inputs y w es); [discriminate|].
  inv_bind H. injection H as <-.
  unfold fit_trees in *. inv_bind E0. destruct v0 as [bd l]. inv_bind E0. injection E0 as <-. rename v0 into l2.
  unfold fit_start in *. fold (start_booster b) in *.
  assert (EP1 : gb_params (start_booster b) = gb_params b) by (unfold start_booster; destruct (gb_trees b); reflexivity).
  cbv zeta in *. rewrite EP1 in *.
  inv_bind E1. rewrite E0. cbn [bind]. rename v into base.
  destruct (calc_grad_hess (p_objective (gb_params b)) y (repeat base (length y)) w) as [g h] eqn:EG.
  inv_bind E1. rename v into bd0. injection E1 as -> <-.
  destruct (bin_wide _ _ _ _ _ _ col cc LD LC ECC VB E3) as (bd' & bcol & ccols & EB & EBD & J & J' & NCC & LL & NE & LB & LBC).
  rewrite EB. cbn [bind].
  match goal with |- context [boost_loop E (append_col data col) y w bd' ?is ?x] =>
    match type of E2 with boost_loop _ _ _ _ _ _ ?z = _ => assert (LO : wide_ok data (gb_params b) z x) end end.
  { destruct (grad_hess_length (p_objective (gb_params b)) y (repeat base (length y)) w (m_rows data)) as [G1 G2]; auto.
    { rewrite repeat_length; auto. }
    rewrite EG in G1, G2. constructor; simpl; auto.
    - rewrite repeat_length; auto.
    - destruct es as [es|]; destruct es' as [es'|]; simpl in *; auto. clear - EW.
      induction EW as [|x x' l l' W F IH]; simpl; constructor; auto. split; auto. simpl. destruct W as (_ & -> & _). reflexivity. }
  destruct (loop_wide E data y w col bd bd' bcol cc ccols (gb_params b) LD LC HX LY LW CS GB EBD J J' NCC LL NE LB LBC (QU bd' ccols EB LL J') _ _ _ _ LO E2) as (l2' & S1 & S2).
  rewrite S1. cbn [bind]. rewrite (wo_booster _ _ _ _ S2). reflexivity.
Qed.

(** *** A copy of a column *)
Lemma copy_quiet : OrdLaws (@f32 FS) -> fisnan f32 (fzero (@f32 FS)) = false ->
  forall p data' C bd' ccols cc a, m_cols data' = S C -> length ccols = C -> jrep (b_cuts bd') (ccols ++ [cc]) ->
  a < C -> alike data' bd' a C -> get_constraint (splitter_of p) a = get_constraint (splitter_of p) C ->
  quiet p data' C bd' (ccols ++ [cc]).
Proof.
  intros OL ZN p data' C bd' ccols cc a HS LL J' Ha [A1 A2] HM grad hess fc HI'.
  unfold bcol in A1. rewrite !(jrep_get_col _ _ _ J') in A2.
  assert (FC : forall f, f <= C -> m_get_col (binned data' bd') f = Some (fcol fc f)).
  { intros f Hf. pose proof (hi_cols _ _ _ _ _ _ _ HI') as L. simpl in L. 
    destruct (nth_error_lt fc (i := f)) as [x Hx]; [lia|]. destruct (hi_col _ _ _ _ _ _ _ HI' f x Hx) as [-> _].
    unfold fcol. rewrite (nth_error_nth_eq _ _ [] Hx). reflexivity. }
  assert (HFA : fcol fc a = fcol fc C) by (rewrite !FC in A1 by lia; congruence).
  assert (HCA : length (ccol (ccols ++ [cc]) a) = length (ccol (ccols ++ [cc]) C)).
  { destruct (nth_error_lt (ccols ++ [cc]) (i := a)) as [ca Hca]; [rewrite app_length; lia|].
    destruct (nth_error_lt (ccols ++ [cc]) (i := C)) as [cb Hcb]; [rewrite app_length; simpl; lia|].
    unfold ccol. rewrite (nth_error_nth_eq _ _ [] Hca), (nth_error_nth_eq _ _ [] Hcb). rewrite Hca, Hcb in A2. simpl in A2. congruence. }
  set (t' := mkTrain (binned data' bd') (b_cuts bd') grad hess (seq 0 C ++ [C])).
  assert (Ha' : nth_error (tr_cols t') a = Some a) by (simpl; rewrite nth_error_app1 by (rewrite seq_length; lia); apply nth_error_seq; auto).
  assert (Hc' : nth_error (tr_cols t') (length (seq 0 C)) = Some C) by (simpl; rewrite nth_error_app2, Nat.sub_diag by lia; reflexivity).
  exists (tw t' (ccols ++ [cc]) a (length (seq 0 C))). split; [apply tw_one|]. split; [apply tw_two|].
  split; [exact (tw_spec t' fc (ccols ++ [cc]) HI' a C a (length (seq 0 C)) Ha' Hc' HFA HCA)|].
  refine (tw_best (splitter_of p) t' (seq 0 C) C (ccols ++ [cc]) a a eq_refl _ HCA HM _ OL ZN).
  - apply nth_error_seq; auto.
  - rewrite in_seq. lia.
Qed.

Theorem fit_copy : OrdLaws (@f32 FS) -> fisnan f32 (fzero (@f32 FS)) = false ->
  forall E b data y w es es' b' a col,
  length (m_data data) = m_rows data * m_cols data -> m_index data = seq 0 (m_rows data) -> 
  length y = m_rows data -> length w = m_rows data ->
  (forall k, gain_based (e_pick E k)) -> (p_colsample_bytree (gb_params b) =? fone f64)%f64 = true ->
  a < m_cols data -> m_get_col data a = Some col ->
  get_constraint (splitter_of (gb_params b)) a = get_constraint (splitter_of (gb_params b)) (m_cols data) ->
  evals_wide (m_cols data) es es' ->
  fit E b data y w es = Some (b', None) ->
  fit E b (append_col data col) y w es' = Some (b', None).
Proof.
  intros OL ZN E b data y w es es' b' a col LD HX LY LW GB CS Ha HA HM EW H.
  destruct (get_col_spec data LD a Ha) as (col' & Q1 & LC & V). assert (col' = col) by congruence. subst col'. clear Q1.
  assert (exists bd, bin_matrix (e_sorts E) data w (p_nbins (gb_params b)) (p_missing (gb_params b)) = Some bd) as [bd HB].
  { unfold fit in H. destruct (validate_inputs y w es); [discriminate|]. inv_bind H. unfold fit_trees in E0. inv_bind E0.
    unfold fit_start in E1. fold (start_booster b) in E1. cbv zeta in E1.
    assert (EP1 : gb_params (start_booster b) = gb_params b) by (unfold start_booster; destruct (gb_trees b); reflexivity). rewrite EP1 in E1.
    inv_bind E1. destruct (calc_grad_hess _ y _ w). inv_bind E1. eauto. }
  destruct (bin_matrix_spec _ _ _ _ _ _ HB) as (ccols & J & LL & _ & HC & LB & HK).
  destruct (nth_error_lt ccols (i := a)) as [cc Hcc]; [lia|].
  destruct (HC _ _ Hcc) as (col' & Q1 & ECC). assert (col' = col) by congruence. subst col'. clear Q1.
  refine (fit_wide E b data y w es es' b' col cc LD HX LY LW GB CS LC EW H ECC _ _).
  - intros k v Hv. assert (Lk : k < m_rows data) by (apply nth_error_Some_lt in Hv; lia).
    rewrite V in Hv by auto. unfold m_get in Hv. destruct (HK _ _ Hv) as (cc' & b0 & K1 & K2 & _).
    assert (D : m_item_index data k a / m_rows data = a).
    { unfold m_item_index. rewrite Nat.div_add by lia. rewrite Nat.div_small by lia. reflexivity. }
    rewrite D in K1. assert (cc' = cc) by congruence. subst cc'. eauto.
  - intros bd' ccols' EB LL' J'. apply (copy_quiet OL ZN _ _ _ _ _ _ a); auto.
    refine (equal_alike _ _ _ _ _ _ a (m_cols data) (append_length _ _ LD LC) _ _ _ EB); [simpl; lia|simpl; lia|].
    intros i Hi. simpl in Hi. rewrite append_get_last, append_get by auto. symmetry. apply V; auto.
Qed.
End Fit.
