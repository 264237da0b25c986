(** Fitting squared loss with integer weights: whatever the gradients round to, the cover of every node is the
    weight of the training rows passing it, and every split separates training rows. *)
From Coq Require Import List Arith NArith Lia Bool Permutation Sorting String.
From Verif Require Import Prelude Float FloatLaws OrdProofs Data DataProofs Utils Binning BinningProofs CutProofs BinMatrix
  Histogram HistogramProofs Node Splitter Tree TreeWf TreeProofs FitProofs FitSplits PathProofs Objective Metric Sampler SamplerProofs Contrib Booster
  PredictProofs BoostProofs FitModel TrainMore RouteFit NoPanic NoPanicAny RescaleFit BoostX LossX FittedX FitAny Twin CountRoute CountFit.
Import ListNotations.
Local Notation length := List.length.
Local Open Scope nat_scope.

Section Model.
Context {FS : Floats}.
Variable OL : OrdLaws (@f64 FS).
Variable NL : NonnegLaws (@f64 FS).
Hypothesis zero_nan : fisnan f64 (fzero (@f64 FS)) = false.
Hypothesis max_nan : fisnan f64 (fmax (@f64 FS)) = false.
Variable T : N.
Hypothesis CLW : CountLaws FS T.
Variables (E : Env) (b b' : Booster) (data : Matrix F64) (y : list F64) (ns : list nat) (es : option (list EvalData)).
Notation p := (gb_params b).
Notation w := (map (fun n => fofnat (@f64 FS) n) ns).
Hypothesis NB : p_nbins p <> 0 /\ (N.of_nat (p_nbins p) <= 65534)%N.
Hypothesis MP : (fzero f32 <? p_min_leaf_weight p)%f32 = true.
Hypothesis OB : p_objective p = SquaredLoss.
Hypothesis NG : p_sample_method p <> SGoss.
Hypotheses (AD : able_data p data y w) (AE : able_env E p) (C : clean b).
Hypothesis PW : forall n, In n ns -> 0 < n.
Hypothesis TW : (N.of_nat (list_sum ns) <= T)%N.
Hypothesis HFIT : fit E b data y w es = Some (b', None).
Notation row i := (fun f => m_get data i f).
Notation hn := (fun i => nth i ns 0).

Lemma in_sum : forall (l : list nat) n, In n l -> n <= list_sum l.
Proof. induction l as [|m l IH]; intros n Hn; simpl in *; [tauto|]. destruct Hn as [->|Hn]; [lia|]. specialize (IH _ Hn). lia. Qed.
Lemma len_ns : length ns = m_rows data.
Proof. pose proof (ad_w _ _ _ _ AD) as L. rewrite map_length in L. exact L. Qed.
Lemma all_sum : list_sum (map hn (seq 0 (m_rows data))) = list_sum ns.
Proof.
  rewrite <- len_ns. f_equal. clear. apply nth_ext with (d := 0) (d' := 0); [rewrite map_length, seq_length; auto|].
  intros n Hn. rewrite map_length, seq_length in Hn. rewrite (nth_indep _ 0 (nth (length ns) ns 0)) by (rewrite map_length, seq_length; auto).
  rewrite (map_nth hn), seq_nth by auto. reflexivity.
Qed.
Lemma flagged_sum : forall (l : list nat) flags, list_sum (map hn (flagged true l flags)) <= list_sum (map hn l).
Proof.
  unfold flagged. induction l as [|i l IH]; intros [|c flags]; simpl; try lia.
  specialize (IH flags). destruct c; simpl; lia.
Qed.

Lemma squared_hess : forall (l yhat : list F64) (ms : list nat), length yhat = length l -> length ms = length l ->
  (forall n, In n ms -> (N.of_nat n <= T)%N) ->
  length (fst (calc_grad_hess SquaredLoss l yhat (map (fun n => fofnat (@f64 FS) n) ms))) = length l /\
  snd (calc_grad_hess SquaredLoss l yhat (map (fun n => fofnat (@f64 FS) n) ms)) = map (fun n => fofnat (@f32 FS) n) ms.
Proof.
  unfold calc_grad_hess, zip3. induction l as [|a l IH]; intros [|yh yhat] [|n ns'] L1 L2 H; simpl in *; try discriminate; auto.
  destruct (IH yhat ns') as [I1 I2]; auto. destruct (split _) as [g h]. simpl in *. split; [congruence|].
  rewrite (cl_to32 _ _ CLW) by auto. f_equal. exact I2.
Qed.

(** The known values of a column are training cells, and a column with a known value has one of positive weight. *)
Lemma known_small : forall j x, In x (col_values data w (p_missing p) j) -> (x <? fmax f64)%f64 = true.
Proof.
  intros j x Hx. destruct (ad_matrix _ _ _ _ AD) as (HI & LD & HV).
  unfold col_values in Hx. destruct (m_get_col data j) as [col|] eqn:EG; [|inversion Hx].
  apply in_map_iff in Hx. destruct Hx as ([v v'] & <- & Hv). unfold observed in Hv. apply filter_In in Hv. destruct Hv as [Hv NM'].
  apply in_combine_l in Hv.
  assert (IN : In v (m_data data)).
  { apply In_nth_error in Hv. destruct Hv as [k Hk]. unfold m_get_col, m_get_col_slice in EG.
    pose proof (slice_Some _ _ _ EG) as (_ & _ & HL & _). assert (Hlt := nth_error_Some_lt _ _ Hk).
    rewrite (slice_nth _ _ _ EG) in Hk by lia. eapply nth_error_In; eauto. }
  apply (ad_max _ _ _ _ AD); auto. destruct (is_missing_valid v (p_missing p) (HV _ IN)) as [c Hb].
  cbn [fst] in NM'. rewrite (is_missing_bin OL _ _ _ Hb) in NM'. destruct c; [discriminate|]. exact Hb.
Qed.
Lemma small_w : forall n, In n ns -> (N.of_nat n <= T)%N.
Proof. intros n Hn. apply in_sum in Hn. lia. Qed.
Lemma weight_in : forall j x, In x (col_weights data w (p_missing p) j) -> (fzero f64 <? x)%f64 = true.
Proof.
  intros j x Hx. unfold col_weights in Hx. destruct (m_get_col data j) as [col|]; [|inversion Hx].
  apply in_map_iff in Hx. destruct Hx as ([v v'] & <- & Hv). unfold observed in Hv. apply filter_In in Hv. destruct Hv as [Hv _].
  apply in_combine_r in Hv. apply in_map_iff in Hv. destruct Hv as (n & <- & Hn). cbn [snd]. rewrite (cl_pos64 _ _ CLW) by (apply small_w; auto).
  apply Nat.ltb_lt. auto.
Qed.

(** How each tree was grown. *)
Lemma count_grown : forall t, In t (gb_trees b') ->
  exists bd k chosen grad cols st,
    counted T hn (e_sorts E) data w (p_nbins p) (p_missing p) bd (splitter_of p)
      (mkTrain (matrix_new (b_data bd) (m_rows data) (m_cols data)) (b_cuts bd) grad (map (fun n => fofnat f32 n) ns) cols) chosen (p_sample_method p) /\
    tree_fit (p_grow_policy p) (e_pick E k) (splitter_of p)
      (mkTrain (matrix_new (b_data bd) (m_rows data) (m_cols data)) (b_cuts bd) grad (map (fun n => fofnat f32 n) ns) cols) chosen
      (p_max_leaves p) (p_max_depth p) (p_sample_method p) = Some (t, st) /\
    well_formed t /\ (forall f, tree_features t f -> f < m_cols data) /\ NoDup chosen.
Proof.
  intros t Ht. apply In_nth_error in Ht. destruct Ht as [k Hk]. apply fit_ok in HFIT. destruct HFIT as [_ HF].
  destruct (fit_trees_BI _ _ _ _ _ _ _ C HF) as (bd & base & l & HB & HBS & -> & B & L & ST).
  pose proof (bi_trees _ _ _ _ _ _ _ _ _ _ _ _ _ B _ _ Hk) as TS.
  pose proof (tree_step_wf _ _ _ _ _ _ _ _ _ _ TS) as WF.
  pose proof (tree_step_features _ _ _ _ _ _ _ _ _ _ (ae_rng _ _ AE) TS) as TF.
  destruct TS as (yh & n & chosen & grad & hess & n' & cols & n'' & st & P1 & P2 & P3 & P4).
  destruct (ad_matrix _ _ _ _ AD) as (HI & LD & HV). pose proof (ad_y _ _ _ _ AD) as LY. pose proof len_ns as LN.
  assert (LYH : length yh = length y) by (rewrite (preds_length _ _ _ _ _ P1), repeat_length; auto).
  destruct (squared_hess y yh ns) as [LG EH]; [auto|congruence|exact small_w|].
  rewrite OB in P2. rewrite EH in P2.
  assert (Q : grad = fst (calc_grad_hess SquaredLoss y yh w) /\ hess = map (fun n => fofnat f32 n) ns /\ (forall i, In i chosen -> i < m_rows data) /\
              (p_sample_method p = SNone -> chosen = seq 0 (m_rows data)) /\ list_sum (map hn chosen) <= list_sum ns /\ NoDup chosen).
  { unfold sample_index in P2. destruct (p_sample_method p) eqn:ES; [| |congruence].
    - injection P2 as <- <- <- _. rewrite HI. repeat split; auto.
      + intros i Hi. apply in_seq in Hi. lia.
      + rewrite all_sum. auto.
      + apply seq_NoDup.
    - pose proof (random_sample_flags (e_rng E (p_seed p)) (p_subsample p) (m_index data) n) as RF. cbv zeta in RF.
      rewrite RF in P2. injection P2 as <- <- <- _. rewrite HI. split; auto. split; auto. split; [|split; [congruence|split]].
      + intros i Hi. apply (flagged_incl nat) in Hi. apply in_seq in Hi. lia.
      + rewrite <- all_sum. apply flagged_sum.
      + apply flagged_NoDup, seq_NoDup. }
  destruct Q as (-> & -> & QI & QN & QS & QD).
  exists bd, k, chosen, (fst (calc_grad_hess SquaredLoss y yh w)), cols, st.
  split; [|auto]. constructor; auto.
  - apply (ae_sort _ _ AE).
  - apply NB.
  - apply NB.
  - apply (ad_w _ _ _ _ AD).
  - exact known_small.
  - intros x Hx. apply in_map_iff in Hx. destruct Hx as (m & <- & Hm). split; [apply (cl_nonneg64 _ _ CLW)|apply (cl_inf64 _ _ CLW)]; apply small_w; auto.
  - intros j. destruct (col_weights data w (p_missing p) j) as [|x l'] eqn:EW.
    + left. unfold col_weights, col_values in *. destruct (m_get_col data j) as [col|]; auto. destruct (observed _ _ _); [auto|discriminate].
    + right. exists x. split; [left; auto|]. apply (weight_in j). rewrite EW. left; auto.
  - simpl. eapply column_sample_sorted; [apply (ae_rng _ _ AE)|exact P3].
  - simpl. eapply column_sample_bound; [apply (ae_rng _ _ AE)|exact P3].
  - simpl. congruence.
  - simpl. rewrite map_length. auto.
  - simpl. intros i Hi. rewrite (nth_indep _ (fzero f32) (fofnat f32 0)) by (rewrite map_length; lia). apply (map_nth (fun n => fofnat (@f32 FS) n)).
  - lia.
  - unfold splitter_of. destruct (p_create_missing_branch p); exact MP.
Qed.

(** Covers count rows. *)
Theorem count_covers : forall t, In t (gb_trees b') -> exists chosen,
  (p_sample_method p = SNone -> chosen = seq 0 (m_rows data)) /\ NoDup chosen /\ (forall i, In i chosen -> i < m_rows data) /\
  forall k n, nth_error t k = Some n ->
  n_hess n = fofnat f32 (list_sum (map hn (filter (fun i => passes t (row i) (p_missing p) k) chosen))).
Proof.
  intros t Ht. destruct (count_grown t Ht) as (bd & k & chosen & grad & cols & st & CT & HF & WF & TF & ND).
  exists chosen. split; [apply (ct_nosample _ _ _ _ _ _ _ _ _ _ _ _ CT)|]. split; auto. split; [apply (ct_index _ _ _ _ _ _ _ _ _ _ _ _ CT)|].
  exact (fit_cover OL NL zero_nan max_nan T CLW hn _ _ _ _ _ _ _ _ _ _ _ _ _ _ CT t st HF).
Qed.

(** Each split sends training rows both ways. *)
Theorem count_separates : forall t n c, In t (gb_trees b') -> In n t -> n_is_leaf n = false -> c = n_left n \/ c = n_right n ->
  exists i x, i < m_rows data /\ passes t (row i) (p_missing p) c = true /\
    m_get data i (n_split_feature n) = Some x /\ get_child_idx n x (p_missing p) = Some c.
Proof.
  intros t n c Ht Hn Hl Hc. destruct (count_grown t Ht) as (bd & k & chosen & grad & cols & st & CT & HF & WF & TF & _).
  pose proof Hn as Hn'. apply In_nth_error in Hn'. destruct Hn' as [j Hj].
  assert (HC : In c (children n)) by (unfold children; destruct Hc as [->| ->]; simpl; auto).
  destruct (wf_child _ WF j n c Hj Hl HC) as (_ & m & Hm & _).
  pose proof (fit_min_leaf_weight _ _ _ _ _ _ _ _ _ _ HF n Hn Hl c m Hc Hm) as Q.
  rewrite (fit_cover OL NL zero_nan max_nan T CLW hn _ _ _ _ _ _ _ _ _ _ _ _ _ _ CT t st HF c m Hm) in Q.
  destruct (filter (fun i => passes t (row i) (p_missing p) c) chosen) as [|i l] eqn:EF.
  { exfalso. simpl in Q. rewrite (cl_zero32 _ _ CLW) in Q. pose proof (ct_mlw _ _ _ _ _ _ _ _ _ _ _ _ CT) as MQ. congruence. }
  assert (Hi : In i (i :: l)) by (left; auto). rewrite <- EF in Hi. apply filter_In in Hi. destruct Hi as [Hi HP].
  destruct (passes_child t (row i) (p_missing p) j n c WF Hj Hl HC HP) as (_ & x & Hx & Hg).
  exists i, x. split; [apply (ct_index _ _ _ _ _ _ _ _ _ _ _ _ CT); auto|]. auto.
Qed.

(** A column with one value in all rows is not split on. *)
Theorem count_constant_column : forall f, (forall i j, i < m_rows data -> j < m_rows data -> m_get data i f = m_get data j f) ->
  forall t n, In t (gb_trees b') -> In n t -> n_is_leaf n = false -> n_split_feature n <> f.
Proof.
  intros f HC t n Ht Hn Hl Ef.
  destruct (count_separates t n _ Ht Hn Hl (or_introl eq_refl)) as (i & x & Hi & _ & Gx & Cx).
  destruct (count_separates t n _ Ht Hn Hl (or_intror eq_refl)) as (j & x' & Hj & _ & Gx' & Cx').
  rewrite Ef in *. assert (x = x') by (specialize (HC i j Hi Hj); congruence). subst x'. rewrite Cx in Cx'. injection Cx' as Q.
  destruct (count_grown t Ht) as (bd & k & chosen & grad & cols & st & CT & HF & WF & TF & _).
  apply In_nth_error in Hn. destruct Hn as [k' Hk]. exact (wf_sides _ WF _ _ Hk Hl Q).
Qed.

(** Without row sampling, the cover of a leaf is the weight of the training rows predicted to it. *)
Theorem count_leaf_cover : p_sample_method p = SNone -> forall t n, In t (gb_trees b') -> In n t -> n_is_leaf n = true ->
  n_hess n = fofnat f32 (list_sum (map hn (filter (fun i =>
    match predict_leaf t data i (p_missing p) with Some m => n_num m =? n_num n | None => false end) (seq 0 (m_rows data))))).
Proof.
  intros HS t n Ht Hn Hl. destruct (count_covers t Ht) as (chosen & QN & _ & _ & HC). rewrite (QN HS) in HC.
  destruct (count_grown t Ht) as (bd & k & chosen' & grad & cols & st & CT & HF & WF & TF & _).
  apply In_nth_error in Hn. destruct Hn as [j Hj]. rewrite (HC _ _ Hj). f_equal. f_equal. f_equal. apply filter_ext_in. intros i Hi. apply in_seq in Hi.
  rewrite (wf_num _ WF _ _ Hj).
  destruct (ad_matrix _ _ _ _ AD) as (HI & LD & HV).
  assert (WT : exists m, predict_leaf t data i (p_missing p) = Some m).
  { apply walk_total; auto. intros f Hf. specialize (TF f Hf).
    unfold m_get, m_item_index. destruct (nth_error (m_data data) (1 * i + f * m_rows data)) as [v|] eqn:EV.
    - exists v. split; auto. apply HV. eapply nth_error_In; eauto.
    - apply nth_error_None in EV. rewrite LD in EV. nia. }
  destruct WT as (m & Hm). rewrite Hm. exact (leaf_rows data (p_missing p) t j n i m WF Hm Hj Hl).
Qed.
(** Weights shared out among distinct keys add up to at most the whole. *)
Lemma share_sum : forall (g : nat -> nat) (key : nat -> nat) (rows ks : list nat), NoDup ks ->
  list_sum (map (fun k => list_sum (map g (filter (fun i => key i =? k) rows))) ks) <= list_sum (map g rows).
Proof.
  intros g key rows ks ND. induction rows as [|i rows IH]; simpl.
  { clear ND. induction ks; simpl; lia. }
  assert (Q : list_sum (map (fun k => list_sum (map g (if key i =? k then i :: filter (fun i => key i =? k) rows else filter (fun i => key i =? k) rows))) ks) <=
              g i + list_sum (map (fun k => list_sum (map g (filter (fun i => key i =? k) rows))) ks) /\
              (~ In (key i) ks ->
               list_sum (map (fun k => list_sum (map g (if key i =? k then i :: filter (fun i => key i =? k) rows else filter (fun i => key i =? k) rows))) ks) =
               list_sum (map (fun k => list_sum (map g (filter (fun i => key i =? k) rows))) ks))).
  { clear IH. induction ks as [|k ks IK]; simpl; [split; lia|]. inversion ND as [|? ? N1 N2]; subst. destruct (IK N2) as [I1 I2].
    destruct (key i =? k) eqn:EK.
    - apply Nat.eqb_eq in EK. subst k. rewrite (I2 N1). simpl. split; [lia|tauto].
    - split; [lia|]. intros H. rewrite I2 by tauto. lia. }
  destruct Q as [Q _]. lia.
Qed.
Lemma incl_sum : forall (g : nat -> nat) (l l' : list nat), NoDup l -> incl l l' -> list_sum (map g l) <= list_sum (map g l').
Proof.
  intros g. induction l as [|a l IH]; intros l' ND HI; simpl; [lia|]. inversion ND as [|? ? N1 N2]; subst.
  destruct (in_split a l') as (l1 & l2 & ->); [apply HI; left; auto|].
  assert (Q : incl l (l1 ++ l2)).
  { intros x Hx. specialize (HI x (or_intror Hx)). apply in_app_iff in HI. apply in_app_iff. simpl in HI. destruct HI as [H|[H|H]]; auto. subst. tauto. }
  specialize (IH _ N2 Q). rewrite !map_app, !list_sum_app in *. simpl. lia.
Qed.
Lemma all_at_least : forall (g : nat -> nat) k l, (forall x, In x l -> k <= g x) -> length l * k <= list_sum (map g l).
Proof. intros g k. induction l as [|a l IH]; intros H; simpl; [lia|]. pose proof (H a (or_introl eq_refl)). specialize (IH (fun x Hx => H x (or_intror Hx))). lia. Qed.

Lemma leaf_keys : forall t, well_formed t -> NoDup (map (fun n => n_num n) (filter (fun n => n_is_leaf n) t)).
Proof.
  intros t W. assert (G : forall l i, (forall j n, nth_error l j = Some n -> n_num n = i + j) ->
      NoDup (map (fun n => n_num n) (filter (fun n => n_is_leaf n) l)) /\
      forall k, In k (map (fun n => n_num n) (filter (fun n => n_is_leaf n) l)) -> i <= k).
  { induction l as [|a l IH]; intros i H; [split; [constructor|intros k []]|].
    destruct (IH (S i)) as [N L]. { intros j n Hj. rewrite (H (S j) n Hj). lia. }
    pose proof (H 0 a eq_refl) as Ea. simpl. destruct (n_is_leaf a); simpl.
    - split; [constructor; auto; intros Q; specialize (L _ Q); lia|]. intros k [<-|Hk]; [lia|]. specialize (L _ Hk). lia.
    - split; auto. intros k Hk. specialize (L _ Hk). lia. }
  apply (G t 0). intros j n Hj. exact (wf_num _ W _ _ Hj).
Qed.

(** In a tree with a split, no leaf is lighter than the least leaf weight, so the number of leaves is bounded. *)
Lemma count_leaves_any : p_create_missing_branch p = false -> forall t, In t (gb_trees b') -> 1 < length t ->
  forall (g : nat -> nat) k,
  (forall rows, (fofnat (@f32 FS) (list_sum (map hn rows)) <? p_min_leaf_weight p)%f32 = false -> k <= list_sum (map g rows)) ->
  length (filter (fun n => n_is_leaf n) t) * k <= list_sum (map g (seq 0 (m_rows data))).
Proof.
  intros CB t Ht LT g k HK. destruct (count_grown t Ht) as (bd & k0 & chosen & grad & cols & st & CT & HF & W & TF & ND).
  pose proof (fit_sides _ _ _ _ _ _ _ _ _ _ HF) as SI. unfold splitter_of in SI. rewrite CB in SI.
  pose proof (fit_cover OL NL zero_nan max_nan T CLW hn _ _ _ _ _ _ _ _ _ _ _ _ _ _ CT t st HF) as HC.
  pose proof (ct_index _ _ _ _ _ _ _ _ _ _ _ _ CT) as CI.
  destruct (ad_matrix _ _ _ _ AD) as (HI & LD & HV).
  assert (WR : forall i, i < m_rows data -> exists m, predict_leaf t data i (p_missing p) = Some m).
  { intros i Hi. apply walk_total; auto. intros f Hf. specialize (TF f Hf).
    unfold m_get, m_item_index. destruct (nth_error (m_data data) (1 * i + f * m_rows data)) as [v|] eqn:EV.
    - exists v. split; auto. apply HV. eapply nth_error_In; eauto.
    - apply nth_error_None in EV. rewrite LD in EV. nia. }
  set (key := fun i => match predict_leaf t data i (p_missing p) with Some m => n_num m | None => 0 end).
  pose proof (leaf_keys t W) as NK. set (ks := map (fun n => n_num n) (filter (fun n => n_is_leaf n) t)) in *.
  replace (length (filter (fun n => n_is_leaf n) t)) with (length ks) by apply map_length.
  etransitivity; [|etransitivity; [apply (share_sum g key chosen ks NK)|]].
  - apply all_at_least. intros x Hx. apply in_map_iff in Hx. destruct Hx as (n & <- & Hn). apply filter_In in Hn. destruct Hn as [Hn Hl].
    apply In_nth_error in Hn. destruct Hn as [j Hj]. rewrite (wf_num _ W _ _ Hj).
    assert (NZ : j <> 0).
    { intros ->. destruct (wf_parent _ W 1) as (a & na & Ha & La & Ca); [lia|].
      destruct (wf_child _ W a na 1 Ha La Ca) as (LE & _). assert (a = 0) by lia. subst a. congruence. }
    destruct (wf_parent _ W j) as (a & na & Ha & La & Ca); [split; [lia|eapply nth_error_Some_lt; eauto]|].
    assert (HCH : j = n_left na \/ j = n_right na).
    { specialize (SI na (nth_error_In _ _ Ha) La). unfold children in Ca. simpl in Ca. destruct Ca as [<-|[<-|[<-|[]]]]; tauto. }
    pose proof (fit_min_leaf_weight _ _ _ _ _ _ _ _ _ _ HF na (nth_error_In _ _ Ha) La j n HCH Hj) as Q.
    rewrite (HC j n Hj) in Q.
    replace (filter (fun i => key i =? j) chosen) with (filter (fun i => passes t (row i) (p_missing p) j) chosen).
    + apply HK. revert Q. unfold splitter_of. destruct (p_create_missing_branch p); exact (fun q => q).
    + apply filter_ext_in. intros i Hi. destruct (WR i (CI i Hi)) as (m & Hm). unfold key. rewrite Hm.
      exact (leaf_rows data (p_missing p) t j n i m W Hm Hj Hl).
  - apply incl_sum; auto. intros i Hi. apply in_seq. specialize (CI i Hi). lia.
Qed.

Theorem count_leaves_weight : p_create_missing_branch p = false -> forall t, In t (gb_trees b') -> 1 < length t ->
  forall k, (forall c, c < k -> (fofnat (@f32 FS) c <? p_min_leaf_weight p)%f32 = true) ->
  length (filter (fun n => n_is_leaf n) t) * k <= list_sum ns.
Proof.
  intros CB t Ht LT k HK. rewrite <- all_sum. apply count_leaves_any; auto. intros rows Q.
  destruct (le_lt_dec k (list_sum (map hn rows))) as [L|L]; auto. rewrite (HK _ L) in Q. discriminate.
Qed.
Theorem count_leaves_rows : p_create_missing_branch p = false -> 0 < m_rows data ->
  forall t, In t (gb_trees b') -> length (filter (fun n => n_is_leaf n) t) <= m_rows data.
Proof.
  intros CB NR t Ht. destruct (le_lt_dec (length t) 1) as [L|L].
  { assert (FL : forall l : list Node, length (filter (fun n => n_is_leaf n) l) <= length l) by (clear; induction l as [|a l IH]; simpl; [lia|destruct (n_is_leaf a); simpl; lia]).
    specialize (FL t). lia. }
  pose proof (count_leaves_any CB t Ht L (fun _ => 1) 1) as Q.
  assert (S1 : forall l : list nat, list_sum (map (fun _ => 1) l) = length l) by (clear; induction l; simpl; auto).
  rewrite S1, seq_length, Nat.mul_1_r in Q. apply Q. intros rows H. rewrite S1. destruct rows; [|simpl; lia].
  exfalso. simpl in H. rewrite (cl_zero32 _ _ CLW) in H. congruence.
Qed.
End Model.
