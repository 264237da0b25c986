(** Contributions under exact arithmetic: they sum to the prediction. *)
From Coq Require Import List Arith Lia Bool Reals Lra String.
From Verif Require Import Prelude Float FloatX FloatLaws Data DataProofs Utils Binning Histogram HistogramProofs Node Splitter Tree TreeWf PathProofs
  Objective Metric MetricX Sampler Contrib Booster PredictProofs ContribProofs.
Import ListNotations.
Local Open Scope R_scope.

Lemma sumR_update : forall rs i (x d : R) c', nth_error rs i = Some x -> update (map Fin rs) i (Fin (x + d)) = Some c' ->
  exists rs', c' = map Fin rs' /\ sumR rs' = sumR rs + d.
Proof.
  induction rs as [|a rs IH]; intros [|i] x d c' Hx H; simpl in *; try discriminate.
  - injection Hx as ->. injection H as <-. exists ((x + d) :: rs). split; auto. rewrite !sumR_cons. lra.
  - inv_bind H. injection H as <-. destruct (IH _ _ _ _ Hx E) as (rs' & -> & S). exists (a :: rs'). split; auto. rewrite !sumR_cons, S. lra.
Qed.
Lemma add_at_X : forall rs i d c', @add_at XF (map Fin rs) i (Fin d) = Some c' -> exists rs', c' = map Fin rs' /\ sumR rs' = sumR rs + d.
Proof.
  intros rs i d c' H. unfold add_at in H. inv_bind H. 
  destruct (nth_error rs i) as [x|] eqn:Ex.
  - assert (EV : v = Fin x).
    { assert (Q : nth_error (map Fin rs) i = Some (Fin x)) by (apply map_nth_error; auto). change (fcar (@f64 XF)) with xr in E. congruence. }
    subst v. eapply sumR_update; eauto.
  - exfalso. apply nth_error_None in Ex. assert (Q : nth_error (map Fin rs) i = None) by (apply nth_error_None; rewrite map_length; auto).
    change (fcar (@f64 XF)) with xr in E. congruence.
Qed.
Lemma add_bias_X : forall rs d c', @add_bias XF (map Fin rs) (Fin d) = Some c' -> exists rs', c' = map Fin rs' /\ sumR rs' = sumR rs + d.
Proof. intros rs d c' H. unfold add_bias in H. destruct (List.length _); [discriminate|]. eapply add_at_X; eauto. Qed.

Lemma walk_telescope : forall (nodes : list (@Node XF)) row missing delta (phi : nat -> R),
  (forall i n ch m, nth_error nodes i = Some n -> n_is_leaf n = false -> nth_error nodes ch = Some m -> delta i n ch = Some (Some (Fin (phi ch - phi i)))) ->
  forall fuel i rs n c', @contrib_walk XF fuel nodes row missing delta i (map Fin rs) = Some (n, c') ->
  exists k rs', nth_error nodes k = Some n /\ n_is_leaf n = true /\ c' = map Fin rs' /\ sumR rs' = sumR rs + phi k - phi i.
Proof.
  intros nodes row missing delta phi HD. induction fuel as [|f IH]; intros i rs n c' H; cbn [contrib_walk] in H; [discriminate|].
  inv_bind H. destruct (n_is_leaf v) eqn:EL.
  - injection H as <- <-. exists i, rs. repeat split; auto. lra.
  - inv_bind H. inv_bind H. inv_bind H. inv_bind H.
    assert (Hm : exists m, nth_error nodes v1 = Some m).
    { destruct f; cbn [contrib_walk] in H; [discriminate|]. inv_bind H. eauto. }
    destruct Hm as [m Hm]. rewrite (HD i v v1 m E EL Hm) in E2. injection E2 as <-.
    apply add_at_X in E3. destruct E3 as (rs1 & -> & S1). apply IH in H. destruct H as (k & rs' & K1 & K2 & -> & S2).
    exists k, rs'. repeat split; auto. lra.
Qed.

Definition finite_weights (t : list (@Node XF)) : Prop := forall n, In n t -> xfin (n_weight n).
Definition wt (t : list (@Node XF)) (k : nat) : R := match nth_error t k with Some n => val (n_weight n) | None => 0 end.

Lemma weight_tree_X : forall t row missing rs c', finite_weights t -> @contrib_weight XF t row missing (map Fin rs) = Some c' ->
  exists n rs', walk (List.length t) t (nth_error row) missing 0 = Some n /\ c' = map Fin rs' /\ sumR rs' = sumR rs + val (n_weight n).
Proof.
  intros t row missing rs c' FW H. unfold contrib_weight in H. inv_bind H. inv_bind H. inv_bind H. destruct v1 as [leaf c2]. injection H as ->.
  assert (WT : forall k n, nth_error t k = Some n -> n_weight n = Fin (wt t k)).
  { intros k n Hn. unfold wt. rewrite Hn. apply xfin_val. apply FW. eapply nth_error_In; eauto. }
  change (to64 (n_weight v)) with (n_weight v) in E0. rewrite (WT 0%nat v E) in E0. apply add_bias_X in E0. destruct E0 as (rs1 & -> & S1).
  pose proof (contrib_walk_cells _ _ _ _ _ _ _ _ _ E1) as [HW _].
  apply (walk_telescope t row missing _ (wt t)) in E1.
  - destruct E1 as (k & rs' & K1 & K2 & -> & S2). exists leaf, rs'. split; auto. split; auto. rewrite (WT k leaf K1). simpl val. lra.
  - intros i n ch m Hn HL Hm. rewrite Hm. simpl. rewrite (WT ch m Hm), (WT i n Hn). reflexivity.
Qed.

(** finite covers, not zero at inner nodes *)
Definition finite_covers (t : list (@Node XF)) : Prop := forall n, In n t -> xfin (n_hess n) /\ (n_is_leaf n = false -> val (n_hess n) <> 0).

Lemma iavg_fin : forall t x, reps t x -> finite_weights t -> finite_covers t -> xfin (@iavg XF x).
Proof.
  intros t x R FW FC. 
  assert (FH : forall n k, nth_error t k = Some n -> n_hess n = Fin (val (n_hess n)) /\ (n_is_leaf n = false -> val (n_hess n) <> 0)).
  { intros n k Hn. destruct (FC n) as [F NZ]; [eapply nth_error_In; eauto|]. split; auto. apply xfin_val; auto. }
  induction x as [n|n mr l IHl r IHr|n m IHm l IHl r IHr]; cbn [iavg].
  - simpl in R. apply FW. destruct R as [R _]. eapply nth_error_In; eauto.
  - simpl in R. destruct R as (H1 & H2 & H3 & H4 & H5 & H6 & H7).
    destruct (FH _ _ H1) as [F0 NZ]. destruct (FH _ _ (reps_root _ _ H6)) as [F1 _]. destruct (FH _ _ (reps_root _ _ H7)) as [F2 _].
    specialize (IHl H6). specialize (IHr H7). apply xfin_val in IHl, IHr. rewrite IHl, IHr.
    change (@to64 XF) with (fun x : xr => x). cbv beta. rewrite F0, F1, F2. simpl. 
    change (xfin (xdiv (Fin (val (n_hess (iroot l)) * val (iavg l) + val (n_hess (iroot r)) * val (iavg r))) (Fin (val (n_hess n))))).
    rewrite xdiv_fin by auto. eexists; reflexivity.
  - simpl in R. destruct R as (H1 & H2 & H3 & H4 & H5 & H6 & H7 & H8 & H9 & H10).
    destruct (FH _ _ H1) as [F0 NZ]. destruct (FH _ _ (reps_root _ _ H8)) as [F1 _]. destruct (FH _ _ (reps_root _ _ H9)) as [F2 _]. destruct (FH _ _ (reps_root _ _ H10)) as [F3 _].
    specialize (IHl H9). specialize (IHr H10). specialize (IHm H8). apply xfin_val in IHl, IHr, IHm. rewrite IHl, IHr, IHm.
    change (@to64 XF) with (fun x : xr => x). cbv beta. rewrite F0, F1, F2, F3. simpl. 
    change (xfin (xdiv (Fin (val (n_hess (iroot l)) * val (iavg l) + val (n_hess (iroot r)) * val (iavg r) + val (n_hess (iroot m)) * val (iavg m))) (Fin (val (n_hess n))))).
    rewrite xdiv_fin by auto. eexists; reflexivity.
Qed.

Lemma average_at_fin : forall t k n, well_formed t -> finite_weights t -> finite_covers t -> nth_error t k = Some n ->
  xfin (@average_at XF t k) /\ (n_is_leaf n = true -> @average_at XF t k = n_weight n).
Proof.
  intros t k n W FW FC Hn. split.
  - destruct (reps_exists t W) as (x & R & R0). destruct (reps_subtree t x W R R0 k n Hn) as (y & Hy & <- & _ & RY).
    unfold average_at. rewrite (average_reps t y RY); [eapply iavg_fin; eauto|].
    pose proof (iheight_sub x y Hy). pose proof (iheight_size x). rewrite (reps_size _ W _ R R0) in H0. lia.
  - intros HL. rewrite (average_at_eq t k n W Hn), HL. reflexivity.
Qed.

Lemma average_tree_X : forall t ws row missing rs c', well_formed t -> finite_weights t -> finite_covers t ->
  distribute_leaf_weights t = Some ws -> @contrib_average XF t row ws missing (map Fin rs) = Some c' ->
  exists n rs', walk (List.length t) t (nth_error row) missing 0 = Some n /\ c' = map Fin rs' /\ sumR rs' = sumR rs + val (n_weight n).
Proof.
  intros t ws row missing rs c' W FW FC HD H. unfold contrib_average in H. inv_bind H. inv_bind H. inv_bind H. destruct v1 as [leaf c2]. injection H as ->.
  destruct (distribute_is_average t ws W HD) as [LW N].
  assert (AV : forall k n, nth_error t k = Some n -> nth_error ws k = Some (Fin (val (@average_at XF t k)))).
  { intros k n Hn. rewrite N by (eapply nth_error_Some_lt; eauto). f_equal. apply xfin_val. eapply average_at_fin; eauto. }
  destruct (wf_root _ W) as (root & HR & _). rewrite (AV 0%nat root HR) in E. injection E as <-.
  apply add_bias_X in E0. destruct E0 as (rs1 & -> & S1).
  pose proof (contrib_walk_cells _ _ _ _ _ _ _ _ _ E1) as [HW _].
  apply (walk_telescope t row missing _ (fun k => val (@average_at XF t k))) in E1.
  - destruct E1 as (k & rs' & K1 & K2 & -> & S2). exists leaf, rs'. split; auto. split; auto.
    destruct (average_at_fin t k leaf W FW FC K1) as [_ Q]. rewrite (Q K2) in S2. simpl val in *. lra.
  - intros i n ch m Hn HL Hm. rewrite (AV i n Hn), (AV ch m Hm). reflexivity.
Qed.

Lemma prob_tree_X : forall t row missing acc rs a' c', finite_weights t -> 
  @contrib_probability_change XF t row missing (Fin acc) (map Fin rs) = Some (a', c') ->
  exists n rs', walk (List.length t) t (nth_error row) missing 0 = Some n /\ a' = Fin (acc + val (n_weight n)) /\
    c' = map Fin rs' /\ sumR rs' = sumR rs + sig (acc + val (n_weight n)) - sig acc.
Proof.
  intros t row missing acc rs a' c' FW H. unfold contrib_probability_change in H. inv_bind H. inv_bind H. inv_bind H. destruct v1 as [leaf c2]. injection H as <- ->.
  assert (WT : forall k n, nth_error t k = Some n -> n_weight n = Fin (wt t k)).
  { intros k n Hn. unfold wt. rewrite Hn. apply xfin_val. apply FW. eapply nth_error_In; eauto. }
  change (to64 (n_weight v)) with (n_weight v) in E0. rewrite (WT 0%nat v E) in E0.
  change (@add_bias XF (map Fin rs) (xsub (@odds XF (Fin (acc + wt t 0))) (@odds XF (Fin acc))) = Some v0) in E0.
  rewrite !odds_X in E0. rewrite xsub_fin in E0. apply add_bias_X in E0. destruct E0 as (rs1 & -> & S1).
  pose proof (contrib_walk_cells _ _ _ _ _ _ _ _ _ E1) as [HW _].
  apply (walk_telescope t row missing _ (fun k => sig (wt t k + acc))) in E1.
  - destruct E1 as (k & rs' & K1 & K2 & -> & S2). exists leaf, rs'. split; auto.
    change (to64 (n_weight leaf)) with (n_weight leaf). rewrite (WT k leaf K1). split; auto. split; auto. simpl val.
    rewrite S2, S1. rewrite (Rplus_comm acc (wt t k)), (Rplus_comm acc (wt t 0)). lra.
  - intros i n ch m Hn HL Hm. rewrite Hm. cbn [bind]. change (to64 (n_weight m)) with (n_weight m). change (to64 (n_weight n)) with (n_weight n).
    rewrite (WT ch m Hm), (WT i n Hn).
    change (Some (Some (xsub (@odds XF (Fin (wt t ch + acc))) (@odds XF (Fin (wt t i + acc))))) = Some (Some (Fin (sig (wt t ch + acc) - sig (wt t i + acc))))).
    rewrite !odds_X. reflexivity.
Qed.

Lemma row_start_X : forall cols b, @row_start XF cols (Fin b) = map Fin (repeat 0 cols ++ [b]) /\ sumR (repeat 0 cols ++ [b]) = b.
Proof.
  intros cols b. split.
  - unfold row_start. rewrite map_app. f_equal; [|simpl; rewrite Rplus_0_l; reflexivity]. induction cols; simpl; [reflexivity|f_equal; exact IHcols].
  - rewrite sumR_app. unfold sumR at 2. simpl. replace (sumR (repeat 0 cols)) with 0; [lra|]. induction cols as [|k IHk]; simpl; lra.
Qed.

(** the walk of contributions (over the row) and that of predictions (over the matrix) agree *)
Lemma walk_mono : forall {FS : Floats} nodes row row' missing, (forall f v, row f = Some v -> row' f = Some v) ->
  forall fuel i n, walk fuel nodes row missing i = Some n -> walk fuel nodes row' missing i = Some n.
Proof.
  intros FS nodes row row' missing H. induction fuel as [|f IH]; intros i n Hw; simpl in *; auto.
  destruct (nth_error nodes i) as [m|]; cbn [bind] in *; [|discriminate]. destruct (n_is_leaf m); auto. inv_bind Hw. rewrite (H _ _ E). cbn [bind].
  destruct (get_child_idx m v missing); cbn [bind] in *; auto; discriminate.
Qed.

Lemma score_X : forall missing row row' ts leaves b, (forall f v, row f = Some v -> row' f = Some v) ->
  Forall2 (fun t n => walk (List.length t) t row missing 0 = Some n) ts leaves ->
  (forall t, In t ts -> finite_weights t) ->
  @score XF missing ts row' (Fin b) = Some (Fin (b + sumR (map (fun n => val (n_weight n)) leaves))).
Proof.
  intros missing row row' ts leaves b HR HF. revert b. induction HF as [|t n ts leaves Hw HF IH]; intros b FW.
  - unfold score. simpl. unfold sumR. simpl. rewrite Rplus_0_r. reflexivity.
  - unfold score. cbn [foldM]. rewrite (walk_mono _ _ _ _ HR _ _ _ Hw). cbn [bind].
    change (to64 (n_weight n)) with (n_weight n).
    destruct (walk_in _ _ _ _ _ _ Hw) as [_ [j Hj]].
    assert (FN : n_weight n = Fin (val (n_weight n))) by (apply xfin_val; apply (FW t (or_introl eq_refl)); eapply nth_error_In; eauto).
    rewrite FN at 1. change (@fadd (@f64 XF) (Fin b) (Fin (val (n_weight n)))) with (Fin (b + val (n_weight n))).
    refine (eq_trans (IH (b + val (n_weight n)) (fun t Ht => FW t (or_intror Ht))) _).
    cbn [map]. rewrite sumR_cons. do 2 f_equal. lra.
Qed.

Section Sums.
Variables (b : @Booster XF) (data : Matrix (fcar (@f64 XF))) (ts : list (list (@Node XF))) (base : R).
Hypotheses (HI : m_index data = seq 0 (m_rows data)) (LD : List.length (m_data data) = (m_rows data * m_cols data)%nat)
  (HT : prediction_trees b = Some ts) (HB : gb_base_score b = Fin base) (FW : forall t, In t ts -> finite_weights t).

Lemma row_get : forall i row f v, (i < m_rows data)%nat -> m_get_row data i = Some row -> nth_error row f = Some v -> m_get data i f = Some v.
Proof.
  intros i row f v Hi HR Hf. destruct (get_row_spec data LD i Hi) as (row' & HR' & L & V). assert (row' = row) by congruence. subst row'.
  rewrite <- V; auto. rewrite <- L. eapply nth_error_Some_lt; eauto.
Qed.

(** if the leaves reached are known, so is the prediction *)
Lemma predict_X : forall shs par preds i row leaves, (i < m_rows data)%nat -> m_get_row data i = Some row ->
  @predict XF shs b data par = Some preds ->
  Forall2 (fun t n => walk (List.length t) t (nth_error row) (p_missing (gb_params b)) 0 = Some n) ts leaves ->
  nth_error preds i = Some (Fin (base + sumR (map (fun n => val (n_weight n)) leaves))).
Proof.
  intros shs par preds i row leaves Hi HR HP HL. rewrite predict_rows in HP by (rewrite HI; apply seq_length). rewrite HT in HP. cbn [bind] in HP.
  destruct (mapMn _ _ HP i i) as (v & Hv & Hs); [rewrite HI; apply nth_error_seq; auto|].
  rewrite Hv. f_equal. cbv beta in Hs. rewrite HB in Hs.
  rewrite (score_X _ (nth_error row) _ ts leaves base) in Hs; auto; [congruence|]. intros f x. apply row_get; auto.
Qed.

Lemma fold_sum_X : forall (us : list (list (@Node XF))) row step rs c,
  (forall k t rs c', nth_error us k = Some t -> step (map Fin rs) k t = Some c' -> exists n rs',
     walk (List.length t) t (nth_error row) (p_missing (gb_params b)) 0 = Some n /\ c' = map Fin rs' /\ sumR rs' = sumR rs + val (n_weight n)) ->
  foldM (fun c '(k, t) => step c k t) (combine (seq 0 (List.length us)) us) (map Fin rs) = Some c ->
  exists leaves rs', Forall2 (fun t n => walk (List.length t) t (nth_error row) (p_missing (gb_params b)) 0 = Some n) us leaves /\
    c = map Fin rs' /\ sumR rs' = sumR rs + sumR (map (fun n => val (n_weight n)) leaves).
Proof.
  intros us row step rs c HS.
  enough (G : forall vs k0 rs, (forall k x, nth_error vs k = Some x -> nth_error us (k0 + k) = Some x) ->
    foldM (fun c '(k, t) => step c k t) (combine (seq k0 (List.length vs)) vs) (map Fin rs) = Some c ->
    exists leaves rs', Forall2 (fun t n => walk (List.length t) t (nth_error row) (p_missing (gb_params b)) 0 = Some n) vs leaves /\
      c = map Fin rs' /\ sumR rs' = sumR rs + sumR (map (fun n => val (n_weight n)) leaves)) by (intros; apply (G us 0%nat); auto).
  induction vs as [|t vs IH]; intros k0 rs0 Hvs H; simpl in H.
  - injection H as <-. exists [], rs0. split; auto. split; auto. unfold sumR at 3. simpl. lra.
  - inv_bind H. assert (Ht : nth_error us k0 = Some t) by (rewrite <- (Nat.add_0_r k0); apply Hvs; reflexivity).
    destruct (HS k0 t rs0 v Ht E) as (n & rs1 & Hw & -> & S1). apply IH in H.
    + destruct H as (leaves & rs2 & HF & -> & S2). exists (n :: leaves), rs2. split; auto. split; auto. cbn [map]. rewrite sumR_cons. lra.
    + intros k x Hk. rewrite Nat.add_succ_l, <- Nat.add_succ_r. apply Hvs. auto.
Qed.

Theorem weight_sums : forall shs sh par par' preds r, @predict XF shs b data par = Some preds ->
  @predict_contributions XF sh b data CWeight par' = Some r -> forall i, (i < m_rows data)%nat ->
  exists cs, List.length cs = (m_cols data + 1)%nat /\
    slice r (i * (m_cols data + 1)) (i * (m_cols data + 1) + (m_cols data + 1)) = Some (map Fin cs) /\
    nth_error preds i = Some (Fin (sumR cs)).
Proof.
  intros shs sh par par' preds r HP HC i Hi. destruct (get_row_spec data LD i Hi) as (row & HR & _).
  destruct (contributions_rows _ _ _ _ _ _ HI HC i row Hi HR) as (c & Hc & Hs). pose proof (contrib_row_length _ _ _ _ _ Hc) as LC.
  unfold contrib_row in Hc; cbn [row_method bind] in Hc. unfold contrib_row_alone in Hc. rewrite HT in Hc. cbn [bind] in Hc.
  rewrite <- (combine_fold _ _ (fun c _ t => contrib_weight t row (p_missing (gb_params b)) c) ts) in Hc by auto.
  rewrite HB in Hc. destruct (row_start_X (m_cols data) base) as [RS SS]. rewrite RS in Hc.
  apply (fold_sum_X ts row (fun c _ t => contrib_weight t row (p_missing (gb_params b)) c)) in Hc.
  - destruct Hc as (leaves & rs & HF & -> & S). exists rs. rewrite map_length in LC. split; auto. split; auto.
    rewrite (predict_X shs par preds i row leaves Hi HR HP HF), S, SS. reflexivity.
  - intros k t rs c' Hk Hst. apply weight_tree_X; auto. apply FW. eapply nth_error_In; eauto.
Qed.

Theorem average_sums : (forall t, In t ts -> well_formed t /\ finite_covers t) ->
  forall shs sh par par' preds r, @predict XF shs b data par = Some preds ->
  @predict_contributions XF sh b data CAverage par' = Some r -> forall i, (i < m_rows data)%nat ->
  exists cs, List.length cs = (m_cols data + 1)%nat /\
    slice r (i * (m_cols data + 1)) (i * (m_cols data + 1) + (m_cols data + 1)) = Some (map Fin cs) /\
    nth_error preds i = Some (Fin (sumR cs)).
Proof.
  intros WF shs sh par par' preds r HP HC i Hi. destruct (get_row_spec data LD i Hi) as (row & HR & _).
  destruct (contributions_rows _ _ _ _ _ _ HI HC i row Hi HR) as (c & Hc & Hs). pose proof (contrib_row_length _ _ _ _ _ Hc) as LC.
  unfold contrib_row in Hc; cbn [row_method bind] in Hc. rewrite HT in Hc. cbn [bind] in Hc. inv_bind Hc. unfold contrib_row_average in Hc. rewrite HT in Hc. cbn [bind] in Hc.
  rewrite combine_fold2 in Hc by (apply mapM_length in E; auto).
  rewrite HB in Hc. destruct (row_start_X (m_cols data) base) as [RS SS]. rewrite RS in Hc.
  apply (fold_sum_X ts row (fun c k t => let* w := nth_error v k in contrib_average t row w (p_missing (gb_params b)) c)) in Hc.
  - destruct Hc as (leaves & rs & HF & -> & S). exists rs. rewrite map_length in LC. split; auto. split; auto.
    rewrite (predict_X shs par preds i row leaves Hi HR HP HF), S, SS. reflexivity.
  - intros k t rs c' Hk Hst. destruct (mapMn _ _ E k t Hk) as (w & Hw & HD). rewrite Hw in Hst. cbn [bind] in Hst.
    apply nth_error_In in Hk. destruct (WF t Hk). eapply average_tree_X; eauto.
Qed.

Theorem probability_sums : forall shs sh par par' preds r, @predict XF shs b data par = Some preds ->
  @predict_contributions XF sh b data CProbabilityChange par' = Some r -> forall i, (i < m_rows data)%nat ->
  exists cs p, List.length cs = (m_cols data + 1)%nat /\
    slice r (i * (m_cols data + 1)) (i * (m_cols data + 1) + (m_cols data + 1)) = Some (map Fin cs) /\
    nth_error preds i = Some (Fin p) /\ sumR cs = 1 / (1 + exp (- p)).
Proof.
  intros shs sh par par' preds r HP HC i Hi. destruct (get_row_spec data LD i Hi) as (row & HR & _).
  destruct (contributions_rows _ _ _ _ _ _ HI HC i row Hi HR) as (c & Hc & Hs). pose proof (contrib_row_length _ _ _ _ _ Hc) as LC.
  unfold contrib_row in Hc; cbn [row_method bind] in Hc. destruct (p_objective (gb_params b)); [|discriminate]. unfold contrib_row_probability in Hc. rewrite HT in Hc. cbn [bind] in Hc.
  inv_bind Hc. destruct v as [a c1]. injection Hc as ->. rewrite HB, odds_X in E. destruct (row_start_X (m_cols data) (sig base)) as [RS SS]. rewrite RS in E.
  assert (G : forall us acc rs, (forall t, In t us -> finite_weights t) ->
    foldM (fun '(acc, c) t => contrib_probability_change t row (p_missing (gb_params b)) acc c) us (Fin acc, map Fin rs) = Some (a, c) ->
    exists leaves rs', Forall2 (fun t n => walk (List.length t) t (nth_error row) (p_missing (gb_params b)) 0 = Some n) us leaves /\
      c = map Fin rs' /\ sumR rs' = sumR rs + sig (acc + sumR (map (fun n => val (n_weight n)) leaves)) - sig acc).
  { clear. induction us as [|t us IH]; intros acc rs FW H; cbn [foldM] in H.
    - injection H as _ <-. exists [], rs. split; auto. split; auto. unfold sumR at 3. simpl. rewrite Rplus_0_r. lra.
    - inv_bind H. destruct v as [a1 c1]. destruct (prob_tree_X _ _ _ _ _ _ _ (FW t (or_introl eq_refl)) E) as (n & rs1 & Hw & -> & -> & S1).
      apply IH in H; [|intros; apply FW; right; auto]. destruct H as (leaves & rs2 & HF & -> & S2). exists (n :: leaves), rs2. split; auto. split; auto.
      cbn [map]. rewrite sumR_cons, S2, S1. rewrite Rplus_assoc. lra. }
  apply G in E; auto. destruct E as (leaves & rs & HF & -> & S). exists rs, (base + sumR (map (fun n : @Node XF => val (@n_weight XF n)) leaves)).
  rewrite map_length in LC. split; auto. split; auto. split; [eapply predict_X; eauto|]. rewrite S, SS. unfold sig. lra.
Qed.
End Sums.
