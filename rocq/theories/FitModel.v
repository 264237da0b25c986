(** What holds of every fitted model: early stopping, history, refits, rejected inputs. *)
From Coq Require Import List Arith Lia Bool String.
From Verif Require Import Prelude Float FloatLaws OrdProofs Data DataProofs Utils Binning Histogram Node Splitter
  Tree TreeWf Objective Metric MetricProofs Sampler Contrib Booster PredictProofs BoostProofs.
Import ListNotations.

Lemma list_eq_nil_dec : forall A (l : list A), {l = []} + {l <> []}.
Proof. intros A [|a l]; [left|right]; [reflexivity|discriminate]. Qed.
Arguments list_eq_nil_dec {A} l.

Section Early.
Context {FS : Floats}.
Variable OL : OrdLaws (@f64 FS).
Variables (p : Params) (r : nat) (best0 pred0 : option nat).
Hypothesis HR : p_early_stopping_rounds p = Some r.
Notation mx := (metric_maximize (get_metric p)).
(** [better a b]: a is the better metric *)
Notation better a b := (is_comparison_better b a mx = true).
Notation fold ms := (stop_fold p ms (stop0 best0 pred0)).

(** b is the first iteration up to k whose metric no other iteration up to k beats *)
Definition first_best (ms : list F64) (k b : nat) : Prop :=
  b <= k /\ exists mb, nth_error ms b = Some mb /\
    (forall j mj, j <= k -> nth_error ms j = Some mj -> ~ better mj mb) /\
    (forall j mj, j < b -> nth_error ms j = Some mj -> better mb mj).

Lemma first_best_unique : forall ms k b b', first_best ms k b -> first_best ms k b' -> b = b'.
Proof.
  assert (G : forall ms k b b', first_best ms k b -> first_best ms k b' -> b < b' -> False).
  { intros ms k b b' (L & mb & Hb & N & P) (L' & mb' & Hb' & N' & P') H.
    apply (N _ _ L' Hb'). eauto. }
  intros ms k b b' H H'. destruct (lt_eq_lt_dec b b') as [[?|?]|?]; auto; exfalso; eauto.
Qed.

Lemma stop_fold_best : forall ms, ms <> [] -> exists b mb, first_best ms (List.length ms - 1) b /\ nth_error ms b = Some mb /\
  s_metric (fold ms) = Some mb /\ s_best (fold ms) = Some b /\ s_pred (fold ms) = Some (b + 1).
Proof.
  intros ms. induction ms as [|m ms IH] using rev_ind; intros NE; [tauto|].
  rewrite stop_fold_snoc, app_length. simpl. replace (List.length ms + 1 - 1) with (List.length ms) by lia.
  destruct (list_eq_nil_dec ms) as [->|N].
  - simpl. unfold early_stop. rewrite HR. simpl. exists 0, m. split; [|simpl; auto].
    split; auto. exists m. split; auto. split; [|intros; lia].
    intros j mj Hj Hm. replace j with 0 in Hm by lia. simpl in Hm. injection Hm as ->. apply better_irrefl; auto.
  - destruct (IH N) as (b & mb & (L & mb' & Hb' & NB & PB) & Hb & S1 & S2 & S3). assert (mb' = mb) by congruence. subst mb'.
    unfold early_stop. rewrite HR, S1.
    assert (LB : b < List.length ms) by (eapply nth_error_Some_lt; eauto).
    destruct (is_comparison_better mb m mx) eqn:EB.
    + exists (List.length ms), m. split; [|simpl; split; [|auto]].
      * split; auto. exists m. rewrite nth_error_app2, Nat.sub_diag by lia. split; auto.
        assert (BT : forall j mj, j < List.length ms -> nth_error ms j = Some mj -> better m mj).
        { intros j mj Hj Hm. destruct (better_weak OL mx m mj mb EB) as [|Q]; auto. exfalso. exact (NB j mj ltac:(lia) Hm Q). }
        split.
        -- intros j mj Hj Hm. destruct (Nat.eq_dec j (List.length ms)) as [->|].
           ++ rewrite nth_error_app2, Nat.sub_diag in Hm by lia. simpl in Hm. injection Hm as ->. apply better_irrefl; auto.
           ++ rewrite nth_error_app1 in Hm by lia. apply better_asym; auto. apply (BT j); auto. lia.
        -- intros j mj Hj Hm. rewrite nth_error_app1 in Hm by lia. eauto.
      * rewrite nth_error_app2, Nat.sub_diag by lia. reflexivity.
    + exists b, mb. split; [|simpl; split; [rewrite nth_error_app1 by lia; auto|auto]].
      split; [lia|]. exists mb. rewrite nth_error_app1 by lia. split; auto. split.
      * intros j mj Hj Hm. destruct (Nat.eq_dec j (List.length ms)) as [->|].
        -- rewrite nth_error_app2, Nat.sub_diag in Hm by lia. simpl in Hm. injection Hm as <-. rewrite EB. discriminate.
        -- rewrite nth_error_app1 in Hm by lia. apply (NB j); auto. lia.
      * intros j mj Hj Hm. rewrite nth_error_app1 in Hm by lia. eauto.
Qed.

(** iteration i does not improve and is at least r after the best one *)
Definition should_stop (ms : list F64) (i : nat) : Prop := exists b, first_best ms i b /\ b < i /\ r <= i - b.

Lemma first_best_app : forall ms ms' k b, k < List.length ms -> first_best (ms ++ ms') k b <-> first_best ms k b.
Proof.
  intros ms ms' k b L.
  assert (N : forall j, j <= k -> nth_error (ms ++ ms') j = nth_error ms j) by (intros; apply nth_error_app1; lia).
  split; intros (L' & mb & Hb & A & B); (split; [auto|]); exists mb.
  - rewrite N in Hb by auto. split; auto. split; intros j mj Hj Hm; [eapply A|eapply B]; eauto; rewrite N; auto; lia.
  - rewrite N by auto. split; auto. split; intros j mj Hj Hm; rewrite N in Hm by lia; eauto.
Qed.

Lemma stop_fold_stop : forall ms m, s_stop (fold ms) = false ->
  (s_stop (fold (ms ++ [m])) = true <-> should_stop (ms ++ [m]) (List.length ms)).
Proof.
  intros ms m NS. rewrite stop_fold_snoc.
  destruct (stop_fold_best (ms ++ [m])) as (b & mb & FB & Hb & S1 & S2 & S3); [destruct ms; discriminate|].
  rewrite app_length in FB. simpl in FB. replace (List.length ms + 1 - 1) with (List.length ms) in FB by lia.
  rewrite stop_fold_snoc in S1, S2, S3.
  unfold early_stop in *. rewrite HR in *.
  destruct (list_eq_nil_dec ms) as [->|N].
  - simpl. split; [discriminate|]. intros (b' & _ & L & _). lia.
  - destruct (stop_fold_best ms N) as (b1 & mb1 & FB1 & Hb1 & T1 & T2 & T3). rewrite T1 in *.
    assert (L1 : b1 < List.length ms) by (eapply nth_error_Some_lt; eauto).
    destruct (is_comparison_better mb1 m mx) eqn:EB; simpl in *.
    + rewrite NS. split; [discriminate|]. intros (b' & FB' & L & _). injection S2 as <-.
      pose proof (first_best_unique _ _ _ _ FB FB'). lia.
    + rewrite T2 in *. injection S2 as ->. rewrite NS.
      destruct (Nat.leb_spec r (List.length ms - b)); split; try tauto; try discriminate.
      * intros _. exists b. auto.
      * intros (b' & FB' & L & L'). pose proof (first_best_unique _ _ _ _ FB FB'). subst b'. lia.
Qed.
End Early.

Section Fitted.
Context {FS : Floats}.

Lemma fit_ok : forall E b data y w es b', fit E b data y w es = Some (b', None) ->
  validate_inputs y w es = None /\ fit_trees E b data y w es = Some b'.
Proof.
  intros E b data y w es b' H. unfold fit in H. destruct (validate_inputs y w es); [discriminate|].
  inv_bind H. injection H as <-. auto.
Qed.

(** *** C41 *)
Theorem early_stopping : OrdLaws (@f64 FS) -> forall E b data y w es b' r,
  clean b -> p_early_stopping_rounds (gb_params b) = Some r -> 0 < p_iterations (gb_params b) ->
  fit E b data y w (Some es) = Some (b', None) ->
  exists h best, gb_history b' = Some h /\ r_rows h = List.length (gb_trees b') /\ r_cols h = List.length es /\
    0 < r_rows h /\ List.length (r_data h) = r_rows h * r_cols h /\
    gb_best b' = Some best /\ gb_pred b' = Some (best + 1) /\
    exists ms, List.length ms = r_rows h /\
      (forall i, i < r_rows h -> nth_error ms i = r_get h i (r_cols h - 1)) /\
      first_best (gb_params b) ms (r_rows h - 1) best /\
      (forall i, i < r_rows h - 1 -> ~ should_stop (gb_params b) r ms i) /\
      (r_rows h < p_iterations (gb_params b) -> should_stop (gb_params b) r ms (r_rows h - 1)).
Proof.
  intros OL E b data y w es b' r C HR HI H. apply fit_ok in H. destruct H as [_ H].
  destruct (fit_trees_BI _ _ _ _ _ _ _ C H) as (bd & base & l & _ & _ & -> & B & L & ST).
  destruct B as [B1 B2 B3 B4 B5 B6 B7 (yhs & rows & ms & A1 & A2 & A3 & A4 & A5 & A6 & A7 & A8 & A9)].
  set (k := List.length (gb_trees (l_booster l))) in *.
  set (pred0 := match gb_trees b with [] => gb_pred b | _ => None end) in *.
  assert (LM : List.length ms = k) by (rewrite <- (F2_length A7); auto).
  assert (K0 : k <> 0).
  { intros K0. rewrite K0 in *. assert (ms = []) by (destruct ms; [auto|discriminate]). subst ms.
    specialize (ST HI). simpl in A8. unfold stop_fold, stop0 in A8. simpl in A8. injection A8 as _ _ _ A8. congruence. }
  specialize (A4 K0).
  assert (LR : forall j x, nth_error rows j = Some x -> List.length x = List.length es).
  { intros j x Hx. symmetry. apply (F2_length (A6 _ _ Hx)). }
  assert (NM : ms <> []) by (intros ->; simpl in LM; lia).
  destruct (stop_fold_best OL (gb_params b) r None pred0 HR ms NM) as (best & mb & FB & Hb & S1 & S2 & S3).
  rewrite LM in FB.
  exists (mkRowMajor (List.concat rows) k (List.length es)), best. simpl.
  split; [rewrite A3; destruct k; [tauto|reflexivity]|]. split; auto. split; auto. split; [lia|].
  split.
  { rewrite <- A5. clear - LR. induction rows as [|x rows IH]; simpl; auto. rewrite app_length, IH by (intros j; apply (LR (S j))).
    rewrite (LR 0 x) by reflexivity. auto. }
  rewrite <- A8 in S2, S3. simpl in S2, S3. split; auto. split; auto.
  exists ms. split; auto. split.
  { intros i Hi. destruct (nth_error_lt rows (i := i)) as [x Hx]; [lia|].
    destruct (Forall2_nth_l A7 i Hx) as (m & Hm & pre & ->). rewrite Hm. unfold r_get. simpl. symmetry.
    assert (LX := LR _ _ Hx). rewrite app_length in LX. simpl in LX.
    replace (List.length es * i + (List.length es - 1) * 1) with (i * List.length es + (List.length es - 1)) by lia.
    rewrite (concat_nth_len _ rows (List.length es) i (List.length es - 1) (pre ++ [m])); [|intros x0 Hx0; apply In_nth_error in Hx0; destruct Hx0; eauto|auto|lia].
    replace (List.length es - 1) with (List.length pre) by lia. rewrite nth_error_app2, Nat.sub_diag by lia. reflexivity. }
  split; auto.
  assert (SS : forall i, i < k -> (s_stop (stop_fold (gb_params b) (firstn (S i) ms) (stop0 None pred0)) = true <-> should_stop (gb_params b) r ms i)).
  { intros i Hi. destruct (nth_error_lt ms (i := i)) as [m Hm]; [lia|].
    assert (EF : firstn (S i) ms = firstn i ms ++ [m]).
    { clear - Hm. revert i Hm. induction ms as [|a ms IH]; intros [|i] H; simpl in *; try discriminate; [congruence|].
      f_equal. auto. }
    pose proof (stop_fold_stop OL (gb_params b) r None pred0 HR (firstn i ms) m (A9 i Hi)) as Q.
    rewrite <- EF in Q. rewrite Q. rewrite firstn_length, Nat.min_l by lia.
    assert (FA : forall b1, first_best (gb_params b) ms i b1 <-> first_best (gb_params b) (firstn (S i) ms) i b1).
    { intros b1. rewrite <- (firstn_skipn (S i) ms) at 1. apply first_best_app. rewrite firstn_length. lia. }
    unfold should_stop. split; intros (b1 & F1 & F2); exists b1; (split; [|auto]); apply FA; auto. }
  split.
  - intros i Hi HS. apply SS in HS; [|lia]. rewrite (A9 (S i)) in HS by lia. discriminate.
  - intros HL. apply SS; [lia|]. replace (S (k - 1)) with k by lia. rewrite firstn_all2 by lia. rewrite <- A8. simpl. auto.
Qed.

(** *** C31 *)
Definition model_prefix (b : Booster) (k : nat) : Booster :=
  mkBooster (gb_params b) (gb_base_score b) (gb_history b) (gb_best b) (Some k) (gb_trees b) (gb_metadata b).

Lemma predict_prefix : forall shs b k data par, k <= List.length (gb_trees b) ->
  predict shs (model_prefix b k) data par =
  preds_after (p_missing (gb_params b)) (firstn k (gb_trees b)) data (repeat (gb_base_score b) (m_rows data)).
Proof.
  intros. rewrite predict_serial. unfold prediction_trees, model_prefix. simpl. unfold slice.
  rewrite Nat.leb_refl || idtac. replace (k <=? List.length (gb_trees b)) with true by (symmetry; apply Nat.leb_le; auto).
  simpl. rewrite Nat.sub_0_r. reflexivity.
Qed.

Theorem history_is_metric : forall E b data y w es b' shs par, clean b ->
  fit E b data y w (Some es) = Some (b', None) -> gb_trees b' <> [] ->
  (forall d ey ew, In (d, ey, ew) es -> List.length ey = m_rows d) ->
  exists h, gb_history b' = Some h /\ r_rows h = List.length (gb_trees b') /\ r_cols h = List.length es /\
    forall k j d ey ew, k < List.length (gb_trees b') -> nth_error es j = Some (d, ey, ew) ->
    exists yh m, predict shs (model_prefix b' (k + 1)) d par = Some yh /\
      metric_fn (e_auc E) (get_metric (gb_params b)) ey yh ew = Some m /\ r_get h k j = Some m.
Proof.
  intros E b data y w es b' shs par C H NT LE. apply fit_ok in H. destruct H as [_ H].
  destruct (fit_trees_BI _ _ _ _ _ _ _ C H) as (bd & base & l & _ & _ & -> & B & L & ST).
  destruct B as [B1 B2 B3 B4 B5 B6 B7 (yhs & rows & ms & A1 & A2 & A3 & A4 & A5 & A6 & A7 & A8 & A9)].
  set (k0 := List.length (gb_trees (l_booster l))) in *.
  assert (K0 : k0 <> 0) by (unfold k0; destruct (gb_trees (l_booster l)); [tauto|discriminate]).
  exists (mkRowMajor (List.concat rows) k0 (List.length es)). simpl.
  split; [rewrite A3; destruct k0; [tauto|reflexivity]|]. split; auto. split; auto.
  intros k j d ey ew Hk Hj. destruct (nth_error_lt rows (i := k)) as [x Hx]; [lia|].
  pose proof (A6 _ _ Hx) as F. destruct (Forall2_nth_l F j Hj) as (m & Hm & yh & HP & HM).
  exists yh, m. unfold eval_preds in HP. simpl in HP, HM. split; [|split; auto].
  - rewrite predict_prefix by (fold k0; lia). rewrite B1, B2. rewrite <- (LE d ey ew) by (eapply nth_error_In; eauto).
    rewrite Nat.add_1_r. exact HP.
  - unfold r_get. simpl. replace (List.length es * k + j * 1) with (k * List.length es + j) by lia.
    eapply concat_nth; eauto. intros x0 Hx0. apply In_nth_error in Hx0. destruct Hx0 as [q Hq]. symmetry. apply (F2_length (A6 _ _ Hq)).
Qed.

(** Tree k is grown on the gradients at the prediction of the first k trees. *)
Theorem trees_follow_predictions : forall E b data y w es b' shs par, clean b -> List.length y = m_rows data ->
  fit E b data y w es = Some (b', None) ->
  exists bd, bin_matrix (e_sorts E) data w (p_nbins (gb_params b)) (p_missing (gb_params b)) = Some bd /\
  forall k t, nth_error (gb_trees b') k = Some t ->
  exists yhat n chosen grad hess n' cols n'' st,
    predict shs (model_prefix b' k) data par = Some yhat /\
    sample_index E (gb_params b) n (m_index data) (fst (calc_grad_hess (p_objective (gb_params b)) y yhat w))
      (snd (calc_grad_hess (p_objective (gb_params b)) y yhat w)) = Some (chosen, grad, hess, n') /\
    column_sample E (gb_params b) n' (m_cols data) = (cols, n'') /\
    tree_fit (p_grow_policy (gb_params b)) (e_pick E k) (splitter_of (gb_params b))
      (mkTrain (matrix_new (b_data bd) (m_rows data) (m_cols data)) (b_cuts bd) grad hess cols) chosen
      (p_max_leaves (gb_params b)) (p_max_depth (gb_params b)) (p_sample_method (gb_params b)) = Some (t, st).
Proof.
  intros E b data y w es b' shs par C LY H. apply fit_ok in H. destruct H as [_ H].
  destruct (fit_trees_BI _ _ _ _ _ _ _ C H) as (bd & base & l & HB & _ & -> & B & L & ST).
  exists bd. split; auto. intros k t Ht.
  destruct (bi_trees _ _ _ _ _ _ _ _ _ _ _ _ _ B _ _ Ht) as (yhat & n & chosen & grad & hess & n' & cols & n'' & st & P1 & P2 & P3 & P4).
  exists yhat, n, chosen, grad, hess, n', cols, n'', st. split; auto.
  rewrite predict_prefix by (apply Nat.lt_le_incl; eapply nth_error_Some_lt; eauto).
  rewrite (bi_params _ _ _ _ _ _ _ _ _ _ _ _ _ B), (bi_base _ _ _ _ _ _ _ _ _ _ _ _ _ B), <- LY. auto.
Qed.

(** *** C44 *)
Theorem tree_count : forall E b data y w es b', clean b -> fit E b data y w es = Some (b', None) ->
  List.length (gb_trees b') <= p_iterations (gb_params b) /\
  (p_early_stopping_rounds (gb_params b) = None \/ es = None -> List.length (gb_trees b') = p_iterations (gb_params b)) /\
  gb_params b' = gb_params b /\ gb_metadata b' = gb_metadata b /\
  (p_initialize_base_score (gb_params b) = false -> gb_base_score b' = gb_base_score b) /\
  (p_initialize_base_score (gb_params b) = true -> calc_init (p_objective (gb_params b)) y w = Some (gb_base_score b')) /\
  (gb_trees b <> [] \/ gb_pred b = None ->
     match gb_pred b' with Some n => n <= List.length (gb_trees b') | None => True end).
Proof.
  intros E b data y w es b' C H. apply fit_ok in H. destruct H as [_ H].
  destruct (fit_trees_BI _ _ _ _ _ _ _ C H) as (bd & base & l & HB & HBS & -> & B & L & ST).
  set (pred0 := match gb_trees b with [] => gb_pred b | _ => None end) in *.
  assert (NR : forall ms s, p_early_stopping_rounds (gb_params b) = None -> stop_fold (gb_params b) ms s = s).
  { intros ms s HN. unfold stop_fold. generalize (seq 0 (List.length ms)). clear - HN.
    intros q. revert ms s. induction q as [|i q IH]; intros ms s; simpl; auto. destruct ms as [|m ms]; auto. simpl. rewrite IH. unfold early_stop. rewrite HN. auto. }
  assert (SB : forall ms n, (forall q, pred0 = Some q -> False) -> s_pred (stop_fold (gb_params b) ms (stop0 None pred0)) = Some n -> n <= List.length ms).
  { intros ms n NP. revert n. induction ms as [|m ms IH] using rev_ind; intros n Hn.
    - simpl in Hn. exfalso. eapply NP; eauto.
    - rewrite stop_fold_snoc in Hn. rewrite app_length. simpl. unfold early_stop in Hn.
      destruct (p_early_stopping_rounds (gb_params b)); [|apply IH in Hn; lia].
      destruct (s_metric _); [|simpl in Hn; injection Hn as <-; lia].
      destruct (is_comparison_better _ _ _); simpl in Hn; [injection Hn as <-; lia|]. apply IH in Hn. lia. }
  split; auto.
  split; [|split; [exact (bi_params _ _ _ _ _ _ _ _ _ _ _ _ _ B)|split; [exact (bi_meta _ _ _ _ _ _ _ _ _ _ _ _ _ B)|]]].
  - intros HE. destruct (Nat.eq_dec (List.length (gb_trees (l_booster l))) (p_iterations (gb_params b))) as [|NQ]; auto.
    assert (SS : l_stop l = true) by (apply ST; lia). exfalso.
    destruct B as [B1 B2 B3 B4 B5 B6 B7 B8]. destruct es as [es|].
    + destruct HE as [HE|]; [|discriminate]. destruct B8 as (yhs & rows & ms & A1 & A2 & A3 & A4 & A5 & A6 & A7 & A8 & A9).
      rewrite NR in A8 by auto. unfold stop0 in A8. injection A8 as _ _ _ A8. congruence.
    + destruct B8 as (_ & _ & A8). unfold stop0 in A8. injection A8 as _ _ _ A8. congruence.
  - split; [|split].
    + intros HI. rewrite HI in HBS. injection HBS as HBS. rewrite (bi_base _ _ _ _ _ _ _ _ _ _ _ _ _ B). auto.
    + intros HI. rewrite HI in HBS. rewrite (bi_base _ _ _ _ _ _ _ _ _ _ _ _ _ B). auto.
    + intros HP. assert (NP : forall q, pred0 = Some q -> False).
      { unfold pred0. intros q Hq. destruct HP as [HP|HP]; [destruct (gb_trees b); [tauto|discriminate]|].
        rewrite HP in Hq. destruct (gb_trees b); discriminate. }
      destruct (gb_pred (l_booster l)) as [n|] eqn:EN; auto.
      destruct B as [B1 B2 B3 B4 B5 B6 B7 B8]. destruct es as [es|].
      * destruct B8 as (yhs & rows & ms & A1 & A2 & A3 & A4 & A5 & A6 & A7 & A8 & A9).
        rewrite EN in A8. pose proof (f_equal s_pred A8) as A10. simpl in A10. symmetry in A10. apply SB in A10; auto.
        rewrite <- (F2_length A7), A5 in A10. auto.
      * destruct B8 as (_ & _ & A8). rewrite EN in A8. pose proof (f_equal s_pred A8) as A10. simpl in A10. exfalso. eauto.
Qed.

Lemma fit_clean : forall E b data y w es b' e, clean b -> fit E b data y w es = Some (b', e) -> clean b'.
Proof.
  intros E b data y w es b' [e|] C H.
  - unfold fit in H. destruct (validate_inputs y w es); [injection H as <- <-; auto|]. inv_bind H. discriminate.
  - apply fit_ok in H. destruct H as [_ H].
    destruct (fit_trees_BI _ _ _ _ _ _ _ C H) as (bd & base & l & HB & HBS & -> & B & L & ST).
    intros HT. destruct B as [B1 B2 B3 B4 B5 B6 B7 B8]. rewrite HT in *. simpl in *.
    destruct es as [es|].
    + destruct B8 as (yhs & rows & ms & A1 & A2 & A3 & A4 & A5 & A6 & A7 & A8 & A9).
      split; auto. destruct rows; [|discriminate]. inversion A7; subst. unfold stop_fold, stop0 in A8. simpl in A8.
      injection A8 as _ A8 _ _. auto.
    + destruct B8 as (_ & A2 & A8). unfold stop0 in A8. injection A8 as _ A8 _ _. auto.
Qed.

(** *** C30 for fitted models *)
Theorem fitted_predicts : forall E b data y w es b' shs data' par, clean b -> gb_trees b <> [] \/ gb_pred b = None ->
  rng_ok E (gb_params b) -> fit E b data y w es = Some (b', None) ->
  m_index data' = seq 0 (m_rows data') -> m_cols data <= m_cols data' ->
  List.length (m_data data') = m_rows data' * m_cols data' ->
  (forall v, In v (m_data data') -> fisnan f64 (p_missing (gb_params b)) = true \/ fisnan f64 v = false) ->
  exists preds, predict shs b' data' par = Some preds /\ List.length preds = m_rows data' /\
  exists ls, predict_leaf_indices shs b' data' = Some ls.
Proof.
  intros E b data y w es b' shs data' par C HP RO H HI HC LD HV.
  destruct (tree_count _ _ _ _ _ _ _ C H) as (_ & _ & EP & _ & _ & _ & PB). specialize (PB HP).
  pose proof H as H'. apply fit_ok in H'. destruct H' as [_ H'].
  destruct (fit_trees_BI _ _ _ _ _ _ _ C H') as (bd & base & l & HB & HBS & EB & B & L & ST).
  assert (TW : forall t, In t (gb_trees b') -> well_formed t /\ forall f, tree_features t f -> f < m_cols data').
  { intros t Ht. apply In_nth_error in Ht. destruct Ht as [k Hk]. rewrite EB in Hk.
    pose proof (bi_trees _ _ _ _ _ _ _ _ _ _ _ _ _ B _ _ Hk) as TS. split; [eapply tree_step_wf; eauto|].
    intros f Hf. eapply Nat.lt_le_trans; [eapply tree_step_features; eauto|auto]. }
  destruct (predict_total shs b' data' par HI TW PB LD) as (preds & E1 & E2).
  { intros v Hv. rewrite EP. apply HV; auto. }
  exists preds. split; auto. split; auto.
  apply (leaf_indices_total shs b' data' HI); [intros t Ht; apply TW; auto|].
  exists preds. rewrite predict_serial in *. auto.
Qed.

(** *** C42 *)
Lemma start_same : forall b b2, gb_params b = gb_params b2 -> clean b -> clean b2 ->
  gb_trees b <> [] \/ gb_pred b = None -> gb_trees b2 <> [] \/ gb_pred b2 = None ->
  start_booster b = mkBooster (gb_params b) (gb_base_score b) None None None [] (gb_metadata b).
Proof.
  intros b b2 HP C C2 HP1 HP2. unfold start_booster, clean in *. destruct b as [bp bb bh bbe bpr bt bm]. simpl in *.
  destruct bt as [|t bt]; simpl.
  - destruct C; auto. destruct HP1; [tauto|]. subst. reflexivity.
  - reflexivity.
Qed.

Lemma fit_trees_start : forall E b data y w es, fit_trees E b data y w es = fit_trees E (start_booster b) data y w es.
Proof.
  intros. unfold fit_trees, fit_start. fold (start_booster b).
  assert (G : match gb_trees (start_booster b) with [] => start_booster b | _ => reset (start_booster b) end = start_booster b).
  { unfold start_booster. destruct (gb_trees b) eqn:E1; simpl; auto. rewrite E1. auto. }
  rewrite G.
  replace (gb_params (start_booster b)) with (gb_params b) by (unfold start_booster; destruct (gb_trees b); auto). reflexivity.
Qed.

(** metadata does not influence training *)
Definition with_meta (b : Booster) (md : list (string * string)) : Booster :=
  mkBooster (gb_params b) (gb_base_score b) (gb_history b) (gb_best b) (gb_pred b) (gb_trees b) md.
Definition loop_meta (l : Loop) md := mkLoop (with_meta (l_booster l) md) (l_yhat l) (l_grad l) (l_hess l) (l_evals l) (l_best_metric l) (l_rng l) (l_stop l).
Lemma boost_step_meta : forall E data y w bd i l md,
  boost_step E data y w bd i (loop_meta l md) = option_map (fun l => loop_meta l md) (boost_step E data y w bd i l).
Proof.
  intros. unfold boost_step, loop_meta, with_meta. simpl.
  destruct (sample_index _ _ _ _ _ _) as [[[[chosen grad] hess] n]|]; simpl; auto.
  destruct (column_sample _ _ _ _) as [cols n']. destruct (tree_fit _ _ _ _ _ _ _ _) as [[nodes st]|]; simpl; auto.
  destruct (update_predictions _ _ _ _ _) as [yh|]; simpl; auto.
  destruct (l_evals l) as [sets|]; simpl.
  - destruct (eval_loop _ _ _ _ _ _ _ _) as [[[sets' ms] s]|]; simpl; auto. destruct (r_append_row _ _) as [h|]; simpl; auto.
    destruct (if s_stop s then _ else _) as [g h']. reflexivity.
  - destruct (if l_stop l then _ else _) as [g h']. reflexivity.
Qed.
Lemma boost_loop_meta : forall E data y w bd md is l,
  boost_loop E data y w bd is (loop_meta l md) = option_map (fun l => loop_meta l md) (boost_loop E data y w bd is l).
Proof.
  intros E data y w bd md. induction is as [|i is IH]; intros l; simpl; auto.
  rewrite boost_step_meta. destruct (boost_step E data y w bd i l) as [l'|]; simpl; auto.
  destruct (l_stop l') eqn:S; simpl; [reflexivity|]. apply IH.
Qed.

Theorem refit_fresh : forall E b fresh v data y w es,
  clean b -> gb_trees b <> [] \/ gb_pred b = None ->
  booster_new (gb_params b) v = inl fresh -> p_initialize_base_score (gb_params b) = true \/ v = gb_base_score b ->
  fit_trees E b data y w es = option_map (fun m => with_meta m (gb_metadata b)) (fit_trees E fresh data y w es).
Proof.
  intros E b fresh v data y w es C HP HN HV. unfold booster_new in HN. destruct (validate_parameters (gb_params b)); [discriminate|].
  injection HN as <-. rewrite fit_trees_start.
  rewrite (start_same b b eq_refl C C HP HP).
  unfold fit_trees, fit_start. simpl.
  destruct (p_initialize_base_score (gb_params b)) eqn:EI.
  - destruct (calc_init _ _ _) as [base|]; simpl; auto. destruct (calc_grad_hess _ _ _ _) as [g h].
    destruct (bin_matrix _ _ _ _ _) as [bd|]; simpl; auto.
    match goal with |- bind (boost_loop _ _ _ _ _ _ ?l1) _ = option_map _ (bind (boost_loop _ _ _ _ _ _ ?l2) _) =>
      change l1 with (loop_meta l2 (gb_metadata b)) end.
    rewrite boost_loop_meta. destruct (boost_loop _ _ _ _ _ _ _); reflexivity.
  - destruct HV as [HV| ->]; [discriminate|]. simpl. destruct (calc_grad_hess _ _ _ _) as [g h].
    destruct (bin_matrix _ _ _ _ _) as [bd|]; simpl; auto.
    match goal with |- bind (boost_loop _ _ _ _ _ _ ?l1) _ = option_map _ (bind (boost_loop _ _ _ _ _ _ ?l2) _) =>
      change l1 with (loop_meta l2 (gb_metadata b)) end.
    rewrite boost_loop_meta. destruct (boost_loop _ _ _ _ _ _ _); reflexivity.
Qed.

(** *** C10: neither the parallel flag nor the schedules influence training *)
Definition par_params (p : Params) (c : bool) : Params :=
  mkParams (p_objective p) (p_iterations p) (p_learning_rate p) (p_max_depth p) (p_max_leaves p) (p_l1 p) (p_l2 p) (p_gamma p)
    (p_max_delta_step p) (p_min_leaf_weight p) (p_nbins p) c (p_allow_missing_splits p) (p_monotone_constraints p)
    (p_subsample p) (p_top_rate p) (p_other_rate p) (p_colsample_bytree p) (p_seed p) (p_missing p) (p_create_missing_branch p)
    (p_sample_method p) (p_grow_policy p) (p_evaluation_metric p) (p_early_stopping_rounds p) (p_initialize_base_score p)
    (p_terminate_missing_features p) (p_missing_node_treatment p) (p_log_iterations p) (p_force_children_to_bound_parent p).
Definition with_parallel (b : Booster) (c : bool) : Booster :=
  mkBooster (par_params (gb_params b) c) (gb_base_score b) (gb_history b) (gb_best b) (gb_pred b) (gb_trees b) (gb_metadata b).
Definition with_shapes (E : Env) (sh : nat -> nat -> SplitShape) : Env :=
  mkEnv (e_rng E) (e_sorts E) (e_auc E) (e_goss E) (e_pick E) sh.
Definition loop_par (l : Loop) c := mkLoop (with_parallel (l_booster l) c) (l_yhat l) (l_grad l) (l_hess l) (l_evals l) (l_best_metric l) (l_rng l) (l_stop l).

Lemma eval_loop_par : forall E sh c p nodes i n sets j s,
  eval_loop (with_shapes E sh) (par_params p c) nodes i j n sets s = eval_loop E p nodes i j n sets s.
Proof.
  intros E sh c p nodes i n. induction sets as [|[[[d ey] ew] yh] sets IH]; intros j s; simpl; auto.
  rewrite !update_serial. simpl. destruct (tree_predict nodes d (p_missing p)) as [pr|]; simpl; auto.
  change (get_metric (par_params p c)) with (get_metric p).
  destruct (metric_fn (e_auc E) (get_metric p) ey (add_preds yh pr) ew) as [m|]; simpl; auto. rewrite IH. reflexivity.
Qed.
Lemma boost_step_par : forall E sh c data y w bd i l,
  boost_step (with_shapes E sh) data y w bd i (loop_par l c) = option_map (fun l => loop_par l c) (boost_step E data y w bd i l).
Proof.
  intros. unfold boost_step, loop_par, with_parallel. simpl.
  change (sample_index (with_shapes E sh) (par_params (gb_params (l_booster l)) c)) with (sample_index E (gb_params (l_booster l))).
  destruct (sample_index _ _ _ _ _ _) as [[[[chosen grad] hess] n]|]; simpl; auto.
  change (column_sample (with_shapes E sh) (par_params (gb_params (l_booster l)) c)) with (column_sample E (gb_params (l_booster l))).
  change (splitter_of (par_params (gb_params (l_booster l)) c)) with (splitter_of (gb_params (l_booster l))).
  destruct (column_sample _ _ _ _) as [cols n']. destruct (tree_fit _ _ _ _ _ _ _ _) as [[nodes st]|]; simpl; auto.
  rewrite !update_serial. simpl. destruct (tree_predict nodes data (p_missing (gb_params (l_booster l)))) as [pr|]; simpl; auto.
  destruct (l_evals l) as [sets|]; simpl.
  - rewrite eval_loop_par. destruct (eval_loop _ _ _ _ _ _ _ _) as [[[sets' ms] s]|]; simpl; auto. destruct (r_append_row _ _) as [h|]; simpl; auto.
    destruct (if s_stop s then _ else _) as [g h']. reflexivity.
  - destruct (if l_stop l then _ else _) as [g h']. reflexivity.
Qed.
Lemma boost_loop_par : forall E sh c data y w bd is l,
  boost_loop (with_shapes E sh) data y w bd is (loop_par l c) = option_map (fun l => loop_par l c) (boost_loop E data y w bd is l).
Proof.
  intros E sh c data y w bd. induction is as [|i is IH]; intros l; simpl; auto.
  rewrite boost_step_par. destruct (boost_step E data y w bd i l) as [l'|]; simpl; auto.
  destruct (l_stop l') eqn:S; simpl; [reflexivity|]. apply IH.
Qed.
Theorem fit_parallel_serial : forall E sh c b data y w es,
  fit (with_shapes E sh) (with_parallel b c) data y w es =
  option_map (fun '(b', e) => (with_parallel b' c, e)) (fit E b data y w es).
Proof.
  intros. unfold fit. destruct (validate_inputs y w es); simpl; auto. unfold fit_trees.
  assert (G : fit_start (with_shapes E sh) (with_parallel b c) data y w es =
    option_map (fun '(bd, l) => (bd, loop_par l c)) (fit_start E b data y w es)).
  { unfold fit_start, with_parallel. simpl.
    destruct (gb_trees b) as [|t ts] eqn:ET; simpl; rewrite ?ET.
    - destruct (p_initialize_base_score (gb_params b)); simpl.
      + destruct (calc_init _ _ _); simpl; auto. destruct (calc_grad_hess _ _ _ _). destruct (bin_matrix _ _ _ _ _); simpl; auto.
      + destruct (calc_grad_hess _ _ _ _). destruct (bin_matrix _ _ _ _ _); simpl; auto.
    - destruct (p_initialize_base_score (gb_params b)); simpl.
      + destruct (calc_init _ _ _); simpl; auto. destruct (calc_grad_hess _ _ _ _). destruct (bin_matrix _ _ _ _ _); simpl; auto.
      + destruct (calc_grad_hess _ _ _ _). destruct (bin_matrix _ _ _ _ _); simpl; auto. }
  rewrite G. destruct (fit_start E b data y w es) as [[bd l]|]; simpl; auto.
  rewrite boost_loop_par. destruct (boost_loop _ _ _ _ _ _ _); reflexivity.
Qed.

(** *** C43 *)
Lemma not_nan_vec_iff : forall v name, (exists e, validate_not_nan_vec v name = Some e) <-> exists x, In x v /\ fisnan f64 x = true.
Proof.
  intros. unfold validate_not_nan_vec. destruct (existsb (fisnan f64) v) eqn:E.
  - apply existsb_exists in E. split; eauto.
  - split; [intros [e He]; discriminate|]. intros (x & Hx & Nx). assert (existsb (fisnan f64) v = true) by (apply existsb_exists; eauto).
    unfold F64 in *. congruence.
Qed.
Lemma positive_not_nan_vec_iff : forall v name, (exists e, validate_positive_not_nan_vec v name = Some e) <->
  exists x, In x v /\ (fisnan f64 x = true \/ (x <? fzero f64)%f64 = true).
Proof.
  intros v name. unfold validate_positive_not_nan_vec.
  set (rem := filter _ v).
  assert (RI : forall x, In x rem <-> In x v /\ (fisnan f64 x = true \/ (x <? fzero f64)%f64 = true)).
  { intros x. unfold rem. rewrite filter_In, orb_true_iff. tauto. }
  unfold validate_positive_vec, validate_not_nan_vec.
  destruct (existsb (fun x => (x <? fzero f64)%f64) rem) eqn:E1.
  - apply existsb_exists in E1. destruct E1 as (x & Hx & _). apply RI in Hx. split; eauto.
  - destruct (existsb (fisnan f64) rem) eqn:E2.
    + apply existsb_exists in E2. destruct E2 as (x & Hx & _). apply RI in Hx. split; eauto.
    + split; [intros [e He]; discriminate|]. intros (x & Hx). apply RI in Hx. exfalso.
      pose proof (proj1 (RI x) Hx) as [_ [N|N]].
      * assert (existsb (fisnan f64) rem = true) by (apply existsb_exists; eauto). unfold F64 in *. congruence.
      * assert (existsb (fun x => (x <? fzero f64)%f64) rem = true) by (apply existsb_exists; eauto). unfold F64 in *. congruence.
Qed.

Definition bad_target (y : list F64) : Prop := exists x, In x y /\ fisnan f64 x = true.
Definition bad_weight (w : list F64) : Prop := exists x, In x w /\ (fisnan f64 x = true \/ (x <? fzero f64)%f64 = true).
Definition bad_inputs (y w : list F64) (es : option (list EvalData)) : Prop :=
  bad_target y \/ bad_weight w \/
  exists l d ey ew, es = Some l /\ In (d, ey, ew) l /\ (bad_target ey \/ bad_weight ew).

Lemma validate_evals_iff : forall es i, (exists e, validate_evals i es = Some e) <->
  exists d ey ew, In (d, ey, ew) es /\ (bad_target ey \/ bad_weight ew).
Proof.
  induction es as [|[[d ey] ew] es IH]; intros i; simpl.
  - split; [intros [e He]; discriminate|]. intros (?&?&?&[]&_).
  - pose proof (not_nan_vec_iff ey (FieldEvalY i)) as N. pose proof (positive_not_nan_vec_iff ew (FieldEvalWeight i)) as P.
    destruct (validate_not_nan_vec ey (FieldEvalY i)) as [e|].
    + split; eauto. intros _. exists d, ey, ew. split; auto. left. apply N. eauto.
    + destruct (validate_positive_not_nan_vec ew (FieldEvalWeight i)) as [e|].
      * split; eauto. intros _. exists d, ey, ew. split; auto. right. apply P. eauto.
      * rewrite IH. split.
        -- intros (d' & ey' & ew' & Hi & Hb). exists d', ey', ew'. auto.
        -- intros (d' & ey' & ew' & [Hi|Hi] & Hb); [|eauto]. injection Hi as <- <- <-. exfalso.
           destruct Hb as [Hb|Hb]; [apply N in Hb|apply P in Hb]; destruct Hb; discriminate.
Qed.

Lemma validate_inputs_iff : forall y w es, (exists e, validate_inputs y w es = Some e) <-> bad_inputs y w es.
Proof.
  intros y w es. unfold validate_inputs, bad_inputs.
  pose proof (not_nan_vec_iff y FieldY) as N. pose proof (positive_not_nan_vec_iff w FieldWeight) as P.
  destruct (validate_not_nan_vec y FieldY) as [e|].
  - split; eauto. intros _. left. apply N. eauto.
  - destruct (validate_positive_not_nan_vec w FieldWeight) as [e|].
    + split; eauto. intros _. right. left. apply P. eauto.
    + assert (N' : ~ bad_target y) by (intros Q; apply N in Q; destruct Q; discriminate).
      assert (P' : ~ bad_weight w) by (intros Q; apply P in Q; destruct Q; discriminate).
      destruct es as [l|].
      * rewrite validate_evals_iff. split.
        -- intros (d & ey & ew & Q). right. right. exists l, d, ey, ew. tauto.
        -- intros [Q|[Q|(l' & d & ey & ew & Q1 & Q)]]; [tauto|tauto|]. injection Q1 as <-. exists d, ey, ew. tauto.
      * split; [intros [e He]; discriminate|]. intros [Q|[Q|(l' & d & ey & ew & Q1 & Q)]]; [tauto|tauto|discriminate].
Qed.

Theorem fit_rejects : forall E b data y w es,
  (bad_inputs y w es -> exists e, fit E b data y w es = Some (b, Some e)) /\
  (forall b' e, fit E b data y w es = Some (b', Some e) -> bad_inputs y w es /\ b' = b).
Proof.
  intros E b data y w es. pose proof (validate_inputs_iff y w es) as V. unfold fit. split.
  - intros B. apply V in B. destruct B as [e ->]. eauto.
  - intros b' e H. destruct (validate_inputs y w es) as [e'|].
    + injection H as <- <-. split; auto. apply V. eauto.
    + inv_bind H. discriminate.
Qed.

(** *** C45 *)
Definition not_above_inf (F : FloatOps) : Prop := forall v : fcar F, flt F (finf F) v = false.
Theorem new_validates : not_above_inf (@f32 FS) -> not_above_inf (@f64 FS) -> forall p v,
  let ok32 (x : F32) := fisnan f32 x = false /\ (x <? fzero f32)%f32 = false in
  let ok64 (x : F64) := fisnan f64 x = false /\ (x <? fzero f64)%f64 = false in
  (exists b, booster_new p v = inl b) <->
  ok32 (p_learning_rate p) /\ ok32 (p_l1 p) /\ ok32 (p_l2 p) /\ ok32 (p_gamma p) /\ ok32 (p_max_delta_step p) /\
  ok32 (p_min_leaf_weight p) /\ ok32 (p_subsample p) /\ ok64 (p_top_rate p) /\ ok64 (p_other_rate p) /\ ok64 (p_colsample_bytree p).
Proof.
  intros N32 N64 p v ok32 ok64.
  assert (V32 : forall x, validate_positive_float f32 x = true <-> ok32 x).
  { intros x. unfold validate_positive_float, ok32. rewrite N32, orb_false_r, negb_true_iff, orb_false_iff. tauto. }
  assert (V64 : forall x, validate_positive_float f64 x = true <-> ok64 x).
  { intros x. unfold validate_positive_float, ok64. rewrite N64, orb_false_r, negb_true_iff, orb_false_iff. tauto. }
  rewrite <- !V32, <- !V64. unfold booster_new, validate_parameters.
  repeat match goal with |- context [if ?c then _ else _] => destruct c eqn:? end;
    try (split; [intros [b H]; discriminate|intros; exfalso; repeat match goal with H : _ /\ _ |- _ => destruct H end; congruence]).
  split; [|eauto]. intros _. tauto.
Qed.
Theorem new_is_empty : forall p v b, booster_new p v = inl b ->
  gb_params b = p /\ gb_base_score b = v /\ gb_trees b = [] /\ gb_history b = None /\ gb_best b = None /\ gb_pred b = None /\ gb_metadata b = [].
Proof. intros p v b H. unfold booster_new in H. destruct (validate_parameters p); [discriminate|]. injection H as <-. simpl. auto 10. Qed.
End Fitted.
