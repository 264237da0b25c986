(** Property C72: a fit sees the rows only through their total weights (exact arithmetic); with rounding the
    order of the rows shows, and a row of weight zero shows in any arithmetic. *)
From Coq Require Import List Arith NArith ZArith Lia Bool Permutation Reals Lra Sorting.
From Flocq Require Import Core.Raux.
From Verif Require Import Prelude Float FloatI FloatX FloatLaws OrdProofs Data DataProofs Utils Binning BinningProofs CutProofs BinMatrix BinningX Histogram
  Node Splitter Tree Objective Metric Sampler ObjectiveX Booster PredictProofs BoostProofs FitModel FinX BoostX Recode DistrFit DistrRows
  PropBinning PropTree PropPredict PropFit.
Import ListNotations.
Local Open Scope R_scope.

(** *** C72 *)
Section Rows.
Variables (E E' : @Env XF) (b : @Booster XF) (cols : nat) (es : option (list (@EvalData XF))) (base : R).
(** accepted parameters, no sampling of rows *)
Hypotheses (SP : sound_params (gb_params b)) (NS : p_sample_method (gb_params b) = SNone).
(** two runs that may differ in the sorting of equal values only *)
Hypotheses (SE : sound_env E (gb_params b)) (SE' : sound_env E' (gb_params b)) (GB : forall k, @gain_based XF (e_pick E k)).
Hypotheses (ER : e_rng E' = e_rng E) (EP : e_pick E' = e_pick E) (EA : e_auc E' = e_auc E) (ES : e_shape E' = e_shape E).
Let fit_rows (e : @Env XF) (rows : list Row) := @fit XF e b (table cols rows) (labels rows) (weights rows) es.
Let start (rows : list Row) :=
  if p_initialize_base_score (gb_params b) then @calc_init XF (p_objective (gb_params b)) (labels rows) (weights rows) else Some (gb_base_score b).

Theorem C72_weighted_rows : forall rows rows', rows <> [] -> rows' <> [] ->
  (forall r, In r rows -> sound_row (gb_params b) cols r) -> (forall r, In r rows' -> sound_row (gb_params b) cols r) ->
  start rows = Some (Fin base) ->
  (forall c l, row_total rows' c l = row_total rows c l) -> fit_rows E' rows' = fit_rows E rows.
Proof. intros rows rows' N N' S S' H RT. apply (rows_eq E E' b cols rows rows' es base); auto. Qed.

Theorem C72_row_order : forall rows rows', rows <> [] -> (forall r, In r rows -> sound_row (gb_params b) cols r) ->
  start rows = Some (Fin base) -> Permutation rows rows' -> fit_rows E' rows' = fit_rows E rows.
Proof.
  intros rows rows' N S H P. apply C72_weighted_rows; auto.
  - intros ->. apply Permutation_sym, Permutation_nil in P. auto.
  - intros r Hr. apply S. eapply Permutation_in; [apply Permutation_sym; exact P|exact Hr].
  - intros c l. apply row_total_perm. exact P.
Qed.

Theorem C72_shared_weight : forall l : list (Row * list R), l <> [] ->
  (forall r ws, In (r, ws) l -> sound_row (gb_params b) cols r /\ ws <> [] /\ forall x, In x ws -> 0 < x) ->
  start (merged l) = Some (Fin base) -> fit_rows E' (spread l) = fit_rows E (merged l).
Proof.
  intros l N H S.
  assert (PS : forall ws, ws <> [] -> (forall x, In x ws -> 0 < x) -> 0 < sumR ws).
  { induction ws as [|x ws IH]; intros NE HP; [congruence|]. rewrite sumR_cons. assert (0 < x) by (apply HP; left; auto).
    destruct ws as [|z ws]; [change (sumR []) with 0; lra|]. assert (0 < sumR (z :: ws)) by (apply IH; [discriminate|intros; apply HP; right; auto]). lra. }
  assert (G : forall r x, sound_row (gb_params b) cols r -> 0 < x -> sound_row (gb_params b) cols (mkRow (r_cells r) (r_label r) (Fin x))).
  { intros r x [S1 S2 S3 S4 S5] Hx. constructor; auto. exists x. auto. }
  apply C72_weighted_rows; auto.
  - destruct l; [congruence|discriminate].
  - destruct l as [|[r [|x ws]] l]; [congruence| |discriminate]. destruct (H r [] (or_introl eq_refl)) as (_ & Q & _). congruence.
  - intros r Hr. apply in_map_iff in Hr. destruct Hr as ([q ws] & <- & Hq). destruct (H q ws Hq) as (H1 & H2 & H3). apply G; auto.
  - intros r Hr. apply in_flat_map in Hr. destruct Hr as ([q ws] & Hq & Hr). apply in_map_iff in Hr. destruct Hr as (x & <- & Hx).
    destruct (H q ws Hq) as (H1 & H2 & H3). apply G; auto.
  - intros c y. apply spread_total.
Qed.

(** A row of weight n+1 stands for n+1 rows of weight one. *)
Theorem C72_weight_counts : forall l : list (Row * nat), l <> [] -> (forall r n, In (r, n) l -> sound_row (gb_params b) cols r) ->
  start (map (fun '(r, n) => mkRow (r_cells r) (r_label r) (Fin (INR (S n)))) l) = Some (Fin base) ->
  fit_rows E' (flat_map (fun '(r, n) => repeat (mkRow (r_cells r) (r_label r) (Fin 1)) (S n)) l) =
  fit_rows E (map (fun '(r, n) => mkRow (r_cells r) (r_label r) (Fin (INR (S n)))) l).
Proof.
  intros l N H S1. set (l2 := map (fun '(r, n) => (r, repeat 1 (S n))) l : list (Row * list R)).
  assert (SR : forall n, sumR (repeat 1 n) = INR n).
  { induction n as [|n IH]; [reflexivity|]. cbn [repeat]. rewrite sumR_cons, IH, S_INR. lra. }
  assert (EM : merged l2 = map (fun '(r, n) => mkRow (r_cells r) (r_label r) (Fin (INR (S n)))) l).
  { unfold merged, l2. rewrite map_map. apply map_ext. intros [r n]. rewrite SR. reflexivity. }
  assert (EX : spread l2 = flat_map (fun '(r, n) => repeat (mkRow (r_cells r) (r_label r) (Fin 1)) (S n)) l).
  { unfold l2. clear. induction l as [|[r n] l IH]; [reflexivity|]. unfold spread. cbn [map flat_map]. fold (spread (map (fun '(r, n) => (r, repeat 1 (S n))) l)).
    rewrite IH. f_equal. generalize (S n) as k. induction k as [|k IHk]; [reflexivity|]. cbn [repeat map]. rewrite IHk. reflexivity. }
  rewrite <- EM in *. rewrite <- EX. apply C72_shared_weight; auto.
  - unfold l2. destruct l; [congruence|discriminate].
  - intros r ws Hr. apply in_map_iff in Hr. destruct Hr as ([q n] & Q & Hq). injection Q as <- <-. split; [eapply H; eauto|]. split; [discriminate|].
    intros x Hx. apply (repeat_spec (S n) 1 x) in Hx. subst. lra.
Qed.
End Rows.
Print Assumptions C72_weighted_rows.
Print Assumptions C72_row_order.
Print Assumptions C72_shared_weight.
Print Assumptions C72_weight_counts.

(** *** A case: the rows of [exf_data] that carry weight, one of them with a missing cell *)
Definition exd_rows : list Row := [mkRow [Fin 1] (Fin 1) (Fin 1); mkRow [XNaN] (Fin 2) (Fin 1); mkRow [Fin 3] (Fin 5) (Fin 2)].
Definition exd_split : list Row :=
  [mkRow [Fin 3] (Fin 5) (Fin (1/2)); mkRow [Fin 1] (Fin 1) (Fin 1); mkRow [Fin 3] (Fin 5) (Fin (3/2)); mkRow [XNaN] (Fin 2) (Fin 1)].
Notation exd_fit rows := (@fit XF exf_env exf_booster (table 1 rows) (labels rows) (weights rows) None).

Lemma exd_sound : forall x y w, x <= 3 -> 0 < w -> forall c, c = Fin x \/ c = XNaN -> sound_row exf_params 1 (mkRow [c] (Fin y) (Fin w)).
Proof.
  intros x y w Hx Hw c Hc. constructor; cbn [r_cells r_label r_weight].
  - reflexivity.
  - intros v _. left. reflexivity.
  - intros v Hv M. destruct Hv as [<- | Hv]; [|destruct Hv]. destruct Hc as [-> | ->]; [|discriminate M]. exists x. split; auto. apply Rlt_bool_true.
    eapply Rle_lt_trans; [exact Hx|]. apply IZR_lt. reflexivity.
  - eexists; reflexivity.
  - exists w. auto.
Qed.

Example C72_example : exists b', exd_fit exd_rows = Some (b', None) /\ length (gb_trees b') = 3%nat /\
  exd_fit (rev exd_rows) = Some (b', None) /\ exd_fit exd_split = Some (b', None).
Proof.
  destruct exf_sound as (H1 & _ & H3 & _ & H5 & _).
  assert (SR : forall r, In r exd_rows \/ In r exd_split -> sound_row exf_params 1 r).
  { intros r [H | H]; simpl in H; repeat (destruct H as [<- | H]; [(eapply (exd_sound 1); [lra|lra|auto; fail]) || (eapply (exd_sound 3); [lra|lra|auto])|]); destruct H. }
  destruct (C62_base_score SquaredLoss [(1, 1); (2, 1); (5, 2)]) as [base HB]; [cbn; lra|].
  destruct (C62_fit_completes exf_env exf_booster (table 1 exd_rows) (labels exd_rows) (weights exd_rows) None base) as [b' H]; auto.
  { apply table_sound; auto. right. discriminate. }
  { exact I. }
  exists b'. split; auto. split; [exact (proj1 (proj2 (@tree_count XF _ _ _ _ _ _ _ H5 H)) (or_introl eq_refl))|].
  assert (GB : forall k, @gain_based XF (e_pick exf_env k)) by (intros k step l l' _; reflexivity).
  split; rewrite <- H.
  - apply (C72_row_order exf_env exf_env exf_booster 1 None base); auto; [discriminate|]. apply Permutation_rev.
  - apply (C72_weighted_rows exf_env exf_env exf_booster 1 None base); auto; try discriminate.
    intros c l. unfold row_total, exd_rows, exd_split. cbn [map r_cells r_label r_weight val]. rewrite !sumR_cons. change (sumR []) with 0.
    repeat destruct kind_eq_dec; lra.
Qed.

(** *** Refuted: with rounding sums the order of the rows shows, already in the base score *)
Definition exo_big : Z := 10000000000000000%Z.
Definition exo_data : Matrix b64 := matrix_new (map z64 [1; 1; 1]%Z) 3 1.
Notation exo_fit y := (@fit IE exb_env (exb_new None true) exo_data y (repeat (z64 1) 3) None).
Definition exo_out y : @Booster IE := fst (get (exb_new None true, None) (exo_fit y)).
Lemma exo_some : forall y, match exo_fit y with Some (_, None) => true | _ => false end = true -> exo_fit y = Some (exo_out y, None).
Proof. intros y. unfold exo_out. destruct (exo_fit y) as [[b' [e|]]|]; simpl; try discriminate. reflexivity. Qed.

Theorem C72_row_order_rounding_refuted : exists (E : @Env IE) b data y y' w b1 b2,
  (** all rows hold the same values and weights, so reordering the labels reorders the rows *)
  (forall i i' j, (i < m_rows data)%nat -> (i' < m_rows data)%nat -> (j < m_cols data)%nat -> m_get data i j = m_get data i' j) /\
  (forall u v, In u w -> In v w -> u = v) /\ Permutation y y' /\
  fit E b data y w None = Some (b1, None) /\ fit E b data y' w None = Some (b2, None) /\
  feq f64 (gb_base_score b1) (gb_base_score b2) = false.
Proof.
  exists exb_env, (exb_new None true), exo_data, (map z64 [exo_big; 1; - exo_big]%Z), (map z64 [exo_big; - exo_big; 1]%Z), (repeat (z64 1) 3),
    (exo_out (map z64 [exo_big; 1; - exo_big]%Z)), (exo_out (map z64 [exo_big; - exo_big; 1]%Z)).
  split.
  { intros i i' j Hi Hi' Hj. change (i < 3)%nat in Hi. change (i' < 3)%nat in Hi'. change (j < 1)%nat in Hj. assert (j = 0%nat) as -> by lia.
    destruct i as [|[|[|i]]]; [| | |lia]; (destruct i' as [|[|[|i']]]; [| | |lia]); reflexivity. }
  split.
  { intros u v Hu Hv. apply repeat_spec in Hu, Hv. congruence. }
  split; [apply Permutation_map, perm_skip, perm_swap|].
  assert (S1 := exo_some (map z64 [exo_big; 1; - exo_big]%Z)). assert (S2 := exo_some (map z64 [exo_big; - exo_big; 1]%Z)).
  split; [exact (S1 ltac:(vm_compute; reflexivity))|]. split; [exact (S2 ltac:(vm_compute; reflexivity))|]. vm_compute. reflexivity.
Qed.

(** *** Refuted: a row of weight zero may change the model *)
Notation exz_fit data y w := (@fit IE exb_env (exb_new None true) data y w None).
Definition exz_out data y w : @Booster IE := fst (get (exb_new None true, None) (exz_fit data y w)).
Lemma exz_some : forall data y w, match exz_fit data y w with Some (_, None) => true | _ => false end = true -> exz_fit data y w = Some (exz_out data y w, None).
Proof. intros data y w. unfold exz_out. destruct (exz_fit data y w) as [[b' [e|]]|]; simpl; try discriminate. reflexivity. Qed.
Lemma one_answer : forall l : list b64, length l = 1%nat -> l = [hd (z64 0) l].
Proof. intros [|x [|z l]] H; try discriminate; reflexivity. Qed.

(** Fit on the rows 1 and 5, and on these with a row 3 of weight zero in between: the threshold moves from 5 to 3, so
    the two models answer 4 differently. *)
Theorem C73_zero_weight_row_refuted : exists (E : @Env IE) b data y w v l b1 b2 d x1 x2,
  m_rows data = 2%nat /\ m_cols data = 1%nat /\
  fit E b data y w None = Some (b1, None) /\
  fit E b (matrix_new (m_data data ++ [v]) 3 1) (y ++ [l]) (w ++ [fzero f64]) None = Some (b2, None) /\
  predict (fun _ => Seq) b1 d false = Some [x1] /\ predict (fun _ => Seq) b2 d false = Some [x2] /\ feq f64 x1 x2 = false.
Proof.
  set (data := matrix_new (map z64 [1; 5]%Z) 2 1). set (data2 := matrix_new (map z64 [1; 5]%Z ++ [z64 3]) 3 1).
  set (y := map z64 [0; 4]%Z). set (w := map z64 [1; 1]%Z). set (d := matrix_new [z64 4] 1 1).
  set (b1 := exz_out data y w). set (b2 := exz_out data2 (y ++ [z64 0]) (w ++ [fzero (@f64 IE)])).
  set (p1 := get [] (@predict IE (fun _ => Seq) b1 d false)). set (p2 := get [] (@predict IE (fun _ => Seq) b2 d false)).
  exists exb_env, (exb_new None true), data, y, w, (z64 3), (z64 0), b1, b2, d, (hd (z64 0) p1), (hd (z64 0) p2).
  split; [reflexivity|]. split; [reflexivity|].
  assert (S1 := exz_some data y w). assert (S2 := exz_some data2 (y ++ [z64 0]) (w ++ [fzero (@f64 IE)])).
  split; [exact (S1 ltac:(vm_compute; reflexivity))|]. split; [exact (S2 ltac:(vm_compute; reflexivity))|].
  assert (Q1 : is_some (@predict IE (fun _ => Seq) b1 d false) = true) by (vm_compute; reflexivity).
  assert (Q2 : is_some (@predict IE (fun _ => Seq) b2 d false) = true) by (vm_compute; reflexivity).
  split; [|split].
  - exact (eq_trans (get_some _ [] _ Q1) (f_equal Some (one_answer p1 ltac:(vm_compute; reflexivity)))).
  - exact (eq_trans (get_some _ [] _ Q2) (f_equal Some (one_answer p2 ltac:(vm_compute; reflexivity)))).
  - vm_compute. reflexivity.
Qed.
Print Assumptions C72_row_order_rounding_refuted.
Print Assumptions C73_zero_weight_row_refuted.
