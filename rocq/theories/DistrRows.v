(** Exact arithmetic: a fit on a table of rows.  Reordering the rows, or replacing a row by several copies
    that share its weight, does not change the model. *)
From Coq Require Import List Arith NArith Lia Bool Permutation Reals Lra Sorting.
From Flocq Require Import Core.Raux.
From Verif Require Import Prelude Float FloatX FloatLaws OrdProofs Data DataProofs Utils UtilsX Binning BinningProofs CutProofs BinMatrix
  BinningX Histogram HistogramProofs Node Splitter Tree NoPanic Objective Metric Sampler ObjectiveX Booster PredictProofs MetricX BoostProofs FitModel FinX BoostX Recode Distr DistrFit.
Import ListNotations.
Local Open Scope R_scope.

(** One training row: its values, label and weight. *)
Record Row := mkRow { r_cells : list xr; r_label : xr; r_weight : xr }.

(** The column-major buffer of a table with the given number of columns; data.rs:88-115, Matrix::new. *)
Definition table (cols : nat) (rows : list Row) : Matrix xr :=
  matrix_new (concat (map (fun j => map (fun r => nth j (r_cells r) XNaN) rows) (seq 0 cols))) (length rows) cols.
Definition labels (rows : list Row) : list xr := map r_label rows.
Definition weights (rows : list Row) : list xr := map r_weight rows.

(** Rows a fit in exact arithmetic accepts. *)
Record sound_row (p : @Params XF) (cols : nat) (r : Row) : Prop := mkSoundR {
  sr_cols : length (r_cells r) = cols;
  sr_cells : forall v, In v (r_cells r) -> @valid_cell XF (p_missing p) v;
  sr_finite : forall v, In v (r_cells r) -> @bin_missing XF v (p_missing p) = false -> exists x, v = Fin x /\ xlt v xmax = true;
  sr_label : xfin (r_label r);
  sr_weight : xpos (r_weight r) }.

(** The total weight of the rows with these values and this label. *)
Definition row_total (rows : list Row) (cells : list xr) (label : R) : R :=
  sumR (map (fun r => if kind_eq_dec (r_cells r, val (r_label r)) (cells, label) then val (r_weight r) else 0) rows).

Lemma nth_error_blocks : forall A (f : nat -> list A) m n k i j, (forall q, length (f q) = m) -> (i < m)%nat -> (j < n)%nat ->
  nth_error (concat (map f (seq k n))) (i + j * m) = nth_error (f (k + j)%nat) i.
Proof.
  intros A f m n. induction n as [|n IH]; intros k i j L Hi Hj; [lia|]. cbn [seq map concat]. destruct j as [|j].
  - rewrite Nat.mul_0_l, !Nat.add_0_r. apply nth_error_app1. rewrite L. auto.
  - rewrite nth_error_app2 by (rewrite L; cbn; lia). rewrite L. replace (i + Datatypes.S j * m - m)%nat with (i + j * m)%nat by (cbn; lia).
    rewrite IH by (auto; lia). f_equal. f_equal. lia.
Qed.
Lemma length_blocks : forall A (f : nat -> list A) m n k, (forall q, length (f q) = m) -> length (concat (map f (seq k n))) = (m * n)%nat.
Proof. intros A f m n. induction n as [|n IH]; intros k L; cbn [seq map concat]; [cbn; lia|]. rewrite app_length, L, IH by auto. lia. Qed.

Definition no_row := mkRow [] (Fin 0) (Fin 0).

Lemma table_cell : forall cols rows i j, (i < length rows)%nat -> (j < cols)%nat ->
  cell (table cols rows) i j = nth j (r_cells (nth i rows no_row)) XNaN.
Proof.
  intros cols rows i j Hi Hj. unfold cell, m_get, m_item_index, table, matrix_new. cbn [m_data m_rows].
  rewrite Nat.mul_1_l, nth_error_blocks by (auto; intros; apply map_length).
  destruct (nth_error_lt rows (i := i) Hi) as [r Hr]. rewrite nth_error_map, Hr. cbn [option_map]. rewrite (nth_error_nth_eq _ _ no_row Hr). reflexivity.
Qed.

Lemma table_row : forall cols rows i, (i < length rows)%nat -> length (r_cells (nth i rows no_row)) = cols ->
  row_of (table cols rows) i = r_cells (nth i rows no_row).
Proof.
  intros cols rows i Hi L. unfold row_of. cbn [table matrix_new m_cols].
  rewrite (map_nth_seq _ (r_cells (nth i rows no_row)) XNaN) at 1. rewrite L. apply map_ext_in. intros j Hj. apply in_seq in Hj.
  apply table_cell; auto. lia.
Qed.

Lemma table_kind : forall cols rows i, (i < length rows)%nat -> length (r_cells (nth i rows no_row)) = cols ->
  kind_of (table cols rows) (labels rows) i = (r_cells (nth i rows no_row), val (r_label (nth i rows no_row))).
Proof.
  intros cols rows i Hi L. unfold kind_of. rewrite table_row by auto. f_equal. f_equal. unfold labels.
  exact (map_nth r_label rows no_row i).
Qed.

Lemma table_weight : forall cols rows k, (forall r, In r rows -> length (r_cells r) = cols) ->
  kind_weight (table cols rows) (labels rows) (weights rows) k = row_total rows (fst k) (snd k).
Proof.
  intros cols rows [c l] H. unfold kind_weight, row_total. cbn [fst snd table matrix_new m_rows].
  match goal with |- _ = sumR (map ?F rows) => transitivity (sumR (map F (map (fun i => nth i rows no_row) (seq 0 (length rows)))));
    [|rewrite <- map_nth_seq; reflexivity] end.
  rewrite map_map. f_equal. apply map_ext_in. intros i Hi. apply in_seq in Hi.
  fold (table cols rows). rewrite table_kind by (try lia; apply H; apply nth_In; lia). unfold weight_at, weights.
  replace (nth i (map r_weight rows) (Fin 0)) with (r_weight (nth i rows no_row)) by (symmetry; exact (map_nth r_weight rows no_row i)). reflexivity.
Qed.

Lemma table_in : forall cols rows v, (forall r, In r rows -> length (r_cells r) = cols) -> In v (m_data (table cols rows)) ->
  exists r, In r rows /\ In v (r_cells r).
Proof.
  intros cols rows v L H. cbn [table matrix_new m_data] in H. apply in_concat in H. destruct H as (b & H1 & H2). apply in_map_iff in H1.
  destruct H1 as (j & <- & Hj). apply in_map_iff in H2. destruct H2 as (r & <- & Hr). exists r. split; auto. apply nth_In.
  rewrite L by auto. apply in_seq in Hj. lia.
Qed.

Lemma table_sound : forall p cols rows, (forall r, In r rows -> sound_row p cols r) -> p_sample_method p = SNone ->
  xpos (p_l2 p) \/ rows <> [] -> sound_data p (table cols rows) (labels rows) (weights rows).
Proof.
  intros p cols rows SR NS NE.
  assert (LC : forall r, In r rows -> length (r_cells r) = cols) by (intros; apply (sr_cols p); auto).
  assert (WP : forall v, In v (weights rows) -> xpos v).
  { intros v Hv. apply in_map_iff in Hv. destruct Hv as (r & <- & Hr). apply (sr_weight _ _ _ (SR r Hr)). }
  constructor.
  - split; [reflexivity|]. split; [cbn [table matrix_new m_data m_rows m_cols]; apply length_blocks; intros; apply map_length|].
    intros v Hv. destruct (table_in _ _ _ LC Hv) as (r & H1 & H2). eapply sr_cells; eauto.
  - split; [apply map_length|]. intros v Hv. apply in_map_iff in Hv. destruct Hv as (r & <- & Hr). apply (sr_label _ _ _ (SR r Hr)).
  - split; [apply map_length|]. intros v Hv. apply xpos_nonneg. auto.
  - intros v Hv HM. destruct (table_in _ _ _ LC Hv) as (r & H1 & H2).
    destruct (sr_finite _ _ _ (SR r H1) v H2) as (x & _ & Hx); auto. exact (@is_missing_bin XF x_ord_laws _ _ _ HM).
  - intros j. unfold col_values, col_weights. match goal with |- context [@m_get_col ?a ?b ?c] => destruct (@m_get_col a b c) as [col|] end; [|left; reflexivity].
    destruct (@observed XF col (weights rows) (p_missing p)) as [|[v x] l] eqn:EO; [left; reflexivity|]. right. exists x.
    split; [left; reflexivity|]. assert (IN : In (v, x) (@observed XF col (weights rows) (p_missing p))) by (rewrite EO; left; reflexivity).
    apply filter_In in IN. destruct IN as [IN _]. apply in_combine_r in IN. destruct (WP x IN) as (q & -> & Hq). apply Raux.Rlt_bool_true. exact Hq.
  - destruct NE as [NE|NE]; [left; auto|right]. split; auto. destruct rows as [|r rows]; [congruence|]. exists (r_weight r).
    split; [left; reflexivity|]. apply WP. left; reflexivity.
Qed.

(** *** Fits on tables *)
Lemma row_total_perm : forall rows rows' c l, Permutation rows rows' -> row_total rows' c l = row_total rows c l.
Proof. intros rows rows' c l H. unfold row_total. symmetry. apply sumR_perm. apply Permutation_map. exact H. Qed.

(** The same outcome, including the same panic or validation error. *)
Lemma fit_eq : forall E E' b data data' y w y' w' es base, let p := gb_params b in
  sound_params p -> sound_data p data y w -> sound_data p data' y' w' -> sound_env E p -> sound_env E' p ->
  p_sample_method p = SNone -> (forall v, In v w -> xpos v) -> (forall v, In v w' -> xpos v) ->
  (forall v, In v (m_data data) -> @bin_missing XF v (p_missing p) = false -> xfin v) ->
  (forall v, In v (m_data data') -> @bin_missing XF v (p_missing p) = false -> xfin v) ->
  (forall k, @gain_based XF (e_pick E k)) ->
  e_rng E' = e_rng E -> e_pick E' = e_pick E -> e_auc E' = e_auc E -> e_shape E' = e_shape E ->
  same_distribution data y w data' y' w' ->
  (if p_initialize_base_score p then @calc_init XF (p_objective p) y w else Some (gb_base_score b)) = Some (Fin base) ->
  @fit XF E' b data' y' w' es = @fit XF E b data y w es.
Proof.
  intros E E' b data data' y w y' w' es base p SP SD SD' SE SE' NS WP WP' FC FC' GB ER EP EA ES DI HB.
  assert (F1 : forall b1, @fit XF E b data y w es = Some (b1, None) -> @fit XF E' b data' y' w' es = Some (b1, None)).
  { intros b1. apply (fit_same E E' b data data' y w y' w' es base b1); auto. }
  destruct (sd_y _ _ _ _ SD) as [LY FY]. destruct (sd_y _ _ _ _ SD') as [LY' FY'].
  destruct (sd_w _ _ _ _ SD) as [LW FW]. destruct (sd_w _ _ _ _ SD') as [LW' FW'].
  assert (DI' : same_distribution data' y' w' data y w) by (destruct DI; split; auto).
  assert (F2 : forall b1, @fit XF E' b data' y' w' es = Some (b1, None) -> @fit XF E b data y w es = Some (b1, None)).
  { intros b1. apply (fit_same E' E b data' data y' w' y w es base b1); auto.
    - intros k. rewrite EP. auto.
    - fold p. destruct (p_initialize_base_score p); auto. rewrite <- HB. apply (init_same _ data data'); auto; intros v Hv; apply xnonneg_fin; auto. }
  assert (EV : @validate_inputs XF y' w' es = @validate_inputs XF y w es).
  { pose proof (valid_sound _ _ _ _ None SD' I) as V. pose proof (valid_sound _ _ _ _ None SD I) as V'. unfold validate_inputs in *.
    destruct (@validate_not_nan_vec XF y' FieldY); [discriminate|]. destruct (@validate_positive_not_nan_vec XF w' FieldWeight); [discriminate|].
    destruct (@validate_not_nan_vec XF y FieldY); [discriminate|]. destruct (@validate_positive_not_nan_vec XF w FieldWeight); [discriminate|]. reflexivity. }
  unfold fit in *. rewrite EV in *. destruct (@validate_inputs XF y w es); auto.
  destruct (@fit_trees XF E b data y w es) as [b1|]; cbn [bind] in *; [apply F1; reflexivity|].
  destruct (@fit_trees XF E' b data' y' w' es) as [b2|]; cbn [bind] in *; auto. symmetry. apply F2. reflexivity.
Qed.

Lemma rows_eq : forall E E' b cols rows rows' es base, let p := gb_params b in
  sound_params p -> p_sample_method p = SNone -> xpos (p_l2 p) \/ rows <> [] -> xpos (p_l2 p) \/ rows' <> [] ->
  (forall r, In r rows -> sound_row p cols r) -> (forall r, In r rows' -> sound_row p cols r) ->
  sound_env E p -> sound_env E' p -> (forall k, @gain_based XF (e_pick E k)) ->
  e_rng E' = e_rng E -> e_pick E' = e_pick E -> e_auc E' = e_auc E -> e_shape E' = e_shape E ->
  (if p_initialize_base_score p then @calc_init XF (p_objective p) (labels rows) (weights rows) else Some (gb_base_score b)) = Some (Fin base) ->
  (forall c l, row_total rows' c l = row_total rows c l) ->
  @fit XF E' b (table cols rows') (labels rows') (weights rows') es = @fit XF E b (table cols rows) (labels rows) (weights rows) es.
Proof.
  intros E E' b cols rows rows' es base p SP NS NE NE' SR SR' SE SE' GB ER EP EA ES HB RT.
  assert (G : forall rs, (forall r, In r rs -> sound_row p cols r) ->
    (forall v, In v (weights rs) -> xpos v) /\ (forall v, In v (m_data (table cols rs)) -> @bin_missing XF v (p_missing p) = false -> xfin v)).
  { intros rs H. split.
    - intros v Hv. apply in_map_iff in Hv. destruct Hv as (r & <- & Hr). apply (sr_weight _ _ _ (H r Hr)).
    - intros v Hv HM. destruct (table_in cols rs v) as (r & H1 & H2); auto; [intros; apply (sr_cols p); auto|].
      destruct (sr_finite _ _ _ (H r H1) v H2 HM) as (x & -> & _). eexists; reflexivity. }
  destruct (G rows SR) as [W1 C1]. destruct (G rows' SR') as [W2 C2].
  apply (fit_eq E E' b (table cols rows) (table cols rows') (labels rows) (weights rows) (labels rows') (weights rows') es base); auto; fold p.
  - apply table_sound; auto.
  - apply table_sound; auto.
  - split; [reflexivity|]. intros k. rewrite !table_weight by (intros; apply (sr_cols p); auto). apply RT.
Qed.

(** Each row with a list of weights: one row carrying their sum, or one row for each of them. *)
Definition merged (l : list (Row * list R)) : list Row :=
  map (fun '(r, ws) => mkRow (r_cells r) (r_label r) (Fin (sumR ws))) l.
Definition spread (l : list (Row * list R)) : list Row :=
  flat_map (fun '(r, ws) => map (fun x => mkRow (r_cells r) (r_label r) (Fin x)) ws) l.

Lemma row_total_app : forall a b c l, row_total (a ++ b) c l = row_total a c l + row_total b c l.
Proof.
  intros a b c l. unfold row_total. rewrite map_app. generalize (map (fun r => if kind_eq_dec (r_cells r, val (r_label r)) (c, l) then val (r_weight r) else 0) a) as u.
  induction u as [|z u IH]; [simpl; lra|]. cbn [app]. rewrite !sumR_cons, IH. lra.
Qed.
Lemma spread_total : forall l c y, row_total (spread l) c y = row_total (merged l) c y.
Proof.
  induction l as [|[r ws] l IH]; intros c y; [reflexivity|]. unfold spread, merged. cbn [flat_map map]. fold (spread l) (merged l).
  change (mkRow (r_cells r) (r_label r) (Fin (sumR ws)) :: merged l) with ([mkRow (r_cells r) (r_label r) (Fin (sumR ws))] ++ merged l).
  rewrite !row_total_app, IH. f_equal. unfold row_total. cbn [map]. rewrite map_map, sumR_cons. cbn [r_cells r_label r_weight val].
  change (sumR []) with 0. destruct (kind_eq_dec _ _) as [e|n].
  - rewrite map_id. lra.
  - rewrite sumR_zero by auto. lra.
Qed.
