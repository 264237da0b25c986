(** Exact arithmetic: a whole fit depends on the training rows only through the total weight of each
    kind of row, a kind being the values of a row together with its label. *)
From Coq Require Import List Arith NArith Lia Bool Permutation Reals Lra Sorting.
From Flocq Require Import Core.Raux.
From Verif Require Import Prelude Float FloatX FloatLaws OrdProofs Data DataProofs Utils UtilsX Binning BinningProofs CutProofs BinMatrix
  BinningX CutQuant DistrCuts Histogram HistogramProofs HistogramX Node Splitter Tree GrowProofs TreeWf TreeProofs FitProofs FitSplits PathProofs
  RouteX RouteFit NoPanic Objective Metric Sampler MetricX ObjectiveX Booster PredictProofs BoostProofs FitModel FinX BoostX ContribX Recode RescaleFit Distr.
Import ListNotations.
Local Open Scope R_scope.

(** *** Kinds of rows *)
Definition cell (data : Matrix xr) (i j : nat) : xr := match m_get data i j with Some v => v | None => XNaN end.
Definition row_of (data : Matrix xr) (i : nat) : list xr := map (cell data i) (seq 0 (m_cols data)).
Notation kind := (list xr * R)%type.
Definition kind_of (data : Matrix xr) (y : list xr) (i : nat) : kind := (row_of data i, val (nth i y (Fin 0))).
Definition weight_at (w : list xr) (i : nat) : R := val (nth i w (Fin 0)).

Lemma xr_eq_dec : forall a b : xr, {a = b} + {a <> b}.
Proof. intros a b. decide equality. apply Req_EM_T. Defined.
Lemma kind_eq_dec : forall a b : kind, {a = b} + {a <> b}.
Proof. intros a b. decide equality; [apply Req_EM_T|apply (list_eq_dec xr_eq_dec)]. Defined.

(** The total weight of the rows of one kind. *)
Definition kind_weight (data : Matrix xr) (y w : list xr) (k : kind) : R :=
  sumR (map (fun i => if kind_eq_dec (kind_of data y i) k then weight_at w i else 0) (seq 0 (m_rows data))).
Definition same_distribution (data : Matrix xr) (y w : list xr) (data' : Matrix xr) (y' w' : list xr) : Prop :=
  m_cols data' = m_cols data /\ forall k, kind_weight data' y' w' k = kind_weight data y w k.

(** Sums over rows of a weighted function of the kind, grouped by kind. *)
Lemma sumR_add : forall A (f g : A -> R) l, sumR (map (fun x => f x + g x) l) = sumR (map f l) + sumR (map g l).
Proof. intros A f g l. induction l as [|a l IH]; [simpl; lra|]. cbn [map]. rewrite !sumR_cons, IH. lra. Qed.
Lemma sumR_scal : forall A (f : A -> R) c l, sumR (map (fun x => c * f x) l) = c * sumR (map f l).
Proof. intros A f c l. induction l as [|a l IH]; [simpl; lra|]. cbn [map]. rewrite !sumR_cons, IH. lra. Qed.
Lemma sumR_zero : forall A (f : A -> R) l, (forall x, In x l -> f x = 0) -> sumR (map f l) = 0.
Proof.
  intros A f l. induction l as [|a l IH]; intros H; [reflexivity|]. cbn [map]. rewrite sumR_cons, IH, (H a); simpl; auto; [lra|].
  intros; apply H; right; auto.
Qed.

Lemma sum_single : forall (phi : kind -> R) u k U, NoDup U -> In k U ->
  sumR (map (fun z => phi z * (if kind_eq_dec k z then u else 0)) U) = u * phi k.
Proof.
  intros phi u k U. induction U as [|a U IH]; intros ND Hk; [destruct Hk|]. inversion ND as [|? ? N1 N2]; subst.
  cbn [map]. rewrite sumR_cons. destruct (kind_eq_dec k a) as [->|N].
  - rewrite sumR_zero; [lra|]. intros x Hx. destruct (kind_eq_dec a x) as [->|]; [contradiction|lra].
  - destruct Hk as [->|Hk]; [congruence|]. rewrite IH by auto. lra.
Qed.

Lemma by_kind : forall data y w (phi : kind -> R) U, NoDup U -> (forall i, (i < m_rows data)%nat -> In (kind_of data y i) U) ->
  sumR (map (fun i => weight_at w i * phi (kind_of data y i)) (seq 0 (m_rows data))) =
  sumR (map (fun k => phi k * kind_weight data y w k) U).
Proof.
  intros data y w phi U ND HU. unfold kind_weight.
  assert (HS : forall i, In i (seq 0 (m_rows data)) -> In (kind_of data y i) U) by (intros i Hi; apply in_seq in Hi; apply HU; lia).
  revert HS. generalize (seq 0 (m_rows data)) as l. intros l. induction l as [|i l IH]; intros HS.
  - simpl. symmetry. apply sumR_zero. intros. lra.
  - cbn [map]. rewrite sumR_cons, IH by (intros; apply HS; right; auto).
    rewrite (map_ext (fun k => phi k * sumR (_ :: _)) (fun k => phi k * (if kind_eq_dec (kind_of data y i) k then weight_at w i else 0) +
       phi k * sumR (map (fun i => if kind_eq_dec (kind_of data y i) k then weight_at w i else 0) l))) by (intros k; rewrite sumR_cons; lra).
    rewrite sumR_add, sum_single by (auto; apply HS; left; auto). reflexivity.
Qed.

Lemma distribution_sums : forall data y w data' y' w', same_distribution data y w data' y' w' -> forall phi : kind -> R,
  sumR (map (fun i => weight_at w i * phi (kind_of data y i)) (seq 0 (m_rows data))) =
  sumR (map (fun i => weight_at w' i * phi (kind_of data' y' i)) (seq 0 (m_rows data'))).
Proof.
  intros data y w data' y' w' [_ H] phi.
  set (U := nodup kind_eq_dec (map (kind_of data y) (seq 0 (m_rows data)) ++ map (kind_of data' y') (seq 0 (m_rows data')))).
  assert (ND : NoDup U) by apply NoDup_nodup.
  assert (H1 : forall i, (i < m_rows data)%nat -> In (kind_of data y i) U).
  { intros i Hi. apply nodup_In, in_or_app. left. apply in_map. apply in_seq. lia. }
  assert (H2 : forall i, (i < m_rows data')%nat -> In (kind_of data' y' i) U).
  { intros i Hi. apply nodup_In, in_or_app. right. apply in_map. apply in_seq. lia. }
  rewrite (by_kind _ _ _ _ U ND H1), (by_kind _ _ _ _ U ND H2). f_equal. apply map_ext. intros k. rewrite H. reflexivity.
Qed.

(** *** The cells of a matrix *)
Lemma map_nth_seq : forall A (l : list A) d, l = map (fun i => nth i l d) (seq 0 (length l)).
Proof.
  intros A l d. induction l as [|a l IH]; simpl; auto. f_equal. rewrite <- seq_shift, map_map. exact IH.
Qed.
Lemma cell_get : forall (data : Matrix xr) i j, length (m_data data) = (m_rows data * m_cols data)%nat -> (i < m_rows data)%nat -> (j < m_cols data)%nat ->
  m_get data i j = Some (cell data i j).
Proof. intros data i j LD Hi Hj. destruct (get_in_range data LD i j Hi Hj) as [v Hv]. unfold cell. rewrite Hv. reflexivity. Qed.
Lemma row_nth : forall data i j, (j < m_cols data)%nat -> nth j (row_of data i) XNaN = cell data i j.
Proof.
  intros data i j Hj. unfold row_of. rewrite (nth_indep _ XNaN (cell data i 0)) by (rewrite map_length, seq_length; auto).
  rewrite map_nth, seq_nth by auto. reflexivity.
Qed.
Lemma row_nth_error : forall data i j v, nth_error (row_of data i) j = Some v -> v = cell data i j /\ (j < m_cols data)%nat.
Proof.
  intros data i j v H. assert (Hj := nth_error_Some_lt _ _ H). unfold row_of in *. rewrite map_length, seq_length in Hj.
  rewrite nth_error_map, (nth_error_seq 0 Hj) in H. injection H as <-. auto.
Qed.
Lemma col_cells : forall data j, length (m_data data) = (m_rows data * m_cols data)%nat -> (j < m_cols data)%nat ->
  m_get_col data j = Some (map (fun i => cell data i j) (seq 0 (m_rows data))).
Proof.
  intros data j LD Hj. destruct (get_col_spec data LD j Hj) as (col & E & L & H). rewrite E. f_equal.
  rewrite (map_nth_seq _ col XNaN), L. apply map_ext_in. intros i Hi. apply in_seq in Hi. unfold cell. rewrite <- H by lia.
  destruct (nth_error_lt col (i := i)) as [v Hv]; [lia|]. rewrite Hv. apply nth_error_nth_eq; auto.
Qed.

(** The values of a column that are not missing, with their weights. *)
Definition obsR (data : Matrix xr) (w : list xr) (missing : xr) (j : nat) : list (R * R) :=
  map (fun i => (val (cell data i j), weight_at w i)) (filter (fun i => negb (@bin_missing XF (cell data i j) missing)) (seq 0 (m_rows data))).

Lemma observed_obsR : forall data (w : list xr) missing j, length w = m_rows data ->
  (forall i, (i < m_rows data)%nat -> @bin_missing XF (cell data i j) missing = false -> xfin (cell data i j)) ->
  (forall v, In v w -> xfin v) ->
  let col := map (fun i => cell data i j) (seq 0 (m_rows data)) in
  map fst (@observed XF col w missing) = map Fin (map fst (obsR data w missing j)) /\
  map snd (@observed XF col w missing) = map Fin (map snd (obsR data w missing j)).
Proof.
  intros data w missing j LW HF HW col.
  change (map fst (filter (fun vw : xr * xr => negb (@bin_missing XF (fst vw) missing)) (@combine xr xr col w)) = map Fin (map fst (obsR data w missing j)) /\
    map snd (filter (fun vw : xr * xr => negb (@bin_missing XF (fst vw) missing)) (@combine xr xr col w)) = map Fin (map snd (obsR data w missing j))).
  unfold obsR, col.
  assert (EC : combine (map (fun i => cell data i j) (seq 0 (m_rows data))) w = map (fun i => (cell data i j, nth i w (Fin 0))) (seq 0 (m_rows data))).
  { rewrite (map_nth_seq _ w (Fin 0)) at 1. rewrite LW. clear. induction (seq 0 (m_rows data)) as [|i l IH]; simpl; auto. f_equal. exact IH. }
  assert (HS : forall i, In i (seq 0 (m_rows data)) -> (i < m_rows data)%nat) by (intros i Hi; apply in_seq in Hi; lia).
  rewrite EC. clear EC. revert HS. generalize (seq 0 (m_rows data)) as l. intros l. induction l as [|i l IH]; intros HS; [split; reflexivity|].
  destruct IH as [IH1 IH2]; [intros; apply HS; right; auto|]. cbn [map filter fst].
  destruct (@bin_missing XF (cell data i j) missing) eqn:EM; cbn [negb map fst snd]; [split; auto|].
  assert (Hi : (i < m_rows data)%nat) by (apply HS; left; auto).
  split; f_equal; auto; [apply xfin_val; auto|]. unfold weight_at. apply xfin_val. apply HW. apply nth_In. lia.
Qed.

(** *** Equal cuts *)
Section Cuts.
Variables (S S' : Sorts) (data data' : Matrix xr) (y w y' w' : list xr) (nbins : nat) (missing : xr).
Hypotheses (SS : @SortSpec XF S) (SS' : @SortSpec XF S') (NB : nbins <> 0%nat).
Hypothesis LD : length (m_data data) = (m_rows data * m_cols data)%nat.
Hypothesis LD' : length (m_data data') = (m_rows data' * m_cols data')%nat.
Hypotheses (LW : length w = m_rows data) (LW' : length w' = m_rows data').
Hypothesis WP : forall v, In v w -> xpos v.
Hypothesis WP' : forall v, In v w' -> xpos v.
Hypothesis FC : forall v, In v (m_data data) -> @bin_missing XF v missing = false -> xfin v.
Hypothesis FC' : forall v, In v (m_data data') -> @bin_missing XF v missing = false -> xfin v.
Hypothesis SD : same_distribution data y w data' y' w'.

Lemma obs_same : forall j, (j < m_cols data)%nat -> same_weights (obsR data w missing j) (obsR data' w' missing j).
Proof.
  intros j Hj psi. unfold obsR. rewrite !map_map. cbn [fst snd]. rewrite !sum_filter_zero.
  pose proof (distribution_sums _ _ _ _ _ _ SD (fun k => if negb (@bin_missing XF (nth j (fst k) XNaN) missing) then psi (val (nth j (fst k) XNaN)) else 0)) as E.
  cbv beta in E. unfold kind_of in E. cbn [fst] in E.
  rewrite (map_ext (fun i => if negb (@bin_missing XF (cell data i j) missing) then weight_at w i * psi (val (cell data i j)) else 0)
     (fun i => weight_at w i * (if negb (@bin_missing XF (nth j (row_of data i) XNaN) missing) then psi (val (nth j (row_of data i) XNaN)) else 0))).
  2:{ intros i. rewrite row_nth by auto. destruct (negb _); lra. }
  rewrite E. f_equal. apply map_ext. intros i. rewrite row_nth by (rewrite (proj1 SD); auto). destruct (negb _); lra.
Qed.

Lemma cuts_same : forall j col col' c c', (j < m_cols data)%nat -> m_get_col data j = Some col -> m_get_col data' j = Some col' ->
  @col_cuts XF S col w (bin_pcts nbins) missing = Some c -> @col_cuts XF S' col' w' (bin_pcts nbins) missing = Some c' -> c' = c.
Proof.
  intros j col col' c c' Hj HC HC' H H'.
  assert (Hj' : (j < m_cols data')%nat) by (rewrite (proj1 SD); auto).
  rewrite (col_cells _ _ LD Hj) in HC. injection HC as <-. rewrite (col_cells _ _ LD' Hj') in HC'. injection HC' as <-.
  assert (IN : forall d i, length (m_data d) = (m_rows d * m_cols d)%nat -> (j < m_cols d)%nat -> (i < m_rows d)%nat -> In (cell d i j) (m_data d)).
  { intros d i L1 L2 L3. pose proof (cell_get d i j L1 L3 L2) as G. unfold m_get in G. eapply nth_error_In; eauto. }
  destruct (observed_obsR data w missing j) as [O1 O2]; auto.
  { intros v Hv. apply xnonneg_fin, xpos_nonneg; auto. }
  destruct (observed_obsR data' w' missing j) as [O1' O2']; auto.
  { intros v Hv. apply xnonneg_fin, xpos_nonneg; auto. }
  unfold col_cuts in H, H'. inv_bind H. rename v into kept. inv_bind H. injection H as <-. rename v into a.
  inv_bind H'. rename v into kept'. inv_bind H'. injection H' as <-. rename v into a'.
  apply (@split_missing_spec XF x_ord_laws) in E. destruct E as [-> _]. apply (@split_missing_spec XF x_ord_laws) in E1. destruct E1 as [-> _].
  assert (PO : forall d u, length u = m_rows d -> (forall v, In v u -> xpos v) -> forall o, In o (obsR d u missing j) -> 0 < snd o).
  { intros d u L P o Ho. unfold obsR in Ho. apply in_map_iff in Ho. destruct Ho as (i & <- & Hi). apply filter_In in Hi. destruct Hi as [Hi _].
    apply in_seq in Hi. simpl. unfold weight_at. destruct (P (nth i u (Fin 0))) as (r & -> & Pr); [apply nth_In; lia|]. exact Pr. }
  assert (a' = a) as ->; auto.
  refine (percentiles_or_value_same S S' (obsR data w missing j) (obsR data' w' missing j) nbins a a' SS SS' NB _ _ (obs_same j Hj) _ _); eauto.
  - rewrite <- O1, <- O2. exact E0.
  - rewrite <- O1', <- O2'. exact E2.
Qed.

End Cuts.

(** the bin of a cell, from its value *)
Section BinOf.
Variable missing : xr.
Definition bin_of (cc : list (list xr)) (f : nat) (k : kind) : nat :=
  match @map_bin XF (nth f cc []) (nth f (fst k) XNaN) missing with Some (Some b) => b | _ => 0%nat end.
Definition fcols_of (d : Matrix xr) (bd : @BinnedData XF) : list (list nat) :=
  map (fun j => match m_get_col (@binned XF d bd) j with Some c => c | None => [] end) (seq 0 (m_cols d)).

Lemma bins_by_kind : forall (d : Matrix xr) (bd : @BinnedData XF) (cc : list (list xr)) yy, length (m_data d) = (m_rows d * m_cols d)%nat -> length (b_data bd) = length (m_data d) ->
  (forall k v, nth_error (m_data d) k = Some v ->
     exists c b, nth_error cc (k / m_rows d) = Some c /\ @map_bin XF c v missing = Some (Some b) /\ nth_error (b_data bd) k = Some b) ->
  forall f i, (f < m_cols d)%nat -> (i < m_rows d)%nat -> nth i (fcol (fcols_of d bd) f) 0%nat = bin_of cc f (kind_of d yy i).
Proof.
  intros d bd cc yy L LB HB f i Hf Hi. unfold bin_of, kind_of. cbn [fst]. rewrite row_nth by auto.
  pose proof (cell_get d i f L Hi Hf) as G. unfold m_get in G. destruct (HB _ _ G) as (c & b & E1 & E2 & E3).
  assert (DV : (m_item_index d i f / m_rows d)%nat = f).
  { unfold m_item_index. rewrite Nat.mul_1_l, Nat.div_add by lia. rewrite Nat.div_small by auto. reflexivity. }
  assert (E1' : nth_error cc f = Some c) by (rewrite <- DV; exact E1).
  assert (EC : @nth (list xr) f cc [] = c) by (apply nth_error_nth_eq; exact E1').
  rewrite EC, E2.
  unfold fcol, fcols_of.
  destruct (get_col_spec (@binned XF d bd)) with (j := f) as (col & C1 & C2 & C3); [simpl; congruence|exact Hf|].
  assert (EN : nth_error (map (fun j => match m_get_col (@binned XF d bd) j with Some c => c | None => [] end) (seq 0 (m_cols d))) f = Some col)
    by (rewrite nth_error_map, (nth_error_seq 0 Hf); simpl; rewrite C1; reflexivity).
  rewrite (nth_error_nth_eq _ _ _ EN). apply nth_error_nth_eq. rewrite C3 by exact Hi. exact E3.
Qed.
End BinOf.

(** *** Gradients *)
Definition preds (h : list xr -> R) (data : Matrix xr) : list xr := map (fun i => Fin (h (row_of data i))) (seq 0 (m_rows data)).

Lemma map_seq_nth : forall A (f : nat -> A) n i d, (i < n)%nat -> nth i (map f (seq 0 n)) d = f i.
Proof.
  intros A f n i d Hi. apply nth_error_nth_eq. rewrite nth_error_map, (nth_error_seq 0 Hi). reflexivity.
Qed.

Lemma grads_by_kind : forall o data y w h, length y = m_rows data -> (forall v, In v y -> xfin v) ->
  length w = m_rows data -> (forall v, In v w -> xfin v) ->
  let gh := @calc_grad_hess XF o y (preds h data) w in
  forall i, (i < m_rows data)%nat ->
    gR (fst gh) i = weight_at w i * grad_R o (snd (kind_of data y i)) 1 (h (fst (kind_of data y i))) /\
    hR (snd gh) i = weight_at w i * hess_R o (snd (kind_of data y i)) 1 (h (fst (kind_of data y i))).
Proof.
  intros o data y w h LY FY LW FW gh i Hi.
  set (rs := map (fun i => (val (nth i y (Fin 0)), h (row_of data i), weight_at w i)) (seq 0 (m_rows data))).
  assert (EY : y = ys rs).
  { unfold ys, rs. rewrite map_map. cbn [fst snd]. rewrite (map_nth_seq _ y (Fin 0)) at 1. rewrite LY. apply map_ext_in.
    intros k Hk. apply in_seq in Hk. apply xfin_val, FY, nth_In. lia. }
  assert (EW : w = ws rs).
  { unfold ws, rs. rewrite map_map. cbn [fst snd]. rewrite (map_nth_seq _ w (Fin 0)) at 1. rewrite LW. apply map_ext_in.
    intros k Hk. apply in_seq in Hk. apply xfin_val, FW, nth_In. lia. }
  assert (EH : preds h data = yhats rs) by (unfold preds, yhats, rs; rewrite map_map; reflexivity).
  assert (EG : gh = (map (fun '(y, x, w) => Fin (grad_R o y w x)) rs, map (fun '(y, x, w) => Fin (hess_R o y w x)) rs)).
  { unfold gh. rewrite EH. rewrite EY at 1. rewrite EW at 1. apply calc_grad_hess_X. }
  rewrite EG. unfold gR, hR, gof, hof, rs. cbn [fst snd kind_of].
  change (@nth (fcar (@f32 XF))) with (@nth xr). rewrite !map_map, !map_seq_nth by auto. cbn [val].
  split; destruct o; cbn [grad_R hess_R]; ring.
Qed.

(** *** Prediction by kind *)
Lemma leaf_by_row : forall missing (data : Matrix xr) nodes i, sound_matrix missing data -> sound_tree data nodes -> (i < m_rows data)%nat ->
  exists n, @walk XF (length nodes) nodes (fun f => nth_error (row_of data i) f) missing 0 = Some n /\
    @predict_leaf XF nodes data i missing = Some n /\ xfin (n_weight n).
Proof.
  intros missing data nodes i (HI & LD & HV) (W & F & FW) Hi.
  destruct (@walk_total XF nodes (fun f => nth_error (row_of data i) f) missing W) as [n Hn].
  { intros f Hf. specialize (F f Hf). pose proof (cell_get data i f LD Hi F) as G. exists (cell data i f). split.
    - unfold row_of. rewrite nth_error_map, (nth_error_seq 0 F). reflexivity.
    - apply HV. unfold m_get in G. eapply nth_error_In; eauto. }
  exists n. split; [exact Hn|]. split.
  - unfold predict_leaf. eapply walk_mono; [|exact Hn]. cbv beta. intros f v Hv. destruct (row_nth_error _ _ _ _ Hv) as [-> Hf]. apply cell_get; auto.
  - apply walk_in in Hn. destruct Hn as [_ [j Hj]]. apply FW. eapply nth_error_In; eauto.
Qed.

Definition tree_value (missing : xr) (nodes : list (@Node XF)) (r : list xr) : R :=
  match @walk XF (length nodes) nodes (fun f => nth_error r f) missing 0 with Some n => val (n_weight n) | None => 0 end.

Lemma predict_by_row : forall missing (data : Matrix xr) nodes, sound_matrix missing data -> sound_tree data nodes ->
  @tree_predict XF nodes data missing = Some (preds (tree_value missing nodes) data).
Proof.
  intros missing data nodes SM ST.
  change (mapM (fun i => let* n := @predict_leaf XF nodes data i missing in Some (@to64 XF (n_weight n) : xr)) (@m_index xr data) =
          Some (preds (tree_value missing nodes) data)). unfold preds. rewrite (proj1 SM).
  assert (HS : forall i, In i (seq 0 (m_rows data)) -> (i < m_rows data)%nat) by (intros i Hi; apply in_seq in Hi; lia).
  revert HS. generalize (seq 0 (m_rows data)) as l. induction l as [|i l IH]; intros HS; [reflexivity|]. cbn [mapM map].
  destruct (leaf_by_row missing data nodes i SM ST) as (n & E1 & E2 & E3); [apply HS; left; auto|]. rewrite E2. cbn [bind].
  rewrite IH by (intros; apply HS; right; auto). cbn [bind].
  assert (TV : tree_value missing nodes (row_of data i) = val (n_weight n)).
  { unfold tree_value. match goal with |- match ?e with _ => _ end = _ => replace e with (Some n) by (symmetry; exact E1) end. reflexivity. }
  rewrite TV. f_equal. f_equal. apply xfin_val. exact E3.
Qed.

Lemma preds_add : forall h g data, @add_preds XF (preds h data) (preds g data) = preds (fun r => h r + g r) data.
Proof.
  intros h g data. unfold add_preds. rewrite skipn_all2 by (unfold preds; rewrite !map_length; auto). rewrite app_nil_r. unfold preds.
  induction (seq 0 (m_rows data)) as [|i l IH]; [reflexivity|]. cbn [map combine]. f_equal. exact IH.
Qed.
Lemma preds_length : forall h data, length (preds h data) = m_rows data.
Proof. intros. unfold preds. rewrite map_length, seq_length. reflexivity. Qed.
Lemma preds_fin : forall h data v, In v (preds h data) -> xfin v.
Proof. intros h data v H. apply in_map_iff in H. destruct H as (i & <- & _). eexists; reflexivity. Qed.

(** *** The loop of both fits *)
Section Fit.
Variables (E E' : @Env XF) (data data' : Matrix xr) (y w y' w' : list xr) (p : @Params XF) (bd bd' : @BinnedData XF).
Hypotheses (SP : sound_params p) (SD : sound_data p data y w) (SD' : sound_data p data' y' w') (SE : sound_env E p) (SE' : sound_env E' p).
Hypothesis HB : @bin_matrix XF (e_sorts E) data w (p_nbins p) (p_missing p) = Some bd.
Hypothesis HB' : @bin_matrix XF (e_sorts E') data' w' (p_nbins p) (p_missing p) = Some bd'.
Hypothesis NS : p_sample_method p = SNone.
Hypothesis WP : forall v, In v w -> xpos v.
Hypothesis WP' : forall v, In v w' -> xpos v.
Hypothesis FC : forall v, In v (m_data data) -> @bin_missing XF v (p_missing p) = false -> xfin v.
Hypothesis FC' : forall v, In v (m_data data') -> @bin_missing XF v (p_missing p) = false -> xfin v.
Hypothesis DI : same_distribution data y w data' y' w'.
Hypothesis GB : forall k, @gain_based XF (e_pick E k).
Hypotheses (ER : e_rng E' = e_rng E) (EP : e_pick E' = e_pick E) (EA : e_auc E' = e_auc E) (ES : e_shape E' = e_shape E).

Lemma cc_same : exists cc, jrep (b_cuts bd) cc /\ jrep (b_cuts bd') cc /\ length cc = m_cols data /\
  (forall c, In c cc -> c <> [] /\ (N.of_nat (length c) <= 65536)%N) /\
  (forall f i, (f < m_cols data)%nat -> (i < m_rows data)%nat -> nth i (fcol (fcols_of data bd) f) 0%nat = bin_of (p_missing p) cc f (kind_of data y i)) /\
  (forall f i, (f < m_cols data)%nat -> (i < m_rows data')%nat -> nth i (fcol (fcols_of data' bd') f) 0%nat = bin_of (p_missing p) cc f (kind_of data' y' i)).
Proof.
  destruct (@bin_matrix_spec XF _ _ _ _ _ _ HB) as (cc & J & L & _ & HC & LB & BC).
  destruct (@bin_matrix_spec XF _ _ _ _ _ _ HB') as (cc' & J' & L' & _ & HC' & LB' & BC').
  change (@length (list xr) cc = m_cols data) in L. change (@length (list xr) cc' = m_cols data') in L'. change (list (list xr)) in (type of cc), (type of cc').
  destruct (sd_matrix _ _ _ _ SD) as (HI & LD & HV). destruct (sd_matrix _ _ _ _ SD') as (HI' & LD' & HV').
  destruct (sp_nbins_ok _ SP) as [N1 N2].
  assert (EC : cc' = cc).
  { apply list_ext_nth. intros j. destruct (Nat.lt_ge_cases j (m_cols data)) as [Hj|Hj].
    - destruct (nth_error_lt cc (i := j)) as [c Hc]; [lia|]. destruct (nth_error_lt cc' (i := j)) as [c' Hc']; [rewrite L', (proj1 DI); auto|].
      destruct (HC _ _ Hc) as (col & C1 & C2). destruct (HC' _ _ Hc') as (col' & C1' & C2').
      assert (c' = c) as ->; [|congruence].
      eapply (cuts_same (e_sorts E) (e_sorts E') data data' y w y' w'); eauto; try apply (se_sort _ _ SE); try apply (se_sort _ _ SE');
        try apply (sd_w _ _ _ _ SD); apply (sd_w _ _ _ _ SD').
    - assert (nth_error cc j = None) as -> by (apply nth_error_None; lia). apply nth_error_None. rewrite L', (proj1 DI). auto. }
  subst cc'. exists cc. split; auto. split; auto. split; auto. split; [|split].
  - intros c Hc. apply In_nth_error in Hc. destruct Hc as [j Hj]. destruct (HC _ _ Hj) as (col & H1 & H2). split.
    + clear - H2. unfold col_cuts in H2. inv_bind H2. inv_bind H2. injection H2 as <-. destruct v0; discriminate.
    + destruct (@col_cuts_spec XF x_ord_laws (e_sorts E) col w (bin_pcts (p_nbins p)) (p_missing p) c (se_sort _ _ SE) eq_refl) as (_ & _ & _ & LL & _); auto.
      * intros x Hx. apply (o_lt_le _ x_ord_laws). apply in_map_iff in Hx. destruct Hx as ([v v'] & <- & Hv). unfold observed in Hv.
        apply filter_In in Hv. destruct Hv as [Hv NM]. apply in_combine_l in Hv.
        assert (IN : In v (m_data data)).
        { apply In_nth_error in Hv. destruct Hv as [k Hk]. unfold m_get_col, m_get_col_slice in H1.
          pose proof (slice_Some _ _ _ H1) as (_ & _ & HL & _). assert (Hlt := nth_error_Some_lt _ _ Hk).
          rewrite (slice_nth _ _ _ H1) in Hk by lia. eapply nth_error_In; eauto. }
        apply (sd_max _ _ _ _ SD); auto. destruct (@is_missing_valid XF v (p_missing p) (HV _ IN)) as [b Hb].
        cbn [fst] in NM. rewrite (@is_missing_bin XF x_ord_laws _ _ _ Hb) in NM. destruct b; [discriminate|]. exact Hb.
      * unfold bin_pcts in LL. rewrite map_length, seq_length in LL. clear - LL N2. lia.
  - intros f i Hf Hi. apply bins_by_kind; auto.
  - intros f i Hf Hi. apply bins_by_kind; auto. rewrite (proj1 DI); auto.
Qed.

Lemma sampled : forall dd yy ww ee bb h, sound_data p dd yy ww -> sound_env ee p ->
  @bin_matrix XF (e_sorts ee) dd ww (p_nbins p) (p_missing p) = Some bb ->
  let gh := @calc_grad_hess XF (p_objective p) yy (preds h dd) ww in sound_sample dd p (m_index dd) (fst gh) (snd gh).
Proof.
  intros dd yy ww ee bb h D EE B gh.
  destruct (grads_sound ee dd yy ww bb p D B (preds h dd) (preds_length h dd) (preds_fin h dd)) as [SG RT].
  destruct (sample_sound ee dd yy ww p SP D EE 0%nat _ _ SG RT) as (c & g2 & h2 & n2 & SI & SS).
  unfold sample_index in SI. rewrite NS in SI. injection SI as <- <- <- <-. exact SS.
Qed.

Lemma tree_same : forall h i n cols n', @column_sample XF E p n (m_cols data) = (cols, n') ->
  let gh := @calc_grad_hess XF (p_objective p) y (preds h data) w in
  let gh' := @calc_grad_hess XF (p_objective p) y' (preds h data') w' in
  exists nodes st st', sound_tree data nodes /\ sound_tree data' nodes /\
    @tree_fit XF (p_grow_policy p) (e_pick E i) (splitter_of p)
      (mkTrain (matrix_new (b_data bd) (m_rows data) (m_cols data)) (b_cuts bd) (fst gh) (snd gh) cols) (m_index data)
      (p_max_leaves p) (p_max_depth p) (p_sample_method p) = Some (nodes, st) /\
    @tree_fit XF (p_grow_policy p) (e_pick E' i) (splitter_of p)
      (mkTrain (matrix_new (b_data bd') (m_rows data') (m_cols data')) (b_cuts bd') (fst gh') (snd gh') cols) (m_index data')
      (p_max_leaves p) (p_max_depth p) (p_sample_method p) = Some (nodes, st').
Proof.
  intros h i n cols n' CS gh gh'.
  assert (CS' : @column_sample XF E' p n (m_cols data') = (cols, n')).
  { unfold column_sample in *. rewrite ER, (proj1 DI). exact CS. }
  pose proof (sampled data y w E bd h SD SE HB) as SS. pose proof (sampled data' y' w' E' bd' h SD' SE' HB') as SS'.
  cbv zeta in SS, SS'. fold gh in SS. fold gh' in SS'.
  destruct (step_tree E data y w bd p SP SD SE HB i _ _ _ _ _ _ SS CS) as (nodes & st & HF & ST).
  destruct (step_tree E' data' y' w' bd' p SP SD' SE' HB' i _ _ _ _ _ _ SS' CS') as (nodes' & st' & HF' & ST').
  pose proof (trained_step E data y w bd p SP SD SE HB _ _ _ _ _ _ SS CS) as TD.
  pose proof (trained_step E' data' y' w' bd' p SP SD' SE' HB' _ _ _ _ _ _ SS' CS') as TD'.
  destruct cc_same as (cc & J & J' & L & NE & BK & BK').
  destruct (sd_matrix _ _ _ _ SD) as (HI & LD & HV). destruct (sd_matrix _ _ _ _ SD') as (HI' & LD' & HV').
  destruct (@bin_matrix_spec XF _ _ _ _ _ _ HB) as (_ & _ & _ & _ & _ & LB & _).
  destruct (@bin_matrix_spec XF _ _ _ _ _ _ HB') as (_ & _ & _ & _ & _ & LB' & _).
  assert (CB : forall c, In c cols -> (c < m_cols data)%nat) by exact (td_cols_max _ _ _ _ _ _ _ _ _ _ TD).
  destruct (td_mlw _ _ _ _ _ _ _ _ _ _ TD) as (mlw & ML & MP).
  destruct (sd_y _ _ _ _ SD) as [LY FY]. destruct (sd_y _ _ _ _ SD') as [LY' FY'].
  destruct (sd_w _ _ _ _ SD) as [LW FW]. destruct (sd_w _ _ _ _ SD') as [LW' FW'].
  assert (PW : forall i, (i < m_rows data)%nat -> 0 < weight_at w i).
  { intros k Hk. unfold weight_at. destruct (WP (nth k w (Fin 0))) as (r & -> & Pr); [apply nth_In; lia|]. exact Pr. }
  assert (PW' : forall i, (i < m_rows data')%nat -> 0 < weight_at w' i).
  { intros k Hk. unfold weight_at. destruct (WP' (nth k w' (Fin 0))) as (r & -> & Pr); [apply nth_In; lia|]. exact Pr. }
  assert (EN : nodes' = nodes); [|exists nodes, st, st'; rewrite EN in *; auto].
  rewrite HI in HF, TD. rewrite HI' in HF', TD'. rewrite EP in HF'.
  refine (tree_sim (splitter_of p) (@mkTrain XF (@binned XF data bd) (b_cuts bd) (fst gh) (snd gh) cols)
     (@mkTrain XF (@binned XF data' bd') (b_cuts bd') (fst gh') (snd gh') cols) (p_max_depth p) (fcols_of data bd) (fcols_of data' bd') cc
     (@hist_inputs_of XF data bd cc _ _ cols J L _ _ _ _ _ _) (@hist_inputs_of XF data' bd' cc _ _ cols J' _ _ _ _ _ _ _) eq_refl
     (td_grad_fin _ _ _ _ _ _ _ _ _ _ TD) (td_hess_fin _ _ _ _ _ _ _ _ _ _ TD) (td_grad_fin _ _ _ _ _ _ _ _ _ _ TD') (td_hess_fin _ _ _ _ _ _ _ _ _ _ TD')
     (fun c Hc => proj2 (NE c Hc)) mlw ML MP kind (kind_of data y) (kind_of data' y') (weight_at w) (weight_at w') (bin_of (p_missing p) cc)
     (fun k => grad_R (p_objective p) (snd k) 1 (h (fst k))) (fun k => hess_R (p_objective p) (snd k) 1 (h (fst k)))
     _ _ _ _ PW PW' (p_sample_method p) (p_grow_policy p) (e_pick E i) (p_max_leaves p) nodes st nodes' st' (GB i) NS _ _ _ HF HF').
  all: cbn [tr_cols tr_grad tr_hess tr_data binned matrix_new m_rows].
  - rewrite LB. exact LD.
  - intros c Hc. apply NE; auto.
  - exact (td_cols _ _ _ _ _ _ _ _ _ _ TD).
  - exact CB.
  - exact (td_grad _ _ _ _ _ _ _ _ _ _ TD).
  - exact (td_hess _ _ _ _ _ _ _ _ _ _ TD).
  - exact (eq_trans L (eq_sym (proj1 DI))).
  - rewrite LB'. exact LD'.
  - intros c Hc. apply NE; auto.
  - exact (td_cols _ _ _ _ _ _ _ _ _ _ TD').
  - exact (td_cols_max _ _ _ _ _ _ _ _ _ _ TD').
  - exact (td_grad _ _ _ _ _ _ _ _ _ _ TD').
  - exact (td_hess _ _ _ _ _ _ _ _ _ _ TD').
  - intros f k Hf Hk. apply BK; auto.
  - intros f k Hf Hk. apply BK'; auto.
  - apply (grads_by_kind (p_objective p) data y w h); auto. intros v Hv. apply xnonneg_fin; auto.
  - apply (grads_by_kind (p_objective p) data' y' w' h); auto. intros v Hv. apply xnonneg_fin; auto.
  - exact (distribution_sums _ _ _ _ _ _ DI).
  - intros root HR. eapply root_sums_ok; [exact TD|exact HR].
  - intros root HR. eapply root_sums_ok; [exact TD'|exact HR].
Qed.

Record LR (l l' : @Loop XF) : Prop := mkLR {
  lr_booster : l_booster l' = l_booster l; lr_par : gb_params (l_booster l) = p;
  lr_evals : l_evals l' = l_evals l; lr_best : l_best_metric l' = l_best_metric l;
  lr_rng : l_rng l' = l_rng l; lr_stop : l_stop l' = l_stop l;
  lr_preds : exists h, l_yhat l = preds h data /\ l_yhat l' = preds h data' /\
    (l_stop l = false -> (l_grad l, l_hess l) = @calc_grad_hess XF (p_objective p) y (preds h data) w /\
       (l_grad l', l_hess l') = @calc_grad_hess XF (p_objective p) y' (preds h data') w') }.

Lemma eval_loop_env : forall nodes i n sets j s, @eval_loop XF E' p nodes i j n sets s = @eval_loop XF E p nodes i j n sets s.
Proof.
  intros nodes i n sets. induction sets as [|[[[d ey] ew] yh] sets IH]; intros j s; cbn [eval_loop]; auto. rewrite ES, EA.
  destruct (update_predictions _ _ _ _ _); cbn [bind]; auto. destruct (metric_fn _ _ _ _ _); cbn [bind]; auto. rewrite IH. reflexivity.
Qed.

Lemma update_by_row : forall dd sh h nodes, sound_matrix (p_missing p) dd -> sound_tree dd nodes ->
  @update_predictions XF p sh (preds h dd) nodes dd = Some (preds (fun r => h r + tree_value (p_missing p) nodes r) dd).
Proof.
  intros dd sh h nodes SM ST. rewrite (@update_serial XF).
  match goal with |- bind ?e _ = _ => replace e with (Some (preds (tree_value (p_missing p) nodes) dd)) by (symmetry; exact (predict_by_row (p_missing p) dd nodes SM ST)) end.
  cbn [bind]. f_equal. exact (preds_add h (tree_value (p_missing p) nodes) dd).
Qed.

Lemma column_env : forall n, @column_sample XF E' p n (@m_cols xr data') = @column_sample XF E p n (@m_cols xr data).
Proof. intros n. rewrite (proj1 DI). unfold column_sample. rewrite ER. reflexivity. Qed.

Lemma step_same : forall i l l' l2, LR l l' -> l_stop l = false -> @boost_step XF E data y w bd i l = Some l2 ->
  exists l2', @boost_step XF E' data' y' w' bd' i l' = Some l2' /\ LR l2 l2'.
Proof.
  intros i l l' l2 [R1 R2 R3 R4 R5 R6 (h & Y & Y' & G)] ST H. destruct (G ST) as [G1 G1']. clear G.
  unfold boost_step in *. rewrite R1, R3, R4, R5, R6, Y', R2. rewrite R2, Y in H. rewrite ST in *.
  unfold sample_index in *. rewrite NS in *. cbn [bind] in *.
  match type of H with context [@column_sample ?a ?b ?c ?d ?e] => destruct (@column_sample a b c d e) as [cols n'] eqn:CS end.
  match goal with |- context [@column_sample ?a ?b ?c ?d ?e] =>
    replace (@column_sample a b c d e) with (cols, n') by (symmetry; exact (eq_trans (column_env (l_rng l)) CS)) end.
  destruct (tree_same h i (l_rng l) cols n' CS) as (nodes & st & st' & SN & SN' & F & F').
  rewrite <- G1 in F. rewrite <- G1' in F'. cbn [fst snd] in F, F'. rewrite NS in F, F'.
  match type of H with bind ?e _ = _ => replace e with (Some (nodes, st)) in H by (symmetry; exact F) end.
  cbv beta iota.
  match goal with |- context [@tree_fit ?a1 ?a2 ?a3 ?a4 ?a5 ?a6 ?a7 ?a8 ?a9] =>
    replace (@tree_fit a1 a2 a3 a4 a5 a6 a7 a8 a9) with (Some (nodes, st')) by (symmetry; exact F') end.
  cbn [bind] in *.
  match type of H with bind ?e _ = _ => replace e with (Some (preds (fun r => h r + tree_value (p_missing p) nodes r) data)) in H
    by (symmetry; exact (update_by_row data _ h nodes (sd_matrix _ _ _ _ SD) SN)) end.
  match goal with |- context [@update_predictions ?a1 ?a2 ?a3 ?a4 ?a5 ?a6] =>
    replace (@update_predictions a1 a2 a3 a4 a5 a6) with (Some (preds (fun r => h r + tree_value (p_missing p) nodes r) data'))
    by (symmetry; exact (update_by_row data' _ h nodes (sd_matrix _ _ _ _ SD') SN')) end.
  cbn [bind] in *.
  assert (EV : forall sets s, @eval_loop XF E' p nodes i 0 (length sets) sets s = @eval_loop XF E p nodes i 0 (length sets) sets s)
    by (intros; apply eval_loop_env).
  match type of H with bind ?e _ = _ => match goal with |- exists _, bind ?e' _ = _ /\ _ => assert (EE : e' = e) end end.
  { destruct (l_evals l) as [sets|]; cbv zeta; [|reflexivity].
    match goal with |- context [@eval_loop ?a1 E' ?a3 ?a4 ?a5 ?a6 ?a7 ?a8 ?a9] =>
       replace (@eval_loop a1 E' a3 a4 a5 a6 a7 a8 a9) with (@eval_loop a1 E a3 a4 a5 a6 a7 a8 a9) by (symmetry; exact (EV _ _)) end. reflexivity. }
  rewrite EE. clear EE EV. apply bind_Some in H. destruct H as [[[hist evals] s] [EV H]]. rewrite EV. cbn [bind].
  match type of H with (let '(_, _) := ?e in _) = _ => destruct e as [g2 h2] eqn:EG end.
  match goal with |- context [if s_stop s then ?a else ?b] => destruct (if s_stop s then a else b) as [g2' h2'] eqn:EG' end.
  injection H as <-. eexists. split; [reflexivity|]. constructor; cbn [l_booster l_evals l_best_metric l_rng l_stop l_yhat l_grad l_hess gb_params]; auto.
  exists (fun r => h r + tree_value (p_missing p) nodes r). split; auto. split; auto. intros SS. rewrite SS in EG, EG'. split; [rewrite <- EG|rewrite <- EG']; reflexivity.
Qed.

Lemma loop_same : forall is l l' l2, LR l l' -> l_stop l = false -> @boost_loop XF E data y w bd is l = Some l2 ->
  exists l2', @boost_loop XF E' data' y' w' bd' is l' = Some l2' /\ LR l2 l2'.
Proof.
  induction is as [|i is IH]; intros l l' l2 R ST H; cbn [boost_loop] in *.
  - injection H as <-. eauto.
  - inv_bind H. destruct (step_same i l l' _ R ST E0) as (l3' & S1 & S2). rewrite S1. cbn [bind]. rewrite (lr_stop _ _ S2).
    destruct (l_stop v) eqn:EV; [injection H as <-; eauto|]. eapply IH; eauto.
Qed.
End Fit.

(** *** Whole fits *)
Lemma init_same : forall o (data data' : Matrix xr) (y w y' w' : list xr),
  length y = m_rows data -> length w = m_rows data -> length y' = m_rows data' -> length w' = m_rows data' ->
  (forall v, In v y -> xfin v) -> (forall v, In v w -> xfin v) -> (forall v, In v y' -> xfin v) -> (forall v, In v w' -> xfin v) ->
  same_distribution data y w data' y' w' -> @calc_init XF o y' w' = @calc_init XF o y w.
Proof.
  intros o data data' y w y' w' LY LW LY' LW' FY FW FY' FW' DI.
  assert (G : forall (d : Matrix xr) (a b : list xr), length a = m_rows d -> length b = m_rows d -> (forall v, In v a -> xfin v) -> (forall v, In v b -> xfin v) ->
    @init_sums XF a b = Some (Fin (sumR (map (fun i => weight_at b i * snd (kind_of d a i)) (seq 0 (m_rows d)))),
                              Fin (sumR (map (fun i => weight_at b i * 1) (seq 0 (m_rows d)))))).
  { intros d a b LA LB FA FB. set (l := map (fun i => (val (nth i a (Fin 0)), weight_at b i)) (seq 0 (m_rows d))).
    assert (EA : a = map (fun q => Fin (fst q)) l).
    { unfold l. rewrite map_map. cbn [fst]. rewrite (map_nth_seq _ a (Fin 0)) at 1. rewrite LA. apply map_ext_in. intros i Hi. apply in_seq in Hi.
      apply xfin_val. apply FA. apply nth_In. lia. }
    assert (EB : b = map (fun q => Fin (snd q)) l).
    { unfold l. rewrite map_map. cbn [snd]. rewrite (map_nth_seq _ b (Fin 0)) at 1. rewrite LB. apply map_ext_in. intros i Hi. apply in_seq in Hi.
      apply xfin_val. apply FB. apply nth_In. lia. }
    refine (eq_trans (f_equal2 (@init_sums XF) EA EB) (eq_trans (init_sums_X l) _)). unfold l. rewrite !map_map.
    do 2 f_equal; f_equal; f_equal; apply map_ext; intros i; cbn [fst snd kind_of]; ring. }
  unfold calc_init.
  match goal with |- bind ?e _ = bind ?e' _ => replace e with e'; [reflexivity|] end.
  rewrite (G data y w), (G data' y' w') by auto.
  do 2 f_equal; f_equal; [exact (distribution_sums _ _ _ _ _ _ DI snd)|exact (distribution_sums _ _ _ _ _ _ DI (fun _ => 1))].
Qed.

Theorem fit_same : forall E E' b data data' y w y' w' es base b1, let p := gb_params b in
  sound_params p -> sound_data p data y w -> sound_data p data' y' w' -> sound_env E p -> sound_env E' p ->
  p_sample_method p = SNone -> (forall v, In v w -> xpos v) -> (forall v, In v w' -> xpos v) ->
  (forall v, In v (m_data data) -> @bin_missing XF v (p_missing p) = false -> xfin v) ->
  (forall v, In v (m_data data') -> @bin_missing XF v (p_missing p) = false -> xfin v) ->
  (forall k, @gain_based XF (e_pick E k)) ->
  e_rng E' = e_rng E -> e_pick E' = e_pick E -> e_auc E' = e_auc E -> e_shape E' = e_shape E ->
  same_distribution data y w data' y' w' ->
  (if p_initialize_base_score p then @calc_init XF (p_objective p) y w else Some (gb_base_score b)) = Some (Fin base) ->
  @fit XF E b data y w es = Some (b1, None) -> @fit XF E' b data' y' w' es = Some (b1, None).
Proof.
  intros E E' b data data' y w y' w' es base b1 p SP SD SD' SE SE' NS WP WP' FC FC' GB ER EP EA ES DI HB H.
  destruct (sd_y _ _ _ _ SD) as [LY FY]. destruct (sd_y _ _ _ _ SD') as [LY' FY'].
  destruct (sd_w _ _ _ _ SD) as [LW FW]. destruct (sd_w _ _ _ _ SD') as [LW' FW'].
  assert (HB' : (if p_initialize_base_score p then @calc_init XF (p_objective p) y' w' else Some (gb_base_score b)) = Some (Fin base)).
  { destruct (p_initialize_base_score p); auto. rewrite <- HB. apply (init_same _ data data'); auto; intros v Hv; apply xnonneg_fin; auto. }
  unfold fit in *. destruct (@validate_inputs XF y w es) as [e|] eqn:EV; [injection H as _ H; discriminate|].
  assert (EV' : @validate_inputs XF y' w' es = None).
  { pose proof (valid_sound _ _ _ _ None SD' I) as V. unfold validate_inputs in *.
    destruct (@validate_not_nan_vec XF y' FieldY); [discriminate|]. destruct (@validate_positive_not_nan_vec XF w' FieldWeight); [discriminate|].
    destruct (@validate_not_nan_vec XF y FieldY); [discriminate|]. destruct (@validate_positive_not_nan_vec XF w FieldWeight); [discriminate|]. exact EV. }
  rewrite EV'. inv_bind H. injection H as <-. cut (@fit_trees XF E' b data' y' w' es = Some v); [intros ->; reflexivity|].
  destruct (bin_sound _ _ _ _ _ SP SD SE) as [bd Hbd]. destruct (bin_sound _ _ _ _ _ SP SD' SE') as [bd' Hbd'].
  unfold fit_trees, fit_start in *. fold (@start_booster XF b) in *.
  assert (PP : gb_params (@start_booster XF b) = p) by (unfold start_booster; destruct (gb_trees b); reflexivity).
  assert (PB : gb_base_score (@start_booster XF b) = gb_base_score b) by (unfold start_booster; destruct (gb_trees b); reflexivity).
  rewrite PP, PB in *.
  match type of E0 with context [@calc_init ?a1 ?a2 ?a3 ?a4] =>
    replace (if p_initialize_base_score p then @calc_init a1 a2 a3 a4 else Some (gb_base_score b)) with (@Some xr (Fin base)) in E0 by (symmetry; exact HB) end.
  match goal with |- context [@calc_init ?a1 ?a2 ?a3 ?a4] =>
    replace (if p_initialize_base_score p then @calc_init a1 a2 a3 a4 else Some (gb_base_score b)) with (@Some xr (Fin base)) by (symmetry; exact HB') end.
  cbn [bind] in *.
  assert (RP : forall (d : Matrix xr) (a : list xr), length a = m_rows d -> repeat (Fin base) (length a) = preds (fun _ => base) d).
  { intros d a LA. rewrite LA. unfold preds. generalize (m_rows d) as n. induction n as [|n IH]; [reflexivity|].
    cbn [repeat seq map]. rewrite IH, <- seq_shift, map_map. reflexivity. }
  pose proof (RP data y LY) as R1. pose proof (RP data' y' LY') as R2.
  match type of E0 with context [@repeat ?a ?b ?c] => replace (@repeat a b c) with (preds (fun _ => base) data) in E0 by (symmetry; exact R1) end.
  match goal with |- context [@calc_grad_hess ?a1 ?a2 ?a3 (@repeat ?a ?b ?c) ?a5] => replace (@repeat a b c) with (preds (fun _ => base) data') by (symmetry; exact R2) end.
  match type of E0 with context [@calc_grad_hess ?f ?a ?b ?c ?d] => destruct (@calc_grad_hess f a b c d) as [g h] eqn:EG end.
  match goal with |- context [@calc_grad_hess ?f ?a ?b ?c ?d] => destruct (@calc_grad_hess f a b c d) as [g' h'] eqn:EG' end.
  match type of E0 with context [@bin_matrix ?a1 ?a2 ?a3 ?a4 ?a5 ?a6] => replace (@bin_matrix a1 a2 a3 a4 a5 a6) with (Some bd) in E0 by (symmetry; exact Hbd) end.
  match goal with |- context [@bin_matrix ?a1 ?a2 ?a3 ?a4 ?a5 ?a6] => replace (@bin_matrix a1 a2 a3 a4 a5 a6) with (Some bd') by (symmetry; exact Hbd') end.
  cbn [bind] in *. inv_bind E0. injection E0 as <-.
  match type of E1 with boost_loop _ _ _ _ _ _ ?l0 = _ => match goal with |- bind (boost_loop _ _ _ _ _ _ ?l0') _ = _ =>
    destruct (loop_same E E' data data' y w y' w' p bd bd' SP SD SD' SE SE' Hbd Hbd' NS WP WP' FC FC' DI GB ER EP EA ES
      (seq 0 (p_iterations p)) l0 l0' v0) as (l2 & L1 & L2) end end; auto.
  - constructor; cbn [l_booster l_evals l_best_metric l_rng l_stop l_yhat l_grad l_hess gb_params]; auto. exists (fun _ => base).
    split; auto.
  - fold p. rewrite L1. cbn [bind]. f_equal. exact (lr_booster _ _ _ _ _ _ _ _ _ L2).
Qed.
