(** Binning followed by growing a tree, in exact arithmetic: prediction sends every training row
    to the leaf it was counted in, and every node's hessian sum is that of the rows passing it. *)
From Coq Require Import List Arith NArith Lia Bool Permutation Reals Lra Sorting.
From Verif Require Import Prelude Float FloatX FloatLaws Data DataProofs OrdProofs Utils UtilsX Binning BinningProofs CutProofs BinMatrix
  Histogram HistogramProofs HistogramX PivotProofs Pivot3Proofs Node Splitter SplitProofs EvalProofs Tree GrowProofs GrowInv
  GrowStep TreeWf TreeProofs FitProofs FitSplits PathProofs RouteX.
Import ListNotations.

Section Bin.
Context {FS : Floats}.
Variable OL : OrdLaws (@f64 FS).
Notation FM := (fmax (@f64 FS)).
Notation fl x y := (fle (@f64 FS) x y = true).
Notation ft x y := (flt (@f64 FS) x y = true).

(** The binned matrix and its cuts are what the histograms need. *)
Lemma bin_hist_inputs : forall S data sw nbins missing bd grad hess cols, SortSpec S -> fisnan f64 FM = false ->
  bin_matrix S data sw nbins missing = Some bd ->
  length (m_data data) = m_rows data * m_cols data ->
  (forall j x, In x (col_values data sw missing j) -> fl x FM) ->
  StronglySorted lt cols -> (forall c, In c cols -> c < m_cols data) ->
  length grad = m_rows data -> length hess = m_rows data ->
  exists fcols ccols, hist_inputs (binned data bd) (b_cuts bd) grad hess cols fcols ccols /\
    forall c, In c ccols -> length c <= nbins + 2.
Proof.
  intros S data sw nbins missing bd grad hess cols SS NM H LD HV SO HB LG LH.
  destruct (bin_matrix_spec _ _ _ _ _ _ H) as (ccols & J & LC & _ & HC & LB & _).
  exists (map (fun j => match m_get_col (binned data bd) j with Some c => c | None => [] end) (seq 0 (m_cols data))), ccols.
  assert (IN : forall c, In c ccols -> exists j col, m_get_col data j = Some col /\
            col_cuts S col sw (bin_pcts nbins) missing = Some c).
  { intros c Hc. apply In_nth_error in Hc. destruct Hc as [j Hj]. destruct (HC _ _ Hj) as (col & H1 & H2). eauto. }
  split; [constructor; auto|].
  - rewrite map_length, seq_length. reflexivity.
  - intros j f Hf. rewrite nth_error_map in Hf.
    destruct (nth_error (seq 0 (m_cols data)) j) as [j'|] eqn:Ej; [|discriminate].
    assert (Hj : j < m_cols data) by (apply nth_error_Some_lt in Ej; rewrite seq_length in Ej; auto).
    rewrite (nth_error_seq 0 Hj) in Ej. injection Ej as <-. simpl in Hf.
    destruct (get_col_spec (binned data bd)) with (j := j) as (col & E1 & E2 & _); auto.
    { simpl. congruence. }
    rewrite E1 in Hf. injection Hf as <-. auto.
  - intros c Hc. destruct (IN c Hc) as (j & col & _ & H2). unfold col_cuts in H2. inv_bind H2. inv_bind H2.
    injection H2 as <-. destruct v0; discriminate.
  - intros c Hc. destruct (IN c Hc) as (j & col & H1 & H2).
    destruct (col_cuts_spec OL S col sw (bin_pcts nbins) missing c SS NM) as (_ & _ & _ & L & _); auto.
    + intros x Hx. apply (HV j). unfold col_values. rewrite H1. auto.
    + unfold bin_pcts in L. rewrite map_length, seq_length in L. auto.
Qed.

Variable NL : NonnegLaws (@f64 FS).
Hypothesis zero_nan : fisnan f64 (fzero (@f64 FS)) = false.

(** One cell: its bin is 0 exactly when the value is missing, and otherwise the bin decides every
    comparison with a cut. *)
Lemma bin_cell_raw : forall S data sw nbins missing bd grad hess cols fcols ccols i f, SortSpec S -> fisnan f64 FM = false ->
  bin_matrix S data sw nbins missing = Some bd -> nbins <> 0 ->
  length (m_data data) = m_rows data * m_cols data -> length sw = m_rows data ->
  (forall j x, In x (col_values data sw missing j) -> ft x FM) ->
  (forall w, In w sw -> fl (fzero f64) w /\ ft w (finf f64)) ->
  (forall j, col_values data sw missing j = [] \/ exists w, In w (col_weights data sw missing j) /\ ft (fzero f64) w) ->
  hist_inputs (binned data bd) (b_cuts bd) grad hess cols fcols ccols ->
  i < m_rows data -> f < m_cols data ->
  exists v m, m_get data i f = Some v /\ is_missing v missing = Some m /\
    (m = true <-> nth i (fcol fcols f) 0 = 0) /\
    (m = false -> forall k c, nth_error (ccol ccols f) k = Some c -> (nth i (fcol fcols f) 0 < k + 1 <-> ft v c)).
Proof.
  intros S data sw nbins missing bd grad hess cols fcols ccols i f SS NM H NB LD LW HV HW HP HI Hi Hf.
  destruct (get_in_range data LD i f Hi Hf) as [v Hv].
  assert (HV' : forall j x, In x (col_values data sw missing j) -> fl x FM).
  { intros j x Hx. apply (o_lt_le _ OL). eauto. }
  destruct (bin_cell OL _ _ _ _ _ _ _ _ _ SS NM H Hi Hv (HV' f)) as (col & cc & b & Hcol & Hcc & H1 & H2 & H3 & N & SL).
  assert (Hci : nth_error col i = Some v).
  { destruct (get_col_spec data LD f Hf) as (col' & E1 & _ & E2). rewrite Hcol in E1. injection E1 as <-.
    rewrite E2; auto. }
  destruct (nth_error_lt sw (i := i)) as [w Hw]; [lia|].
  assert (Hin : In (v, w) (combine col sw)) by (eapply nth_error_In; apply nth_error_combine; eauto).
  assert (exists m, is_missing v missing = Some m) as [m Hm].
  { unfold col_cuts in Hcc. inv_bind Hcc. destruct (split_missing_spec OL _ _ _ _ E) as [_ HA]. apply (HA (v, w)); auto. }
  assert (Hb : nth i (fcol fcols f) 0 = b).
  { destruct (fcol_ok _ _ _ _ _ _ _ HI f Hf) as [F1 F2].
    destruct (get_col_spec (binned data bd)) with (j := f) as (col' & E1 & _ & E2); auto.
    { simpl. destruct (bin_matrix_spec _ _ _ _ _ _ H) as (? & _ & _ & _ & _ & LB & _). congruence. }
    rewrite F1 in E1. injection E1 as E1. rewrite <- E1 in E2. apply nth_error_nth_eq. rewrite E2; auto. }
  assert (Hc : ccol ccols f = cc).
  { destruct (ccol_ok _ _ _ _ _ _ _ HI f Hf) as [F1 _]. congruence. }
  exists v, m. split; auto. split; auto. rewrite Hb, Hc. assert (Hbm : bin_missing v missing = m) by (eapply is_missing_bin; eauto).
  destruct (binned_split_agrees OL _ _ _ _ _ _ _ _ _ SS NM H Hi Hv (HV' f)) as (cc' & b' & G1 & G2 & G3 & G4).
  rewrite H1 in G1. injection G1 as <-. rewrite H2 in G2. injection G2 as <-. rewrite Hbm in *.
  split; auto. split; [auto|]. intros Hb0. destruct m; auto. exfalso.
  assert (Vin : In (v, w) (observed col sw missing)).
  { apply filter_In. split; auto. simpl. rewrite Hbm. reflexivity. }
  destruct (HP f) as [HE|HE].
  { unfold col_values in HE. rewrite Hcol in HE. apply (in_map fst) in Vin. rewrite HE in Vin. auto. }
  destruct (bin_zero_iff_missing OL NL zero_nan _ _ _ _ _ _ i f v SS NM H NB LW) as (cc' & b' & G1' & G2' & G3' & G4'); auto; [|exact (HV f)|].
  { intros w' Hw'. apply HW. unfold col_weights in Hw'. rewrite Hcol in Hw'. apply in_map_iff in Hw'.
    destruct Hw' as ((v', w'') & <- & Hf'). apply filter_In in Hf'. simpl. eapply in_combine_r. apply Hf'. }
  rewrite H2 in G2'. injection G2' as <-. destruct (G4' Hbm). lia.
Qed.
End Bin.

(** With no monotone constraints and missing values imputed, every node's weight is the weight of
    its own sums. *)
Section Weights.
Context {FS : Floats}.
Variables (s : Splitter) (t : Train) (max_depth : nat) (p : SplitParams).
Hypothesis Hs : s = Imputer p.
Hypothesis Hc : forall f, get_constraint s f = None.
Notation own_weight n :=
  (sn_weight n = weight (sp_l1 p) (sp_l2 p) (sp_max_delta_step p) (sn_grad n) (sn_hess n)).

Lemma imputer_weights : forall sn si, best_split s sn (tr_cols t) = Some (Some si) ->
  ni_weight (si_left si) = weight (sp_l1 p) (sp_l2 p) (sp_max_delta_step p) (ni_grad (si_left si)) (ni_cover (si_left si)) /\
  ni_weight (si_right si) = weight (sp_l1 p) (sp_l2 p) (sp_max_delta_step p) (ni_grad (si_right si)) (ni_cover (si_right si)).
Proof.
  intros sn si HB. destruct (best_split_admissible _ _ _ _ HB) as (k & j & A).
  destruct A as [f missing bins bin Hf Hcol Hb HC].
  destruct (candidate_inv _ _ _ _ _ _ _ _ _ HC) as (l & r & m & HE & _ & _ & _ & _ & F5 & F6 & _).
  rewrite F5, F6. rewrite Hs in HE. cbn [evaluate_split] in HE. injection HE as HE.
  rewrite <- Hs, Hc in HE. apply imputer_inv in HE.
  remember (l, r, m) as e. destruct HE; injection Heqe as <- <- <-; simpl;
    unfold ml_weight, mr_weight, cweight, constrained_weight; auto.
Qed.

Lemma gvalid_weights : forall g, gvalid s t max_depth g -> own_weight (groot g) ->
  forall x, In x (gall g) -> own_weight (groot x).
Proof.
  induction 1 as [n rows L|p' n rows si mr l r sub lh rh E1 M1 L1 D1 LR PR SP N1 N2 RL RR VL IHl VR IHr
                 |n rows si m l r sub mh lh rh mi ml M1 L1 D1 LR PR SP N1 N2 N3 RM RL RR VM IHm VL IHl VR IHr];
    intros W x Hx; simpl in Hx.
  - destruct Hx as [<-|[]]; auto.
  - destruct Hx as [<-|Hx]; auto. destruct SP as [f HB _ _ _ _]. destruct (imputer_weights _ _ HB) as [WL WR].
    rewrite in_app_iff in Hx. destruct Hx as [Hx|Hx]; [apply IHl|apply IHr]; auto; [rewrite RL|rewrite RR]; simpl; auto.
  - destruct SP as [? ? ? ? ? ? HH]. congruence.
Qed.

(** Each node of a fitted tree carries learning_rate times the weight of its sums. *)
Theorem fit_weights : forall policy pick index max_leaves sm nodes st,
  tree_fit policy pick s t index max_leaves max_depth sm = Some (nodes, st) ->
  forall i n, nth_error nodes i = Some n -> exists sn, sn_num sn = i /\ sn_hess sn = n_hess n /\
    n_weight n = (weight (sp_l1 p) (sp_l2 p) (sp_max_delta_step p) (sn_grad sn) (n_hess n) * sp_learning_rate p)%f32.
Proof.
  intros policy pick index max_leaves sm nodes st H i n Hi.
  destruct (fit_account _ _ _ _ _ _ _ _ _ _ H) as (root & g & HR & I & _ & _ & CL & _).
  rewrite Hs in CL. injection CL as <-.
  destruct (INV_node _ _ _ _ _ _ _ I _ _ Hi) as (x & Hx & E1 & E2 & V).
  destruct (gnode_facts s t max_depth x V) as (_ & _ & F1 & F2 & _).
  exists (groot x). rewrite E2. split; auto. split; auto. rewrite F2, F1.
  rewrite (gvalid_weights g (iv_valid _ _ _ _ _ _ _ I)) with (x := x); auto; [rewrite Hs; reflexivity|].
  rewrite (iv_root _ _ _ _ _ _ _ I). unfold root_node in HR. inv_bind HR. destruct v as [[gs hs] so].
  inv_bind HR. injection HR as <-. simpl. rewrite Hs. reflexivity.
Qed.
End Weights.

Local Open Scope R_scope.

(** A tree grown on a binned matrix, with the calls and shapes fit() uses. *)
Record trained (S : Sorts) (data : Matrix xr) (sw : list xr) (nbins : nat) (missing : xr) (bd : @BinnedData XF)
    (s : @Splitter XF) (t : @Train XF) (index : list nat) (sm : SampleMethod) : Prop := mkTrained {
  td_sort : @SortSpec XF S;
  td_bin : @bin_matrix XF S data sw nbins missing = Some bd;
  td_nbins : (nbins <> 0)%nat;
  td_nbins_max : (N.of_nat nbins <= 65534)%N;
  td_shape : length (m_data data) = (m_rows data * m_cols data)%nat;
  td_sw : length sw = m_rows data;
  td_values : forall j x, In x (@col_values XF data sw missing j) -> xlt x xmax = true;
  td_weights : forall w, In w sw -> xle (Fin 0) w = true /\ xlt w PInf = true;
  td_positive : forall j, @col_values XF data sw missing j = [] \/
                  exists w, In w (@col_weights XF data sw missing j) /\ xlt (Fin 0) w = true;
  td_data : tr_data t = @binned XF data bd;
  td_cuts : tr_cuts t = b_cuts bd;
  td_cols : StronglySorted Nat.lt (tr_cols t);
  td_cols_max : forall c, In c (tr_cols t) -> (c < m_cols data)%nat;
  td_grad : length (tr_grad t) = m_rows data;
  td_hess : length (tr_hess t) = m_rows data;
  td_grad_fin : forall x : xr, In x (tr_grad t) -> xfin x;
  td_hess_fin : forall x : xr, In x (tr_hess t) -> xfin x;
  td_index : forall i, In i index -> (i < m_rows data)%nat;
  td_nosample : sm = SNone -> index = seq 0 (m_rows data);
  td_mlw : exists mlw, sp_min_leaf_weight (params s) = Fin mlw /\ 0 < mlw
}.

(** *** Following one row through the ghost tree *)
Section Follow.
Variables (t : @Train XF) (fcols : list (list nat)) (ccols : list (list xr)).
Variables (data : Matrix xr) (missing : xr) (index : list nat).
Notation row i := (fun f => m_get data i f).
Hypothesis cell : forall i f, In i index -> In f (tr_cols t) ->
  exists (v : xr) m, m_get data i f = Some v /\ @is_missing XF v missing = Some m /\
    (m = true <-> nth i (fcol fcols f) 0%nat = 0%nat) /\
    (m = false -> forall k c, nth_error (@ccol XF ccols f) k = Some c ->
       ((nth i (fcol fcols f) 0 < k + 1)%nat <-> xlt v c = true)).
Notation routed := (routed t fcols ccols).

Lemma follow2 : forall n rows si mr l r i, splits_rows t ccols si rows -> In i index ->
  gpath (GB2 n rows si mr l r) (row i) missing =
  (let* q := gpath (if goes_left (si_bin si) mr (nth i (fcol fcols (si_feature si)) 0%nat) then l else r) (row i) missing in
   Some (sn_num n :: q)).
Proof.
  intros n rows si mr l r i (H1 & H2 & H3) Hi. destruct (cell i _ Hi H1) as (v & m & E1 & E2 & E3 & E4).
  cbn [gpath]. rewrite E1. cbn [bind]. rewrite E2. cbn [bind]. unfold goes_left.
  destruct (Nat.eqb_spec (nth i (fcol fcols (si_feature si)) 0%nat) 0) as [Eb|Eb].
  - assert (m = true) as -> by tauto. destruct mr; reflexivity.
  - assert (m = false) as -> by (destruct m; auto; exfalso; tauto).
    specialize (E4 eq_refl _ _ H3). replace (si_bin si - 1 + 1)%nat with (si_bin si) in E4 by lia.
    change (@flt (@f64 XF) v (si_value si)) with (xlt v (si_value si)).
    destruct (Nat.ltb_spec (nth i (fcol fcols (si_feature si)) 0%nat) (si_bin si)) as [Hl|Hl].
    + rewrite (proj1 E4 Hl). reflexivity.
    + destruct (xlt v (si_value si)); [|reflexivity]. pose proof (proj2 E4 eq_refl). lia.
Qed.

Lemma follow3 : forall n rows si m l r i, splits_rows t ccols si rows -> In i index ->
  gpath (GB3 n rows si m l r) (row i) missing =
  (let* q := gpath (match side_of (si_bin si) (nth i (fcol fcols (si_feature si)) 0%nat) with Mi => m | Le => l | Ri => r end)
               (row i) missing in
   Some (sn_num n :: q)).
Proof.
  intros n rows si ms l r i (H1 & H2 & H3) Hi. destruct (cell i _ Hi H1) as (v & m & E1 & E2 & E3 & E4).
  cbn [gpath]. rewrite E1. cbn [bind]. rewrite E2. cbn [bind]. unfold side_of.
  destruct (Nat.eqb_spec (nth i (fcol fcols (si_feature si)) 0%nat) 0) as [Eb|Eb].
  - assert (m = true) as -> by tauto. reflexivity.
  - assert (m = false) as -> by (destruct m; auto; exfalso; tauto).
    specialize (E4 eq_refl _ _ H3). replace (si_bin si - 1 + 1)%nat with (si_bin si) in E4 by lia.
    change (@flt (@f64 XF) v (si_value si)) with (xlt v (si_value si)).
    destruct (Nat.ltb_spec (nth i (fcol fcols (si_feature si)) 0%nat) (si_bin si)) as [Hl|Hl].
    + rewrite (proj1 E4 Hl). reflexivity.
    + destruct (xlt v (si_value si)); [|reflexivity]. pose proof (proj2 E4 eq_refl). lia.
Qed.

Lemma last_cons : forall (a : nat) p d, p <> [] -> last (a :: p) d = last p d.
Proof. intros a [|b p] d H; [congruence|reflexivity]. Qed.

Lemma leaf_reached : forall g, routed g -> incl (grows g) index -> forall n rows i, In (n, rows) (gleaves g) -> In i rows ->
  In i (grows g) /\ exists q, gpath g (row i) missing = Some q /\ last q 0%nat = sn_num n.
Proof.
  induction g as [n0 rows0|n0 rows0 si mr l IHl r IHr|n0 rows0 si m IHm l IHl r IHr]; intros R IN n rows i HL Hi; simpl in HL.
  - destruct HL as [HL|[]]. injection HL as <- <-. simpl. eauto.
  - destruct R as (_ & SR & P & GLl & GLr & Rl & Rr). simpl in IN.
    assert (Il : incl (grows l) index).
    { intros x Hx. apply IN. apply (Permutation_in _ (Permutation_sym P)). rewrite in_app_iff; auto. }
    assert (Ir : incl (grows r) index).
    { intros x Hx. apply IN. apply (Permutation_in _ (Permutation_sym P)). rewrite in_app_iff; auto. }
    rewrite in_app_iff in HL. cbn [grows]. destruct HL as [HL|HL].
    + destruct (IHl Rl Il _ _ _ HL Hi) as (H1 & q & H2 & H3).
      split; [apply (Permutation_in _ (Permutation_sym P)); rewrite in_app_iff; auto|].
      rewrite follow2, GLl, H2 by auto. cbn [bind]. eexists; split; [reflexivity|].
      rewrite last_cons; auto. eapply gpath_nums; eauto.
    + destruct (IHr Rr Ir _ _ _ HL Hi) as (H1 & q & H2 & H3).
      split; [apply (Permutation_in _ (Permutation_sym P)); rewrite in_app_iff; auto|].
      rewrite follow2, GLr, H2 by auto. cbn [bind]. eexists; split; [reflexivity|].
      rewrite last_cons; auto. eapply gpath_nums; eauto.
  - destruct R as (_ & SR & P & GLm & GLl & GLr & Rm & Rl & Rr). simpl in IN.
    assert (Im : incl (grows m) index).
    { intros x Hx. apply IN. apply (Permutation_in _ (Permutation_sym P)). rewrite !in_app_iff; auto. }
    assert (Il : incl (grows l) index).
    { intros x Hx. apply IN. apply (Permutation_in _ (Permutation_sym P)). rewrite !in_app_iff; auto. }
    assert (Ir : incl (grows r) index).
    { intros x Hx. apply IN. apply (Permutation_in _ (Permutation_sym P)). rewrite !in_app_iff; auto. }
    rewrite !in_app_iff in HL. cbn [grows]. destruct HL as [HL|[HL|HL]].
    + destruct (IHm Rm Im _ _ _ HL Hi) as (H1 & q & H2 & H3).
      split; [apply (Permutation_in _ (Permutation_sym P)); rewrite !in_app_iff; auto|].
      rewrite follow3, GLm, H2 by auto. cbn [bind]. eexists; split; [reflexivity|].
      rewrite last_cons; auto. eapply gpath_nums; eauto.
    + destruct (IHl Rl Il _ _ _ HL Hi) as (H1 & q & H2 & H3).
      split; [apply (Permutation_in _ (Permutation_sym P)); rewrite !in_app_iff; auto|].
      rewrite follow3, GLl, H2 by auto. cbn [bind]. eexists; split; [reflexivity|].
      rewrite last_cons; auto. eapply gpath_nums; eauto.
    + destruct (IHr Rr Ir _ _ _ HL Hi) as (H1 & q & H2 & H3).
      split; [apply (Permutation_in _ (Permutation_sym P)); rewrite !in_app_iff; auto|].
      rewrite follow3, GLr, H2 by auto. cbn [bind]. eexists; split; [reflexivity|].
      rewrite last_cons; auto. eapply gpath_nums; eauto.
Qed.

Definition gpasses (g : gtree) (k i : nat) : bool :=
  match gpath g (row i) missing with Some q => existsb (Nat.eqb k) q | None => false end.

Lemma existsb_eqb : forall k l, existsb (Nat.eqb k) l = true <-> In k l.
Proof.
  intros k l. rewrite existsb_exists. split.
  - intros (x & Hx & E). apply Nat.eqb_eq in E. subst; auto.
  - intros H. exists k. split; auto. apply Nat.eqb_refl.
Qed.

Lemma gpasses_foreign : forall g k i, ~ In k (gnums g) -> gpasses g k i = false.
Proof.
  intros g k i H. unfold gpasses. destruct (gpath g (row i) missing) as [q|] eqn:E; auto.
  apply gpath_nums in E. destruct E as [E _]. destruct (existsb (Nat.eqb k) q) eqn:Ex; auto.
  apply existsb_eqb in Ex. exfalso. apply H, E, Ex.
Qed.

Lemma routed_total : forall g, routed g -> incl (grows g) index -> forall i, In i (grows g) ->
  exists q, gpath g (row i) missing = Some q.
Proof.
  induction g as [n0 rows0|n0 rows0 si mr l IHl r IHr|n0 rows0 si m IHm l IHl r IHr]; intros R IN i Hi; [simpl; eauto| |].
  - destruct R as (_ & SR & P & GLl & GLr & Rl & Rr). simpl in IN, Hi.
    rewrite follow2 by auto. apply (Permutation_in _ P) in Hi. rewrite in_app_iff in Hi. destruct Hi as [Hi|Hi].
    + rewrite GLl by auto. destruct (IHl Rl) with (i := i) as [q Hq]; auto; [|rewrite Hq; simpl; eauto].
      intros x Hx. apply IN, (Permutation_in _ (Permutation_sym P)). rewrite in_app_iff; auto.
    + rewrite GLr by auto. destruct (IHr Rr) with (i := i) as [q Hq]; auto; [|rewrite Hq; simpl; eauto].
      intros x Hx. apply IN, (Permutation_in _ (Permutation_sym P)). rewrite in_app_iff; auto.
  - destruct R as (_ & SR & P & GLm & GLl & GLr & Rm & Rl & Rr). simpl in IN, Hi.
    rewrite follow3 by auto. apply (Permutation_in _ P) in Hi. rewrite !in_app_iff in Hi. destruct Hi as [Hi|[Hi|Hi]].
    + rewrite GLm by auto. destruct (IHm Rm) with (i := i) as [q Hq]; auto; [|rewrite Hq; simpl; eauto].
      intros x Hx. apply IN, (Permutation_in _ (Permutation_sym P)). rewrite !in_app_iff; auto.
    + rewrite GLl by auto. destruct (IHl Rl) with (i := i) as [q Hq]; auto; [|rewrite Hq; simpl; eauto].
      intros x Hx. apply IN, (Permutation_in _ (Permutation_sym P)). rewrite !in_app_iff; auto.
    + rewrite GLr by auto. destruct (IHr Rr) with (i := i) as [q Hq]; auto; [|rewrite Hq; simpl; eauto].
      intros x Hx. apply IN, (Permutation_in _ (Permutation_sym P)). rewrite !in_app_iff; auto.
Qed.

Lemma passes_step : forall g c k i n, sn_num n <> k ->
  gpath g (row i) missing = (let* q := gpath c (row i) missing in Some (sn_num n :: q)) ->
  gpasses g k i = gpasses c k i.
Proof.
  intros g c k i n Hk E. unfold gpasses. rewrite E. destruct (gpath c (row i) missing); auto. simpl.
  destruct (Nat.eqb_spec k (sn_num n)); [congruence|]. reflexivity.
Qed.

Lemma node_rows : forall g, routed g -> NoDup (gnums g) -> incl (grows g) index -> forall x, In x (gall g) ->
  Permutation (grows x) (filter (gpasses g (gnum x)) (grows g)).
Proof.
  assert (SELF : forall g, routed g -> incl (grows g) index ->
            Permutation (grows g) (filter (gpasses g (gnum g)) (grows g))).
  { intros g R IN. rewrite filter_all; auto. intros i Hi. destruct (routed_total g R IN i Hi) as [q Hq].
    unfold gpasses. rewrite Hq. apply existsb_eqb. eapply gpath_nums; eauto. }
  induction g as [n0 rows0|n0 rows0 si mr l IHl r IHr|n0 rows0 si m IHm l IHl r IHr]; intros R ND IN x Hx.
  - destruct Hx as [<-|[]]. apply SELF; auto.
  - cbn [gall] in Hx. destruct Hx as [<-|Hx]; [apply SELF; auto|].
    destruct R as (_ & SR & P & GLl & GLr & Rl & Rr). cbn [grows] in IN |- *.
    assert (Il : incl (grows l) index).
    { intros y Hy. apply IN. apply (Permutation_in _ (Permutation_sym P)). rewrite in_app_iff; auto. }
    assert (Ir : incl (grows r) index).
    { intros y Hy. apply IN. apply (Permutation_in _ (Permutation_sym P)). rewrite in_app_iff; auto. }
    cbn [gnums] in ND. inversion ND as [|? ? N1 N2]; subst. apply NoDup_app_iff in N2. destruct N2 as (N2 & N3 & N4).
    rewrite in_app_iff in N1.
    assert (FL : forall k, sn_num n0 <> k -> forall i, In i (grows l) -> gpasses (GB2 n0 rows0 si mr l r) k i = gpasses l k i).
    { intros k Hk i Hi. apply (passes_step _ _ _ _ n0); auto. rewrite follow2, GLl by auto. reflexivity. }
    assert (FR : forall k, sn_num n0 <> k -> forall i, In i (grows r) -> gpasses (GB2 n0 rows0 si mr l r) k i = gpasses r k i).
    { intros k Hk i Hi. apply (passes_step _ _ _ _ n0); auto. rewrite follow2, GLr by auto. reflexivity. }
    etransitivity; [|apply Permutation_sym, filter_perm, P]. rewrite filter_app.
    rewrite in_app_iff in Hx. destruct Hx as [Hx|Hx].
    + assert (Hn : In (gnum x) (gnums l)) by (rewrite <- gall_nums; apply in_map; auto).
      rewrite (filter_ext_in _ _ _ (FL (gnum x) ltac:(intros E; apply N1; rewrite E; auto))).
      rewrite (filter_none _ _ (grows r)); [rewrite app_nil_r; auto|].
      intros i Hi. rewrite FR; auto; [|intros E; apply N1; rewrite E; auto]. apply gpasses_foreign. eauto.
    + assert (Hn : In (gnum x) (gnums r)) by (rewrite <- gall_nums; apply in_map; auto).
      rewrite (filter_ext_in _ _ _ (FR (gnum x) ltac:(intros E; apply N1; rewrite E; auto))).
      rewrite (filter_none _ _ (grows l)); [simpl; auto|].
      intros i Hi. rewrite FL; auto; [|intros E; apply N1; rewrite E; auto]. apply gpasses_foreign. eauto.
  - cbn [gall] in Hx. destruct Hx as [<-|Hx]; [apply SELF; auto|].
    destruct R as (_ & SR & P & GLm & GLl & GLr & Rm & Rl & Rr). cbn [grows] in IN |- *.
    assert (Im : incl (grows m) index).
    { intros y Hy. apply IN. apply (Permutation_in _ (Permutation_sym P)). rewrite !in_app_iff; auto. }
    assert (Il : incl (grows l) index).
    { intros y Hy. apply IN. apply (Permutation_in _ (Permutation_sym P)). rewrite !in_app_iff; auto. }
    assert (Ir : incl (grows r) index).
    { intros y Hy. apply IN. apply (Permutation_in _ (Permutation_sym P)). rewrite !in_app_iff; auto. }
    cbn [gnums] in ND. inversion ND as [|? ? N1 N2]; subst. apply NoDup_app_iff in N2. destruct N2 as (N2 & N3 & N4).
    apply NoDup_app_iff in N3. destruct N3 as (N3 & N5 & N6).
    rewrite !in_app_iff in N1.
    assert (FM : forall k, sn_num n0 <> k -> forall i, In i (grows m) -> gpasses (GB3 n0 rows0 si m l r) k i = gpasses m k i).
    { intros k Hk i Hi. apply (passes_step _ _ _ _ n0); auto. rewrite follow3, GLm by auto. reflexivity. }
    assert (FL : forall k, sn_num n0 <> k -> forall i, In i (grows l) -> gpasses (GB3 n0 rows0 si m l r) k i = gpasses l k i).
    { intros k Hk i Hi. apply (passes_step _ _ _ _ n0); auto. rewrite follow3, GLl by auto. reflexivity. }
    assert (FR : forall k, sn_num n0 <> k -> forall i, In i (grows r) -> gpasses (GB3 n0 rows0 si m l r) k i = gpasses r k i).
    { intros k Hk i Hi. apply (passes_step _ _ _ _ n0); auto. rewrite follow3, GLr by auto. reflexivity. }
    etransitivity; [|apply Permutation_sym, filter_perm, P]. rewrite !filter_app.
    assert (N4l : forall k, In k (gnums m) -> ~ In k (gnums l)) by (intros k H1 H2; apply (N4 k); auto; rewrite in_app_iff; auto).
    assert (N4r : forall k, In k (gnums m) -> ~ In k (gnums r)) by (intros k H1 H2; apply (N4 k); auto; rewrite in_app_iff; auto).
    rewrite !in_app_iff in Hx. destruct Hx as [Hx|[Hx|Hx]].
    + assert (Hn : In (gnum x) (gnums m)) by (rewrite <- gall_nums; apply in_map; auto).
      assert (Hne : sn_num n0 <> gnum x) by (intros E; apply N1; rewrite E; auto).
      rewrite (filter_ext_in _ _ _ (FM (gnum x) Hne)).
      rewrite (filter_none _ _ (grows r)); [|intros i Hi; rewrite FR; auto; apply gpasses_foreign; auto].
      rewrite (filter_none _ _ (grows l)); [|intros i Hi; rewrite FL; auto; apply gpasses_foreign; auto].
      rewrite !app_nil_r; auto.
    + assert (Hn : In (gnum x) (gnums l)) by (rewrite <- gall_nums; apply in_map; auto).
      assert (Hne : sn_num n0 <> gnum x) by (intros E; apply N1; rewrite E; auto).
      rewrite (filter_ext_in _ _ _ (FL (gnum x) Hne)).
      rewrite (filter_none _ _ (grows r)); [|intros i Hi; rewrite FR; auto; apply gpasses_foreign; eauto].
      rewrite (filter_none _ _ (grows m)); [|intros i Hi; rewrite FM; auto; apply gpasses_foreign; intros E; eapply N4l; eauto].
      rewrite app_nil_r; simpl; auto.
    + assert (Hn : In (gnum x) (gnums r)) by (rewrite <- gall_nums; apply in_map; auto).
      assert (Hne : sn_num n0 <> gnum x) by (intros E; apply N1; rewrite E; auto).
      rewrite (filter_ext_in _ _ _ (FR (gnum x) Hne)).
      rewrite (filter_none _ _ (grows m)); [|intros i Hi; rewrite FM; auto; apply gpasses_foreign; intros E; eapply N4r; eauto].
      rewrite (filter_none _ _ (grows l)); [|intros i Hi; rewrite FL; auto; apply gpasses_foreign; intros E; eapply N6; eauto].
      simpl; auto.
Qed.

Lemma routed_node : forall g, routed g -> forall x, In x (gall g) ->
  sums_ok t (groot x) (grows x) /\ hist_ok t fcols ccols (groot x) (grows x).
Proof.
  induction g as [n0 rows0|n0 rows0 si mr l IHl r IHr|n0 rows0 si m IHm l IHl r IHr]; intros R x Hx; cbn [gall] in Hx.
  - destruct Hx as [<-|[]]. apply R.
  - destruct Hx as [<-|Hx]; [apply R|]. destruct R as (_ & _ & _ & _ & _ & Rl & Rr).
    rewrite in_app_iff in Hx. destruct Hx; auto.
  - destruct Hx as [<-|Hx]; [apply R|]. destruct R as (_ & _ & _ & _ & _ & _ & Rm & Rl & Rr).
    rewrite !in_app_iff in Hx. destruct Hx as [Hx|[Hx|Hx]]; auto.
Qed.
Lemma routed_sums : forall g, routed g -> forall x, In x (gall g) -> sums_ok t (groot x) (grows x).
Proof. intros g R x Hx. apply (routed_node g R x Hx). Qed.
End Follow.

(** *** The fitted tree *)
Lemma sumR_nth : forall (l : list xr), (forall x, In x l -> xfin x) ->
  l = map (fun i => Fin (val (nth i l (Fin 0)))) (seq 0 (length l)).
Proof.
  intros l H. apply nth_ext with (d := Fin 0) (d' := Fin (val (nth (length l) l (Fin 0)))).
  - rewrite map_length, seq_length. reflexivity.
  - intros n Hn.
    rewrite (map_nth (fun i => Fin (val (nth i l (Fin 0)))) (seq 0 (length l)) (length l) n).
    rewrite seq_nth by auto. simpl. apply xfin_val. apply H. apply nth_In; auto.
Qed.

Section Thms.
Variables (S : Sorts) (data : Matrix xr) (sw : list xr) (nbins : nat) (missing : xr) (bd : @BinnedData XF).
Variables (policy : GrowPolicy) (pick : pick_fn) (s : @Splitter XF) (t : @Train XF) (index : list nat).
Variables (max_leaves max_depth : nat) (sm : SampleMethod).
Hypothesis TD : trained S data sw nbins missing bd s t index sm.

Lemma root_sums_ok : forall root, @root_node XF s t index sm = Some root -> sums_ok t root index.
Proof.
  intros root HR. unfold root_node in HR. inv_bind HR. destruct v as [[gs hs] so]. inv_bind HR. injection HR as <-.
  unfold sums_ok. simpl.
  assert (FF : forall l : list xr, (forall x, In x l -> xfin x) -> length l = m_rows data ->
     index = seq 0 (m_rows data) -> @fast_f64_sum XF l = Fin (sumR (map (fun i => val (nth i l (Fin 0))) index))).
  { intros l Hl Ll ->. rewrite (sumR_nth l Hl) at 1. rewrite <- Ll. rewrite <- map_map. apply fast_f64_sum_X. }
  assert (SS : forall (l g : list xr), (forall x, In x l -> xfin x) -> length l = m_rows data ->
     mapM (nth_error l) index = Some g ->
     to32 (fsum (@f64 XF) (map (@to64 XF) g)) = Fin (sumR (map (fun i => val (nth i l (Fin 0))) index))).
  { intros l g Hl Ll Hg.
    assert (Eg : g = map (fun i => nth i l (Fin 0)) index).
    { assert (GA : mapM (nth_error l) index = Some (map (fun i => nth i l (Fin 0)) index)).
      { apply (@gather XF l index). intros i Hi. apply (td_index _ _ _ _ _ _ _ _ _ _ TD) in Hi. rewrite <- Ll in Hi. exact Hi. }
      rewrite Hg in GA. injection GA as ->. reflexivity. }
    subst g. pose proof (sum64_fin (fun i => nth i l (Fin 0)) index) as SF.
    unfold fsum. change (@to64 XF) with (fun x : xr => x). change (@to32 XF) with (fun x : xr => x).
    rewrite <- SF; [|intros i Hi; apply nth_fin; auto]. unfold sum64. cbv beta. rewrite map_id. reflexivity. }
  unfold root_sums in E. destruct sm eqn:Esm.
  - injection E as <- <- <-. split; apply FF; try apply TD; auto; apply (td_nosample _ _ _ _ _ _ _ _ _ _ TD); auto.
  - inv_bind E. inv_bind E. injection E as <- <- <-. split; eapply SS; eauto; apply TD.
  - inv_bind E. inv_bind E. injection E as <- <- <-. split; eapply SS; eauto; apply TD.
Qed.

(** Everything the two theorems below need about the ghost tree of a fit. *)
Lemma fit_routed_in : forall nodes st, @tree_fit XF policy pick s t index max_leaves max_depth sm = Some (nodes, st) ->
  exists root g fcols ccols, @root_node XF s t index sm = Some root /\ INV s t max_depth root index st g /\
    routed t fcols ccols g /\ agrees s nodes g /\ length nodes = length (gnums g) /\ NoDup (gnums g) /\
    (forall row, full_path nodes row missing = gpath g row missing) /\
    (forall i f, In i index -> In f (tr_cols t) ->
      exists (v : xr) m, m_get data i f = Some v /\ @is_missing XF v missing = Some m /\
        (m = true <-> nth i (fcol fcols f) 0%nat = 0%nat) /\
        (m = false -> forall k c, nth_error (@ccol XF ccols f) k = Some c ->
           ((nth i (fcol fcols f) 0 < k + 1)%nat <-> xlt v c = true))) /\
    @hist_inputs XF (tr_data t) (tr_cuts t) (tr_grad t) (tr_hess t) (tr_cols t) fcols ccols.
Proof.
  intros nodes st H. destruct (fit_agrees _ _ _ _ _ _ _ _ _ _ H) as (root & g & HR & I & AG & LN & G0 & ND & FP).
  pose proof TD as [SS HB NB NBM LD LW HV HW HP TDd TDc CS CM LG LH FG FH HIX NS (mlw & ML & MP)].
  assert (NM : fisnan (@f64 XF) (fmax (@f64 XF)) = false) by reflexivity.
  assert (HV' : forall j x, In x (@col_values XF data sw missing j) -> fle (@f64 XF) x (fmax (@f64 XF)) = true).
  { intros j x Hx. apply (o_lt_le _ x_ord_laws). apply (HV j x Hx). }
  destruct (@bin_hist_inputs XF x_ord_laws S data sw nbins missing bd (tr_grad t) (tr_hess t) (tr_cols t)) as (fcols & ccols & HI & CL);
    auto.
  exists root, g, fcols, ccols. split; auto. split; auto.
  assert (HI' : @hist_inputs XF (tr_data t) (tr_cuts t) (tr_grad t) (tr_hess t) (tr_cols t) fcols ccols) by (rewrite TDd, TDc; auto).
  assert (R : routed t fcols ccols g).
  { eapply (gvalid_routed s t max_depth fcols ccols HI' FG FH) with (mlw := mlw); auto.
    - assert (NN : forall k, (k <= nbins + 2)%nat -> (N.of_nat k <= 65536)%N) by lia.
      intros c Hc. apply NN. exact (CL c Hc).
    - apply (iv_valid _ _ _ _ _ _ _ I).
    - rewrite (iv_grows _ _ _ _ _ _ _ I). intros i Hi. rewrite TDd. apply HIX. auto.
    - rewrite (iv_root _ _ _ _ _ _ _ I), (iv_grows _ _ _ _ _ _ _ I). apply root_sums_ok; auto.
    - intros _. rewrite (iv_root _ _ _ _ _ _ _ I), (iv_grows _ _ _ _ _ _ _ I).
      eapply (root_hist s t index sm fcols ccols HI'); eauto; rewrite TDd; auto. }
  split; auto. split; auto. split; auto. split; auto. split; auto. split; auto.
  intros i f Hi Hf.
  eapply (@bin_cell_raw XF x_ord_laws x_nonneg_laws eq_refl S data sw nbins missing bd _ _ _ fcols ccols i f); eauto.
Qed.

Lemma fit_routed : forall nodes st, @tree_fit XF policy pick s t index max_leaves max_depth sm = Some (nodes, st) ->
  exists root g fcols ccols, @root_node XF s t index sm = Some root /\ INV s t max_depth root index st g /\
    routed t fcols ccols g /\ agrees s nodes g /\ length nodes = length (gnums g) /\ NoDup (gnums g) /\
    (forall row, full_path nodes row missing = gpath g row missing) /\
    (forall i f, In i index -> In f (tr_cols t) ->
      exists (v : xr) m, m_get data i f = Some v /\ @is_missing XF v missing = Some m /\
        (m = true <-> nth i (fcol fcols f) 0%nat = 0%nat) /\
        (m = false -> forall k c, nth_error (@ccol XF ccols f) k = Some c ->
           ((nth i (fcol fcols f) 0 < k + 1)%nat <-> xlt v c = true))).
Proof.
  intros nodes st H. destruct (fit_routed_in _ _ H) as (root & g & fcols & ccols & A & B & C & D & E & F & G & K & _).
  exists root, g, fcols, ccols. auto 10.
Qed.

(** C20 *)
Theorem fit_routes : forall nodes st, @tree_fit XF policy pick s t index max_leaves max_depth sm = Some (nodes, st) ->
  Permutation index (g_index st) /\
  exists ranges, tiles ranges 0 (length index) /\ NoDup (map fst ranges) /\
    (forall i, In i (map fst ranges) <-> exists n, nth_error nodes i = Some n /\ n_is_leaf n = true) /\
    forall k a b pos i, In (k, (a, b)) ranges -> (a <= pos < b)%nat -> nth_error (g_index st) pos = Some i ->
      exists n, predict_leaf nodes data i missing = Some n /\ n_num n = k.
Proof.
  intros nodes st H.
  destruct (fit_routed _ _ H) as (root & g & fcols & ccols & HR & I & R & AG & LN & ND & FP & CELL).
  pose proof (@fit_well_formed XF _ _ _ _ _ _ _ _ _ _ H) as WF.
  split; [apply (iv_index _ _ _ _ _ _ _ I)|].
  exists (map range_of (gleaves g)). split; [apply chain_tiles, (iv_chain _ _ _ _ _ _ _ I)|].
  split; [|split].
  - rewrite map_map. simpl. apply gleaves_nodup. auto.
  - intros i. rewrite map_map. simpl. rewrite in_map_iff. split.
    + intros ((n, rows) & E & Hin). simpl in E. apply gleaves_gall in Hin.
      destruct (AG _ Hin) as (m & E1 & E2). unfold gnum in E1. simpl in E1. rewrite E in E1. exists m. split; auto.
      apply reweighted_eq in E2. destruct E2 as (_ & _ & _ & _ & _ & _ & _ & _ & _ & E2 & _). rewrite E2. simpl.
      pose proof (gall_valid _ _ _ _ (iv_valid _ _ _ _ _ _ _ I) _ Hin) as V. inversion V; auto.
    + intros (n & E1 & E2).
      assert (Hin : In i (gnums g)).
      { pose proof (iv_nums _ _ _ _ _ _ _ I) as P. apply (Permutation_in _ (Permutation_sym P)). apply in_seq.
        apply Permutation_length in P. rewrite seq_length in P. apply nth_error_Some_lt in E1. lia. }
      destruct (gall_by_num _ _ Hin) as (x & Hx & Ex). destruct (AG _ Hx) as (m & E3 & E4). rewrite Ex, E1 in E3. injection E3 as <-.
      apply reweighted_eq in E4. destruct E4 as (_ & _ & _ & _ & _ & _ & _ & _ & _ & E4 & _).
      pose proof (gall_valid _ _ _ _ (iv_valid _ _ _ _ _ _ _ I) _ Hx) as V.
      destruct (gnode_facts s t max_depth x V) as (_ & _ & _ & _ & F & _). rewrite <- E4, E2 in F.
      destruct (proj1 F eq_refl) as (n' & rows & ->). exists (n', rows). split; auto. apply gleaves_gall; auto.
  - intros k a b pos i Hk Hpos Hi. apply in_map_iff in Hk. destruct Hk as ((n, rows) & E & Hin).
    unfold range_of in E. simpl in E. injection E as <- <- <-.
    destruct (iv_rows _ _ _ _ _ _ _ I _ _ Hin) as (sub & HS & HP).
    assert (Hsub : In i sub).
    { pose proof (slice_Some _ _ _ HS) as (S1 & S2 & S3 & _).
      assert (nth_error sub (pos - sn_start n) = Some i).
      { rewrite (slice_nth _ _ _ HS) by lia. rewrite <- Hi. f_equal. lia. }
      eapply nth_error_In; eauto. }
    apply (Permutation_in _ (Permutation_sym HP)) in Hsub.
    destruct (leaf_reached t fcols ccols data missing index CELL g R) with (n := n) (rows := rows) (i := i) as (_ & q & Q1 & Q2); auto.
    { rewrite (iv_grows _ _ _ _ _ _ _ I). apply incl_refl. }
    pose proof (path_walk nodes (fun f => m_get data i f) missing (wf_num _ WF) (length nodes) 0%nat) as PW.
    unfold full_path in FP. rewrite FP, Q1 in PW. destruct PW as (n' & W1 & W2).
    exists n'. split; auto. congruence.
Qed.

(** C21 *)
Theorem fit_cover : forall nodes st, @tree_fit XF policy pick s t index max_leaves max_depth sm = Some (nodes, st) ->
  forall k n, nth_error nodes k = Some n ->
  n_hess n = Fin (sumR (map (fun i => val (nth i (tr_hess t) (Fin 0)))
                          (filter (fun i => passes nodes (fun f => m_get data i f) missing k) index))).
Proof.
  intros nodes st H k n Hk.
  destruct (fit_routed _ _ H) as (root & g & fcols & ccols & HR & I & R & AG & LN & ND & FP & CELL).
  assert (Hin : In k (gnums g)).
  { pose proof (iv_nums _ _ _ _ _ _ _ I) as P. apply (Permutation_in _ (Permutation_sym P)). apply in_seq.
    apply Permutation_length in P. rewrite seq_length in P. apply nth_error_Some_lt in Hk. lia. }
  destruct (gall_by_num _ _ Hin) as (x & Hx & Ex). destruct (AG _ Hx) as (m & E3 & E4). rewrite Ex, Hk in E3. injection E3 as <-.
  apply reweighted_eq in E4. destruct E4 as (_ & E4 & _).
  pose proof (gall_valid _ _ _ _ (iv_valid _ _ _ _ _ _ _ I) _ Hx) as V.
  destruct (gnode_facts s t max_depth x V) as (_ & _ & F & _). rewrite E4, F.
  destruct (routed_sums _ _ _ _ R _ Hx) as [_ SO]. rewrite SO. f_equal.
  apply sum_perm. pose proof (node_rows t fcols ccols data missing index CELL g R ND) as NR.
  rewrite (iv_grows _ _ _ _ _ _ _ I) in NR. specialize (NR (incl_refl _) x Hx).
  etransitivity; [exact NR|]. rewrite Ex.
  apply Permutation_refl'. apply filter_ext. intros i. unfold gpasses, passes. rewrite FP. reflexivity.
Qed.

(** Every node's value is learning_rate times the weight of the gradients and hessians of the rows
    passing it (no constraints, missing values imputed). *)
Theorem fit_values : forall p nodes st, s = Imputer p -> (forall f, get_constraint s f = None) ->
  @tree_fit XF policy pick s t index max_leaves max_depth sm = Some (nodes, st) ->
  forall k n, nth_error nodes k = Some n ->
  let rows := filter (fun i => passes nodes (fun f => m_get data i f) missing k) index in
  n_weight n =
    (@weight XF (sp_l1 p) (sp_l2 p) (sp_max_delta_step p)
       (Fin (sumR (map (fun i => val (nth i (tr_grad t) (Fin 0))) rows)))
       (Fin (sumR (map (fun i => val (nth i (tr_hess t) (Fin 0))) rows))) * sp_learning_rate p)%f32.
Proof.
  intros p nodes st Hs Hc H k n Hk rows.
  destruct (fit_routed _ _ H) as (root & g & fcols & ccols & HR & I & R & AG & LN & ND & FP & CELL).
  assert (Hin : In k (gnums g)).
  { pose proof (iv_nums _ _ _ _ _ _ _ I) as P. apply (Permutation_in _ (Permutation_sym P)). apply in_seq.
    apply Permutation_length in P. rewrite seq_length in P. apply nth_error_Some_lt in Hk. lia. }
  destruct (fit_account _ _ _ _ _ _ _ _ _ _ H) as (_ & _ & _ & _ & _ & _ & CLN & _).
  assert (nodes = g_nodes st) as -> by (rewrite Hs in CLN; injection CLN; auto).
  destruct (INV_node _ _ _ _ _ _ _ I _ _ Hk) as (x & Hx & Ex & E2 & V).
  destruct (gnode_facts s t max_depth x V) as (_ & _ & F & FW & _). rewrite E2, FW.
  rewrite (gvalid_weights s t max_depth p Hs Hc g (iv_valid _ _ _ _ _ _ _ I)) with (x := x); auto.
  - destruct (routed_sums _ _ _ _ R _ Hx) as [SG SH]. rewrite SG, SH, Hs.
    assert (P : Permutation (grows x) rows).
    { pose proof (node_rows t fcols ccols data missing index CELL g R ND) as NR.
      rewrite (iv_grows _ _ _ _ _ _ _ I) in NR. specialize (NR (incl_refl _) x Hx).
      etransitivity; [exact NR|]. rewrite Ex.
      apply Permutation_refl'. apply filter_ext. intros i. unfold gpasses, passes. rewrite FP. reflexivity. }
    rewrite (sum_perm _ _ _ P), (sum_perm _ _ _ P). reflexivity.
  - rewrite (iv_root _ _ _ _ _ _ _ I). unfold root_node in HR. inv_bind HR. destruct v as [[gs hs] so].
    inv_bind HR. injection HR as <-. simpl. rewrite Hs. reflexivity.
Qed.
End Thms.
