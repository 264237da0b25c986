(** The binned matrix: agreement with the raw data, the missing bin, range of bin numbers. *)
From Coq Require Import List Arith NArith Lia Bool Permutation Sorting.
From Verif Require Import Prelude Float FloatLaws OrdProofs Data DataProofs Utils Binning BinningProofs CutProofs.
Import ListNotations.

Section BM.
Context {FS : Floats}.
Variable OL : OrdLaws (@f64 FS).
Notation sorted_le := (sorted_le (@f64 FS)).
Notation sorted_lt := (sorted_lt (@f64 FS)).
Notation nums := (nums (@f64 FS)).
Notation le x y := (fle (@f64 FS) x y = true).
Notation lt x y := (flt (@f64 FS) x y = true).
Notation FM := (fmax (@f64 FS)).

(** The matrix of bin numbers: gradientbooster.rs:559. *)
Definition binned (data : Matrix F64) (bd : BinnedData) : Matrix nat :=
  matrix_new (b_data bd) (m_rows data) (m_cols data).

(** The non-missing values of column [j] that come with a weight. *)
Definition col_values (data : Matrix F64) (sw : list F64) (missing : F64) (j : nat) : list F64 :=
  match m_get_col data j with
  | Some col => map fst (observed col sw missing)
  | None => []
  end.
Definition col_weights (data : Matrix F64) (sw : list F64) (missing : F64) (j : nat) : list F64 :=
  match m_get_col data j with
  | Some col => map snd (observed col sw missing)
  | None => []
  end.

(** C03 for the whole matrix. *)
Theorem bin_cuts_spec : fisnan f64 FM = false -> forall S data sw nbins missing bd j, SortSpec S ->
  bin_matrix S data sw nbins missing = Some bd -> j < m_cols data ->
  let values := col_values data sw missing j in
  (forall x, In x values -> le x FM) ->
  exists cuts, j_get_col (b_cuts bd) j = Some cuts /\ nth_error (b_nunique bd) j = Some (length cuts) /\
    sorted_lt cuts /\
    (exists c m, cuts = c ++ [m] /\ feq f64 m FM = true /\ forall x, In x c -> In x values /\ lt x FM) /\
    length cuts <= nbins + 2 /\
    ((exists d, length d <= nbins + 1 /\ forall x, In x values -> exists y, In y d /\ feq f64 x y = true) ->
     forall x, In x values -> exists y, In y cuts /\ feq f64 x y = true).
Proof.
  intros NM S data sw nbins missing bd j SS H Hj values HX.
  destruct (bin_matrix_spec _ _ _ _ _ _ H) as (ccols & J & L & Hn & HC & _ & _).
  destruct (nth_error_lt ccols (i := j)) as [cc Hcc]; [lia|].
  destruct (HC _ _ Hcc) as (col & Hcol & E). exists cc.
  unfold values, col_values in *. rewrite Hcol in *.
  destruct (col_cuts_spec OL _ _ _ _ _ _ SS NM HX E) as (_ & C1 & C2 & C3 & C4).
  assert (LP : length (bin_pcts nbins) = nbins) by (unfold bin_pcts; rewrite map_length, seq_length; auto).
  rewrite LP in C3, C4.
  split; [rewrite (jrep_get_col _ _ _ J); auto|]. split; [rewrite Hn, nth_error_map, Hcc; reflexivity|]. auto.
Qed.

(** Everything binning promises about one cell. *)
Lemma bin_cell : forall S data sw nbins missing bd i j v, SortSpec S -> fisnan f64 FM = false ->
  bin_matrix S data sw nbins missing = Some bd ->
  i < m_rows data -> m_get data i j = Some v ->
  (forall x, In x (col_values data sw missing j) -> le x FM) ->
  exists col cc b, m_get_col data j = Some col /\ col_cuts S col sw (bin_pcts nbins) missing = Some cc /\
    j_get_col (b_cuts bd) j = Some cc /\
    m_get (binned data bd) i j = Some b /\ map_bin cc v missing = Some (Some b) /\
    nums cc /\ sorted_lt cc.
Proof.
  intros S data sw nbins missing bd i j v SS NM H Hi Hv HX.
  destruct (bin_matrix_spec _ _ _ _ _ _ H) as (ccols & J & L & Hn & HC & HL & HB).
  unfold m_get in Hv. destruct (HB _ _ Hv) as (cc & b & H1 & H2 & H3).
  assert (Ek : m_item_index data i j / m_rows data = j).
  { unfold m_item_index. rewrite Nat.mul_1_l, Nat.div_add, Nat.div_small by lia. reflexivity. }
  rewrite Ek in H1. destruct (HC _ _ H1) as (col & Hcol & Hcc). exists col, cc, b.
  split; auto. split; auto. split; [rewrite (jrep_get_col _ _ _ J); auto|]. split; [exact H3|]. split; auto.
  unfold col_values in HX. rewrite Hcol in HX.
  destruct (col_cuts_spec OL _ _ _ _ _ _ SS NM HX Hcc) as (C1 & C2 & _). auto.
Qed.

(** C01. *)
Theorem binned_split_agrees : forall S data sw nbins missing bd i j v, SortSpec S -> fisnan f64 FM = false ->
  bin_matrix S data sw nbins missing = Some bd ->
  i < m_rows data -> m_get data i j = Some v ->
  (forall x, In x (col_values data sw missing j) -> le x FM) ->
  exists cuts b, j_get_col (b_cuts bd) j = Some cuts /\ m_get (binned data bd) i j = Some b /\
    (bin_missing v missing = true -> b = 0) /\
    (bin_missing v missing = false -> forall k c, nth_error cuts k = Some c -> (b < k + 1 <-> lt v c)).
Proof.
  intros S data sw nbins missing bd i j v SS NM H Hi Hv HX.
  destruct (bin_cell _ _ _ _ _ _ _ _ _ SS NM H Hi Hv HX) as (col & cc & b & _ & _ & H1 & H2 & H3 & N & SL).
  exists cc, b. split; auto. split; auto. apply (sorted_lt_le _ OL) in SL. split.
  - destruct (map_bin_spec OL cc v missing SL N) as (b' & Hb & _ & H0 & _). rewrite H3 in Hb. destruct (fits_u16 b'); [|discriminate].
    injection Hb as <-. auto.
  - intros M k c Hc. eapply bin_split_agrees; eauto.
Qed.

(** *** Lane-wise sums of non-negative numbers dominate their terms *)
Section Sum.
Variable F : FloatOps.
Variable OLF : OrdLaws F.
Variable NL : NonnegLaws F.
Hypothesis zero_nan : fisnan F (fzero F) = false.
Notation nonneg l := (forall x, In x l -> fle F (fzero F) x = true).

Lemma add_nonneg : forall x y, fle F (fzero F) x = true -> fle F (fzero F) y = true -> fle F (fzero F) (fadd F x y) = true.
Proof. intros x y Hx Hy. eapply (ol_le_trans _ OLF); [exact Hx|]. apply (nn_add_l _ NL); auto. Qed.

Lemma add_lanes_dom : forall acc chunk, nonneg acc -> nonneg chunk -> length chunk <= length acc ->
  nonneg (add_lanes F acc chunk) /\ length (add_lanes F acc chunk) = length acc /\
  forall x, In x acc \/ In x chunk -> exists a, In a (add_lanes F acc chunk) /\ fle F x a = true.
Proof.
  induction acc as [|a acc IH]; intros [|c chunk] Na Nc L; simpl in *; try lia.
  - split; auto. split; auto. intros x [[]|[]].
  - split; auto. split; auto. intros x [Hx|[]]. exists x. split; auto. apply (ol_le_refl _ OLF).
    specialize (Na x Hx). apply (ol_le_nan _ OLF) in Na. tauto.
  - destruct (IH chunk) as (H1 & H2 & H3); auto; try lia. split; [|split; [simpl; lia|]].
    + intros x [<-|Hx]; auto. apply add_nonneg; auto.
    + intros x Hx. assert (x = a \/ x = c \/ (In x acc \/ In x chunk)) as [->|[->|Hx']] by (intuition congruence).
      * eexists. split; [left; reflexivity|]. apply (nn_add_l _ NL); auto.
      * eexists. split; [left; reflexivity|]. apply (nn_add_r _ NL); auto.
      * destruct (H3 x Hx') as (y & Hy & Hxy). eauto.
Qed.

Lemma fold_chunks_dom : forall k l acc acc' rest, nonneg acc -> nonneg l -> length acc = LANES ->
  fold_chunks F k l acc = (acc', rest) -> nonneg acc' /\ nonneg rest /\
  forall x, In x acc \/ In x l -> exists a, (In a acc' \/ In a rest) /\ fle F x a = true.
Proof.
  induction k as [|k IH]; intros l acc acc' rest Na Nl L H; cbn [fold_chunks] in H.
  - injection H as <- <-. split; auto. split; auto. intros x Hx. exists x. split; auto.
    apply (ol_le_refl _ OLF). assert (fle F (fzero F) x = true) as Nx by (destruct Hx; auto).
    apply (ol_le_nan _ OLF) in Nx. tauto.
  - destruct (add_lanes_dom acc (firstn LANES l)) as (D1 & D2 & D3); auto.
    + intros x Hx. apply Nl. rewrite <- (firstn_skipn LANES l). apply in_app_iff; auto.
    + rewrite L. apply firstn_le_length.
    + destruct (IH (skipn LANES l) (add_lanes F acc (firstn LANES l)) acc' rest) as (H1 & H2 & H3); auto; try lia.
      { intros x Hx. apply Nl. rewrite <- (firstn_skipn LANES l). apply in_app_iff; auto. }
      split; auto. split; auto. intros x Hx.
      assert (C : (In x acc \/ In x (firstn LANES l)) \/ In x (skipn LANES l)).
      { destruct Hx as [Hx|Hx]; auto. rewrite <- (firstn_skipn LANES l) in Hx. apply in_app_iff in Hx. tauto. }
      destruct C as [C|C]; [|apply H3; auto].
      destruct (D3 x C) as (a & Ha & Hxa). destruct (H3 a (or_introl Ha)) as (b & Hb & Hab).
      exists b. split; auto. eapply (ol_le_trans _ OLF); eauto.
Qed.

Lemma fold_add_dom : forall l s, fle F (fzero F) s = true -> nonneg l ->
  fle F s (fold_left (fadd F) l s) = true /\ forall x, In x l -> fle F x (fold_left (fadd F) l s) = true.
Proof.
  induction l as [|a l IH]; intros s Hs Nl; simpl.
  - split; [|tauto]. apply (ol_le_refl _ OLF). apply (ol_le_nan _ OLF) in Hs. tauto.
  - assert (Ha : fle F (fzero F) a = true) by (apply Nl; simpl; auto).
    destruct (IH (fadd F s a)) as [I1 I2]; [apply add_nonneg; auto|intros; apply Nl; simpl; auto|].
    split; [|intros x [<-|Hx]; auto].
    + eapply (ol_le_trans _ OLF); [|exact I1]; apply (nn_add_l _ NL); auto.
    + eapply (ol_le_trans _ OLF); [|exact I1]; apply (nn_add_r _ NL); auto.
Qed.

Lemma fast_sum_dom : forall l, nonneg l -> fle F (fzero F) (fast_sum F l) = true /\
  forall x, In x l -> fle F x (fast_sum F l) = true.
Proof.
  intros l Nl. unfold fast_sum. destruct (fold_chunks F (length l / LANES) l (repeat (fzero F) LANES)) as [acc rest] eqn:E.
  assert (Z : fle F (fzero F) (fzero F) = true) by (apply (ol_le_refl _ OLF); auto).
  assert (Z0 : nonneg (repeat (fzero F) LANES)) by (intros x Hx; apply repeat_spec in Hx; subst; auto).
  destruct (fold_chunks_dom _ _ _ _ _ Z0 Nl (repeat_length _ _) E)
    as (H1 & H2 & H3).
  destruct (fold_add_dom acc (fzero F) Z H1) as [A1 A2]. destruct (fold_add_dom rest (fzero F) Z H2) as [B1 B2].
  assert (NA : fle F (fzero F) (fold_left (fadd F) acc (fzero F)) = true) by auto.
  split; [apply add_nonneg; auto|]. intros x Hx. destruct (H3 x (or_intror Hx)) as (a & [Ha|Ha] & Hxa).
  - eapply (ol_le_trans _ OLF); [exact Hxa|]. eapply (ol_le_trans _ OLF); [apply A2; auto|]. apply (nn_add_l _ NL); auto.
  - eapply (ol_le_trans _ OLF); [exact Hxa|]. eapply (ol_le_trans _ OLF); [apply B2; auto|]. apply (nn_add_r _ NL); auto.
Qed.
End Sum.

(** *** The first cut is the smallest value *)
Lemma pct_loop_extends : forall v w total lastv idx cuml cur pcts cv p r,
  pct_loop v w total lastv idx cuml cur pcts cv p = Some r -> exists q, r = p ++ q.
Proof.
  intros v w total lastv. induction idx as [|i idx IH]; intros cuml cur pcts cv p r H; simpl in H.
  - injection H as <-. exists []. rewrite app_nil_r; auto.
  - inv_bind H. inv_bind H. destruct ((cur =? fzero f64)%f64 || (cur <=? cuml + v1 / total)%f64)%bool.
    + pose proof (pct_inner_spec pcts (cuml + v1 / total)%f64 cur (if (cv =? v0)%f64 then cv else v0) p) as PI.
      destruct (pct_inner (cuml + v1 / total)%f64 cur pcts (if (cv =? v0)%f64 then cv else v0) p) as [p'|[[c' ps'] p']].
      * injection H as <-. eauto.
      * destruct PI as (k & -> & _). apply IH in H. destruct H as (q & ->). rewrite <- app_assoc. eauto.
    + destruct (cur =? fone f64)%f64; [injection H as <-; eauto|]. eauto.
Qed.

Variable NL : NonnegLaws (@f64 FS).
Hypothesis zero_nan : fisnan f64 (fzero (@f64 FS)) = false.

Lemma percentiles_first : forall idx v w pcts p0 pcts' r, nums v -> Permutation idx (seq 0 (length v)) -> pos_sorted v idx ->
  length w = length v -> (forall x, In x w -> le (fzero f64) x /\ lt x (finf f64)) -> (exists x, In x w /\ lt (fzero f64) x) ->
  pcts = p0 :: pcts' -> feq f64 p0 (fzero f64) = true ->
  percentiles idx v w pcts = Some r ->
  exists x0 q, r = x0 :: q /\ forall x, In x v -> le x0 x.
Proof.
  intros idx v w pcts p0 pcts' r N P S Lw Hw Hp -> E0 H. unfold percentiles in H.
  destruct ((1 <? length v) && existsb (fisnan f64) v); [discriminate|].
  inv_bind H. rename v0 into i0. inv_bind H. rename v0 into x0. inv_bind H. rename v0 into xl.
  destruct idx as [|i idx]; [discriminate|]. injection E as ->.
  assert (ALL : forall x, In x v -> le x0 x).
  { intros x Hx. apply In_nth_error in Hx. destruct Hx as [k Hk].
    eapply (pos_sorted_first OL v (i0 :: idx) i0 x0 k x); eauto.
    apply (Permutation_in _ (Permutation_sym P)). apply in_seq. apply nth_error_Some_lt in Hk. lia. }
  cbn [pct_loop] in H. rewrite E1 in H. cbn [bind] in H.
  destruct (x0 =? x0)%f64; (inv_bind H; rename v0 into w0;
    rewrite E0 in H; cbn [orb] in H;
    assert (C : le p0 (fzero f64 + w0 / fast_sum f64 w)%f64)).
  1,3: apply (o_eq _ OL) in E0; eapply (ol_le_trans _ OL); [apply E0|];
    (assert (lt (fzero f64) (fast_sum f64 w)) as T;
     [destruct Hp as (x & Hx & Hpx); eapply (o_lt_le_trans _ OL); [exact Hpx|];
      apply (fast_sum_dom f64 OL NL zero_nan); auto; intros; apply Hw; auto|]);
    destruct (Hw w0) as [W1 W2]; [eapply nth_error_In; eauto|];
    apply (nn_add_l _ NL); [apply (ol_le_refl _ OL); auto|]; apply (nn_div _ NL); auto.
  all: destruct pcts' as [|p1 pcts']; cbn [pct_inner] in H; rewrite C in H;
    [injection H as <-; exists x0, []; simpl; auto|].
  all: pose proof (pct_inner_spec pcts' (fzero f64 + w0 / fast_sum f64 w)%f64 p1 x0 ([] ++ [x0])) as PI;
    destruct (pct_inner (fzero f64 + w0 / fast_sum f64 w)%f64 p1 pcts' x0 ([] ++ [x0])) as [p'|[[c' ps'] p']].
  1,3: injection H as <-; subst p'; simpl; eauto.
  all: destruct PI as (k & -> & _); apply pct_loop_extends in H; destruct H as (q & ->); simpl; eauto.
Qed.

Lemma percentiles_or_value_first : forall S v w pcts p0 pcts' c, SortSpec S -> nums v ->
  length w = length v -> (forall x, In x w -> le (fzero f64) x /\ lt x (finf f64)) -> (exists x, In x w /\ lt (fzero f64) x) ->
  pcts = p0 :: pcts' -> feq f64 p0 (fzero f64) = true ->
  percentiles_or_value S v w pcts = Some c ->
  exists x0 q, c = x0 :: q /\ forall x, In x v -> le x0 x.
Proof.
  intros S v w pcts p0 pcts' c SS N Lw Hw Hp Ep E0 H. unfold percentiles_or_value in H.
  destruct ((1 <? length v) && existsb (fisnan f64) v) eqn:EN; [discriminate|].
  destruct (sort_vals_sorted S v SS N) as (sorted & HS & P & SO & NS). rewrite HS in H. cbn [bind] in H.
  destruct (length (dedup sorted) <=? length pcts + 1).
  - injection H as <-. destruct (dedup_spec OL sorted SO NS) as (_ & _ & _ & _ & D5).
    assert (exists x0 q, sorted = x0 :: q) as (x0 & q & ->).
    { destruct sorted as [|x0 q]; eauto. apply Permutation_nil in P. subst v. destruct w; [|discriminate].
      destruct Hp as (x & [] & _). }
    simpl. eexists _, _. split; [reflexivity|]. intros x Hx. apply (Permutation_in _ (Permutation_sym P)) in Hx.
    inversion SO as [|? ? S' FA]; subst. rewrite Forall_forall in FA. destruct Hx as [<-|Hx]; auto.
    apply (ol_le_refl _ OL). apply NS. simpl; auto.
  - destruct (ss_pos _ SS v N) as [PP PS]. eapply percentiles_first; eauto.
Qed.

(** C02. *)
Theorem bin_zero_iff_missing : forall S data sw nbins missing bd i j v, SortSpec S -> fisnan f64 FM = false ->
  bin_matrix S data sw nbins missing = Some bd -> nbins <> 0 -> length sw = m_rows data ->
  (forall w, In w (col_weights data sw missing j) -> le (fzero f64) w /\ lt w (finf f64)) ->
  (exists w, In w (col_weights data sw missing j) /\ lt (fzero f64) w) ->
  (forall x, In x (col_values data sw missing j) -> lt x FM) ->
  i < m_rows data -> m_get data i j = Some v ->
  exists cuts b, j_get_col (b_cuts bd) j = Some cuts /\ m_get (binned data bd) i j = Some b /\
    (b = 0 <-> bin_missing v missing = true) /\
    (bin_missing v missing = false -> 1 <= b < length cuts).
Proof.
  intros S data sw nbins missing bd i j v SS NM H Hn Lw Hw Hp HX Hi Hv.
  assert (HX' : forall x, In x (col_values data sw missing j) -> le x FM).
  { intros x Hx. apply (o_lt_le _ OL). auto. }
  destruct (bin_cell _ _ _ _ _ _ _ _ _ SS NM H Hi Hv HX') as (col & cc & b & Hcol & Hcc & H1 & H2 & H3 & N & SL).
  exists cc, b. split; auto. split; auto.
  unfold col_values, col_weights in *. rewrite Hcol in *.
  destruct (map_bin_spec OL cc v missing (sorted_lt_le _ OL _ SL) N) as (b' & Hb & Hbl & Hb0 & Hb1).
  rewrite H3 in Hb. destruct (fits_u16 b'); [|discriminate]. injection Hb as <-.
  assert (M : bin_missing v missing = false -> 1 <= b < length cc).
  { intros M. specialize (Hb1 M).
    assert (Vin : In v (map fst (observed col sw missing))).
    { pose proof (slice_Some _ _ _ Hcol) as (SL1 & SL2 & SL3 & _). unfold m_item_index in SL3.
      assert (nth_error col i = Some v) as Hci.
      { unfold m_get_col, m_get_col_slice in Hcol. rewrite (slice_nth _ _ _ Hcol) by (unfold m_item_index; lia).
        rewrite <- Hv. unfold m_get. f_equal. unfold m_item_index. lia. }
      destruct (nth_error_lt sw (i := i)) as [w Hwi]; [lia|].
      apply in_map_iff. exists (v, w). split; auto. apply filter_In. split.
      - eapply nth_error_In. apply nth_error_combine; eauto.
      - simpl. rewrite M. reflexivity. }
    destruct (col_cuts_spec OL _ _ _ _ _ _ SS NM HX' Hcc) as (_ & _ & (c & m & -> & Em & _) & _).
    assert (Hlast : nth_error (c ++ [m]) (length c) = Some m).
    { rewrite nth_error_app2 by lia. rewrite Nat.sub_diag. reflexivity. }
    rewrite app_length in *. simpl in *. split; [|destruct (Nat.lt_ge_cases b (length c + 1)); auto].
    - unfold col_cuts in Hcc. inv_bind Hcc. rename v0 into kept. inv_bind Hcc. rename v0 into c'.
      injection Hcc as Ec. destruct (split_missing_spec OL _ _ _ _ E) as [-> _].
      assert (NV := observed_nums col sw missing).
      destruct nbins as [|nb]; [tauto|].
      destruct (percentiles_or_value_first S (map fst (observed col sw missing)) (map snd (observed col sw missing)) (bin_pcts (Datatypes.S nb))
          (fofnat f64 0 / fofnat f64 (Datatypes.S nb))%f64
          (map (fun i => (fofnat f64 i / fofnat f64 (Datatypes.S nb))%f64) (seq 1 nb)) c' SS NV) as (x0 & q & -> & HF); auto.
      { rewrite !map_length. reflexivity. }
      { apply (nn_zero_div _ NL). discriminate. }
      assert (Hc0 : nth_error (c ++ [m]) 0 = Some x0) by (rewrite <- Ec; reflexivity).
      apply (Hb1 0 x0 Hc0). auto.
    - exfalso. assert (length c < b) by lia. apply (Hb1 _ _ Hlast) in H4.
      specialize (HX v Vin). apply (o_eq _ OL) in Em.
      assert (le FM v) by (eapply (ol_le_trans _ OL); [apply Em|auto]).
      apply (o_lt_nle _ OL) in HX. congruence. }
  split; auto. split; auto. intros ->. destruct (bin_missing v missing); auto. specialize (M eq_refl). lia.
Qed.

(** *** Binning does not panic *)
Lemma pct_loop_total : forall v w total lastv, length w = length v -> forall idx cuml cur pcts cv p,
  (forall i, In i idx -> i < length v) ->
  exists r, pct_loop v w total lastv idx cuml cur pcts cv p = Some r.
Proof.
  intros v w total lastv L. induction idx as [|i idx IH]; intros cuml cur pcts cv p B; simpl; eauto.
  destruct (nth_error_lt v (i := i)) as [x ->]; [apply B; simpl; auto|].
  destruct (nth_error_lt w (i := i)) as [y ->]; [rewrite L; apply B; simpl; auto|]. cbn [bind].
  assert (B' : forall i, In i idx -> i < length v) by (intros; apply B; simpl; auto).
  destruct ((cur =? fzero f64)%f64 || (cur <=? cuml + y / total)%f64)%bool.
  - destruct (pct_inner (cuml + y / total)%f64 cur pcts (if (cv =? x)%f64 then cv else x) p) as [|[[? ?] ?]]; eauto.
  - destruct (cur =? fone f64)%f64; eauto.
Qed.

Lemma existsb_nums : forall v, nums v -> existsb (fisnan f64) v = false.
Proof.
  intros v N. destruct (existsb (fisnan f64) v) eqn:E; auto. apply existsb_exists in E. destruct E as (x & Hx & E).
  rewrite N in E; auto.
Qed.

Lemma percentiles_total : forall idx v w pcts, nums v -> v <> [] -> pcts <> [] -> length w = length v ->
  Permutation idx (seq 0 (length v)) -> exists r, percentiles idx v w pcts = Some r.
Proof.
  intros idx v w pcts N Hv Hp L P. unfold percentiles. rewrite existsb_nums, andb_false_r by auto.
  destruct pcts as [|cur pcts]; [tauto|].
  assert (B : forall i, In i idx -> i < length v).
  { intros i Hi. apply (Permutation_in _ P) in Hi. apply in_seq in Hi. lia. }
  destruct idx as [|i0 idx].
  { apply Permutation_length in P. rewrite seq_length in P. destruct v; [tauto|discriminate]. }
  cbn [nth_error bind]. destruct (nth_error_lt v (i := i0)) as [x0 ->]; [apply B; simpl; auto|]. cbn [bind].
  destruct (nth_error_lt v (i := last (i0 :: idx) 0)) as [xl ->].
  { apply B. apply last_in. discriminate. }
  cbn [bind]. apply pct_loop_total; auto.
Qed.

Lemma col_cuts_total : forall S col sw pcts missing, SortSpec S -> pcts <> [] ->
  (forall x, In x col -> exists b, is_missing x missing = Some b) ->
  exists cc, col_cuts S col sw pcts missing = Some cc.
Proof.
  intros S col sw pcts missing SS Hp HM. unfold col_cuts, split_missing.
  destruct (mapM_total (fun vw : F64 * F64 => is_missing (fst vw) missing) (combine col sw)) as [flags Hf].
  { intros [x w] Hx. apply in_combine_l in Hx. auto. }
  rewrite Hf. cbn [bind].
  assert (E : split_missing col sw missing = Some (map snd (filter (fun fv => negb (fst fv)) (combine flags (combine col sw))))).
  { unfold split_missing. rewrite Hf. reflexivity. }
  destruct (split_missing_spec OL _ _ _ _ E) as [-> _]. assert (NV := observed_nums col sw missing).
  unfold percentiles_or_value. rewrite existsb_nums, andb_false_r by auto.
  destruct (sort_vals_sorted S _ SS NV) as (sorted & HS & P & SO & NS). rewrite HS. cbn [bind].
  destruct (Nat.leb_spec (length (dedup sorted)) (length pcts + 1)) as [HL|HL]; cbn [bind]; eauto.
  destruct (ss_pos _ SS _ NV) as [PP PS].
  destruct (percentiles_total (sort_pos S (map fst (observed col sw missing))) (map fst (observed col sw missing))
     (map snd (observed col sw missing)) pcts) as [r Hr]; auto.
  - intros E0. rewrite E0 in P. apply Permutation_sym, Permutation_nil in P. subst. simpl in HL. lia.
  - rewrite !map_length; auto.
  - rewrite Hr. cbn [bind]. eauto.
Qed.

Lemma cuts_fold_total : forall S data sw pcts missing l cuts nu, SortSpec S -> pcts <> [] ->
  (forall j, In j l -> exists col, m_get_col data j = Some col /\
     forall x, In x col -> exists b, is_missing x missing = Some b) ->
  exists r, foldM (fun '(cuts, nunique) i =>
      let* col := m_get_col data i in
      let* cc := col_cuts S col sw pcts missing in
      Some (push_cuts cuts cc, nunique ++ [length cc])) l (cuts, nu) = Some r.
Proof.
  intros S data sw pcts missing l. induction l as [|j l IH]; intros cuts nu SS Hp HM; simpl; eauto.
  destruct (HM j) as (col & -> & Hc); [simpl; auto|]. cbn [bind].
  destruct (col_cuts_total S col sw pcts missing SS Hp Hc) as [cc ->]. cbn [bind]. apply IH; auto.
  intros; apply HM; simpl; auto.
Qed.

(** C04: with at most 65534 bins and values below f64::MAX, binning always succeeds. *)
Theorem bin_matrix_total : forall S data sw nbins missing, SortSpec S -> fisnan f64 FM = false ->
  length (m_data data) = m_rows data * m_cols data -> length sw = m_rows data ->
  nbins <> 0 -> (N.of_nat nbins <= 65534)%N ->
  (forall x, In x (m_data data) -> is_missing x missing = Some true \/
     (is_missing x missing = Some false /\ lt x FM)) ->
  exists bd, bin_matrix S data sw nbins missing = Some bd.
Proof.
  intros S data sw nbins missing SS NM Hd Lw Hn Hb HX.
  assert (HXm : forall x, In x (m_data data) -> exists b, is_missing x missing = Some b).
  { intros x Hx. destruct (HX x Hx) as [|[]]; eauto. }
  assert (CI : forall j col, m_get_col data j = Some col -> incl col (m_data data)).
  { intros j col Hc x Hx. apply In_nth_error in Hx. destruct Hx as [k Hk].
    unfold m_get_col, m_get_col_slice in Hc. pose proof (slice_Some _ _ _ Hc) as (_ & _ & HL & _).
    assert (Hlt := nth_error_Some_lt _ _ Hk). rewrite (slice_nth _ _ _ Hc) in Hk by lia. eapply nth_error_In; eauto. }
  assert (CT : forall j, j < m_cols data -> exists col, m_get_col data j = Some col).
  { intros j Hj. destruct (get_col_spec data Hd j Hj) as (col & Hc & _). eauto. }
  assert (Hp : bin_pcts nbins <> []) by (unfold bin_pcts; destruct nbins; [tauto|discriminate]).
  unfold bin_matrix.
  destruct (cuts_fold_total S data sw (bin_pcts nbins) missing (seq 0 (m_cols data)) j_new [] SS Hp) as [[cuts nu] Hf].
  { intros j Hj. apply in_seq in Hj. destruct (CT j) as [col Hc]; [lia|]. exists col. split; auto.
    intros x Hx. apply HXm. eapply CI; eauto. }
  rewrite Hf. cbn [bind].
  destruct (cuts_fold _ _ _ _ _ _ _ _ [] _ _ Hf) as (ccols & J & _ & F2). { split; reflexivity. }
  simpl in J.
  destruct (mapM_total (fun iv : nat * F64 =>
      if m_rows data =? 0 then None else
      let* cc := j_get_col cuts (fst iv / m_rows data) in
      let* b := map_bin cc (snd iv) missing in b)
    (combine (seq 0 (length (m_data data))) (m_data data))) as [r Hr].
  2:{ unfold bin_matrix_from_cuts. rewrite Hr. cbn [bind]. eauto. }
  intros [k x] Hkx. cbn [fst snd].
  assert (Hx : In x (m_data data)) by (eapply in_combine_r; eauto).
  assert (Hk : k < length (m_data data)) by (apply in_combine_l in Hkx; apply in_seq in Hkx; lia).
  rewrite Hd in Hk. destruct (Nat.eqb_spec (m_rows data) 0) as [H0|H0]; [rewrite H0 in Hk; lia|].
  assert (Hkr : k / m_rows data < m_cols data).
  { apply Nat.div_lt_upper_bound; auto. }
  destruct (Forall2_nth_l F2 (k / m_rows data) (x := k / m_rows data)) as (cc & Hcc & col & Hcol & Hcut).
  { rewrite nth_error_seq by auto. reflexivity. }
  rewrite (jrep_get_col _ _ _ J), Hcc. cbn [bind].
  assert (HV : forall y, In y (map fst (observed col sw missing)) -> lt y FM).
  { intros y Hy. apply in_map_iff in Hy. destruct Hy as ([y' w] & <- & Hy). apply filter_In in Hy. destruct Hy as [Hy Hm].
    simpl in *. apply in_combine_l in Hy. destruct (HX y') as [T|[T L]]; auto. { eapply CI; eauto. }
    apply (is_missing_bin OL) in T. rewrite T in Hm. discriminate. }
  destruct (col_cuts_spec OL _ _ _ _ _ _ SS NM (fun y Hy => o_lt_le _ OL _ _ (HV y Hy)) Hcut) as (N & SL & (c & m & -> & Em & _) & Lc & _).
  destruct (map_bin_spec OL _ x missing (sorted_lt_le _ OL _ SL) N) as (b & Hb' & Hbl & Hb0 & Hb1).
  rewrite Hb'. cbn [bind]. replace (fits_u16 b) with true; [eauto|]. symmetry. unfold fits_u16. apply N.ltb_lt.
  unfold bin_pcts in Lc. rewrite map_length, seq_length, app_length in Lc. simpl in Lc.
  assert (b <= length c).
  { destruct (HX x Hx) as [T|[T L]]; apply (is_missing_bin OL) in T.
    - rewrite Hb0 by auto. lia.
    - destruct (Nat.le_gt_cases b (length c)) as [|Hgt]; auto. exfalso.
      assert (Hlast : nth_error (c ++ [m]) (length c) = Some m).
      { rewrite nth_error_app2 by lia. rewrite Nat.sub_diag. reflexivity. }
      apply (Hb1 T _ _ Hlast) in Hgt. apply (o_eq _ OL) in Em.
      assert (le FM x) by (eapply (ol_le_trans _ OL); [apply Em|auto]).
      apply (o_lt_nle _ OL) in L. congruence. }
  lia.
Qed.

(** C04: but 65535 bins on 65536 distinct values panic. *)
Theorem bin_matrix_overflow : forall S vals sw nbins missing, SortSpec S -> fisnan f64 FM = false ->
  N.of_nat nbins = 65535%N -> N.of_nat (length vals) = 65536%N -> length sw = length vals ->
  sorted_lt vals -> (forall x, In x vals -> lt x FM /\ bin_missing x missing = false) ->
  bin_matrix S (matrix_new vals (length vals) 1) sw nbins missing = None.
Proof.
  intros S vals sw nbins missing SS NM Hn Hl Lw SV HV.
  destruct (bin_matrix S (matrix_new vals (length vals) 1) sw nbins missing) as [bd|] eqn:E; auto. exfalso.
  assert (HNv : nums vals). { intros x Hx. destruct (HV x Hx) as [L _]. apply (ol_lt_nan _ OL) in L. tauto. }
  assert (exists n, length vals = Datatypes.S n) as [n Hlen].
  { destruct (length vals); [simpl in Hl; discriminate|eauto]. }
  destruct (nth_error_lt vals (i := n)) as [x Hx]; [lia|].
  assert (Hcol : m_get_col (matrix_new vals (length vals) 1) 0 = Some vals).
  { unfold m_get_col, m_get_col_slice, m_item_index. simpl m_data. simpl m_rows.
    rewrite Nat.mul_0_r, Nat.mul_1_l, !Nat.add_0_r. unfold slice. simpl. rewrite Nat.leb_refl, Nat.sub_0_r, firstn_all. reflexivity. }
  assert (HO : map fst (observed vals sw missing) = vals).
  { unfold observed. clear -HV Lw. revert sw Lw. induction vals as [|a vals IH]; intros [|w sw] L; simpl in *; try discriminate; auto.
    destruct (HV a) as [_ ->]; auto. simpl. f_equal. apply IH; auto. }
  assert (HCV : forall y, In y (map fst (observed vals sw missing)) -> le y FM).
  { rewrite HO. intros y Hy. apply (o_lt_le _ OL). apply HV; auto. }
  destruct (bin_cell S (matrix_new vals (length vals) 1) sw nbins missing bd n 0 x SS NM E) as
    (col & cc & b & Hc & Hcut & _ & _ & Hb & N & SL).
  { simpl. lia. }
  { unfold m_get, m_item_index. simpl. rewrite Nat.add_0_r, Nat.add_0_r. exact Hx. }
  { unfold col_values. rewrite Hcol. exact HCV. }
  rewrite Hcol in Hc. injection Hc as <-.
  destruct (col_cuts_spec OL _ _ _ _ _ _ SS NM HCV Hcut) as (_ & _ & (c & m & -> & Em & _) & Lc & HD).
  rewrite HO in HD. unfold bin_pcts in HD. rewrite map_length, seq_length in HD.
  assert (HD' : forall y, In y vals -> exists z, In z (c ++ [m]) /\ feq f64 y z = true).
  { apply HD. exists vals. split; [lia|]. intros y Hy. exists y. split; auto. apply (o_eq_refl _ OL); auto. }
  assert (length vals <= length c).
  { apply (distinct_length OL vals c SV). intros y Hy. destruct (HD' y Hy) as (z & Hz & Ez).
    apply in_app_iff in Hz. destruct Hz as [Hz|[<-|[]]]; eauto. exfalso.
    destruct (HV y Hy) as [L _]. apply (o_eq _ OL) in Em. apply (o_eq _ OL) in Ez.
    assert (le FM y) by (eapply (ol_le_trans _ OL); [apply Em|apply Ez]). apply (o_lt_nle _ OL) in L. congruence. }
  destruct (map_bin_spec OL _ x missing (sorted_lt_le _ OL _ SL) N) as (b' & Hb' & _ & _ & Hb1).
  rewrite Hb in Hb'. destruct (fits_u16 b') eqn:Ef; [|discriminate]. injection Hb' as <-.
  unfold fits_u16 in Ef. apply N.ltb_lt in Ef.
  destruct (HV x (nth_error_In _ _ Hx)) as [_ Mx].
  (* the last of the 65536 cuts below MAX is at most x *)
  destruct (nth_error_lt c (i := n)) as [z Hz]; [lia|].
  assert (Hz' : nth_error (c ++ [m]) n = Some z) by (rewrite nth_error_app1 by lia; auto).
  assert (n < b); [|lia]. apply (Hb1 Mx _ _ Hz').
  (* z is an observed value, and x is the largest *)
  assert (In z c) as Hzc by (eapply nth_error_In; eauto).
  destruct (col_cuts_spec OL _ _ _ _ _ _ SS NM HCV Hcut) as (_ & _ & (c2 & m2 & Ec & _ & HC2) & _).
  apply app_inj_tail in Ec. destruct Ec as [-> _]. destruct (HC2 z Hzc) as [Hzv _]. rewrite HO in Hzv.
  apply In_nth_error in Hzv. destruct Hzv as [k Hk]. assert (Hkl := nth_error_Some_lt _ _ Hk).
  eapply (sorted_le_nth _ OL vals (sorted_lt_le _ OL _ SV) HNv k n); eauto. lia.
Qed.
End BM.
