(** Properties C01-C05: binning.  IEEE binary64 arithmetic unless stated otherwise. *)
From Coq Require Import Reals Lra ZArith NArith List Arith Lia Bool Permutation Sorting.
From Flocq Require Import Core.Raux.
From Verif Require Import Prelude Float FloatX FloatI FloatLaws OrdProofs Data DataProofs Utils UtilsX Binning
  BinningProofs CutProofs BinMatrix BinningX CutQuant.
Import ListNotations.

Section IEEE.
Variables iexp iln iln1p : b64 -> b64.
Notation FI := (IF iexp iln iln1p).
Notation MAXF := (fmax IOps64).

(** C01: a row's bin is below split number k exactly when its raw value is below the cut stored
    with the split. *)
Theorem C01_binned_split_agrees : forall (S : @Sorts FI) data sw nbins missing bd i j v, SortSpec S ->
  bin_matrix S data sw nbins missing = Some bd ->
  i < m_rows data -> m_get data i j = Some v ->
  (forall x, In x (@col_values FI data sw missing j) -> fle IOps64 x MAXF = true) ->
  exists cuts b, j_get_col (b_cuts bd) j = Some cuts /\ m_get (binned data bd) i j = Some b /\
    (bin_missing v missing = true -> b = 0) /\
    (bin_missing v missing = false -> forall k c, nth_error cuts k = Some c -> (b < k + 1 <-> flt IOps64 v c = true)).
Proof. exact (fun S data sw nbins missing bd i j v HS => @binned_split_agrees FI i64_ord_laws S data sw nbins missing bd i j v HS eq_refl). Qed.

(** C02 *)
Theorem C02_bin_zero_iff_missing : forall (S : @Sorts FI) data sw nbins missing bd i j v, SortSpec S ->
  bin_matrix S data sw nbins missing = Some bd -> nbins <> 0 -> length sw = m_rows data ->
  (forall w, In w (@col_weights FI data sw missing j) -> fle IOps64 (fzero IOps64) w = true /\ flt IOps64 w (finf IOps64) = true) ->
  (exists w, In w (@col_weights FI data sw missing j) /\ flt IOps64 (fzero IOps64) w = true) ->
  (forall x, In x (@col_values FI data sw missing j) -> flt IOps64 x MAXF = true) ->
  i < m_rows data -> m_get data i j = Some v ->
  exists cuts b, j_get_col (b_cuts bd) j = Some cuts /\ m_get (binned data bd) i j = Some b /\
    (b = 0 <-> bin_missing v missing = true) /\
    (bin_missing v missing = false -> 1 <= b < length cuts).
Proof.
  exact (fun S data sw nbins missing bd i j v HS =>
           @bin_zero_iff_missing FI i64_ord_laws i64_nonneg_laws eq_refl S data sw nbins missing bd i j v HS eq_refl).
Qed.

(** C03 *)
Theorem C03_cuts : forall (S : @Sorts FI) data sw nbins missing bd j, SortSpec S ->
  bin_matrix S data sw nbins missing = Some bd -> j < m_cols data ->
  let values := @col_values FI data sw missing j in
  (forall x, In x values -> fle IOps64 x MAXF = true) ->
  exists cuts, j_get_col (b_cuts bd) j = Some cuts /\ nth_error (b_nunique bd) j = Some (length cuts) /\
    StronglySorted (fun x y => flt IOps64 x y = true) cuts /\
    (exists c m, cuts = c ++ [m] /\ feq IOps64 m MAXF = true /\ forall x, In x c -> In x values /\ flt IOps64 x MAXF = true) /\
    length cuts <= nbins + 2 /\
    ((exists d, length d <= nbins + 1 /\ forall x, In x values -> exists y, In y d /\ feq IOps64 x y = true) ->
     forall x, In x values -> exists y, In y cuts /\ feq IOps64 x y = true).
Proof. exact (@bin_cuts_spec FI i64_ord_laws eq_refl). Qed.

(** C04: with nbins up to 65534, at least one bin, and no value at or above f64::MAX, binning
    returns. *)
Theorem C04_bin_matrix_total : forall (S : @Sorts FI) data sw nbins missing, SortSpec S ->
  length (m_data data) = m_rows data * m_cols data -> length sw = m_rows data ->
  nbins <> 0 -> (N.of_nat nbins <= 65534)%N ->
  (forall x, In x (m_data data) -> @is_missing FI x missing = Some true \/
     (@is_missing FI x missing = Some false /\ flt IOps64 x MAXF = true)) ->
  exists bd, bin_matrix S data sw nbins missing = Some bd.
Proof.
  exact (fun S data sw nbins missing HS => @bin_matrix_total FI i64_ord_laws S data sw nbins missing HS eq_refl).
Qed.

(** C04: any single column of 65536 distinct values makes nbins = 65535 panic. *)
Theorem C04_bin_matrix_overflow : forall (S : @Sorts FI) vals sw nbins missing, SortSpec S ->
  N.of_nat nbins = 65535%N -> N.of_nat (length vals) = 65536%N -> length sw = length vals ->
  StronglySorted (fun x y => flt IOps64 x y = true) vals ->
  (forall x, In x vals -> flt IOps64 x MAXF = true /\ @bin_missing FI x missing = false) ->
  bin_matrix S (matrix_new vals (length vals) 1) sw nbins missing = None.
Proof.
  exact (fun S vals sw nbins missing HS => @bin_matrix_overflow FI i64_ord_laws S vals sw nbins missing HS eq_refl).
Qed.
End IEEE.

(** C01 beyond f64::MAX, C02 without weights, C04 with 65535 bins: false. *)
Theorem C01_infinity_refuted : exists data sw bd cuts b c k v,
  @bin_matrix IE (@isorts IE) data sw 10 (fnan (@f64 IE)) = Some bd /\
  j_get_col (b_cuts bd) 0 = Some cuts /\ m_get data 2 0 = Some v /\ nth_error (b_data bd) 2 = Some b /\
  bin_missing v (fnan (@f64 IE)) = false /\
  nth_error cuts k = Some c /\ flt (@f64 IE) v c = true /\ (k + 1 <= b)%nat.
Proof. exact bin_infinity_refuted. Qed.

Theorem C02_zero_weights_refuted : exists data sw bd,
  @bin_matrix IE (@isorts IE) data sw 1 (fnan (@f64 IE)) = Some bd /\
  m_data data = map z64 [1; 2; 3; 4]%Z /\ sw = map z64 [0; 0; 0; 0]%Z /\ b_data bd = [0; 0; 0; 0]%nat.
Proof. exact bin_zero_weights_refuted. Qed.

Theorem C04_bin_overflow_refuted : exists data sw nbins,
  N.of_nat nbins = 65535%N /\ (forall x, In x (m_data data) -> xfin x) /\ length sw = m_rows data /\
  @bin_matrix XF (@isorts XF) data sw nbins XNaN = None.
Proof. exact bin_overflow_refuted. Qed.

(** C05, exact arithmetic: percentiles are weighted quantiles, and they are the cuts. *)
Theorem C05_percentiles_quantiles : forall v w : list R, length w = length v -> (forall x, In x w -> (0 <= x)%R) -> (0 < sumR w)%R ->
  forall idx pcts r,
  Permutation idx (seq 0 (length v)) -> StronglySorted (fun i j => (nth i v 0 <= nth j v 0)%R) idx ->
  StronglySorted Rle pcts -> (forall q, In q pcts -> (0 <= q < 1)%R) ->
  @percentiles XF idx (map Fin v) (map Fin w) (map Fin pcts) = Some r ->
  Forall2 (fun q x => exists z, x = Fin z /\ quantile v w q z) pcts r.
Proof. exact percentiles_quantiles. Qed.

Theorem C05_bin_cuts_quantiles : forall S data sw nbins missing bd j vals ws cuts, SortSpec S ->
  @bin_matrix XF S data sw nbins missing = Some bd -> nbins <> 0%nat ->
  @col_values XF data sw missing j = map Fin vals -> @col_weights XF data sw missing j = map Fin ws ->
  (forall x, In x vals -> xlt (Fin x) xmax = true) -> (forall w, In w ws -> (0 <= w)%R) -> (0 < sumR ws)%R ->
  (nbins + 1 < length (nodup Req_EM_T vals))%nat ->
  @j_get_col xr (b_cuts bd) j = Some cuts ->
  exists c, cuts = c ++ [xmax] /\
    forall x, In x c <-> exists i z, (i < nbins)%nat /\ x = Fin z /\ quantile vals ws (INR i / INR nbins) z.
Proof. exact bin_cuts_quantiles. Qed.

(** *** Examples *)
(** Five rows, two columns, one missing cell; few distinct values in the second column. *)
Definition ex_data : Matrix b64 :=
  matrix_new [z64 5; z64 1; fnan IOps64; z64 3; z64 2;  z64 7; z64 7; z64 8; z64 7; z64 8] 5 2.
Definition ex_sw : list b64 := map z64 [1; 2; 1; 1; 1]%Z.
Definition ex_bd : @BinnedData IE := get no_bins (@bin_matrix IE (@isorts IE) ex_data ex_sw 2 (fnan IOps64)).

Example ex_binned : @bin_matrix IE (@isorts IE) ex_data ex_sw 2 (fnan IOps64) = Some ex_bd /\
  b_data ex_bd = [2; 1; 0; 2; 2;  1; 1; 2; 1; 2] /\ b_nunique ex_bd = [3; 3].
Proof. split; [apply get_some; vm_compute; reflexivity|]. vm_compute. auto. Qed.

Example ex_hyps : SortSpec (@isorts IE) /\ length (m_data ex_data) = m_rows ex_data * m_cols ex_data /\
  length ex_sw = m_rows ex_data /\
  (forall x, In x (m_data ex_data) -> @is_missing IE x (fnan IOps64) = Some true \/
     (@is_missing IE x (fnan IOps64) = Some false /\ flt IOps64 x (fmax IOps64) = true)) /\
  (forall j x, In x (@col_values IE ex_data ex_sw (fnan IOps64) j) -> flt IOps64 x (fmax IOps64) = true) /\
  (forall w, In w (@col_weights IE ex_data ex_sw (fnan IOps64) 0) ->
     fle IOps64 (fzero IOps64) w = true /\ flt IOps64 w (finf IOps64) = true) /\
  (exists w, In w (@col_weights IE ex_data ex_sw (fnan IOps64) 0) /\ flt IOps64 (fzero IOps64) w = true).
Proof.
  split; [apply isorts_spec, i64_ord_laws|]. split; [reflexivity|]. split; [reflexivity|]. split.
  { assert (C : forallb (fun x => match @is_missing IE x (fnan IOps64) with
        Some true => true | Some false => flt IOps64 x (fmax IOps64) | None => false end) (m_data ex_data) = true) by (vm_compute; reflexivity).
    intros x Hx. rewrite forallb_forall in C. specialize (C x Hx).
    destruct (@is_missing IE x (fnan IOps64)) as [[|]|]; auto. discriminate. }
  split.
  { intros j x Hx. destruct j as [|[|j]].
    - assert (C : forallb (fun x => flt IOps64 x (fmax IOps64)) (@col_values IE ex_data ex_sw (fnan IOps64) 0) = true) by (vm_compute; reflexivity).
      rewrite forallb_forall in C. exact (C x Hx).
    - assert (C : forallb (fun x => flt IOps64 x (fmax IOps64)) (@col_values IE ex_data ex_sw (fnan IOps64) 1) = true) by (vm_compute; reflexivity).
      rewrite forallb_forall in C. exact (C x Hx).
    - unfold col_values in Hx. destruct (@m_get_col (fcar (@f64 IE)) ex_data (S (S j))) as [col|] eqn:E; [|destruct Hx]. exfalso.
      unfold m_get_col, m_get_col_slice, m_item_index in E. apply slice_Some in E. destruct E as (_ & E & _).
      cbn in E. lia. }
  split.
  { assert (C : forallb (fun w => fle IOps64 (fzero IOps64) w && flt IOps64 w (finf IOps64))
        (@col_weights IE ex_data ex_sw (fnan IOps64) 0) = true) by (vm_compute; reflexivity).
    intros w Hw. rewrite forallb_forall in C. apply andb_true_iff. exact (C w Hw). }
  apply existsb_exists. vm_compute. reflexivity.
Qed.

(** Exact arithmetic: four distinct values, one row missing, two bins. *)
Example ex_quantiles : let data := matrix_new (map Fin [4; 1; 3; 2]%R ++ [XNaN]) 5 1 in
  let sw := map Fin [1; 2; 1; 1; 1]%R in
  exists bd cuts, @bin_matrix XF (@isorts XF) data sw 2 XNaN = Some bd /\
    @col_values XF data sw XNaN 0 = map Fin [4; 1; 3; 2]%R /\ @col_weights XF data sw XNaN 0 = map Fin [1; 2; 1; 1]%R /\
    (2 + 1 < length (nodup Req_EM_T [4; 1; 3; 2]%R))%nat /\
    @j_get_col xr (b_cuts bd) 0 = Some cuts /\
    exists c, cuts = c ++ [xmax] /\ In (Fin 1) c /\ In (Fin 2) c /\ ~ In (Fin 3) c.
Proof.
  assert (LM : forall r, (r <= 4)%R -> xlt (Fin r) xmax = true).
  { intros r Hr. unfold xmax. apply Rlt_bool_true. eapply Rle_lt_trans; [exact Hr|]. apply IZR_lt. vm_compute. reflexivity. }
  intros data sw.
  assert (CV : @col_values XF data sw XNaN 0 = map Fin [4; 1; 3; 2]%R) by reflexivity.
  assert (CW : @col_weights XF data sw XNaN 0 = map Fin [1; 2; 1; 1]%R) by reflexivity.
  destruct (@bin_matrix_total XF x_ord_laws (@isorts XF) data sw 2 XNaN) as [bd Hbd]; auto.
  - apply isorts_spec, x_ord_laws.
  - cbv; discriminate.
  - intros x Hx. simpl in Hx. destruct Hx as [<-|[<-|[<-|[<-|[<-|[]]]]]]; [right..|left; reflexivity];
      (split; [reflexivity|]; apply LM; lra).
  - assert (ND : length (nodup Req_EM_T [4; 1; 3; 2]%R) = 4%nat).
    { rewrite nodup_fixed_point; [reflexivity|]. repeat constructor; simpl; intuition lra. }
    destruct (@bin_cuts_spec XF x_ord_laws eq_refl (@isorts XF) data sw 2 XNaN bd 0) as (cuts & HC & _); auto.
    + apply isorts_spec, x_ord_laws.
    + intros x Hx. rewrite CV in Hx. apply (o_lt_le _ x_ord_laws).
      simpl in Hx. destruct Hx as [<-|[<-|[<-|[<-|[]]]]]; apply LM; lra.
    + exists bd, cuts. split; auto. split; auto. split; auto. split; [rewrite ND; auto|]. split; auto.
      destruct (C05_bin_cuts_quantiles (@isorts XF) data sw 2 XNaN bd 0 _ _ cuts
        (@isorts_spec XF x_ord_laws) Hbd ltac:(discriminate) CV CW) as (c & EC & Hc); auto.
      * intros x Hx. simpl in Hx. apply LM. intuition lra.
      * intros w Hw. simpl in Hw. intuition lra.
      * simpl. lra.
      * rewrite ND; auto.
      * exists c. split; auto. assert (SW : sumR [1; 2; 1; 1]%R = 5%R) by (simpl; lra).
        assert (Q : forall p x, quantile [4; 1; 3; 2]%R [1; 2; 1; 1]%R p x <->
           (In x [4; 1; 3; 2]%R /\ (p <= mass [4; 1; 3; 2]%R [1; 2; 1; 1]%R x / 5)%R /\
            forall y, In y [4; 1; 3; 2]%R -> (p <= mass [4; 1; 3; 2]%R [1; 2; 1; 1]%R y / 5 -> x <= y)%R)).
        { intros p x. unfold quantile. rewrite SW. tauto. }
        assert (M1 : mass [4; 1; 3; 2]%R [1; 2; 1; 1]%R 1 = 2%R) by (unfold mass; simpl; repeat rcase; lra).
        assert (M2 : mass [4; 1; 3; 2]%R [1; 2; 1; 1]%R 2 = 3%R) by (unfold mass; simpl; repeat rcase; lra).
        assert (M3 : mass [4; 1; 3; 2]%R [1; 2; 1; 1]%R 3 = 4%R) by (unfold mass; simpl; repeat rcase; lra).
        assert (M4 : mass [4; 1; 3; 2]%R [1; 2; 1; 1]%R 4 = 5%R) by (unfold mass; simpl; repeat rcase; lra).
        rewrite !Hc. split; [|split].
        -- exists 0%nat, 1%R. split; auto. split; auto. apply Q. simpl INR. rewrite M1.
           split; [simpl; tauto|]. split; [lra|]. intros y Hy _. simpl in Hy. intuition lra.
        -- exists 1%nat, 2%R. split; auto. split; auto. apply Q. simpl INR. rewrite M2.
           split; [simpl; tauto|]. split; [lra|]. intros y Hy. simpl in Hy.
           destruct Hy as [<-|[<-|[<-|[<-|[]]]]]; rewrite ?M1; lra.
        -- intros (i & z & Hi & Ez & HQ). injection Ez as <-. apply Q in HQ. destruct HQ as (_ & _ & HQ).
           assert (i = 0 \/ i = 1)%nat as [->| ->] by lia.
           ++ specialize (HQ 1%R). simpl in HQ. rewrite M1 in HQ. lra.
           ++ specialize (HQ 2%R). simpl in HQ. rewrite M2 in HQ. lra.
Qed.

Print Assumptions C01_binned_split_agrees.
Print Assumptions C02_bin_zero_iff_missing.
Print Assumptions C03_cuts.
Print Assumptions C04_bin_matrix_total.
Print Assumptions C04_bin_matrix_overflow.
Print Assumptions C01_infinity_refuted.
Print Assumptions C02_zero_weights_refuted.
Print Assumptions C04_bin_overflow_refuted.
Print Assumptions C05_percentiles_quantiles.
Print Assumptions C05_bin_cuts_quantiles.
