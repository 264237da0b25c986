(** The cuts of a column with many distinct values are weighted quantiles (exact arithmetic). *)
From Coq Require Import Reals Lra Lia ZArith NArith List Arith Bool Permutation Sorting.
From Flocq Require Import Core.Raux.
From Verif Require Import Prelude Float FloatX FloatLaws OrdProofs Data DataProofs Utils UtilsX Binning
  BinningProofs CutProofs BinMatrix BinningX.
Import ListNotations.
Local Open Scope R_scope.

Lemma bin_pcts_X : forall nbins, nbins <> 0%nat -> @bin_pcts XF nbins = map Fin (map (fun i => INR i / INR nbins) (seq 0 nbins)).
Proof.
  intros nbins H. unfold bin_pcts. rewrite map_map. apply map_ext. intros i. simpl.
  rewrite Req_bool_false; auto. apply not_0_INR; auto.
Qed.

Lemma fst_snd_split : forall A B (l : list (A * B)) f s, map fst l = f -> map snd l = s -> length s = length f.
Proof. intros A B l f s <- <-. rewrite !map_length. auto. Qed.

Lemma xnums_fin : forall vals, nums (@f64 XF) (map Fin vals).
Proof. intros vals x Hx. apply in_map_iff in Hx. destruct Hx as (r & <- & _). reflexivity. Qed.

Lemma ss_map_seq : forall n (f : nat -> R), (forall i j, (i <= j)%nat -> f i <= f j) -> forall a, StronglySorted Rle (map f (seq a n)).
Proof.
  induction n as [|n IH]; intros f H a; simpl; constructor; auto.
  apply Forall_forall. intros x Hx. apply in_map_iff in Hx. destruct Hx as (i & <- & Hi). apply in_seq in Hi. apply H. lia.
Qed.

Lemma Forall2_in_l : forall A B (R : A -> B -> Prop) l m x, Forall2 R l m -> In x l -> exists y, In y m /\ R x y.
Proof. induction 1; simpl; intros []; subst; eauto. destruct IHForall2 as (z & ? & ?); eauto. Qed.
Lemma Forall2_in_r : forall A B (R : A -> B -> Prop) l m y, Forall2 R l m -> In y m -> exists x, In x l /\ R x y.
Proof. induction 1; simpl; intros []; subst; eauto. destruct IHForall2 as (z & ? & ?); eauto. Qed.

Lemma quantile_unique : forall v w p x y, quantile v w p x -> quantile v w p y -> x = y.
Proof. intros v w p x y (A1 & A2 & A3) (B1 & B2 & B3). specialize (A3 y B1 B2). specialize (B3 x A1 A2). lra. Qed.

Lemma xeq_max : forall m, xeq m xmax = true -> m = xmax.
Proof.
  intros m. unfold xmax. generalize (IZR ((2 ^ 53 - 1) * 2 ^ 971)) as z. intros z H. destruct m; try discriminate. simpl in H.
  destruct (Req_boolP r z) as [[_ ->]|[Q _]]; [reflexivity|congruence].
Qed.

Theorem bin_cuts_quantiles : forall S data sw nbins missing bd j vals ws cuts, SortSpec S ->
  @bin_matrix XF S data sw nbins missing = Some bd -> nbins <> 0%nat ->
  @col_values XF data sw missing j = map Fin vals -> @col_weights XF data sw missing j = map Fin ws ->
  (forall x, In x vals -> xlt (Fin x) xmax = true) -> (forall w, In w ws -> 0 <= w) -> 0 < sumR ws ->
  (nbins + 1 < length (nodup Req_EM_T vals))%nat ->
  @j_get_col xr (b_cuts bd) j = Some cuts ->
  exists c, cuts = c ++ [xmax] /\
    forall x, In x c <-> exists i z, (i < nbins)%nat /\ x = Fin z /\ quantile vals ws (INR i / INR nbins) z.
Proof.
  intros S data sw nbins missing bd j vals ws cuts SS H NB HV HW HX WP TP ND HC.
  destruct (@bin_matrix_spec XF _ _ _ _ _ _ H) as (ccols & J & L & _ & HCC & _).
  pose proof (eq_trans (eq_sym (jrep_get_col _ _ _ J j)) HC) as HJ.
  destruct (HCC _ _ HJ) as (col & Hcol & Hcc).
  unfold col_values, col_weights in HV, HW. rewrite Hcol in HV, HW.
  unfold col_cuts in Hcc. inv_bind Hcc. rename v into kept. inv_bind Hcc. rename v into c. injection Hcc as <-.
  apply (@split_missing_spec XF x_ord_laws) in E. destruct E as [-> _].
  assert (E0' : @percentiles_or_value XF S (map Fin vals) (map Fin ws) (@bin_pcts XF nbins) = Some c) by (rewrite <- HV, <- HW; exact E0).
  clear E0. rename E0' into E0.
  assert (LW : length ws = length vals).
  { pose proof (fst_snd_split _ _ _ _ _ HV HW) as Q. rewrite !map_length in Q. auto. }
  assert (SPc : sorted_le (@f64 XF) c /\ forall x, In x c -> In x (map Fin vals)).
  { apply (@percentiles_or_value_spec XF x_ord_laws) in E0; auto; [tauto|apply xnums_fin]. }
  destruct SPc as [SPc SPi].
  destruct (@sort_vals_sorted XF S (map Fin vals) SS (xnums_fin vals)) as (sorted & E & PS & SL & NS).
  unfold percentiles_or_value in E0.
  destruct (_ && _)%bool eqn:EN in E0; [discriminate|]. rewrite E in E0. cbn [bind] in E0.
  destruct (length (dedup sorted) <=? length (bin_pcts nbins) + 1)%nat eqn:EL.
  { exfalso. apply Nat.leb_le in EL. unfold bin_pcts in EL. rewrite map_length, seq_length in EL.

    destruct (@dedup_spec XF x_ord_laws sorted SL NS) as (_ & _ & D3 & _).
    assert (LE : (length (nodup Req_EM_T vals) <= length (map val (@dedup XF sorted)))%nat).
    2:{ rewrite map_length in LE. apply (Nat.lt_irrefl (length (nodup Req_EM_T vals))).
        eapply Nat.le_lt_trans; [exact LE|]. eapply Nat.le_lt_trans; [exact EL|exact ND]. }
    apply NoDup_incl_length; [apply NoDup_nodup|]. intros x Hx. apply nodup_In in Hx.
    destruct (D3 (Fin x)) as (y & Hy & Ey).
    { apply (Permutation_in _ (Permutation_sym PS)). apply in_map; auto. }
    apply in_map_iff. exists y. split; auto. destruct y; try discriminate. simpl in Ey.
    destruct (Req_boolP x r) as [[_ ->]|[Q _]]; [reflexivity|congruence]. }
  rewrite (bin_pcts_X _ NB) in E0.
  destruct (ss_pos _ SS (map Fin vals) (xnums_fin vals)) as [Q1 Q2]. rewrite map_length in Q1.
  apply (percentiles_quantiles vals ws LW WP TP) in E0; auto.
  - assert (HIn : forall x, In x c <-> exists i z, (i < nbins)%nat /\ x = Fin z /\ quantile vals ws (INR i / INR nbins) z).
    { intros x. split.
      - intros Hx. destruct (Forall2_in_r _ _ _ _ _ _ E0 Hx) as (q & Hq & z & -> & QZ).
        apply in_map_iff in Hq. destruct Hq as (i & <- & Hi). apply in_seq in Hi. exists i, z. repeat split; auto; try lia; apply QZ.
      - intros (i & z & Hi & -> & QZ).
        destruct (Forall2_in_l _ _ _ _ _ (INR i / INR nbins) E0) as (y & Hy & z' & -> & QZ').
        { apply in_map_iff. exists i. split; auto. apply in_seq. lia. }
        rewrite (quantile_unique _ _ _ _ _ QZ QZ'). auto. }
    assert (HB : forall x, In x c -> xlt x xmax = true).
    { intros x Hx. apply HIn in Hx. destruct Hx as (i & z & _ & -> & QZ). apply HX. apply QZ. }
    assert (HC' : col_cuts S col sw (bin_pcts nbins) missing = Some (dedup (c ++ [fmax (@f64 XF)]))).
    { destruct (HCC _ _ HJ) as (col' & Hcol' & Hcc'). rewrite Hcol in Hcol'. injection Hcol' as <-. exact Hcc'. }
    assert (HM : forall x, In x (map (@fst xr xr) (@observed XF col sw missing)) -> fle (@f64 XF) x (fmax (@f64 XF)) = true).
    { intros x Hx. assert (Hx' : In x (map Fin vals)) by (rewrite <- HV; exact Hx). clear Hx. rename Hx' into Hx. apply in_map_iff in Hx. destruct Hx as (r & <- & Hr).
      apply (o_lt_le _ x_ord_laws). apply HX. auto. }
    destruct (@col_cuts_spec XF x_ord_laws S col sw (bin_pcts nbins) missing _ SS eq_refl HM HC') as (C1 & C2 & (c' & m & EC & EM & CC) & _).
    exists c'. split.
    { transitivity (c' ++ [m]); [exact EC|]. f_equal. f_equal. apply xeq_max. exact EM. }
    intros x. rewrite <- HIn.
    assert (SCc : sorted_le (@f64 XF) (c ++ [fmax (@f64 XF)])).
    { apply ss_app; auto; [constructor; constructor|]. intros x0 y Hx [<-|[]]. apply (o_lt_le _ x_ord_laws). apply HB; auto. }
    assert (NCc : nums (@f64 XF) (c ++ [fmax (@f64 XF)])).
    { intros x0 Hx. apply in_app_iff in Hx. destruct Hx as [Hx|[<-|[]]]; [|reflexivity]. apply (xnums_fin vals). auto. }
    destruct (@dedup_spec XF x_ord_laws _ SCc NCc) as (_ & D2 & D3 & _).
    split.
    + intros Hx. destruct (CC x Hx) as [_ LX].
      assert (In x (dedup (c ++ [fmax (@f64 XF)]))) as Hd by (rewrite EC; apply in_or_app; auto).
      apply D2 in Hd. apply in_app_iff in Hd. destruct Hd as [Hd|[<-|[]]]; auto.
      exfalso. rewrite (o_lt_irrefl _ x_ord_laws) in LX. discriminate.
    + intros Hx. pose proof (HB x Hx) as LX.
      destruct (D3 x) as (y & Hy & Ey).
      { apply in_or_app; auto. }
      rewrite EC in Hy. apply in_app_iff in Hy.
      assert (x = y) as ->.
      { apply HIn in Hx. destruct Hx as (i & z & _ & -> & _). destruct y; try discriminate. simpl in Ey.
        destruct (Req_boolP z r) as [[_ ->]|[Q _]]; [reflexivity|congruence]. }
      destruct Hy as [Hy|[<-|[]]]; auto. exfalso.
      apply xeq_max in EM. rewrite EM in LX. rewrite (o_lt_irrefl _ x_ord_laws) in LX. discriminate.
  - assert (HB : forall i, In i (sort_pos S (map Fin vals)) -> (i < length vals)%nat).
    { intros i Hi. apply (Permutation_in _ Q1) in Hi. apply in_seq in Hi. lia. }
    unfold possorted. clear -Q2 HB. revert Q2 HB. generalize (sort_pos S (map Fin vals)).
    intros l Q. induction Q as [|i l Q IH FA]; intros HB; constructor; [apply IH; simpl in HB; auto|]. rewrite Forall_forall in *.
    intros k Hk. specialize (FA k Hk (Fin (at_ vals i)) (Fin (at_ vals k))). unfold at_ in *.
    assert (HA : forall a, (a < length vals)%nat -> nth_error (map Fin vals) a = Some (Fin (nth a vals 0))).
    { intros a Ha. rewrite nth_error_map, (nth_error_nth' _ 0 Ha). reflexivity. }
    specialize (FA (HA i (HB i (or_introl eq_refl))) (HA k (HB k (or_intror Hk)))).
    change (Rle_bool (nth i vals 0) (nth k vals 0) = true) in FA. rcase; auto; discriminate.
  - apply ss_map_seq. intros a b Hab. apply Rmult_le_compat_r.
    + left. apply Rinv_0_lt_compat. apply lt_0_INR. lia.
    + apply le_INR; auto.
  - intros q Hq. apply in_map_iff in Hq. destruct Hq as (i & <- & Hi). apply in_seq in Hi.
    assert (0 < INR nbins) by (apply lt_0_INR; lia). assert (INR i < INR nbins) by (apply lt_INR; lia). assert (0 <= INR i) by apply pos_INR.
    split.
    + apply Rmult_le_pos; auto. left. apply Rinv_0_lt_compat; auto.
    + apply Rmult_lt_reg_r with (INR nbins); auto. unfold Rdiv. rewrite Rmult_assoc, Rinv_l by lra. lra.
Qed.
