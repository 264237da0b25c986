(** The cuts of a column depend only on how much weight each of its values carries (exact arithmetic). *)
From Coq Require Import Reals Lra Lia ZArith NArith List Arith Bool Permutation Sorting.
From Flocq Require Import Core.Raux.
From Verif Require Import Prelude Float FloatX FloatLaws OrdProofs Data DataProofs Utils UtilsX Binning
  BinningProofs CutProofs BinMatrix BinningX CutQuant.
Import ListNotations.
Local Open Scope R_scope.

(** Two strictly sorted lists with the same elements are equal. *)
Lemma strict_unique : forall A (R : A -> A -> Prop), (forall x, ~ R x x) -> (forall x y, R x y -> R y x -> False) ->
  forall l l', StronglySorted R l -> StronglySorted R l' -> (forall x, In x l <-> In x l') -> l' = l.
Proof.
  intros A R IR AS. induction l as [|a l IH]; intros [|b l'] H H' E; auto.
  - destruct (proj2 (E b) (or_introl eq_refl)).
  - destruct (proj1 (E a) (or_introl eq_refl)).
  - inversion H as [|? ? H1 H2]; subst. inversion H' as [|? ? H1' H2']; subst. rewrite Forall_forall in H2, H2'.
    assert (b = a) as ->.
    { destruct (proj1 (E a) (or_introl eq_refl)) as [Q|Q]; auto. destruct (proj2 (E b) (or_introl eq_refl)) as [Q'|Q']; auto.
      exfalso. eapply AS; [apply H2; exact Q'|apply H2'; exact Q]. }
    f_equal. apply IH; auto. intros x. split; intros Hx.
    + destruct (proj1 (E x) (or_intror Hx)) as [<-|]; auto. exfalso. apply (IR a). auto.
    + destruct (proj2 (E x) (or_intror Hx)) as [<-|]; auto. exfalso. apply (IR a). auto.
Qed.

(** The weight of each value is the same on both sides. *)
Definition same_weights (obs obs' : list (R * R)) : Prop := forall psi : R -> R,
  sumR (map (fun o => snd o * psi (fst o)) obs) = sumR (map (fun o => snd o * psi (fst o)) obs').

Lemma weight_in : forall (obs : list (R * R)) x, (forall o, In o obs -> 0 < snd o) ->
  (In x (map fst obs) <-> 0 < sumR (map (fun o => snd o * (if Req_EM_T (fst o) x then 1 else 0)) obs)).
Proof.
  intros obs x. induction obs as [|[a u] obs IH]; intros P.
  - simpl. split; [tauto|lra].
  - assert (P' : forall o, In o obs -> 0 < snd o) by (intros; apply P; right; auto). specialize (IH P').
    assert (U : 0 < u) by (apply (P (a, u)); left; auto).
    assert (Z : 0 <= sumR (map (fun o => snd o * (if Req_EM_T (fst o) x then 1 else 0)) obs)).
    { clear -P'. induction obs as [|[b v] obs IH]; [simpl; lra|]. cbn [map]. rewrite sumR_cons. cbn [fst snd]. assert (0 < v) by (apply (P' (b, v)); left; auto).
      assert (0 <= sumR (map (fun o => snd o * (if Req_EM_T (fst o) x then 1 else 0)) obs)) by (apply IH; intros; apply P'; right; auto).
      destruct (Req_EM_T b x); lra. }
    cbn [map]. rewrite sumR_cons. cbn [fst snd In].
    destruct (Req_EM_T a x) as [->|N]; [split; [intros _; lra|auto]|]. split.
    + intros [->|Q]; [congruence|]. apply IH in Q. lra.
    + intros Q. right. apply IH. lra.
Qed.

Lemma same_values : forall obs obs', (forall o, In o obs -> 0 < snd o) -> (forall o, In o obs' -> 0 < snd o) ->
  same_weights obs obs' -> forall x, In x (map fst obs) <-> In x (map fst obs').
Proof.
  intros obs obs' P P' H x. rewrite !weight_in by auto. pose proof (H (fun z => if Req_EM_T z x then 1 else 0)) as E. cbv beta in E. rewrite E. tauto.
Qed.

Lemma combine_split_map : forall A B (l : list (A * B)), combine (map fst l) (map snd l) = l.
Proof. induction l as [|[a b] l IH]; simpl; congruence. Qed.
Lemma sumR_nn : forall A (f : A -> R) l, (forall x, In x l -> 0 <= f x) -> 0 <= sumR (map f l).
Proof. intros A f l. induction l as [|a l IH]; intros H; [simpl; lra|]. cbn [map]. rewrite sumR_cons. pose proof (H a (or_introl eq_refl)). assert (0 <= sumR (map f l)) by (apply IH; intros; apply H; right; auto). lra. Qed.

Lemma same_mass : forall obs obs' x, same_weights obs obs' ->
  mass (map fst obs) (map snd obs) x = mass (map fst obs') (map snd obs') x.
Proof.
  intros obs obs' x H. unfold mass. rewrite !combine_split_map. pose proof (H (fun z => if Rle_bool z x then 1 else 0)) as E. cbv beta in E.
  transitivity (sumR (map (fun o => snd o * (if Rle_bool (fst o) x then 1 else 0)) obs)); [|rewrite E]; f_equal; apply map_ext;
    intros o; destruct (Rle_bool (fst o) x); ring.
Qed.
Lemma same_total : forall obs obs', same_weights obs obs' -> sumR (map snd obs) = sumR (map snd obs').
Proof.
  intros obs obs' H. pose proof (H (fun _ => 1)) as E. cbv beta in E.
  rewrite (map_ext _ snd) in E by (intros; ring). rewrite E. f_equal. apply map_ext. intros; ring.
Qed.
Lemma same_quantile : forall obs obs' p x, (forall o, In o obs -> 0 < snd o) -> (forall o, In o obs' -> 0 < snd o) ->
  same_weights obs obs' -> quantile (map fst obs) (map snd obs) p x -> quantile (map fst obs') (map snd obs') p x.
Proof.
  intros obs obs' p x P P' H (A & B & C). unfold quantile.
  rewrite <- (same_total _ _ H). split; [apply (same_values _ _ P P' H); auto|]. rewrite <- (same_mass _ _ x H). split; auto.
  intros y Hy. rewrite <- (same_mass _ _ y H). apply C. apply (same_values _ _ P P' H); auto.
Qed.

Lemma possorted_of : forall S vals, @SortSpec XF S ->
  Permutation (sort_pos S (map Fin vals)) (seq 0 (length vals)) /\ possorted vals (sort_pos S (map Fin vals)).
Proof.
  intros S vals SS. destruct (ss_pos _ SS (map Fin vals) (xnums_fin vals)) as [Q1 Q2]. rewrite map_length in Q1. split; auto.
  assert (HB : forall i, In i (sort_pos S (map Fin vals)) -> (i < length vals)%nat).
  { intros i Hi. apply (Permutation_in _ Q1) in Hi. apply in_seq in Hi. lia. }
  unfold possorted. clear -Q2 HB. revert Q2 HB. generalize (sort_pos S (map Fin vals)).
  intros l Q. induction Q as [|i l Q IH FA]; intros HB; constructor; [apply IH; simpl in HB; auto|]. rewrite Forall_forall in *.
  intros k Hk. specialize (FA k Hk (Fin (at_ vals i)) (Fin (at_ vals k))). unfold at_ in *.
  assert (HA : forall a, (a < length vals)%nat -> nth_error (map Fin vals) a = Some (Fin (nth a vals 0))).
  { intros a Ha. rewrite nth_error_map, (nth_error_nth' _ 0 Ha). reflexivity. }
  specialize (FA (HA i (HB i (or_introl eq_refl))) (HA k (HB k (or_intror Hk)))).
  change (Rle_bool (nth i vals 0) (nth k vals 0) = true) in FA. rcase; auto; discriminate.
Qed.

Lemma xeq_fin : forall a (m : xr), xeq (Fin a) m = true -> m = Fin a.
Proof.
  intros a m H. destruct m; try discriminate. simpl in H. destruct (Req_boolP a r) as [[_ ->]|[Q _]]; [reflexivity|congruence].
Qed.

(** The distinct values, sorted. *)
Lemma distinct_same : forall S S' vals vals' s s', @SortSpec XF S -> @SortSpec XF S' -> (forall x, In x vals <-> In x vals') ->
  mapM (nth_error (map Fin vals)) (sort_vals S (map Fin vals)) = Some s ->
  mapM (nth_error (map Fin vals')) (sort_vals S' (map Fin vals')) = Some s' -> @dedup XF s' = @dedup XF s.
Proof.
  intros S S' vals vals' s s' SS SS' V H H'.
  destruct (@sort_vals_sorted XF S (map Fin vals) SS (xnums_fin vals)) as (q & E & PS & SL & NS).
  destruct (@sort_vals_sorted XF S' (map Fin vals') SS' (xnums_fin vals')) as (q' & E' & PS' & SL' & NS').
  assert (q = s) by (apply (f_equal (fun o => match o with Some l => l | None => [] end)) in H, E; simpl in *; congruence). subst q.
  assert (q' = s') by (apply (f_equal (fun o => match o with Some l => l | None => [] end)) in H', E'; simpl in *; congruence). subst q'.
  destruct (@dedup_spec XF x_ord_laws s SL NS) as (D1 & D2 & D3 & _). destruct (@dedup_spec XF x_ord_laws s' SL' NS') as (D1' & D2' & D3' & _).
  assert (HH : forall x, In x (@dedup XF s) <-> In x (map Fin vals)).
  { intros x. split; intros Hx; [apply (Permutation_in _ PS), D2, Hx|]. apply in_map_iff in Hx. destruct Hx as (r & <- & Hr).
    destruct (D3 (Fin r)) as (z & Hz & Ez); [apply (Permutation_in _ (Permutation_sym PS)), in_map; auto|]. apply xeq_fin in Ez. subst z. auto. }
  assert (HH' : forall x, In x (@dedup XF s') <-> In x (map Fin vals')).
  { intros x. split; intros Hx; [apply (Permutation_in _ PS'), D2', Hx|]. apply in_map_iff in Hx. destruct Hx as (r & <- & Hr).
    destruct (D3' (Fin r)) as (z & Hz & Ez); [apply (Permutation_in _ (Permutation_sym PS')), in_map; auto|]. apply xeq_fin in Ez. subst z. auto. }
  apply (strict_unique xr (fun a b => flt (@f64 XF) a b = true)); auto.
  - intros x. rewrite (o_lt_irrefl _ x_ord_laws). discriminate.
  - intros a b A B. pose proof (o_lt_trans _ x_ord_laws _ _ _ A B) as C. rewrite (o_lt_irrefl _ x_ord_laws) in C. discriminate.
  - intros x. rewrite HH, HH', !in_map_iff. split; intros (r & <- & Hr); exists r; split; auto; apply V; auto.
Qed.

Lemma percentiles_or_value_same : forall S S' obs obs' nbins c c', @SortSpec XF S -> @SortSpec XF S' -> nbins <> 0%nat ->
  (forall o, In o obs -> 0 < snd o) -> (forall o, In o obs' -> 0 < snd o) -> same_weights obs obs' ->
  @percentiles_or_value XF S (map Fin (map fst obs)) (map Fin (map snd obs)) (bin_pcts nbins) = Some c ->
  @percentiles_or_value XF S' (map Fin (map fst obs')) (map Fin (map snd obs')) (bin_pcts nbins) = Some c' -> c' = c.
Proof.
  intros S S' obs obs' nbins c c' SS SS' NB P P' W H H'. pose proof (same_values _ _ P P' W) as V.
  unfold percentiles_or_value in H, H'. destruct (_ && _)%bool in H; [discriminate|]. destruct (_ && _)%bool in H'; [discriminate|].
  inv_bind H. inv_bind H'. rewrite (distinct_same S S' _ _ _ _ SS SS' V E E0) in H'.
  destruct (length (dedup v) <=? length (bin_pcts nbins) + 1)%nat eqn:EL; [congruence|].
  rewrite (bin_pcts_X _ NB) in H, H'.
  destruct (possorted_of S (map fst obs) SS) as [Q1 Q2]. destruct (possorted_of S' (map fst obs') SS') as [Q1' Q2'].
  assert (SQ : StronglySorted Rle (map (fun i => INR i / INR nbins) (seq 0 nbins))).
  { apply ss_map_seq. intros a b Hab. apply Rmult_le_compat_r; [left; apply Rinv_0_lt_compat, lt_0_INR; lia|apply le_INR; auto]. }
  assert (BQ : forall q, In q (map (fun i => INR i / INR nbins) (seq 0 nbins)) -> 0 <= q < 1).
  { intros q Hq. apply in_map_iff in Hq. destruct Hq as (i & <- & Hi). apply in_seq in Hi.
    assert (0 < INR nbins) by (apply lt_0_INR; lia). assert (0 <= INR i) by apply pos_INR. assert (INR i < INR nbins) by (apply lt_INR; lia).
    split; [apply Rmult_le_pos; auto; left; apply Rinv_0_lt_compat; auto|]. apply Rmult_lt_reg_r with (INR nbins); auto. unfold Rdiv.
    rewrite Rmult_assoc, Rinv_l by lra. lra. }
  assert (TP : obs <> [] -> 0 < sumR (map snd obs)).
  { intros N. destruct obs as [|o obs]; [congruence|]. simpl. pose proof (P o (or_introl eq_refl)).
    change (0 < snd o + sumR (map snd obs)). assert (0 <= sumR (map snd obs)) by (apply sumR_nn; intros x Hx; left; apply P; right; auto). lra. }
  assert (N : obs <> []).
  { intros N. assert (LV : length v = 0%nat).
    { destruct (@sort_vals_sorted XF S (map Fin (map fst obs)) SS (xnums_fin _)) as (q & Eq & PS & _).
      assert (q = v) by (apply (f_equal (fun o => match o with Some l => l | None => [] end)) in E, Eq; simpl in *; congruence). subst q.
      apply Permutation_length in PS. rewrite PS, N. reflexivity. }
    destruct v; [|discriminate]. discriminate EL. }
  specialize (TP N).
  apply (percentiles_quantiles (map fst obs) (map snd obs)) in H; auto; [|rewrite !map_length; auto|].
  2:{ intros x Hx. apply in_map_iff in Hx. destruct Hx as (o & <- & Ho). left; auto. }
  apply (percentiles_quantiles (map fst obs') (map snd obs')) in H'; auto; [|rewrite !map_length; auto| |rewrite <- (same_total _ _ W); auto].
  2:{ intros x Hx. apply in_map_iff in Hx. destruct Hx as (o & <- & Ho). left; auto. }
  clear - H H' W P P'. revert c' H'. induction H as [|q x ps c (z & -> & Qz) F IH]; intros c' H'; inversion H' as [|? ? ? ? (z' & -> & Qz') F']; subst; auto.
  f_equal; [|apply IH; auto]. f_equal. eapply quantile_unique; [exact Qz'|]. exact (same_quantile _ _ _ _ P P' W Qz).
Qed.
