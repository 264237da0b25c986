(** Cut points, bins and row routing commute with order preserving changes of feature values. *)
From Coq Require Import List Arith Lia Bool Permutation Sorting.
From Verif Require Import Prelude Float FloatLaws OrdProofs Data DataProofs Utils Binning BinningProofs CutProofs BinMatrix
  Histogram HistogramProofs Node Splitter Tree Sim Recode.
Import ListNotations.

Section Rescale.
Context {FS : Floats}.
Variable OL : OrdLaws (@f64 FS).
Notation FM := (fmax (@f64 FS)).
Notation num x := (fisnan (@f64 FS) x = false).

(** The comparisons between the elements of two lists agree. *)
Definition same_order (v v' : list F64) : Prop :=
  length v' = length v /\
  forall i j a b a' b', nth_error v i = Some a -> nth_error v j = Some b -> nth_error v' i = Some a' -> nth_error v' j = Some b' ->
    (a' <=? b')%f64 = (a <=? b)%f64.
(** A sort that only compares: lists in the same order are permuted alike. *)
Definition compares (S : Sorts) : Prop := forall v v', nums (@f64 FS) v -> nums (@f64 FS) v' -> same_order v v' ->
  sort_vals S v' = sort_vals S v /\ sort_pos S v' = sort_pos S v.

Section Column.
Variable phi : F64 -> F64.
Variable P : F64 -> Prop.
Hypothesis Pnum : forall v, P v -> num v /\ num (phi v).
Hypothesis Ple : forall u v, P u -> P v -> (phi u <=? phi v)%f64 = (u <=? v)%f64.
Hypothesis Pmax : forall v, P v -> (v <? FM)%f64 = true /\ (phi v <? FM)%f64 = true.

Lemma Plt : forall u v, P u -> P v -> (phi u <? phi v)%f64 = (u <? v)%f64.
Proof.
  intros u v HU HV. destruct (Pnum u HU) as [U1 U2]. destruct (Pnum v HV) as [V1 V2].
  destruct (u <? v)%f64 eqn:E.
  - apply not_false_is_true. intros X. apply (o_nlt _ OL) in X; auto. rewrite Ple in X by auto.
    apply (o_lt_nle _ OL) in E. congruence.
  - apply (o_nlt _ OL) in E; auto. apply (o_nlt _ OL); auto. rewrite Ple; auto.
Qed.
Lemma Peq : forall u v, P u -> P v -> (phi u =? phi v)%f64 = (u =? v)%f64.
Proof.
  intros u v HU HV. apply eq_true_iff_eq. rewrite !(o_eq _ OL), !Ple by auto. tauto.
Qed.

Lemma dedup_from_map : forall l a, P a -> Forall P l -> dedup_from (phi a) (map phi l) = map phi (dedup_from a l).
Proof.
  induction l as [|x l IH]; intros a HA HL; simpl; auto. inversion HL; subst.
  rewrite Peq by auto. destruct (x =? a)%f64; simpl; auto. f_equal. auto.
Qed.
Lemma dedup_map : forall l, Forall P l -> dedup (map phi l) = map phi (dedup l).
Proof. intros [|x l] HL; simpl; auto. inversion HL; subst. f_equal. apply dedup_from_map; auto. Qed.
Lemma dedup_from_P : forall l a, Forall P l -> Forall P (dedup_from a l).
Proof. induction l as [|x l IH]; intros a HL; simpl; auto. inversion HL; subst. destruct (x =? a)%f64; auto. Qed.
Lemma dedup_P : forall l, Forall P l -> Forall P (dedup l).
Proof. intros [|x l] HL; simpl; auto. inversion HL; subst. constructor; auto. apply dedup_from_P; auto. Qed.

Lemma max_neq : forall v, (v <? FM)%f64 = true -> (FM =? v)%f64 = false.
Proof. intros v H. rewrite (o_eq_sym _ OL). apply (o_lt_neq _ OL); auto. Qed.
Lemma dedup_from_max : forall l a, (a <? FM)%f64 = true -> Forall (fun v => (v <? FM)%f64 = true) l ->
  dedup_from a (l ++ [FM]) = dedup_from a l ++ [FM].
Proof.
  induction l as [|x l IH]; intros a HA HL; simpl.
  - rewrite max_neq; auto.
  - inversion HL; subst. destruct (x =? a)%f64; simpl; rewrite IH; auto.
Qed.
Lemma dedup_max : forall l, Forall (fun v => (v <? FM)%f64 = true) l -> dedup (l ++ [FM]) = dedup l ++ [FM].
Proof. intros [|x l] HL; simpl; auto. inversion HL; subst. f_equal. apply dedup_from_max; auto. Qed.

Lemma nums_P : forall l, Forall P l -> nums (@f64 FS) l /\ nums (@f64 FS) (map phi l).
Proof.
  intros l HL. rewrite Forall_forall in HL. split; intros x Hx.
  - apply Pnum; auto.
  - apply in_map_iff in Hx. destruct Hx as (y & <- & Hy). apply Pnum; auto.
Qed.
Lemma same_order_map : forall l, Forall P l -> same_order l (map phi l).
Proof.
  intros l HL. split; [apply map_length|]. intros i j a b a' b' A B A' B'. rewrite Forall_forall in HL.
  rewrite nth_error_map, A in A'. rewrite nth_error_map, B in B'. simpl in *. injection A' as <-. injection B' as <-.
  apply Ple; apply HL; eapply nth_error_In; eauto.
Qed.
Lemma mapM_nth_map : forall v idx, mapM (nth_error (map phi v)) idx = option_map (map phi) (mapM (nth_error v) idx).
Proof.
  intros v. induction idx as [|i idx IH]; simpl; auto. rewrite nth_error_map, IH.
  destruct (nth_error v i); simpl; auto. destruct (mapM (nth_error v) idx); reflexivity.
Qed.
Lemma mapM_nth_P : forall v idx l, Forall P v -> mapM (nth_error v) idx = Some l -> Forall P l.
Proof.
  intros v. induction idx as [|i idx IH]; intros l HV H; simpl in H.
  - injection H as <-. constructor.
  - inv_bind H. inv_bind H. injection H as <-. constructor; eauto. rewrite Forall_forall in HV. apply HV. eapply nth_error_In; eauto.
Qed.
Lemma nan_P : forall l, Forall P l -> existsb (fisnan f64) l = false.
Proof.
  intros l HL. apply not_true_is_false. intros X. apply existsb_exists in X. destruct X as (x & Hx & N).
  rewrite Forall_forall in HL. destruct (Pnum x (HL x Hx)). congruence.
Qed.
Lemma nan_map : forall l, Forall P l -> existsb (fisnan f64) (map phi l) = false.
Proof.
  intros l HL. apply not_true_is_false. intros X. apply existsb_exists in X. destruct X as (x & Hx & N).
  apply in_map_iff in Hx. destruct Hx as (y & <- & Hy).
  rewrite Forall_forall in HL. destruct (Pnum y (HL y Hy)). congruence.
Qed.

(** *** Percentiles *)
Lemma pct_inner_map : forall pcts cuml cur value p,
  pct_inner cuml cur pcts (phi value) (map phi p) =
  match pct_inner cuml cur pcts value p with inl q => inl (map phi q) | inr (c, ps, q) => inr (c, ps, map phi q) end.
Proof.
  induction pcts as [|a pcts IH]; intros cuml cur value p; simpl; destruct (cur <=? cuml)%f64; auto.
  - rewrite map_app. reflexivity.
  - rewrite <- IH, map_app. reflexivity.
Qed.
Lemma pct_inner_P : forall pcts cuml cur value p, P value -> Forall P p ->
  match pct_inner cuml cur pcts value p with inl q => Forall P q | inr (c, ps, q) => Forall P q end.
Proof.
  induction pcts as [|a pcts IH]; intros cuml cur value p HV HP; simpl; destruct (cur <=? cuml)%f64; auto.
  - apply Forall_app; auto.
  - apply IH; auto. apply Forall_app; auto.
Qed.
Lemma pct_loop_map : forall v w total lastv idx cuml cur pcts cv p, Forall P v -> P cv -> P lastv -> Forall P p ->
  pct_loop (map phi v) w total (phi lastv) idx cuml cur pcts (phi cv) (map phi p) =
  option_map (map phi) (pct_loop v w total lastv idx cuml cur pcts cv p) /\
  forall q, pct_loop v w total lastv idx cuml cur pcts cv p = Some q -> Forall P q.
Proof.
  intros v w total lastv. induction idx as [|i idx IH]; intros cuml cur pcts cv p HV HC HL HP; simpl.
  - split; auto. intros q H. injection H as <-. auto.
  - rewrite nth_error_map. destruct (nth_error v i) as [vi|] eqn:EV; simpl; [|split; [auto|discriminate]].
    assert (PV : P vi) by (rewrite Forall_forall in HV; apply HV; eapply nth_error_In; eauto).
    destruct (nth_error w i) as [wi|]; simpl; [|split; [auto|discriminate]].
    rewrite Peq by auto.
    assert (EC : (if (cv =? vi)%f64 then phi cv else phi vi) = phi (if (cv =? vi)%f64 then cv else vi)) by (destruct (cv =? vi)%f64; auto).
    rewrite EC. assert (PC : P (if (cv =? vi)%f64 then cv else vi)). { destruct (cv =? vi)%f64. exact HC. exact PV. }
    destruct (_ || _)%bool.
    + rewrite pct_inner_map. pose proof (pct_inner_P pcts (cuml + wi / total)%f64 cur _ p PC HP) as Q.
      destruct (pct_inner _ _ _ _ _) as [q|[[c ps] q]].
      * split; auto. intros q' H. injection H as <-. auto.
      * apply IH; auto.
    + destruct (cur =? fone f64)%f64; [|apply IH; auto].
      split; [simpl; rewrite map_app; reflexivity|]. intros q H. injection H as <-. apply Forall_app; auto.
Qed.
Lemma percentiles_map : forall idx v w pcts, Forall P v ->
  percentiles idx (map phi v) w pcts = option_map (map phi) (percentiles idx v w pcts) /\
  forall q, percentiles idx v w pcts = Some q -> Forall P q.
Proof.
  intros idx v w pcts HV. unfold percentiles. rewrite map_length, nan_map, nan_P by auto. rewrite andb_false_r.
  destruct pcts as [|cur pcts]; [split; [auto|discriminate]|].
  destruct (nth_error idx 0) as [i0|]; simpl; [|split; [auto|discriminate]].
  rewrite !nth_error_map. destruct (nth_error v i0) as [v0|] eqn:E0; simpl; [|split; [auto|discriminate]].
  destruct (nth_error v (last idx 0)) as [vl|] eqn:EL; simpl; [|split; [auto|discriminate]].
  rewrite Forall_forall in HV.
  apply (pct_loop_map v w _ vl idx _ cur pcts v0 []); auto.
  - apply Forall_forall; auto.
  - apply HV. eapply nth_error_In; eauto.
  - apply HV. eapply nth_error_In; eauto.
Qed.
Lemma percentiles_or_value_map : forall S v w pcts, compares S -> Forall P v ->
  percentiles_or_value S (map phi v) w pcts = option_map (map phi) (percentiles_or_value S v w pcts) /\
  forall q, percentiles_or_value S v w pcts = Some q -> Forall P q.
Proof.
  intros S v w pcts CS HV. unfold percentiles_or_value. rewrite map_length, nan_map, nan_P by auto. rewrite andb_false_r.
  destruct (nums_P v HV) as [N1 N2].
  destruct (CS v (map phi v) N1 N2 (same_order_map v HV)) as [-> ->].
  rewrite mapM_nth_map. destruct (mapM (nth_error v) (sort_vals S v)) as [sorted|] eqn:ES; simpl; [|split; [auto|discriminate]].
  assert (HS := mapM_nth_P _ _ _ HV ES). rewrite dedup_map, map_length by auto.
  destruct (_ <=? _); [|apply percentiles_map; auto].
  split; auto. intros q H. injection H as <-. apply dedup_P; auto.
Qed.

(** *** Bins *)
Lemma bsearch_same : forall x x' v v', length x' = length x ->
  (forall i a a', nth_error x i = Some a -> nth_error x' i = Some a' -> (a' <=? v')%f64 = (a <=? v)%f64) ->
  forall fuel low high, bsearch fuel x' v' low high = bsearch fuel x v low high.
Proof.
  intros x x' v v' HL HX. induction fuel as [|fu IH]; intros low high; cbn [bsearch]; destruct (low =? high); auto. cbv zeta.
  destruct (nth_error x ((low + high) / 2)) as [a|] eqn:EA.
  - destruct (nth_error x' ((low + high) / 2)) as [a'|] eqn:EA'.
    + cbn [bind]. rewrite (HX _ _ _ EA EA'), !IH. reflexivity.
    + apply nth_error_None in EA'. assert ((low + high) / 2 < length x) by (apply nth_error_Some; congruence). lia.
  - destruct (nth_error x' ((low + high) / 2)) as [a'|] eqn:EA'; auto.
    apply nth_error_None in EA. assert ((low + high) / 2 < length x') by (apply nth_error_Some; congruence). lia.
Qed.
End Column.

(** *** Matrices *)
(** every value of feature j replaced by its image under [phi j] *)
Definition recode (phi : nat -> F64 -> F64) (m : Matrix F64) : Matrix F64 :=
  mkMatrix (map (fun iv : nat * F64 => phi (fst iv / m_rows m) (snd iv)) (combine (seq 0 (length (m_data m))) (m_data m)))
    (m_index m) (m_rows m) (m_cols m).
Definition cells (D : nat -> F64 -> Prop) (m : Matrix F64) : Prop :=
  forall k v, nth_error (m_data m) k = Some v -> D (k / m_rows m) v.

(** A change of the values of each feature: missing stays missing, the order of the others is kept,
    and nothing reaches f64::MAX, which closes the list of cuts. *)
Record recoding (D : nat -> F64 -> Prop) (missing : F64) (phi : nat -> F64 -> F64) : Prop := mkRecoding {
  rc_missing : forall f v, D f v -> is_missing (phi f v) missing = is_missing v missing;
  rc_le : forall f u v, D f u -> D f v -> is_missing u missing = Some false -> is_missing v missing = Some false ->
    (phi f u <=? phi f v)%f64 = (u <=? v)%f64;
  rc_max : forall f v, D f v -> is_missing v missing = Some false -> (v <? FM)%f64 = true /\ (phi f v <? FM)%f64 = true }.

Section Matrices.
Variables (D : nat -> F64 -> Prop) (missing : F64) (phi : nat -> F64 -> F64).
Hypothesis RC : recoding D missing phi.
Notation ok f := (fun v => D f v /\ is_missing v missing = Some false).

Lemma missing_num : forall v, is_missing v missing = Some false -> num v.
Proof. intros v H. unfold is_missing in H. destruct (fisnan f64 missing); destruct (fisnan f64 v); congruence. Qed.
Lemma ok_num : forall f v, ok f v -> num v /\ num (phi f v).
Proof. intros f v [H1 H2]. split; apply missing_num; auto. rewrite (rc_missing _ _ _ RC); auto. Qed.
Lemma ok_le : forall f u v, ok f u -> ok f v -> (phi f u <=? phi f v)%f64 = (u <=? v)%f64.
Proof. intros f u v [H1 H2] [H3 H4]. apply (rc_le _ _ _ RC); auto. Qed.
Lemma ok_max : forall f v, ok f v -> (v <? FM)%f64 = true /\ (phi f v <? FM)%f64 = true.
Proof. intros f v [H1 H2]. apply (rc_max _ _ _ RC f v); auto. Qed.

Lemma recode_length : forall m, length (m_data (recode phi m)) = length (m_data m).
Proof. intros m. simpl. rewrite map_length, combine_length, seq_length. lia. Qed.
Lemma recode_nth : forall m k, nth_error (m_data (recode phi m)) k = option_map (phi (k / m_rows m)) (nth_error (m_data m) k).
Proof.
  intros m k. destruct (nth_error (m_data m) k) as [v|] eqn:E; simpl.
  - rewrite nth_error_map. rewrite (nth_error_combine _ _ _ (nth_error_seq 0 (nth_error_Some_lt _ _ E)) E). reflexivity.
  - apply nth_error_None. apply nth_error_None in E. rewrite <- recode_length in E. exact E.
Qed.
Lemma recode_get : forall m i j, i < m_rows m -> m_get (recode phi m) i j = option_map (phi j) (m_get m i j).
Proof.
  intros m i j Hi. unfold m_get, m_item_index. rewrite recode_nth. cbn [recode m_rows]. do 2 f_equal.
  rewrite Nat.mul_1_l, Nat.div_add by lia. rewrite Nat.div_small; auto.
Qed.
Lemma cells_get : forall m i j v, cells D m -> i < m_rows m -> m_get m i j = Some v -> D j v.
Proof.
  intros m i j v HC Hi H. unfold m_get, m_item_index in H. apply HC in H.
  rewrite Nat.mul_1_l, Nat.div_add in H by lia. rewrite Nat.div_small in H; auto.
Qed.
Lemma nth_firstn : forall A (l : list A) n k, nth_error (firstn n l) k = if k <? n then nth_error l k else None.
Proof.
  induction l as [|a l IH]; intros [|n] [|k]; simpl; auto.
  - destruct (S k <? S n); auto.
  - rewrite IH. reflexivity.
Qed.
Lemma recode_col : forall m j, m_get_col (recode phi m) j = option_map (map (phi j)) (m_get_col m j).
Proof.
  intros m j. unfold m_get_col, m_get_col_slice, m_item_index, slice. rewrite recode_length.
  cbn [recode m_rows]. destruct (_ && _); cbn [option_map]; auto. f_equal. apply list_ext_nth. intros k.
  rewrite nth_error_map, !nth_firstn, !nth_skipn. destruct (Nat.ltb_spec k (1 * m_rows m + j * m_rows m - (1 * 0 + j * m_rows m))); auto.
  rewrite recode_nth.
  assert (Q : (1 * 0 + j * m_rows m + k) / m_rows m = j).
  { rewrite Nat.mul_0_r, Nat.add_0_l, Nat.add_comm, Nat.div_add by lia. rewrite Nat.div_small; auto; lia. }
  rewrite Q. reflexivity.
Qed.
Lemma cells_col : forall m j col, cells D m -> m_get_col m j = Some col -> Forall (D j) col.
Proof.
  intros m j col HC H. apply Forall_forall. intros v Hv. apply In_nth_error in Hv. destruct Hv as [k Hk].
  unfold m_get_col, m_get_col_slice, m_item_index, slice in H. destruct (_ && _); [|discriminate]. injection H as <-.
  assert (LK : k < m_rows m).
  { apply nth_error_Some_lt in Hk. rewrite firstn_length in Hk. lia. }
  rewrite nth_firstn, nth_skipn in Hk. destruct (k <? _); [|discriminate].
  apply HC in Hk. rewrite Nat.add_comm, Nat.div_add in Hk by lia.
  rewrite Nat.div_small in Hk; auto; lia.
Qed.

(** *** Cuts *)
Lemma split_missing_map : forall f col sw, Forall (D f) col ->
  split_missing (map (phi f) col) sw missing = option_map (map (fun vw => (phi f (fst vw), snd vw))) (split_missing col sw missing) /\
  forall kept, split_missing col sw missing = Some kept -> Forall (ok f) (map fst kept).
Proof.
  intros f col. unfold split_missing.
  induction col as [|v col IH]; intros sw HD; simpl.
  - split; auto. intros kept H. injection H as <-. constructor.
  - destruct sw as [|w sw]; simpl.
    + split; auto. intros kept H. injection H as <-. constructor.
    + inversion HD; subst. rewrite (rc_missing _ _ _ RC) by auto. destruct (is_missing v missing) as [m|] eqn:EM; simpl; [|split; [auto|discriminate]].
      destruct (IH sw) as [IH1 IH2]; auto.
      destruct (mapM _ (combine (map (phi f) col) sw)) as [fl'|]; simpl in *.
      * destruct (mapM _ (combine col sw)) as [fl|]; simpl in *; [|discriminate]. injection IH1 as IH1.
        split; [|intros kept H; injection H as <-].
        -- destruct m; simpl; rewrite IH1; reflexivity.
        -- destruct m; simpl; [|constructor; auto]; apply IH2; auto.
      * destruct (mapM _ (combine col sw)) as [fl|]; simpl in *; [discriminate|]. split; [auto|discriminate].
Qed.

Lemma col_cuts_map : forall S f col sw pcts cc, compares S -> Forall (D f) col ->
  col_cuts S col sw pcts missing = Some cc ->
  exists k, cc = k ++ [FM] /\ Forall (ok f) k /\ col_cuts S (map (phi f) col) sw pcts missing = Some (map (phi f) k ++ [FM]).
Proof.
  intros S f col sw pcts cc CS HD H. unfold col_cuts in *. destruct (split_missing_map f col sw HD) as [E1 HK]. rewrite E1.
  inv_bind H. rename v into kept. specialize (HK _ E). inv_bind H. rename v into c. injection H as <-. rewrite E.
  simpl. rewrite !map_map. simpl. rewrite <- (map_map fst (phi f)). change (map (fun x : F64 * F64 => snd x) kept) with (map snd kept).
  destruct (percentiles_or_value_map (phi f) (ok f) (ok_num f) (ok_le f) S (map fst kept) (map snd kept) pcts CS HK) as [E2 HP].
  rewrite E2, E0. simpl. specialize (HP _ E0). exists (dedup c).
  assert (M1 : Forall (fun v => (v <? FM)%f64 = true) c).
  { apply Forall_forall. intros x Hx. rewrite Forall_forall in HP. apply (ok_max f); auto. }
  assert (M2 : Forall (fun v => (v <? FM)%f64 = true) (map (phi f) c)).
  { apply Forall_forall. intros x Hx. apply in_map_iff in Hx. destruct Hx as (y & <- & Hy). rewrite Forall_forall in HP. apply (ok_max f). apply HP; auto. }
  rewrite !dedup_max by auto. split; auto. split; [apply dedup_P; auto|].
  rewrite (dedup_map (phi f) (ok f) (ok_le f) c HP). reflexivity.
Qed.

(** *** Bins *)
Definition bin_rel (f : nat) (cc cc' : list F64) : Prop := exists k, cc = k ++ [FM] /\ Forall (ok f) k /\ cc' = map (phi f) k ++ [FM].

Lemma missing_flag : forall v, (fisnan f64 v || (v =? missing)%f64)%bool = negb match is_missing v missing with Some false => true | _ => false end.
Proof.
  intros v. unfold is_missing. destruct (fisnan f64 missing) eqn:EM.
  - assert ((v =? missing)%f64 = false) as ->.
    { apply not_true_is_false. intros X. apply (o_eq _ OL) in X. destruct X as [X _]. apply (ol_le_nan _ OL) in X. destruct X; congruence. }
    destruct (fisnan f64 v); reflexivity.
  - destruct (fisnan f64 v); auto. destruct (v =? missing)%f64; reflexivity.
Qed.

Lemma map_bin_map : forall f cc cc' v, bin_rel f cc cc' -> D f v ->
  map_bin cc' (phi f v) missing = map_bin cc v missing.
Proof.
  intros f cc cc' v (k & -> & HK & ->) HD. unfold map_bin. rewrite !missing_flag, (rc_missing _ _ _ RC) by auto.
  destruct (is_missing v missing) as [[|]|] eqn:EM; simpl; auto.
  rewrite !app_length, map_length. 
  rewrite (bsearch_same (k ++ [FM]) (map (phi f) k ++ [FM]) v (phi f v)); auto.
  - rewrite !app_length, map_length. reflexivity.
  - intros i a a' HA HA'. destruct (Nat.ltb_spec i (length k)).
    + rewrite nth_error_app1 in HA by auto. rewrite nth_error_app1 in HA' by (rewrite map_length; auto).
      rewrite nth_error_map, HA in HA'. simpl in HA'. injection HA' as <-. apply ok_le; auto.
      rewrite Forall_forall in HK. apply HK. eapply nth_error_In; eauto.
    + rewrite nth_error_app2 in HA by auto. rewrite nth_error_app2 in HA' by (rewrite map_length; auto). rewrite map_length in HA'.
      destruct (i - length k) as [|[|?]]; simpl in *; try discriminate. injection HA as <-. injection HA' as <-.
      destruct (ok_max f v (conj HD EM)) as [M1 M2]. rewrite (o_lt_nle _ OL _ _ M1), (o_lt_nle _ OL _ _ M2). reflexivity.
Qed.
End Matrices.
End Rescale.
