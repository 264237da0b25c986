(** Percentiles under exact arithmetic; a concrete sort; counterexamples of binning. *)
From Coq Require Import Reals Lra Lia ZArith NArith List Arith Bool Permutation Sorting.
From Flocq Require Import Core.Raux.
From Verif Require Import Prelude Float FloatX FloatI FloatLaws OrdProofs Data DataProofs Utils UtilsX Binning
  BinningProofs CutProofs BinMatrix.
Import ListNotations.

(** *** A sort that meets the specification *)
Section Isort.
Context {FS : Floats}.
Variable OL : OrdLaws (@f64 FS).

Fixpoint insert_pos (v : list F64) (i : nat) (l : list nat) : list nat :=
  match l with
  | [] => [i]
  | j :: r => if (nth i v (fzero f64) <=? nth j v (fzero f64))%f64 then i :: l else j :: insert_pos v i r
  end.
Definition isort (v : list F64) : list nat := fold_right (insert_pos v) [] (seq 0 (length v)).

Lemma insert_perm : forall v i l, Permutation (insert_pos v i l) (i :: l).
Proof.
  intros v i. induction l as [|j l IH]; simpl; auto.
  destruct (nth i v (fzero f64) <=? nth j v (fzero f64))%f64; auto.
  etransitivity; [apply perm_skip; exact IH|apply perm_swap].
Qed.

Lemma isort_perm : forall v l, Permutation (fold_right (insert_pos v) [] l) l.
Proof.
  intros v. induction l as [|i l IH]; simpl; auto.
  etransitivity; [apply insert_perm|]. auto.
Qed.

Lemma insert_sorted : forall v i l, nums (@f64 FS) v -> i < length v -> (forall j, In j l -> j < length v) ->
  StronglySorted (fun i j => fle f64 (nth i v (fzero f64)) (nth j v (fzero f64)) = true) l ->
  StronglySorted (fun i j => fle f64 (nth i v (fzero f64)) (nth j v (fzero f64)) = true) (insert_pos v i l).
Proof.
  intros v i l N Hi. induction l as [|j l IH]; intros B S; simpl.
  - constructor; constructor.
  - inversion S as [|? ? S' FA]; subst. rewrite Forall_forall in FA.
    destruct (nth i v (fzero f64) <=? nth j v (fzero f64))%f64 eqn:E.
    + constructor; auto. constructor; auto. apply Forall_forall. intros k Hk. eapply (ol_le_trans _ OL); eauto.
    + constructor; [apply IH; auto; intros; apply B; simpl; auto|].
      apply Forall_forall. intros k Hk. apply (Permutation_in _ (insert_perm v i l)) in Hk.
      destruct Hk as [<-|Hk]; auto.
      assert (fisnan f64 (nth i v (fzero f64)) = false) by (apply N; apply nth_In; auto).
      assert (fisnan f64 (nth j v (fzero f64)) = false) by (apply N; apply nth_In; apply B; simpl; auto).
      destruct (ol_le_total _ OL (nth j v (fzero f64)) (nth i v (fzero f64))); auto. congruence.
Qed.

Lemma isort_sorts : sorts isort.
Proof.
  intros v N. split; [apply isort_perm|]. unfold isort.
  assert (S : StronglySorted (fun i j => fle f64 (nth i v (fzero f64)) (nth j v (fzero f64)) = true)
    (fold_right (insert_pos v) [] (seq 0 (length v)))).
  { assert (B : forall i, In i (seq 0 (length v)) -> i < length v) by (intros i Hi; apply in_seq in Hi; lia).
    revert B. generalize (seq 0 (length v)). induction l as [|i l IH]; intros B; simpl; [constructor|].
    apply insert_sorted; auto.
    - apply B; simpl; auto.
    - intros j Hj. apply (Permutation_in _ (isort_perm v l)) in Hj. apply B; simpl; auto.
    - apply IH. intros; apply B; simpl; auto. }
  clear -S. induction S as [|i l S IH FA]; constructor; auto. rewrite Forall_forall in *. intros j Hj x y Hx Hy.
  specialize (FA j Hj). rewrite (nth_error_nth _ _ _ Hx), (nth_error_nth _ _ _ Hy) in FA. auto.
Qed.

Definition isorts : Sorts := mkSorts isort isort.
Lemma isorts_spec : SortSpec isorts.
Proof. constructor; apply isort_sorts. Qed.
End Isort.

(** *** Weighted quantiles *)
Local Open Scope R_scope.

(** Weight of the values that are at most [x]. *)
Definition mass (v w : list R) (x : R) : R :=
  sumR (map (fun vw => if Rle_bool (fst vw) x then snd vw else 0) (combine v w)).
(** [x] is the smallest observed value with at least the share [p] of the weight. *)
Definition quantile (v w : list R) (p x : R) : Prop :=
  In x v /\ p <= mass v w x / sumR w /\ forall y, In y v -> p <= mass v w y / sumR w -> x <= y.

Lemma pct_inner_full : forall pcts cuml cur value p,
  match @pct_inner XF (Fin cuml) (Fin cur) (map Fin pcts) value p with
  | inl p' => (forall q, In q (cur :: pcts) -> q <= cuml) /\ p' = p ++ repeat value (length (cur :: pcts))
  | inr (cur', pcts', p') => exists pushed c ps, cur' = Fin c /\ pcts' = map Fin ps /\ cur :: pcts = pushed ++ c :: ps /\
      (forall q, In q pushed -> q <= cuml) /\ cuml < c /\ p' = p ++ repeat value (length pushed)
  end.
Proof.
  induction pcts as [|q pcts IH]; intros cuml cur value p; cbn [pct_inner map];
    change (fle (@f64 XF) (Fin cur) (Fin cuml)) with (Rle_bool cur cuml).
  - destruct (Rle_boolP cur cuml) as [[-> E]|[-> E]].
    + split; auto. intros q [<-|[]]; auto.
    + exists [], cur, []. simpl. rewrite app_nil_r. repeat split; auto. tauto.
  - destruct (Rle_boolP cur cuml) as [[-> E]|[-> E]].
    + specialize (IH cuml q value (p ++ [value])).
      match goal with |- context [@pct_inner ?f ?a ?b ?c ?d ?e] => destruct (@pct_inner f a b c d e) as [p'|[[c' ps'] p']] end.
      * destruct IH as [I1 ->]. split; [|rewrite <- app_assoc; reflexivity]. intros z [<-|Hz]; auto.
      * destruct IH as (pushed & c & ps & -> & -> & E1 & I1 & I2 & ->).
        exists (cur :: pushed), c, ps. rewrite <- app_assoc. repeat split; auto.
        -- simpl. rewrite E1; auto.
        -- intros z [<-|Hz]; auto.
    + exists [], cur, (q :: pcts). simpl. rewrite app_nil_r. repeat split; auto. tauto.
Qed.

Section Quantile.
Variables v w : list R.
Hypothesis Lw : length w = length v.
Hypothesis Wpos : forall x, In x w -> 0 <= x.
Hypothesis Tpos : 0 < sumR w.

Definition at_ (l : list R) (i : nat) : R := nth i l 0.

Lemma mass_perm : forall idx x, Permutation idx (seq 0 (length v)) ->
  mass v w x = sumR (map (fun i => if Rle_bool (at_ v i) x then at_ w i else 0) idx).
Proof.
  intros idx x P. rewrite (sumR_perm _ _ (Permutation_map _ P)). unfold mass, at_.
  clear -Lw. revert w Lw. induction v as [|a v' IH]; intros [|b w'] L; try discriminate; simpl; auto.
  rewrite IH by (simpl in L; lia). f_equal. rewrite <- seq_shift, map_map. reflexivity.
Qed.

Lemma sum_perm : forall idx, Permutation idx (seq 0 (length v)) -> sumR w = sumR (map (at_ w) idx).
Proof.
  intros idx P. rewrite (sumR_perm _ _ (Permutation_map _ P)), <- Lw. unfold at_. rewrite map_nth_seq. auto.
Qed.

Lemma w_at_pos : forall i, 0 <= at_ w i.
Proof.
  intros i. unfold at_. destruct (Nat.lt_ge_cases i (length w)) as [H|H].
  - apply Wpos. apply nth_In; auto.
  - rewrite nth_overflow by auto. lra.
Qed.

Definition possorted (idx : list nat) := StronglySorted (fun i j => at_ v i <= at_ v j) idx.

Lemma sumR_mono : forall A (f g : A -> R) l, (forall x, In x l -> f x <= g x) -> sumR (map f l) <= sumR (map g l).
Proof. induction l; simpl; intros H; [lra|]. assert (f a <= g a) by auto. assert (sumR (map f l) <= sumR (map g l)) by auto. lra. Qed.

(** The value at the position where the running share first reaches [p] is the quantile. *)
Lemma quantile_at : forall done i rest p, Permutation (done ++ i :: rest) (seq 0 (length v)) ->
  possorted (done ++ i :: rest) ->
  p <= sumR (map (at_ w) (done ++ [i])) / sumR w -> (done = [] \/ sumR (map (at_ w) done) / sumR w < p) ->
  quantile v w p (at_ v i).
Proof.
  intros done i rest p P S H1 H2.
  assert (B : forall j, In j (done ++ i :: rest) -> (j < length v)%nat).
  { intros j Hj. apply (Permutation_in _ P) in Hj. apply in_seq in Hj. lia. }
  apply ss_app_inv in S. destruct S as (S1 & S2 & S3). inversion S2 as [|? ? S4 FA]; subst. rewrite Forall_forall in FA.
  assert (DV : forall a b, a / sumR w <= b / sumR w <-> a <= b).
  { intros a b. unfold Rdiv. split; intros Hab.
    - apply Rmult_le_reg_r in Hab; auto. apply Rinv_0_lt_compat; auto.
    - apply Rmult_le_compat_r; auto. left. apply Rinv_0_lt_compat; auto. }
  split; [|split].
  - unfold at_. apply nth_In. apply B. apply in_app_iff; simpl; auto.
  - eapply Rle_trans; [exact H1|]. apply DV. rewrite (mass_perm _ _ P).
    replace (done ++ i :: rest) with ((done ++ [i]) ++ rest) by (rewrite <- app_assoc; reflexivity).
    rewrite (map_app _ (done ++ [i]) rest), sumR_app.
    assert (0 <= sumR (map (fun j => if Rle_bool (at_ v j) (at_ v i) then at_ w j else 0) rest)).
    { apply sumR_nonneg. intros x Hx. apply in_map_iff in Hx. destruct Hx as (j & <- & _). rcase; [apply w_at_pos|lra]. }
    assert (sumR (map (at_ w) (done ++ [i])) <= sumR (map (fun j => if Rle_bool (at_ v j) (at_ v i) then at_ w j else 0) (done ++ [i]))).
    { apply sumR_mono. intros j Hj. rewrite Rle_bool_true; [lra|]. apply in_app_iff in Hj. destruct Hj as [Hj|[<-|[]]]; [|lra].
      apply S3; simpl; auto. }
    lra.
  - intros y Hy Hp. destruct (Rle_or_lt (at_ v i) y) as [|Hlt]; auto. exfalso.
    assert (M : mass v w y <= sumR (map (at_ w) done)).
    { rewrite (mass_perm _ _ P), map_app, sumR_app.
      assert (sumR (map (fun j => if Rle_bool (at_ v j) y then at_ w j else 0) (i :: rest)) = 0) as ->.
      { transitivity (sumR (map (fun _ => 0) (i :: rest))); [|apply sumR_zero].
        apply sumR_map_ext. intros j Hj. rewrite Rle_bool_false; auto.
        destruct Hj as [->|Hj]; auto. specialize (FA j Hj). lra. }
      rewrite Rplus_0_r. apply sumR_mono. intros j _. rcase; [lra|apply w_at_pos]. }
    apply DV in M. destruct H2 as [->|H2]; [|lra].
    destruct (In_nth _ _ 0 Hy) as (k & Hk & Ek).
    assert (In k (i :: rest)) as Hki by (apply (Permutation_in _ (Permutation_sym P)); apply in_seq; lia).
    destruct Hki as [<-|Hki].
    + unfold at_ in Hlt. lra.
    + specialize (FA k Hki). unfold at_ in FA, Hlt. rewrite Ek in FA. lra.
Qed.

Lemma repeat_map_len : forall A B (x : B) (l : list A), repeat x (length l) = map (fun _ => x) l.
Proof. induction l; simpl; congruence. Qed.

Lemma Forall2_const : forall A B (R : A -> B -> Prop) l y, (forall x, In x l -> R x y) -> Forall2 R l (repeat y (length l)).
Proof. induction l; simpl; intros; constructor; auto. Qed.

Lemma pct_loop_quantile : forall lastv idx done cuml cur pcts cv p r donep,
  @pct_loop XF (map Fin v) (map Fin w) (Fin (sumR w)) lastv idx (Fin cuml) (Fin cur) (map Fin pcts) cv p = Some r ->
  Permutation (done ++ idx) (seq 0 (length v)) -> possorted (done ++ idx) ->
  cuml = sumR (map (at_ w) done) / sumR w ->
  (done = [] \/ cuml < cur) ->
  StronglySorted Rle (cur :: pcts) -> (forall q, In q (cur :: pcts) -> 0 <= q < 1) ->
  Forall2 (fun q x => exists z, x = Fin z /\ quantile v w q z) donep p ->
  (done = [] -> idx <> []) ->
  Forall2 (fun q x => exists z, x = Fin z /\ quantile v w q z) (donep ++ cur :: pcts) r.
Proof.
  intros lastv. induction idx as [|i idx IH]; intros done cuml cur pcts cv p r donep H P S C Inv SP B F NE; cbn [pct_loop] in H.
  - exfalso. destruct Inv as [->|Inv]; [apply NE; auto|]. rewrite app_nil_r in P.
    assert (cuml = 1). { rewrite C, <- (sum_perm _ P). field. lra. }
    specialize (B cur (or_introl eq_refl)). lra.
  - assert (Bi : (i < length v)%nat).
    { assert (In i (seq 0 (length v))) as Hi by (apply (Permutation_in _ P); apply in_app_iff; simpl; auto). apply in_seq in Hi. lia. }
    rewrite nth_error_map, (nth_error_nth' _ 0 Bi) in H. cbn [option_map bind] in H.
    rewrite nth_error_map, (nth_error_nth' w 0) in H by lia. cbn [option_map bind] in H.
    fold (at_ v i) in H. fold (at_ w i) in H.
    assert (EC : fadd (@f64 XF) (Fin cuml) (fdiv (@f64 XF) (Fin (at_ w i)) (Fin (sumR w))) = Fin (cuml + at_ w i / sumR w)).
    { simpl. rewrite Req_bool_false by lra. reflexivity. }
    rewrite EC in H. clear EC.
    set (cv' := if feq (@f64 XF) cv (Fin (at_ v i)) then cv else Fin (at_ v i)) in *.
    assert (cv' = Fin (at_ v i)) as Ecv.
    { unfold cv'. destruct cv as [z| | |]; simpl; auto. destruct (Req_boolP z (at_ v i)) as [[-> ->]|[-> _]]; auto. }
    rewrite Ecv in H. clear cv' Ecv.
    set (cuml' := cuml + at_ w i / sumR w) in *.
    assert (C' : cuml' = sumR (map (at_ w) (done ++ [i])) / sumR w).
    { unfold cuml'. rewrite C, map_app, sumR_app. simpl. field. lra. }
    assert (C0 : 0 <= cuml').
    { rewrite C'. apply Rmult_le_pos; [|left; apply Rinv_0_lt_compat; auto]. apply sumR_nonneg. intros x Hx.
      apply in_map_iff in Hx. destruct Hx as (j & <- & _). apply w_at_pos. }
    assert (Q : forall q, In q (cur :: pcts) -> q <= cuml' -> quantile v w q (at_ v i)).
    { intros q Hq Hle. apply (quantile_at done i idx); auto; [rewrite <- C'; auto|].
      destruct Inv as [->|Inv]; auto. right. rewrite <- C. inversion SP as [|? ? _ FA]; subst. rewrite Forall_forall in FA.
      destruct Hq as [<-|Hq]; auto. specialize (FA q Hq). lra. }
    assert (P' : Permutation ((done ++ [i]) ++ idx) (seq 0 (length v))) by (rewrite <- app_assoc; auto).
    assert (S' : possorted ((done ++ [i]) ++ idx)) by (rewrite <- app_assoc; auto).
    pose proof (B cur (or_introl eq_refl)) as Bc.
    change (feq (@f64 XF) (Fin cur) (fzero (@f64 XF))) with (Req_bool cur 0) in H.
    change (fle (@f64 XF) (Fin cur) (Fin cuml')) with (Rle_bool cur cuml') in H.
    change (feq (@f64 XF) (Fin cur) (fone (@f64 XF))) with (Req_bool cur 1) in H.
    destruct (Req_bool cur 0 || Rle_bool cur cuml')%bool eqn:Eb.
    + pose proof (pct_inner_full pcts cuml' cur (Fin (at_ v i)) p) as PI.
      match type of H with context [@pct_inner ?f ?a ?b ?c ?d ?e] => destruct (@pct_inner f a b c d e) as [p'|[[c' ps'] p']] end.
      * injection H as <-. destruct PI as [I1 ->]. apply Forall2_app; auto. apply Forall2_const. intros q Hq. eauto.
      * destruct PI as (pushed & c & ps & -> & -> & E1 & I1 & I2 & ->).
        rewrite E1 in *. replace (donep ++ pushed ++ c :: ps) with ((donep ++ pushed) ++ c :: ps) by (rewrite app_assoc; auto).
        apply (IH (done ++ [i]) cuml' c ps _ _ _ (donep ++ pushed) H); auto.
        -- apply ss_app_inv in SP. apply SP.
        -- intros q Hq. apply B. apply in_app_iff; auto.
        -- apply Forall2_app; auto. apply Forall2_const. intros q Hq. exists (at_ v i). split; auto. apply Q; auto. apply in_app_iff; auto.
        -- intros En. destruct done; discriminate.
    + apply orb_false_iff in Eb. destruct Eb as [_ Eb]. destruct (Rle_boolP cur cuml') as [[Eb' _]|[_ Lt]]; [congruence|].
      destruct (Req_boolP cur 1) as [[_ E1]|[E1 _]]; [lra|]. rewrite E1 in H.
      apply (IH (done ++ [i]) cuml' cur pcts _ _ _ donep H); auto.
      intros En. destruct done; discriminate.
Qed.

(** C05 *)
Theorem percentiles_quantiles : forall idx pcts r,
  Permutation idx (seq 0 (length v)) -> possorted idx ->
  StronglySorted Rle pcts -> (forall q, In q pcts -> 0 <= q < 1) ->
  @percentiles XF idx (map Fin v) (map Fin w) (map Fin pcts) = Some r ->
  Forall2 (fun q x => exists z, x = Fin z /\ quantile v w q z) pcts r.
Proof.
  intros idx pcts r P S SP B H. unfold percentiles in H.
  destruct (_ && _)%bool; [discriminate|]. destruct pcts as [|cur pcts]; [discriminate|]. cbn [map] in H.
  inv_bind H. inv_bind H. inv_bind H.
  replace (fast_sum (@f64 XF) (map Fin w)) with (Fin (sumR w)) in H by (symmetry; apply fast_sum_X).
  apply (pct_loop_quantile v2 idx [] 0 cur pcts v1 [] r []) in H; auto.
  - simpl. field. lra.
  - intros _ ->. discriminate.
Qed.
End Quantile.

Example percentiles_example :
  @percentiles XF [1;2;0]%nat (map Fin [3;1;2]) (map Fin [1;1;2]) (map Fin [0;1/2]) = Some (map Fin [1;2]).
Proof.
  unfold percentiles.
  replace (fast_sum (@f64 XF) (map Fin [1;1;2])) with (Fin 4) by (symmetry; etransitivity; [apply fast_sum_X|simpl; f_equal; lra]).
  cbn. repeat (rdec; cbn). reflexivity.
Qed.

(** *** Counterexamples *)
(** C04 *)
Lemma INR_small_max : forall n, (N.of_nat n < 65536)%N -> INR n < IZR ((2 ^ 53 - 1) * 2 ^ 971).
Proof.
  intros n H. rewrite INR_IZR_INZ. apply IZR_lt. apply Z.lt_trans with 65536%Z; [lia|]. vm_compute. reflexivity.
Qed.

Lemma bin_overflow_gen : forall n nb, N.of_nat nb = 65535%N -> N.of_nat n = 65536%N ->
  @bin_matrix XF (@isorts XF) (matrix_new (map Fin (map INR (seq 0 n))) (length (map Fin (map INR (seq 0 n)))) 1)
    (map (fun _ => Fin 1) (map INR (seq 0 n))) nb XNaN = None.
Proof.
  intros n nb Hb Hn. apply (@bin_matrix_overflow XF x_ord_laws).
  - apply isorts_spec. apply x_ord_laws.
  - reflexivity.
  - exact Hb.
  - rewrite !map_length, seq_length. exact Hn.
  - rewrite !map_length. reflexivity.
  - unfold sorted_lt. clear. generalize 0%nat. induction n as [|n IH]; intros a; simpl; constructor; auto.
    apply Forall_forall. intros x Hx. apply in_map_iff in Hx. destruct Hx as (y & <- & Hy).
    apply in_map_iff in Hy. destruct Hy as (k & <- & Hk). apply in_seq in Hk. apply Rlt_bool_true. apply lt_INR. lia.
  - intros x Hx. apply in_map_iff in Hx. destruct Hx as (y & <- & Hy).
    apply in_map_iff in Hy. destruct Hy as (k & <- & Hk). apply in_seq in Hk.
    split; [|reflexivity]. apply Rlt_bool_true. apply INR_small_max. lia.
Qed.

Theorem bin_overflow_refuted : exists data sw nbins,
  N.of_nat nbins = 65535%N /\ (forall x, In x (m_data data) -> xfin x) /\ length sw = m_rows data /\
  @bin_matrix XF (@isorts XF) data sw nbins XNaN = None.
Proof.
  assert (exists n, N.of_nat n = 65536%N) as [n Hn] by (eexists; apply N2Nat.id).
  assert (exists nb, N.of_nat nb = 65535%N) as [nb Hb] by (eexists; apply N2Nat.id).
  eexists _, _, nb. split; [exact Hb|]. split; [|split; [|apply (bin_overflow_gen n nb Hb Hn)]].
  - simpl. intros x Hx. apply in_map_iff in Hx. destruct Hx as (y & <- & _). exists y. auto.
  - simpl. rewrite !map_length. reflexivity.
Qed.

(** C02 needs a positive weight: with all weights zero and more than nbins + 1 distinct values
    every cell gets the missing bin. *)
Definition idf (x : b64) : b64 := x.
Definition IE : Floats := IF idf idf idf.
Definition z64 (z : Z) : b64 := q64 z 1.

Definition is_some {A} (x : option A) : bool := match x with Some _ => true | None => false end.
Definition get {A} (d : A) (x : option A) : A := match x with Some a => a | None => d end.
Lemma get_some : forall A (d : A) x, is_some x = true -> x = Some (get d x).
Proof. intros A d [a|] H; [reflexivity|discriminate]. Qed.
Definition no_bins : @BinnedData IE := mkBinned [] j_new [].

Theorem bin_zero_weights_refuted : exists data sw bd,
  @bin_matrix IE (@isorts IE) data sw 1 (fnan (@f64 IE)) = Some bd /\
  m_data data = map z64 [1; 2; 3; 4]%Z /\ sw = map z64 [0; 0; 0; 0]%Z /\ b_data bd = [0; 0; 0; 0]%nat.
Proof.
  exists (matrix_new (map z64 [1; 2; 3; 4]%Z) 4 1), (map z64 [0; 0; 0; 0]%Z).
  eexists. split; [apply (get_some _ no_bins); vm_compute; reflexivity|].
  split; [reflexivity|]. split; [reflexivity|]. vm_compute. reflexivity.
Qed.

(** C01 needs values not above f64::MAX: with f64::MAX and +inf in a column the cuts are not
    sorted and the bin of f64::MAX disagrees with the raw comparison against the cut +inf. *)
Theorem bin_infinity_refuted : exists data sw bd cuts b c k v,
  @bin_matrix IE (@isorts IE) data sw 10 (fnan (@f64 IE)) = Some bd /\
  j_get_col (b_cuts bd) 0 = Some cuts /\ m_get data 2 0 = Some v /\ nth_error (b_data bd) 2 = Some b /\
  bin_missing v (fnan (@f64 IE)) = false /\
  nth_error cuts k = Some c /\ flt (@f64 IE) v c = true /\ (k + 1 <= b)%nat.
Proof.
  exists (matrix_new [z64 1; z64 2; fmax (@f64 IE); finf (@f64 IE)] 4 1), (map z64 [1; 1; 1; 1]%Z).
  eexists _, _, 5%nat, _, 3%nat, _. split; [apply (get_some _ no_bins); vm_compute; reflexivity|].
  split; [apply (get_some _ []); vm_compute; reflexivity|].
  split; [apply (get_some _ (z64 0)); vm_compute; reflexivity|].
  split; [vm_compute; reflexivity|]. split; [vm_compute; reflexivity|].
  split; [apply (get_some _ (z64 0)); vm_compute; reflexivity|]. split; [vm_compute; reflexivity|]. lia.
Qed.
