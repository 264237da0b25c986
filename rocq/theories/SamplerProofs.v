(** Facts about row sampling. *)
From Coq Require Import List Arith Bool Lia Permutation Sorting.
From Verif Require Import Prelude Float OrdProofs Utils Tree Sampler.
Import ListNotations.

Section SamplerProofs.
Context {FS : Floats}.

(** the elements of [l] whose flag is [b], in the order of [l] *)
Definition flagged {A} (b : bool) (l : list A) (flags : list bool) : list A :=
  map fst (filter (fun p => Bool.eqb (snd p) b) (combine l flags)).

Lemma random_sample_flags : forall r sub index n,
  let flags := map (fun k => (draw32 r k <? sub)%f32) (seq n (length index)) in
  random_sample r sub n index = (flagged true index flags, flagged false index flags, n + length index).
Proof.
  induction index as [|i index IH]; intros n; simpl.
  - rewrite Nat.add_0_r. reflexivity.
  - rewrite IH. simpl. replace (S (n + length index)) with (n + S (length index)) by lia.
    unfold flagged. simpl. destruct (draw32 r n <? sub)%f32; reflexivity.
Qed.

Lemma flagged_perm : forall A (l : list A) flags, length flags = length l ->
  Permutation (flagged true l flags ++ flagged false l flags) l.
Proof.
  unfold flagged. induction l as [|x l IH]; intros [|b flags] H; simpl in *; try discriminate; auto.
  destruct b; simpl.
  - constructor. apply IH. lia.
  - rewrite <- Permutation_middle. constructor. apply IH. lia.
Qed.

Lemma flagged_all : forall A (l : list A) flags b, length flags = length l -> (forall x, In x flags -> x = b) ->
  flagged b l flags = l /\ flagged (negb b) l flags = [].
Proof.
  unfold flagged. induction l as [|x l IH]; intros [|c flags] b H HF; simpl in *; try discriminate; auto.
  assert (c = b) by auto. subst c.
  destruct (IH flags b) as [A1 A2]; auto.
  rewrite Bool.eqb_reflx. simpl. destruct b; simpl in *; rewrite A1, A2; auto.
Qed.

Lemma update_some : forall A (l : list A) i x, i < length l -> exists l', update l i x = Some l' /\ length l' = length l /\
  nth_error l' i = Some x /\ forall j, j <> i -> nth_error l' j = nth_error l j.
Proof.
  induction l as [|y l IH]; intros i x H; simpl in *; [lia|].
  destruct i as [|i].
  - eexists. repeat split; simpl; auto. intros [|j] Hj; [lia|auto].
  - destruct (IH i x) as (l' & E & L & N & O); [lia|]. rewrite E. simpl.
    eexists. repeat split; simpl; auto. intros [|j] Hj; auto. simpl. apply O. lia.
Qed.

(** The loop: the used rows are extended by a sub-list of [rest]; exactly those rows get scaled. *)
Lemma goss_loop_spec : forall r fact sub rest n grad hess used,
  NoDup rest -> (forall i, In i rest -> i < length grad) -> length hess = length grad ->
  exists kept grad' hess' n', goss_loop r fact sub n rest grad hess used = Some (used ++ kept, grad', hess', n') /\
    kept = flagged true rest (map (fun k => (draw64 r k <? sub)%f64) (seq n (length rest))) /\
    length grad' = length grad /\ length hess' = length hess /\
    (forall i, In i kept -> exists g h, nth_error grad i = Some g /\ nth_error hess i = Some h /\
        nth_error grad' i = Some (g * fact)%f32 /\ nth_error hess' i = Some (h * fact)%f32) /\
    (forall i, ~ In i kept -> nth_error grad' i = nth_error grad i /\ nth_error hess' i = nth_error hess i).
Proof.
  induction rest as [|i rest IH]; intros n grad hess used ND HB HL; simpl.
  - exists [], grad, hess, n. rewrite app_nil_r. repeat split; auto. intros i [].
  - inversion ND as [|? ? NI ND']; subst.
    destruct (draw64 r n <? sub)%f64 eqn:ED.
    + assert (Bi : i < length grad) by (apply HB; left; auto).
      destruct (nth_error grad i) as [g|] eqn:Eg; [|apply nth_error_None in Eg; lia].
      destruct (nth_error hess i) as [h|] eqn:Eh; [|apply nth_error_None in Eh; lia].
      simpl.
      destruct (update_some _ grad i (g * fact)%f32 Bi) as (g' & Ug & Lg & Ng & Og).
      destruct (update_some _ hess i (h * fact)%f32) as (h' & Uh & Lh & Nh & Oh); [lia|].
      rewrite Ug. simpl. rewrite Uh. simpl.
      destruct (IH (S n) g' h' (used ++ [i])) as (kept & grad' & hess' & n' & E & EK & LG & LH & K & NK); auto.
      { intros j Hj. rewrite Lg. apply HB. right; auto. }
      { lia. }
      assert (NIK : ~ In i kept).
      { intros HI. apply NI. subst kept. unfold flagged in HI. apply in_map_iff in HI. destruct HI as ([a b] & <- & HI).
        apply filter_In in HI. destruct HI as [HI _]. apply in_combine_l in HI. auto. }
      exists (i :: kept), grad', hess', n'.
      rewrite E. rewrite <- app_assoc. simpl. split; auto. split.
      { unfold flagged. simpl. f_equal. exact EK. }
      split; [lia|]. split; [lia|]. split.
      * intros j [<-|Hj].
        -- exists g, h. destruct (NK i NIK) as [A B]. rewrite A, B. auto.
        -- destruct (K j Hj) as (gj & hj & A & B & C & D).
           assert (j <> i) by (intros ->; auto).
           rewrite Og in A by auto. rewrite Oh in B by auto. exists gj, hj. auto.
      * intros j Hj. assert (j <> i) by (intros ->; apply Hj; left; auto).
        destruct (NK j) as [A B]; [intros HI; apply Hj; right; auto|].
        rewrite A, B. rewrite Og, Oh by auto. auto.
    + destruct (IH (S n) grad hess used) as (kept & grad' & hess' & n' & E & EK & R); auto.
      { intros j Hj. apply HB. right; auto. }
      exists kept, grad', hess', n'. split; auto. 
Qed.

Lemma NoDup_perm_seq : forall l n, Permutation l (seq 0 n) -> NoDup l.
Proof. intros l n H. eapply Permutation_NoDup; [symmetry; eauto|apply seq_NoDup]. Qed.

Lemma flagged_incl : forall A b (l : list A) flags, incl (flagged b l flags) l.
Proof.
  intros A b l flags x HI. unfold flagged in HI. apply in_map_iff in HI. destruct HI as ([a c] & <- & HI).
  apply filter_In in HI. destruct HI as [HI _]. apply in_combine_l in HI. auto.
Qed.
Lemma flagged_NoDup : forall A b (l : list A) flags, NoDup l -> NoDup (flagged b l flags).
Proof.
  unfold flagged. induction l as [|x l IH]; intros [|c flags] H; simpl; try constructor.
  inversion H; subst. destruct (Bool.eqb c b); simpl; auto.
  constructor; auto. intros HI. apply (flagged_incl A b l flags) in HI. auto.
Qed.

Lemma nodup_app_r : forall A (l1 l2 : list A), NoDup (l1 ++ l2) -> NoDup l2.
Proof. induction l1; simpl; intros l2 H; auto. inversion H; auto. Qed.

(** GOSS on the rows of a data set: [n] rows, gradients of the same length. *)
Theorem goss_spec : forall S r a b k grad hess, SortAbsSpec S ->
  let n := length grad in
  let top_n := ftonat f64 (a * fofnat f64 n)%f64 in
  let fact := to32 ((fone f64 - a) / b)%f64 in
  length hess = n -> top_n <= n ->
  exists top kept grad' hess' k',
    goss_sample S r a b k (seq 0 n) grad hess = Some (top ++ kept, [], grad', hess', k') /\
    NoDup (top ++ kept) /\ (forall i, In i (top ++ kept) -> i < n) /\ length top = top_n /\
    (forall i j gi gj, In i top -> ~ In j top -> nth_error grad i = Some gi -> nth_error grad j = Some gj ->
        ftotal f32 (fabs f32 gj) (fabs f32 gi) <> Gt) /\
    (forall i, In i kept -> exists g h, nth_error grad i = Some g /\ nth_error hess i = Some h /\
        nth_error grad' i = Some (g * fact)%f32 /\ nth_error hess' i = Some (h * fact)%f32) /\
    (forall i, ~ In i kept -> nth_error grad' i = nth_error grad i /\ nth_error hess' i = nth_error hess i).
Proof.
  intros S r a b k grad hess SS n top_n fact LH LT.
  unfold goss_sample. rewrite seq_length. fold n fact top_n.
  rewrite Nat.leb_refl. replace (firstn n grad) with grad by (symmetry; apply firstn_all).
  destruct (SS grad) as [SP ST].
  pose proof (Permutation_length SP) as SL. rewrite seq_length in SL.
  replace (top_n <=? length (S grad)) with true by (symmetry; apply Nat.leb_le; fold n in SL; lia).
  pose proof (NoDup_perm_seq _ _ SP) as SN.
  rewrite <- (firstn_skipn top_n (S grad)) in SN, ST, SP.
  destruct (goss_loop_spec r fact
     (fofnat f64 (ftonat f64 (b * fofnat f64 n)%f64) / (fofnat f64 n - fofnat f64 top_n))%f64
     (skipn top_n (S grad)) k grad hess (firstn top_n (S grad))) as (kept & grad' & hess' & k' & E & EK & LG & LHh & K & NK).
  - apply nodup_app_r in SN. auto.
  - intros i Hi. assert (In i (seq 0 (length grad))) by (eapply Permutation_in; [exact SP|apply in_or_app; auto]).
    apply in_seq in H. lia.
  - auto.
  - rewrite E. cbn [bind].
    exists (firstn top_n (S grad)), kept, grad', hess', k'.
    assert (KI : incl kept (skipn top_n (S grad))) by (rewrite EK; apply flagged_incl).
    split; auto. split; [|split; [|split; [|split; [|split]]]]; auto.
    + assert (NoDup kept) by (rewrite EK; apply flagged_NoDup; apply nodup_app_r in SN; auto).
      clear - SN H KI. revert SN. induction (firstn top_n (S grad)) as [|x l IH]; simpl; intros SN; auto.
      inversion SN; subst. constructor; auto. intros HI. apply H2. apply in_app_iff in HI. apply in_app_iff. destruct HI; auto.
    + intros i Hi. assert (In i (seq 0 (length grad))).
      { eapply Permutation_in; [exact SP|]. apply in_app_iff in Hi. apply in_app_iff. destruct Hi; auto. }
      apply in_seq in H. unfold n. lia.
    + rewrite firstn_length. fold n in SL. lia.
    + intros i j gi gj Hi Hj Gi Gj.
      assert (Hj' : In j (skipn top_n (S grad))).
      { assert (In j (seq 0 (length grad))) by (apply in_seq; split; [lia|]; simpl; apply nth_error_Some; congruence).
        eapply Permutation_in in H; [|symmetry; exact SP]. apply in_app_iff in H. destruct H; [contradiction|auto]. }
      destruct (ss_app_inv _ _ _ _ ST) as (_ & _ & X). eapply X; eauto.
Qed.

Lemma flagged_in : forall A (l : list A) flags j x c, NoDup l -> nth_error l j = Some x -> nth_error flags j = Some c ->
  (In x (flagged true l flags) <-> c = true).
Proof.
  unfold flagged. induction l as [|a l IH]; intros [|f flags] [|j] x c ND Hl Hf; simpl in *; try discriminate.
  - injection Hl as ->. injection Hf as ->. inversion ND; subst. destruct c; simpl.
    + tauto.
    + split; [|discriminate]. intros HI. apply (flagged_incl A true l flags) in HI. contradiction.
  - inversion ND as [|? ? NI ND']; subst. rewrite <- (IH flags j x c ND' Hl Hf).
    destruct f; simpl; [|tauto]. split; auto. intros [->|HI]; auto. apply nth_error_In in Hl. contradiction.
Qed.

Lemma goss_loop_draws : forall r fact sub rest n grad hess used u g h n',
  goss_loop r fact sub n rest grad hess used = Some (u, g, h, n') -> n' = n + length rest.
Proof.
  induction rest as [|i rest IH]; intros n grad hess used u g h n' H; simpl in *.
  - injection H as _ _ _ <-. lia.
  - destruct (draw64 r n <? sub)%f64.
    + inv_bind H. inv_bind H. inv_bind H. inv_bind H. apply IH in H. lia.
    + apply IH in H. lia.
Qed.

(** Which of the other rows are kept: those whose draw is below floor(b n) / (n - floor(a n)); one draw each. *)
Theorem goss_rate : forall S r a b k grad hess used ex grad' hess' k', SortAbsSpec S ->
  let n := length grad in
  let top_n := ftonat f64 (a * fofnat f64 n)%f64 in
  let rate := (fofnat f64 (ftonat f64 (b * fofnat f64 n)%f64) / (fofnat f64 n - fofnat f64 top_n))%f64 in
  length hess = n -> top_n <= n ->
  goss_sample S r a b k (seq 0 n) grad hess = Some (used, ex, grad', hess', k') ->
  exists top rest, length top = top_n /\ Permutation (top ++ rest) (seq 0 n) /\ k' = k + length rest /\
    incl top used /\
    forall j i, nth_error rest j = Some i -> (In i used <-> (draw64 r (k + j) <? rate)%f64 = true).
Proof.
  intros S r a b k grad hess used ex grad' hess' k' SS n top_n rate LH LT H.
  unfold goss_sample in H. rewrite seq_length in H. fold n top_n in H. fold rate in H.
  rewrite Nat.leb_refl in H. replace (firstn n grad) with grad in H by (symmetry; apply firstn_all).
  destruct (SS grad) as [SP ST].
  pose proof (Permutation_length SP) as SL. rewrite seq_length in SL.
  replace (top_n <=? length (S grad)) with true in H by (symmetry; apply Nat.leb_le; fold n in SL; lia).
  pose proof (NoDup_perm_seq _ _ SP) as SN.
  rewrite <- (firstn_skipn top_n (S grad)) in SN, SP.
  destruct (goss_loop_spec r (to32 ((fone f64 - a) / b)%f64) rate (skipn top_n (S grad)) k grad hess (firstn top_n (S grad)))
    as (kept & g2 & h2 & k2 & E & EK & _).
  - apply nodup_app_r in SN. auto.
  - intros i Hi. assert (In i (seq 0 (length grad))) by (eapply Permutation_in; [exact SP|apply in_or_app; auto]).
    apply in_seq in H0. lia.
  - auto.
  - pose proof (goss_loop_draws _ _ _ _ _ _ _ _ _ _ _ _ E) as ED.
    cbn [bind] in H. cbv zeta in H. rewrite E in H. cbn [bind] in H. injection H as <- <- <- <- <-.
    exists (firstn top_n (S grad)), (skipn top_n (S grad)).
    split; [rewrite firstn_length; fold n in SL; lia|]. split; [exact SP|]. split; [exact ED|].
    split; [apply incl_appl, incl_refl|].
    intros j i Hi. rewrite in_app_iff.
    assert (NT : ~ In i (firstn top_n (S grad))).
    { intros HI. clear - SN HI Hi. apply nth_error_In in Hi.
      induction (firstn top_n (S grad)) as [|x l IH]; simpl in *; [contradiction|].
      inversion SN; subst. destruct HI as [->|HI]; auto. apply H1. apply in_or_app. auto. }
    rewrite EK.
    assert (HJ : j < length (skipn top_n (S grad))) by (apply nth_error_Some; congruence).
    assert (HF : nth_error (map (fun k => (draw64 r k <? rate)%f64) (seq k (length (skipn top_n (S grad))))) j = Some (draw64 r (k + j) <? rate)%f64).
    { rewrite nth_error_map. rewrite (nth_error_nth' _ 0) by (rewrite seq_length; auto). rewrite seq_nth by auto. reflexivity. }
    rewrite <- (flagged_in _ _ _ _ _ _ (nodup_app_r _ _ _ SN) Hi HF). tauto.
Qed.
End SamplerProofs.
