(** The split search: what the chosen split is (splitter.rs:67-199, 347-495, 783-946). *)
From Coq Require Import List Arith NArith Lia Bool.
From Verif Require Import Prelude Float FloatLaws Data Utils Histogram Node Splitter.
Import ListNotations.

Section Split.
Context {FS : Floats}.
Variables (s : Splitter) (node : SplittableNode).

(** Sums over the bins left of the [j]-th candidate. *)
Definition left_sum (sel : Bin F32 -> F32) (bins : list (Bin F32)) (j : nat) : F32 :=
  fold_left (fun a b => (a + sel b)%f32) (firstn j bins) (fzero f32).

(** [si] is the candidate split of [node] at the [k]-th sampled column and its [j]-th cut: it is
    not rejected (children too small, or no gain after gamma and constraints). *)
Inductive admissible (cols : list nat) (k j : nat) (si : SplitInfo) : Prop :=
| adm_intro : forall f missing bins bin,
    nth_error cols k = Some f ->
    j_get_col (sn_hist node) k = Some (missing :: bins) ->
    nth_error bins j = Some bin ->
    candidate s node f missing bin j (left_sum gradient_sum bins j) (left_sum hessian_sum bins j) = Some (Some si) ->
    admissible cols k j si.

(** *** The loop over one feature *)
Fixpoint cands (f : nat) (missing : Bin F32) (bins : list (Bin F32)) (i : nat) (cg ch : F32)
  : option (list (option SplitInfo)) :=
  match bins with
  | [] => Some []
  | bin :: rest =>
      let* c := candidate s node f missing bin i cg ch in
      let* r := cands f missing rest (i + 1) (cg + gradient_sum bin)%f32 (ch + hessian_sum bin)%f32 in
      Some (c :: r)
  end.

Fixpoint somes {A} (l : list (option A)) : list A :=
  match l with [] => [] | Some x :: r => x :: somes r | None :: r => somes r end.

Lemma feature_loop_cands : forall f missing bins i cg ch best,
  feature_loop s node f missing bins i cg ch best =
  (let* cs := cands f missing bins i cg ch in Some (fold_left better (somes cs) best)).
Proof.
  intros f missing. induction bins as [|bin bins IH]; intros i cg ch best; simpl; auto.
  destruct (candidate s node f missing bin i cg ch) as [c|]; simpl; auto. rewrite IH.
  destruct (cands f missing bins (i + 1) (cg + gradient_sum bin)%f32 (ch + hessian_sum bin)%f32) as [cs|]; simpl; auto.
  destruct c; reflexivity.
Qed.

Lemma cands_nth : forall f missing bins i cg ch cs, cands f missing bins i cg ch = Some cs ->
  length cs = length bins /\
  forall j bin, nth_error bins j = Some bin ->
  exists c, nth_error cs j = Some c /\
    candidate s node f missing bin (i + j)
      (fold_left (fun a b => (a + gradient_sum b)%f32) (firstn j bins) cg)
      (fold_left (fun a b => (a + hessian_sum b)%f32) (firstn j bins) ch) = Some c.
Proof.
  intros f missing. induction bins as [|b bins IH]; intros i cg ch cs H; simpl in H.
  - injection H as <-. split; auto. intros [|j] bin Hb; discriminate.
  - inv_bind H. inv_bind H. injection H as <-. destruct (IH _ _ _ _ E0) as [L N].
    split; [simpl; auto|]. intros [|j] bin Hb; simpl in Hb.
    + injection Hb as <-. exists v. rewrite Nat.add_0_r. auto.
    + destruct (N j bin Hb) as (c & Hc & HC). exists c. split; auto.
      replace (i + S j) with (i + 1 + j) by lia. exact HC.
Qed.

(** Whatever the arithmetic, a chosen split is an admissible candidate. *)
Lemma better_in : forall l b x, fold_left better l b = Some x -> b = Some x \/ In x l.
Proof.
  induction l as [|a l IH]; simpl; intros b x H; auto.
  apply IH in H. destruct H as [H|H]; auto. destruct b as [b|]; simpl in H.
  - destruct (si_gain b <? si_gain a)%f32; injection H as ->; auto.
  - injection H as ->; auto.
Qed.

Lemma somes_in : forall A (l : list (option A)) x, In x (somes l) <-> exists j, nth_error l j = Some (Some x).
Proof.
  induction l as [|[a|] l IH]; simpl; intros x.
  - split; [tauto|intros ([|j] & H); discriminate].
  - split.
    + intros [->|H]; [exists 0; auto|]. apply IH in H. destruct H as [j H]. exists (S j); auto.
    + intros ([|j] & H); simpl in H; [left; congruence|right]. apply IH. eauto.
  - rewrite IH. split; [intros (j & H); exists (S j); auto|].
    intros ([|j] & H); simpl in H; [discriminate|eauto].
Qed.

Lemma best_feature_admissible : forall cols k f si, nth_error cols k = Some f ->
  best_feature_split s node f k = Some (Some si) -> exists j, admissible cols k j si.
Proof.
  intros cols k f si Hk H. unfold best_feature_split in H. inv_bind H. destruct v as [|missing bins]; [discriminate|].
  rewrite feature_loop_cands in H. inv_bind H. rename v into cs.
  assert (Hres : fold_left better (somes cs) None = Some si) by congruence. clear H.
  apply better_in in Hres. destruct Hres as [Hres|Hres]; [discriminate|].
  apply somes_in in Hres. destruct Hres as [j Hj].
  destruct (cands_nth _ _ _ _ _ _ _ E0) as [CL CN].
  assert (Hlt := nth_error_Some_lt _ _ Hj). rewrite CL in Hlt.
  destruct (nth_error_lt bins Hlt) as [bin Hb]. destruct (CN _ _ Hb) as (c & Hc' & HC).
  rewrite Hc' in Hj. injection Hj as ->. exists j. eapply adm_intro; eauto.
Qed.

Lemma best_split_loop_admissible : forall rest pre bg best si,
  best_split_loop s node rest (length pre) bg best = Some (Some si) ->
  best = Some si \/ exists k j, admissible (pre ++ rest) k j si.
Proof.
  induction rest as [|f rest IH]; intros pre bg best si H; simpl in H.
  - injection H as ->. auto.
  - inv_bind H. rename v into fr.
    replace (length pre + 1) with (length (pre ++ [f])) in H by (rewrite app_length; auto).
    replace (pre ++ f :: rest) with ((pre ++ [f]) ++ rest) in * by (rewrite <- app_assoc; auto).
    destruct fr as [si1|]; [|eapply IH; eauto].
    destruct (bg <? si_gain si1)%f32; [|eapply IH; eauto].
    apply IH in H. destruct H as [[= <-]|H]; auto. right. exists (length pre).
    eapply best_feature_admissible; eauto.
    rewrite nth_error_app1 by (rewrite app_length; simpl; lia).
    rewrite nth_error_app2, Nat.sub_diag by lia. reflexivity.
Qed.

Lemma best_split_admissible : forall cols si, best_split s node cols = Some (Some si) ->
  exists k j, admissible cols k j si.
Proof.
  intros cols si H. unfold best_split in H. apply (best_split_loop_admissible cols []) in H.
  destruct H as [H|H]; [discriminate|auto].
Qed.

(** *** First maximum *)
Variable OL : OrdLaws (@f32 FS).
Hypothesis zero_nan : fisnan f32 (fzero (@f32 FS)) = false.

Lemma flt_false : forall x y : F32, fisnan f32 x = false -> fisnan f32 y = false ->
  ((x <? y)%f32 = false <-> (y <=? x)%f32 = true).
Proof. intros x y Hx Hy. rewrite (ol_lt_le _ OL) by auto. rewrite negb_false_iff. tauto. Qed.

Lemma flt_le_trans : forall x y z : F32, (x <? y)%f32 = true -> (y <=? z)%f32 = true -> (x <? z)%f32 = true.
Proof.
  intros x y z H1 H2. destruct (ol_lt_nan _ OL _ _ H1). destruct (ol_le_nan _ OL _ _ H2).
  rewrite (ol_lt_le _ OL) in * by auto. rewrite negb_true_iff in *.
  destruct (z <=? x)%f32 eqn:E; auto. rewrite <- H1. symmetry. eapply (ol_le_trans _ OL); eauto.
Qed.
Lemma le_flt_trans : forall x y z : F32, (x <=? y)%f32 = true -> (y <? z)%f32 = true -> (x <? z)%f32 = true.
Proof.
  intros x y z H1 H2. destruct (ol_le_nan _ OL _ _ H1). destruct (ol_lt_nan _ OL _ _ H2).
  rewrite (ol_lt_le _ OL) in * by auto. rewrite negb_true_iff in *.
  destruct (z <=? x)%f32 eqn:E; auto. rewrite <- H2. symmetry. eapply (ol_le_trans _ OL); eauto.
Qed.
Lemma flt_le : forall x y : F32, (x <? y)%f32 = true -> (x <=? y)%f32 = true.
Proof.
  intros x y H. destruct (ol_lt_nan _ OL _ _ H). rewrite (ol_lt_le _ OL) in H by auto.
  rewrite negb_true_iff in H. destruct (ol_le_total _ OL x y); auto. congruence.
Qed.

Definition good (si : SplitInfo) : Prop := fisnan f32 (si_gain si) = false.

Lemma candidate_good : forall f missing bin i cg ch si,
  candidate s node f missing bin i cg ch = Some (Some si) -> good si.
Proof.
  intros f missing bin i cg ch si H. unfold candidate in H. inv_bind H. destruct v as [[[l r] m]|]; [|discriminate].
  destruct (_ <=? _)%f32; [discriminate|]. destruct (child_bounds _ _ _ _ _) as [lb rb]. injection H as <-.
  unfold good; simpl. destruct (fisnan f32 (cull_gain _ _ _ _)) eqn:En; auto.
Qed.

Lemma better_fold : forall l best, (forall y, In y l -> good y) -> (forall b, best = Some b -> good b) ->
  match fold_left better l best with
  | None => best = None /\ l = []
  | Some x =>
      (best = Some x /\ forall y, In y l -> (si_gain y <=? si_gain x)%f32 = true) \/
      (exists l1 l2, l = l1 ++ x :: l2 /\ (forall b, best = Some b -> (si_gain b <? si_gain x)%f32 = true) /\
        (forall y, In y l1 -> (si_gain y <? si_gain x)%f32 = true) /\
        (forall y, In y l2 -> (si_gain y <=? si_gain x)%f32 = true))
  end.
Proof.
  induction l as [|a l IH]; intros best Hl Hb; simpl.
  - destruct best as [b|]; [left; split; auto; intros y []|auto].
  - assert (Ga : good a) by (apply Hl; simpl; auto).
    assert (Gl : forall y, In y l -> good y) by (intros; apply Hl; simpl; auto).
    destruct best as [b|]; simpl.
    + assert (Gb : good b) by auto.
      destruct (si_gain b <? si_gain a)%f32 eqn:E.
      * specialize (IH (Some a) Gl). destruct (fold_left better l (Some a)) as [x|].
        -- destruct IH as [(H1 & H2)|(l1 & l2 & H1 & H2 & H3 & H4)]; [intros c [= <-]; auto| |].
           ++ injection H1 as ->. right. exists [], l. split; auto. split; [intros c [= <-]; auto|].
              split; [intros y []|auto].
           ++ right. exists (a :: l1), l2. split; [simpl; congruence|].
              assert (A : (si_gain a <? si_gain x)%f32 = true) by auto.
              split; [intros c [= <-]; eapply flt_le_trans; eauto; apply flt_le; auto|].
              split; auto. intros y [<-|Hy]; auto.
        -- destruct IH as [H _]; [intros c [= <-]; auto|discriminate].
      * apply flt_false in E; auto. specialize (IH (Some b) Gl). destruct (fold_left better l (Some b)) as [x|].
        -- destruct IH as [(H1 & H2)|(l1 & l2 & H1 & H2 & H3 & H4)]; [intros c [= <-]; auto| |].
           ++ injection H1 as ->. left. split; auto. intros y [<-|Hy]; auto.
           ++ right. exists (a :: l1), l2. split; [simpl; congruence|].
              assert (A : (si_gain b <? si_gain x)%f32 = true) by auto.
              split; [intros c [= <-]; auto|]. split; auto. intros y [<-|Hy]; auto. eapply le_flt_trans; eauto.
        -- destruct IH as [H _]; [intros c [= <-]; auto|discriminate].
    + specialize (IH (Some a) Gl). destruct (fold_left better l (Some a)) as [x|].
      * destruct IH as [(H1 & H2)|(l1 & l2 & H1 & H2 & H3 & H4)]; [intros c [= <-]; auto| |].
        -- injection H1 as ->. right. exists [], l. split; auto. split; [discriminate|]. split; [intros y []|auto].
        -- right. exists (a :: l1), l2. split; [simpl; congruence|]. split; [discriminate|].
           split; auto. intros y [<-|Hy]; auto.
      * destruct IH as [H _]; [intros c [= <-]; auto|discriminate].
Qed.

Lemma somes_nth : forall A (l : list (option A)) l1 x l2, somes l = l1 ++ x :: l2 ->
  exists j, nth_error l j = Some (Some x) /\
    (forall j' y, j' < j -> nth_error l j' = Some (Some y) -> In y l1) /\
    (forall j' y, j < j' -> nth_error l j' = Some (Some y) -> In y l2).
Proof.
  induction l as [|[a|] l IH]; simpl; intros l1 x l2 H.
  - destruct l1; discriminate.
  - destruct l1 as [|b l1]; simpl in H.
    + injection H as <- <-. exists 0. split; auto. split; [intros; lia|].
      intros [|j'] y Hj Hy; [lia|]. simpl in Hy. clear -Hy. revert j' Hy. induction l as [|c l IH]; intros [|j'] Hy; simpl in *; try discriminate.
      * injection Hy as ->. simpl; auto.
      * destruct c; simpl; [right|]; eauto.
    + injection H as -> H. destruct (IH _ _ _ H) as (j & H1 & H2 & H3). exists (S j). split; auto. split.
      * intros [|j'] y Hj Hy; simpl in Hy; [injection Hy as ->; simpl; auto|]. right. apply (H2 j'); auto. lia.
      * intros [|j'] y Hj Hy; [lia|]. simpl in Hy. apply (H3 j'); auto. lia.
  - destruct (IH _ _ _ H) as (j & H1 & H2 & H3). exists (S j). split; auto. split.
    + intros [|j'] y Hj Hy; simpl in Hy; [discriminate|]. apply (H2 j'); auto. lia.
    + intros [|j'] y Hj Hy; [lia|]. simpl in Hy. apply (H3 j'); auto. lia.
Qed.

(** One feature: the first of the admissible candidates of largest gain. *)
Lemma best_feature_spec : forall cols k f res,
  nth_error cols k = Some f -> best_feature_split s node f k = Some res ->
  match res with
  | None => forall j si, ~ admissible cols k j si
  | Some si => exists j, admissible cols k j si /\ good si /\
      (forall j' si', admissible cols k j' si' -> (si_gain si' <=? si_gain si)%f32 = true) /\
      (forall j' si', j' < j -> admissible cols k j' si' -> (si_gain si' <? si_gain si)%f32 = true)
  end.
Proof.
  intros cols k f res Hk H. unfold best_feature_split in H. inv_bind H. destruct v as [|missing bins]; [discriminate|].
  rewrite feature_loop_cands in H. inv_bind H. rename v into cs.
  assert (Hres : fold_left better (somes cs) None = res) by congruence. clear H.
  destruct (cands_nth _ _ _ _ _ _ _ E0) as [CL CN].
  assert (ADM : forall j si, admissible cols k j si <-> nth_error cs j = Some (Some si)).
  { intros j si. split.
    - intros [f' missing' bins' bin Hf Hcol Hb HC]. rewrite E in Hcol. injection Hcol as <- <-.
      rewrite Hk in Hf. injection Hf as <-. destruct (CN _ _ Hb) as (c & Hc & HC').
      rewrite Nat.add_0_l in HC'. unfold left_sum in HC. rewrite HC' in HC. congruence.
    - intros Hc. assert (Hlt := nth_error_Some_lt _ _ Hc). rewrite CL in Hlt.
      destruct (nth_error_lt bins Hlt) as [bin Hb]. destruct (CN _ _ Hb) as (c & Hc' & HC).
      rewrite Hc' in Hc. injection Hc as ->. eapply adm_intro; eauto. }
  assert (GS : forall y, In y (somes cs) -> good y).
  { intros y Hy. apply somes_in in Hy. destruct Hy as [j Hy]. apply ADM in Hy. destruct Hy. eapply candidate_good; eauto. }
  pose proof (better_fold (somes cs) None GS) as B. rewrite Hres in B. specialize (B ltac:(discriminate)).
  destruct res as [si|].
  - destruct B as [(B & _)|(l1 & l2 & B1 & _ & B3 & B4)]; [discriminate|].
    destruct (somes_nth _ _ _ _ _ B1) as (j & J1 & J2 & J3).
    exists j. split; [apply ADM; auto|].
    assert (G : good si) by (apply GS; rewrite B1, in_app_iff; simpl; auto).
    split; auto. split.
    + intros j' si' A. apply ADM in A. destruct (Nat.lt_trichotomy j' j) as [Hj|[->|Hj]].
      * apply flt_le. eauto.
      * rewrite J1 in A. injection A as ->. apply (ol_le_refl _ OL). auto.
      * eauto.
    + intros j' si' Hj A. apply ADM in A. eauto.
  - destruct B as (_ & B). intros j si A. apply ADM in A.
    assert (In si (somes cs)) by (apply somes_in; eauto). rewrite B in H. destruct H.
Qed.

(** Lexicographic order of candidates: earlier sampled column, then lower cut. *)
Definition before (k' j' k j : nat) : Prop := k' < k \/ (k' = k /\ j' < j).

Lemma best_split_loop_spec : forall cols pre rest best_gain best res,
  cols = pre ++ rest -> fisnan f32 best_gain = false ->
  best_split_loop s node rest (length pre) best_gain best = Some res ->
  (res = best /\ forall k j si, length pre <= k -> admissible cols k j si -> (si_gain si <=? best_gain)%f32 = true) \/
  (exists k j si, res = Some si /\ length pre <= k /\ admissible cols k j si /\ (best_gain <? si_gain si)%f32 = true /\
     (forall k' j' si', length pre <= k' -> admissible cols k' j' si' -> (si_gain si' <=? si_gain si)%f32 = true) /\
     (forall k' j' si', length pre <= k' -> before k' j' k j -> admissible cols k' j' si' -> (si_gain si' <? si_gain si)%f32 = true)).
Proof.
  intros cols pre rest. revert pre. induction rest as [|f rest IH]; intros pre best_gain best res Hc HN H; simpl in H.
  - injection H as <-. left. split; auto. intros k j si Hk [f' m b bn Hf _ _ _].
    apply nth_error_Some_lt in Hf. rewrite Hc, app_length in Hf. simpl in Hf. lia.
  - inv_bind H. rename v into fr.
    assert (Hk : nth_error cols (length pre) = Some f).
    { rewrite Hc, nth_error_app2, Nat.sub_diag by lia. reflexivity. }
    pose proof (best_feature_spec _ _ _ _ Hk E) as FR.
    assert (Hc' : cols = (pre ++ [f]) ++ rest) by (rewrite <- app_assoc; auto).
    assert (HL : length pre + 1 = length (pre ++ [f])) by (rewrite app_length; auto).
    assert (SPLIT : forall k, length pre <= k -> k = length pre \/ length (pre ++ [f]) <= k) by (intros; lia).
    destruct fr as [si|].
    + destruct FR as (j & F1 & F2 & F3 & F4).
      destruct (best_gain <? si_gain si)%f32 eqn:EG.
      * rewrite HL in H. destruct (IH _ _ _ _ Hc' F2 H) as [(R & A)|(k & j2 & si2 & R & K & A1 & A2 & A3 & A4)].
        -- right. exists (length pre), j, si. split; auto. split; auto. split; auto. split; auto. split.
           ++ intros k' j' si' Hk' A'. destruct (SPLIT _ Hk') as [->|Hk2]; eauto.
           ++ intros k' j' si' Hk' [Hb|[-> Hb]] A'; [lia|eauto].
        -- right. exists k, j2, si2. split; auto. split; [lia|]. split; auto.
           split; [eapply flt_le_trans; eauto; apply flt_le; auto|]. split.
           ++ intros k' j' si' Hk' A'. destruct (SPLIT _ Hk') as [->|Hk2]; [|eauto].
              apply flt_le. eapply le_flt_trans; eauto.
           ++ intros k' j' si' Hk' Hb A'. destruct (SPLIT _ Hk') as [->|Hk2]; [|eauto]. eapply le_flt_trans; eauto.
      * apply flt_false in EG; auto.
        rewrite HL in H. destruct (IH _ _ _ _ Hc' HN H) as [(R & A)|(k & j2 & si2 & R & K & A1 & A2 & A3 & A4)].
        -- left. split; auto. intros k' j' si' Hk' A'. destruct (SPLIT _ Hk') as [->|Hk2]; [|eauto].
           eapply (ol_le_trans _ OL); eauto.
        -- right. exists k, j2, si2. split; auto. split; [lia|]. split; auto. split; auto. split.
           ++ intros k' j' si' Hk' A'. destruct (SPLIT _ Hk') as [->|Hk2]; [|eauto].
              apply flt_le. eapply le_flt_trans; [|exact A2]. eapply (ol_le_trans _ OL); eauto.
           ++ intros k' j' si' Hk' Hb A'. destruct (SPLIT _ Hk') as [->|Hk2]; [|eauto].
              eapply le_flt_trans; [|exact A2]. eapply (ol_le_trans _ OL); eauto.
    + rewrite HL in H. destruct (IH _ _ _ _ Hc' HN H) as [(R & A)|(k & j2 & si2 & R & K & A1 & A2 & A3 & A4)].
      * left. split; auto. intros k' j' si' Hk' A'. destruct (SPLIT _ Hk') as [->|Hk2]; [exfalso; eapply FR; eauto|eauto].
      * right. exists k, j2, si2. split; auto. split; [lia|]. split; auto. split; auto. split.
        -- intros k' j' si' Hk' A'. destruct (SPLIT _ Hk') as [->|Hk2]; [exfalso; eapply FR; eauto|eauto].
        -- intros k' j' si' Hk' Hb A'. destruct (SPLIT _ Hk') as [->|Hk2]; [exfalso; eapply FR; eauto|eauto].
Qed.

(** C18: the chosen split is the first of the admissible candidates of largest gain. *)
Theorem best_split_some : forall cols si, best_split s node cols = Some (Some si) ->
  exists k j, admissible cols k j si /\ (fzero f32 <? si_gain si)%f32 = true /\
    (forall k' j' si', admissible cols k' j' si' -> (si_gain si' <=? si_gain si)%f32 = true) /\
    (forall k' j' si', before k' j' k j -> admissible cols k' j' si' -> (si_gain si' <? si_gain si)%f32 = true).
Proof.
  intros cols si H. unfold best_split in H.
  destruct (best_split_loop_spec cols [] cols _ _ _ eq_refl zero_nan H) as [(R & _)|(k & j & si2 & R & K & A1 & A2 & A3 & A4)];
    [discriminate|]. injection R as <-. exists k, j. split; auto. split; auto. split.
  - intros k' j' si' A. apply (A3 k' j'); auto. simpl; lia.
  - intros k' j' si' Hb A. apply (A4 k' j'); auto. simpl; lia.
Qed.

(** ... and there is none exactly when no admissible candidate has positive gain. *)
Theorem best_split_none : forall cols, best_split s node cols = Some None ->
  forall k j si, admissible cols k j si -> (si_gain si <=? fzero f32)%f32 = true.
Proof.
  intros cols H k j si A. unfold best_split in H.
  destruct (best_split_loop_spec cols [] cols _ _ _ eq_refl zero_nan H) as [(_ & R)|(k2 & j2 & si2 & R & _)]; [|discriminate].
  apply (R k j); auto. simpl; lia.
Qed.
End Split.

(** *** What a candidate is *)
Section Candidate.
Context {FS : Floats}.
Variables (s : Splitter) (node : SplittableNode).
Notation p := (params s).

Lemma eval_cover : forall lg lh rg rh mg mh lo up pw c l r m,
  evaluate_split s lg lh rg rh mg mh lo up pw c = Some (Some (l, r, m)) ->
  (ni_cover l <? sp_min_leaf_weight p)%f32 = false /\ (ni_cover r <? sp_min_leaf_weight p)%f32 = false.
Proof.
  intros lg lh rg rh mg mh lo up pw c l r m H. destruct s as [q|q term treat force]; simpl in H.
  - injection H as H. unfold evaluate_split_imputer in H.
    match type of H with (if ?b then _ else _) = _ => destruct b; [discriminate|] end. cbv zeta in H.
    match type of H with (if ?b then _ else _) = _ => destruct b; [discriminate|] end.
    match type of H with (let '(_) := ?e in _) = _ => destruct e as [[[[[[[[lg' lh'] lga] lw] rg'] rh'] rga] rw] mi] end.
    match type of H with (if ?b then _ else _) = _ => destruct b eqn:Eb; [discriminate|] end.
    injection H as <- <- <-. simpl. apply orb_false_iff in Eb. tauto.
  - unfold evaluate_split_branch in H.
    match type of H with (if ?b then _ else _) = _ => destruct b; [discriminate|] end. cbv zeta in H.
    inv_bind H. destruct v as [lw rw].
    match type of H with (if ?b then _ else _) = _ => destruct b eqn:Eb; [discriminate|] end.
    injection H as <- <- <-. simpl. apply orb_false_iff in Eb. tauto.
Qed.

(** Everything recorded in a candidate, and why it was not rejected. *)
Lemma candidate_inv : forall f missing bin i cg ch si,
  candidate s node f missing bin i cg ch = Some (Some si) ->
  exists l r m,
    evaluate_split s cg ch (sn_grad node - cg - gradient_sum missing)%f32 (sn_hess node - ch - hessian_sum missing)%f32
      (gradient_sum missing) (hessian_sum missing) (sn_lower node) (sn_upper node) (sn_weight node) (get_constraint s f)
      = Some (Some (l, r, m)) /\
    si_feature si = f /\ si_value si = cut_value bin /\ si_bin si = as_u16 (i + 1) /\ si_missing si = m /\
    si_left si = with_bounds l (fst (child_bounds (sn_lower node) (sn_upper node) (ni_weight l) (ni_weight r) (get_constraint s f))) /\
    si_right si = with_bounds r (snd (child_bounds (sn_lower node) (sn_upper node) (ni_weight l) (ni_weight r) (get_constraint s f))) /\
    let sg := cull_gain (get_split_gain node l r m (sp_gamma p)) (ni_weight l) (ni_weight r) (get_constraint s f) in
    (sg <=? fzero f32)%f32 = false /\ si_gain si = (if fisnan f32 sg then fzero f32 else sg).
Proof.
  intros f missing bin i cg ch si H. unfold candidate in H. inv_bind H. destruct v as [[[l r] m]|]; [|discriminate].
  cbv zeta in H.
  destruct (cull_gain (get_split_gain node l r m (sp_gamma p)) (ni_weight l) (ni_weight r) (get_constraint s f) <=? fzero f32)%f32 eqn:Es;
    [discriminate|].
  destruct (child_bounds (sn_lower node) (sn_upper node) (ni_weight l) (ni_weight r) (get_constraint s f)) as [lb rb] eqn:Eb.
  injection H as <-. exists l, r, m. rewrite Eb. simpl. auto 15.
Qed.

(** C15 for one split. *)
Lemma admissible_cover : forall cols k j si, admissible s node cols k j si ->
  (ni_cover (si_left si) <? sp_min_leaf_weight p)%f32 = false /\
  (ni_cover (si_right si) <? sp_min_leaf_weight p)%f32 = false.
Proof.
  intros cols k j si [f missing bins bin Hf Hcol Hb HC].
  destruct (candidate_inv _ _ _ _ _ _ _ HC) as (l & r & m & HE & _ & _ & _ & _ & HL & HR & _).
  rewrite HL, HR. simpl. eapply eval_cover; eauto.
Qed.

(** C16 for one split. *)
Lemma admissible_gain : forall cols k j si, SubLaws (@f32 FS) -> OrdLaws (@f32 FS) ->
  admissible s node cols k j si -> (fzero f32 <? si_gain si)%f32 = true ->
  (sp_gamma p <? get_split_gain node (si_left si) (si_right si) (si_missing si) (fzero f32))%f32 = true.
Proof.
  intros cols k j si SL OL [f missing bins bin Hf Hcol Hb HC] HG.
  destruct (candidate_inv _ _ _ _ _ _ _ HC) as (l & r & m & HE & _ & _ & _ & HM & HL & HR & Hsg).
  cbv zeta in Hsg. destruct Hsg as [Hpos Hgain].
  set (sg := cull_gain (get_split_gain node l r m (sp_gamma p)) (ni_weight l) (ni_weight r) (get_constraint s f)) in *.
  rewrite HL, HR, HM.
  assert (P : (fzero f32 <? get_split_gain node l r m (sp_gamma p))%f32 = true).
  { rewrite Hgain in HG. destruct (fisnan f32 sg) eqn:En.
    - rewrite (ol_lt_le _ OL) in HG by apply (sl_zero_nan _ SL). rewrite (ol_le_refl _ OL) in HG by apply (sl_zero_nan _ SL). discriminate.
    - unfold sg, cull_gain in HG. destruct (get_constraint s f) as [[]|]; auto;
        match type of HG with (_ <? (if ?b then _ else _))%f32 = _ => destruct b end; auto; rewrite (sl_ninf _ SL) in HG; discriminate. }
  unfold get_split_gain in *. simpl ni_gain. apply (sl_zero _ SL). apply (sl_pos _ SL). auto.
Qed.
End Candidate.
