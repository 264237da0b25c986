(** Proofs about the three-way pivot (C07). *)
From Coq Require Import List Arith Lia Bool Permutation.
From Verif Require Import Prelude Float Utils PivotProofs.
Import ListNotations.

Inductive side := Mi | Le | Ri.
(** Where a row with bin [b] belongs when missing gets its own branch. *)
Definition side_of (sv b : nat) : side := if b =? 0 then Mi else if b <? sv then Le else Ri.

Lemma swap_nth0 : forall index i j index', swap index i j = Some index' ->
  forall p, nth p index' 0 = if p =? j then nth i index 0 else if p =? i then nth j index 0 else nth p index 0.
Proof.
  intros index i j index' H p.
  pose proof (swap_nth _ _ _ H p) as E.
  assert (i < length index /\ j < length index) as [Hi Hj].
  { unfold swap in H. inv_bind H. inv_bind H. split; eapply nth_error_Some_lt; eauto. }
  destruct (le_lt_dec (length index) p) as [Hp|Hp].
  - rewrite !nth_overflow with (n := p); try lia; [|rewrite (swap_length _ _ _ H); lia].
    destruct (Nat.eqb_spec p j); [lia|]. destruct (Nat.eqb_spec p i); [lia|]. reflexivity.
  - assert (p < length index') as Hp' by (rewrite (swap_length _ _ _ H); auto).
    destruct (nth_error_lt index' Hp') as [x Hx]. rewrite (nth_error_nth_eq _ _ 0 Hx).
    rewrite Hx in E.
    destruct (p =? j); [|destruct (p =? i)]; symmetry in E; rewrite (nth_error_nth_eq _ _ 0 E); auto.
Qed.

Section Three.
Variables (feature : list nat) (sv : nat).
Hypothesis Hsv : 0 < sv.

Definition kd (x : nat) : side := side_of sv (nth x feature 0).
Definition K (index : list nat) (p : nat) : side := kd (nth p index 0).
Notation in_range := (in_range feature).

Lemma lookup3 : forall index p, in_range index -> p < length index ->
  exists i, nth_error index p = Some i /\ exists b, nth_error feature i = Some b /\
    side_of sv b = K index p.
Proof.
  intros index p HR Hp. destruct (nth_error_lt index Hp) as [i Hi].
  exists i; split; auto.
  assert (i < length feature) as Hl by (apply HR; eapply nth_error_In; eauto).
  destruct (nth_error_lt feature Hl) as [b Hb]. exists b; split; auto.
  unfold K, kd. rewrite (nth_error_nth_eq _ _ 0 Hi), (nth_error_nth_eq _ _ 0 Hb). reflexivity.
Qed.

Lemma K_swap : forall index i j index', swap index i j = Some index' -> forall p,
  K index' p = if p =? j then K index i else if p =? i then K index j else K index p.
Proof.
  intros index i j index' H p. unfold K. rewrite (swap_nth0 _ _ _ _ H).
  destruct (p =? j); auto. destruct (p =? i); auto.
Qed.

Ltac eqbs := repeat match goal with
  | |- context [?a =? ?b] => destruct (Nat.eqb_spec a b); try lia; subst
  end; try congruence; auto.

Lemma pivot3_low_spec : forall max_idx fuel index low missing,
  in_range index -> max_idx < length index -> missing <= low <= max_idx -> max_idx - low <= fuel ->
  (forall p, p < missing -> K index p = Mi) ->
  (forall p, missing <= p < low -> K index p = Le) ->
  exists index' low' missing',
    pivot3_low fuel index feature sv low max_idx missing = Some (index', low', missing') /\
    Permutation index index' /\ low <= low' <= max_idx /\ missing' <= low' /\
    (forall p, p < missing' -> K index' p = Mi) /\
    (forall p, missing' <= p < low' -> K index' p = Le) /\
    (forall p, low' <= p -> K index' p = K index p) /\
    (forall p, low <= p < low' -> K index p <> Ri) /\
    (low' = max_idx \/ K index' low' = Ri).
Proof.
  intros max_idx. induction fuel as [|f IH]; intros index low missing HR Hm Hl Hf HM HL; simpl.
  - destruct (Nat.ltb_spec low max_idx); [lia|].
    exists index, low, missing. repeat split; auto; try lia.
  - destruct (Nat.ltb_spec low max_idx) as [Hlt|Hge].
    2:{ exists index, low, missing. repeat split; auto; try lia. }
    destruct (lookup3 index low HR) as (i & Ei & b & Eb & Hc); [lia|].
    rewrite Ei; simpl. rewrite Eb; simpl. unfold side_of in Hc.
    destruct (Nat.eqb_spec b 0) as [->|Hb].
    + destruct (@swap_total _ index missing low) as [index1 Es]; try lia.
      rewrite Es; simpl.
      destruct sv as [|sv'] eqn:Esv; [lia|]. simpl. rewrite <- Esv in *.
      pose proof (K_swap _ _ _ _ Es) as SW.
      destruct (IH index1 (low + 1) (missing + 1)) as (i' & l' & m' & E & P & A1 & A2 & A3 & A4 & A5 & A6 & A7); try lia.
      * apply (in_range_perm feature index); [eapply swap_perm; eauto|auto].
      * rewrite (swap_length _ _ _ Es); auto.
      * intros p Hp. rewrite SW. destruct (Nat.eqb_spec p low).
        { assert (missing = low) as -> by lia. congruence. }
        destruct (Nat.eqb_spec p missing); [congruence|]. apply HM; lia.
      * intros p Hp. rewrite SW. destruct (Nat.eqb_spec p low).
        { apply HL; lia. }
        destruct (Nat.eqb_spec p missing); [lia|]. apply HL; lia.
      * exists i', l', m'. split; [exact E|]. split.
        { eapply Permutation_trans; [eapply swap_perm; eauto|auto]. }
        repeat split; auto; try lia.
        -- intros p Hp. rewrite A5 by lia. rewrite SW. eqbs.
        -- intros p Hp. destruct (Nat.eq_dec p low) as [->|]; [congruence|].
           specialize (A6 p). rewrite SW in A6. revert A6. eqbs. intros A6. apply A6; lia.
    + destruct (Nat.ltb_spec b sv) as [Hbs|Hbs].
      * assert (Nat.compare sv b = Gt) as -> by (apply Nat.compare_gt_iff; lia).
        destruct (IH index (low + 1) missing) as (i' & l' & m' & E & P & A1 & A2 & A3 & A4 & A5 & A6 & A7); try lia; auto.
        { intros p Hp. destruct (Nat.eq_dec p low) as [->|]; [congruence|]. apply HL; lia. }
        exists i', l', m'. split; [exact E|]. split; auto.
        repeat split; auto; try lia.
        intros p Hp. destruct (Nat.eq_dec p low) as [->|]; [congruence|]. apply A6; lia.
      * exists index, low, missing. split.
        { destruct (Nat.compare_spec sv b); try reflexivity. lia. }
        repeat split; auto; try lia.
Qed.

Lemma pivot3_high_spec : forall fuel index low high missing,
  in_range index -> high < length index -> missing <= low <= high -> high - low <= fuel ->
  (forall p, p < missing -> K index p = Mi) ->
  (forall p, missing <= p < low -> K index p = Le) ->
  (low < high -> K index low = Ri) ->
  exists index' low' high' missing',
    pivot3_high fuel index feature sv low high missing = Some (index', low', high', missing') /\
    Permutation index index' /\ low <= low' /\ low' <= high' /\ high' <= high /\ missing' <= low' /\
    (forall p, p < missing' -> K index' p = Mi) /\
    (forall p, missing' <= p < low' -> K index' p = Le) /\
    (forall p, high < p -> K index' p = K index p) /\
    (forall p, high' < p <= high -> K index' p = Ri) /\
    (low' = high' /\ (low < high -> K index' low' = Ri) /\ (low = high -> K index' low' = K index low) \/
     low' < high' /\ K index' low' = Ri /\ K index' high' = Le \/
     low' < high' /\ low' = low + 1 /\ K index' high' = Ri).
Proof.
  induction fuel as [|f IH]; intros index low high missing HR Hh Hl Hf HM HL HRi; simpl.
  - destruct (Nat.ltb_spec low high); [lia|]. assert (low = high) as -> by lia.
    exists index, high, high, missing. repeat split; auto; try lia.
  - destruct (Nat.ltb_spec low high) as [Hlt|Hge].
    2:{ assert (low = high) as -> by lia.
        exists index, high, high, missing. repeat split; auto; try lia. }
    specialize (HRi Hlt).
    destruct (lookup3 index high HR) as (i & Ei & b & Eb & Hc); [lia|].
    rewrite Ei; simpl. rewrite Eb; simpl. unfold side_of in Hc.
    destruct (Nat.eqb_spec b 0) as [->|Hb].
    + destruct (@swap_total _ index missing high) as [index1 Es]; try lia.
      rewrite Es; simpl.
      destruct sv as [|sv'] eqn:Esv; [lia|]. simpl. rewrite <- Esv in *.
      pose proof (K_swap _ _ _ _ Es) as SW.
      destruct (Nat.ltb_spec low (missing + 1)) as [Hlm|Hlm].
      * assert (missing = low) as -> by lia.
        exists index1, (low + 1), high, (low + 1). split; auto.
        split; [eapply swap_perm; eauto|].
        repeat split; auto; try lia.
        -- intros p Hp. rewrite SW. eqbs. apply HM; lia.
        -- intros p Hp. rewrite SW. eqbs.
        -- destruct (Nat.eq_dec (low + 1) high) as [He|].
           ++ left. repeat split; auto; try lia. intros _. rewrite SW. eqbs.
           ++ right; right. repeat split; try lia. rewrite SW. eqbs.
      * exists index1, low, high, (missing + 1). split; auto.
        split; [eapply swap_perm; eauto|].
        repeat split; auto; try lia.
        -- intros p Hp. rewrite SW. eqbs. apply HM; lia.
        -- intros p Hp. rewrite SW. eqbs. apply HL; lia.
        -- intros p Hp. rewrite SW. eqbs.
        -- right; left. repeat split; try lia; rewrite SW; eqbs. apply HL; lia.
    + destruct (Nat.ltb_spec b sv) as [Hbs|Hbs].
      * assert (Nat.compare sv b = Gt) as -> by (apply Nat.compare_gt_iff; lia).
        exists index, low, high, missing. repeat split; auto; try lia.
      * destruct (IH index low (high - 1) missing) as (i' & l' & h' & m' & E & P & A0 & A1 & A2 & A3 & A4 & A5 & A6 & A7 & A8); try lia; auto.
        exists i', l', h', m'. split.
        { destruct (Nat.compare_spec sv b); try exact E. lia. }
        split; auto. repeat split; auto; try lia.
        -- intros p Hp. apply A6; lia.
        -- intros p Hp. destruct (Nat.eq_dec p high) as [->|]; [rewrite A6; [congruence|lia]|apply A7; lia].
        -- destruct A8 as [(B1 & B2 & B3)|[B|B]]; auto.
           left. repeat split; auto; try lia. intros _.
           destruct (Nat.eq_dec low (high - 1)); [rewrite B3; auto|apply B2; lia].
Qed.

Definition is_ri (s : side) : nat := match s with Ri => 1 | _ => 0 end.

Lemma pivot3_loop_spec : forall max_idx fuel index low high missing,
  in_range index -> length index = S max_idx -> low <= high <= max_idx -> missing <= low ->
  (forall p, p < missing -> K index p = Mi) ->
  (forall p, missing <= p < low -> K index p = Le) ->
  (forall p, high < p <= max_idx -> K index p = Ri) ->
  (high = max_idx \/ K index high = Ri \/ K index low = Ri) ->
  (high = low -> low = max_idx \/ K index low = Ri) ->
  (2 * (high - low) + is_ri (K index low) < fuel \/ high = low) ->
  exists index' m k, pivot3_loop fuel index feature sv low high max_idx missing = Some (index', (m, k)) /\
    Permutation index index' /\ m <= k <= max_idx /\
    (forall p, p < m -> K index' p = Mi) /\
    (forall p, m <= p < k -> K index' p = Le) /\
    (forall p, k < p <= max_idx -> K index' p = Ri) /\
    (k = max_idx \/ K index' k = Ri).
Proof.
  intros max_idx. induction fuel as [|f IH]; intros index low high missing HR Hlen Hlh Hml HM HL HRi Hq Heq Hf.
  - simpl. destruct (Nat.ltb_spec low high); [lia|]. assert (high = low) by lia. subst.
    exists index, missing, low. repeat split; auto; try lia.
  - simpl. destruct (Nat.ltb_spec low high) as [Hlt|Hge].
    2:{ assert (high = low) by lia. subst.
        exists index, missing, low. repeat split; auto; try lia. }
    destruct (pivot3_low_spec max_idx (length index) index low missing HR)
      as (index1 & low1 & missing1 & E1 & P1 & A1 & A2 & A3 & A4 & A5 & A6 & A7); try lia; auto.
    rewrite E1; simpl.
    assert (HR1 : in_range index1) by (eapply in_range_perm; eauto).
    assert (length index1 = S max_idx) as Hlen1 by (rewrite <- (Permutation_length P1); auto).
    assert (low1 <= high) as Hle.
    { destruct (le_lt_dec low1 high); auto. exfalso.
      destruct Hq as [Hq|[Hq|Hq]]; [lia| |].
      - apply (A6 high); auto; lia.
      - apply (A6 low); auto; lia. }
    destruct (pivot3_high_spec (length index1) index1 low1 high missing1 HR1)
      as (index2 & low2 & high2 & missing2 & E2 & P2 & B0 & B1 & B2 & B3 & B4 & B5 & B6 & B7 & B8); try lia; auto.
    { intros. destruct A7; auto; lia. }
    rewrite E2; simpl.
    assert (HR2 : in_range index2) by (eapply in_range_perm; eauto).
    assert (length index2 = S max_idx) as Hlen2 by (rewrite <- (Permutation_length P2); auto).
    assert (HRi2 : forall p, high2 < p <= max_idx -> K index2 p = Ri).
    { intros p Hp. destruct (le_lt_dec p high); [apply B7; lia|]. rewrite B6 by lia.
      rewrite A5 by lia. apply HRi; lia. }
    (* progress of the low scan *)
    assert (Hprog : low1 = low -> K index low = Ri).
    { intros ->. destruct A7 as [A7|A7]; [lia|]. rewrite A5 in A7 by lia. auto. }
    destruct B8 as [(C1 & C2 & C3)|[(C1 & C2 & C3)|(C1 & C2 & C3)]].
    + (* met *)
      destruct (Nat.ltb_spec low2 high2); [lia|]. subst high2.
      assert (low2 = max_idx \/ K index2 low2 = Ri) as Hfin.
      { destruct (Nat.eq_dec low1 high) as [He|].
        - destruct A7 as [A7|A7]; [left; lia|]. right. rewrite C3; auto.
        - right. apply C2; lia. }
      destruct (IH index2 low2 low2 missing2) as (i' & m & k & E & P & D); auto; try lia.
      { tauto. }
      exists i', m, k. split; auto. split; auto.
      eapply Permutation_trans; [exact P1|]. eapply Permutation_trans; eauto.
    + destruct (Nat.ltb_spec low2 high2); [|lia].
      destruct (@swap_total _ index2 high2 low2) as [index3 Es]; try lia.
      rewrite Es; simpl. pose proof (K_swap _ _ _ _ Es) as SW.
      assert (K index3 low2 = Le) as N1 by (rewrite SW; eqbs).
      assert (K index3 high2 = Ri) as N2 by (rewrite SW; eqbs).
      destruct (IH index3 low2 high2 missing2) as (i' & m & k & E & P & D); auto; try lia.
      * apply (in_range_perm feature index2); [eapply swap_perm; eauto|auto].
      * rewrite (swap_length _ _ _ Es); auto.
      * intros p Hp. rewrite SW. eqbs.
      * intros p Hp. rewrite SW. eqbs.
      * intros p Hp. rewrite SW. eqbs.
      * left. rewrite N1. simpl. destruct Hf as [Hf|Hf]; [|lia].
        destruct (Nat.eq_dec low1 low) as [He|]; [rewrite (Hprog He) in Hf; simpl in Hf; lia|].
        lia.
      * exists i', m, k. split; auto. split; auto.
        eapply Permutation_trans; [exact P1|]. eapply Permutation_trans; [exact P2|].
        eapply Permutation_trans; [eapply swap_perm; eauto|auto].
    + destruct (Nat.ltb_spec low2 high2); [|lia].
      destruct (@swap_total _ index2 high2 low2) as [index3 Es]; try lia.
      rewrite Es; simpl. pose proof (K_swap _ _ _ _ Es) as SW.
      assert (K index3 low2 = Ri) as N1 by (rewrite SW; eqbs).
      destruct (IH index3 low2 high2 missing2) as (i' & m & k & E & P & D); auto; try lia.
      * apply (in_range_perm feature index2); [eapply swap_perm; eauto|auto].
      * rewrite (swap_length _ _ _ Es); auto.
      * intros p Hp. rewrite SW. eqbs.
      * intros p Hp. rewrite SW. eqbs.
      * intros p Hp. rewrite SW. eqbs.
      * left. rewrite N1. simpl. destruct Hf as [Hf|Hf]; [|lia].
        destruct (Nat.eq_dec low1 low) as [He|]; [rewrite (Hprog He) in Hf; simpl in Hf; lia|].
        lia.
      * exists i', m, k. split; auto. split; auto.
        eapply Permutation_trans; [exact P1|]. eapply Permutation_trans; [exact P2|].
        eapply Permutation_trans; [eapply swap_perm; eauto|auto].
Qed.

Lemma pivot3_main : forall index, in_range index -> index <> [] ->
  exists index' m k, pivot_on_split_exclude_missing index feature sv = Some (index', (m, k)) /\
    Permutation index index' /\ m <= k < length index /\
    (forall p, p < m -> K index' p = Mi) /\
    (forall p, m <= p < k -> K index' p = Le) /\
    (forall p, k < p < length index -> K index' p = Ri) /\
    (S k = length index \/ K index' k = Ri).
Proof.
  intros index HR Hne. unfold pivot_on_split_exclude_missing.
  destruct (length index) as [|m] eqn:Hlen.
  { destruct index; [congruence|discriminate]. }
  destruct (pivot3_loop_spec m (2 * S m + 2) index 0 m 0 HR Hlen) as (i' & mm & k & E & P & K1 & K2 & K3 & K4 & K5);
    try lia; auto.
  { left. destruct (K index 0); simpl; lia. }
  exists i', mm, k. rewrite E. repeat split; auto; try lia.
  - intros p Hp. apply K4. lia.
  - destruct K5; [left; lia|right; auto].
Qed.
End Three.

(** C07: three-way pivot.  The boundaries (m, k) cut the permuted slice into the missing rows,
    the rows below the split and the rows at or above it. *)
Theorem pivot_three_way : forall index feature sv,
  0 < sv ->
  (forall x, In x index -> x < length feature) ->
  (exists x b, In x index /\ nth_error feature x = Some b /\ sv <= b) ->
  exists index' m k,
    pivot_on_split_exclude_missing index feature sv = Some (index', (m, k)) /\
    Permutation index index' /\ m <= k < length index /\
    (forall x, In x (firstn m index') -> nth_error feature x = Some 0) /\
    (forall x, In x (firstn (k - m) (skipn m index')) ->
        exists b, nth_error feature x = Some b /\ 0 < b < sv) /\
    (forall x, In x (skipn k index') -> exists b, nth_error feature x = Some b /\ sv <= b).
Proof.
  intros index feature sv Hsv HR (x0 & b0 & Hin & Hb0 & Hg0).
  destruct (pivot3_main feature sv Hsv index HR) as (index' & m & k & E & P & Hk & HM & HL & HRt & Hend).
  { intros ->; destruct Hin. }
  exists index', m, k. split; auto. split; auto.
  pose proof (in_range_perm feature _ _ P HR) as HR'.
  pose proof (Permutation_length P) as PL.
  assert (HatL : forall p x, nth_error index' p = Some x ->
            exists b, nth_error feature x = Some b /\ side_of sv b = K feature sv index' p).
  { intros p x Hp. assert (x < length feature) as Hx by (apply HR'; eapply nth_error_In; eauto).
    destruct (nth_error_lt feature Hx) as [b Hb]. exists b; split; auto.
    unfold K, kd. rewrite (nth_error_nth_eq _ _ 0 Hp), (nth_error_nth_eq _ _ 0 Hb). reflexivity. }
  assert (Hk' : K feature sv index' k = Ri).
  { destruct Hend as [Hend|]; auto.
    assert (In x0 index') as Hin' by (eapply Permutation_in; eauto).
    apply In_nth_error in Hin'. destruct Hin' as [p Hp].
    assert (p < length index') as Hpl by (eapply nth_error_Some_lt; eauto).
    destruct (HatL p x0 Hp) as (b & Hb & Hg). rewrite Hb0 in Hb; inversion Hb; subst.
    unfold side_of in Hg. destruct (Nat.eqb_spec b 0); [lia|]. destruct (Nat.ltb_spec b sv); [lia|].
    destruct (Nat.eq_dec p k) as [->|]; [congruence|].
    destruct (le_lt_dec m p); [rewrite HL in Hg by lia|rewrite HM in Hg by lia]; discriminate. }
  split; [lia|]. repeat split.
  - intros x Hx. apply nth_firstn_In in Hx. destruct Hx as (p & Hp & Hpx).
    destruct (HatL p x Hpx) as (b & Hb & Hg). rewrite HM in Hg by auto.
    unfold side_of in Hg. destruct (Nat.eqb_spec b 0); [subst; auto|].
    destruct (b <? sv); discriminate.
  - intros x Hx. apply nth_firstn_In in Hx. destruct Hx as (p & Hp & Hpx).
    assert (Hpx' : nth_error index' (m + p) = Some x).
    { rewrite <- (firstn_skipn m index'). rewrite nth_error_app2; rewrite firstn_length_le by lia; [|lia].
      replace (m + p - m) with p by lia. auto. }
    destruct (HatL _ x Hpx') as (b & Hb & Hg). rewrite HL in Hg by lia. exists b; split; auto.
    unfold side_of in Hg. destruct (Nat.eqb_spec b 0); [discriminate|].
    destruct (Nat.ltb_spec b sv); [lia|discriminate].
  - intros x Hx. apply nth_skipn_In in Hx. destruct Hx as (p & Hp & Hpx).
    destruct (HatL p x Hpx) as (b & Hb & Hg). exists b; split; auto.
    assert (p < length index') by (eapply nth_error_Some_lt; eauto).
    assert (K feature sv index' p = Ri) as HK.
    { destruct (Nat.eq_dec p k) as [->|]; auto. apply HRt; lia. }
    rewrite HK in Hg. unfold side_of in Hg. destruct (Nat.eqb_spec b 0); [discriminate|].
    destruct (Nat.ltb_spec b sv); [discriminate|auto].
Qed.

(** It never loses a row, even when no row goes right. *)
Theorem pivot_three_way_permutes : forall index feature sv,
  0 < sv -> index <> [] -> (forall x, In x index -> x < length feature) ->
  exists index' m k,
    pivot_on_split_exclude_missing index feature sv = Some (index', (m, k)) /\
    Permutation index index' /\ m <= k < length index.
Proof.
  intros index feature sv Hsv Hne HR.
  destruct (pivot3_main feature sv Hsv index HR Hne) as (index' & m & k & E & P & Hk & _).
  exists index', m, k. auto.
Qed.

(** "WARNING!!! Currently, this function fails, if all the values are missing" *)
Example pivot_three_way_all_missing_wrong :
  pivot_on_split_exclude_missing [0; 1; 2] [0; 0; 0] 1 = Some ([0; 1; 2], (2, 2)).
Proof. reflexivity. Qed.

Example pivot_three_way_case :
  pivot_on_split_exclude_missing [0; 1; 2; 3; 4] [3; 0; 1; 0; 2] 2 = Some ([3; 1; 2; 0; 4], (2, 3)).
Proof. reflexivity. Qed.
Example pivot_two_way_case :
  pivot_on_split [0; 1; 2; 3; 4] [3; 0; 1; 0; 2] 2 true = Some ([2; 1; 0; 3; 4], 1).
Proof. reflexivity. Qed.
