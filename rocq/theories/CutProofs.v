(** The cuts of a column and the binned matrix. *)
From Coq Require Import List Arith NArith Lia Bool Permutation Sorting.
From Verif Require Import Prelude Float OrdProofs Data DataProofs Utils Binning BinningProofs.
Import ListNotations.

Section Cuts.
Context {FS : Floats}.
Variable OL : OrdLaws (@f64 FS).
Notation sorted_le := (sorted_le (@f64 FS)).
Notation sorted_lt := (sorted_lt (@f64 FS)).
Notation nums := (nums (@f64 FS)).
Notation le x y := (fle (@f64 FS) x y = true).
Notation lt x y := (flt (@f64 FS) x y = true).

(** *** Percentiles: sorted, observed, not too many *)
Lemma pct_inner_spec : forall pcts cuml cur value p,
  match pct_inner cuml cur pcts value p with
  | inl p' => p' = p ++ repeat value (S (length pcts))
  | inr (cur', pcts', p') => exists k, p' = p ++ repeat value k /\ length pcts = k + length pcts'
  end.
Proof.
  induction pcts as [|q pcts IH]; intros cuml cur value p; simpl.
  - destruct (cur <=? cuml)%f64; auto. exists 0. rewrite app_nil_r. auto.
  - destruct (cur <=? cuml)%f64.
    + specialize (IH cuml q value (p ++ [value])). destruct (pct_inner cuml q pcts value (p ++ [value])) as [p'|[[c' ps'] p']].
      * rewrite IH, <- app_assoc. reflexivity.
      * destruct IH as (k & -> & E). exists (S k). rewrite <- app_assoc. split; auto. simpl. lia.
    + exists 0. rewrite app_nil_r. auto.
Qed.

Lemma sorted_repeat : forall p v k, sorted_le p -> (forall x, In x p -> le x v) -> fisnan f64 v = false ->
  sorted_le (p ++ repeat v k).
Proof.
  intros p v k S A N. apply ss_app; auto.
  - induction k; simpl; constructor; auto. apply Forall_forall. intros x Hx. apply repeat_spec in Hx. subst.
    apply (ol_le_refl _ OL); auto.
  - intros x y Hx Hy. apply repeat_spec in Hy. subst. auto.
Qed.

Definition pos_sorted (v : list F64) : list nat -> Prop :=
  StronglySorted (fun i j => forall x y, nth_error v i = Some x -> nth_error v j = Some y -> le x y).

Lemma pct_loop_sorted : forall v w total lastv, nums v -> In lastv v -> (forall x, In x v -> le x lastv) ->
  forall idx cuml cur pcts cv p r,
  pct_loop v w total lastv idx cuml cur pcts cv p = Some r ->
  pos_sorted v idx -> In cv v -> (forall i x, In i idx -> nth_error v i = Some x -> le cv x) ->
  sorted_le p -> (forall x, In x p -> In x v /\ le x cv) ->
  sorted_le r /\ (forall x, In x r -> In x v) /\ length r <= length p + S (length pcts).
Proof.
  intros v w total lastv N HL HM. induction idx as [|i idx IH]; intros cuml cur pcts cv p r H S Hcv Hrest Sp Ap; simpl in H.
  - injection H as <-. repeat split; auto; [firstorder|lia].
  - inv_bind H. rename v0 into vi. inv_bind H. rename v0 into wi.
    set (cv' := if (cv =? vi)%f64 then cv else vi) in *.
    assert (Hvi : In vi v) by (eapply nth_error_In; eauto).
    assert (Lcv : le cv vi) by (eapply Hrest; eauto; simpl; auto).
    assert (Hcv' : In cv' v) by (unfold cv'; destruct (cv =? vi)%f64; auto).
    assert (Lcc : le cv cv').
    { unfold cv'. destruct (cv =? vi)%f64; auto. apply (ol_le_refl _ OL). auto. }
    assert (Lcv' : le cv' vi).
    { unfold cv'. destruct (cv =? vi)%f64; auto. apply (ol_le_refl _ OL). auto. }
    inversion S as [|? ? S' FA]; subst. rewrite Forall_forall in FA.
    assert (R' : forall j x, In j idx -> nth_error v j = Some x -> le cv' x).
    { intros j x Hj Hx. eapply (ol_le_trans _ OL); [exact Lcv'|]. eapply FA; eauto. }
    assert (Ap' : forall x, In x p -> In x v /\ le x cv').
    { intros x Hx. destruct (Ap x Hx). split; auto. eapply (ol_le_trans _ OL); eauto. }
    destruct ((cur =? fzero f64)%f64 || (cur <=? cuml + wi / total)%f64)%bool.
    + pose proof (pct_inner_spec pcts (cuml + wi / total)%f64 cur cv' p) as PI.
      destruct (pct_inner (cuml + wi / total)%f64 cur pcts cv' p) as [p'|[[c' ps'] p']].
      * injection H as <-. subst p'. split; [apply sorted_repeat; auto; apply Ap'|].
        split; [|rewrite app_length, repeat_length; lia].
        intros x Hx. apply in_app_iff in Hx. destruct Hx as [Hx|Hx]; [apply Ap'; auto|].
        apply repeat_spec in Hx. subst; auto.
      * destruct PI as (k & -> & E1). apply IH in H; auto.
        -- destruct H as (H1 & H2 & H3). split; auto. split; auto. rewrite app_length, repeat_length in H3. lia.
        -- apply sorted_repeat; auto. apply Ap'.
        -- intros x Hx. apply in_app_iff in Hx. destruct Hx as [Hx|Hx]; [apply Ap'; auto|].
           apply repeat_spec in Hx. subst. split; auto. apply (ol_le_refl _ OL); auto.
    + destruct (cur =? fone f64)%f64.
      * injection H as <-. split; [|split].
        -- apply (sorted_repeat p lastv 1); auto. intros x Hx. apply HM. apply Ap'; auto.
        -- intros x Hx. apply in_app_iff in Hx. destruct Hx as [Hx|[<-|[]]]; auto. apply Ap'; auto.
        -- rewrite app_length. simpl. lia.
      * apply IH in H; auto.
Qed.

Lemma last_in : forall A (l : list A) d, l <> [] -> In (last l d) l.
Proof. induction l as [|a [|b l] IH]; intros d H; [tauto|simpl; auto|]. right. apply IH. discriminate. Qed.

Lemma pos_sorted_first : forall v idx i0 x0 i x, pos_sorted v idx -> nums v -> nth_error idx 0 = Some i0 ->
  nth_error v i0 = Some x0 -> In i idx -> nth_error v i = Some x -> le x0 x.
Proof.
  intros v idx i0 x0 i x S N H0 Hx0 Hi Hx. destruct idx as [|a idx]; [discriminate|]. injection H0 as ->.
  destruct Hi as [<-|Hi].
  - rewrite Hx0 in Hx. injection Hx as <-. apply (ol_le_refl _ OL). apply N. eapply nth_error_In; eauto.
  - inversion S as [|? ? S' FA]; subst. rewrite Forall_forall in FA. eapply FA; eauto.
Qed.

Lemma pos_sorted_last : forall v idx d xl i x, pos_sorted v idx -> nums v ->
  nth_error v (last idx d) = Some xl -> In i idx -> nth_error v i = Some x -> le x xl.
Proof.
  intros v idx d xl i x S N. induction S as [|a idx S IH FA]; intros Hl Hi Hx; [destruct Hi|].
  rewrite Forall_forall in FA. destruct idx as [|b idx].
  - simpl in Hl. destruct Hi as [<-|[]]. rewrite Hl in Hx. injection Hx as <-. apply (ol_le_refl _ OL).
    apply N. eapply nth_error_In; eauto.
  - destruct Hi as [<-|Hi]; [|apply IH; auto]. eapply FA; eauto. apply (last_in _ (b :: idx)). discriminate.
Qed.

Lemma percentiles_sorted : forall idx v w pcts r, nums v -> Permutation idx (seq 0 (length v)) -> pos_sorted v idx ->
  percentiles idx v w pcts = Some r ->
  sorted_le r /\ (forall x, In x r -> In x v) /\ length r <= length pcts.
Proof.
  intros idx v w pcts r N P S H. unfold percentiles in H.
  destruct ((1 <? length v) && existsb (fisnan f64) v); [discriminate|].
  destruct pcts as [|cur pcts]; [discriminate|].
  inv_bind H. rename v0 into i0. inv_bind H. rename v0 into x0. inv_bind H. rename v0 into xl.
  assert (ALL : forall x, In x v -> exists i, In i idx /\ nth_error v i = Some x).
  { intros x Hx. apply In_nth_error in Hx. destruct Hx as [i Hi]. exists i. split; auto.
    apply (Permutation_in _ (Permutation_sym P)). apply in_seq. apply nth_error_Some_lt in Hi. lia. }
  apply (pct_loop_sorted v) in H; auto.
  - eapply nth_error_In; eauto.
  - intros x Hx. destruct (ALL x Hx) as (i & Hi & Hv). eapply pos_sorted_last; eauto.
  - eapply nth_error_In; eauto.
  - intros i x Hi Hx. eapply pos_sorted_first; eauto.
  - constructor.
  - intros x [].
Qed.

(** *** The sorted values *)
Lemma sort_vals_sorted : forall S v, SortSpec S -> nums v -> exists sorted,
  mapM (nth_error v) (sort_vals S v) = Some sorted /\ Permutation sorted v /\ sorted_le sorted /\ nums sorted.
Proof.
  intros S v SS N. destruct (ss_vals _ SS v N) as [P PS].
  destruct (mapM_total (nth_error v) (sort_vals S v)) as [l Hl].
  { intros i Hi. apply (Permutation_in _ P) in Hi. apply in_seq in Hi. apply nth_error_lt. lia. }
  exists l. split; auto. assert (PL := mapM_nth_perm v _ _ P Hl). split; auto. split.
  - clear P PL. revert l Hl. induction PS as [|i idx PS IH FA]; intros l Hl; simpl in Hl.
    + injection Hl as <-. constructor.
    + inv_bind Hl. inv_bind Hl. injection Hl as <-. constructor; [apply IH; auto|].
      rewrite Forall_forall in FA. apply Forall_forall. intros y Hy. apply In_nth_error in Hy. destruct Hy as [k Hk].
      assert (HL : k < length idx). { apply nth_error_Some_lt in Hk. rewrite (mapM_length _ _ E0) in Hk. auto. }
      destruct (nth_error_lt idx HL) as [j Hj]. destruct (mapM_nth _ _ E0 _ Hj) as (y' & Hy' & Hv).
      rewrite Hk in Hy'. injection Hy' as <-. eapply FA; eauto. eapply nth_error_In; eauto.
  - intros x Hx. apply N. apply (Permutation_in _ PL). auto.
Qed.

(** Pigeonhole up to equality of floats. *)
Lemma distinct_length : forall l d, sorted_lt l -> (forall x, In x l -> exists y, In y d /\ feq f64 x y = true) ->
  length l <= length d.
Proof.
  intros l d S H.
  assert (exists m, Forall2 (fun x y => feq f64 x y = true) l m /\ incl m d /\ NoDup m) as (m & F & I & ND).
  { induction S as [|x l S IH FA].
    - exists []. split; [constructor|]. split; [intros y []|constructor].
    - destruct IH as (m & F & I & ND). { intros y Hy. apply H. simpl; auto. }
      destruct (H x) as (y & Hy & E); [simpl; auto|]. exists (y :: m). split; [constructor; auto|].
      split. { intros z [<-|Hz]; auto. }
      constructor; auto. intros Hin. apply In_nth_error in Hin. destruct Hin as [k Hk].
      assert (HL : k < length l). { apply nth_error_Some_lt in Hk. clear -F Hk. revert k Hk. induction F; intros [|k] Hk; simpl in *; try lia. specialize (IHF k). lia. }
      destruct (nth_error_lt l HL) as [z Hz].
      assert (Ez : feq f64 z y = true).
      { clear -F Hk Hz. revert k Hk Hz. induction F; intros [|k] Hk Hz; simpl in *; try discriminate.
        - congruence.
        - eauto. }
      rewrite Forall_forall in FA. assert (Lxz : lt x z) by (apply FA; eapply nth_error_In; eauto).
      apply (o_eq _ OL) in E. apply (o_eq _ OL) in Ez.
      assert (le z x) by (eapply (ol_le_trans _ OL); [apply Ez|apply E]).
      apply (o_lt_nle _ OL) in Lxz. congruence. }
  replace (length l) with (length m).
  - apply NoDup_incl_length; auto.
  - clear -F. induction F; simpl; auto.
Qed.

Lemma percentiles_or_value_spec : forall S v w pcts c, SortSpec S -> nums v ->
  percentiles_or_value S v w pcts = Some c ->
  sorted_le c /\ (forall x, In x c -> In x v) /\ length c <= length pcts + 1 /\
  ((exists d, length d <= length pcts + 1 /\ forall x, In x v -> exists y, In y d /\ feq f64 x y = true) ->
     sorted_lt c /\ forall x, In x v -> exists y, In y c /\ feq f64 x y = true).
Proof.
  intros S v w pcts c SS N H. unfold percentiles_or_value in H.
  destruct ((1 <? length v) && existsb (fisnan f64) v) eqn:EN; [discriminate|].
  destruct (sort_vals_sorted S v SS N) as (sorted & HS & P & SO & NS). rewrite HS in H. cbn [bind] in H.
  destruct (dedup_spec OL sorted SO NS) as (D1 & D2 & D3 & D4 & D5).
  assert (D3' : forall x, In x v -> exists y, In y (dedup sorted) /\ feq f64 x y = true).
  { intros x Hx. apply D3. apply (Permutation_in _ (Permutation_sym P)). auto. }
  assert (D2' : forall x, In x (dedup sorted) -> In x v).
  { intros x Hx. apply (Permutation_in _ P). auto. }
  destruct (Nat.leb_spec (length (dedup sorted)) (length pcts + 1)) as [HL|HL].
  - injection H as <-. split; [apply sorted_lt_le; auto|]. split; auto.
  - destruct (ss_pos _ SS v N) as [PP PS].
    destruct (percentiles_sorted _ _ _ _ _ N PP PS H) as (H1 & H2 & H3). split; auto. split; auto. split; [lia|].
    intros (d & Hd & Hd2). exfalso.
    assert (length (dedup sorted) <= length d); [|lia]. apply distinct_length; auto.
Qed.

(** *** The cuts of one column *)
Definition observed (col sw : list F64) (missing : F64) : list (F64 * F64) :=
  filter (fun vw => negb (bin_missing (fst vw) missing)) (combine col sw).

Lemma split_missing_spec : forall col sw missing kept, split_missing col sw missing = Some kept ->
  kept = observed col sw missing /\ forall vw, In vw (combine col sw) -> exists b, is_missing (fst vw) missing = Some b.
Proof.
  intros col sw missing kept H. unfold split_missing in H. inv_bind H. rename v into flags. injection H as <-.
  unfold observed. revert flags E. generalize (combine col sw) as l.
  induction l as [|vw l IH]; intros flags E; simpl in E.
  - injection E as <-. simpl. split; auto. intros ? [].
  - inv_bind E. inv_bind E. injection E as <-. destruct (IH _ E1) as [IH1 IH2]. simpl.
    rewrite (is_missing_bin OL _ _ _ E0). split.
    + destruct v; simpl; rewrite ?IH1; auto.
    + intros x [<-|Hx]; eauto.
Qed.

Lemma observed_nums : forall col sw missing, nums (map fst (observed col sw missing)).
Proof.
  intros col sw missing x Hx. apply in_map_iff in Hx. destruct Hx as ([y w] & <- & Hy). apply filter_In in Hy.
  destruct Hy as [_ Hy]. simpl in *. unfold bin_missing in Hy. apply negb_true_iff, orb_false_iff in Hy. tauto.
Qed.

(** C03, for one column. *)
Theorem col_cuts_spec : forall S col sw pcts missing cuts, SortSpec S ->
  let values := map fst (observed col sw missing) in
  fisnan f64 (fmax (@f64 FS)) = false -> (forall x, In x values -> le x (fmax f64)) ->
  col_cuts S col sw pcts missing = Some cuts ->
  nums cuts /\ sorted_lt cuts /\
  (exists c m, cuts = c ++ [m] /\ feq f64 m (fmax f64) = true /\ forall x, In x c -> In x values /\ lt x (fmax f64)) /\
  length cuts <= length pcts + 2 /\
  ((exists d, length d <= length pcts + 1 /\ forall x, In x values -> exists y, In y d /\ feq f64 x y = true) ->
     forall x, In x values -> exists y, In y cuts /\ feq f64 x y = true).
Proof.
  intros S col sw pcts missing cuts SS values NM HM H. unfold col_cuts in H.
  inv_bind H. rename v into kept. inv_bind H. rename v into c. injection H as <-.
  apply split_missing_spec in E. destruct E as [-> _].
  assert (NV : nums values) by apply observed_nums.
  destruct (percentiles_or_value_spec _ _ _ _ _ SS NV E0) as (P1 & P2 & P3 & P4). fold values in P2, P4.
  assert (NC : nums (c ++ [fmax f64])).
  { intros x Hx. apply in_app_iff in Hx. destruct Hx as [Hx|[<-|[]]]; auto. }
  assert (SC : sorted_le (c ++ [fmax f64])).
  { apply ss_app; auto; [constructor; constructor|]. intros x y Hx [<-|[]]. auto. }
  destruct (dedup_spec OL _ SC NC) as (D1 & D2 & D3 & D4 & D5).
  split. { intros x Hx. apply NC. auto. }
  split; auto. split; [|split].
  - destruct (D3 (fmax f64)) as (m & Hm & Em); [apply in_app_iff; simpl; auto|].
    apply in_split in Hm. destruct Hm as (c1 & c2 & Ec). rewrite Ec in *.
    assert (c2 = []) as ->.
    { destruct c2 as [|z c2]; auto. exfalso.
      destruct (ss_app_inv _ _ c1 _ D1) as (_ & S2 & _). inversion S2 as [|? ? _ FA]; subst.
      rewrite Forall_forall in FA. assert (lt m z) by (apply FA; simpl; auto).
      assert (le z (fmax f64)).
      { assert (In z (c ++ [fmax f64])) as Hz by (apply D2; rewrite in_app_iff; simpl; auto).
        apply in_app_iff in Hz. destruct Hz as [Hz|[<-|[]]]; auto. apply (ol_le_refl _ OL); auto. }
      apply (o_eq _ OL) in Em. assert (le z m) by (eapply (ol_le_trans _ OL); [eauto|apply Em]).
      apply (o_lt_nle _ OL) in H. congruence. }
    exists c1, m. split; auto. split; [rewrite (o_eq_sym _ OL); auto|].
    intros x Hx. destruct (ss_app_inv _ _ c1 _ D1) as (_ & _ & A).
    assert (Lm : lt x m) by (apply A; simpl; auto). apply (o_eq _ OL) in Em.
    assert (Lx : lt x (fmax f64)) by (eapply (o_lt_le_trans _ OL); [eauto|apply Em]).
    split; auto.
    assert (In x (c ++ [fmax f64])) as Hz by (apply D2; rewrite in_app_iff; auto).
    apply in_app_iff in Hz. destruct Hz as [Hz|[<-|[]]]; auto. rewrite (o_lt_irrefl _ OL) in Lx. discriminate.
  - etransitivity; [exact D4|]. rewrite app_length; simpl. lia.
  - intros HD x Hx. destruct (P4 HD) as [_ P5]. destruct (P5 x Hx) as (y & Hy & E1).
    destruct (D3 y) as (z & Hz & E2); [apply in_app_iff; auto|]. exists z. split; auto.
    apply (o_eq _ OL) in E1. apply (o_eq _ OL) in E2. apply (o_eq _ OL).
    destruct E1, E2. split; eapply (ol_le_trans _ OL); eauto.
Qed.

(** *** The binned matrix *)
Lemma push_jrep : forall m vecs cc, jrep m vecs -> jrep (push_cuts m cc) (vecs ++ [cc]).
Proof.
  intros m vecs cc [HD HE]. unfold push_cuts. split; simpl.
  - rewrite HD, concat_app. simpl. rewrite app_nil_r. auto.
  - rewrite HE, map_app, psums_app. f_equal. simpl. f_equal.
    destruct vecs as [|v vecs]; [reflexivity|].
    remember (psums 0 (map (length (A:=F64)) (v :: vecs))) as e eqn:Ee. destruct e as [|e0 e]; [simpl in Ee; discriminate|].
    rewrite Ee. rewrite psums_last by discriminate. reflexivity.
Qed.

Lemma cuts_fold : forall S data sw pcts missing l cuts nu vecs cuts' nu',
  foldM (fun '(cuts, nunique) i =>
      let* col := m_get_col data i in
      let* cc := col_cuts S col sw pcts missing in
      Some (push_cuts cuts cc, nunique ++ [length cc])) l (cuts, nu) = Some (cuts', nu') ->
  jrep cuts vecs ->
  exists ccols, jrep cuts' (vecs ++ ccols) /\ nu' = nu ++ map (@length F64) ccols /\
    Forall2 (fun i cc => exists col, m_get_col data i = Some col /\ col_cuts S col sw pcts missing = Some cc) l ccols.
Proof.
  intros S data sw pcts missing. induction l as [|i l IH]; intros cuts nu vecs cuts' nu' H J; simpl in H.
  - injection H as <- <-. exists []. rewrite !app_nil_r. repeat split; auto; apply J.
  - inv_bind H. inv_bind E. inv_bind E. injection E as <-. rename v1 into cc.
    destruct (IH _ _ _ _ _ H (push_jrep _ _ cc J)) as (ccols & J' & Hn & F).
    exists (cc :: ccols). rewrite <- app_assoc in J'. split; auto. split.
    + rewrite Hn, <- app_assoc. reflexivity.
    + constructor; eauto.
Qed.

(** The result of binning, in terms of the cuts of each column. *)
Theorem bin_matrix_spec : forall S data sw nbins missing bd,
  bin_matrix S data sw nbins missing = Some bd ->
  exists ccols, jrep (b_cuts bd) ccols /\ length ccols = m_cols data /\ b_nunique bd = map (@length F64) ccols /\
    (forall j cc, nth_error ccols j = Some cc -> exists col, m_get_col data j = Some col /\
       col_cuts S col sw (bin_pcts nbins) missing = Some cc) /\
    length (b_data bd) = length (m_data data) /\
    (forall k v, nth_error (m_data data) k = Some v ->
       exists cc b, nth_error ccols (k / m_rows data) = Some cc /\ map_bin cc v missing = Some (Some b) /\
         nth_error (b_data bd) k = Some b).
Proof.
  intros S data sw nbins missing bd H. unfold bin_matrix in H.
  inv_bind H. destruct v as [cuts nu]. inv_bind H. rename v into binned. injection H as <-. simpl.
  destruct (cuts_fold _ _ _ _ _ _ _ _ [] _ _ E) as (ccols & J & Hn & F).
  { split; reflexivity. }
  simpl in J, Hn. exists ccols. split; auto.
  assert (L : length ccols = m_cols data).
  { transitivity (length (seq 0 (m_cols data))); [|apply seq_length].
    clear -F. induction F; simpl; auto. }
  split; auto. split; auto. split.
  { intros j cc Hj. destruct (Forall2_nth_r F _ Hj) as (i & Hi & HP).
    rewrite nth_error_seq in Hi by (apply nth_error_Some_lt in Hj; lia). simpl in Hi. injection Hi as <-. exact HP. }
  unfold bin_matrix_from_cuts in E0. split.
  { rewrite (mapM_length _ _ E0), combine_length, seq_length. lia. }
  intros k v Hv. assert (Hk := nth_error_Some_lt _ _ Hv).
  destruct (mapM_nth _ _ E0 k (nth_error_combine _ _ _ (nth_error_seq 0 Hk) Hv)) as (b & Hb & HM).
  simpl in HM. destruct (m_rows data =? 0); [discriminate|]. inv_bind HM. inv_bind HM. subst.
  exists v0, b. split; auto. rewrite <- (jrep_get_col _ _ _ J). auto.
Qed.
End Cuts.
