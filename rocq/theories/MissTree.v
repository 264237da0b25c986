(** What the treatments of missing nodes leave in the tree (splitter.rs:266-322, 525-775). *)
From Coq Require Import List Arith NArith Lia Bool Permutation.
From Verif Require Import Prelude Float Data DataProofs Utils Histogram Node Splitter SplitProofs EvalProofs
  Tree GrowProofs GrowInv GrowStep TreeWf TreeProofs FitProofs FitSplits GrowWeights.
Import ListNotations.

Section Miss.
Context {FS : Floats}.

(** The average of the leaves below node [i], weighted by cover, missing leaves left out. *)
Inductive averages (nodes : list Node) : nat -> F64 -> Prop :=
| av_leaf : forall i n, nth_error nodes i = Some n -> n_is_leaf n = true -> averages nodes i (to64 (n_weight n))
| av_no_missing : forall i n ln rn mn la ra, nth_error nodes i = Some n -> n_is_leaf n = false ->
    nth_error nodes (n_left n) = Some ln -> nth_error nodes (n_right n) = Some rn -> nth_error nodes (n_missing n) = Some mn ->
    n_is_leaf mn = true -> averages nodes (n_left n) la -> averages nodes (n_right n) ra ->
    averages nodes i
      ((ra * to64 (n_hess rn) + la * to64 (n_hess ln) + fzero f64 * fzero f64) / (to64 (n_hess ln) + to64 (n_hess rn) + fzero f64))%f64
| av_missing : forall i n ln rn mn la ra ma, nth_error nodes i = Some n -> n_is_leaf n = false ->
    nth_error nodes (n_left n) = Some ln -> nth_error nodes (n_right n) = Some rn -> nth_error nodes (n_missing n) = Some mn ->
    n_is_leaf mn = false -> averages nodes (n_left n) la -> averages nodes (n_right n) ra -> averages nodes (n_missing n) ma ->
    averages nodes i
      ((ra * to64 (n_hess rn) + la * to64 (n_hess ln) + ma * to64 (n_hess mn)) / (to64 (n_hess ln) + to64 (n_hess rn) + to64 (n_hess mn)))%f64.

(** *** The clean-up as a function on trees *)
Definition ileaf (x : itree) : bool := match x with IL _ => true | _ => false end.

Fixpoint cavg (x : itree) : F64 :=
  match x with
  | IL n => to64 (n_weight n)
  | IB2 n _ _ _ => to64 (n_weight n)
  | IB3 n m l r =>
      let lh := to64 (n_hess (iroot l)) in let rh := to64 (n_hess (iroot r)) in
      let mh := if ileaf m then fzero f64 else to64 (n_hess (iroot m)) in
      let ma := if ileaf m then fzero f64 else cavg m in
      ((cavg r * rh + cavg l * lh + ma * mh) / (lh + rh + mh))%f64
  end.

Fixpoint cleaned (x : itree) : itree :=
  match x with
  | IL n => IL n
  | IB2 n mr l r => IB2 n mr l r
  | IB3 n m l r =>
      let w := to32 (cavg x) in
      IB3 (set_weight n w) (match m with IL k => IL (set_weight k w) | _ => cleaned m end) (cleaned l) (cleaned r)
  end.

Fixpoint three (x : itree) : Prop :=
  match x with IL _ => True | IB2 _ _ _ _ => False | IB3 _ m l r => three m /\ three l /\ three r end.

Lemma cleaned_num : forall x, inum (cleaned x) = inum x.
Proof. destruct x; reflexivity. Qed.
Lemma cleaned_hess : forall x, n_hess (iroot (cleaned x)) = n_hess (iroot x).
Proof. destruct x; reflexivity. Qed.
Lemma cleaned_ileaf : forall x, ileaf (cleaned x) = ileaf x.
Proof. destruct x; reflexivity. Qed.

Lemma reps_frame : forall x nodes nodes', reps nodes x -> (forall i, In i (inums x) -> nth_error nodes' i = nth_error nodes i) -> reps nodes' x.
Proof.
  unfold inums. induction x as [n|n mr l IHl r IHr|n m IHm l IHl r IHr]; intros nodes nodes' H F; simpl in *.
  - rewrite F by auto. auto.
  - destruct H as (H1 & H2 & H3 & H4 & H5 & H6 & H7). rewrite F by auto.
    repeat (split; [assumption|]). split.
    + apply (IHl nodes); auto. intros; apply F. right. rewrite map_app, in_app_iff; auto.
    + apply (IHr nodes); auto. intros; apply F. right. rewrite map_app, in_app_iff; auto.
  - destruct H as (H1 & H2 & H3 & H4 & H5 & H6 & H7 & H8 & H9 & H10). rewrite F by auto.
    repeat (split; [assumption|]). split; [|split].
    + apply (IHm nodes); auto. intros; apply F. right. rewrite !map_app, !in_app_iff; auto.
    + apply (IHl nodes); auto. intros; apply F. right. rewrite !map_app, !in_app_iff; auto.
    + apply (IHr nodes); auto. intros; apply F. right. rewrite !map_app, !in_app_iff; auto.
Qed.

Lemma cleaned_inums : forall x, inums (cleaned x) = inums x.
Proof.
  unfold inums. induction x as [n|n mr l IHl r IHr|n m IHm l IHl r IHr]; simpl; auto.
  f_equal. rewrite !map_app, IHl, IHr. f_equal. destruct m; auto.
Qed.

Lemma inum_in : forall x, In (inum x) (inums x).
Proof. destruct x; left; reflexivity. Qed.

Lemma set_nth : forall (nodes : list Node) i n, nth_error nodes i = Some n -> forall w,
  let nodes' := match nth_error nodes i with
                | Some n => match update nodes i (set_weight n w) with Some l => l | None => nodes end
                | None => nodes end in
  nth_error nodes' i = Some (set_weight n w) /\ forall j, j <> i -> nth_error nodes' j = nth_error nodes j.
Proof.
  intros nodes i n H w. cbv zeta. rewrite H.
  destruct (update_total nodes (set_weight n w) (nth_error_Some_lt _ _ H)) as [l Hl]. rewrite Hl.
  split; [rewrite (update_nth _ _ _ Hl), Nat.eqb_refl; reflexivity|].
  intros j Hj. rewrite (update_nth _ _ _ Hl). destruct (Nat.eqb_spec j i); [congruence|reflexivity].
Qed.

Lemma uam_cleaned : forall x nodes fuel, reps nodes x -> three x -> NoDup (inums x) -> iheight x < fuel ->
  exists nodes', update_average_missing_nodes fuel nodes (inum x) = Some (cavg x, nodes') /\ reps nodes' (cleaned x) /\
    (forall i, ~ In i (inums x) -> nth_error nodes' i = nth_error nodes i).
Proof.
  induction x as [n|n mr l IHl r IHr|n m IHm l IHl r IHr]; intros nodes fuel H T ND HF;
    (destruct fuel as [|fuel]; [lia|]); [|destruct T|].
  - exists nodes. simpl in H |- *. unfold inum. simpl. destruct H as [E1 E2]. rewrite E1. cbn [bind]. rewrite E2. auto.
  - simpl in H, T, HF. destruct H as (H1 & H2 & H3 & H4 & H5 & H6 & H7 & H8 & H9 & H10). destruct T as (T1 & T2 & T3).
    assert (ND' := ND). unfold inums in ND. simpl in ND. rewrite !map_app in ND. fold (inums m) (inums l) (inums r) in ND.
    apply NoDup_cons_iff in ND. destruct ND as [NN ND]. rewrite !in_app_iff in NN.
    apply NoDup_app_iff in ND. destruct ND as (NDm & ND & D1). apply NoDup_app_iff in ND. destruct ND as (NDl & NDr & D2).
    assert (Dml : forall i, In i (inums m) -> ~ In i (inums l) /\ ~ In i (inums r)).
    { intros i Hi. split; intros Hc; apply (D1 i Hi); apply in_or_app; auto. }
    assert (HN : ~ In (n_num n) (inums m) /\ ~ In (n_num n) (inums l) /\ ~ In (n_num n) (inums r)) by tauto. destruct HN as (HN1 & HN2 & HN3).
    cbn [update_average_missing_nodes]. change (inum (IB3 n m l r)) with (n_num n). rewrite H1. cbn [bind]. rewrite H2.
    cbv zeta. rewrite H3, H4, H5.
    (* right *)
    rewrite (reps_root _ _ H10). cbn [bind].
    destruct (IHr nodes fuel H10 T3 NDr) as (n1 & U1 & R1 & F1); [lia|]. rewrite U1. cbn [bind].
    (* left *)
    assert (L1 : reps n1 l) by (apply (reps_frame l nodes); auto; intros i Hi; apply F1; intros Hc; apply (D2 i Hi Hc)).
    rewrite (reps_root _ _ L1). cbn [bind].
    destruct (IHl n1 fuel L1 T2 NDl) as (n2 & U2 & R2 & F2); [lia|]. rewrite U2. cbn [bind].
    assert (RR2 : reps n2 (cleaned r)).
    { apply (reps_frame _ n1); auto. rewrite cleaned_inums. intros i Hi. apply F2. intros Hc. apply (D2 i Hc Hi). }
    (* missing *)
    assert (M2 : reps n2 m).
    { apply (reps_frame m nodes); auto. intros i Hi. destruct (Dml i Hi) as [X Y]. rewrite F2, F1; auto. }
    rewrite (reps_root _ _ M2). cbn [bind].
    assert (N2 : nth_error n2 (n_num n) = Some n) by (rewrite F2, F1; auto).
    assert (LF : n_is_leaf (iroot m) = ileaf m) by (destruct m; simpl in M2 |- *; tauto).
    rewrite LF. destruct m as [k|k ? ? ?|k mm ml mr'].
    + (* missing leaf *)
      cbn [ileaf]. cbn [bind]. cbv zeta.
      change (inum (IL k)) with (n_num k). set (a := cavg (IB3 n (IL k) l r)).
      pose proof (set_nth n2 (n_num n) n N2 (to32 a)) as SN. cbv zeta in SN.
      match type of SN with nth_error ?nn _ = _ /\ _ => set (n3 := nn) in SN end. destruct SN as [SN1 SN2].
      assert (KN : n_num k <> n_num n) by (intros E; apply HN1; unfold inums; simpl; auto).
      assert (K3 : nth_error n3 (n_num k) = Some k) by (rewrite SN2 by auto; simpl in M2; tauto).
      pose proof (set_nth n3 (n_num k) k K3 (to32 a)) as SK. cbv zeta in SK.
      match type of SK with nth_error ?nn _ = _ /\ _ => set (n4 := nn) in SK end. destruct SK as [SK1 SK2].
      exists n4. split; [reflexivity|].
      assert (KL : ~ In (n_num k) (inums l) /\ ~ In (n_num k) (inums r)) by (apply Dml; unfold inums; simpl; auto). destruct KL as [KL KR].
      assert (FR : forall i, i <> n_num n -> i <> n_num k -> nth_error n4 i = nth_error n2 i) by (intros; rewrite SK2, SN2; auto).
      split.
      * cbn [cleaned]. fold a. cbn [reps]. change (n_num (set_weight n (to32 a))) with (n_num n). rewrite SK2 by auto. split; [exact SN1|].
        split; [exact H2|]. rewrite !cleaned_num. split; [exact H3|]. split; [exact H4|]. split; [exact H5|]. split; [exact H6|]. split; [exact H7|].
        split; [split; [exact SK1|simpl in H8; tauto]|]. split.
        -- apply (reps_frame _ n2); auto. rewrite cleaned_inums. intros i Hi. apply FR; intros ->; auto.
        -- apply (reps_frame _ n2); auto. rewrite cleaned_inums. intros i Hi. apply FR; intros ->; auto.
      * unfold inums. simpl. intros i Hi. rewrite map_app, in_app_iff in Hi. rewrite FR by (intros ->; apply Hi; auto).
        rewrite F2, F1; auto; intros Hc; apply Hi; auto.
    + destruct T1.
    + (* missing branch *)
      cbn [ileaf]. set (m := IB3 k mm ml mr') in *.
      destruct (IHm n2 fuel M2 T1 NDm) as (n3 & U3 & R3 & F3); [lia|]. rewrite U3. cbn [bind]. cbv zeta.
      set (a := cavg (IB3 n m l r)).
      assert (N3 : nth_error n3 (n_num n) = Some n) by (rewrite F3; auto).
      pose proof (set_nth n3 (n_num n) n N3 (to32 a)) as SN. cbv zeta in SN.
      match type of SN with nth_error ?nn _ = _ /\ _ => set (n4 := nn) in SN end. destruct SN as [SN1 SN2].
      exists n4. split; [reflexivity|]. split.
      * change (cleaned (IB3 n m l r)) with (IB3 (set_weight n (to32 a)) (cleaned m) (cleaned l) (cleaned r)).
        cbn [reps]. change (n_num (set_weight n (to32 a))) with (n_num n). split; [exact SN1|].
        split; [exact H2|]. rewrite !cleaned_num. split; [exact H3|]. split; [exact H4|]. split; [exact H5|]. split; [exact H6|]. split; [exact H7|].
        split; [|split].
        -- apply (reps_frame _ n3); auto. rewrite cleaned_inums. intros i Hi. apply SN2. intros ->; auto.
        -- apply (reps_frame _ n2); auto. rewrite cleaned_inums. intros i Hi. rewrite SN2, F3; auto; [|intros ->; auto].
           intros Hc. apply (proj1 (Dml i Hc)). auto.
        -- apply (reps_frame _ n2); auto. rewrite cleaned_inums. intros i Hi. rewrite SN2, F3; auto; [|intros ->; auto].
           intros Hc. apply (proj2 (Dml i Hc)). auto.
      * intros i Hi. assert (Q : i <> n_num n /\ ~ In i (inums m) /\ ~ In i (inums l) /\ ~ In i (inums r)).
        { unfold inums in Hi |- *. cbn [inodes map] in Hi. rewrite !map_app in Hi. cbn [In] in Hi. rewrite !in_app_iff in Hi.
          repeat split; intros Hc; apply Hi; auto. }
        destruct Q as (Q0 & Q1 & Q2 & Q3). rewrite SN2, F3, F2, F1; auto.
Qed.

Lemma averages_det : forall nodes i a, averages nodes i a -> forall b, averages nodes i b -> a = b.
Proof.
  intros nodes i a H. induction H as [i n Hn Hl|i n ln rn mn la ra Hn Hl H1 H2 H3 H4 A1 IH1 A2 IH2|i n ln rn mn la ra ma Hn Hl H1 H2 H3 H4 A1 IH1 A2 IH2 A3 IH3];
    intros b B; inversion B; subst; repeat match goal with
      | E : nth_error nodes ?k = Some ?x, E' : nth_error nodes ?k = Some ?y |- _ => rewrite E in E'; injection E' as <- end; try congruence.
  - rewrite (IH1 la0), (IH2 ra0) by auto. reflexivity.
  - rewrite (IH1 la0), (IH2 ra0), (IH3 ma0) by auto. reflexivity.
Qed.

Lemma three_leaf : forall nodes x, reps nodes x -> three x -> n_is_leaf (iroot x) = ileaf x.
Proof. intros nodes [n|n mr l r|n m l r] H T; simpl in *; tauto. Qed.

(** The values of the cleaned-up tree. *)
Lemma cleaned_averages : forall x nodes, reps nodes (cleaned x) -> three x -> averages nodes (inum x) (cavg x).
Proof.
  induction x as [n|n mr l IHl r IHr|n m IHm l IHl r IHr]; intros nodes H T; [|destruct T|].
  - simpl in *. change (inum (IL n)) with (n_num n). apply av_leaf; tauto.
  - destruct T as (T1 & T2 & T3). cbn [cleaned reps] in H. set (a := cavg (IB3 n m l r)) in *.
    change (n_num (set_weight n (to32 a))) with (n_num n) in H. change (n_left (set_weight n (to32 a))) with (n_left n) in H.
    change (n_right (set_weight n (to32 a))) with (n_right n) in H. change (n_missing (set_weight n (to32 a))) with (n_missing n) in H.
    change (n_is_leaf (set_weight n (to32 a))) with (n_is_leaf n) in H. rewrite !cleaned_num in H.
    destruct H as (H1 & H2 & H3 & H4 & H5 & H6 & H7 & H8 & H9 & H10). change (inum (IB3 n m l r)) with (n_num n).
    pose proof (reps_root _ _ H9) as RL. pose proof (reps_root _ _ H10) as RR. rewrite cleaned_num in RL, RR.
    unfold a. cbn [cavg]. rewrite <- (cleaned_hess l), <- (cleaned_hess r).
    destruct m as [k|k ? ? ?|k mm ml mr']; [|destruct T1|].
    + change (inum (IL (set_weight k (to32 a)))) with (n_num k) in H5. cbn [reps] in H8. destruct H8 as [K1 K2].
      eapply (av_no_missing nodes (n_num n) _ _ _ _ (cavg l) (cavg r) H1); auto.
      * change (n_left (set_weight n (to32 a))) with (n_left n). rewrite H3. exact RL.
      * change (n_right (set_weight n (to32 a))) with (n_right n). rewrite H4. exact RR.
      * change (n_missing (set_weight n (to32 a))) with (n_missing n). rewrite H5. exact K1.
      * exact K2.
      * change (n_left (set_weight n (to32 a))) with (n_left n). rewrite H3. auto.
      * change (n_right (set_weight n (to32 a))) with (n_right n). rewrite H4. auto.
    + pose proof (reps_root _ _ H8) as RM. rewrite cleaned_num in RM. rewrite cleaned_num in H5.
      set (m := IB3 k mm ml mr') in *. cbn [ileaf]. change (ileaf m) with false. rewrite <- (cleaned_hess m). cbv iota.
      eapply (av_missing nodes (n_num n) _ _ _ _ (cavg l) (cavg r) (cavg m) H1); auto.
      * change (n_left (set_weight n (to32 a))) with (n_left n). rewrite H3. exact RL.
      * change (n_right (set_weight n (to32 a))) with (n_right n). rewrite H4. exact RR.
      * change (n_missing (set_weight n (to32 a))) with (n_missing n). rewrite H5. exact RM.
      * cbn [cleaned reps] in H8. apply H8.
      * change (n_left (set_weight n (to32 a))) with (n_left n). rewrite H3. auto.
      * change (n_right (set_weight n (to32 a))) with (n_right n). rewrite H4. auto.
      * change (n_missing (set_weight n (to32 a))) with (n_missing n). rewrite H5. auto.
Qed.

Definition averaged (nodes : list Node) (n : Node) : Prop := n_is_leaf n = false ->
  exists a, averages nodes (n_num n) a /\ n_weight n = to32 a /\
    (forall m, nth_error nodes (n_missing n) = Some m -> n_is_leaf m = true -> n_weight m = n_weight n).

Lemma cleaned_nodes : forall x nodes, reps nodes (cleaned x) -> three x -> forall n, In n (inodes (cleaned x)) -> averaged nodes n.
Proof.
  induction x as [n|n mr l IHl r IHr|n m IHm l IHl r IHr]; intros nodes H T n' Hn'; [|destruct T|].
  - simpl in Hn'. destruct Hn' as [<-|[]]. intros E. simpl in H. destruct H. congruence.
  - pose proof (cleaned_averages _ _ H T) as AV.
    destruct T as (T1 & T2 & T3). cbn [cleaned reps inodes] in H, Hn'. set (a := cavg (IB3 n m l r)) in *.
    destruct H as (H1 & H2 & H3 & H4 & H5 & H6 & H7 & H8 & H9 & H10).
    cbn [In] in Hn'. rewrite !in_app_iff in Hn'. destruct Hn' as [<-|[Hn'|[Hn'|Hn']]].
    + intros _. exists a. split; [exact AV|]. split; [reflexivity|]. intros k Hk LK. rewrite H5 in Hk.
      destruct m as [q|q ? ? ?|q mm ml mr']; [|destruct T1|].
      * pose proof (reps_root _ _ H8) as RM. rewrite RM in Hk. injection Hk as <-. reflexivity.
      * rewrite (reps_root _ _ H8) in Hk. injection Hk as <-. cbn [cleaned reps] in H8. destruct H8 as (_ & H8 & _). change (n_is_leaf q = false) in H8. change (n_is_leaf q = true) in LK. congruence.
    + destruct m as [q|q ? ? ?|q mm ml mr']; [|destruct T1|].
      * simpl in Hn'. destruct Hn' as [<-|[]]. intros E. cbn [reps] in H8. destruct H8. congruence.
      * eapply IHm; eauto.
    + eapply IHl; eauto.
    + eapply IHr; eauto.
Qed.

(** *** Fitted trees *)
Section Fit.
Variables (policy : GrowPolicy) (pick : pick_fn) (t : Train) (index : list nat) (max_leaves max_depth : nat) (sm : SampleMethod).
Variables (p : SplitParams) (term : list nat) (treat : MissingNodeTreatment) (force : bool).
Notation s := (Branch p term treat force).

Lemma branch_ghost : forall x, gvalid s t max_depth x -> n_is_leaf (gnode s x) = false ->
  exists n rows si m l r mh minfo mleaf i, x = GB3 n rows si m l r /\ gvalid s t max_depth m /\
    groot m = set_missing_leaf (from_node_info (gnum m) mh (sn_depth n + 1) (sn_start n) (sn_start n + length (grows m)) minfo) mleaf /\
    gnum l = gnum m + 1 /\ gnum r = gnum m + 2 /\
    (si_missing si = MBranch i /\ mleaf = (existsb (Nat.eqb (si_feature si)) term || (length (grows m) =? 0))%bool \/
     si_missing si = MLeaf i /\ mleaf = true) /\ minfo = missing_info_of treat n i.
Proof.
  intros x V Hl. inversion V as [n rows E|p0 n rows si mr l r sub lh rh E0|n rows si m l r sub mh lh rh mi ml E1 E2 E3 E4 PP S N1 N2 N3 GM' GL' GR' Vm V1 V2]; subst.
  - exfalso. simpl in Hl. congruence.
  - discriminate.
  - destruct S as [f q tm tr fo i HS HB HM HI _ _ _]. injection HS as <- <- <- <-.
    exists n, rows, si, m, l, r, mh, mi, ml, i. auto 10.
Qed.

(** Every split has a missing child of its own; it is a leaf for the features of
    terminate_missing_features and when no row is missing. *)
Theorem fit_missing_child : forall nodes st, tree_fit policy pick s t index max_leaves max_depth sm = Some (nodes, st) ->
  forall n, In n nodes -> n_is_leaf n = false ->
  n_missing n <> n_left n /\ n_missing n <> n_right n /\
  exists m, nth_error nodes (n_missing n) = Some m /\
    (In (n_split_feature n) term -> n_is_leaf m = true) /\
    (treat = AssignToParent -> n_weight m = n_weight n).
Proof.
  intros nodes st H n Hn Hl. apply fit_account in H. destruct H as (root & g & HR & I & L & P & C & S).
  apply In_nth_error in Hn. destruct Hn as [k Hk].
  destruct (Forall2_nth_r _ _ _ _ _ S _ _ Hk) as (n0 & H0 & RW). pose proof (reweighted_eq _ _ RW) as Q.
  destruct Q as (_ & _ & _ & _ & Q5 & _ & Q7 & Q8 & Q9 & Q10 & _). rewrite Q10 in Hl. rewrite Q7, Q8, Q9, Q5.
  destruct (INV_node _ _ _ _ _ _ _ I _ _ H0) as (x & Hx & Ex & E0 & V). rewrite E0 in Hl.
  destruct (branch_ghost x V Hl) as (sn & rows & si & m & l & r & mh & mi & ml & i & Exx & Vm & GM & NL & NR & HM & HI).
  assert (Hm : In m (gall g)).
  { apply (gall_trans _ x); auto. rewrite Exx. simpl. right. rewrite !in_app_iff. left. apply gall_self. }
  rewrite E0, Exx. cbn. split; [lia|]. split; [lia|].
  pose proof (gall_agree s _ _ (iv_agree _ _ _ _ _ _ _ I) _ Hm) as AM.
  destruct (Forall2_nth_l _ _ _ _ _ S _ _ AM) as (m' & Hm' & RM). exists m'. split; [exact Hm'|].
  pose proof (reweighted_eq _ _ RM) as QM. destruct QM as (_ & _ & _ & _ & _ & _ & _ & _ & _ & QM & _). rewrite QM. split.
  - intros HT. assert (ML : ml = true).
    { destruct HM as [[_ ->]|[_ ->]]; auto. apply orb_true_iff. left. apply existsb_exists. exists (si_feature si). split; auto. apply Nat.eqb_refl. }
    destruct (n_is_leaf (gnode s m)) eqn:E; auto. destruct (gnode_leaf s t max_depth m Vm E) as [si' HS'].
    destruct (gsplit_best _ _ _ _ _ Vm HS') as [_ B]. rewrite GM, ML in B. discriminate.
  - intros ET. assert (EN : nodes = g_nodes st) by (clear - C ET; subst treat; simpl in C; congruence).
    rewrite EN in Hk, Hm'. rewrite Hk in H0. injection H0 as <-. rewrite Hm' in AM. injection AM as ->.
    destruct (gnode_facts s t max_depth m Vm) as (_ & _ & _ & -> & _). rewrite E0.
    destruct (gnode_facts s t max_depth x V) as (_ & _ & _ & -> & _). rewrite GM, HI, Exx, ET. reflexivity.
Qed.

(** AverageLeafWeight: the fitted nodes are the cleaned tree of the grown nodes. *)
Lemma fit_cleaned : treat = AverageLeafWeight ->
  forall nodes st, tree_fit policy pick s t index max_leaves max_depth sm = Some (nodes, st) ->
  exists x, reps (g_nodes st) x /\ three x /\ reps nodes (cleaned x) /\ forall n, In n nodes -> In n (inodes (cleaned x)).
Proof.
  intros ET nodes st H. pose proof H as H'. apply fit_account in H'. destruct H' as (root & g & HR & I & L & P & C & S).
  destruct (root_node_facts _ _ _ _ _ HR) as (A1 & A2 & A3 & A4 & A5 & A6).
  pose proof (fit_well_formed _ _ _ _ _ _ _ _ _ _ H) as WF.
  assert (W : well_formed (g_nodes st)).
  { apply (well_formed_shape nodes); auto. clear - S. induction S; constructor; auto. unfold reweighted in *. rewrite H. destruct x; reflexivity. }
  destruct (reps_exists _ W) as (x & R & R0).
  assert (T : three x).
  { pose proof (fit_missing_child _ _ H) as MC. clear - R MC S. revert R.
    assert (G : forall n, nth_error (g_nodes st) (n_num n) = Some n -> n_is_leaf n = false -> n_missing n <> n_left n /\ n_missing n <> n_right n).
    { intros n Hn Hl. destruct (Forall2_nth_l _ _ _ _ _ S _ _ Hn) as (n' & Hn' & RW). apply reweighted_eq in RW.
      destruct RW as (_ & _ & _ & _ & _ & _ & Q7 & Q8 & Q9 & Q10 & _). rewrite <- Q10 in Hl. rewrite <- Q7, <- Q8, <- Q9.
      destruct (MC n' (nth_error_In _ _ Hn') Hl) as (X & Y & _). auto. }
    induction x as [n|n mr l IHl r IHr|n m IHm l IHl r IHr]; simpl; auto.
    - intros (H1 & H2 & H3 & H4 & H5 & _). destruct (G n H1 H2) as [X Y]. destruct mr; congruence.
    - intros (_ & _ & _ & _ & _ & _ & _ & X & Y & Z). auto. }
  assert (HF : iheight x < length (g_nodes st)) by (rewrite <- (reps_size _ W _ R R0); apply iheight_size).
  destruct (uam_cleaned x (g_nodes st) (length (g_nodes st)) R T (reps_nodup _ W _ R) HF) as (nodes' & U & R' & F).
  rewrite R0 in U. subst treat. simpl in C. rewrite U in C. cbn [bind] in C. injection C as ->.
  exists x. split; auto. split; auto. split; auto. intros n Hn.
  apply In_nth_error in Hn. destruct Hn as [k Hk].
  assert (K : In k (inums (cleaned x))).
  { rewrite cleaned_inums. apply (Permutation_in _ (Permutation_sym (reps_all _ W _ R R0))). apply in_seq.
    apply nth_error_Some_lt in Hk. rewrite <- (Forall2_len _ _ _ _ _ S) in Hk. lia. }
  unfold inums in K. apply in_map_iff in K. destruct K as (n2 & E2 & Hn2).
  pose proof (reps_in _ _ R' _ Hn2) as Q. rewrite E2, Hk in Q. injection Q as <-. auto.
Qed.

Theorem fit_averaged : treat = AverageLeafWeight ->
  forall nodes st, tree_fit policy pick s t index max_leaves max_depth sm = Some (nodes, st) ->
  forall n, In n nodes -> averaged nodes n.
Proof.
  intros ET nodes st H n Hn. destruct (fit_cleaned ET _ _ H) as (x & _ & T & R & A). eapply cleaned_nodes; eauto.
Qed.
End Fit.
End Miss.
