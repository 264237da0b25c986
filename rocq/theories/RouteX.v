(** Exact arithmetic: the sums and histograms of every node are those of its rows, and training
    sends each row where the recorded split sends it. *)
From Coq Require Import List Arith NArith Lia Bool Permutation Reals Lra Sorting.
From Verif Require Import Prelude Float FloatX FloatLaws Data DataProofs Utils Histogram HistogramProofs HistogramX
  PivotProofs Pivot3Proofs Node Splitter SplitProofs EvalProofs Tree GrowProofs GrowInv GrowStep TreeWf TreeProofs
  FitProofs FitSplits PathProofs.
Import ListNotations.
Local Open Scope R_scope.

(** *** Sums over parts of a row list *)
Lemma sum_filter_split : forall (w : nat -> R) (p q q' : nat -> bool) rows,
  (forall i, In i rows -> p i = (q i || q' i)%bool /\ (q i && q' i)%bool = false) ->
  sumR (map w (filter p rows)) = sumR (map w (filter q rows)) + sumR (map w (filter q' rows)).
Proof.
  intros w p q q'. induction rows as [|i rows IH]; intros H; [simpl; lra|]. cbn [filter].
  destruct (H i) as [E1 E2]; [left; auto|]. rewrite E1. specialize (IH ltac:(intros; apply H; right; auto)).
  destruct (q i), (q' i); simpl in *; try discriminate; lra.
Qed.

Lemma filter_all : forall A (p : A -> bool) l, (forall x, In x l -> p x = true) -> filter p l = l.
Proof. induction l as [|a l IH]; simpl; intros H; auto. rewrite H by auto. f_equal; auto. Qed.
Lemma filter_none : forall A (p : A -> bool) l, (forall x, In x l -> p x = false) -> filter p l = [].
Proof. induction l as [|a l IH]; simpl; intros H; auto. rewrite H by auto. auto. Qed.

Lemma nth_error_firstn_lt : forall A (l : list A) m j, (j < m)%nat -> nth_error (firstn m l) j = nth_error l j.
Proof.
  induction l as [|a l IH]; intros [|m] [|j] Hj; simpl; auto; try lia. apply IH. lia.
Qed.

Lemma in_bin_eq : forall f b i, (i < length f)%nat -> in_bin f b i = (nth i f 0%nat =? b)%nat.
Proof.
  intros f b i H. unfold in_bin. destruct (nth_error_lt f H) as [x Hx]. rewrite Hx.
  rewrite (nth_error_nth_eq _ _ 0%nat Hx). reflexivity.
Qed.

Lemma bins_sum : forall (w : nat -> R) f rows a k, (forall i, In i rows -> (i < length f)%nat) ->
  sumR (map (fun b => sumR (map w (filter (in_bin f b) rows))) (seq a k)) =
  sumR (map w (filter (fun i => (a <=? nth i f 0) && (nth i f 0 <? a + k))%nat%bool rows)).
Proof.
  intros w f rows a k H. induction k as [|k IH].
  - simpl. rewrite filter_none; auto. intros i _.
    destruct (Nat.leb_spec a (nth i f 0%nat)), (Nat.ltb_spec (nth i f 0%nat) (a + 0)); auto; lia.
  - rewrite seq_S, map_app, sumR_app, IH. simpl. rewrite Rplus_0_r. symmetry. apply sum_filter_split.
    intros i Hi. rewrite in_bin_eq by auto.
    destruct (Nat.leb_spec a (nth i f 0%nat)), (Nat.ltb_spec (nth i f 0%nat) (a + k)), (Nat.ltb_spec (nth i f 0%nat) (a + S k)),
      (Nat.eqb_spec (nth i f 0%nat) (a + k)); simpl; auto; lia.
Qed.

(** The rows of one side of a three-way split. *)
Definition on_side (f : list nat) (sv : nat) (d : side) (i : nat) : bool :=
  match side_of sv (nth i f 0%nat), d with Mi, Mi | Le, Le | Ri, Ri => true | _, _ => false end.

Lemma sides_total : forall (w : nat -> R) f sv rows,
  sumR (map w rows) = sumR (map w (filter (on_side f sv Mi) rows)) + sumR (map w (filter (on_side f sv Le) rows)) +
                      sumR (map w (filter (on_side f sv Ri) rows)).
Proof.
  intros w f sv. induction rows as [|i rows IH]; simpl; [lra|]. rewrite IH.
  unfold on_side. destruct (side_of sv (nth i f 0%nat)); simpl; lra.
Qed.

Lemma left_side : forall (w : nat -> R) f sv (mr : bool) rows,
  sumR (map w (filter (fun i => goes_left sv mr (nth i f 0%nat)) rows)) =
  sumR (map w (filter (on_side f sv Le) rows)) + (if mr then 0 else sumR (map w (filter (on_side f sv Mi) rows))).
Proof.
  intros w f sv mr. induction rows as [|i rows IH]; [simpl; destruct mr; lra|]. cbn [filter].
  assert (E : goes_left sv mr (nth i f 0%nat) = match side_of sv (nth i f 0%nat) with Mi => negb mr | Le => true | Ri => false end).
  { unfold goes_left, side_of. destruct (_ =? _)%nat; auto. destruct (_ <? _)%nat; auto. }
  assert (E1 : forall d, on_side f sv d i = match side_of sv (nth i f 0%nat), d with Mi, Mi | Le, Le | Ri, Ri => true | _, _ => false end)
    by reflexivity.
  rewrite E, !E1. destruct (side_of sv (nth i f 0%nat)); destruct mr; cbn [negb map]; rewrite ?sumR_cons, IH; lra.
Qed.

Section Route.
Variables (s : Splitter) (t : Train) (max_depth : nat) (fcols : list (list nat)) (ccols : list (list xr)).
Hypothesis HI : @hist_inputs XF (tr_data t) (tr_cuts t) (tr_grad t) (tr_hess t) (tr_cols t) fcols ccols.
Hypothesis FG : forall x : xr, In x (tr_grad t) -> xfin x.
Hypothesis FH : forall x : xr, In x (tr_hess t) -> xfin x.
Hypothesis CL : forall c, In c ccols -> (N.of_nat (length c) <= 65536)%N.
Variable mlw : R.
Hypothesis ML : sp_min_leaf_weight (params s) = Fin mlw.
Hypothesis MP : 0 < mlw.

Notation gvalid := (@gvalid XF s t max_depth).
Notation G := (gR (tr_grad t)).
Notation H := (hR (tr_hess t)).
Notation spec := (@hist_spec XF (tr_data t) (tr_cuts t) (tr_grad t) (tr_hess t) (tr_cols t) fcols ccols).
Notation nrows := (m_rows (tr_data t)).

Definition sums_ok (n : SplittableNode) (rows : list nat) : Prop :=
  sn_grad n = Fin (sumR (map G rows)) /\ sn_hess n = Fin (sumR (map H rows)).
Definition hist_ok (n : SplittableNode) (rows : list nat) : Prop :=
  sn_is_missing_leaf n = false -> sn_hist n = spec rows.
Definition rows_ok (rows : list nat) : Prop := forall i, In i rows -> (i < nrows)%nat.

(** The histogram a node's rows have. *)
Lemma hist_of_spec : forall rows h, rows_ok rows -> hist_of t rows = Some h -> h = spec rows.
Proof.
  intros rows h HR E. unfold hist_of in E.
  rewrite (hist_new_sorted _ _ _ _ _ _ _ HI rows HR) in E. congruence.
Qed.

(** Sums over the bins left of a candidate, and the missing bin. *)
Lemma col_sums : forall rows k f missing bins j, rows_ok rows -> nth_error (tr_cols t) k = Some f ->
  j_get_col (spec rows) k = Some (missing :: bins) -> (j <= length bins)%nat ->
  gradient_sum missing = Fin (sumR (map G (filter (on_side (fcol fcols f) (j + 1) Mi) rows))) /\
  hessian_sum missing = Fin (sumR (map H (filter (on_side (fcol fcols f) (j + 1) Mi) rows))) /\
  left_sum gradient_sum bins j = Fin (sumR (map G (filter (on_side (fcol fcols f) (j + 1) Le) rows))) /\
  left_sum hessian_sum bins j = Fin (sumR (map H (filter (on_side (fcol fcols f) (j + 1) Le) rows))) /\
  length bins = (length (@ccol XF ccols f) - 1)%nat /\
  (forall b, nth_error bins j = Some b -> nth_error (@ccol XF ccols f) j = Some (cut_value b)).
Proof.
  intros rows k f missing bins j HR Hk HC Hj.
  rewrite (hist_col_lookup _ _ _ _ _ _ _ rows k f Hk) in HC. injection HC as HC.
  assert (Hf : (f < m_cols (tr_data t))%nat) by (apply (hi_bound _ _ _ _ _ _ _ HI); eapply nth_error_In; eauto).
  destruct (fcol_ok _ _ _ _ _ _ _ HI f Hf) as [_ LF].
  destruct (ccol_ok _ _ _ _ _ _ _ HI f Hf) as [_ NE].
  assert (INR : forall i, In i rows -> (i < length (fcol fcols f))%nat) by (intros; rewrite LF; auto).
  rewrite (feature_bins_X (tr_grad t) (tr_hess t) fcols ccols FG FH f rows) in HC.
  destruct (length (@ccol XF ccols f)) as [|m] eqn:EL; [destruct (@ccol XF ccols f); [congruence|discriminate]|].
  cbn [seq map] in HC. injection HC as <- <-.
  assert (M0 : forall w : nat -> R, sumR (map w (filter (in_bin (fcol fcols f) 0) rows)) =
                             sumR (map w (filter (on_side (fcol fcols f) (j + 1) Mi) rows))).
  { intros w. f_equal. f_equal. apply filter_ext_in. intros i Hi. rewrite in_bin_eq by auto.
    unfold on_side, side_of. destruct (nth i (fcol fcols f) 0 =? 0)%nat; auto. destruct (_ <? _)%nat; auto. }
  assert (LS : forall (w : nat -> R) (sel : Bin xr -> xr),
     (forall b, sel (@mkBin XF xr (Fin (sumR (map G (filter (in_bin (fcol fcols f) b) rows))))
                      (Fin (sumR (map H (filter (in_bin (fcol fcols f) b) rows))))
                      (nth b (XNaN :: removelast (@ccol XF ccols f)) XNaN)) =
                Fin (sumR (map w (filter (in_bin (fcol fcols f) b) rows)))) ->
     fold_left (fun a b => xadd a (sel b)) (firstn j (map (fun b => @mkBin XF xr (Fin (sumR (map G (filter (in_bin (fcol fcols f) b) rows))))
                         (Fin (sumR (map H (filter (in_bin (fcol fcols f) b) rows))))
                         (nth b (XNaN :: removelast (@ccol XF ccols f)) XNaN)) (seq 1 m))) (Fin 0) =
     Fin (sumR (map w (filter (on_side (fcol fcols f) (j + 1) Le) rows)))).
  { intros w sel Hsel. rewrite map_length, seq_length in Hj.
    rewrite firstn_map.
    assert (FS : firstn j (seq 1 m) = seq 1 j).
    { replace m with (j + (m - j))%nat by lia. rewrite seq_app, firstn_app, seq_length, Nat.sub_diag.
      rewrite firstn_all2 by (rewrite seq_length; lia). simpl. apply app_nil_r. }
    rewrite FS. transitivity (Fin (0 + sumR (map (fun b => sumR (map w (filter (in_bin (fcol fcols f) b) rows))) (seq 1 j)))).
    - generalize 0. generalize (seq 1 j). intros l. induction l as [|b l IH]; intros a; cbn [map fold_left].
      + simpl. f_equal. lra.
      + rewrite Hsel. cbn [xadd]. rewrite IH. f_equal. rewrite sumR_cons. lra.
    - rewrite Rplus_0_l, bins_sum by auto. f_equal. f_equal. f_equal. apply filter_ext_in. intros i Hi.
      unfold on_side, side_of. destruct (Nat.eqb_spec (nth i (fcol fcols f) 0%nat) 0) as [->|]; auto.
      destruct (Nat.ltb_spec (nth i (fcol fcols f) 0%nat) (1 + j)), (Nat.ltb_spec (nth i (fcol fcols f) 0%nat) (j + 1)),
        (Nat.leb_spec 1 (nth i (fcol fcols f) 0%nat)); auto; lia. }
  cbn [gradient_sum hessian_sum]. rewrite !M0. split; auto. split; auto.
  split; [apply (LS G gradient_sum); reflexivity|]. split; [apply (LS H hessian_sum); reflexivity|].
  rewrite map_length, seq_length in *. split; [lia|].
  intros b Hb. rewrite nth_error_map in Hb.
  destruct (nth_error (seq 1 m) j) as [q|] eqn:Eq; [|discriminate].
  assert (Hjm : (j < m)%nat) by (apply nth_error_Some_lt in Eq; rewrite seq_length in Eq; auto).
  rewrite (nth_error_seq 1 Hjm) in Eq. injection Eq as <-. injection Hb as <-. cbn [cut_value].
  change (nth (1 + j) (XNaN :: removelast (@ccol XF ccols f)) XNaN) with (nth j (removelast (@ccol XF ccols f)) XNaN).
  assert (RF : removelast (@ccol XF ccols f) = firstn m (@ccol XF ccols f)).
  { rewrite removelast_firstn_len. f_equal. transitivity (S m - 1)%nat; [f_equal; exact EL|lia]. }
  destruct (@nth_error_lt _ (@ccol XF ccols f) j) as [x Hx]; [rewrite EL; lia|]. rewrite Hx. f_equal. symmetry.
  transitivity (nth j (firstn m (@ccol XF ccols f)) XNaN); [exact (f_equal (fun l : list xr => nth j l XNaN) RF)|]. apply nth_error_nth. rewrite nth_error_firstn_lt by lia. exact Hx.
Qed.

(** A column of the binned data. *)
Notation bcol f := (fcol fcols f).

Definition lsum (w : nat -> R) f sv mr rows := sumR (map w (filter (fun i => goes_left sv mr (nth i (bcol f) 0%nat)) rows)).
Definition ssum (w : nat -> R) f sv d rows := sumR (map w (filter (on_side (bcol f) sv d) rows)).

(** What an admissible split records, in terms of the rows of the node. *)
Lemma split_sums : forall n rows k j si, rows_ok rows -> sums_ok n rows -> sn_hist n = spec rows ->
  admissible s n (tr_cols t) k j si ->
  let f := si_feature si in
  nth_error (tr_cols t) k = Some f /\ si_bin si = (j + 1)%nat /\ nth_error (@ccol XF ccols f) j = Some (si_value si) /\
  match s with
  | Imputer _ => exists mr : bool, si_missing si = (if mr then MRight else MLeft) /\
      ni_grad (si_left si) = Fin (lsum G f (j + 1) mr rows) /\ ni_cover (si_left si) = Fin (lsum H f (j + 1) mr rows) /\
      ni_grad (si_right si) = Fin (sumR (map G rows) - lsum G f (j + 1) mr rows) /\
      ni_cover (si_right si) = Fin (sumR (map H rows) - lsum H f (j + 1) mr rows)
  | Branch _ _ _ _ => exists i, (si_missing si = MBranch i \/ si_missing si = MLeaf i) /\
      ni_grad i = Fin (ssum G f (j + 1) Mi rows) /\ ni_cover i = Fin (ssum H f (j + 1) Mi rows) /\
      ni_grad (si_left si) = Fin (ssum G f (j + 1) Le rows) /\ ni_cover (si_left si) = Fin (ssum H f (j + 1) Le rows) /\
      ni_grad (si_right si) = Fin (ssum G f (j + 1) Ri rows) /\ ni_cover (si_right si) = Fin (ssum H f (j + 1) Ri rows)
  end.
Proof.
  intros n rows k j si HR [SG SH] HH [f missing bins bin Hf Hcol Hb HC] f0.
  destruct (candidate_inv _ _ _ _ _ _ _ _ _ HC) as (l & r & m & HE & Ef & Ev & Eb & Em & EL & ER & _).
  subst f0. rewrite Ef. rewrite HH in Hcol.
  pose proof (nth_error_Some_lt _ _ Hb) as Hj.
  destruct (col_sums rows k f missing bins j HR Hf Hcol) as (C1 & C2 & C3 & C4 & C5 & C6); [lia|].
  split; auto. split.
  { rewrite Eb. unfold as_u16, fits_u16.
    assert (LL : (N.of_nat (length (@ccol XF ccols f)) <= 65536)%N).
    { apply CL. apply nth_In. rewrite (hi_ccols _ _ _ _ _ _ _ HI). apply (hi_bound _ _ _ _ _ _ _ HI). eapply nth_error_In; eauto. }
    destruct (N.ltb_spec (N.of_nat (j + 1)) 65536); auto. lia. }
  split. { rewrite Ev. auto. }
  rewrite C1, C2, C3, C4, SG, SH in HE.
  change (@fsub (@f32 XF)) with xsub in HE. rewrite !xsub_fin in HE.
  assert (RS : forall w : nat -> R, sumR (map w rows) - sumR (map w (filter (on_side (bcol f) (j + 1) Le) rows))
     - sumR (map w (filter (on_side (bcol f) (j + 1) Mi) rows)) = ssum w f (j + 1) Ri rows).
  { intros w. rewrite (sides_total w (bcol f) (j + 1) rows). unfold ssum. lra. }
  rewrite !RS in HE. clear RS.
  assert (LS : forall (w : nat -> R) (mr : bool), lsum w f (j + 1) mr rows = ssum w f (j + 1) Le rows + (if mr then 0 else ssum w f (j + 1) Mi rows)).
  { intros w mr. apply left_side. }
  assert (TS : forall w : nat -> R, sumR (map w rows) = ssum w f (j + 1) Mi rows + ssum w f (j + 1) Le rows + ssum w f (j + 1) Ri rows).
  { intros w. apply sides_total. }
  fold (ssum G f (j + 1) Le rows) (ssum H f (j + 1) Le rows) (ssum G f (j + 1) Mi rows) (ssum H f (j + 1) Mi rows) in HE.
  rewrite EL, ER, Em. unfold with_bounds. cbn [ni_grad ni_cover].
  destruct s as [p|p term treat force]; cbn [evaluate_split] in HE.
  - injection HE as HE. apply imputer_inv in HE. remember (l, r, m) as e eqn:Ee.
    destruct HE as [ES|ES EW|ES EW]; injection Ee as <- <- <-; cbn [ni_grad ni_cover].
    + exists true. rewrite !LS, !TS.
      assert (Z : ssum G f (j + 1) Mi rows = 0 /\ ssum H f (j + 1) Mi rows = 0).
      { unfold sees_missing in ES. apply orb_false_iff in ES. destruct ES as [E1 E2].
        apply negb_false_iff in E1. apply negb_false_iff in E2. simpl in E1, E2.
        split; [destruct (Req_boolP (ssum G f (j + 1) Mi rows) 0) as [[_ Q]|[Q _]]|
                destruct (Req_boolP (ssum H f (j + 1) Mi rows) 0) as [[_ Q]|[Q _]]]; auto; congruence. }
      destruct Z as [-> ->]. repeat split; f_equal; lra.
    + exists false. rewrite !LS, !TS. simpl. repeat split; f_equal; lra.
    + exists true. rewrite !LS, !TS. simpl. repeat split; f_equal; lra.
  - apply branch_inv in HE. destruct HE as [HE _]. injection HE as -> -> ->. cbn [ni_grad ni_cover].
    destruct (_ && _)%bool; eexists; (split; [eauto|]); cbn [ni_grad ni_cover]; auto 10.
Qed.

(** Training routes rows by the recorded splits, and node sums are sums over the node's rows. *)
Definition splits_rows (si : SplitInfo) (rows : list nat) : Prop :=
  In (si_feature si) (tr_cols t) /\ (0 < si_bin si)%nat /\
  nth_error (@ccol XF ccols (si_feature si)) (si_bin si - 1) = Some (si_value si).

Fixpoint routed (g : gtree) : Prop :=
  (sums_ok (groot g) (grows g) /\ hist_ok (groot g) (grows g)) /\
  match g with
  | GL _ _ => True
  | GB2 n rows si mr l r =>
      splits_rows si rows /\ Permutation rows (grows l ++ grows r) /\
      (forall i, In i (grows l) -> goes_left (si_bin si) mr (nth i (bcol (si_feature si)) 0%nat) = true) /\
      (forall i, In i (grows r) -> goes_left (si_bin si) mr (nth i (bcol (si_feature si)) 0%nat) = false) /\
      routed l /\ routed r
  | GB3 n rows si m l r =>
      splits_rows si rows /\ Permutation rows (grows m ++ grows l ++ grows r) /\
      (forall i, In i (grows m) -> side_of (si_bin si) (nth i (bcol (si_feature si)) 0%nat) = Mi) /\
      (forall i, In i (grows l) -> side_of (si_bin si) (nth i (bcol (si_feature si)) 0%nat) = Le) /\
      (forall i, In i (grows r) -> side_of (si_bin si) (nth i (bcol (si_feature si)) 0%nat) = Ri) /\
      routed m /\ routed l /\ routed r
  end.

Lemma sum_perm : forall (w : nat -> R) a b, Permutation a b -> sumR (map w a) = sumR (map w b).
Proof. intros. apply sumR_perm. apply Permutation_map. auto. Qed.

Lemma filter_perm : forall (p : nat -> bool) a b, Permutation a b -> Permutation (filter p a) (filter p b).
Proof. intros. apply Permutation_filter. auto. Qed.

Lemma app_cut : forall (a b a' b' : list nat), a ++ b = a' ++ b' -> length a = length a' -> a = a' /\ b = b'.
Proof.
  induction a as [|x a IH]; intros b [|y a'] b' E L; simpl in *; try discriminate; auto.
  injection E as -> E. destruct (IH b a' b' E) as [-> ->]; auto.
Qed.

Lemma positive_side : forall (w : nat -> R) (p : nat -> bool) rows, 0 < sumR (map w (filter p rows)) ->
  exists i, In i rows /\ p i = true.
Proof.
  intros w p rows Hp. destruct (filter p rows) as [|i l] eqn:E; [simpl in Hp; lra|].
  exists i. apply filter_In. rewrite E. left; auto.
Qed.

Lemma fin_not_lt : forall (x : xr) a b, x = Fin a -> flt (@f32 XF) x (Fin b) = false -> b <= a.
Proof. intros x a b -> E. simpl in E. destruct (Rlt_boolP a b) as [[Q _]|[_ Q]]; auto. congruence. Qed.

Theorem gvalid_routed : forall g, gvalid g -> rows_ok (grows g) -> sums_ok (groot g) (grows g) ->
  hist_ok (groot g) (grows g) -> routed g.
Proof.
  intros g V. induction V as [n rows Hl|p0 n rows si mr l r sub lh rh E0 E1 E2 E3 E4 P S N1 N2 GL' GR' V1 IH1 V2 IH2
                 |n rows si m l r sub mh lh rh mi ml E1 E2 E3 E4 P S N1 N2 N3 GM' GL' GR' V0 IH0 V1 IH1 V2 IH2];
    cbn [grows groot routed]; intros HR HS HH.
  - auto.
  - split; auto. destruct S as [f HB HM HF HP H2].
    destruct (best_split_admissible _ _ _ _ HB) as (k & j & A).
    pose proof (admissible_cover _ _ _ _ _ _ A) as [_ CR].
    destruct (split_sums n rows k j si HR HS (HH E1) A) as (S1 & S2 & S3 & S4).
    rewrite E0 in S4. destruct S4 as (mr' & M1 & M2 & M3 & M4 & M5).
    assert (mr' = mr) as -> by (rewrite HM in M1; destruct mr, mr'; congruence). clear M1.
    assert (Hc : (si_feature si < m_cols (tr_data t))%nat) by (apply (hi_bound _ _ _ _ _ _ _ HI); eapply nth_error_In; eauto).
    destruct (fcol_ok _ _ _ _ _ _ _ HI _ Hc) as [FC LF]. rewrite FC in HF. injection HF as <-.
    rewrite ML in CR. apply (fin_not_lt _ _ _ M5) in CR.
    assert (RS : rows_ok sub) by (intros i Hi; apply HR; apply (Permutation_in _ (Permutation_sym P)); auto).
    set (gl := fun i => goes_left (si_bin si) mr (nth i (bcol (si_feature si)) 0%nat)).
    assert (LG : forall w : nat -> R, lsum w (si_feature si) (j + 1) mr rows = sumR (map w (filter gl rows))).
    { intros w. unfold lsum, gl. rewrite S2. reflexivity. }
    assert (EX : exists i, In i rows /\ gl i = false).
    { assert (SP : sumR (map H rows) = sumR (map H (filter gl rows)) + sumR (map H (filter (fun i => negb (gl i)) rows))).
      { rewrite <- (filter_all _ (fun _ => true) rows) at 1 by auto. apply sum_filter_split. intros i _. destruct (gl i); auto. }
      rewrite LG in CR. destruct (positive_side H (fun i => negb (gl i)) rows) as (i & Hi & Hg); [lra|].
      exists i. split; auto. apply negb_true_iff. auto. }
    destruct EX as (i0 & Hi0 & Hg0).
    destruct (pivot_two_way sub (bcol (si_feature si)) (si_bin si) mr) as (idx & q & Q1 & Q2 & Q3 & Q4 & Q5).
    { intros x Hx. rewrite LF. auto. }
    { destruct (@nth_error_lt _ (bcol (si_feature si)) i0) as [b Hb]; [rewrite LF; auto|].
      exists i0, b. split; [apply (Permutation_in _ P); auto|]. split; auto. unfold gl in Hg0. rewrite (nth_error_nth_eq _ _ 0%nat Hb) in Hg0. auto. }
    rewrite HP in Q1. injection Q1 as EQ <-.
    rewrite <- (firstn_skipn (length (grows l)) idx) in EQ.
    apply app_cut in EQ; [|rewrite firstn_length_le; auto; rewrite <- (Permutation_length Q2); lia].
    destruct EQ as [EL ER]. rewrite <- EL in Q4. rewrite <- ER in Q5.
    assert (QL : forall i, In i (grows l) -> gl i = true).
    { intros i Hi. destruct (Q4 i Hi) as (b & Hb & Hg). unfold gl. rewrite (nth_error_nth_eq _ _ 0%nat Hb). auto. }
    assert (QR : forall i, In i (grows r) -> gl i = false).
    { intros i Hi. destruct (Q5 i Hi) as (b & Hb & Hg). unfold gl. rewrite (nth_error_nth_eq _ _ 0%nat Hb). auto. }
    assert (PP : Permutation rows (grows l ++ grows r)).
    { etransitivity; [exact P|]. etransitivity; [exact Q2|]. rewrite EL, ER, firstn_skipn. reflexivity. }
    assert (PL : Permutation (filter gl rows) (grows l)).
    { rewrite (filter_perm gl _ _ PP), filter_app, (filter_all _ _ (grows l)), (filter_none _ _ (grows r)), app_nil_r; auto. }
    assert (SL : forall w : nat -> R, lsum w (si_feature si) (j + 1) mr rows = sumR (map w (grows l))).
    { intros w. rewrite LG. apply sum_perm. auto. }
    assert (SR : forall w : nat -> R, sumR (map w rows) - lsum w (si_feature si) (j + 1) mr rows = sumR (map w (grows r))).
    { intros w. rewrite SL, (sum_perm w _ _ PP), map_app, sumR_app. lra. }
    assert (RL : rows_ok (grows l)) by (intros i Hi; apply HR; apply (Permutation_in _ (Permutation_sym PP)); apply in_app_iff; auto).
    assert (RR : rows_ok (grows r)) by (intros i Hi; apply HR; apply (Permutation_in _ (Permutation_sym PP)); apply in_app_iff; auto).
    assert (HL : lh = spec (grows l) /\ rh = spec (grows r)).
    { destruct H2 as [A1 ->|A1 ->]; apply hist_of_spec in A1; auto; rewrite A1, (HH E1); split; auto.
      - apply hist_subtract; auto.
      - apply hist_subtract; auto. rewrite PP. apply Permutation_app_comm. }
    destruct HL as [-> ->].
    split; [split; [eapply nth_error_In; eauto|split; [lia|]]|].
    { rewrite S2, Nat.add_sub. auto. }
    split; auto. split; auto. split; auto. split.
    + apply IH1; auto; unfold sums_ok, hist_ok; rewrite GL'; simpl; auto. rewrite M2, M3, !SL. auto.
    + apply IH2; auto; unfold sums_ok, hist_ok; rewrite GR'; simpl; auto. rewrite M4, M5, !SR. auto.
  - split; auto. destruct S as [f p term treat force i0 ES HB HM Hmi HF HP H3].
    destruct (best_split_admissible _ _ _ _ HB) as (k & j & A).
    pose proof (admissible_cover _ _ _ _ _ _ A) as [_ CR].
    destruct (split_sums n rows k j si HR HS (HH E1) A) as (S1 & S2 & S3 & S4).
    rewrite ES in S4. destruct S4 as (i' & M0 & M1 & M2 & M3 & M4 & M5 & M6).
    assert (i' = i0) as -> by (destruct HM as [[HM _]|[HM _]], M0 as [M0|M0]; congruence). clear M0.
    assert (Hc : (si_feature si < m_cols (tr_data t))%nat) by (apply (hi_bound _ _ _ _ _ _ _ HI); eapply nth_error_In; eauto).
    destruct (fcol_ok _ _ _ _ _ _ _ HI _ Hc) as [FC LF]. rewrite FC in HF. injection HF as <-.
    rewrite ML in CR. apply (fin_not_lt _ _ _ M6) in CR.
    assert (RS : rows_ok sub) by (intros i Hi; apply HR; apply (Permutation_in _ (Permutation_sym P)); auto).
    destruct (positive_side H (on_side (bcol (si_feature si)) (j + 1) Ri) rows) as (x0 & Hx0 & Hs0); [fold (ssum H (si_feature si) (j + 1) Ri rows); lra|].
    destruct (pivot_three_way sub (bcol (si_feature si)) (si_bin si)) as (idx & q & u & Q1 & Q2 & Q3 & Q4 & Q5 & Q6).
    { lia. }
    { intros x Hx. rewrite LF. auto. }
    { destruct (@nth_error_lt _ (bcol (si_feature si)) x0) as [b Hb]; [rewrite LF; auto|].
      exists x0, b. split; [apply (Permutation_in _ P); auto|]. split; auto. unfold on_side, side_of in Hs0.
      rewrite (nth_error_nth_eq _ _ 0%nat Hb) in Hs0. rewrite S2.
      destruct (b =? 0)%nat; [discriminate|]. destruct (Nat.ltb_spec b (j + 1)); [discriminate|auto]. }
    rewrite HP in Q1. injection Q1 as EQ <- Eu.
    assert (LI : length idx = length sub) by (symmetry; apply Permutation_length; auto).
    rewrite <- (firstn_skipn (length (grows m)) idx) in EQ.
    apply app_cut in EQ; [|rewrite firstn_length_le; lia].
    destruct EQ as [EM EQ].
    rewrite <- (firstn_skipn (length (grows l)) (skipn (length (grows m)) idx)) in EQ.
    apply app_cut in EQ; [|rewrite firstn_length_le; auto; rewrite skipn_length; lia].
    destruct EQ as [EL ER]. rewrite skipn_skipn in ER.
    replace (u - length (grows m))%nat with (length (grows l)) in Q5 by lia.
    replace (length (grows l) + length (grows m))%nat with u in ER by lia.
    rewrite <- EM in Q4. rewrite <- EL in Q5. rewrite <- ER in Q6.
    set (sd := fun i => side_of (si_bin si) (nth i (bcol (si_feature si)) 0%nat)).
    assert (QM : forall i, In i (grows m) -> sd i = Mi).
    { intros i Hi. specialize (Q4 i Hi). unfold sd. rewrite (nth_error_nth_eq _ _ 0%nat Q4). reflexivity. }
    assert (QL : forall i, In i (grows l) -> sd i = Le).
    { intros i Hi. destruct (Q5 i Hi) as (b & Hb & Hg). unfold sd. rewrite (nth_error_nth_eq _ _ 0%nat Hb).
      unfold side_of. destruct (Nat.eqb_spec b 0); [lia|]. destruct (Nat.ltb_spec b (si_bin si)); [auto|lia]. }
    assert (QR : forall i, In i (grows r) -> sd i = Ri).
    { intros i Hi. destruct (Q6 i Hi) as (b & Hb & Hg). unfold sd. rewrite (nth_error_nth_eq _ _ 0%nat Hb).
      unfold side_of. destruct (Nat.eqb_spec b 0); [lia|]. destruct (Nat.ltb_spec b (si_bin si)); [lia|auto]. }
    assert (PP : Permutation rows (grows m ++ grows l ++ grows r)).
    { etransitivity; [exact P|]. etransitivity; [exact Q2|]. rewrite EM, EL, ER.
      replace (skipn u idx) with (skipn (length (grows l)) (skipn (length (grows m)) idx)) by (rewrite skipn_skipn; f_equal; lia).
      rewrite !firstn_skipn. reflexivity. }
    assert (OS : forall d i, on_side (bcol (si_feature si)) (j + 1) d i = match sd i, d with Mi, Mi | Le, Le | Ri, Ri => true | _, _ => false end).
    { intros d i. unfold on_side, sd. rewrite S2. reflexivity. }
    assert (SS : forall (w : nat -> R) d, ssum w (si_feature si) (j + 1) d rows = sumR (map w (match d with Mi => grows m | Le => grows l | Ri => grows r end))).
    { intros w d. unfold ssum. apply sum_perm. rewrite (filter_perm _ _ _ PP), !filter_app.
      destruct d.
      - rewrite filter_all, (filter_none _ _ (grows l)), (filter_none _ _ (grows r)), ?app_nil_r; auto;
          intros x Hx; rewrite OS; [rewrite (QR x Hx)|rewrite (QL x Hx)|rewrite (QM x Hx)]; auto.
      - rewrite (filter_none _ _ (grows m)), filter_all, (filter_none _ _ (grows r)), ?app_nil_r; auto;
          intros x Hx; rewrite OS; [rewrite (QR x Hx)|rewrite (QL x Hx)|rewrite (QM x Hx)]; auto.
      - rewrite (filter_none _ _ (grows m)), (filter_none _ _ (grows l)), filter_all, ?app_nil_r; auto;
          intros x Hx; rewrite OS; [rewrite (QR x Hx)|rewrite (QL x Hx)|rewrite (QM x Hx)]; auto. }
    assert (IN : forall i, In i (grows m) \/ In i (grows l) \/ In i (grows r) -> In i rows).
    { intros i Hi. apply (Permutation_in _ (Permutation_sym PP)). rewrite !in_app_iff. auto. }
    assert (RM : rows_ok (grows m)) by (intros i Hi; apply HR; auto).
    assert (RL : rows_ok (grows l)) by (intros i Hi; apply HR; auto).
    assert (RR : rows_ok (grows r)) by (intros i Hi; apply HR; auto).
    assert (HL : lh = spec (grows l) /\ rh = spec (grows r) /\ (ml = false -> mh = spec (grows m))).
    { destruct H3 as [B1 B2 H2|B1 B2 B3 B4|B1 B2 B3 B4|B1 B2 B3 B4].
      - assert (PQ : Permutation rows (grows l ++ grows r)) by (rewrite B1 in PP; auto).
        assert (HL : lh = spec (grows l) /\ rh = spec (grows r)).
        { destruct H2 as [A1 ->|A1 ->]; apply hist_of_spec in A1; auto; rewrite A1, (HH E1); split; auto.
          - apply hist_subtract; auto.
          - apply hist_subtract; auto. rewrite PQ. apply Permutation_app_comm. }
        destruct HL. split; auto. split; auto. intros Hml. exfalso.
        destruct HM as [[_ HM]|[_ HM]]; rewrite HM in Hml; [|discriminate].
        rewrite B1 in Hml. simpl in Hml. rewrite orb_true_r in Hml. discriminate.
      - apply hist_of_spec in B2; auto. apply hist_of_spec in B3; auto. split; auto. split; auto. intros _.
        rewrite B4, B2, B3, (HH E1). apply hist_subtract_two; auto.
        rewrite PP. rewrite (Permutation_app_comm (grows m)). rewrite <- app_assoc. reflexivity.
      - apply hist_of_spec in B2; auto. apply hist_of_spec in B3; auto. split; [|split; auto].
        rewrite B4, B2, B3, (HH E1). apply hist_subtract_two; auto.
        rewrite PP. apply Permutation_app_head. apply Permutation_app_comm.
      - apply hist_of_spec in B2; auto. apply hist_of_spec in B3; auto. split; [auto|split; [|auto]].
        rewrite B4, B2, B3, (HH E1). apply hist_subtract_two; auto. }
    destruct HL as (-> & -> & HLM).
    split; [split; [eapply nth_error_In; eauto|split; [lia|]]|].
    { rewrite S2, Nat.add_sub. auto. }
    split; auto. split; auto. split; auto. split; auto. split; [|split].
    + apply IH0; auto; unfold sums_ok, hist_ok; rewrite GM'; simpl; auto.
      rewrite Hmi. assert (E : ni_grad (missing_info_of treat n i0) = ni_grad i0 /\ ni_cover (missing_info_of treat n i0) = ni_cover i0) by (destruct treat; auto).
      destruct E as [-> ->]. rewrite M1, M2, !SS. auto.
    + apply IH1; auto; unfold sums_ok, hist_ok; rewrite GL'; simpl; auto. rewrite M3, M4, !SS. auto.
    + apply IH2; auto; unfold sums_ok, hist_ok; rewrite GR'; simpl; auto. rewrite M5, M6, !SS. auto.
Qed.
End Route.
