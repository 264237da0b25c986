(** Hessians that are counts: when every hessian is a positive integer and their total is small enough for
    integer sums to be exact, the hessian sums of every node are those of its rows and training sends each
    row where the recorded split sends it, however the gradients round. *)
From Coq Require Import List Arith NArith Lia Bool Permutation Sorting.
From Verif Require Import Prelude Float FloatLaws Data DataProofs OrdProofs Utils Binning BinningProofs CutProofs BinMatrix
  Histogram HistogramProofs PivotProofs Pivot3Proofs Node Splitter SplitProofs EvalProofs Tree GrowProofs GrowInv
  GrowStep TreeWf TreeProofs FitProofs FitSplits PathProofs RouteX RouteFit.
Import ListNotations.
Local Open Scope nat_scope.

(** Integers up to [T] are exact: sums, differences and conversions. *)
Record CountLaws (FS : Floats) (T : N) : Prop := mkCL {
  cl_zero32 : fofnat (@f32 FS) 0 = fzero f32;
  cl_zero64 : fofnat (@f64 FS) 0 = fzero f64;
  cl_add32 : forall a b, (N.of_nat (a + b) <= T)%N -> fadd (@f32 FS) (fofnat f32 a) (fofnat f32 b) = fofnat f32 (a + b);
  cl_sub32 : forall a b, (N.of_nat (a + b) <= T)%N -> fsub (@f32 FS) (fofnat f32 (a + b)) (fofnat f32 b) = fofnat f32 a;
  cl_add64 : forall a b, (N.of_nat (a + b) <= T)%N -> fadd (@f64 FS) (fofnat f64 a) (fofnat f64 b) = fofnat f64 (a + b);
  cl_to64 : forall a, (N.of_nat a <= T)%N -> to64 (fofnat (@f32 FS) a) = fofnat f64 a;
  cl_to32 : forall a, (N.of_nat a <= T)%N -> to32 (fofnat (@f64 FS) a) = fofnat f32 a;
  cl_eq : forall a, (N.of_nat a <= T)%N -> feq (@f32 FS) (fofnat f32 a) (fzero f32) = (a =? 0);
  cl_pos64 : forall a, (N.of_nat a <= T)%N -> flt (@f64 FS) (fzero f64) (fofnat f64 a) = (0 <? a);
  cl_nonneg64 : forall a, (N.of_nat a <= T)%N -> fle (@f64 FS) (fzero f64) (fofnat f64 a) = true;
  cl_inf64 : forall a, (N.of_nat a <= T)%N -> flt (@f64 FS) (fofnat f64 a) (finf f64) = true }.

(** *** Counting *)
Section Cnt.
Variable hn : nat -> nat.
Definition cnt (rows : list nat) : nat := list_sum (map hn rows).

Lemma cnt_app : forall a b, cnt (a ++ b) = cnt a + cnt b.
Proof. intros a b. unfold cnt. rewrite map_app. apply list_sum_app. Qed.
Lemma cnt_perm : forall a b, Permutation a b -> cnt a = cnt b.
Proof. intros a b P. unfold cnt. induction P; simpl; lia. Qed.
Lemma cnt_filter_le : forall p rows, cnt (filter p rows) <= cnt rows.
Proof. intros p rows. unfold cnt. induction rows as [|i rows IH]; simpl; auto. destruct (p i); simpl; lia. Qed.
Lemma cnt_split : forall p q q' rows, (forall i, In i rows -> p i = (q i || q' i)%bool /\ (q i && q' i)%bool = false) ->
  cnt (filter p rows) = cnt (filter q rows) + cnt (filter q' rows).
Proof.
  intros p q q' rows H. unfold cnt. induction rows as [|i rows IH]; simpl; auto.
  destruct (H i (or_introl eq_refl)) as [-> E]. specialize (IH (fun j Hj => H j (or_intror Hj))).
  destruct (q i), (q' i); simpl in *; try discriminate; lia.
Qed.
Lemma cnt_sides : forall f sv rows, cnt rows = cnt (filter (on_side f sv Mi) rows) + cnt (filter (on_side f sv Le) rows) + cnt (filter (on_side f sv Ri) rows).
Proof.
  intros f sv rows. unfold cnt. induction rows as [|i rows IH]; simpl; auto.
  unfold on_side in *. destruct (side_of sv (nth i f 0)); simpl; lia.
Qed.
Lemma cnt_left : forall f sv (mr : bool) rows, cnt (filter (fun i => goes_left sv mr (nth i f 0)) rows) =
  cnt (filter (on_side f sv Le) rows) + (if mr then 0 else cnt (filter (on_side f sv Mi) rows)).
Proof.
  intros f sv mr rows. unfold cnt. induction rows as [|i rows IH]; cbn [filter]; [destruct mr; auto|].
  assert (Q : goes_left sv mr (nth i f 0) = (on_side f sv Le i || (negb mr && on_side f sv Mi i))%bool /\ (on_side f sv Le i && on_side f sv Mi i)%bool = false).
  { unfold on_side, side_of, goes_left. destruct (nth i f 0 =? 0), mr; simpl; auto; destruct (nth i f 0 <? sv); auto. }
  destruct Q as [-> Q]. unfold list_sum in *.
  destruct (on_side f sv Le i), (on_side f sv Mi i), mr; try discriminate; cbn [orb andb negb map fold_right] in *; lia.
Qed.
Lemma cnt_bins : forall f rows a k, (forall i, In i rows -> i < length f) ->
  list_sum (map (fun b => cnt (filter (in_bin f b) rows)) (seq a k)) = cnt (filter (fun i => (a <=? nth i f 0) && (nth i f 0 <? a + k))%bool rows).
Proof.
  intros f rows a k H. induction k as [|k IH].
  - simpl. rewrite filter_none; auto. intros i _.
    destruct (Nat.leb_spec a (nth i f 0)), (Nat.ltb_spec (nth i f 0) (a + 0)); auto; lia.
  - rewrite seq_S, map_app, list_sum_app, IH. simpl. rewrite Nat.add_0_r. symmetry. apply cnt_split.
    intros i Hi. rewrite in_bin_eq by auto.
    destruct (Nat.leb_spec a (nth i f 0)), (Nat.ltb_spec (nth i f 0) (a + k)), (Nat.ltb_spec (nth i f 0) (a + S k)),
      (Nat.eqb_spec (nth i f 0) (a + k)); simpl; auto; lia.
Qed.
Lemma cnt_positive : forall p rows, 0 < cnt (filter p rows) -> exists i, In i rows /\ p i = true.
Proof.
  intros p rows H. destruct (filter p rows) as [|i l] eqn:E; [unfold cnt in H; simpl in H; lia|].
  exists i. apply filter_In. rewrite E. left; auto.
Qed.
Lemma cnt_zero : forall rows, (forall i, In i rows -> 0 < hn i) -> cnt rows = 0 -> rows = [].
Proof. intros [|i rows] H E; auto. specialize (H i (or_introl eq_refl)). unfold cnt in E. simpl in E. lia. Qed.
End Cnt.

Lemma map_combine2 : forall A K B (h : A -> B) (op : B -> B -> B) (P C : list A) (keys : list K) f g,
  map h P = map f keys -> map h C = map g keys -> map (fun '(r, c) => op (h r) (h c)) (combine P C) = map (fun k => op (f k) (g k)) keys.
Proof.
  intros A K B h op. induction P as [|r P IH]; intros [|c C] [|k keys] f g H1 H2; simpl in *; try discriminate; auto.
  injection H1 as -> H1. injection H2 as -> H2. f_equal. auto.
Qed.
Lemma map_combine3 : forall A K B (h : A -> B) (op : B -> B -> B -> B) (P C D : list A) (keys : list K) f g e,
  map h P = map f keys -> map h C = map g keys -> map h D = map e keys ->
  map (fun '(r, c, d) => op (h r) (h c) (h d)) (combine (combine P C) D) = map (fun k => op (f k) (g k) (e k)) keys.
Proof.
  intros A K B h op. induction P as [|r P IH]; intros [|c C] [|d D] [|k keys] f g e H1 H2 H3; simpl in *; try discriminate; auto.
  injection H1 as -> H1. injection H2 as -> H2. injection H3 as -> H3. f_equal. auto.
Qed.

Section Route.
Context {FS : Floats}.
Variable T : N.
Hypothesis CLW : CountLaws FS T.
Variables (s : Splitter) (t : Train) (max_depth : nat) (fcols : list (list nat)) (ccols : list (list F64)).
Hypothesis HI : hist_inputs (tr_data t) (tr_cuts t) (tr_grad t) (tr_hess t) (tr_cols t) fcols ccols.
Hypothesis CL : forall c, In c ccols -> (N.of_nat (length c) <= 65536)%N.
Hypothesis MP : (fzero f32 <? sp_min_leaf_weight (params s))%f32 = true.
Variable hn : nat -> nat.
Notation nrows := (m_rows (tr_data t)).
Notation c32 n := (fofnat (@f32 FS) n).
Notation c64 n := (fofnat (@f64 FS) n).
Hypothesis HN : forall i, i < nrows -> nth i (tr_hess t) (fzero f32) = c32 (hn i).
Notation small n := (N.of_nat n <= T)%N.
Notation cnt := (cnt hn).
Notation spec := (hist_spec (tr_data t) (tr_cuts t) (tr_grad t) (tr_hess t) (tr_cols t) fcols ccols).
Notation lay := (layout (tr_data t) (tr_cuts t) (tr_cols t) ccols).
Notation bcol f := (fcol fcols f).

Definition rows_in (rows : list nat) : Prop := forall i, In i rows -> i < nrows.

Lemma sum64_count : forall rows a, rows_in rows -> small (a + cnt rows) ->
  fold_left (fun a g => (a + to64 g)%f64) (map (hof (tr_hess t)) rows) (c64 a) = c64 (a + cnt rows).
Proof.
  induction rows as [|i rows IH]; intros a HR B; simpl; [f_equal; unfold CountRoute.cnt; simpl; lia|].
  unfold CountRoute.cnt in *. simpl in *. unfold hof at 2. rewrite HN by (apply HR; left; auto).
  rewrite (cl_to64 _ _ CLW), (cl_add64 _ _ CLW) by lia. rewrite IH; [f_equal; lia| |lia]. intros j Hj. apply HR. right; auto.
Qed.

Definition keys : list (nat * nat) := concat (map (fun j => map (pair j) (seq 0 (length (ccol ccols j)))) (tr_cols t)).
Definition cn (rows : list nat) (k : nat * nat) : nat := cnt (filter (in_bin (bcol (fst k)) (snd k)) rows).
Definition counts (h : HistogramMatrix) (rows : list nat) : Prop :=
  map (@hessian_sum FS F32) (j_data h) = map (fun k => c32 (cn rows k)) keys.

Lemma filter_in : forall p rows, rows_in rows -> rows_in (filter p rows).
Proof. intros p rows H i Hi. apply filter_In in Hi. apply H, Hi. Qed.

Lemma counts_spec : forall rows, rows_in rows -> small (cnt rows) -> counts (spec rows) rows.
Proof.
  intros rows HR B. unfold counts, keys. simpl. unfold hist_cols. rewrite !concat_map, !map_map. f_equal. apply map_ext. intros j.
  unfold feature_bins. rewrite !map_map. apply map_ext. intros b. simpl. unfold sum64, cn. simpl.
  rewrite <- (cl_zero64 _ _ CLW). pose proof (cnt_filter_le hn (in_bin (bcol j) b) rows).
  rewrite sum64_count; [apply (cl_to32 _ _ CLW); lia|apply filter_in; auto|lia].
Qed.

Lemma cn_perm : forall a b k, Permutation a b -> cn a k = cn b k.
Proof. intros a b k P. apply cnt_perm. apply filter_perm. auto. Qed.
Lemma cn_app : forall a b k, cn (a ++ b) k = cn a k + cn b k.
Proof. intros a b k. unfold cn. rewrite filter_app. apply cnt_app. Qed.
Lemma cn_le : forall rows k, cn rows k <= cnt rows.
Proof. intros. apply cnt_filter_le. Qed.

Lemma counts_sub : forall p c rows a b, counts p rows -> counts c a -> Permutation rows (a ++ b) -> small (cnt rows) ->
  counts (hist_from_parent_child p c) b.
Proof.
  intros p c rows a b H1 H2 P B. unfold counts in *. simpl. rewrite map_map.
  rewrite (map_ext _ (fun '(r, c0) => fsub (@f32 FS) (hessian_sum r) (hessian_sum c0))) by (intros [x y]; reflexivity).
  rewrite (map_combine2 _ _ _ _ (fsub (@f32 FS)) _ _ _ _ _ H1 H2). apply map_ext. intros k.
  rewrite (cn_perm _ _ k P), cn_app, (Nat.add_comm (cn a k)). apply (cl_sub32 _ _ CLW).
  pose proof (cn_le rows k) as Q. rewrite (cn_perm _ _ k P), cn_app in Q. lia.
Qed.
Lemma counts_two : forall p c d rows a b e, counts p rows -> counts c a -> counts d b -> Permutation rows (a ++ b ++ e) -> small (cnt rows) ->
  counts (hist_from_parent_two_children p c d) e.
Proof.
  intros p c d rows a b e H1 H2 H3 P B. unfold counts in *. simpl. rewrite map_map.
  rewrite (map_ext _ (fun '(r, c0, d0) => fsub (@f32 FS) (hessian_sum r) (fadd (@f32 FS) (hessian_sum c0) (hessian_sum d0))))
    by (intros [[x y] z]; reflexivity).
  rewrite (map_combine3 _ _ _ _ (fun r c0 d0 => fsub (@f32 FS) r (fadd (@f32 FS) c0 d0)) _ _ _ _ _ _ _ H1 H2 H3). apply map_ext. intros k.
  pose proof (cn_le rows k) as Q. rewrite (cn_perm _ _ k P), !cn_app in *.
  rewrite (cl_add32 _ _ CLW) by lia. replace (cn a k + (cn b k + cn e k)) with (cn e k + (cn a k + cn b k)) by lia.
  apply (cl_sub32 _ _ CLW). lia.
Qed.

Lemma counts_lookup : forall h rows k f col, lay h -> counts h rows -> nth_error (tr_cols t) k = Some f -> j_get_col h k = Some col ->
  map (@hessian_sum FS F32) col = map (fun b => c32 (cnt (filter (in_bin (bcol f) b) rows))) (seq 0 (length (ccol ccols f))).
Proof.
  intros h rows k f col (_ & H2 & _) HC Hk HG.
  set (hc := mkJagged (map (@hessian_sum FS F32) (j_data h)) (j_ends h) 0 0).
  assert (R : jrep hc (map (fun j => map (fun b => c32 (cnt (filter (in_bin (bcol j) b) rows))) (seq 0 (length (ccol ccols j)))) (tr_cols t))).
  { split; simpl.
    - rewrite HC. unfold keys. rewrite concat_map, map_map. f_equal. apply map_ext. intros j. rewrite map_map. reflexivity.
    - rewrite H2. unfold hist_ends. f_equal. rewrite map_map. apply map_ext. intros j. rewrite map_length, seq_length. reflexivity. }
  pose proof (jrep_get_col _ _ _ R k) as G. rewrite nth_error_map, Hk in G. simpl option_map in G.
  unfold j_get_col in *. simpl j_ends in G. simpl j_data in G.
  destruct (k <? length (j_ends h)); [|discriminate].
  inv_bind G. inv_bind G. unfold slice in *. rewrite map_length in G. rewrite E in HG. cbn [bind] in HG. rewrite E0 in HG. cbn [bind] in HG.
  destruct ((v0 <=? v) && (v <=? length (j_data h)))%bool; [|discriminate].
  injection HG as <-. injection G as G. rewrite <- G. rewrite <- firstn_map, <- skipn_map. reflexivity.
Qed.

Lemma fold_count : forall l a, small (a + list_sum l) ->
  fold_left (fun x y => fadd (@f32 FS) x y) (map (fun n => c32 n) l) (c32 a) = c32 (a + list_sum l).
Proof.
  induction l as [|n l IH]; intros a B; simpl in *; [f_equal; lia|].
  rewrite (cl_add32 _ _ CLW) by lia. rewrite IH by lia. f_equal. lia.
Qed.

(** The hessian sums a candidate is evaluated with. *)
Lemma col_counts : forall h rows k f missing bins j, rows_in rows -> small (cnt rows) -> lay h -> counts h rows ->
  nth_error (tr_cols t) k = Some f -> j_get_col h k = Some (missing :: bins) -> j <= length bins ->
  hessian_sum missing = c32 (cnt (filter (on_side (bcol f) (j + 1) Mi) rows)) /\
  left_sum hessian_sum bins j = c32 (cnt (filter (on_side (bcol f) (j + 1) Le) rows)).
Proof.
  intros h rows k f missing bins j HR B LY HC Hk HG Hj.
  pose proof (counts_lookup _ _ _ _ _ LY HC Hk HG) as Q.
  assert (Hf : f < m_cols (tr_data t)) by (apply (hi_bound _ _ _ _ _ _ _ HI); eapply nth_error_In; eauto).
  destruct (fcol_ok _ _ _ _ _ _ _ HI f Hf) as [_ LF].
  assert (INR : forall i, In i rows -> i < length (bcol f)) by (intros; rewrite LF; auto).
  destruct (length (ccol ccols f)) as [|m] eqn:EL; [discriminate|]. cbn [seq map] in Q. injection Q as Q1 Q2.
  assert (LB : length bins = m) by (apply (f_equal (@length _)) in Q2; rewrite !map_length, seq_length in Q2; auto).
  split.
  - rewrite Q1. f_equal. f_equal. apply filter_ext_in. intros i Hi. rewrite in_bin_eq by auto.
    unfold on_side, side_of. destruct (nth i (bcol f) 0 =? 0); auto. destruct (_ <? _); auto.
  - unfold left_sum.
    assert (E : forall (l : list (Bin F32)) a, fold_left (fun a b => (a + hessian_sum b)%f32) l a = fold_left (fun x y => fadd (@f32 FS) x y) (map (@hessian_sum FS F32) l) a).
    { induction l as [|x l IH]; intros a; simpl; auto. }
    rewrite E, <- firstn_map, Q2, firstn_map.
    assert (FQ : firstn j (seq 1 m) = seq 1 j).
    { replace m with (j + (m - j)) by lia. rewrite seq_app, firstn_app, seq_length, Nat.sub_diag.
      rewrite firstn_all2 by (rewrite seq_length; lia). simpl. apply app_nil_r. }
    rewrite FQ, <- (map_map (fun b => cnt (filter (in_bin (bcol f) b) rows)) (fun n => c32 n)), <- (cl_zero32 _ _ CLW).
    pose proof (cnt_bins hn (bcol f) rows 1 j INR) as CB. pose proof (cnt_filter_le hn (fun i => ((1 <=? nth i (bcol f) 0) && (nth i (bcol f) 0 <? 1 + j))%bool) rows) as LE.
    rewrite fold_count by lia. rewrite CB. rewrite Nat.add_0_l. f_equal. f_equal. apply filter_ext_in. intros i Hi.
    unfold on_side, side_of. destruct (Nat.eqb_spec (nth i (bcol f) 0) 0) as [->|]; auto.
    destruct (Nat.ltb_spec (nth i (bcol f) 0) (1 + j)), (Nat.ltb_spec (nth i (bcol f) 0) (j + 1)),
      (Nat.leb_spec 1 (nth i (bcol f) 0)); auto; lia.
Qed.

Definition scnt f sv d rows := cnt (filter (on_side (bcol f) sv d) rows).
Definition lcnt f sv mr rows := cnt (filter (fun i => goes_left sv mr (nth i (bcol f) 0)) rows).

(** What an admissible split records as covers. *)
Lemma split_counts : forall n rows k j si, rows_in rows -> small (cnt rows) -> sn_hess n = c32 (cnt rows) -> lay (sn_hist n) -> counts (sn_hist n) rows ->
  admissible s n (tr_cols t) k j si ->
  let f := si_feature si in
  nth_error (tr_cols t) k = Some f /\ si_bin si = j + 1 /\ nth_error (ccol ccols f) j = Some (si_value si) /\
  match s with
  | Imputer _ => exists mr : bool, si_missing si = (if mr then MRight else MLeft) /\
      ni_cover (si_left si) = c32 (lcnt f (j + 1) mr rows) /\
      ni_cover (si_right si) = c32 (cnt rows - lcnt f (j + 1) mr rows)
  | Branch _ _ _ _ => exists i, (si_missing si = MBranch i \/ si_missing si = MLeaf i) /\
      ni_cover i = c32 (scnt f (j + 1) Mi rows) /\
      ni_cover (si_left si) = c32 (scnt f (j + 1) Le rows) /\ ni_cover (si_right si) = c32 (scnt f (j + 1) Ri rows)
  end.
Proof.
  intros n rows k j si HR B SH LY HC A f0.
  destruct (admissible_cut s t fcols ccols HI n k j si LY A) as (D1 & D2 & D3).
  destruct A as [f missing bins bin Hf Hcol Hb HCA].
  destruct (candidate_inv _ _ _ _ _ _ _ _ _ HCA) as (l & r & m & HE & Ef & Ev & Eb & Em & EL & ER & _).
  subst f0. rewrite Ef in *.
  pose proof (nth_error_Some_lt _ _ Hb) as Hj.
  destruct (col_counts (sn_hist n) rows k f missing bins j HR B LY HC Hf Hcol) as (C2 & C4); [lia|].
  split; auto. split.
  { rewrite Eb. unfold as_u16, fits_u16.
    assert (LL : (N.of_nat (length (ccol ccols f)) <= 65536)%N).
    { apply CL. apply nth_In. rewrite (hi_ccols _ _ _ _ _ _ _ HI). apply (hi_bound _ _ _ _ _ _ _ HI). eapply nth_error_In; eauto. }
    apply nth_error_Some_lt in D2. rewrite removelast_firstn_len, firstn_length in D2.
    destruct (N.ltb_spec (N.of_nat (j + 1)) 65536); auto. lia. }
  split.
  { rewrite removelast_firstn_len in D2. assert (Q := nth_error_Some_lt _ _ D2). rewrite firstn_length in Q.
    rewrite nth_error_firstn_lt in D2 by lia. exact D2. }
  fold (scnt f (j + 1) Mi rows) in C2. fold (scnt f (j + 1) Le rows) in C4.
  rewrite C2, C4, SH in HE.
  pose proof (cnt_sides hn (bcol f) (j + 1) rows) as TS. fold (scnt f (j + 1) Mi rows) (scnt f (j + 1) Le rows) (scnt f (j + 1) Ri rows) in TS.
  assert (RS : (c32 (cnt rows) - c32 (scnt f (j + 1) Le rows) - c32 (scnt f (j + 1) Mi rows))%f32 = c32 (scnt f (j + 1) Ri rows)).
  { replace (cnt rows) with (scnt f (j + 1) Ri rows + scnt f (j + 1) Mi rows + scnt f (j + 1) Le rows) by lia.
    rewrite (cl_sub32 _ _ CLW) by lia. apply (cl_sub32 _ _ CLW). lia. }
  rewrite RS in HE. clear RS.
  assert (LS : forall mr : bool, lcnt f (j + 1) mr rows = scnt f (j + 1) Le rows + (if mr then 0 else scnt f (j + 1) Mi rows)) by (intros mr; apply cnt_left).
  rewrite EL, ER, Em. unfold with_bounds. cbn [ni_cover].
  destruct s as [p|p term treat force]; cbn [evaluate_split] in HE.
  - injection HE as HE. apply imputer_inv in HE. remember (l, r, m) as e eqn:Ee.
    destruct HE as [ES|ES EW|ES EW]; injection Ee as <- <- <-; cbn [ni_cover].
    + exists true. rewrite !LS.
      assert (Z : scnt f (j + 1) Mi rows = 0).
      { unfold sees_missing in ES. apply orb_false_iff in ES. destruct ES as [_ E2]. apply negb_false_iff in E2.
        rewrite (cl_eq _ _ CLW) in E2 by lia. apply Nat.eqb_eq in E2. auto. }
      split; auto. split; f_equal; lia.
    + exists false. rewrite !LS. rewrite (cl_add32 _ _ CLW) by lia. split; auto. split; f_equal; lia.
    + exists true. rewrite !LS. rewrite (cl_add32 _ _ CLW) by lia. split; auto. split; f_equal; lia.
  - apply branch_inv in HE. destruct HE as [HE _]. injection HE as -> -> ->. cbn [ni_cover].
    destruct (_ && _)%bool; eexists; (split; [eauto|]); cbn [ni_cover]; auto.
Qed.

(** Training routes rows by the recorded splits, and hessian sums are counts over the node's rows. *)
Definition splits_rows (si : SplitInfo) (rows : list nat) : Prop :=
  In (si_feature si) (tr_cols t) /\ 0 < si_bin si /\
  nth_error (ccol ccols (si_feature si)) (si_bin si - 1) = Some (si_value si).
Definition sums_ok (n : SplittableNode) (rows : list nat) : Prop := sn_hess n = c32 (cnt rows).
Definition hist_ok (n : SplittableNode) (rows : list nat) : Prop :=
  sn_is_missing_leaf n = false -> lay (sn_hist n) /\ counts (sn_hist n) rows.

Fixpoint routed (g : gtree) : Prop :=
  (sums_ok (groot g) (grows g) /\ hist_ok (groot g) (grows g)) /\
  match g with
  | GL _ _ => True
  | GB2 n rows si mr l r =>
      splits_rows si rows /\ Permutation rows (grows l ++ grows r) /\
      (forall i, In i (grows l) -> goes_left (si_bin si) mr (nth i (bcol (si_feature si)) 0) = true) /\
      (forall i, In i (grows r) -> goes_left (si_bin si) mr (nth i (bcol (si_feature si)) 0) = false) /\
      routed l /\ routed r
  | GB3 n rows si m l r =>
      splits_rows si rows /\ Permutation rows (grows m ++ grows l ++ grows r) /\
      (forall i, In i (grows m) -> side_of (si_bin si) (nth i (bcol (si_feature si)) 0) = Mi) /\
      (forall i, In i (grows l) -> side_of (si_bin si) (nth i (bcol (si_feature si)) 0) = Le) /\
      (forall i, In i (grows r) -> side_of (si_bin si) (nth i (bcol (si_feature si)) 0) = Ri) /\
      routed m /\ routed l /\ routed r
  end.

Lemma hist_of_ok : forall rows h, rows_in rows -> small (cnt rows) -> hist_of t rows = Some h -> lay h /\ counts h rows.
Proof.
  intros rows h HR B E. unfold hist_of in E. rewrite (hist_new_sorted _ _ _ _ _ _ _ HI rows HR) in E. injection E as <-.
  split; [eapply layout_spec; eauto|apply counts_spec; auto].
Qed.
Lemma sub_ok : forall p c rows a b, lay p /\ counts p rows -> lay c /\ counts c a -> Permutation rows (a ++ b) -> small (cnt rows) ->
  lay (hist_from_parent_child p c) /\ counts (hist_from_parent_child p c) b.
Proof. intros p c rows a b [] [] P B. split; [apply layout_parent_child; auto|eapply counts_sub; eauto]. Qed.
Lemma two_ok : forall p c d rows a b e, lay p /\ counts p rows -> lay c /\ counts c a -> lay d /\ counts d b -> Permutation rows (a ++ b ++ e) -> small (cnt rows) ->
  lay (hist_from_parent_two_children p c d) /\ counts (hist_from_parent_two_children p c d) e.
Proof. intros p c d rows a b e [] [] [] P B. split; [apply layout_parent_two; auto|eapply counts_two; eauto]. Qed.

Lemma not_light : forall n, flt (@f32 FS) (c32 n) (sp_min_leaf_weight (params s)) = false -> 0 < n.
Proof. intros [|n] H; [|lia]. rewrite (cl_zero32 _ _ CLW), MP in H. discriminate. Qed.

Theorem gvalid_routed : forall g, gvalid s t max_depth g -> rows_in (grows g) -> small (cnt (grows g)) -> sums_ok (groot g) (grows g) ->
  hist_ok (groot g) (grows g) -> routed g.
Proof.
  intros g V. induction V as [n rows Hl|p0 n rows si mr l r sub lh rh E0 E1 E2 E3 E4 P S N1 N2 GL' GR' V1 IH1 V2 IH2
                 |n rows si m l r sub mh lh rh mi ml E1 E2 E3 E4 P S N1 N2 N3 GM' GL' GR' V0 IH0 V1 IH1 V2 IH2];
    cbn [grows groot routed]; intros HR HB0 HS HH.
  - auto.
  - split; auto. destruct S as [f HB HM HF HV H2].
    destruct (best_split_admissible _ _ _ _ HB) as (k & j & A).
    pose proof (admissible_cover _ _ _ _ _ _ A) as [_ CR].
    destruct (HH E1) as [LY CO]. destruct (split_counts n rows k j si HR HB0 HS LY CO A) as (S1 & S2 & S3 & S4).
    rewrite E0 in S4. destruct S4 as (mr' & M1 & M3 & M5).
    assert (mr' = mr) as -> by (rewrite HM in M1; destruct mr, mr'; congruence). clear M1.
    assert (Hc : (si_feature si < m_cols (tr_data t))) by (apply (hi_bound _ _ _ _ _ _ _ HI); eapply nth_error_In; eauto).
    destruct (fcol_ok _ _ _ _ _ _ _ HI _ Hc) as [FC LF]. rewrite FC in HF. injection HF as <-.
    rewrite M5 in CR. apply not_light in CR.
    assert (RS : rows_in sub) by (intros i Hi; apply HR; apply (Permutation_in _ (Permutation_sym P)); auto).
    set (gl := fun i => goes_left (si_bin si) mr (nth i (bcol (si_feature si)) 0)).
    assert (LG : lcnt (si_feature si) (j + 1) mr rows = cnt (filter gl rows)).
    { unfold lcnt, gl. rewrite S2. reflexivity. }
    assert (EX : exists i, In i rows /\ gl i = false).
    { assert (SP : cnt rows = cnt (filter gl rows) + cnt (filter (fun i => negb (gl i)) rows)).
      { rewrite <- (filter_all _ (fun _ => true) rows) at 1 by auto. apply cnt_split. intros i _. destruct (gl i); auto. }
      rewrite LG in CR. destruct (cnt_positive hn (fun i => negb (gl i)) rows) as (i & Hi & Hg); [lia|].
      exists i. split; auto. apply negb_true_iff. auto. }
    destruct EX as (i0 & Hi0 & Hg0).
    destruct (pivot_two_way sub (bcol (si_feature si)) (si_bin si) mr) as (idx & q & Q1 & Q2 & Q3 & Q4 & Q5).
    { intros x Hx. rewrite LF. auto. }
    { destruct (@nth_error_lt _ (bcol (si_feature si)) i0) as [b Hb]; [rewrite LF; auto|].
      exists i0, b. split; [apply (Permutation_in _ P); auto|]. split; auto. unfold gl in Hg0. rewrite (nth_error_nth_eq _ _ 0 Hb) in Hg0. auto. }
    rewrite HV in Q1. injection Q1 as EQ <-.
    rewrite <- (firstn_skipn (length (grows l)) idx) in EQ.
    apply app_cut in EQ; [|rewrite firstn_length_le; auto; rewrite <- (Permutation_length Q2); lia].
    destruct EQ as [EL ER]. rewrite <- EL in Q4. rewrite <- ER in Q5.
    assert (QL : forall i, In i (grows l) -> gl i = true).
    { intros i Hi. destruct (Q4 i Hi) as (b & Hb & Hg). unfold gl. rewrite (nth_error_nth_eq _ _ 0 Hb). auto. }
    assert (QR : forall i, In i (grows r) -> gl i = false).
    { intros i Hi. destruct (Q5 i Hi) as (b & Hb & Hg). unfold gl. rewrite (nth_error_nth_eq _ _ 0 Hb). auto. }
    assert (PP : Permutation rows (grows l ++ grows r)).
    { etransitivity; [exact P|]. etransitivity; [exact Q2|]. rewrite EL, ER, firstn_skipn. reflexivity. }
    assert (PL : Permutation (filter gl rows) (grows l)).
    { rewrite (filter_perm gl _ _ PP), filter_app, (filter_all _ _ (grows l)), (filter_none _ _ (grows r)), app_nil_r; auto. }
    assert (SL : lcnt (si_feature si) (j + 1) mr rows = cnt (grows l)).
    { rewrite LG. apply cnt_perm. auto. }
    assert (SR : cnt rows = cnt (grows l) + cnt (grows r)) by (rewrite (cnt_perm _ _ _ PP); apply cnt_app).
    assert (RL : rows_in (grows l)) by (intros i Hi; apply HR; apply (Permutation_in _ (Permutation_sym PP)); apply in_app_iff; auto).
    assert (RR : rows_in (grows r)) by (intros i Hi; apply HR; apply (Permutation_in _ (Permutation_sym PP)); apply in_app_iff; auto).
    assert (HL : (lay lh /\ counts lh (grows l)) /\ (lay rh /\ counts rh (grows r))).
    { destruct H2 as [A1 -> _|A1 -> _]; apply hist_of_ok in A1; auto; try lia; split; auto.
      - eapply sub_ok; eauto.
      - eapply sub_ok; eauto. rewrite PP. apply Permutation_app_comm. }
    destruct HL as [HLl HLr].
    split; [split; [eapply nth_error_In; eauto|split; [lia|]]|].
    { rewrite S2, Nat.add_sub. auto. }
    split; auto. split; auto. split; auto. split.
    + apply IH1; auto; try lia; unfold sums_ok, hist_ok; rewrite GL'; simpl; auto. rewrite M3, SL. auto.
    + apply IH2; auto; try lia; unfold sums_ok, hist_ok; rewrite GR'; simpl; auto. rewrite M5, SL. f_equal. lia.
  - split; auto. destruct S as [f p term treat force i0 ES HB HM Hmi HF HV H3].
    destruct (best_split_admissible _ _ _ _ HB) as (k & j & A).
    pose proof (admissible_cover _ _ _ _ _ _ A) as [_ CR].
    destruct (HH E1) as [LY CO]. destruct (split_counts n rows k j si HR HB0 HS LY CO A) as (S1 & S2 & S3 & S4).
    rewrite ES in S4. destruct S4 as (i' & M0 & M2 & M4 & M6).
    assert (i' = i0) as -> by (destruct HM as [[HM _]|[HM _]], M0 as [M0|M0]; congruence). clear M0.
    assert (Hc : (si_feature si < m_cols (tr_data t))) by (apply (hi_bound _ _ _ _ _ _ _ HI); eapply nth_error_In; eauto).
    destruct (fcol_ok _ _ _ _ _ _ _ HI _ Hc) as [FC LF]. rewrite FC in HF. injection HF as <-.
    rewrite M6 in CR. apply not_light in CR.
    assert (RS : rows_in sub) by (intros i Hi; apply HR; apply (Permutation_in _ (Permutation_sym P)); auto).
    destruct (cnt_positive hn (on_side (bcol (si_feature si)) (j + 1) Ri) rows) as (x0 & Hx0 & Hs0); [exact CR|].
    destruct (pivot_three_way sub (bcol (si_feature si)) (si_bin si)) as (idx & q & u & Q1 & Q2 & Q3 & Q4 & Q5 & Q6).
    { lia. }
    { intros x Hx. rewrite LF. auto. }
    { destruct (@nth_error_lt _ (bcol (si_feature si)) x0) as [b Hb]; [rewrite LF; auto|].
      exists x0, b. split; [apply (Permutation_in _ P); auto|]. split; auto. unfold on_side, side_of in Hs0.
      rewrite (nth_error_nth_eq _ _ 0 Hb) in Hs0. rewrite S2.
      destruct (b =? 0); [discriminate|]. destruct (Nat.ltb_spec b (j + 1)); [discriminate|auto]. }
    rewrite HV in Q1. injection Q1 as EQ <- Eu.
    assert (LI : length idx = length sub) by (symmetry; apply Permutation_length; auto).
    rewrite <- (firstn_skipn (length (grows m)) idx) in EQ.
    apply app_cut in EQ; [|rewrite firstn_length_le; lia].
    destruct EQ as [EM EQ].
    rewrite <- (firstn_skipn (length (grows l)) (skipn (length (grows m)) idx)) in EQ.
    apply app_cut in EQ; [|rewrite firstn_length_le; auto; rewrite skipn_length; lia].
    destruct EQ as [EL ER]. rewrite skipn_skipn in ER.
    replace (u - length (grows m)) with (length (grows l)) in Q5 by lia.
    replace (length (grows l) + length (grows m)) with u in ER by lia.
    rewrite <- EM in Q4. rewrite <- EL in Q5. rewrite <- ER in Q6.
    set (sd := fun i => side_of (si_bin si) (nth i (bcol (si_feature si)) 0)).
    assert (QM : forall i, In i (grows m) -> sd i = Mi).
    { intros i Hi. specialize (Q4 i Hi). unfold sd. rewrite (nth_error_nth_eq _ _ 0 Q4). reflexivity. }
    assert (QL : forall i, In i (grows l) -> sd i = Le).
    { intros i Hi. destruct (Q5 i Hi) as (b & Hb & Hg). unfold sd. rewrite (nth_error_nth_eq _ _ 0 Hb).
      unfold side_of. destruct (Nat.eqb_spec b 0); [lia|]. destruct (Nat.ltb_spec b (si_bin si)); [auto|lia]. }
    assert (QR : forall i, In i (grows r) -> sd i = Ri).
    { intros i Hi. destruct (Q6 i Hi) as (b & Hb & Hg). unfold sd. rewrite (nth_error_nth_eq _ _ 0 Hb).
      unfold side_of. destruct (Nat.eqb_spec b 0); [lia|]. destruct (Nat.ltb_spec b (si_bin si)); [lia|auto]. }
    assert (PP : Permutation rows (grows m ++ grows l ++ grows r)).
    { etransitivity; [exact P|]. etransitivity; [exact Q2|]. rewrite EM, EL, ER.
      replace (skipn u idx) with (skipn (length (grows l)) (skipn (length (grows m)) idx)) by (rewrite skipn_skipn; f_equal; lia).
      rewrite !firstn_skipn. reflexivity. }
    assert (OS : forall d i, on_side (bcol (si_feature si)) (j + 1) d i = match sd i, d with Mi, Mi | Le, Le | Ri, Ri => true | _, _ => false end).
    { intros d i. unfold on_side, sd. rewrite S2. reflexivity. }
    assert (SS : forall d, scnt (si_feature si) (j + 1) d rows = cnt (match d with Mi => grows m | Le => grows l | Ri => grows r end)).
    { intros d. unfold scnt. apply cnt_perm. rewrite (filter_perm _ _ _ PP), !filter_app.
      destruct d.
      - rewrite filter_all, (filter_none _ _ (grows l)), (filter_none _ _ (grows r)), ?app_nil_r; auto;
          intros x Hx; rewrite OS; [rewrite (QR x Hx)|rewrite (QL x Hx)|rewrite (QM x Hx)]; auto.
      - rewrite (filter_none _ _ (grows m)), filter_all, (filter_none _ _ (grows r)), ?app_nil_r; auto;
          intros x Hx; rewrite OS; [rewrite (QR x Hx)|rewrite (QL x Hx)|rewrite (QM x Hx)]; auto.
      - rewrite (filter_none _ _ (grows m)), (filter_none _ _ (grows l)), filter_all, ?app_nil_r; auto;
          intros x Hx; rewrite OS; [rewrite (QR x Hx)|rewrite (QL x Hx)|rewrite (QM x Hx)]; auto. }
    assert (IN : forall i, In i (grows m) \/ In i (grows l) \/ In i (grows r) -> In i rows).
    { intros i Hi. apply (Permutation_in _ (Permutation_sym PP)). rewrite !in_app_iff. auto. }
    assert (RM : rows_in (grows m)) by (intros i Hi; apply HR; auto).
    assert (RL : rows_in (grows l)) by (intros i Hi; apply HR; auto).
    assert (RR : rows_in (grows r)) by (intros i Hi; apply HR; auto).
    assert (SR : cnt rows = cnt (grows m) + cnt (grows l) + cnt (grows r)) by (rewrite (cnt_perm _ _ _ PP), !cnt_app; lia).
    assert (HL : (lay lh /\ counts lh (grows l)) /\ (lay rh /\ counts rh (grows r)) /\ (ml = false -> lay mh /\ counts mh (grows m))).
    { destruct H3 as [B1 B2 H2|B1 B2 B3 B4|B1 B2 B3 B4 _|B1 B2 B3 B4 _].
      - assert (PQ : Permutation rows (grows l ++ grows r)) by (rewrite B1 in PP; auto).
        assert (HL : (lay lh /\ counts lh (grows l)) /\ (lay rh /\ counts rh (grows r))).
        { destruct H2 as [A1 -> _|A1 -> _]; apply hist_of_ok in A1; auto; try lia; split; auto.
          - eapply sub_ok; eauto.
          - eapply sub_ok; eauto. rewrite PQ. apply Permutation_app_comm. }
        destruct HL. split; auto. split; auto. intros Hml. exfalso.
        destruct HM as [[_ HM]|[_ HM]]; rewrite HM in Hml; [|discriminate].
        rewrite B1 in Hml. simpl in Hml. rewrite orb_true_r in Hml. discriminate.
      - apply hist_of_ok in B2; auto; try lia. apply hist_of_ok in B3; auto; try lia. split; auto. split; auto. intros _.
        rewrite B4. eapply two_ok; eauto.
        rewrite PP. rewrite (Permutation_app_comm (grows m)). rewrite <- app_assoc. reflexivity.
      - apply hist_of_ok in B2; auto; try lia. apply hist_of_ok in B3; auto; try lia. split; [|split; auto].
        rewrite B4. eapply two_ok; eauto.
        rewrite PP. apply Permutation_app_head. apply Permutation_app_comm.
      - apply hist_of_ok in B2; auto; try lia. apply hist_of_ok in B3; auto; try lia. split; [auto|split; [|auto]].
        rewrite B4. eapply two_ok; eauto. }
    destruct HL as (HLl & HLr & HLM).
    split; [split; [eapply nth_error_In; eauto|split; [lia|]]|].
    { rewrite S2, Nat.add_sub. auto. }
    split; auto. split; auto. split; auto. split; auto. split; [|split].
    + apply IH0; auto; try lia; unfold sums_ok, hist_ok; rewrite GM'; simpl; auto.
      rewrite Hmi. assert (E : ni_cover (missing_info_of treat n i0) = ni_cover i0) by (destruct treat; auto).
      rewrite E, M2, SS. auto.
    + apply IH1; auto; try lia; unfold sums_ok, hist_ok; rewrite GL'; simpl; auto. rewrite M4, SS. auto.
    + apply IH2; auto; try lia; unfold sums_ok, hist_ok; rewrite GR'; simpl; auto. rewrite M6, SS. auto.
Qed.
End Route.
