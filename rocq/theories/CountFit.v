(** Growing a tree on hessians that are counts: prediction sends every training row to the leaf it was
    counted in, and every node's hessian sum is the count of the rows passing it. *)
From Coq Require Import List Arith NArith Lia Bool Permutation Sorting.
From Verif Require Import Prelude Float FloatLaws Data DataProofs OrdProofs Utils Binning BinningProofs CutProofs BinMatrix
  Histogram HistogramProofs PivotProofs Pivot3Proofs Node Splitter SplitProofs EvalProofs Tree GrowProofs GrowInv
  GrowStep TreeWf TreeProofs FitProofs FitSplits PathProofs RouteX RouteFit CountRoute.
Import ListNotations.
Local Open Scope nat_scope.

(** A tree grown on a binned matrix, with the calls and shapes fit() uses; hessian i is the integer [hn i]. *)
Section Def.
Context {FS : Floats}.
Record counted (T : N) (hn : nat -> nat) (S : Sorts) (data : Matrix F64) (sw : list F64) (nbins : nat) (missing : F64) (bd : BinnedData)
    (s : Splitter) (t : Train) (index : list nat) (sm : SampleMethod) : Prop := mkCounted {
  ct_sort : SortSpec S;
  ct_bin : bin_matrix S data sw nbins missing = Some bd;
  ct_nbins : nbins <> 0;
  ct_nbins_max : (N.of_nat nbins <= 65534)%N;
  ct_shape : length (m_data data) = m_rows data * m_cols data;
  ct_sw : length sw = m_rows data;
  ct_values : forall j x, In x (col_values data sw missing j) -> (x <? fmax f64)%f64 = true;
  ct_weights : forall w, In w sw -> (fzero f64 <=? w)%f64 = true /\ (w <? finf f64)%f64 = true;
  ct_positive : forall j, col_values data sw missing j = [] \/
                  exists w, In w (col_weights data sw missing j) /\ (fzero f64 <? w)%f64 = true;
  ct_data : tr_data t = binned data bd;
  ct_cuts : tr_cuts t = b_cuts bd;
  ct_cols : StronglySorted Nat.lt (tr_cols t);
  ct_cols_max : forall c, In c (tr_cols t) -> c < m_cols data;
  ct_grad : length (tr_grad t) = m_rows data;
  ct_hess : length (tr_hess t) = m_rows data;
  ct_count : forall i, i < m_rows data -> nth i (tr_hess t) (fzero f32) = fofnat f32 (hn i);
  ct_total : (N.of_nat (list_sum (map hn index)) <= T)%N;
  ct_index : forall i, In i index -> i < m_rows data;
  ct_nosample : sm = SNone -> index = seq 0 (m_rows data);
  ct_mlw : (fzero f32 <? sp_min_leaf_weight (params s))%f32 = true
}.
End Def.

(** *** Sums of counts *)
Section Sums.
Context {FS : Floats}.
Variable T : N.
Hypothesis CLW : CountLaws FS T.
Notation c32 n := (fofnat (@f32 FS) n).
Notation c64 n := (fofnat (@f64 FS) n).
Notation small n := (N.of_nat n <= T)%N.

Lemma add_lanes_count : forall acc chunk, length chunk <= length acc -> small (list_sum acc + list_sum chunk) ->
  exists acc', add_lanes (@f64 FS) (map (fun n => c64 n) acc) (map (fun n => c64 n) chunk) = map (fun n => c64 n) acc' /\ length acc' = length acc /\
    list_sum acc' = list_sum acc + list_sum chunk.
Proof.
  induction acc as [|a acc IH]; intros [|c chunk] L B; simpl in *; try lia.
  - exists []. auto.
  - exists (a :: acc). simpl. auto.
  - destruct (IH chunk) as (acc' & -> & L' & S'); [lia|lia|]. exists (a + c :: acc'). simpl.
    rewrite (cl_add64 _ _ CLW) by lia. repeat split; lia.
Qed.
Lemma fold_chunks_count : forall k l acc, length acc = LANES -> small (list_sum acc + list_sum l) -> exists acc' rest,
  fold_chunks (@f64 FS) k (map (fun n => c64 n) l) (map (fun n => c64 n) acc) = (map (fun n => c64 n) acc', map (fun n => c64 n) rest) /\
  list_sum acc' + list_sum rest = list_sum acc + list_sum l.
Proof.
  induction k as [|k IH]; intros l acc L B; cbn [fold_chunks].
  - exists acc, l. auto.
  - rewrite firstn_map, skipn_map.
    assert (Q : list_sum l = list_sum (firstn LANES l) + list_sum (skipn LANES l)) by (rewrite <- list_sum_app, firstn_skipn; auto).
    destruct (add_lanes_count acc (firstn LANES l)) as (acc' & -> & L' & S'); [rewrite L; apply firstn_le_length|lia|].
    destruct (IH (skipn LANES l) acc') as (a2 & rest & -> & S2); [lia|lia|]. exists a2, rest. split; auto. lia.
Qed.
Lemma fold64_count : forall l a, small (a + list_sum l) -> fold_left (fadd (@f64 FS)) (map (fun n => c64 n) l) (c64 a) = c64 (a + list_sum l).
Proof.
  induction l as [|n l IH]; intros a B; simpl in *; [f_equal; lia|].
  rewrite (cl_add64 _ _ CLW) by lia. rewrite IH by lia. f_equal. lia.
Qed.
Lemma fast_f64_sum_count : forall l, small (list_sum l) -> fast_f64_sum (map (fun n => c32 n) l) = c32 (list_sum l).
Proof.
  intros l B. unfold fast_f64_sum.
  assert (E : map (@to64 FS) (map (fun n => c32 n) l) = map (fun n => c64 n) l).
  { rewrite map_map. apply map_ext_in. intros n Hn. apply (cl_to64 _ _ CLW).
    assert (n <= list_sum l); [|lia]. clear -Hn. induction l as [|m l IH]; simpl in *; [tauto|].
    destruct Hn as [->|Hn]; [lia|]. specialize (IH Hn). lia. }
  rewrite E. unfold fast_sum. rewrite map_length.
  replace (repeat (fzero (@f64 FS)) LANES) with (map (fun n => c64 n) (repeat 0 LANES)) by (unfold LANES; cbn [repeat map]; rewrite !(cl_zero64 _ _ CLW); reflexivity).
  assert (Z : list_sum (repeat 0 LANES) = 0) by reflexivity.
  destruct (fold_chunks_count (length l / LANES) l (repeat 0 LANES)) as (acc & rest & -> & S); [reflexivity|lia|].
  unfold fsum. rewrite <- (cl_zero64 _ _ CLW), !fold64_count by lia. rewrite (cl_add64 _ _ CLW) by lia.
  rewrite (cl_to32 _ _ CLW) by lia. f_equal. lia.
Qed.
End Sums.

(** *** Following one row through the ghost tree *)
Section Follow.
Context {FS : Floats}.
Variables (t : Train) (fcols : list (list nat)) (ccols : list (list F64)).
Variable hn : nat -> nat.
Variables (data : Matrix F64) (missing : F64) (index : list nat).
Notation row i := (fun f => m_get data i f).
Hypothesis cell : forall i f, In i index -> In f (tr_cols t) ->
  exists (v : F64) m, m_get data i f = Some v /\ is_missing v missing = Some m /\
    (m = true <-> nth i (fcol fcols f) 0 = 0) /\
    (m = false -> forall k c, nth_error (ccol ccols f) k = Some c ->
       ((nth i (fcol fcols f) 0 < k + 1) <-> (v <? c)%f64 = true)).
Notation routed := (routed t fcols ccols hn).

Lemma follow2 : forall n rows si mr l r i, splits_rows t ccols si rows -> In i index ->
  gpath (GB2 n rows si mr l r) (row i) missing =
  (let* q := gpath (if goes_left (si_bin si) mr (nth i (fcol fcols (si_feature si)) 0) then l else r) (row i) missing in
   Some (sn_num n :: q)).
Proof.
  intros n rows si mr l r i (H1 & H2 & H3) Hi. destruct (cell i _ Hi H1) as (v & m & E1 & E2 & E3 & E4).
  cbn [gpath]. rewrite E1. cbn [bind]. rewrite E2. cbn [bind]. unfold goes_left.
  destruct (Nat.eqb_spec (nth i (fcol fcols (si_feature si)) 0) 0) as [Eb|Eb].
  - assert (m = true) as -> by tauto. destruct mr; reflexivity.
  - assert (m = false) as -> by (destruct m; auto; exfalso; tauto).
    specialize (E4 eq_refl _ _ H3). replace (si_bin si - 1 + 1) with (si_bin si) in E4 by lia.
    destruct (Nat.ltb_spec (nth i (fcol fcols (si_feature si)) 0) (si_bin si)) as [Hl|Hl].
    + rewrite (proj1 E4 Hl). reflexivity.
    + destruct (flt (@f64 FS) v (si_value si)); [|reflexivity]. pose proof (proj2 E4 eq_refl). lia.
Qed.

Lemma follow3 : forall n rows si m l r i, splits_rows t ccols si rows -> In i index ->
  gpath (GB3 n rows si m l r) (row i) missing =
  (let* q := gpath (match side_of (si_bin si) (nth i (fcol fcols (si_feature si)) 0) with Mi => m | Le => l | Ri => r end)
               (row i) missing in
   Some (sn_num n :: q)).
Proof.
  intros n rows si ms l r i (H1 & H2 & H3) Hi. destruct (cell i _ Hi H1) as (v & m & E1 & E2 & E3 & E4).
  cbn [gpath]. rewrite E1. cbn [bind]. rewrite E2. cbn [bind]. unfold side_of.
  destruct (Nat.eqb_spec (nth i (fcol fcols (si_feature si)) 0) 0) as [Eb|Eb].
  - assert (m = true) as -> by tauto. reflexivity.
  - assert (m = false) as -> by (destruct m; auto; exfalso; tauto).
    specialize (E4 eq_refl _ _ H3). replace (si_bin si - 1 + 1) with (si_bin si) in E4 by lia.
    destruct (Nat.ltb_spec (nth i (fcol fcols (si_feature si)) 0) (si_bin si)) as [Hl|Hl].
    + rewrite (proj1 E4 Hl). reflexivity.
    + destruct (flt (@f64 FS) v (si_value si)); [|reflexivity]. pose proof (proj2 E4 eq_refl). lia.
Qed.

Lemma last_cons : forall (a : nat) p d, p <> [] -> last (a :: p) d = last p d.
Proof. intros a [|b p] d H; [congruence|reflexivity]. Qed.

Lemma leaf_reached : forall g, routed g -> incl (grows g) index -> forall n rows i, In (n, rows) (gleaves g) -> In i rows ->
  In i (grows g) /\ exists q, gpath g (row i) missing = Some q /\ last q 0 = sn_num n.
Proof.
  induction g as [n0 rows0|n0 rows0 si mr l IHl r IHr|n0 rows0 si m IHm l IHl r IHr]; intros R IN n rows i HL Hi; simpl in HL.
  - destruct HL as [HL|[]]. injection HL as <- <-. simpl. eauto.
  - destruct R as (_ & SR & P & GLl & GLr & Rl & Rr). simpl in IN.
    assert (Il : incl (grows l) index).
    { intros x Hx. apply IN. apply (Permutation_in _ (Permutation_sym P)). rewrite in_app_iff; auto. }
    assert (Ir : incl (grows r) index).
    { intros x Hx. apply IN. apply (Permutation_in _ (Permutation_sym P)). rewrite in_app_iff; auto. }
    rewrite in_app_iff in HL. cbn [grows]. destruct HL as [HL|HL].
    + destruct (IHl Rl Il _ _ _ HL Hi) as (H1 & q & H2 & H3).
      split; [apply (Permutation_in _ (Permutation_sym P)); rewrite in_app_iff; auto|].
      rewrite follow2, GLl, H2 by auto. cbn [bind]. eexists; split; [reflexivity|].
      rewrite last_cons; auto. eapply gpath_nums; eauto.
    + destruct (IHr Rr Ir _ _ _ HL Hi) as (H1 & q & H2 & H3).
      split; [apply (Permutation_in _ (Permutation_sym P)); rewrite in_app_iff; auto|].
      rewrite follow2, GLr, H2 by auto. cbn [bind]. eexists; split; [reflexivity|].
      rewrite last_cons; auto. eapply gpath_nums; eauto.
  - destruct R as (_ & SR & P & GLm & GLl & GLr & Rm & Rl & Rr). simpl in IN.
    assert (Im : incl (grows m) index).
    { intros x Hx. apply IN. apply (Permutation_in _ (Permutation_sym P)). rewrite !in_app_iff; auto. }
    assert (Il : incl (grows l) index).
    { intros x Hx. apply IN. apply (Permutation_in _ (Permutation_sym P)). rewrite !in_app_iff; auto. }
    assert (Ir : incl (grows r) index).
    { intros x Hx. apply IN. apply (Permutation_in _ (Permutation_sym P)). rewrite !in_app_iff; auto. }
    rewrite !in_app_iff in HL. cbn [grows]. destruct HL as [HL|[HL|HL]].
    + destruct (IHm Rm Im _ _ _ HL Hi) as (H1 & q & H2 & H3).
      split; [apply (Permutation_in _ (Permutation_sym P)); rewrite !in_app_iff; auto|].
      rewrite follow3, GLm, H2 by auto. cbn [bind]. eexists; split; [reflexivity|].
      rewrite last_cons; auto. eapply gpath_nums; eauto.
    + destruct (IHl Rl Il _ _ _ HL Hi) as (H1 & q & H2 & H3).
      split; [apply (Permutation_in _ (Permutation_sym P)); rewrite !in_app_iff; auto|].
      rewrite follow3, GLl, H2 by auto. cbn [bind]. eexists; split; [reflexivity|].
      rewrite last_cons; auto. eapply gpath_nums; eauto.
    + destruct (IHr Rr Ir _ _ _ HL Hi) as (H1 & q & H2 & H3).
      split; [apply (Permutation_in _ (Permutation_sym P)); rewrite !in_app_iff; auto|].
      rewrite follow3, GLr, H2 by auto. cbn [bind]. eexists; split; [reflexivity|].
      rewrite last_cons; auto. eapply gpath_nums; eauto.
Qed.

Definition gpasses (g : gtree) (k i : nat) : bool :=
  match gpath g (row i) missing with Some q => existsb (Nat.eqb k) q | None => false end.

Lemma existsb_eqb : forall k l, existsb (Nat.eqb k) l = true <-> In k l.
Proof.
  intros k l. rewrite existsb_exists. split.
  - intros (x & Hx & E). apply Nat.eqb_eq in E. subst; auto.
  - intros H. exists k. split; auto. apply Nat.eqb_refl.
Qed.

Lemma gpasses_foreign : forall g k i, ~ In k (gnums g) -> gpasses g k i = false.
Proof.
  intros g k i H. unfold gpasses. destruct (gpath g (row i) missing) as [q|] eqn:E; auto.
  apply gpath_nums in E. destruct E as [E _]. destruct (existsb (Nat.eqb k) q) eqn:Ex; auto.
  apply existsb_eqb in Ex. exfalso. apply H, E, Ex.
Qed.

Lemma routed_total : forall g, routed g -> incl (grows g) index -> forall i, In i (grows g) ->
  exists q, gpath g (row i) missing = Some q.
Proof.
  induction g as [n0 rows0|n0 rows0 si mr l IHl r IHr|n0 rows0 si m IHm l IHl r IHr]; intros R IN i Hi; [simpl; eauto| |].
  - destruct R as (_ & SR & P & GLl & GLr & Rl & Rr). simpl in IN, Hi.
    rewrite follow2 by auto. apply (Permutation_in _ P) in Hi. rewrite in_app_iff in Hi. destruct Hi as [Hi|Hi].
    + rewrite GLl by auto. destruct (IHl Rl) with (i := i) as [q Hq]; auto; [|rewrite Hq; simpl; eauto].
      intros x Hx. apply IN, (Permutation_in _ (Permutation_sym P)). rewrite in_app_iff; auto.
    + rewrite GLr by auto. destruct (IHr Rr) with (i := i) as [q Hq]; auto; [|rewrite Hq; simpl; eauto].
      intros x Hx. apply IN, (Permutation_in _ (Permutation_sym P)). rewrite in_app_iff; auto.
  - destruct R as (_ & SR & P & GLm & GLl & GLr & Rm & Rl & Rr). simpl in IN, Hi.
    rewrite follow3 by auto. apply (Permutation_in _ P) in Hi. rewrite !in_app_iff in Hi. destruct Hi as [Hi|[Hi|Hi]].
    + rewrite GLm by auto. destruct (IHm Rm) with (i := i) as [q Hq]; auto; [|rewrite Hq; simpl; eauto].
      intros x Hx. apply IN, (Permutation_in _ (Permutation_sym P)). rewrite !in_app_iff; auto.
    + rewrite GLl by auto. destruct (IHl Rl) with (i := i) as [q Hq]; auto; [|rewrite Hq; simpl; eauto].
      intros x Hx. apply IN, (Permutation_in _ (Permutation_sym P)). rewrite !in_app_iff; auto.
    + rewrite GLr by auto. destruct (IHr Rr) with (i := i) as [q Hq]; auto; [|rewrite Hq; simpl; eauto].
      intros x Hx. apply IN, (Permutation_in _ (Permutation_sym P)). rewrite !in_app_iff; auto.
Qed.

Lemma passes_step : forall g c k i n, sn_num n <> k ->
  gpath g (row i) missing = (let* q := gpath c (row i) missing in Some (sn_num n :: q)) ->
  gpasses g k i = gpasses c k i.
Proof.
  intros g c k i n Hk E. unfold gpasses. rewrite E. destruct (gpath c (row i) missing); auto. simpl.
  destruct (Nat.eqb_spec k (sn_num n)); [congruence|]. reflexivity.
Qed.

Lemma node_rows : forall g, routed g -> NoDup (gnums g) -> incl (grows g) index -> forall x, In x (gall g) ->
  Permutation (grows x) (filter (gpasses g (gnum x)) (grows g)).
Proof.
  assert (SELF : forall g, routed g -> incl (grows g) index ->
            Permutation (grows g) (filter (gpasses g (gnum g)) (grows g))).
  { intros g R IN. rewrite filter_all; auto. intros i Hi. destruct (routed_total g R IN i Hi) as [q Hq].
    unfold gpasses. rewrite Hq. apply existsb_eqb. eapply gpath_nums; eauto. }
  induction g as [n0 rows0|n0 rows0 si mr l IHl r IHr|n0 rows0 si m IHm l IHl r IHr]; intros R ND IN x Hx.
  - destruct Hx as [<-|[]]. apply SELF; auto.
  - cbn [gall] in Hx. destruct Hx as [<-|Hx]; [apply SELF; auto|].
    destruct R as (_ & SR & P & GLl & GLr & Rl & Rr). cbn [grows] in IN |- *.
    assert (Il : incl (grows l) index).
    { intros y Hy. apply IN. apply (Permutation_in _ (Permutation_sym P)). rewrite in_app_iff; auto. }
    assert (Ir : incl (grows r) index).
    { intros y Hy. apply IN. apply (Permutation_in _ (Permutation_sym P)). rewrite in_app_iff; auto. }
    cbn [gnums] in ND. inversion ND as [|? ? N1 N2]; subst. apply NoDup_app_iff in N2. destruct N2 as (N2 & N3 & N4).
    rewrite in_app_iff in N1.
    assert (FL : forall k, sn_num n0 <> k -> forall i, In i (grows l) -> gpasses (GB2 n0 rows0 si mr l r) k i = gpasses l k i).
    { intros k Hk i Hi. apply (passes_step _ _ _ _ n0); auto. rewrite follow2, GLl by auto. reflexivity. }
    assert (FR : forall k, sn_num n0 <> k -> forall i, In i (grows r) -> gpasses (GB2 n0 rows0 si mr l r) k i = gpasses r k i).
    { intros k Hk i Hi. apply (passes_step _ _ _ _ n0); auto. rewrite follow2, GLr by auto. reflexivity. }
    etransitivity; [|apply Permutation_sym, filter_perm, P]. rewrite filter_app.
    rewrite in_app_iff in Hx. destruct Hx as [Hx|Hx].
    + assert (Hn : In (gnum x) (gnums l)) by (rewrite <- gall_nums; apply in_map; auto).
      rewrite (filter_ext_in _ _ _ (FL (gnum x) ltac:(intros E; apply N1; rewrite E; auto))).
      rewrite (filter_none _ _ (grows r)); [rewrite app_nil_r; auto|].
      intros i Hi. rewrite FR; auto; [|intros E; apply N1; rewrite E; auto]. apply gpasses_foreign. eauto.
    + assert (Hn : In (gnum x) (gnums r)) by (rewrite <- gall_nums; apply in_map; auto).
      rewrite (filter_ext_in _ _ _ (FR (gnum x) ltac:(intros E; apply N1; rewrite E; auto))).
      rewrite (filter_none _ _ (grows l)); [simpl; auto|].
      intros i Hi. rewrite FL; auto; [|intros E; apply N1; rewrite E; auto]. apply gpasses_foreign. eauto.
  - cbn [gall] in Hx. destruct Hx as [<-|Hx]; [apply SELF; auto|].
    destruct R as (_ & SR & P & GLm & GLl & GLr & Rm & Rl & Rr). cbn [grows] in IN |- *.
    assert (Im : incl (grows m) index).
    { intros y Hy. apply IN. apply (Permutation_in _ (Permutation_sym P)). rewrite !in_app_iff; auto. }
    assert (Il : incl (grows l) index).
    { intros y Hy. apply IN. apply (Permutation_in _ (Permutation_sym P)). rewrite !in_app_iff; auto. }
    assert (Ir : incl (grows r) index).
    { intros y Hy. apply IN. apply (Permutation_in _ (Permutation_sym P)). rewrite !in_app_iff; auto. }
    cbn [gnums] in ND. inversion ND as [|? ? N1 N2]; subst. apply NoDup_app_iff in N2. destruct N2 as (N2 & N3 & N4).
    apply NoDup_app_iff in N3. destruct N3 as (N3 & N5 & N6).
    rewrite !in_app_iff in N1.
    assert (FM : forall k, sn_num n0 <> k -> forall i, In i (grows m) -> gpasses (GB3 n0 rows0 si m l r) k i = gpasses m k i).
    { intros k Hk i Hi. apply (passes_step _ _ _ _ n0); auto. rewrite follow3, GLm by auto. reflexivity. }
    assert (FL : forall k, sn_num n0 <> k -> forall i, In i (grows l) -> gpasses (GB3 n0 rows0 si m l r) k i = gpasses l k i).
    { intros k Hk i Hi. apply (passes_step _ _ _ _ n0); auto. rewrite follow3, GLl by auto. reflexivity. }
    assert (FR : forall k, sn_num n0 <> k -> forall i, In i (grows r) -> gpasses (GB3 n0 rows0 si m l r) k i = gpasses r k i).
    { intros k Hk i Hi. apply (passes_step _ _ _ _ n0); auto. rewrite follow3, GLr by auto. reflexivity. }
    etransitivity; [|apply Permutation_sym, filter_perm, P]. rewrite !filter_app.
    assert (N4l : forall k, In k (gnums m) -> ~ In k (gnums l)) by (intros k H1 H2; apply (N4 k); auto; rewrite in_app_iff; auto).
    assert (N4r : forall k, In k (gnums m) -> ~ In k (gnums r)) by (intros k H1 H2; apply (N4 k); auto; rewrite in_app_iff; auto).
    rewrite !in_app_iff in Hx. destruct Hx as [Hx|[Hx|Hx]].
    + assert (Hn : In (gnum x) (gnums m)) by (rewrite <- gall_nums; apply in_map; auto).
      assert (Hne : sn_num n0 <> gnum x) by (intros E; apply N1; rewrite E; auto).
      rewrite (filter_ext_in _ _ _ (FM (gnum x) Hne)).
      rewrite (filter_none _ _ (grows r)); [|intros i Hi; rewrite FR; auto; apply gpasses_foreign; auto].
      rewrite (filter_none _ _ (grows l)); [|intros i Hi; rewrite FL; auto; apply gpasses_foreign; auto].
      rewrite !app_nil_r; auto.
    + assert (Hn : In (gnum x) (gnums l)) by (rewrite <- gall_nums; apply in_map; auto).
      assert (Hne : sn_num n0 <> gnum x) by (intros E; apply N1; rewrite E; auto).
      rewrite (filter_ext_in _ _ _ (FL (gnum x) Hne)).
      rewrite (filter_none _ _ (grows r)); [|intros i Hi; rewrite FR; auto; apply gpasses_foreign; eauto].
      rewrite (filter_none _ _ (grows m)); [|intros i Hi; rewrite FM; auto; apply gpasses_foreign; intros E; eapply N4l; eauto].
      rewrite app_nil_r; simpl; auto.
    + assert (Hn : In (gnum x) (gnums r)) by (rewrite <- gall_nums; apply in_map; auto).
      assert (Hne : sn_num n0 <> gnum x) by (intros E; apply N1; rewrite E; auto).
      rewrite (filter_ext_in _ _ _ (FR (gnum x) Hne)).
      rewrite (filter_none _ _ (grows m)); [|intros i Hi; rewrite FM; auto; apply gpasses_foreign; intros E; eapply N4r; eauto].
      rewrite (filter_none _ _ (grows l)); [|intros i Hi; rewrite FL; auto; apply gpasses_foreign; intros E; eapply N6; eauto].
      simpl; auto.
Qed.

Lemma routed_node : forall g, routed g -> forall x, In x (gall g) ->
  sums_ok hn (groot x) (grows x) /\ hist_ok t fcols ccols hn (groot x) (grows x).
Proof.
  induction g as [n0 rows0|n0 rows0 si mr l IHl r IHr|n0 rows0 si m IHm l IHl r IHr]; intros R x Hx; cbn [gall] in Hx.
  - destruct Hx as [<-|[]]. apply R.
  - destruct Hx as [<-|Hx]; [apply R|]. destruct R as (_ & _ & _ & _ & _ & Rl & Rr).
    rewrite in_app_iff in Hx. destruct Hx; auto.
  - destruct Hx as [<-|Hx]; [apply R|]. destruct R as (_ & _ & _ & _ & _ & _ & Rm & Rl & Rr).
    rewrite !in_app_iff in Hx. destruct Hx as [Hx|[Hx|Hx]]; auto.
Qed.
Lemma routed_sums : forall g, routed g -> forall x, In x (gall g) -> sums_ok hn (groot x) (grows x).
Proof. intros g R x Hx. apply (routed_node g R x Hx). Qed.
End Follow.

(** *** The fitted tree *)
Section Thms.
Context {FS : Floats}.
Variable OL : OrdLaws (@f64 FS).
Variable NL : NonnegLaws (@f64 FS).
Hypothesis zero_nan : fisnan f64 (fzero (@f64 FS)) = false.
Hypothesis max_nan : fisnan f64 (fmax (@f64 FS)) = false.
Variable T : N.
Hypothesis CLW : CountLaws FS T.
Variable hn : nat -> nat.
Variables (S : Sorts) (data : Matrix F64) (sw : list F64) (nbins : nat) (missing : F64) (bd : BinnedData).
Variables (policy : GrowPolicy) (pick : pick_fn) (s : Splitter) (t : Train) (index : list nat).
Variables (max_leaves max_depth : nat) (sm : SampleMethod).
Hypothesis TD : counted T hn S data sw nbins missing bd s t index sm.

Lemma root_sums_ok : forall root, root_node s t index sm = Some root -> sums_ok hn root index.
Proof.
  intros root HR. unfold root_node in HR. inv_bind HR. destruct v as [[gs hs] so]. inv_bind HR. injection HR as <-.
  unfold sums_ok. simpl. pose proof (ct_total _ _ _ _ _ _ _ _ _ _ _ _ TD) as B. pose proof (ct_count _ _ _ _ _ _ _ _ _ _ _ _ TD) as HC.
  pose proof (ct_hess _ _ _ _ _ _ _ _ _ _ _ _ TD) as LH.
  assert (FF : sm = SNone -> fast_f64_sum (tr_hess t) = fofnat f32 (CountRoute.cnt hn index)).
  { intros HS. pose proof (ct_nosample _ _ _ _ _ _ _ _ _ _ _ _ TD HS) as EI. unfold CountRoute.cnt.
    rewrite <- (fast_f64_sum_count T CLW) by auto. f_equal. rewrite map_map. subst index.
    apply nth_ext with (d := fzero f32) (d' := fofnat f32 (hn (m_rows data))); [rewrite map_length, seq_length; auto|].
    intros n Hn. rewrite (map_nth (fun i => fofnat f32 (hn i)) (seq 0 (m_rows data)) (m_rows data) n).
    rewrite seq_nth by lia. apply HC. lia. }
  assert (SS : forall g, mapM (nth_error (tr_hess t)) index = Some g -> to32 (fsum (@f64 FS) (map to64 g)) = fofnat f32 (CountRoute.cnt hn index)).
  { intros g Hg.
    assert (Eg : g = map (fun i => nth i (tr_hess t) (fzero f32)) index).
    { assert (GA : mapM (nth_error (tr_hess t)) index = Some (map (fun i => nth i (tr_hess t) (fzero f32)) index)).
      { apply gather. intros i Hi. apply (ct_index _ _ _ _ _ _ _ _ _ _ _ _ TD) in Hi. rewrite LH. exact Hi. }
      rewrite Hg in GA. injection GA as ->. reflexivity. }
    subst g. unfold CountRoute.cnt.
    assert (E2 : map to64 (map (fun i => nth i (tr_hess t) (fzero f32)) index) = map (fun n => fofnat (@f64 FS) n) (map hn index)).
    { rewrite !map_map. apply map_ext_in. intros i Hi. rewrite HC by (apply (ct_index _ _ _ _ _ _ _ _ _ _ _ _ TD); auto).
      apply (cl_to64 _ _ CLW). assert (hn i <= list_sum (map hn index)); [|lia].
      clear -Hi. induction index as [|m l IH]; simpl in *; [tauto|]. destruct Hi as [->|Hi]; [lia|]. specialize (IH Hi). lia. }
    rewrite E2. unfold fsum. rewrite <- (cl_zero64 _ _ CLW), (fold64_count T CLW) by lia.
    rewrite (cl_to32 _ _ CLW) by lia. reflexivity. }
  unfold root_sums in E. destruct sm eqn:Esm.
  - injection E as <- <- <-. apply FF. auto.
  - inv_bind E. inv_bind E. injection E as <- <- <-. eapply SS; eauto.
  - inv_bind E. inv_bind E. injection E as <- <- <-. eapply SS; eauto.
Qed.

Lemma fit_routed_in : forall nodes st, tree_fit policy pick s t index max_leaves max_depth sm = Some (nodes, st) ->
  exists root g fcols ccols, root_node s t index sm = Some root /\ INV s t max_depth root index st g /\
    routed t fcols ccols hn g /\ agrees s nodes g /\ length nodes = length (gnums g) /\ NoDup (gnums g) /\
    (forall row, full_path nodes row missing = gpath g row missing) /\
    (forall i f, In i index -> In f (tr_cols t) ->
      exists (v : F64) m, m_get data i f = Some v /\ is_missing v missing = Some m /\
        (m = true <-> nth i (fcol fcols f) 0 = 0) /\
        (m = false -> forall k c, nth_error (ccol ccols f) k = Some c ->
           (nth i (fcol fcols f) 0 < k + 1 <-> (v <? c)%f64 = true))).
Proof.
  intros nodes st H. destruct (fit_agrees _ _ _ _ _ _ _ _ _ _ H) as (root & g & HR & I & AG & LN & G0 & ND & FP).
  pose proof TD as [SS HB NB NBM LD LW HV HW HP TDd TDc CS CM LG LH HC HT HIX NS MP].
  assert (HV' : forall j x, In x (col_values data sw missing j) -> fle (@f64 FS) x (fmax (@f64 FS)) = true).
  { intros j x Hx. apply (o_lt_le _ OL). apply (HV j x Hx). }
  destruct (bin_hist_inputs OL S data sw nbins missing bd (tr_grad t) (tr_hess t) (tr_cols t)) as (fcols & ccols & HI & CL);
    auto.
  exists root, g, fcols, ccols. split; auto. split; auto.
  assert (HI' : hist_inputs (tr_data t) (tr_cuts t) (tr_grad t) (tr_hess t) (tr_cols t) fcols ccols) by (rewrite TDd, TDc; auto).
  assert (R : routed t fcols ccols hn g).
  { assert (NN : forall k, k <= nbins + 2 -> (N.of_nat k <= 65536)%N) by lia.
    assert (HN : forall i, i < m_rows (tr_data t) -> nth i (tr_hess t) (fzero f32) = fofnat f32 (hn i)) by (rewrite TDd; auto).
    assert (RI : rows_in t index) by (intros i Hi; rewrite TDd; apply HIX; auto).
    eapply (gvalid_routed T CLW s t max_depth fcols ccols HI'); auto.
    - apply (iv_valid _ _ _ _ _ _ _ I).
    - rewrite (iv_grows _ _ _ _ _ _ _ I). auto.
    - rewrite (iv_grows _ _ _ _ _ _ _ I). auto.
    - rewrite (iv_root _ _ _ _ _ _ _ I), (iv_grows _ _ _ _ _ _ _ I). apply root_sums_ok; auto.
    - intros _. rewrite (iv_root _ _ _ _ _ _ _ I), (iv_grows _ _ _ _ _ _ _ I).
      assert (RH : sn_hist root = hist_spec (tr_data t) (tr_cuts t) (tr_grad t) (tr_hess t) (tr_cols t) fcols ccols index).
      { eapply (root_hist s t index sm fcols ccols HI'); auto. intros HS. rewrite TDd. auto. }
      rewrite RH. split; [eapply layout_spec; eauto|eapply counts_spec; eauto]. }
  split; auto. split; auto. split; auto. split; auto. split; auto.
  intros i f Hi Hf.
  eapply (bin_cell_raw OL NL zero_nan S data sw nbins missing bd _ _ _ fcols ccols i f); eauto.
Qed.

(** C20 *)
Theorem fit_routes : forall nodes st, tree_fit policy pick s t index max_leaves max_depth sm = Some (nodes, st) ->
  Permutation index (g_index st) /\
  exists ranges, tiles ranges 0 (length index) /\ NoDup (map fst ranges) /\
    (forall i, In i (map fst ranges) <-> exists n, nth_error nodes i = Some n /\ n_is_leaf n = true) /\
    forall k a b pos i, In (k, (a, b)) ranges -> (a <= pos < b) -> nth_error (g_index st) pos = Some i ->
      exists n, predict_leaf nodes data i missing = Some n /\ n_num n = k.
Proof.
  intros nodes st H.
  destruct (fit_routed_in _ _ H) as (root & g & fcols & ccols & HR & I & R & AG & LN & ND & FP & CELL).
  pose proof (fit_well_formed _ _ _ _ _ _ _ _ _ _ H) as WF.
  split; [apply (iv_index _ _ _ _ _ _ _ I)|].
  exists (map range_of (gleaves g)). split; [apply chain_tiles, (iv_chain _ _ _ _ _ _ _ I)|].
  split; [|split].
  - rewrite map_map. simpl. apply gleaves_nodup. auto.
  - intros i. rewrite map_map. simpl. rewrite in_map_iff. split.
    + intros ((n, rows) & E & Hin). simpl in E. apply gleaves_gall in Hin.
      destruct (AG _ Hin) as (m & E1 & E2). unfold gnum in E1. simpl in E1. rewrite E in E1. exists m. split; auto.
      apply reweighted_eq in E2. destruct E2 as (_ & _ & _ & _ & _ & _ & _ & _ & _ & E2 & _). rewrite E2. simpl.
      pose proof (gall_valid _ _ _ _ (iv_valid _ _ _ _ _ _ _ I) _ Hin) as V. inversion V; auto.
    + intros (n & E1 & E2).
      assert (Hin : In i (gnums g)).
      { pose proof (iv_nums _ _ _ _ _ _ _ I) as P. apply (Permutation_in _ (Permutation_sym P)). apply in_seq.
        apply Permutation_length in P. rewrite seq_length in P. apply nth_error_Some_lt in E1. lia. }
      destruct (gall_by_num _ _ Hin) as (x & Hx & Ex). destruct (AG _ Hx) as (m & E3 & E4). rewrite Ex, E1 in E3. injection E3 as <-.
      apply reweighted_eq in E4. destruct E4 as (_ & _ & _ & _ & _ & _ & _ & _ & _ & E4 & _).
      pose proof (gall_valid _ _ _ _ (iv_valid _ _ _ _ _ _ _ I) _ Hx) as V.
      destruct (gnode_facts s t max_depth x V) as (_ & _ & _ & _ & F & _). rewrite <- E4, E2 in F.
      destruct (proj1 F eq_refl) as (n' & rows & ->). exists (n', rows). split; auto. apply gleaves_gall; auto.
  - intros k a b pos i Hk Hpos Hi. apply in_map_iff in Hk. destruct Hk as ((n, rows) & E & Hin).
    unfold range_of in E. simpl in E. injection E as <- <- <-.
    destruct (iv_rows _ _ _ _ _ _ _ I _ _ Hin) as (sub & HS & HP).
    assert (Hsub : In i sub).
    { pose proof (slice_Some _ _ _ HS) as (S1 & S2 & S3 & _).
      assert (nth_error sub (pos - sn_start n) = Some i).
      { rewrite (slice_nth _ _ _ HS) by lia. rewrite <- Hi. f_equal. lia. }
      eapply nth_error_In; eauto. }
    apply (Permutation_in _ (Permutation_sym HP)) in Hsub.
    destruct (leaf_reached t fcols ccols hn data missing index CELL g R) with (n := n) (rows := rows) (i := i) as (_ & q & Q1 & Q2); auto.
    { rewrite (iv_grows _ _ _ _ _ _ _ I). apply incl_refl. }
    pose proof (path_walk nodes (fun f => m_get data i f) missing (wf_num _ WF) (length nodes) 0) as PW.
    unfold full_path in FP. rewrite FP, Q1 in PW. destruct PW as (n' & W1 & W2).
    exists n'. split; auto. congruence.
Qed.

(** C21 *)
Theorem fit_cover : forall nodes st, tree_fit policy pick s t index max_leaves max_depth sm = Some (nodes, st) ->
  forall k n, nth_error nodes k = Some n ->
  n_hess n = fofnat f32 (list_sum (map hn (filter (fun i => passes nodes (fun f => m_get data i f) missing k) index))).
Proof.
  intros nodes st H k n Hk.
  destruct (fit_routed_in _ _ H) as (root & g & fcols & ccols & HR & I & R & AG & LN & ND & FP & CELL).
  assert (Hin : In k (gnums g)).
  { pose proof (iv_nums _ _ _ _ _ _ _ I) as P. apply (Permutation_in _ (Permutation_sym P)). apply in_seq.
    apply Permutation_length in P. rewrite seq_length in P. apply nth_error_Some_lt in Hk. lia. }
  destruct (gall_by_num _ _ Hin) as (x & Hx & Ex). destruct (AG _ Hx) as (m & E3 & E4). rewrite Ex, Hk in E3. injection E3 as <-.
  apply reweighted_eq in E4. destruct E4 as (_ & E4 & _).
  pose proof (gall_valid _ _ _ _ (iv_valid _ _ _ _ _ _ _ I) _ Hx) as V.
  destruct (gnode_facts s t max_depth x V) as (_ & _ & F & _). rewrite E4, F.
  pose proof (routed_sums _ _ _ _ _ R _ Hx) as SO. rewrite SO. f_equal.
  apply cnt_perm. pose proof (node_rows t fcols ccols hn data missing index CELL g R ND) as NR.
  rewrite (iv_grows _ _ _ _ _ _ _ I) in NR. specialize (NR (incl_refl _) x Hx).
  etransitivity; [exact NR|]. rewrite Ex.
  apply Permutation_refl'. apply filter_ext. intros i. unfold gpasses, passes. rewrite FP. reflexivity.
Qed.

End Thms.
