(** Dump, importances, routing of missing values (any float arithmetic). *)
From Coq Require Import List Arith Lia Bool Permutation String.
From Verif Require Import Prelude Float Data DataProofs Utils Binning Histogram HistogramProofs Node Splitter Tree TreeWf PathProofs
  Objective Metric Sampler Contrib Booster PredictProofs ContribProofs.
Import ListNotations.

Section ImportG.
Context {FS : Floats}.

(** *** C40 *)
Definition inodes_all (xs : list itree) : list Node := flat_map inodes xs.
Lemma dump_loop_reps : forall nodes fuel xs out, (forall x, In x xs -> reps nodes x) ->
  List.length (inodes_all xs) <= fuel -> dump_loop fuel nodes (map inum xs) out = Some (out ++ inodes_all xs).
Proof.
  intros nodes. induction fuel as [|f IH]; intros xs out R L.
  - destruct xs as [|x xs]; simpl.
    + rewrite app_nil_r. reflexivity.
    + exfalso. simpl in L. rewrite app_length in L. destruct x; simpl in L; lia.
  - destruct xs as [|x xs]; cbn [map dump_loop].
    + simpl. rewrite app_nil_r. reflexivity.
    + pose proof (R x (or_introl eq_refl)) as RX. rewrite (reps_root _ _ RX). cbn [bind].
      assert (RR : forall y, In y xs -> reps nodes y) by (intros; apply R; right; auto).
      destruct x as [n|n mr l r|n m l r]; simpl in RX; cbn [iroot].
      * destruct RX as [_ ->]. rewrite IH; auto. { simpl. rewrite <- app_assoc. reflexivity. } simpl in L. lia.
      * destruct RX as (H1 & H2 & H3 & H4 & H5 & H6 & H7). rewrite H2, (has_missing_IB2 n mr l r H3 H4 H5), H3, H4.
        change (inum l :: inum r :: map inum xs) with (map inum (l :: r :: xs)). rewrite IH.
        -- simpl. rewrite <- !app_assoc. reflexivity.
        -- intros y [<-|[<-|Hy]]; auto.
        -- simpl in L |- *. rewrite !app_length in *. lia.
      * destruct RX as (H1 & H2 & H3 & H4 & H5 & H6 & H7 & H8 & H9 & H10). rewrite H2, (has_missing_IB3 n H6 H7), H3, H4, H5.
        change (inum m :: inum l :: inum r :: map inum xs) with (map inum (m :: l :: r :: xs)). rewrite IH.
        -- simpl. rewrite <- !app_assoc. reflexivity.
        -- intros y [<-|[<-|[<-|Hy]]]; auto.
        -- simpl in L |- *. rewrite !app_length in *. lia.
Qed.

Lemma dump_inodes : forall nodes x, well_formed nodes -> reps nodes x -> inum x = 0 -> tree_dump nodes = Some (inodes x).
Proof.
  intros nodes x W R R0. unfold tree_dump. change [0] with (map (fun n : nat => n) [0]). rewrite <- R0 at 1.
  change (map (fun n : nat => n) [inum x]) with (map inum [x]). rewrite dump_loop_reps.
  - simpl. rewrite app_nil_r. reflexivity.
  - intros y [<-|[]]. auto.
  - simpl. rewrite app_nil_r, (reps_size _ W _ R R0). auto.
Qed.

Lemma inodes_perm : forall nodes x, well_formed nodes -> reps nodes x -> inum x = 0 -> Permutation (inodes x) nodes.
Proof.
  intros nodes x W R R0. pose proof (reps_all _ W _ R R0) as P. unfold inums in P.
  assert (E : forall ns, (forall n, In n ns -> nth_error nodes (n_num n) = Some n) -> ns = map (fun k => match nth_error nodes k with Some n => n | None => iroot x end) (map n_num ns)).
  { induction ns as [|n ns IH]; intros H; simpl; auto. rewrite (H n (or_introl eq_refl)). f_equal. apply IH. intros; apply H; right; auto. }
  rewrite (E (inodes x)) by (intros n Hn; eapply reps_in; eauto).
  rewrite P. apply Permutation_refl'. clear. 
  assert (G : forall pre l, map (fun k => match nth_error (pre ++ l) k with Some n => n | None => iroot x end) (seq (List.length pre) (List.length l)) = l).
  { intros pre l. revert pre. induction l as [|a l IH]; intros pre; simpl; auto. rewrite nth_error_app2, Nat.sub_diag by lia. simpl. f_equal.
    specialize (IH (pre ++ [a])). rewrite <- app_assoc, app_length in IH. simpl in IH. rewrite Nat.add_1_r in IH. exact IH. }
  apply (G [] nodes).
Qed.

Lemma isubs_block : forall x y, In y (isubs x) -> exists a b, inodes x = a ++ inodes y ++ b.
Proof.
  induction x as [n|n mr l IHl r IHr|n m IHm l IHl r IHr]; intros y Hy.
  - destruct Hy as [<-|[]]. exists [], []. rewrite app_nil_r. reflexivity.
  - destruct Hy as [<-|Hy]; [exists [], []; rewrite app_nil_r; reflexivity|]. apply in_app_iff in Hy. destruct Hy as [Hy|Hy].
    + destruct (IHl y Hy) as (a & b & E). exists (n :: a), (b ++ inodes r). simpl. rewrite E, <- !app_assoc. reflexivity.
    + destruct (IHr y Hy) as (a & b & E). exists (n :: inodes l ++ a), b. simpl. rewrite E, <- !app_assoc. reflexivity.
  - destruct Hy as [<-|Hy]; [exists [], []; rewrite app_nil_r; reflexivity|]. rewrite !in_app_iff in Hy. destruct Hy as [Hy|[Hy|Hy]].
    + destruct (IHm y Hy) as (a & b & E). exists (n :: a), (b ++ inodes l ++ inodes r). simpl. rewrite E, <- !app_assoc. reflexivity.
    + destruct (IHl y Hy) as (a & b & E). exists (n :: inodes m ++ a), (b ++ inodes r). simpl. rewrite E, <- !app_assoc. reflexivity.
    + destruct (IHr y Hy) as (a & b & E). exists (n :: inodes m ++ inodes l ++ a), b. simpl. rewrite E, <- !app_assoc. reflexivity.
Qed.
Lemma iroot_in : forall x, exists b, inodes x = iroot x :: b.
Proof. intros []; simpl; eauto. Qed.

Theorem dump_lines : forall nodes, well_formed nodes -> exists out, tree_dump nodes = Some out /\ Permutation out nodes /\
  (forall p c np nc, nth_error nodes p = Some np -> n_is_leaf np = false -> c = n_left np \/ c = n_right np \/ c = n_missing np ->
     nth_error nodes c = Some nc -> n_depth nc = n_depth np + 1 /\ exists a b d, out = a ++ np :: b ++ nc :: d).
Proof.
  intros nodes W. destruct (reps_exists nodes W) as (x & R & R0). exists (inodes x).
  split; [apply dump_inodes; auto|]. split; [apply inodes_perm; auto|].
  intros p c np nc Hp HL Hc Hn. split.
  { assert (IC : In c (children np)) by (unfold children; simpl; clear - Hc; intuition auto).
    destruct (wf_child _ W p np c Hp HL IC) as [_ (m & Hm & D)]. congruence. }
  destruct (reps_subtree nodes x W R R0 p np Hp) as (y & Hy & Ey & Ry & RY).
  destruct (isubs_block x y Hy) as (a & b & E).
  assert (CH : exists z u v, reps nodes z /\ inum z = c /\ inodes y = np :: u ++ inodes z ++ v).
  { destruct y as [n0|n0 mr l r|n0 m l r]; simpl in Ry; subst n0; simpl in RY.
    - destruct RY as [_ Q]. congruence.
    - destruct RY as (H1 & H2 & H3 & H4 & H5 & H6 & H7). simpl.
      assert (c = inum l \/ c = inum r) as [->| ->] by (destruct mr; intuition congruence).
      + exists l, [], (inodes r). auto.
      + exists r, (inodes l), []. rewrite app_nil_r. auto.
    - destruct RY as (H1 & H2 & H3 & H4 & H5 & H6 & H7 & H8 & H9 & H10). simpl.
      destruct Hc as [->|[->| ->]].
      + exists l, (inodes m), (inodes r). auto.
      + exists r, (inodes m ++ inodes l), []. rewrite app_nil_r, <- app_assoc. auto.
      + exists m, [], (inodes l ++ inodes r). auto. }
  destruct CH as (z & u & v & RZ & <- & EZ). destruct (iroot_in z) as [w Ew].
  rewrite (reps_root _ _ RZ) in Hn. injection Hn as <-.
  exists a, u, (w ++ v ++ b). rewrite E, EZ, Ew. simpl. rewrite <- !app_assoc. simpl. rewrite <- app_assoc. reflexivity.
Qed.

(** *** C39 *)
(** the split nodes in the order the importance recursion visits them *)
Fixpoint isplits (x : itree) : list Node :=
  match x with
  | IL _ => []
  | IB2 n _ l r => n :: isplits l ++ isplits r
  | IB3 n m l r => n :: isplits l ++ isplits r ++ isplits m
  end.
Definition add_node (stat : Node -> F32) (s : Stats) (n : Node) : Stats := stats_add (n_split_feature n) (stat n) s.

Lemma node_stats_reps : forall stat nodes x, reps nodes x -> forall fuel s, iheight x < fuel ->
  node_stats fuel stat nodes (inum x) s = Some (fold_left (add_node stat) (isplits x) s).
Proof.
  intros stat nodes. induction x as [n|n mr l IHl r IHr|n m IHm l IHl r IHr]; intros H fuel s Hf;
    (destruct fuel as [|fuel]; [lia|]); cbn [node_stats]; rewrite (reps_root _ _ H); cbn [bind iroot]; simpl in H, Hf.
  - destruct H as [_ ->]. reflexivity.
  - destruct H as (H1 & H2 & H3 & H4 & H5 & H6 & H7). rewrite H2, (has_missing_IB2 n mr l r H3 H4 H5), H3, H4. 
    rewrite IHl by (auto; lia). cbn [bind]. rewrite IHr by (auto; lia). cbn [bind]. simpl. rewrite fold_left_app. reflexivity.
  - destruct H as (H1 & H2 & H3 & H4 & H5 & H6 & H7 & H8 & H9 & H10). rewrite H2, (has_missing_IB3 n H6 H7), H3, H4, H5.
    rewrite IHl by (auto; lia). cbn [bind]. rewrite IHr by (auto; lia). cbn [bind]. rewrite IHm by (auto; lia). simpl. rewrite !fold_left_app. reflexivity.
Qed.

Lemma filter_app2 : forall A (f : A -> bool) a b, filter f (a ++ b) = filter f a ++ filter f b.
Proof. induction a as [|x a IH]; simpl; intros; auto. destruct (f x); simpl; rewrite IH; auto. Qed.
Lemma isplits_perm : forall nodes x, reps nodes x -> Permutation (isplits x) (filter (fun n => negb (n_is_leaf n)) (inodes x)).
Proof.
  intros nodes. induction x as [n|n mr l IHl r IHr|n m IHm l IHl r IHr]; intros H; simpl in H; simpl.
  - destruct H as [_ ->]. auto.
  - destruct H as (H1 & H2 & H3 & H4 & H5 & H6 & H7). rewrite H2. simpl. constructor. rewrite filter_app2. apply Permutation_app; auto.
  - destruct H as (H1 & H2 & H3 & H4 & H5 & H6 & H7 & H8 & H9 & H10). rewrite H2. simpl. constructor. rewrite !filter_app2.
    rewrite (Permutation_app_comm (filter _ (inodes m))). rewrite <- app_assoc. repeat apply Permutation_app; auto.
Qed.

(** all splits of a tree *)
Definition split_nodes (t : list Node) : list Node := filter (fun n => negb (n_is_leaf n)) t.
Lemma Permutation_filter2 : forall A (f : A -> bool) a b, Permutation a b -> Permutation (filter f a) (filter f b).
Proof.
  intros A f a b H. induction H; simpl; auto.
  - destruct (f x); auto.
  - destruct (f x), (f y); auto. apply perm_swap.
  - etransitivity; eauto.
Qed.

Lemma all_stats_visits : forall stat ts, (forall t, In t ts -> well_formed t) -> exists vs,
  all_stats stat ts = Some (fold_left (add_node stat) vs []) /\ Permutation vs (flat_map split_nodes ts).
Proof.
  intros stat ts. unfold all_stats. generalize (@nil (nat * (F32 * nat))) as s0. induction ts as [|t ts IH]; intros s0 W; simpl.
  - exists []. auto.
  - destruct (reps_exists t (W t (or_introl eq_refl))) as (x & R & R0).
    assert (NS := node_stats_reps stat t x R (List.length t) s0). rewrite R0 in NS. rewrite NS by (rewrite <- (reps_size _ (W t (or_introl eq_refl)) _ R R0); apply iheight_size). cbn [bind].
    destruct (IH (fold_left (add_node stat) (isplits x) s0) (fun t Ht => W t (or_intror Ht))) as (vs & E & P).
    exists (isplits x ++ vs). rewrite fold_left_app. split; auto. apply Permutation_app; auto.
    rewrite (isplits_perm t x R). apply Permutation_filter2. apply inodes_perm; auto. apply W. left; auto.
Qed.

Fixpoint lookup (k : nat) (s : Stats) : option (F32 * nat) :=
  match s with [] => None | (k', v) :: r => if k =? k' then Some v else lookup k r end.
Lemma stats_add_keys : forall k v s, map fst (stats_add k v s) = if existsb (Nat.eqb k) (map fst s) then map fst s else map fst s ++ [k].
Proof.
  intros k v. induction s as [|[k' [x c]] s IH]; simpl; auto. destruct (Nat.eqb_spec k k'); simpl; auto.
  rewrite IH. destruct (existsb _ _); reflexivity.
Qed.
Lemma stats_add_lookup : forall k v s j, lookup j (stats_add k v s) =
  if j =? k then Some (match lookup k s with Some (x, c) => ((x + v)%f32, c + 1) | None => (v, 1) end) else lookup j s.
Proof.
  intros k v. induction s as [|[k' [x c]] s IH]; intros j; simpl.
  - destruct (j =? k); reflexivity.
  - destruct (Nat.eqb_spec k k') as [<-|NE]; simpl.
    + destruct (j =? k); reflexivity.
    + rewrite IH. destruct (Nat.eqb_spec j k'); subst; auto. destruct (Nat.eqb_spec k' k); [lia|reflexivity].
Qed.

Definition on_feature (k : nat) (vs : list Node) : list Node := filter (fun n => n_split_feature n =? k) vs.
(** sum of a statistic in the order of the list, starting from the first value *)
Definition sum_from_first (l : list F32) : F32 := match l with [] => fzero f32 | a :: r => fold_left (fadd f32) r a end.

Lemma fold_stats : forall stat vs, NoDup (map fst (fold_left (add_node stat) vs [])) /\
  forall k, lookup k (fold_left (add_node stat) vs []) =
    match on_feature k vs with [] => None | ns => Some (sum_from_first (map stat ns), List.length ns) end.
Proof.
  intros stat vs. induction vs as [|n vs IH] using rev_ind.
  - simpl. split; [constructor|auto].
  - rewrite fold_left_app. simpl. set (s := fold_left (add_node stat) vs []) in *. destruct IH as [ND LK]. unfold add_node. split.
    + rewrite stats_add_keys. destruct (existsb _ _) eqn:E; auto.
      apply NoDup_Add with (a := n_split_feature n) (l := map fst s).
      * pose proof (Add_app (n_split_feature n) (map fst s) []) as AA. rewrite app_nil_r in AA. exact AA.
      * split; auto. intros Q. rewrite <- not_true_iff_false in E. apply E. apply existsb_exists. eexists. split; [eauto|apply Nat.eqb_refl].
    + intros k. rewrite stats_add_lookup, !LK. unfold on_feature. rewrite filter_app2. simpl. rewrite (Nat.eqb_sym (n_split_feature n)).
      destruct (Nat.eqb_spec k (n_split_feature n)) as [->|NE].
      * destruct (filter _ vs) as [|a l] eqn:E; simpl; auto.
        rewrite map_app, fold_left_app. simpl. rewrite app_length. simpl. reflexivity.
      * rewrite app_nil_r. reflexivity.
Qed.

(** *** C58 *)
(** missing: NaN if the marker is NaN, else equal to the marker *)
Definition cell_missing (missing v : F64) : bool := if fisnan f64 missing then fisnan f64 v else (v =? missing)%f64.
Theorem child_spec : forall n v missing,
  (fisnan f64 missing = false -> fisnan f64 v = true -> get_child_idx n v missing = None) /\
  (valid_cell missing v -> get_child_idx n v missing =
     Some (if cell_missing missing v then n_missing n else if (v <? n_split_value n)%f64 then n_left n else n_right n)).
Proof.
  intros n v missing. unfold get_child_idx, is_missing, cell_missing. split.
  - intros -> ->. reflexivity.
  - intros [H|H]; rewrite H; simpl; auto. destruct (fisnan f64 missing); reflexivity.
Qed.

(** two rows whose cells are equal, or missing in both, reach the same leaf *)
Definition same_cell (missing : F64) (a b : option F64) : Prop :=
  a = b \/ exists u v, a = Some u /\ b = Some v /\ valid_cell missing u /\ valid_cell missing v /\ cell_missing missing u = true /\ cell_missing missing v = true.
Theorem missing_pattern : forall nodes missing row row', (forall f, same_cell missing (row f) (row' f)) ->
  forall fuel i, walk fuel nodes row missing i = walk fuel nodes row' missing i.
Proof.
  intros nodes missing row row' H. induction fuel as [|f IH]; intros i; simpl; auto.
  destruct (nth_error nodes i) as [n|]; cbn [bind]; auto. destruct (n_is_leaf n); auto.
  destruct (H (n_split_feature n)) as [->|(u & v & -> & -> & Vu & Vv & Mu & Mv)].
  - destruct (row' (n_split_feature n)); cbn [bind]; auto. destruct (get_child_idx _ _ _); cbn [bind]; auto.
  - cbn [bind]. rewrite (proj2 (child_spec n u missing) Vu), (proj2 (child_spec n v missing) Vv), Mu, Mv. cbn [bind]. auto.
Qed.
(** with a marker that is a number, a NaN met on the way makes the walk panic *)
Theorem nan_rejected : forall nodes missing row fuel i l, fisnan f64 missing = false -> path fuel nodes row missing i = Some l ->
  forall k n v, In k l -> nth_error nodes k = Some n -> n_is_leaf n = false -> row (n_split_feature n) = Some v -> fisnan f64 v = false.
Proof.
  intros nodes missing row. induction fuel as [|f IH]; intros i l HM H k n v Hk Hn HL Hv; cbn [path] in H; [discriminate|].
  inv_bind H. destruct (n_is_leaf v0) eqn:EL.
  - injection H as <-. destruct Hk as [<-|[]]. congruence.
  - inv_bind H. inv_bind H. inv_bind H. injection H as <-. destruct Hk as [<-|Hk].
    + assert (v0 = n) by congruence. subst v0. assert (v1 = v) by congruence. subst v1.
      destruct (fisnan f64 v) eqn:EN; auto. rewrite (proj1 (child_spec n v missing) HM EN) in E1. discriminate.
    + eapply IH; eauto.
Qed.
(** on each step of the path the child follows the cell *)
Theorem path_follows : forall nodes missing row fuel i l, path fuel nodes row missing i = Some l ->
  forall a b, In (a, b) (steps l) -> exists n v, nth_error nodes a = Some n /\ row (n_split_feature n) = Some v /\
    b = if cell_missing missing v then n_missing n else if (v <? n_split_value n)%f64 then n_left n else n_right n.
Proof.
  intros nodes missing row. induction fuel as [|f IH]; intros i l H a b Hs; cbn [path] in H; [discriminate|].
  inv_bind H. destruct (n_is_leaf v); [injection H as <-; destruct Hs|].
  inv_bind H. inv_bind H. inv_bind H. injection H as <-. destruct (path_head _ _ _ _ _ _ E2) as [r ->]. unfold steps in Hs. cbn [tl combine] in Hs. destruct Hs as [Hs|Hs].
  - injection Hs as <- <-. exists v, v0. split; auto. split; auto.
    assert (VC : valid_cell missing v0).
    { unfold valid_cell. destruct (fisnan f64 missing) eqn:E3; auto. destruct (fisnan f64 v0) eqn:E4; auto.
      rewrite (proj1 (child_spec v v0 missing) E3 E4) in E1. discriminate. }
    rewrite (proj2 (child_spec v v0 missing) VC) in E1. congruence.
  - eapply IH; eauto.
Qed.
End ImportG.

Section Importance.
Context {FS : Floats}.

Lemma lookup_in : forall (s : @Stats FS), NoDup (map fst s) -> forall k v, In (k, v) s <-> lookup k s = Some v.
Proof.
  induction s as [|[k' v'] s IH]; simpl; intros ND k v; [split; [tauto|discriminate]|]. inversion ND; subst.
  destruct (Nat.eqb_spec k k') as [->|NE].
  - split; [intros [H|H]|intros H]; try (left; congruence); try congruence. exfalso. apply H1. change k' with (fst (k', v)). apply in_map; auto.
  - rewrite <- IH by auto. split; [intros [H|H]; congruence|auto].
Qed.

(** what [calculate_feature_importance] reports for feature k, given the splits in visiting order *)
Definition importance_of (m : ImportanceMethod) (ns : list Node) : F32 :=
  match m with
  | IWeight => sum_from_first (map (fun _ => fone f32) ns)
  | IGain => (sum_from_first (map n_split_gain ns) / fofnat f32 (List.length ns))%f32
  | ITotalGain => sum_from_first (map n_split_gain ns)
  | ICover => (sum_from_first (map n_hess ns) / fofnat f32 (List.length ns))%f32
  | ITotalCover => sum_from_first (map n_hess ns)
  end.

Theorem importance_raw : forall b m, (forall t, In t (gb_trees b) -> well_formed t) ->
  exists imp vs, calculate_feature_importance b m false = Some imp /\ Permutation vs (flat_map split_nodes (gb_trees b)) /\
    NoDup (map fst imp) /\
    forall k v, In (k, v) imp <-> on_feature k vs <> [] /\ v = importance_of m (on_feature k vs).
Proof.
  intros b m W. unfold calculate_feature_importance. destruct (importance_stat m) as [avg stat] eqn:ES.
  destruct (all_stats_visits stat (gb_trees b) W) as (vs & -> & P). cbn [bind].
  set (s := fold_left (add_node stat) vs []). destruct (fold_stats stat vs) as [ND LK]. fold s in ND, LK.
  exists (map (fun '(k, (v, c)) => (k, if avg : bool then (v / fofnat f32 c)%f32 else v)) s), vs. split; auto. split; auto. split.
  - rewrite map_map. erewrite map_ext; [exact ND|]. intros [k [v c]]. reflexivity.
  - intros k v. rewrite in_map_iff. split.
    + intros ([k' [x c]] & E & HIn). injection E as <- <-. apply (lookup_in s ND) in HIn. rewrite LK in HIn.
      destruct (on_feature k' vs) as [|n ns] eqn:EF; [discriminate|]. injection HIn as <- <-. split; [discriminate|].
      destruct m; simpl in ES; injection ES as <- <-; reflexivity.
    + intros [NE ->]. exists (k, (sum_from_first (map stat (on_feature k vs)), List.length (on_feature k vs))). split.
      * f_equal. destruct m; simpl in ES; injection ES as <- <-; reflexivity.
      * apply (lookup_in s ND). rewrite LK. destruct (on_feature k vs); [tauto|reflexivity].
Qed.

(** normalising divides every value by the sum of the values in ascending order *)
Theorem importance_normalised : forall b m imp, calculate_feature_importance b m false = Some imp ->
  calculate_feature_importance b m true =
    (let* sorted := sort_f32 (map snd imp) in Some (map (fun '(k, v) => (k, (v / fsum f32 sorted)%f32)) imp)) /\
  (forall sorted, sort_f32 (map snd imp) = Some sorted -> Permutation sorted (map snd imp)) /\
  (1 < List.length imp -> (exists k v, In (k, v) imp /\ fisnan f32 v = true) -> calculate_feature_importance b m true = None).
Proof.
  intros b m imp H. unfold calculate_feature_importance in *. destruct (importance_stat m) as [avg stat].
  inv_bind H. injection H as <-. rewrite E. cbn [bind]. set (imp := map _ v). split; [reflexivity|]. split.
  - intros sorted Hs. unfold sort_f32 in Hs. destruct (_ && _); [discriminate|]. injection Hs as <-.
    generalize (map snd imp). induction l as [|a l IH]; simpl; auto.
    assert (INS : forall x l, Permutation (insert_f32 x l) (x :: l)).
    { intros x. induction l0 as [|y l0 IHl]; simpl; auto. destruct (_ <? _)%f32; auto. rewrite IHl. apply perm_swap. }
    rewrite INS. auto.
  - intros L (k & x & HIn & NaN). unfold sort_f32. rewrite map_length.
    replace (1 <? List.length imp) with true by (symmetry; apply Nat.ltb_lt; auto).
    replace (existsb (fisnan f32) (map snd imp)) with true; auto. symmetry. apply existsb_exists. exists x. split; auto.
    change x with (snd (k, x)). apply in_map; auto.
Qed.
End Importance.
