(** Explanations are linear in the weights: multiplying every node weight by a number multiplies the contributions,
    the partial dependences and the averages they rest on; the covers are not touched. *)
From Coq Require Import List Arith Lia Bool.
From Verif Require Import Prelude Float Data Utils Histogram HistogramProofs Node Splitter Tree Objective Metric Sampler Contrib Booster PredictProofs ContribProofs.
Import ListNotations.

Lemma bind_map : forall A B C (x : option A) (f : A -> B) (k : B -> option C), bind (option_map f x) k = bind x (fun v => k (f v)).
Proof. intros A B C [v|] f k; reflexivity. Qed.
Lemma map_bind : forall A B C (x : option A) (k : A -> option B) (g : B -> C), option_map g (bind x k) = bind x (fun v => option_map g (k v)).
Proof. intros A B C [v|] k g; reflexivity. Qed.
Lemma bind_ext : forall A B (x : option A) (k k' : A -> option B), (forall v, x = Some v -> k v = k' v) -> bind x k = bind x k'.
Proof. intros A B [v|] k k' H; simpl; auto. Qed.
Lemma foldM_sim : forall A B S (f f' : S -> A -> option S) (h : B -> A) (g : S -> S) l s,
  (forall s x, In x l -> f' (g s) x = option_map g (f s x)) -> foldM f' l (g s) = option_map g (foldM f l s).
Proof.
  intros A B S f f' h g. induction l as [|x l IH]; intros s H; [reflexivity|]. simpl. rewrite H by (left; reflexivity). rewrite bind_map, map_bind.
  apply bind_ext. intros v _. apply IH. intros; apply H. right; auto.
Qed.
Lemma mapM_sim : forall A B (f f' : A -> option B) (g : B -> B) l, (forall x, In x l -> f' x = option_map g (f x)) -> mapM f' l = option_map (map g) (mapM f l).
Proof.
  intros A B f f' g. induction l as [|x l IH]; intros H; [reflexivity|]. simpl. rewrite H by (left; reflexivity).
  rewrite IH by (intros; apply H; right; auto). destruct (f x); simpl; auto. destruct (mapM f l); reflexivity.
Qed.

(** one function per position *)
Fixpoint mapi {A} (f : nat -> A -> A) (k : nat) (l : list A) : list A := match l with [] => [] | x :: r => f k x :: mapi f (S k) r end.
Lemma mapi_length : forall A (f : nat -> A -> A) l k, length (mapi f k l) = length l.
Proof. induction l; intros; simpl; auto. Qed.
Lemma mapi_nth : forall A (f : nat -> A -> A) l k i, nth_error (mapi f k l) i = option_map (f (k + i)) (nth_error l i).
Proof.
  induction l as [|x l IH]; intros k [|i]; simpl; auto. rewrite Nat.add_0_r. reflexivity.
  rewrite IH. replace (S k + i) with (k + S i) by lia. reflexivity.
Qed.
Lemma mapi_update : forall A (f : nat -> A -> A) l k i v, update (mapi f k l) i (f (k + i) v) = option_map (mapi f k) (update l i v).
Proof.
  induction l as [|x l IH]; intros k [|i] v; simpl; auto. rewrite Nat.add_0_r. reflexivity.
  replace (k + S i) with (S k + i) by lia. rewrite IH. destruct (update l i v); reflexivity.
Qed.
Lemma mapi_app : forall A (f : nat -> A -> A) l r k, mapi f k (l ++ r) = mapi f k l ++ mapi f (k + length l) r.
Proof. induction l as [|x l IH]; intros r k; simpl. rewrite Nat.add_0_r. reflexivity. rewrite IH, <- plus_n_Sm. reflexivity. Qed.
Lemma mapi_ext : forall A (f g : nat -> A -> A) l k j, (forall i x, i < length l -> f (k + i) x = g (j + i) x) -> mapi f k l = mapi g j l.
Proof.
  induction l as [|x l IH]; intros k j H; simpl; auto. f_equal.
  - specialize (H 0 x). rewrite !Nat.add_0_r in H. apply H. simpl; lia.
  - apply IH. intros i y L. replace (S k + i) with (k + S i) by lia. replace (S j + i) with (j + S i) by lia. apply H. simpl; lia.
Qed.
(** rows of n cells, one after the other *)
Lemma mapi_rows : forall A (f : nat -> A -> A) n rows k, n <> 0 -> (forall r, In r rows -> length r = n) ->
  concat (map (mapi f 0) rows) = mapi (fun j => f (j mod n)) (k * n) (concat rows).
Proof.
  intros A f n rows. induction rows as [|r rows IH]; intros k N H; simpl; auto. rewrite mapi_app. f_equal.
  - apply mapi_ext. intros i x L. rewrite H in L by (left; auto). rewrite Nat.add_0_l, Nat.add_comm, Nat.mod_add, Nat.mod_small by auto. reflexivity.
  - rewrite (H r) by (left; auto). replace (k * n + n) with (S k * n) by lia. apply IH; auto. intros; apply H; right; auto.
Qed.

Section Linear.
Context {FS : Floats}.
Variables (s32 : F32 -> F32) (s64 : F64 -> F64) (sg : F32 -> F32).
Hypothesis S_to : forall x, to64 (s32 x) = s64 (to64 x).
Hypothesis S_z32 : s32 (fzero f32) = fzero f32.
Hypothesis S_z64 : s64 (fzero f64) = fzero f64.
Hypothesis S_a32 : forall x y, s32 (x + y)%f32 = (s32 x + s32 y)%f32.
Hypothesis S_s32 : forall x y, s32 (x - y)%f32 = (s32 x - s32 y)%f32.
Hypothesis S_l32 : forall x h, s32 (x * h)%f32 = (s32 x * h)%f32.
Hypothesis S_r32 : forall h x, s32 (h * x)%f32 = (h * s32 x)%f32.
Hypothesis S_d32 : forall x h, s32 (x / h)%f32 = (s32 x / h)%f32.
Hypothesis S_a64 : forall x y, s64 (x + y)%f64 = (s64 x + s64 y)%f64.
Hypothesis S_s64 : forall x y, s64 (x - y)%f64 = (s64 x - s64 y)%f64.
Hypothesis S_r64 : forall h x, s64 (h * x)%f64 = (h * s64 x)%f64.
Hypothesis S_d64 : forall x h, s64 (x / h)%f64 = (s64 x / h)%f64.

(** The node with another weight and gain. *)
Definition sn (n : Node) : Node := mkNode (n_num n) (s32 (n_weight n)) (n_hess n) (n_depth n) (n_split_value n) (n_split_feature n) (sg (n_split_gain n))
  (n_missing n) (n_left n) (n_right n) (n_is_leaf n).
Lemma nth_sn : forall nodes i, nth_error (map sn nodes) i = option_map sn (nth_error nodes i).
Proof. intros. apply nth_error_map. Qed.
Lemma child_sn : forall n v missing, get_child_idx (sn n) v missing = get_child_idx n v missing.
Proof. reflexivity. Qed.
Lemma branch_sn : forall n, has_missing_branch (sn n) = has_missing_branch n.
Proof. reflexivity. Qed.

Ltac look := rewrite ?nth_sn, ?bind_map, ?map_bind; apply bind_ext; intros.

(** What happens to the cells of a row of contributions: a function per cell that turns additions of d into
    additions of s64 d. *)
Section Cells.
Variable fi : nat -> F64 -> F64.
Hypothesis FI : forall i x d, fi i (x + d)%f64 = (fi i x + s64 d)%f64.
Notation M := (mapi fi 0).

Lemma add_at_M : forall c i d, add_at (M c) i (s64 d) = option_map M (add_at c i d).
Proof.
  intros c i d. unfold add_at. rewrite mapi_nth. rewrite Nat.add_0_l. destruct (nth_error c i) as [x|]; simpl; auto.
  rewrite <- FI. apply (mapi_update _ fi c 0 i).
Qed.
Lemma add_bias_M : forall c d, add_bias (M c) (s64 d) = option_map M (add_bias c d).
Proof. intros c d. unfold add_bias. rewrite mapi_length. destruct (length c); auto. apply add_at_M. Qed.

Lemma walk_M : forall nodes row missing delta delta', (forall i n ch, delta' i (sn n) ch = option_map (option_map s64) (delta i n ch)) ->
  forall fuel i c, contrib_walk fuel (map sn nodes) row missing delta' i (M c) =
    option_map (fun nc => (sn (fst nc), M (snd nc))) (contrib_walk fuel nodes row missing delta i c).
Proof.
  intros nodes row missing delta delta' D. induction fuel as [|fuel IH]; intros i c; [reflexivity|]. simpl. rewrite nth_sn, bind_map, map_bind.
  apply bind_ext. intros n _. change (n_is_leaf (sn n)) with (n_is_leaf n). destruct (n_is_leaf n); [reflexivity|].
  change (n_split_feature (sn n)) with (n_split_feature n). rewrite map_bind. apply bind_ext. intros v _. rewrite child_sn, map_bind. apply bind_ext. intros ch _.
  rewrite D, bind_map, map_bind. apply bind_ext. intros d _. destruct d as [d|]; simpl.
  - rewrite add_at_M, bind_map, map_bind. apply bind_ext. intros c' _. apply IH.
  - apply IH.
Qed.

Lemma weight_M : forall nodes row missing c, contrib_weight (map sn nodes) row missing (M c) = option_map M (contrib_weight nodes row missing c).
Proof.
  intros nodes row missing c. unfold contrib_weight. rewrite map_length. look. cbn [sn n_weight]. rewrite S_to, add_bias_M. look.
  rewrite (walk_M nodes row missing
     (fun _ n ch => let* m := nth_error nodes ch in Some (Some (to64 (n_weight m) - to64 (n_weight n))%f64))); [look; destruct v1; reflexivity|].
  intros i n ch. look. simpl. rewrite !S_to, S_s64. reflexivity.
Qed.
Lemma other_sn : forall n ch, other_child (sn n) ch = other_child n ch.
Proof. reflexivity. Qed.
Lemma midpoint_M : forall nodes row missing c, contrib_midpoint_difference (map sn nodes) row missing (M c) = option_map M (contrib_midpoint_difference nodes row missing c).
Proof.
  intros nodes row missing c. unfold contrib_midpoint_difference. rewrite map_length.
  rewrite (walk_M nodes row missing
     (fun _ n ch =>
        let* m := nth_error nodes ch in
        if has_missing_branch n && (ch =? n_missing n) then Some None
        else
          let* o := nth_error nodes (other_child n ch) in
          let mid := ((n_weight m * n_hess m + n_weight o * n_hess o) / (n_hess m + n_hess o))%f32 in
          Some (Some (to64 (n_weight m - mid)%f32)))); [look; destruct v; reflexivity|].
  intros i n ch. look. rewrite branch_sn. change (n_missing (sn n)) with (n_missing n).
  destruct (has_missing_branch n && (ch =? n_missing n)); [reflexivity|]. rewrite other_sn. look. simpl.
  rewrite <- S_to, S_s32, S_d32, S_a32, !S_l32. reflexivity.
Qed.
Lemma branch_M : forall nodes row missing c, contrib_branch_difference (map sn nodes) row missing (M c) = option_map M (contrib_branch_difference nodes row missing c).
Proof.
  intros nodes row missing c. unfold contrib_branch_difference. rewrite map_length.
  rewrite (walk_M nodes row missing
     (fun _ n ch =>
        if has_missing_branch n && (ch =? n_missing n) then Some None
        else
          let* o := nth_error nodes (other_child n ch) in
          let* m := nth_error nodes ch in
          Some (Some (to64 (n_weight m - n_weight o)%f32)))); [look; destruct v; reflexivity|].
  intros i n ch. rewrite branch_sn. change (n_missing (sn n)) with (n_missing n).
  destruct (has_missing_branch n && (ch =? n_missing n)); [reflexivity|]. rewrite other_sn. look. look. simpl.
  rewrite <- S_to, S_s32. reflexivity.
Qed.
Lemma mode_M : forall nodes row missing c, contrib_mode_difference (map sn nodes) row missing (M c) = option_map M (contrib_mode_difference nodes row missing c).
Proof.
  intros nodes row missing c. unfold contrib_mode_difference. rewrite map_length.
  rewrite (walk_M nodes row missing
     (fun _ n ch =>
        if has_missing_branch n && (ch =? n_missing n) then Some None
        else
          let* l := nth_error nodes (n_left n) in
          let* r := nth_error nodes (n_right n) in
          let* m := nth_error nodes ch in
          Some (Some (to64
            (if (n_hess l =? n_hess r)%f32 then fzero f32
             else if (n_hess r <? n_hess l)%f32 then (n_weight m - n_weight l)%f32
             else (n_weight m - n_weight r)%f32))))); [look; destruct v; reflexivity|].
  intros i n ch. rewrite branch_sn. change (n_missing (sn n)) with (n_missing n).
  destruct (has_missing_branch n && (ch =? n_missing n)); [reflexivity|].
  change (n_left (sn n)) with (n_left n). change (n_right (sn n)) with (n_right n). look. look. look. simpl.
  rewrite <- S_to. destruct (n_hess v =? n_hess v0)%f32; [rewrite S_z32; reflexivity|].
  destruct (n_hess v0 <? n_hess v)%f32; rewrite S_s32; reflexivity.
Qed.

(** the averages *)
Lemma avg_sn : forall nodes fuel i, average_leaf_weights fuel (map sn nodes) i = option_map s64 (average_leaf_weights fuel nodes i).
Proof.
  intros nodes. induction fuel as [|fuel IH]; intros i; [reflexivity|]. simpl. look. change (n_is_leaf (sn v)) with (n_is_leaf v).
  destruct (n_is_leaf v); [simpl; rewrite S_to; reflexivity|]. change (n_left (sn v)) with (n_left v). change (n_right (sn v)) with (n_right v).
  look. look. rewrite !IH. look. look. rewrite branch_sn. destruct (has_missing_branch v).
  - change (n_missing (sn v)) with (n_missing v). rewrite ?IH. rewrite ?nth_sn, ?bind_map. destruct (nth_error nodes (n_missing v)) as [m|]; simpl; auto.
    destruct (average_leaf_weights fuel nodes (n_missing v)) as [wm|]; simpl; auto. rewrite S_d64, !S_a64, !S_r64. reflexivity.
  - simpl. rewrite S_d64, S_a64, !S_r64. reflexivity.
Qed.
Lemma update_map : forall (l : list F64) i v, update (map s64 l) i (s64 v) = option_map (map s64) (update l i v).
Proof. induction l as [|x l IH]; intros [|i] v; simpl; auto. rewrite IH. destruct (update l i v); reflexivity. Qed.
Notation P := (fun r : F64 * list F64 => (s64 (fst r), map s64 (snd r))).
Lemma distribute_sn : forall nodes fuel i ws, distribute fuel (map sn nodes) i (map s64 ws) = option_map P (distribute fuel nodes i ws).
Proof.
  intros nodes. induction fuel as [|fuel IH]; intros i ws; [reflexivity|]. simpl. look. change (n_is_leaf (sn v)) with (n_is_leaf v).
  destruct (n_is_leaf v); [simpl; rewrite S_to, update_map; look; reflexivity|]. change (n_left (sn v)) with (n_left v). change (n_right (sn v)) with (n_right v).
  look. look. rewrite IH. look. destruct v2 as [wl ws1]. cbn [fst snd]. rewrite IH. look. destruct v2 as [wr ws2]. cbn [fst snd].
  rewrite branch_sn. change (n_missing (sn v)) with (n_missing v). change (n_hess (sn v)) with (n_hess v).
  change (n_hess (sn v0)) with (n_hess v0). change (n_hess (sn v1)) with (n_hess v1).
  destruct (has_missing_branch v).
  - rewrite ?nth_sn, ?bind_map. destruct (nth_error nodes (n_missing v)) as [m|]; [|reflexivity]. cbn [bind]. rewrite IH, bind_map.
    destruct (distribute fuel nodes (n_missing v) ws2) as [[wm ws3]|]; [|reflexivity]. cbn [bind fst snd option_map].
    change (n_hess (sn m)) with (n_hess m). rewrite <- !S_r64, <- !S_a64, <- S_d64, update_map. look. reflexivity.
  - cbn [bind]. rewrite <- !S_r64, <- !S_a64, <- S_d64, update_map. look. reflexivity.
Qed.
Lemma leaf_weights_sn : forall nodes, distribute_leaf_weights (map sn nodes) = option_map (map s64) (distribute_leaf_weights nodes).
Proof.
  intros nodes. unfold distribute_leaf_weights. rewrite map_length.
  replace (repeat (fzero f64) (length nodes)) with (map s64 (repeat (fzero f64) (length nodes))) at 1.
  - rewrite distribute_sn. look. destruct v; reflexivity.
  - induction (length nodes); simpl; congruence.
Qed.
Lemma average_M : forall nodes row ws missing c, contrib_average (map sn nodes) row (map s64 ws) missing (M c) = option_map M (contrib_average nodes row ws missing c).
Proof.
  intros nodes row ws missing c. unfold contrib_average. rewrite map_length, nth_error_map. look. rewrite add_bias_M. look.
  rewrite (walk_M nodes row missing
     (fun i _ ch =>
        let* wi := nth_error ws i in
        let* wc := nth_error ws ch in
        Some (Some (wc - wi)%f64))); [look; destruct v1; reflexivity|].
  intros i n ch. rewrite !nth_error_map. look. look. simpl. rewrite S_s64. reflexivity.
Qed.

(** Shapley values: the path does not see the weights *)
Lemma leaf_M : forall is d w p c, leaf_contribs is d (s32 w) p (M c) = option_map M (leaf_contribs is d w p c).
Proof.
  induction is as [|i is IH]; intros d w p c; [reflexivity|]. simpl. look. look. rewrite <- S_r32, S_to, add_at_M. look. apply IH.
Qed.
Lemma shap_M : forall nodes row missing fuel i d p z o f c,
  tree_shap fuel (map sn nodes) row missing i d p z o f (M c) = option_map M (tree_shap fuel nodes row missing i d p z o f c).
Proof.
  intros nodes row missing. induction fuel as [|fuel IH]; intros i d p z o f c; [reflexivity|]. simpl. look. look. change (n_is_leaf (sn v)) with (n_is_leaf v).
  destruct (n_is_leaf v); [apply leaf_M|]. change (n_split_feature (sn v)) with (n_split_feature v). look. rewrite child_sn. look. look.
  look. destruct v4 as [[[iz io] p'] d'].
  change (get_hot_cold_children v2 (sn v)) with (get_hot_cold_children v2 v).
  apply (foldM_sim _ (nat * nat) _ _ _ (fun x => x) M). intros c' [j ci] _. look. apply IH.
Qed.
Lemma shapley_M : forall nodes row missing c, contrib_shapley (map sn nodes) row missing (M c) = option_map M (contrib_shapley nodes row missing c).
Proof. intros nodes row missing c. unfold contrib_shapley. rewrite map_length, avg_sn. look. rewrite add_bias_M. look. apply shap_M. Qed.

Lemma method_M : forall m f, row_method m = Some f -> forall nodes row missing c, f (map sn nodes) row missing (M c) = option_map M (f nodes row missing c).
Proof.
  intros m f H. destruct m; try discriminate; injection H as <-; [apply weight_M|apply branch_M|apply midpoint_M|apply mode_M|apply shapley_M].
Qed.
End Cells.

(** partial dependence *)
Lemma pd_sn : forall nodes feature value missing fuel i prop,
  partial_dependence fuel (map sn nodes) i feature value prop missing = option_map s64 (partial_dependence fuel nodes i feature value prop missing).
Proof.
  intros nodes feature value missing. induction fuel as [|fuel IH]; intros i prop; [reflexivity|]. simpl. look. change (n_is_leaf (sn v)) with (n_is_leaf v).
  destruct (n_is_leaf v); [simpl; rewrite <- S_to, S_r32; reflexivity|]. change (n_split_feature (sn v)) with (n_split_feature v).
  destruct (n_split_feature v =? feature); [rewrite child_sn; look; apply IH|]. change (n_left (sn v)) with (n_left v). change (n_right (sn v)) with (n_right v).
  look. look. rewrite branch_sn. change (n_missing (sn v)) with (n_missing v). change (n_hess (sn v0)) with (n_hess v0). change (n_hess (sn v1)) with (n_hess v1).
  destruct (has_missing_branch v).
  - rewrite ?nth_sn, ?bind_map. destruct (nth_error nodes (n_missing v)) as [m|]; [|reflexivity]. cbn [bind]. change (n_hess (sn m)) with (n_hess m).
    rewrite !IH. look. look. look. simpl. rewrite !S_a64. reflexivity.
  - cbn [bind]. rewrite !IH. look. look. simpl. rewrite !S_a64, S_z64. reflexivity.
Qed.
Lemma fsum_s : forall l, fsum f64 (map s64 l) = s64 (fsum f64 l).
Proof.
  intros l. unfold fsum. rewrite <- S_z64 at 1. generalize (fzero f64). induction l as [|x l IH]; intros z; simpl; auto. rewrite <- S_a64. apply IH.
Qed.
Lemma par_sum_s : forall sh l, par_sum sh (map s64 l) = s64 (par_sum sh l).
Proof.
  induction sh as [|k u IHu v IHv]; intros l; simpl; [apply fsum_s|]. rewrite firstn_map, skipn_map, IHu, IHv, S_a64. reflexivity.
Qed.

(** importances: only the gains change *)
Lemma stats_sn : forall (stat stat' : Node -> F32) (h : F32 -> F32), (forall n, stat' (sn n) = h (stat n)) -> (forall x y, h (x + y)%f32 = (h x + h y)%f32) ->
  let H := map (fun '(k, (v, c)) => (k, (h v, c))) in
  (forall k v s, stats_add k (h v) (H s) = H (stats_add k v s)) /\
  forall fuel nodes i s, node_stats fuel stat' (map sn nodes) i (H s) = option_map H (node_stats fuel stat nodes i s).
Proof.
  intros stat stat' h HS HA H.
  assert (SA : forall k v (s : Stats), stats_add k (h v) (H s) = H (stats_add k v s)).
  { intros k v. induction s as [|[k' [x c]] s IH]; [reflexivity|]. simpl. destruct (k =? k'); simpl; [rewrite HA; reflexivity|]. f_equal. apply IH. }
  split; [exact SA|]. induction fuel as [|fuel IH]; intros nodes i s; [reflexivity|]. simpl. look. change (n_is_leaf (sn v)) with (n_is_leaf v).
  destruct (n_is_leaf v); [reflexivity|]. change (n_left (sn v)) with (n_left v). change (n_right (sn v)) with (n_right v).
  change (n_split_feature (sn v)) with (n_split_feature v). rewrite HS, SA, IH. look. rewrite IH. look. rewrite branch_sn.
  change (n_missing (sn v)) with (n_missing v). destruct (has_missing_branch v); [apply IH|reflexivity].
Qed.

(** *** Models *)
Section Models.
Variables (fb : F64 -> F64) (b b' : Booster).
Hypothesis TS : gb_trees b' = map (map sn) (gb_trees b).
Hypothesis PR : gb_pred b' = gb_pred b.
Hypothesis MI : p_missing (gb_params b') = p_missing (gb_params b).
Hypothesis PA : p_parallel (gb_params b') = p_parallel (gb_params b).
Hypothesis OB : p_objective (gb_params b') = p_objective (gb_params b).
Hypothesis BS : gb_base_score b' = fb (gb_base_score b).
Hypothesis FB : forall x d, fb (x + d)%f64 = (fb x + s64 d)%f64.
Hypothesis FB' : forall d x, fb (d + x)%f64 = (s64 d + fb x)%f64.

Lemma trees_sn : prediction_trees b' = option_map (map (map sn)) (prediction_trees b).
Proof using TS PR.
  unfold prediction_trees. rewrite TS, PR, map_length. unfold slice. rewrite map_length.
  destruct ((0 <=? _) && _); auto. simpl. rewrite firstn_map. reflexivity.
Qed.
Lemma foldM_trees : forall A S (f f' : S -> A -> option S) (h : A -> A) (g : S -> S) l s,
  (forall s x, f' (g s) (h x) = option_map g (f s x)) -> foldM f' (map h l) (g s) = option_map g (foldM f l s).
Proof.
  intros A S f f' h g. induction l as [|x l IH]; intros s H; [reflexivity|]. simpl. rewrite H, bind_map, map_bind. apply bind_ext. intros v _. auto.
Qed.

(** a row of contributions: the cells times the factor, the bias through [fb] *)
Definition cell (cols i : nat) : F64 -> F64 := if i =? cols then fb else s64.
Lemma cell_add : forall cols i x d, cell cols i (x + d)%f64 = (cell cols i x + s64 d)%f64.
Proof using S_a64 FB. intros cols i x d. unfold cell. destruct (i =? cols); auto. Qed.
Lemma start_cell : forall cols (base : F64), fb (fzero f64 + base)%f64 = (fzero f64 + fb base)%f64 ->
  row_start cols (fb base) = mapi (cell cols) 0 (row_start cols base).
Proof using S_z64.
  intros cols base HB. unfold row_start. rewrite mapi_app, repeat_length. simpl. unfold cell at 2. rewrite Nat.eqb_refl, HB. f_equal.
  rewrite (mapi_ext _ (cell cols) (fun _ x => s64 x) _ 0 0) by (intros i x L; rewrite repeat_length in L; unfold cell; destruct (Nat.eqb_spec (0 + i) cols); [lia|reflexivity]).
  generalize 0 at 1. induction cols; intros k; simpl; auto. rewrite S_z64. f_equal. apply IHcols.
Qed.
Lemma base_cell : forall cols, row_start cols (gb_base_score b') = mapi (cell cols) 0 (row_start cols (gb_base_score b)).
Proof using S_z64 BS FB'. intros cols. rewrite BS. apply start_cell. rewrite FB', S_z64. reflexivity. Qed.

Lemma alone_row : forall m f cols row, row_method m = Some f ->
  contrib_row_alone b' cols f row = option_map (mapi (cell cols) 0) (contrib_row_alone b cols f row).
Proof using S_to S_z32 S_z64 S_a32 S_s32 S_l32 S_r32 S_d32 S_a64 S_s64 S_r64 S_d64 TS PR MI BS FB FB'.
  intros m f cols row HM. unfold contrib_row_alone. rewrite trees_sn, bind_map, map_bind. apply bind_ext. intros ts _. rewrite base_cell, MI.
  apply foldM_trees. intros s t. eapply method_M; [apply cell_add|exact HM].
Qed.
Lemma average_row : forall cols ws row,
  contrib_row_average b' cols (map (map s64) ws) row = option_map (mapi (cell cols) 0) (contrib_row_average b cols ws row).
Proof using S_to S_z64 S_a64 S_s64 S_r64 S_d64 TS PR MI BS FB FB'.
  intros cols ws row. unfold contrib_row_average. rewrite trees_sn, bind_map, map_bind. apply bind_ext. intros ts _. rewrite base_cell, MI.
  replace (combine (map (map sn) ts) (map (map s64) ws)) with (map (fun tw => (map sn (fst tw), map s64 (snd tw))) (combine ts ws)).
  - apply foldM_trees. intros s [t w]. apply average_M. apply cell_add.
  - clear. revert ws. induction ts as [|t ts IH]; intros [|w ws]; simpl; auto. f_equal. apply IH.
Qed.

(** a table of contributions: the same, row after row *)
Definition table (cols : nat) (r : list F64) : list F64 := mapi (fun j => cell cols (j mod (cols + 1))) 0 r.
Lemma rows_table : forall parallel sh data (f f' : list F64 -> option (list F64)), (forall row, f' row = option_map (mapi (cell (m_cols data)) 0) (f row)) ->
  (forall row c, f row = Some c -> length c = m_cols data + 1) ->
  for_rows parallel sh data f' = option_map (table (m_cols data)) (for_rows parallel sh data f).
Proof.
  intros parallel sh data f f' HF HL. unfold for_rows. rewrite !par_map_mapM.
  assert (E : mapM (fun i => let* r := m_get_row data i in f' r) (m_index data) =
     option_map (map (mapi (cell (m_cols data)) 0)) (mapM (fun i => let* r := m_get_row data i in f r) (m_index data))).
  { apply mapM_sim. intros i _. rewrite map_bind. apply bind_ext. intros r _. apply HF. }
  rewrite E. assert (L : forall rows, mapM (fun i => let* r := m_get_row data i in f r) (m_index data) = Some rows -> forall r, In r rows -> length r = m_cols data + 1).
  { intros rows HM. apply mapM_Forall2 in HM. clear -HM HL. induction HM; intros r0 HI; [destruct HI|]. destruct HI as [HI|HI]; [|auto]. subst. inv_bind H. eapply HL. eassumption. }
  destruct (mapM (fun i => let* r := m_get_row data i in f r) (m_index data)) as [rows|]; [|destruct parallel; reflexivity].
  specialize (L rows eq_refl). assert (R : concat (map (mapi (cell (m_cols data)) 0) rows) = table (m_cols data) (concat rows)).
  { unfold table. apply (mapi_rows _ (cell (m_cols data)) (m_cols data + 1) rows 0); auto. lia. }
  destruct parallel; simpl; rewrite R; reflexivity.
Qed.

Theorem contributions_table : forall sh data parallel m, m <> CProbabilityChange ->
  predict_contributions sh b' data m parallel = option_map (table (m_cols data)) (predict_contributions sh b data m parallel).
Proof using S_to S_z32 S_z64 S_a32 S_s32 S_l32 S_r32 S_d32 S_a64 S_s64 S_r64 S_d64 TS PR MI BS FB FB'.
  intros sh data parallel m NP.
  assert (AL : forall f, row_method m = Some f -> predict_contributions_tree_alone sh b' data parallel m =
     option_map (table (m_cols data)) (predict_contributions_tree_alone sh b data parallel m)).
  { intros f HM. unfold predict_contributions_tree_alone. rewrite HM. cbn [bind]. apply rows_table.
    - intros row. eapply alone_row. exact HM.
    - intros row c. apply (contrib_row_alone_length b (m_cols data) m f row c HM). }
  destruct m; try congruence; try (eapply AL; reflexivity).
  unfold predict_contributions, predict_contributions_average.
  rewrite trees_sn, bind_map, map_bind. apply bind_ext. intros ts _. rewrite !par_map_mapM.
  assert (E : mapM distribute_leaf_weights (map (map sn) ts) = option_map (map (map s64)) (mapM distribute_leaf_weights ts)).
  { rewrite mapM_map2. apply mapM_sim. intros t _. apply leaf_weights_sn. }
  rewrite E.
  assert (EE : forall o : option (list (list F64)), (if parallel then o else o) = o) by (destruct parallel; auto). rewrite !EE.
  rewrite bind_map, map_bind. apply bind_ext. intros ws _. apply rows_table.
  - intros row. apply average_row.
  - intros row c. apply contrib_row_average_length.
Qed.

Theorem dependence_value : forall sh feature value,
  value_partial_dependence sh b' feature value = option_map fb (value_partial_dependence sh b feature value).
Proof using S_to S_z64 S_r32 S_a64 TS PR MI PA BS FB'.
  intros sh feature value. unfold value_partial_dependence. rewrite trees_sn, bind_map, map_bind. apply bind_ext. intros ts _. rewrite MI, PA.
  rewrite mapM_map2. rewrite (mapM_sim _ _ (fun t => tree_value_partial_dependence t feature value (p_missing (gb_params b))) _ s64).
  - rewrite bind_map, map_bind. apply bind_ext. intros pds _. simpl. rewrite BS, par_sum_s, fsum_s. destruct (p_parallel (gb_params b)); rewrite <- FB'; reflexivity.
  - intros t _. unfold tree_value_partial_dependence. rewrite map_length. apply pd_sn.
Qed.
End Models.
End Linear.
