(** Two growing nodes with the same sums per bin choose the same split; only the cut value written
    into the split differs, by the change [phi] of the feature. *)
From Coq Require Import List Arith Lia Bool.
From Verif Require Import Prelude Float Data Utils Histogram Node Splitter Tree.
Import ListNotations.

Section Sim.
Context {FS : Floats}.
Variable phi : nat -> F64 -> F64.
Variable cols : list nat.

Definition bin_sums (b : Bin F32) : F32 * F32 := (gradient_sum b, hessian_sum b).

(** the first bin is that of missing values, its cut value is never read *)
Definition col_rel (f : nat) (c c' : list (Bin F32)) : Prop :=
  map bin_sums c' = map bin_sums c /\ map cut_value (tl c') = map (phi f) (map cut_value (tl c)).
Definition hist_rel (h h' : HistogramMatrix) : Prop :=
  forall idx f, nth_error cols idx = Some f ->
    exists c c', j_get_col h idx = Some c /\ j_get_col h' idx = Some c' /\ col_rel f c c'.

(** what the search for a split reads besides the histogram *)
Record search_same (n n' : SplittableNode) : Prop := mkSearch {
  ss_grad : sn_grad n' = sn_grad n; ss_hess : sn_hess n' = sn_hess n; ss_weight : sn_weight n' = sn_weight n;
  ss_gain : sn_gain n' = sn_gain n; ss_lower : sn_lower n' = sn_lower n; ss_upper : sn_upper n' = sn_upper n }.

Definition map_si (si : SplitInfo) : SplitInfo :=
  mkSplitInfo (si_gain si) (si_feature si) (phi (si_feature si) (si_value si)) (si_bin si) (si_left si) (si_right si) (si_missing si).

Section Search.
Variables (s : Splitter) (n n' : SplittableNode).
Hypothesis SS : search_same n n'.

Lemma candidate_rel : forall f m m' b b' i cg ch, bin_sums m' = bin_sums m -> cut_value b' = phi f (cut_value b) ->
  candidate s n' f m' b' i cg ch = option_map (option_map map_si) (candidate s n f m b i cg ch).
Proof.
  intros f m m' b b' i cg ch EM EC. destruct SS as [S1 S2 S3 S4 S5 S6].
  injection EM as EG EH. unfold candidate. rewrite S1, S2, S3, S5, S6, EG, EH.
  destruct (evaluate_split s cg ch _ _ _ _ _ _ _ _) as [[[[l r] mi]|]|]; simpl; auto.
  replace (get_split_gain n' l r mi (sp_gamma (params s))) with (get_split_gain n l r mi (sp_gamma (params s)))
    by (unfold get_split_gain; rewrite S4; reflexivity).
  destruct (_ <=? _)%f32; simpl; auto.
  destruct (child_bounds _ _ _ _ _) as [lb rb]. simpl. unfold map_si. simpl. rewrite EC. reflexivity.
Qed.

Lemma feature_loop_rel : forall f m m' bins bins' i cg ch best, bin_sums m' = bin_sums m ->
  map bin_sums bins' = map bin_sums bins -> map cut_value bins' = map (phi f) (map cut_value bins) ->
  feature_loop s n' f m' bins' i cg ch (option_map map_si best) =
  option_map (option_map map_si) (feature_loop s n f m bins i cg ch best).
Proof.
  intros f m m'. induction bins as [|b bins IH]; intros [|b' bins'] i cg ch best EM ES EC; simpl in *; try discriminate; auto.
  injection EC as EC1 EC2. pose proof (f_equal (@hd _ (bin_sums b)) ES) as ES1. simpl in ES1.
  pose proof (f_equal (@tl _) ES) as ES2. simpl in ES2.
  rewrite (candidate_rel f m m' b b' i cg ch EM EC1).
  destruct (candidate s n f m b i cg ch) as [c|]; simpl; auto.
  injection ES1 as EG EH. rewrite EG, EH. rewrite <- (IH bins'); auto. f_equal.
  destruct c as [x|]; simpl; auto. unfold better. destruct best as [y|]; simpl; auto.
  destruct (_ <? _)%f32; reflexivity.
Qed.

Hypothesis HH : hist_rel (sn_hist n) (sn_hist n').

Lemma best_feature_rel : forall f idx, nth_error cols idx = Some f ->
  best_feature_split s n' f idx = option_map (option_map map_si) (best_feature_split s n f idx).
Proof.
  intros f idx Hf. destruct (HH idx f Hf) as (c & c' & E1 & E2 & R1 & R2).
  unfold best_feature_split. rewrite E1, E2. simpl.
  destruct c as [|m bins]; destruct c' as [|m' bins']; simpl in *; try discriminate; auto.
  pose proof (f_equal (@hd _ (bin_sums m)) R1) as ES1. pose proof (f_equal (@tl _) R1) as ES2. simpl in ES1, ES2.
  apply (feature_loop_rel f m m' bins bins' 0 (fzero f32) (fzero f32) None); auto.
Qed.

Lemma best_split_rel : best_split s n' cols = option_map (option_map map_si) (best_split s n cols).
Proof.
  unfold best_split.
  assert (G : forall l pre g best, cols = pre ++ l ->
    best_split_loop s n' l (length pre) g (option_map map_si best) =
    option_map (option_map map_si) (best_split_loop s n l (length pre) g best)).
  { induction l as [|f l IH]; intros pre g best EC; simpl; auto.
    rewrite best_feature_rel by (rewrite EC, nth_error_app2, Nat.sub_diag by lia; reflexivity).
    assert (EC' : cols = (pre ++ [f]) ++ l) by (rewrite <- app_assoc; exact EC).
    assert (LP : length pre + 1 = length (pre ++ [f])) by (rewrite app_length; reflexivity).
    rewrite LP. destruct (best_feature_split s n f (length pre)) as [[si|]|]; simpl; auto.
    destruct (_ <? _)%f32; [apply (IH (pre ++ [f]) _ (Some si)); auto|apply IH; auto]. }
  exact (G cols [] (fzero f32) None eq_refl).
Qed.
End Search.

(** Finished nodes: a leaf keeps its (unused) split value, an inner node's is changed. *)
Definition map_node (n : Node) : Node :=
  mkNode (n_num n) (n_weight n) (n_hess n) (n_depth n)
    (if n_is_leaf n then n_split_value n else phi (n_split_feature n) (n_split_value n))
    (n_split_feature n) (n_split_gain n) (n_missing n) (n_left n) (n_right n) (n_is_leaf n).

(** the average pass does not read split values *)
Lemma map_node_set_weight : forall n w, map_node (set_weight n w) = set_weight (map_node n) w.
Proof. reflexivity. Qed.
Lemma update_map : forall A B (f : A -> B) l i x, update (map f l) i (f x) = option_map (map f) (update l i x).
Proof.
  induction l as [|a l IH]; intros [|i] x; simpl; auto. rewrite IH. destruct (update l i x); reflexivity.
Qed.

Lemma average_map : forall fuel nodes i,
  update_average_missing_nodes fuel (map map_node nodes) i =
  option_map (fun '(a, l) => (a, map map_node l)) (update_average_missing_nodes fuel nodes i).
Proof.
  induction fuel as [|fu IH]; intros nodes i; simpl; auto.
  rewrite nth_error_map. destruct (nth_error nodes i) as [nd|]; simpl; auto.
  destruct (n_is_leaf nd); simpl; auto.
  rewrite nth_error_map. destruct (nth_error nodes (n_right nd)) as [rn|]; simpl; auto.
  rewrite IH. destruct (update_average_missing_nodes fu nodes (n_right nd)) as [[ra l1]|]; simpl; auto.
  rewrite nth_error_map. destruct (nth_error l1 (n_left nd)) as [ln|]; simpl; auto.
  rewrite IH. destruct (update_average_missing_nodes fu l1 (n_left nd)) as [[la l2]|]; simpl; auto.
  rewrite nth_error_map. destruct (nth_error l2 (n_missing nd)) as [mn|]; simpl; auto.
  assert (SET : forall k l w,
    match nth_error (map map_node l) k with
    | Some n => match update (map map_node l) k (set_weight n w) with Some l => l | None => map map_node l end
    | None => map map_node l end =
    map map_node (match nth_error l k with
    | Some n => match update l k (set_weight n w) with Some l => l | None => l end
    | None => l end)).
  { intros k l w. rewrite nth_error_map. destruct (nth_error l k) as [x|]; simpl; auto.
    rewrite <- map_node_set_weight, update_map. destruct (update l k (set_weight x w)); reflexivity. }
  destruct (n_is_leaf mn); simpl.
  - rewrite !SET. reflexivity.
  - rewrite IH. destruct (update_average_missing_nodes fu l2 (n_missing nd)) as [[ma l3]|]; simpl; auto.
    rewrite SET. reflexivity.
Qed.

Lemma clean_up_map : forall s nodes, clean_up_splits s (map map_node nodes) = option_map (map map_node) (clean_up_splits s nodes).
Proof.
  intros s nodes. unfold clean_up_splits. destruct s as [p|p term [] force]; simpl; auto.
  rewrite map_length, average_map. destruct (update_average_missing_nodes _ _ _) as [[a l]|]; reflexivity.
Qed.
End Sim.
