(** The trees as Python objects and as a data frame: /repo/py-forust/forust/__init__.py:1151-1245 ("init"). *)
From Coq Require Import List Arith NArith ZArith Bool String Lia Permutation.
From Verif Require Import Prelude Float Data DataProofs Utils Binning Histogram Node Splitter Tree TreeWf Objective Metric Sampler Contrib Booster
  PredictProofs Serde PyWrap PyProofs PyState PyMore.
Import ListNotations.

Section Table.
Context {FS : Floats}.

(** *** Model *)
(** init:1178-1188: the names to show for split features, and what a leaf shows *)
Definition shown_features (map_names : bool) (m : PyModel) : exc ((nat -> option pykey) * pykey) :=
  match (if map_names then py_names m else None) with
  | Some l => inl (nth_error l, KStr "")
  | None => match py_n_features m with
            | Some n => inl (fun i => if (i <? n)%nat then Some (KNat i) else None, KInt (-1))
            | None => inr AttributeError
            end
  end.
(** init:1190-1199.  A node as shown: its fields, with the split feature replaced.  The numbers of a node reach
    Python as the decimal text of the dump: binary64 values come back exactly, binary32 values as the number
    written there. *)
Definition ShownNode : Type := Node * pykey.
Definition py_node_lists (map_names : bool) (m : PyModel) : exc (list (list ShownNode)) :=
  let? (fmap, leaf) := shown_features map_names m in
  emapM (emapM (fun n => if n_is_leaf n then inl (n, leaf) else let? f := or_raise KeyError (fmap (n_split_feature n)) in inl (n, f)))
    (gb_trees (py_booster m)).

(** init:1218-1245.  The strings "t-n" of ID, Yes, No and Missing are pairs; Feature is "Leaf" (None here) or the
    name; Gain holds the leaf weight for leaves. *)
Record Row := mkRow { w_tree : nat; w_node : nat; w_id : nat * nat; w_feature : option pykey; w_split : option F64;
  w_yes : option (nat * nat); w_no : option (nat * nat); w_missing : option (nat * nat); w_gain : F32; w_cover : F32 }.
Definition node_to_row (t : nat) (nf : ShownNode) : Row :=
  let '(n, f) := nf in
  let shown {A} (x : A) : option A := if n_is_leaf n then None else Some x in
  mkRow t (n_num n) (t, n_num n) (shown f) (shown (n_split_value n)) (shown (t, n_left n)) (shown (t, n_right n)) (shown (t, n_missing n))
    (if n_is_leaf n then n_weight n else n_split_gain n) (n_hess n).
Definition py_trees_to_dataframe (m : PyModel) : exc (list Row) :=
  let? ts := py_node_lists true m in
  inl (flat_map (fun '(i, t) => map (node_to_row i) t) (combine (seq 0 (List.length ts)) ts)).

(** *** Reading a prediction off the table *)
(** Start at a row; if it has no split this is the end; otherwise look at the value of its feature and go to the
    row whose ID is in Missing, Yes or No. *)
Inductive follow (T : list Row) (cell : pykey -> option F64) (missing : F64) : nat * nat -> Row -> Prop :=
| follow_leaf : forall r, In r T -> w_split r = None -> follow T cell missing (w_id r) r
| follow_split : forall r v f x miss next leaf, In r T -> w_split r = Some v -> w_feature r = Some f -> cell f = Some x ->
    is_missing x missing = Some miss ->
    (if miss then w_missing r else if (x <? v)%f64 then w_yes r else w_no r) = Some next ->
    follow T cell missing next leaf -> follow T cell missing (w_id r) leaf.

Lemma emapM_nth : forall A B (f : A -> exc B) l r, emapM f l = inl r ->
  List.length r = List.length l /\ (forall i x, nth_error l i = Some x -> exists y, nth_error r i = Some y /\ f x = inl y) /\
  (forall i y, nth_error r i = Some y -> exists x, nth_error l i = Some x /\ f x = inl y).
Proof.
  intros A B f l r H. apply emapM_F2 in H. split; [symmetry; eapply F2_length; eauto|].
  induction H as [|a b l r H F [IH1 IH2]]; (split; intros [|i] x Hx; simpl in *; try discriminate); try (injection Hx as <-; eauto); eauto.
Qed.
Lemma in_indexed : forall A (l : list A) (P : nat -> A -> list Row) r,
  In r (flat_map (fun '(i, t) => P i t) (combine (seq 0 (List.length l)) l)) <-> exists i t, nth_error l i = Some t /\ In r (P i t).
Proof.
  intros A l P r. 
  assert (G : forall k, In r (flat_map (fun '(i, t) => P i t) (combine (seq k (List.length l)) l)) <-> exists i t, nth_error l i = Some t /\ In r (P (k + i) t)).
  { induction l as [|a l IH]; intros k; simpl.
    - split; [tauto|]. intros ([|i] & t & H & _); discriminate.
    - rewrite in_app_iff, (IH (S k)). split.
      + intros [H|(i & t & H1 & H2)]; [exists 0, a; rewrite Nat.add_0_r; auto|exists (S i), t; rewrite Nat.add_succ_r; auto].
      + intros ([|i] & t & H1 & H2); simpl in H1; [injection H1 as <-; rewrite Nat.add_0_r in H2; auto|right; exists i, t; rewrite Nat.add_succ_r in H2; auto]. }
  apply (G 0).
Qed.

Lemma nth_firstn_some : forall A n (l : list A) i x, nth_error (firstn n l) i = Some x -> nth_error l i = Some x.
Proof. induction n as [|n IH]; intros [|a l] [|i] x; simpl; try discriminate; auto. Qed.

(** what the rows of the table are *)
Lemma table_rows : forall m T, py_trees_to_dataframe m = inl T ->
  exists fmap leaf, shown_features true m = inl (fmap, leaf) /\
  forall r, In r T <-> exists t nodes i n f, nth_error (gb_trees (py_booster m)) t = Some nodes /\ nth_error nodes i = Some n /\
    (if n_is_leaf n then f = leaf else fmap (n_split_feature n) = Some f) /\ r = node_to_row t (n, f).
Proof.
  intros m T H. unfold py_trees_to_dataframe, py_node_lists in H. destruct (shown_features true m) as [[fmap leaf]|e] eqn:ES; [|discriminate].
  cbn [ebind] in H. destruct (emapM _ _) as [ts|e] eqn:EM; [|discriminate]. cbn [ebind] in H. injection H as <-.
  exists fmap, leaf. split; auto. destruct (emapM_nth _ _ _ _ _ EM) as (_ & M1 & M2). intros r. rewrite in_indexed. split.
  - intros (t & nfs & Ht & Hr). destruct (M2 _ _ Ht) as (nodes & Hn & EN). destruct (emapM_nth _ _ _ _ _ EN) as (_ & _ & N2).
    apply in_map_iff in Hr. destruct Hr as ([n f] & <- & Hr). apply In_nth_error in Hr. destruct Hr as [i Hi].
    destruct (N2 _ _ Hi) as (n' & Hn' & E). exists t, nodes, i, n', f. split; auto. split; auto.
    destruct (n_is_leaf n') eqn:EL; [injection E as <- <-; auto|]. destruct (fmap (n_split_feature n')) eqn:EF; simpl in E; [injection E as <- <-; auto|discriminate].
  - intros (t & nodes & i & n & f & Ht & Hi & Hf & ->). destruct (M1 _ _ Ht) as (nfs & Hn & EN). exists t, nfs. split; auto.
    destruct (emapM_nth _ _ _ _ _ EN) as (_ & N1 & _). destruct (N1 _ _ Hi) as ([n' f'] & Hn' & E). apply in_map_iff. exists (n', f'). split; [|eapply nth_error_In; eauto].
    destruct (n_is_leaf n); [injection E as <- <-; now subst|]. rewrite Hf in E. simpl in E. injection E as <- <-. reflexivity.
Qed.

(** The table exists as soon as every split is on a known column. *)
Lemma emapM_total : forall A B (f : A -> exc B) l, (forall x, In x l -> exists y, f x = inl y) -> exists r, emapM f l = inl r.
Proof.
  induction l as [|a l IH]; intros H; simpl; eauto. destruct (H a (or_introl eq_refl)) as [y ->]. destruct IH as [r ->]; [intros; apply H; right; auto|]. simpl. eauto.
Qed.
Theorem table_exists : forall m n, expected_columns m = Some n ->
  (forall t nd, In t (gb_trees (py_booster m)) -> In nd t -> n_is_leaf nd = false -> n_split_feature nd < n) ->
  exists T, py_trees_to_dataframe m = inl T.
Proof.
  intros m n HC HF. unfold py_trees_to_dataframe, py_node_lists, shown_features, expected_columns in *.
  destruct (py_names m) as [l|].
  - injection HC as <-. cbn [ebind]. edestruct (emapM_total _ _ (emapM (fun n => if n_is_leaf n then inl (n, KStr "") else
      let? f := or_raise KeyError (nth_error l (n_split_feature n)) in inl (n, f))) (gb_trees (py_booster m))) as [r ->]; [|simpl; eauto].
    intros t Ht. apply emapM_total. intros nd Hn. destruct (n_is_leaf nd) eqn:EL; eauto. destruct (nth_error_lt l (HF t nd Ht Hn EL)) as [f ->]. simpl. eauto.
  - rewrite HC. cbn [ebind]. edestruct (emapM_total _ _ (emapM (fun n0 => if n_is_leaf n0 then inl (n0, KInt (-1)) else
      let? f := or_raise KeyError (if (n_split_feature n0 <? n)%nat then Some (KNat (n_split_feature n0)) else None) in inl (n0, f))) (gb_trees (py_booster m))) as [r ->]; [|simpl; eauto].
    intros t Ht. apply emapM_total. intros nd Hn. destruct (n_is_leaf nd) eqn:EL; eauto. rewrite (proj2 (Nat.ltb_lt _ _) (HF t nd Ht Hn EL)). simpl. eauto.
Qed.

(** one row per node; IDs are unique; the leaf rows carry the leaf weights *)
Theorem table_ids : forall m T, py_trees_to_dataframe m = inl T -> (forall t, In t (gb_trees (py_booster m)) -> well_formed t) ->
  List.length T = fold_right (fun t k => List.length t + k) 0 (gb_trees (py_booster m)) /\
  (forall r, In r T -> w_id r = (w_tree r, w_node r)) /\
  (forall r r', In r T -> In r' T -> w_id r = w_id r' -> r = r').
Proof.
  intros m T H W. destruct (table_rows m T H) as (fmap & leaf & _ & R). split; [|split].
  - unfold py_trees_to_dataframe, py_node_lists in H. destruct (shown_features true m) as [[fm lf]|e]; [|discriminate].
    cbn [ebind] in H. destruct (emapM _ _) as [ts|e] eqn:EM; [|discriminate]. cbn [ebind] in H. injection H as <-. clear R W. apply emapM_F2 in EM.
    generalize 0 at 1 as k. induction EM as [|a b l r E F IH]; intros k; simpl; auto. rewrite app_length, map_length, IH. f_equal. apply emapM_nth in E. tauto.
  - intros r Hr. apply R in Hr. destruct Hr as (t & nodes & i & n & f & _ & _ & _ & ->). reflexivity.
  - intros r r' Hr Hr' E. apply R in Hr. apply R in Hr'. destruct Hr as (t & nodes & i & n & f & Ht & Hi & Hf & ->).
    destruct Hr' as (t' & nodes' & i' & n' & f' & Ht' & Hi' & Hf' & ->). injection E as <- EN. rewrite Ht in Ht'. injection Ht' as <-.
    pose proof (W nodes (nth_error_In _ _ Ht)) as WN. rewrite (wf_num _ WN _ _ Hi), (wf_num _ WN _ _ Hi') in EN. subst i'. rewrite Hi in Hi'. injection Hi' as <-.
    do 2 f_equal. destruct (n_is_leaf n); congruence.
Qed.

(** the value of a column of a row of the frame *)
Definition cell_of (m : PyModel) (row : list F64) (f : pykey) : option F64 :=
  match py_names m with
  | Some l => match positions f l with [i] => nth_error row i | _ => None end
  | None => match f with KInt i => if (i <? 0)%Z then None else nth_error row (Z.to_nat i) | KStr _ => None end
  end.
Lemma cell_shown : forall m fmap leaf row i f, (forall l, py_names m = Some l -> NoDup l) -> shown_features true m = inl (fmap, leaf) -> fmap i = Some f ->
  cell_of m row f = nth_error row i.
Proof.
  intros m fmap leaf row i f N H F. unfold shown_features, cell_of in *. destruct (py_names m) as [l|].
  - injection H as <- _. now rewrite (positions_one _ _ _ (N l eq_refl) F).
  - destruct (py_n_features m) as [n|]; [|discriminate]. injection H as <- _. destruct (i <? n)%nat; [|discriminate]. injection F as <-. simpl.
    destruct (Z.ltb_spec (Z.of_nat i) 0); [lia|]. now rewrite Nat2Z.id.
Qed.

Theorem table_follow : forall m T row missing t nodes nd, py_trees_to_dataframe m = inl T -> (forall l, py_names m = Some l -> NoDup l) ->
  nth_error (gb_trees (py_booster m)) t = Some nodes -> well_formed nodes ->
  walk (List.length nodes) nodes (nth_error row) missing 0 = Some nd ->
  exists r, follow T (cell_of m row) missing (t, 0) r /\ w_id r = (t, n_num nd) /\ w_gain r = n_weight nd /\ w_split r = None.
Proof.
  intros m T row missing t nodes nd H N Ht W HW. destruct (table_rows m T H) as (fmap & leaf & SF & R).
  destruct (walk_in _ _ _ _ _ _ HW) as (LF & _).
  exists (node_to_row t (nd, leaf)). split; [|simpl; rewrite LF; auto].
  revert HW. generalize (List.length nodes) as fuel, 0 as i. induction fuel as [|fuel IH]; intros i HW; [discriminate|]. simpl in HW. inv_bind HW. rename v into n. rename E into EI.
  pose proof (wf_num _ W _ _ EI) as NU. destruct (n_is_leaf n) eqn:EL.
  - injection HW as <-. assert (RI : In (node_to_row t (n, leaf)) T) by (apply R; exists t, nodes, i, n, leaf; rewrite EL; auto).
    rewrite <- NU. change (t, n_num n) with (w_id (node_to_row t (n, leaf))). apply follow_leaf; auto. simpl. now rewrite EL.
  - inv_bind HW. inv_bind HW. unfold get_child_idx in E0. inv_bind E0. injection E0 as <-. rename v into x. rename v1 into miss.
    assert (FX : exists f, fmap (n_split_feature n) = Some f).
    { assert (IN : In nodes (gb_trees (py_booster m))) by (eapply nth_error_In; eauto). clear - H SF IN EL EI. unfold py_trees_to_dataframe, py_node_lists in H. rewrite SF in H.
      cbn [ebind] in H. destruct (emapM _ _) as [ts|e] eqn:EM; [|discriminate]. destruct (emapM_nth _ _ _ _ _ EM) as (_ & M1 & _).
      apply In_nth_error in IN. destruct IN as [t Ht]. destruct (M1 _ _ Ht) as (nfs & _ & EN). destruct (emapM_nth _ _ _ _ _ EN) as (_ & N1 & _).
      destruct (N1 _ _ EI) as (y & _ & E). rewrite EL in E. destruct (fmap (n_split_feature n)); eauto. discriminate. }
    destruct FX as [f FF]. assert (RI : In (node_to_row t (n, f)) T) by (apply R; exists t, nodes, i, n, f; rewrite EL; auto).
    rewrite <- NU. change (t, n_num n) with (w_id (node_to_row t (n, f))).
    eapply follow_split with (v := n_split_value n) (f := f) (x := x) (miss := miss) (next := (t, if miss then n_missing n else if (x <? n_split_value n)%f64 then n_left n else n_right n)); auto.
    + simpl. now rewrite EL.
    + simpl. now rewrite EL.
    + rewrite (cell_shown m fmap leaf row _ f N SF FF). exact E.
    + simpl. rewrite EL. destruct miss; auto. destruct (x <? n_split_value n)%f64; auto.
Qed.
Theorem follow_fun : forall T cell missing, (forall r r', In r T -> In r' T -> w_id r = w_id r' -> r = r') ->
  forall p r, follow T cell missing p r -> forall r', follow T cell missing p r' -> r' = r.
Proof.
  intros T cell missing U p r F. induction F as [r I S|r v f x miss next leaf I S FE C M NX F IH]; intros r' F'.
  - inversion F' as [r1 I1 S1 E1|r1 v1 f1 x1 miss1 next1 leaf1 I1 S1 FE1 C1 M1 NX1 F1 E1]; [apply U; congruence|].
    assert (r1 = r) by (apply U; auto). congruence.
  - inversion F' as [r1 I1 S1 E1|r1 v1 f1 x1 miss1 next1 leaf1 I1 S1 FE1 C1 M1 NX1 F1 E1]; [assert (r' = r) by (apply U; auto; congruence); congruence|].
    assert (r1 = r) by (apply U; auto). subst r1.
    assert (v1 = v) by congruence. assert (f1 = f) by congruence. subst v1 f1. assert (x1 = x) by congruence. subst x1. assert (miss1 = miss) by congruence. subst miss1.
    assert (next1 = next) by congruence. subst next1. auto.
Qed.

(** Reading the table gives the reported leaf of every row and tree, and nothing else. *)
Theorem table_leaves : forall shs m X T L, frame_ok X -> (forall t, In t (gb_trees (py_booster m)) -> well_formed t) ->
  (forall l, py_names m = Some l -> NoDup l) -> py_trees_to_dataframe m = inl T -> py_predict_leaf_indices shs m X = Some (inl L) ->
  forall i row lrow t k, nth_error (x_rows X) i = Some row -> nth_error L i = Some lrow -> nth_error lrow t = Some k ->
  exists r, follow T (cell_of m row) (p_missing (gb_params (py_booster m))) (t, 0) r /\ w_id r = (t, k) /\
    forall r', follow T (cell_of m row) (p_missing (gb_params (py_booster m))) (t, 0) r' -> r' = r.
Proof.
  intros shs m X T L HX W N HT HL i row lrow t k Hrow Hl Hk. rewrite py_leaves_rows in HL by auto. unfold if_valid in HL.
  destruct (validate_features m (columns X)); [|discriminate]. destruct (prediction_trees (py_booster m)) as [ts|] eqn:ET; [|discriminate]. cbn [bind] in HL.
  inv_bind HL. injection HL as <-. destruct (mapMn _ _ E i row Hrow) as (y & Hy & EY). assert (y = lrow) by congruence. subst y.
  unfold leaf_row in EY. apply mapM_Forall2 in EY. destruct (Forall2_nth_r EY t Hk) as (nodes & Hn & HW). inv_bind HW. injection HW as <-.
  assert (TN : nth_error (gb_trees (py_booster m)) t = Some nodes).
  { unfold prediction_trees, slice in ET. destruct (_ && _)%bool; [|discriminate]. injection ET as <-. simpl in Hn. eapply nth_firstn_some; eauto. }
  destruct (table_follow m T row _ t nodes _ HT N TN (W _ (nth_error_In _ _ TN)) E0) as (r & F & I & _).
  exists r. split; [exact F|]. split; [exact I|]. intros r' F'. eapply follow_fun; eauto. destruct (table_ids m T HT W) as (_ & _ & U). exact U.
Qed.
Lemma table_columns : forall (m : PyModel) T r, py_trees_to_dataframe m = inl T -> In r T ->
  exists nodes n, nth_error (gb_trees (py_booster m)) (w_tree r) = Some nodes /\ In n nodes /\ w_node r = n_num n /\ w_cover r = n_hess n /\
    (n_is_leaf n = true -> w_gain r = n_weight n /\ w_feature r = None /\ w_split r = None /\ w_yes r = None /\ w_no r = None /\ w_missing r = None) /\
    (n_is_leaf n = false -> w_gain r = n_split_gain n /\ w_split r = Some (n_split_value n) /\ w_yes r = Some (w_tree r, n_left n) /\
       w_no r = Some (w_tree r, n_right n) /\ w_missing r = Some (w_tree r, n_missing n) /\
       w_feature r = match py_names m with Some l => nth_error l (n_split_feature n) | None => Some (KNat (n_split_feature n)) end).
Proof.
  intros m T r H I. destruct (table_rows m T H) as (fmap & leaf & S & R). apply R in I. destruct I as (t & nodes & i & n & f & Ht & Hi & HF & ->).
  exists nodes, n. cbn [node_to_row w_tree w_node w_cover w_gain w_feature w_split w_yes w_no w_missing].
  split; [exact Ht|]. split; [eapply nth_error_In; eauto|]. split; [reflexivity|]. split; [reflexivity|].
  split; intros L; rewrite L in *; repeat (split; [reflexivity|]); [reflexivity|].
  unfold shown_features in S. destruct (py_names m) as [l|]; [injection S as <- <-; symmetry; exact HF|]. destruct (py_n_features m) as [k|]; [|discriminate].
  injection S as <- <-. destruct (n_split_feature n <? k)%nat; [congruence|discriminate].
Qed.
End Table.
