(** Import of an xgboost model: /repo/py-forust/forust/__init__.py:48-152 ("init"). *)
From Coq Require Import List Arith NArith ZArith Bool String Lia Permutation.
From Verif Require Import Prelude Float Data DataProofs Utils Binning Histogram Node Splitter Tree Objective Metric Sampler Contrib Booster
  PredictProofs Serde PyWrap PyProofs PyState PyFit PyMore.
Import ListNotations.

Section Xgb.
Context {FS : Floats}.

(** *** A node of the JSON dump of xgboost (get_dump(dump_format="json", with_stats=True)): a leaf has the members
    nodeid, leaf, cover; a split has nodeid, depth, split, split_condition, yes, no, missing, gain, cover, children. *)
Inductive xnode :=
| XLeaf (id : nat) (leaf cover : F64)
| XSplit (id depth : nat) (split : pykey) (condition gain cover : F64) (yes no missing : nat) (children : list xnode).
Definition xid (x : xnode) : nat := match x with XLeaf i _ _ => i | XSplit i _ _ _ _ _ _ _ _ _ => i end.
Definition xchildren (x : xnode) : list xnode := match x with XLeaf _ _ _ => [] | XSplit _ _ _ _ _ _ _ _ _ cs => cs end.

(** init:65-81.  float(np.float32(x)) is to64 (to32 x).  The single precision members (weight, gain, cover) are
    written by json.dumps as double precision decimals and read back as single precision numbers: [rd] is that conversion. *)
Definition from_xgboost_node (rd : F64 -> F32) (fmap : list (pykey * nat)) (x : xnode) : Node :=
  match x with
  | XLeaf i l c => mkNode i (rd l) (rd c) 0 (to64 (to32 (fzero f64))) (match dget (KNat 0) fmap with Some f => f | None => 0 end) (rd (fzero f64)) 0 0 0 true
  | XSplit i d s v g c y n mi _ =>
      mkNode i (rd (fzero f64)) (rd c) d (to64 (to32 v)) (match dget s fmap with Some f => f | None => 0 end) (rd g) mi y n false
  end.

(** init:84-111: the queue *)
Fixpoint bfs (rd : F64 -> F32) (fuel : nat) (fmap : list (pykey * nat)) (buffer : list xnode) : option (list Node) :=
  match buffer with
  | [] => Some []
  | x :: r => match fuel with 0 => None | S k => let* l := bfs rd k fmap (r ++ xchildren x) in Some (from_xgboost_node rd fmap x :: l) end
  end.
(** sorted(node_list, key=num): stable *)
Fixpoint insert_num (n : Node) (l : list Node) : list Node :=
  match l with [] => [n] | a :: r => if (n_num n <=? n_num a)%nat then n :: l else a :: insert_num n r end.
Definition sort_num (l : list Node) : list Node := fold_right insert_num [] l.
Fixpoint aligned (i : nat) (l : list Node) : bool := match l with [] => true | n :: r => ((i =? n_num n)%nat && aligned (S i) r)%bool end.
Fixpoint xflat (x : xnode) : list xnode := x :: match x with XLeaf _ _ _ => [] | XSplit _ _ _ _ _ _ _ _ _ cs => flat_map xflat cs end.
Definition xgboost_tree_to_nodes (rd : F64 -> F32) (fmap : list (pykey * nat)) (x : xnode) : res (list Node) :=
  let* l := bfs rd (List.length (xflat x)) fmap [x] in
  let l := sort_num l in
  Some (if aligned 0 l then inl l else inr ValueError).

(** init:290-325, the default parameters; sys.maxsize is an argument *)
Definition py_defaults (maxsize : nat) : PyParams :=
  let d a b := (fofnat f64 a / fofnat f64 b)%f64 in
  mkPy "LogLoss" 100 (d 3 10) 5 maxsize (fzero f64) (fone f64) (fzero f64) (fzero f64) (fone f64) (d 1 2) 256 true true [] (fone f64) (d 1 10) (d 2 10)
    (fone f64) 0%N (fnan f64) false None "DepthWise" None None true [] "None" 0 "Gain" false.

(** init:114-152.  [wrapped]: the model is an xgboost.XGBModel and not an xgboost.Booster, which has no get_booster. *)
Record XModel := mkX { x_wrapped : bool; x_features : option (list pykey); x_trees : list xnode; x_base : F64; x_logistic : bool }.
Definition x_feature_map (x : XModel) : list (pykey * nat) :=
  match x_features x with None => [] | Some l => feature_map l end.
Fixpoint rmapM {A B} (f : A -> res B) (l : list A) : res (list B) :=
  match l with
  | [] => Some (inl [])
  | a :: r => let* y := f a in
      match y with inr e => Some (inr e) | inl y => let* ys := rmapM f r in Some (match ys with inr e => inr e | inl ys => inl (y :: ys) end) end
  end.
Definition from_xgboost_model (pc : PyCodec) (rd : F64 -> F32) (maxsize : nat) (x : XModel) : res PyModel :=
  let* ts := rmapM (xgboost_tree_to_nodes rd (x_feature_map x)) (x_trees x) in
  match ts with
  | inr e => Some (inr e)
  | inl trees =>
      if negb (x_wrapped x) then Some (inr AttributeError) else
      if (x_logistic x && ((fone f64 - x_base x) =? fzero f64)%f64)%bool then Some (inr ZeroDivisionError) else
      let base := if x_logistic x then fln (x_base x / (fone f64 - x_base x))%f64 else x_base x in
      Some (let? c := py_new pc (py_defaults maxsize) in
            if is_finite f64 base then
              let b := py_booster c in
              inl (mkPyModel (mkBooster (gb_params b) base (gb_history b) (gb_best b) (gb_pred b) trees (gb_metadata b)) (py_params c)
                     (x_features x) (option_map (@List.length _) (x_features x)))
            else inr ValueError)
  end.

(** *** What an xgboost tree computes: a value is compared, in single precision, with the condition; NaN goes to `missing`;
    the walk continues in the child with that number. *)
Fixpoint xeval (cell : pykey -> option F64) (x : xnode) : option F64 :=
  match x with
  | XLeaf _ l _ => Some l
  | XSplit _ _ s v _ _ y n mi cs =>
      match cell s with
      | None => None
      | Some z =>
          let next := if fisnan f64 z then mi else if (to32 z <? to32 v)%f32 then y else n in
          (fix pick (l : list xnode) : option F64 := match l with [] => None | c :: r => if (xid c =? next)%nat then xeval cell c else pick r end) cs
      end
  end.
Fixpoint pick_child (next : nat) (l : list xnode) : option xnode :=
  match l with [] => None | c :: r => if (xid c =? next)%nat then Some c else pick_child next r end.
Lemma xeval_split : forall cell i d s v g c y n mi cs, xeval cell (XSplit i d s v g c y n mi cs) =
  (let* z := cell s in let* k := pick_child (if fisnan f64 z then mi else if (to32 z <? to32 v)%f32 then y else n) cs in xeval cell k).
Proof.
  intros. simpl. destruct (cell s) as [z|]; simpl; auto. generalize (if fisnan f64 z then mi else if (to32 z <? to32 v)%f32 then y else n) as next.
  intros next. induction cs as [|k cs IH]; simpl; auto. destruct (xid k =? next)%nat; simpl; auto.
Qed.

(** induction over nested nodes *)
Section XInd.
Variable P : xnode -> Prop.
Hypothesis Hleaf : forall i l c, P (XLeaf i l c).
Hypothesis Hsplit : forall i d s v g c y n mi cs, (forall k, In k cs -> P k) -> P (XSplit i d s v g c y n mi cs).
Fixpoint xnode_nested (x : xnode) : P x :=
  match x with
  | XLeaf i l c => Hleaf i l c
  | XSplit i d s v g c y n mi cs => Hsplit i d s v g c y n mi cs
      ((fix go (l : list xnode) : forall k, In k l -> P k :=
         match l with
         | [] => fun k H => match H with end
         | a :: r => fun k H => match H with or_introl E => eq_ind a P (xnode_nested a) k E | or_intror H => go r k H end
         end) cs)
  end.
End XInd.

(** *** The queue visits every node once *)
Lemma xflat_eq : forall x, xflat x = x :: flat_map xflat (xchildren x).
Proof. destruct x; reflexivity. Qed.
Lemma bfs_perm : forall rd fmap fuel buffer, List.length (flat_map xflat buffer) <= fuel ->
  exists l, bfs rd fuel fmap buffer = Some l /\ Permutation l (map (from_xgboost_node rd fmap) (flat_map xflat buffer)).
Proof.
  intros rd fmap. induction fuel as [|k IH]; intros [|x r] H; simpl; eauto; simpl in H; rewrite xflat_eq in *; simpl in H; [lia|].
  destruct (IH (r ++ xchildren x)) as (l & -> & P).
  - rewrite flat_map_app, app_length. rewrite app_length in H. lia.
  - simpl. eexists. split; [reflexivity|]. constructor. rewrite P. apply Permutation_map. rewrite flat_map_app. apply Permutation_app_comm.
Qed.
Lemma insert_num_perm : forall n l, Permutation (insert_num n l) (n :: l).
Proof.
  intros n l. induction l as [|a l IH]; simpl; auto. destruct (n_num n <=? n_num a)%nat; auto. rewrite IH. apply perm_swap.
Qed.
Lemma sort_num_perm : forall l, Permutation (sort_num l) l.
Proof. induction l as [|a l IH]; simpl; auto. rewrite insert_num_perm. now constructor. Qed.
Lemma aligned_nth : forall l k, aligned k l = true -> forall i n, nth_error l i = Some n -> n_num n = k + i.
Proof.
  induction l as [|a l IH]; intros k H [|i] n Hn; simpl in *; try discriminate; apply andb_true_iff in H; destruct H as [H1 H2]; apply Nat.eqb_eq in H1.
  - injection Hn as <-. lia.
  - rewrite (IH _ H2 _ _ Hn). lia.
Qed.
Lemma nodes_of_tree : forall rd fmap x nodes, xgboost_tree_to_nodes rd fmap x = Some (inl nodes) ->
  Permutation nodes (map (from_xgboost_node rd fmap) (xflat x)) /\ (forall i n, nth_error nodes i = Some n -> n_num n = i).
Proof.
  intros rd fmap x nodes H. unfold xgboost_tree_to_nodes in H.
  destruct (bfs_perm rd fmap (List.length (xflat x)) [x]) as (l & E & P); [simpl; rewrite app_nil_r; auto|]. rewrite E in H. cbn [bind] in H.
  destruct (aligned 0 (sort_num l)) eqn:A; [|discriminate]. injection H as <-. split.
  - rewrite sort_num_perm, P. simpl. now rewrite app_nil_r.
  - intros i n Hn. rewrite (aligned_nth _ _ A _ _ Hn). reflexivity.
Qed.
Lemma num_of : forall rd fmap x, n_num (from_xgboost_node rd fmap x) = xid x.
Proof. destruct x; reflexivity. Qed.
Lemma node_at : forall rd fmap x nodes, xgboost_tree_to_nodes rd fmap x = Some (inl nodes) ->
  List.length nodes = List.length (xflat x) /\ forall y, In y (xflat x) -> nth_error nodes (xid y) = Some (from_xgboost_node rd fmap y).
Proof.
  intros rd fmap x nodes H. destruct (nodes_of_tree rd fmap x nodes H) as [P N]. split.
  - apply Permutation_length in P. now rewrite map_length in P.
  - intros y Hy. apply (in_map (from_xgboost_node rd fmap)) in Hy. apply (Permutation_in _ (Permutation_sym P)) in Hy.
    apply In_nth_error in Hy. destruct Hy as [i Hi]. pose proof (N _ _ Hi) as E. rewrite num_of in E. now rewrite E.
Qed.

(** The conversion only fails on a tree whose node numbers are not 0, 1, 2, ... *)
Theorem conversion_total : forall rd fmap x, exists r, xgboost_tree_to_nodes rd fmap x = Some r /\
  ((exists nodes, r = inl nodes) <-> Permutation (map xid (xflat x)) (seq 0 (List.length (xflat x)))).
Proof.
  intros rd fmap x. unfold xgboost_tree_to_nodes.
  destruct (bfs_perm rd fmap (List.length (xflat x)) [x]) as (l & -> & P); [simpl; rewrite app_nil_r; auto|]. cbn [bind]. simpl in P. rewrite app_nil_r in P.
  eexists. split; [reflexivity|].
  assert (Q : Permutation (map (fun n => n_num n) (sort_num l)) (map xid (xflat x))).
  { rewrite sort_num_perm, P, map_map. erewrite map_ext; [reflexivity|]. intros a. apply num_of. }
  assert (LQ : List.length (sort_num l) = List.length (xflat x)).
  { apply Permutation_length in Q. now rewrite !map_length in Q. }
  assert (AL : forall l k, aligned k l = true <-> map (fun n => n_num n) l = seq k (List.length l)).
  { clear. induction l as [|a l IH]; intros k; simpl; [tauto|]. rewrite andb_true_iff, IH, Nat.eqb_eq. split; [intros [-> ->]; auto|]. intros [= <- ->]; auto. }
  split.
  - intros [nodes E]. destruct (aligned 0 (sort_num l)) eqn:A; [|discriminate]. apply AL in A. rewrite <- Q, A, LQ. reflexivity.
  - intros PS. rewrite (proj2 (AL (sort_num l) 0)); eauto.
    rewrite LQ. assert (PS' : Permutation (map (fun n => n_num n) (sort_num l)) (seq 0 (List.length (xflat x)))) by (now rewrite Q).
    assert (SO : forall l k, (forall n, In n l -> k <= n_num n) -> Sorted.StronglySorted le (map (fun n => n_num n) (sort_num l))).
    { clear. intros l _ _. induction l as [|a l IH]; simpl; [constructor|]. revert IH. generalize (sort_num l) as s. clear. induction s as [|b s IH]; intros H; simpl.
      - repeat constructor.
      - inversion H as [|? ? H1 H2]; subst. destruct (Nat.leb_spec (n_num a) (n_num b)); simpl.
        + constructor; [exact H|]. constructor; [auto|]. eapply Forall_impl; [|exact H2]. simpl. lia.
        + constructor; [auto|]. apply Forall_forall. intros z Hz. apply in_map_iff in Hz. destruct Hz as (w & <- & Hw).
          apply (Permutation_in _ (insert_num_perm a s)) in Hw. destruct Hw as [<-|Hw]; [lia|]. rewrite Forall_forall in H2. apply H2. apply in_map_iff. eauto. }
    specialize (SO l 0 (fun n _ => Nat.le_0_l _)). revert SO PS'. generalize (map (fun n => n_num n) (sort_num l)) as q. generalize (List.length (xflat x)) as k. clear.
    assert (U : forall q k j, Sorted.StronglySorted le q -> Permutation q (seq j k) -> q = seq j k).
    { induction q as [|a q IH]; intros k j SS P.
      - apply Permutation_nil in P. now rewrite P.
      - destruct k as [|k]; [apply Permutation_sym, Permutation_nil in P; discriminate|]. inversion SS as [|? ? S1 S2]; subst.
        assert (a = j).
        { assert (J : In j (a :: q)) by (apply (Permutation_in _ (Permutation_sym P)); left; auto).
          assert (A : In a (seq j (S k))) by (apply (Permutation_in _ P); left; auto). apply in_seq in A.
          destruct J as [->|J]; auto. rewrite Forall_forall in S2. specialize (S2 _ J). lia. }
        subst a. simpl. f_equal. apply IH; auto. simpl in P. now apply Permutation_cons_inv in P. }
    intros k q SS P. now apply U.
Qed.

(** *** The imported tree computes what the original computes *)
Definition proper (x : xnode) : Prop := forall i d s v g c y n mi cs, In (XSplit i d s v g c y n mi cs) (xflat x) ->
  In y (map xid cs) /\ In n (map xid cs) /\ In mi (map xid cs).
Lemma flat_sub : forall x k, In k (xchildren x) -> incl (xflat k) (xflat x).
Proof. intros x k H z Hz. rewrite xflat_eq. right. apply in_flat_map. eauto. Qed.
Lemma flat_size : forall x k, In k (xchildren x) -> List.length (xflat k) < List.length (xflat x).
Proof.
  intros x k H. rewrite (xflat_eq x). simpl. enough (List.length (xflat k) <= List.length (flat_map xflat (xchildren x))) by lia.
  induction (xchildren x) as [|a l IH]; simpl in *; [tauto|]. rewrite app_length. destruct H as [->|H]; [lia|]. apply IH in H. lia.
Qed.
Lemma pick_child_in : forall next cs, In next (map xid cs) -> exists k, pick_child next cs = Some k /\ In k cs /\ xid k = next.
Proof.
  induction cs as [|a cs IH]; simpl; intros H; [tauto|]. destruct (Nat.eqb_spec (xid a) next) as [E|NE]; [exists a; auto|].
  destruct H as [H|H]; [congruence|]. destruct (IH H) as (k & E & I & X). exists k. auto.
Qed.

Hypothesis widen : forall a b : F32, (to64 a <? to64 b)%f64 = (a <? b)%f32.

Theorem tree_import : forall rd fmap x nodes cell row missing, xgboost_tree_to_nodes rd fmap x = Some (inl nodes) -> xid x = 0 -> proper x ->
  fisnan f64 missing = true ->
  (forall i d s v g c y n mi cs, In (XSplit i d s v g c y n mi cs) (xflat x) ->
     exists z, cell s = Some z /\ row (match dget s fmap with Some f => f | None => 0 end) = Some z /\ z = to64 (to32 z)) ->
  exists l n, xeval cell x = Some l /\ walk (List.length nodes) nodes row missing 0 = Some n /\ n_weight n = rd l /\ n_is_leaf n = true.
Proof.
  intros rd fmap x nodes cell row missing H RT PR MI CE. destruct (node_at rd fmap x nodes H) as [LN AT]. rewrite LN, <- RT.
  assert (G : forall y, incl (xflat y) (xflat x) -> forall fuel, List.length (xflat y) <= fuel ->
    exists l n, xeval cell y = Some l /\ walk fuel nodes row missing (xid y) = Some n /\ n_weight n = rd l /\ n_is_leaf n = true).
  { induction y as [i l c|i d s v g c y n mi cs IH] using xnode_nested; intros I fuel HF; (destruct fuel as [|fuel]; [simpl in HF; lia|]).
    - pose proof (AT _ (I _ (or_introl eq_refl))) as E. cbn [xid] in *. exists l, (from_xgboost_node rd fmap (XLeaf i l c)). simpl. rewrite E. simpl. auto.
    - pose proof (I _ (or_introl eq_refl)) as ME. pose proof (AT _ ME) as E. destruct (PR _ _ _ _ _ _ _ _ _ _ ME) as (P1 & P2 & P3).
      destruct (CE _ _ _ _ _ _ _ _ _ _ ME) as (z & C1 & C2 & C3). rewrite xeval_split, C1. cbn [bind xid walk] in *. rewrite E. cbn [bind from_xgboost_node n_is_leaf n_split_feature].
      rewrite C2. cbn [bind]. unfold get_child_idx, is_missing. rewrite MI. cbn [bind n_missing n_split_value n_left n_right].
      set (next := if fisnan f64 z then mi else if (to32 z <? to32 v)%f32 then y else n).
      assert (EN : (if fisnan f64 z then mi else if (z <? to64 (to32 v))%f64 then y else n) = next).
      { unfold next. rewrite <- widen. now rewrite <- C3. }
      rewrite EN. destruct (pick_child_in next cs) as (k & EK & IK & XK).
      { unfold next. destruct (fisnan f64 z); auto. destruct (to32 z <? to32 v)%f32; auto. }
      rewrite EK. cbn [bind]. rewrite <- XK. apply IH; auto.
      + intros w Hw. apply I. apply (flat_sub (XSplit i d s v g c y n mi cs) k IK). exact Hw.
      + pose proof (flat_size (XSplit i d s v g c y n mi cs) k IK). lia. }
  apply G; [apply incl_refl|auto].
Qed.

(** *** The whole model *)
Lemma rmapM_F2 : forall A B (f : A -> res B) l r, rmapM f l = Some (inl r) -> Forall2 (fun a b => f a = Some (inl b)) l r.
Proof.
  induction l as [|a l IH]; simpl; intros r H; [injection H as <-; constructor|]. inv_bind H. destruct v as [y|e]; [|discriminate]. inv_bind H.
  destruct v as [ys|e]; [|discriminate]. injection H as <-. constructor; auto.
Qed.
Definition xsum (rd : F64 -> F32) (cell : pykey -> option F64) (ts : list xnode) (base : F64) : option F64 :=
  fold_left (fun acc t => let* a := acc in let* l := xeval cell t in Some (a + to64 (rd l))%f64) ts (Some base).
(** a row as the xgboost model sees it: the value of the column with that name *)
Definition x_cell (features : list pykey) (row : list F64) (f : pykey) : option F64 :=
  match positions f features with [i] => nth_error row i | _ => None end.
Theorem model_import : forall pc rd maxsize x m features, from_xgboost_model pc rd maxsize x = Some (inl m) -> x_features x = Some features -> NoDup features ->
  fisnan f64 (fnan f64) = true ->
  (forall t, In t (x_trees x) -> xid t = 0 /\ proper t /\ forall i d s v g c y n mi cs, In (XSplit i d s v g c y n mi cs) (xflat t) -> In s features) ->
  forall shs X par, frame_ok X -> x_cols X = List.length features -> columns X = [] \/ columns X = features ->
  (forall row z, In row (x_rows X) -> In z row -> z = to64 (to32 z)) ->
  py_names m = Some features /\ py_n_features m = Some (List.length features) /\
  exists p, py_predict shs m X par = Some (inl p) /\
    Forall2 (fun row v => xsum rd (x_cell features row) (x_trees x)
       (if x_logistic x then fln (x_base x / (fone f64 - x_base x))%f64 else x_base x) = Some v) (x_rows X) p.
Proof.
  intros pc rd maxsize x m features H HF ND NN HT shs X par HX HC HN HV. unfold from_xgboost_model in H. inv_bind H. destruct v as [trees|e]; [|discriminate].
  destruct (x_wrapped x); [|discriminate]. cbn [negb] in H. destruct (_ && _)%bool; [discriminate|]. set (base := if x_logistic x then _ else x_base x) in *. injection H as H.
  destruct (py_new pc (py_defaults maxsize)) as [c|e] eqn:EC; [|discriminate]. cbn [ebind] in H. destruct (is_finite f64 base); [|discriminate]. injection H as <-.
  assert (PM : p_missing (gb_params (py_booster c)) = fnan f64 /\ gb_pred (py_booster c) = None).
  { apply py_init_spec in EC. destruct EC as (d & _ & _ & ->). split; reflexivity. }
  destruct PM as [PM PP]. rewrite HF. split; [reflexivity|]. split; [reflexivity|].
  unfold py_predict. rewrite predict_frame by auto.
  assert (V : forall A (r : res A), if_valid (mkPyModel (mkBooster (gb_params (py_booster c)) base (gb_history (py_booster c)) (gb_best (py_booster c)) (gb_pred (py_booster c)) trees
     (gb_metadata (py_booster c))) (py_params c) (Some features) (option_map (@List.length _) (Some features))) X r = r).
  { intros A r. unfold if_valid, validate_features. cbn [py_names]. destruct (columns X) as [|k cs]; auto. destruct HN as [HN|HN]; [discriminate|]. rewrite HN.
    now rewrite (proj2 (keys_eqb_eq _ _) eq_refl). }
  rewrite V. cbn [py_booster gb_params gb_base_score]. rewrite PM.
  assert (PT : prediction_trees (mkBooster (gb_params (py_booster c)) base (gb_history (py_booster c)) (gb_best (py_booster c)) (gb_pred (py_booster c)) trees
     (gb_metadata (py_booster c))) = Some trees).
  { unfold prediction_trees. cbn [gb_pred gb_trees]. rewrite PP. unfold slice. rewrite Nat.leb_refl. simpl. rewrite Nat.sub_0_r, firstn_all. reflexivity. }
  rewrite PT. cbn [bind]. apply rmapM_F2 in E.
  assert (ROW : forall row, In row (x_rows X) -> exists v, score (fnan f64) trees (nth_error row) base = Some v /\ xsum rd (x_cell features row) (x_trees x) base = Some v).
  { intros row HR. unfold score, xsum. generalize base as acc. clear PT V.
    assert (HT' := HT). clear HT. induction E as [|t nodes ts ns H1 E IH]; intros acc; simpl; [eauto|].
    destruct (HT' t (or_introl eq_refl)) as (T1 & T2 & T3).
    destruct (tree_import rd (x_feature_map x) t nodes (x_cell features row) (nth_error row) (fnan f64) H1 T1 T2 NN) as (l & n & E1 & E2 & E3 & E4).
    - intros i d s v g c0 y n mi cs HS. apply T3 in HS. apply In_nth_error in HS. destruct HS as [j Hj].
      assert (LJ : j < List.length row). { rewrite (proj1 HX row HR), HC. eapply nth_error_Some_lt; eauto. }
      destruct (nth_error_lt row LJ) as [z Hz]. exists z. unfold x_cell. rewrite (positions_one _ _ _ ND Hj). split; [exact Hz|]. split.
      + unfold x_feature_map. rewrite HF. rewrite (feature_map_get features s j ND Hj). exact Hz.
      + eapply HV; eauto. eapply nth_error_In; eauto.
    - rewrite E1, E2. cbn [bind]. rewrite E3. apply IH. intros t' Ht'. apply HT'. right. auto. }
  assert (FIN : exists p, mapM (fun row => score (fnan f64) trees (nth_error row) base) (x_rows X) = Some p /\
    Forall2 (fun row v => xsum rd (x_cell features row) (x_trees x) base = Some v) (x_rows X) p).
  { clear - ROW. induction (x_rows X) as [|r rs IH]; simpl; [eexists; split; [reflexivity|constructor]|].
    destruct (ROW r (or_introl eq_refl)) as (v & -> & E). destruct IH as (p & -> & F); [intros; apply ROW; right; auto|]. simpl. eexists. split; [reflexivity|]. constructor; auto. }
  destruct FIN as (p & -> & F). exists p. auto.
Qed.
End Xgb.
