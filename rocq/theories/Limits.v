(** A limit on leaves or depth that no tree reaches makes no difference. *)
From Coq Require Import List Arith NArith Lia Bool.
From Verif Require Import Prelude Float Data Utils Binning BinMatrix Histogram Node Splitter Tree GrowProofs GrowInv GrowStep TreeWf TreeProofs FitProofs
  Objective Metric Sampler Booster PredictProofs BoostProofs Neutral.
Import ListNotations.

Section Limits.
Context {FS : Floats}.
Variables (policy : GrowPolicy) (pick : pick_fn) (s : Splitter) (t : Train).

Definition depths (st : Grow) : list nat := map n_depth (g_nodes st).
Definition queued (st : Grow) : Prop := forall n, In n (g_pending st) -> In (sn_depth n) (depths st).

Lemma update_depths : forall (l : list Node) i x l' old, nth_error l i = Some old -> update l i x = Some l' -> n_depth x = n_depth old ->
  map n_depth l' = map n_depth l.
Proof.
  induction l as [|a l IH]; intros [|i] x l' old H U D; try discriminate; cbn in *.
  - injection H as ->. injection U as <-. cbn. congruence.
  - destruct (update l i x) as [r|] eqn:E; [|discriminate]. injection U as <-. cbn. f_equal. eapply IH; eauto.
Qed.
Lemma drop_incl : forall (k : list SplittableNode) i, incl (firstn i k ++ skipn (S i) k) k.
Proof.
  intros k i x Hx. rewrite <- (firstn_skipn i k). apply in_or_app. apply in_app_or in Hx. destruct Hx as [Hx|Hx]; [left; exact Hx|right].
  revert k Hx. induction i as [|i IH]; intros [|b k] Hx; cbn in *; auto.
Qed.
Lemma pop_in : forall step l n rest, pop_node policy pick step l = Some (n, rest) -> In n l /\ incl rest l.
Proof.
  intros step [|a l] n rest H; cbn [pop_node] in H; [discriminate|]. destruct policy.
  - injection H as <- <-. split; [left; reflexivity|apply incl_tl, incl_refl].
  - inv_bind H. injection H as <- <-. split; [eapply nth_error_In; exact E|].
    exact (drop_incl _ _).
Qed.
Lemma node_grows : forall md n rest st st', 1 <= g_n_leaves st -> queued st -> In n (g_pending st) -> incl rest (g_pending st) ->
  grow_node s t md n (mkGrow (g_nodes st) rest (g_index st) (g_n_nodes st) (g_n_leaves st)) = Some st' ->
  g_n_leaves st <= g_n_leaves st' /\ incl (depths st) (depths st') /\ queued st'.
Proof.
  intros md n rest st st' L Q IN IC H. unfold grow_node in H. cbn [g_n_leaves g_n_nodes g_nodes g_index g_pending] in H.
  destruct (md <? sn_depth n + 1).
  - injection H as <-. cbn [g_n_leaves]. unfold depths. cbn [g_nodes]. split; [lia|]. split; [apply incl_refl|].
    intros x Hx. apply Q. apply IC. exact Hx.
  - inv_bind H. destruct v as [[new node'] index]. destruct new as [|a new].
    + injection H as <-. cbn [g_n_leaves]. unfold depths. cbn [g_nodes]. split; [lia|]. split; [apply incl_refl|].
      intros x Hx. apply Q. apply IC. exact Hx.
    + inv_bind H. inv_bind H. injection H as <-. unfold push_children, depths. cbn [g_n_leaves g_nodes g_pending].
      assert (D : map n_depth v0 = depths st) by (eapply update_depths; [exact E0|exact E1|reflexivity]).
      split; [cbn [length]; lia|]. split; [rewrite map_app, D; apply incl_appl, incl_refl|].
      intros x Hx. unfold depths. cbn [g_nodes g_pending] in *. rewrite map_app, D. apply in_or_app. apply in_app_or in Hx. destruct Hx as [Hx|Hx].
      * left. apply Q. apply IC. exact Hx.
      * right. apply filter_In in Hx. destruct Hx as [Hx _]. rewrite map_map. apply in_map_iff. exists x. split; [reflexivity|exact Hx].
Qed.
Lemma loop_grows : forall ml md fuel st st', grow_loop fuel policy pick s t ml md st = Some st' -> 1 <= g_n_leaves st -> queued st ->
  g_n_leaves st <= g_n_leaves st' /\ incl (depths st) (depths st').
Proof.
  intros ml md. induction fuel as [|fuel IH]; intros st st' H L Q; cbn [grow_loop] in H.
  - destruct (g_pending st); [injection H as <-; split; [lia|apply incl_refl]|].
    destruct (ml <? _); [|discriminate]. injection H as <-; split; [lia|apply incl_refl].
  - destruct (g_pending st) as [|n0 ns] eqn:EP; [injection H as <-; split; [lia|apply incl_refl]|].
    destruct (ml <? _); [injection H as <-; split; [lia|apply incl_refl]|]. rewrite <- EP in H.
    inv_bind H. destruct v as [node rest]. inv_bind H. rename v into st1.
    destruct (pop_in _ _ _ _ E) as [P1 P2].
    destruct (node_grows md node rest st st1 L Q P1 P2 E0) as (G1 & G2 & G3).
    destruct (IH st1 st' H ltac:(lia) G3) as [I1 I2]. split; [lia|]. eapply incl_tran; eauto.
Qed.

(** The heap's choice does not depend on the count of turns that the model hands to it. *)
Definition steady : Prop := policy = DepthWise \/ forall a b l, pick a l = pick b l.
Lemma pop_steady : forall a b l, a = b \/ steady -> pop_node policy pick a l = pop_node policy pick b l.
Proof.
  intros a b l [->|[D|D]]; [reflexivity| |]; unfold pop_node; destruct l as [|x l]; try reflexivity.
  - rewrite D. reflexivity.
  - rewrite (D a b). reflexivity.
Qed.

Variables (ml md ml' md' : nat).
Lemma loop_limits : forall fuel fuel' st st', fuel <= fuel' -> fuel = fuel' \/ steady -> 1 <= g_n_leaves st -> queued st ->
  grow_loop fuel policy pick s t ml md st = Some st' ->
  ml' = ml \/ (g_n_leaves st' < ml /\ g_n_leaves st' < ml') ->
  md' = md \/ (forall d, In d (depths st') -> d < md /\ d < md') ->
  grow_loop fuel' policy pick s t ml' md' st = Some st'.
Proof.
  induction fuel as [|fuel IH]; intros fuel' st st' HF HS L Q H HL HD.
  - assert (G : match g_pending st with [] => True | _ => (ml' <? g_n_leaves st + new_leaves_added s) = true end /\ st' = st).
    { cbn [grow_loop] in H. destruct (g_pending st); [injection H as <-; auto|].
      destruct (ml <? g_n_leaves st + new_leaves_added s) eqn:EL; [|discriminate]. injection H as <-. split; [|reflexivity].
      destruct HL as [->|[HL _]]; [exact EL|]. apply Nat.ltb_lt in EL. unfold new_leaves_added in EL. lia. }
    destruct G as [G ->]. destruct fuel'; cbn [grow_loop]; destruct (g_pending st); auto; rewrite G; reflexivity.
  - destruct fuel' as [|fuel']; [lia|]. cbn [grow_loop] in *. destruct (g_pending st) as [|n0 ns] eqn:EP; [exact H|].
    destruct (ml <? g_n_leaves st + new_leaves_added s) eqn:EL.
    + injection H as <-. destruct HL as [->|[HL _]]; [rewrite EL; reflexivity|]. apply Nat.ltb_lt in EL. unfold new_leaves_added in EL. lia.
    + rewrite <- EP in *. inv_bind H. destruct v as [node rest]. inv_bind H. rename v into st1.
      destruct (pop_in _ _ _ _ E) as [P1 P2].
      destruct (node_grows md node rest st st1 L Q P1 P2 E0) as (G1 & G2 & G3).
      destruct (loop_grows _ _ _ _ _ H ltac:(lia) G3) as [I1 I2].
      assert (EL' : (ml' <? g_n_leaves st + new_leaves_added s) = false).
      { destruct HL as [->|[_ HL]]; [exact EL|]. apply Nat.ltb_ge. unfold new_leaves_added. lia. }
      rewrite EL'. rewrite <- (pop_steady (S fuel) (S fuel')) by (destruct HS as [HS|HS]; [left; exact HS|right; exact HS]).
      rewrite E. cbn [bind].
      assert (EN : grow_node s t md' node (mkGrow (g_nodes st) rest (g_index st) (g_n_nodes st) (g_n_leaves st)) = Some st1).
      { rewrite <- E0. destruct HD as [->|HD]; [reflexivity|].
        destruct (HD (sn_depth node)) as [D1 D2]; [apply I2, G2, Q, P1|].
        unfold grow_node. destruct (Nat.ltb_spec md (sn_depth node + 1)); [lia|]. destruct (Nat.ltb_spec md' (sn_depth node + 1)); [lia|]. reflexivity. }
      rewrite EN. cbn [bind]. apply IH; auto; [lia|destruct HS as [HS|HS]; [left; lia|right; exact HS]|lia].
Qed.

(** The same for a tree: what counts is read off the finished tree. *)
Theorem tree_limits : forall index sm nodes st, tree_fit policy pick s t index ml md sm = Some (nodes, st) ->
  ml' = ml \/ (n_leaves nodes < ml /\ n_leaves nodes < ml') ->
  md' = md \/ (md < md' /\ (forall n, In n nodes -> n_depth n < md) /\ steady) ->
  tree_fit policy pick s t index ml' md' sm = Some (nodes, st).
Proof.
  intros index sm nodes st H HL HD. pose proof H as H0. apply fit_account in H0. destruct H0 as (root & g & HR & I & L & P & C & S).
  assert (NL : n_leaves nodes = g_n_leaves st).
  { rewrite (same_shape_n_leaves _ _ S), (INV_n_leaves _ _ _ _ _ _ _ I), <- (iv_leaves _ _ _ _ _ _ _ I). reflexivity. }
  assert (DS : depths st = map n_depth nodes).
  { unfold depths. clear - S. induction S as [|x y a b R S IH]; [reflexivity|]. cbn [map]. apply reweighted_eq in R. destruct R as (_ & _ & -> & _). f_equal. exact IH. }
  unfold tree_fit in *. inv_bind H. rename v into root0. inv_bind H. rename v into st0. inv_bind H. injection H as -> ->.
  rewrite E. cbn [bind].
  rewrite (loop_limits (grow_fuel md) (grow_fuel md') (grow_init s root0 index) st).
  - cbn [bind]. rewrite E1. reflexivity.
  - unfold grow_fuel. destruct HD as [->|(HD & _)]; [lia|]. apply Nat.pow_le_mono_r; lia.
  - destruct HD as [->|(_ & _ & HD)]; [left; reflexivity|right; exact HD].
  - cbn. lia.
  - intros n [<-|[]]. unfold depths. cbn. left. reflexivity.
  - exact E0.
  - rewrite <- NL. exact HL.
  - destruct HD as [->|(H1 & HD & _)]; [left; reflexivity|]. right. intros d Hd. rewrite DS in Hd. apply in_map_iff in Hd. destruct Hd as (n & <- & Hn).
    specialize (HD n Hn). lia.
Qed.
End Limits.

Section Fit.
Context {FS : Floats}.
Definition p_limits (ml md : nat) (p : Params) : Params :=
  mkParams (p_objective p) (p_iterations p) (p_learning_rate p) md ml (p_l1 p) (p_l2 p) (p_gamma p) (p_max_delta_step p)
    (p_min_leaf_weight p) (p_nbins p) (p_parallel p) (p_allow_missing_splits p) (p_monotone_constraints p) (p_subsample p) (p_top_rate p)
    (p_other_rate p) (p_colsample_bytree p) (p_seed p) (p_missing p) (p_create_missing_branch p) (p_sample_method p) (p_grow_policy p)
    (p_evaluation_metric p) (p_early_stopping_rounds p) (p_initialize_base_score p) (p_terminate_missing_features p)
    (p_missing_node_treatment p) (p_log_iterations p) (p_force_children_to_bound_parent p).

Theorem fit_limits : forall E b data y w es b' ml' md', let p := gb_params b in
  fit E b data y w es = Some (b', None) ->
  ml' = p_max_leaves p \/ (forall t, In t (gb_trees b') -> n_leaves t < p_max_leaves p /\ n_leaves t < ml') ->
  md' = p_max_depth p \/ (p_max_depth p < md' /\ (forall t n, In t (gb_trees b') -> In n t -> n_depth n < p_max_depth p) /\
     (p_grow_policy p = DepthWise \/ forall i m n l, e_pick E i m l = e_pick E i n l)) ->
  fit E (b_with (p_limits ml' md' p) b) data y w es = Some (b_with (p_limits ml' md' p) b', None).
Proof.
  intros E b data y w es b' ml' md' p H HL HD.
  apply (fit_with (fun t => (ml' = p_max_leaves p \/ (n_leaves t < p_max_leaves p /\ n_leaves t < ml')) /\
      (md' = p_max_depth p \/ (p_max_depth p < md' /\ (forall n, In n t -> n_depth n < p_max_depth p) /\
        (p_grow_policy p = DepthWise \/ forall i m n l, e_pick E i m l = e_pick E i n l)))) E b (b_with (p_limits ml' md' p) b) data y w es b').
  - constructor; cbn; auto.
  - left. destruct b. reflexivity.
  - intros bd i n grad hess nodes g h n' G [PL PD]. cbn [b_with gb_params]. unfold grown in *. fold p in G.
    change (sample_index E (p_limits ml' md' p)) with (sample_index E p). inv_bind G. destruct v as [[[chosen g1] h1] n1]. rewrite E0. cbn [bind].
    change (column_sample E (p_limits ml' md' p)) with (column_sample E p). destruct (column_sample E p n1 (m_cols data)) as [cols n2].
    change (splitter_of (p_limits ml' md' p)) with (splitter_of p). cbn [p_limits p_grow_policy p_max_leaves p_max_depth p_sample_method].
    inv_bind G. destruct v as [nodes1 st]. injection G as -> -> -> ->.
    rewrite (tree_limits (p_grow_policy p) (e_pick E i) (splitter_of p) _ (p_max_leaves p) (p_max_depth p) ml' md' _ _ nodes st E1 PL).
    + reflexivity.
    + destruct PD as [PD|(P1 & P2 & P3)]; [left; exact PD|]. right. split; [exact P1|]. split; [exact P2|].
      destruct P3 as [P3|P3]; [left; exact P3|right; intros; apply P3].
  - exact H.
  - intros t Ht. split.
    + destruct HL as [HL|HL]; [left; exact HL|right; apply HL; exact Ht].
    + destruct HD as [HD|(D1 & D2 & D3)]; [left; exact HD|right]. split; [exact D1|]. split; [intros n Hn; eapply D2; eauto|exact D3].
Qed.
End Fit.
