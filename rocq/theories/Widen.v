(** Growing a tree on a matrix with one more column, when the search never takes that column, gives
    the same tree (any float arithmetic). *)
From Coq Require Import List Arith Lia Bool Permutation Sorting.
From Verif Require Import Prelude Float FloatLaws OrdProofs Data DataProofs Utils Histogram HistogramProofs Node Splitter SplitProofs Tree Sim Recode Twin.
Import ListNotations.

Lemma slice_prefix : forall A (l e : list A) i j r, slice l i j = Some r -> slice (l ++ e) i j = Some r.
Proof.
  intros A l e i j r H. unfold slice in *. destruct ((i <=? j) && (j <=? length l)) eqn:B; [|discriminate].
  apply andb_true_iff in B. destruct B as [B1 B2]. apply Nat.leb_le in B1, B2.
  replace ((i <=? j) && (j <=? length (l ++ e))) with true
    by (symmetry; apply andb_true_iff; split; apply Nat.leb_le; rewrite ?app_length; lia).
  rewrite <- H. f_equal. rewrite skipn_app, firstn_app, skipn_length.
  replace (j - i - (length l - i)) with 0 by lia. simpl. rewrite app_nil_r. reflexivity.
Qed.
Lemma combine_app : forall A B (a a' : list A) (b b' : list B), length a = length b ->
  combine (a ++ a') (b ++ b') = combine a b ++ combine a' b'.
Proof. induction a as [|x a IH]; intros a' [|y b] b' L; simpl in *; try discriminate; auto. f_equal. auto. Qed.

Section Widen.
Context {FS : Floats}.
Variables (s : Splitter) (data data' : Matrix nat) (cuts cuts' : Jagged F64) (grad hess : list F32) (cols : list nat) (c : nat).
Variables (fcols fcols' : list (list nat)) (ccols ccols' : list (list F64)).
Hypothesis HI : hist_inputs data cuts grad hess cols fcols ccols.
Hypothesis HI' : hist_inputs data' cuts' grad hess (cols ++ [c]) fcols' ccols'.
Hypothesis HR : m_rows data' = m_rows data.
Hypothesis HD : forall f, In f cols -> m_get_col data' f = m_get_col data f.
Hypothesis HF : forall f, In f cols -> fcol fcols' f = fcol fcols f.
Hypothesis HC : forall f, In f cols -> ccol ccols' f = ccol ccols f.

Let t := mkTrain data cuts grad hess cols.
Let t' := mkTrain data' cuts' grad hess (cols ++ [c]).
Notation lay := (layout data cuts cols ccols).
Notation lay' := (layout data' cuts' (cols ++ [c]) ccols').

(** a property of the histograms of the wide matrix that keeps the new column from being chosen *)
Variable T : HistogramMatrix -> Prop.
Hypothesis T_one : forall p h, T p -> T h -> T (hist_from_parent_child p h).
Hypothesis T_two : forall p a b, T p -> T a -> T b -> T (hist_from_parent_two_children p a b).
Hypothesis T_spec : forall L, T (hist_spec data' cuts' grad hess (cols ++ [c]) fcols' ccols' L).
Hypothesis T_best : forall n, T (sn_hist n) -> best_split s n (cols ++ [c]) = best_split s n cols.

Definition wrel (h h' : HistogramMatrix) : Prop :=
  lay h /\ lay' h' /\ T h' /\ exists e, j_data h' = j_data h ++ e.

Lemma ends_wide : exists x, hist_ends (cols ++ [c]) ccols' = hist_ends cols ccols ++ [x].
Proof.
  unfold hist_ends. rewrite map_app, psums_app. simpl. eexists. do 2 f_equal. apply map_ext_in. intros f Hf. rewrite HC; auto.
Qed.

Lemma wrel_col : forall h h', wrel h h' -> forall idx f, nth_error cols idx = Some f ->
  exists col, j_get_col h idx = Some col /\ j_get_col h' idx = Some col.
Proof.
  intros h h' (L & L' & _ & e & ED) idx f Hf.
  destruct (layout_lookup _ _ _ _ _ _ _ HI h L idx f Hf) as (col & E & _). exists col. split; auto.
  destruct ends_wide as [x EW]. destruct L as (_ & L & _). destruct L' as (_ & L' & _).
  unfold j_get_col in *. rewrite L', EW, app_length. rewrite <- L.
  destruct (idx <? length (j_ends h)) eqn:EI; [|discriminate]. apply Nat.ltb_lt in EI.
  replace (idx <? length (j_ends h) + length [x]) with true by (symmetry; apply Nat.ltb_lt; lia).
  rewrite nth_error_app1 by auto. inv_bind E. rewrite E0. cbn [bind].
  replace (match idx with 0 => Some 0 | S c0 => nth_error (j_ends h ++ [x]) c0 end) with
    (match idx with 0 => Some 0 | S c0 => nth_error (j_ends h) c0 end)
    by (destruct idx; auto; rewrite nth_error_app1 by lia; auto).
  inv_bind E. rewrite E1. cbn [bind]. rewrite ED. apply slice_prefix; auto.
Qed.

Lemma wrel_hist : forall h h', wrel h h' -> hist_rel (fun _ v => v) cols h h'.
Proof.
  intros h h' W idx f Hf. destruct (wrel_col _ _ W idx f Hf) as (col & E & E'). exists col, col.
  split; auto. split; auto. split; auto. rewrite map_id. reflexivity.
Qed.

Lemma wrel_best : forall n n', search_same n n' -> wrel (sn_hist n) (sn_hist n') ->
  best_split s n' (cols ++ [c]) = best_split s n cols.
Proof.
  intros n n' S W. rewrite T_best by apply W.
  rewrite (best_split_rel (fun _ v => v) cols s n n' S (wrel_hist _ _ W)).
  destruct (best_split s n cols) as [[[]|]|]; reflexivity.
Qed.

Lemma spec_wrel : forall L, wrel (hist_spec data cuts grad hess cols fcols ccols L) (hist_spec data' cuts' grad hess (cols ++ [c]) fcols' ccols' L).
Proof.
  intros L. split; [apply (layout_spec _ _ _ _ _ _ _ HI)|]. split; [apply (layout_spec _ _ _ _ _ _ _ HI')|]. split; auto.
  simpl. unfold hist_cols. rewrite map_app, concat_app. eexists. f_equal. f_equal. apply map_ext_in. intros f Hf.
  rewrite HF, HC by auto. reflexivity.
Qed.

Lemma hist_of_wide : forall L h, hist_of t L = Some h -> exists h', hist_of t' L = Some h' /\ wrel h h'.
Proof.
  intros L h H.
  assert (IR : forall i, In i L -> i < m_rows data).
  { unfold hist_of, hist_new_serial, sort_gh in H. simpl in H. inv_bind H. destruct v as [sg sh]. inv_bind E. rewrite <- (hi_grad _ _ _ _ _ _ _ HI).
    intros i Hi. apply mapM_Forall2 in E0. clear - E0 Hi. induction E0 as [|x y l r Hxy F IH]; [destruct Hi|].
    destruct Hi as [->|Hi]; auto. apply nth_error_Some. simpl in Hxy. congruence. }
  unfold hist_of in *. simpl in *. rewrite (hist_new_sorted _ _ _ _ _ _ _ HI) in H by auto.
  rewrite (hist_new_sorted _ _ _ _ _ _ _ HI') by (rewrite HR; auto). injection H as <-. eexists. split; [reflexivity|]. apply spec_wrel.
Qed.

Lemma wrel_child : forall p p' h h', wrel p p' -> wrel h h' -> wrel (hist_from_parent_child p h) (hist_from_parent_child p' h').
Proof.
  intros p p' h h' (P1 & P2 & P3 & e1 & P4) (C1 & C2 & C3 & e2 & C4). split; [apply layout_parent_child; auto|].
  split; [apply layout_parent_child; auto|]. split; auto.
  simpl. rewrite P4, C4, combine_app, map_app by (eapply layout_length; eauto). eauto.
Qed.
Lemma wrel_two : forall p p' a a' b b', wrel p p' -> wrel a a' -> wrel b b' ->
  wrel (hist_from_parent_two_children p a b) (hist_from_parent_two_children p' a' b').
Proof.
  intros p p' a a' b b' (P1 & P2 & P3 & e1 & P4) (A1 & A2 & A3 & e2 & A4) (B1 & B2 & B3 & e3 & B4).
  split; [apply layout_parent_two; auto|]. split; [apply layout_parent_two; auto|]. split; auto.
  simpl. pose proof (layout_length _ _ _ _ _ _ P1 A1). pose proof (layout_length _ _ _ _ _ _ P1 B1).
  rewrite P4, A4, B4, !combine_app, map_app by (rewrite ?combine_length; lia). eauto.
Qed.

(** *** Nodes *)
Record srel (n n' : SplittableNode) : Prop := mkSrel {
  sr_num : sn_num n' = sn_num n; sr_weight : sn_weight n' = sn_weight n; sr_gain : sn_gain n' = sn_gain n;
  sr_grad : sn_grad n' = sn_grad n; sr_hess : sn_hess n' = sn_hess n; sr_depth : sn_depth n' = sn_depth n;
  sr_value : sn_split_value n' = sn_split_value n; sr_feature : sn_split_feature n' = sn_split_feature n;
  sr_sgain : sn_split_gain n' = sn_split_gain n; sr_missing : sn_missing_node n' = sn_missing_node n;
  sr_left : sn_left_child n' = sn_left_child n; sr_right : sn_right_child n' = sn_right_child n;
  sr_start : sn_start n' = sn_start n; sr_stop : sn_stop n' = sn_stop n;
  sr_lower : sn_lower n' = sn_lower n; sr_upper : sn_upper n' = sn_upper n;
  sr_leaf : sn_is_leaf n = true /\ sn_is_leaf n' = true; sr_ml : sn_is_missing_leaf n' = sn_is_missing_leaf n;
  sr_hist : sn_is_missing_leaf n = false -> wrel (sn_hist n) (sn_hist n') }.

Lemma srel_search : forall n n', srel n n' -> search_same n n'.
Proof. intros n n' []. constructor; auto. Qed.

Lemma srel_as_node : forall n n' lr, srel n n' -> as_node n' lr = as_node n lr.
Proof.
  intros n n' lr []. destruct sr_leaf0 as [L L']. unfold as_node, map_node. simpl. rewrite L.
  rewrite sr_num0, sr_weight0, sr_hess0, sr_depth0, sr_value0, sr_feature0, sr_sgain0, sr_missing0, sr_left0, sr_right0, L'. reflexivity.
Qed.

Lemma info_srel : forall num h h' depth start stop i, wrel h h' ->
  srel (from_node_info num h depth start stop i) (from_node_info num h' depth start stop i).
Proof. intros. constructor; simpl; auto. Qed.

(** the parent after a split *)
Definition prel (n n' : SplittableNode) : Prop :=
  forall old, make_parent_node old n' = make_parent_node old n.

Lemma parent_rel : forall n n' m l r si, srel n n' ->
  prel (update_children n m l r si) (update_children n' m l r si).
Proof.
  intros n n' m l r si S old. unfold make_parent_node, update_children, map_node. simpl.
  unfold get_split_gain. simpl. rewrite (sr_gain _ _ S). reflexivity.
Qed.

Lemma handle_imputer_rel : forall si nn n n' index new nd idx, In (si_feature si) cols -> srel n n' -> sn_is_missing_leaf n = false ->
  handle_imputer t si nn n index = Some (new, nd, idx) ->
  exists new' nd', handle_imputer t' si nn n' index = Some (new', nd', idx) /\ Forall2 srel new new' /\ prel nd nd'.
Proof.
  intros si nn n n' index new nd idx IF S ML H. unfold handle_imputer in *. simpl in *.
  destruct (match si_missing si with MLeft => Some false | MRight => Some true | _ => None end) as [mr|]; [|discriminate]. cbn [bind] in *.
  rewrite (sr_start _ _ S), (sr_stop _ _ S), (sr_depth _ _ S).
  inv_bind H. rewrite E. cbn [bind]. rename v into sub. inv_bind H. rewrite HD, E0 by auto. cbn [bind]. rename v into f.
  inv_bind H. rewrite E1. destruct v as [sub2 sp]. cbn [bind] in *.
  destruct (sp <=? sn_stop n - sn_start n); [|discriminate].
  assert (HH := sr_hist _ _ S ML).
  inv_bind H. destruct v as [lh rh]. 
  assert (X : exists lh' rh',
     (if sn_stop n - sn_start n - (sn_stop n - sn_start n - sp) <? sn_stop n - sn_start n - sp
      then let* l := let* sub := slice (splice index (sn_start n) sub2) (sn_start n) (sp + sn_start n) in hist_of t' sub in
           Some (l, hist_from_parent_child (sn_hist n') l)
      else let* r := let* sub := slice (splice index (sn_start n) sub2) (sp + sn_start n) (sn_stop n) in hist_of t' sub in
           Some (hist_from_parent_child (sn_hist n') r, r)) = Some (lh', rh') /\ wrel lh lh' /\ wrel rh rh').
  { destruct (_ <? _).
    - inv_bind E2. injection E2 as <- <-. inv_bind E3. destruct (hist_of_wide _ _ E3) as (h' & EH & R).
      rewrite E2. cbn [bind]. rewrite EH. cbn [bind]. eexists _, _. split; [reflexivity|]. split; auto. apply wrel_child; auto.
    - inv_bind E2. injection E2 as <- <-. inv_bind E3. destruct (hist_of_wide _ _ E3) as (h' & EH & R).
      rewrite E2. cbn [bind]. rewrite EH. cbn [bind]. eexists _, _. split; [reflexivity|]. split; auto. apply wrel_child; auto. }
  destruct X as (lh' & rh' & EX & RL & RR). rewrite EX. cbn [bind].
  injection H as <- <- <-. eexists _, _. split; [reflexivity|]. split.
  - repeat (constructor; [constructor; simpl; auto|]). constructor.
  - apply parent_rel; auto.
Qed.

Lemma handle_branch_rel : forall p term tr si nn n n' index new nd idx, In (si_feature si) cols -> srel n n' -> sn_is_missing_leaf n = false ->
  handle_branch p term tr t si nn n index = Some (new, nd, idx) ->
  exists new' nd', handle_branch p term tr t' si nn n' index = Some (new', nd', idx) /\ Forall2 srel new new' /\ prel nd nd'.
Proof.
  intros p term tr si nn n n' index new nd idx IF S ML H. unfold handle_branch in *.
  simpl in H. simpl. 
  destruct (match si_missing si with MBranch i => Some (existsb (Nat.eqb (si_feature si)) term, i) | MLeaf i => Some (true, i) | _ => None end)
    as [[mleaf info]|]; [|discriminate]. cbn [bind] in *.
  rewrite (sr_start _ _ S), (sr_stop _ _ S), (sr_depth _ _ S), (sr_weight _ _ S).
  inv_bind H. rewrite E. cbn [bind]. rename v into sub. inv_bind H. rewrite HD, E0 by auto. cbn [bind]. rename v into f.
  inv_bind H. rewrite E1. destruct v as [sub2 [ms sp]]. cbn [bind] in *.
  destruct (sp <=? sn_stop n - sn_start n); [|discriminate].
  destruct (_ <=? sn_stop n - sn_start n); [|discriminate].
  assert (HH := sr_hist _ _ S ML).
  inv_bind H. destruct v as [[[ml mh] lh] rh]. cbn [fst snd] in *.
  match type of E2 with (if ?a then (if ?b then _ else _) else (if ?c then _ else (if ?d then _ else _))) = _ =>
    set (A := a) in *; set (B := b) in *; set (C := c) in *; set (D := d) in * end.

  assert (HO : forall i j h, (let* sub := slice (splice index (sn_start n) sub2) i j in hist_of t sub) = Some h ->
     exists h', (let* sub := slice (splice index (sn_start n) sub2) i j in hist_of t' sub) = Some h' /\ wrel h h').
  { intros i j h Hh. inv_bind Hh. rewrite E3. cbn [bind]. apply hist_of_wide; auto. }
  match goal with |- exists new' nd', bind ?e _ = _ /\ _ => assert (X : exists mh' lh' rh', e = Some (ml, mh', lh', rh') /\
      (ml = false -> wrel mh mh') /\ wrel lh lh' /\ wrel rh rh') end.
  { destruct A; [destruct B|destruct C; [|destruct D]].
    - inv_bind E2. injection E2 as <- <- <- <-. destruct (HO _ _ _ E3) as (h' & -> & R). cbn [bind].
      eexists _, _, _. split; [reflexivity|]. split; [discriminate|]. split; auto. apply wrel_child; auto.
    - inv_bind E2. injection E2 as <- <- <- <-. destruct (HO _ _ _ E3) as (h' & -> & R). cbn [bind].
      eexists _, _, _. split; [reflexivity|]. split; [discriminate|]. split; auto. apply wrel_child; auto.
    - inv_bind E2. inv_bind E2. injection E2 as <- <- <- <-. destruct (HO _ _ _ E3) as (h' & -> & R). cbn [bind].
      destruct (HO _ _ _ E4) as (h2 & -> & R2). cbn [bind].
      eexists _, _, _. split; [reflexivity|]. split; [intros _; apply wrel_two; auto|]. split; auto.
    - inv_bind E2. inv_bind E2. injection E2 as <- <- <- <-. destruct (HO _ _ _ E3) as (h' & -> & R). cbn [bind].
      destruct (HO _ _ _ E4) as (h2 & -> & R2). cbn [bind].
      eexists _, _, _. split; [reflexivity|]. split; auto. split; auto. apply wrel_two; auto.
    - inv_bind E2. inv_bind E2. injection E2 as <- <- <- <-. destruct (HO _ _ _ E3) as (h' & -> & R). cbn [bind].
      destruct (HO _ _ _ E4) as (h2 & -> & R2). cbn [bind].
      eexists _, _, _. split; [reflexivity|]. split; auto. split; auto. apply wrel_two; auto. }
  destruct X as (mh' & lh' & rh' & -> & RM & RL & RR). cbn [bind].
  injection H as <- <- <-. eexists _, _. split; [reflexivity|]. split.
  - repeat (constructor; [constructor; simpl; auto|]). constructor.
  - apply parent_rel; auto.
Qed.

Lemma split_node_rel : forall nn n n' index new nd idx, srel n n' -> sn_is_missing_leaf n = false ->
  split_node s t nn n index = Some (new, nd, idx) ->
  exists new' nd', split_node s t' nn n' index = Some (new', nd', idx) /\ Forall2 srel new new' /\
    (new <> [] -> prel nd nd').
Proof.
  intros nn n n' index new nd idx S ML H. unfold split_node in *. simpl in *.
  rewrite (wrel_best n n' (srel_search _ _ S) (sr_hist _ _ S ML)).
  inv_bind H. rewrite E. simpl. destruct v as [si|]; simpl.
  - assert (IF : In (si_feature si) cols).
    { destruct (best_split_admissible _ _ _ _ E) as (k & j & [f m bins bin Hf _ _ HCN]).
      destruct (candidate_inv _ _ _ _ _ _ _ _ _ HCN) as (? & ? & ? & _ & F & _). rewrite F. eapply nth_error_In; eauto. }
    unfold handle_split_info in *. destruct s as [p|p term tr force].
    + destruct (handle_imputer_rel _ _ _ _ _ _ _ _ IF S ML H) as (new' & nd' & A & B & C). eauto 6.
    + destruct (handle_branch_rel _ _ _ _ _ _ _ _ _ _ _ IF S ML H) as (new' & nd' & A & B & C). eauto 6.
  - injection H as <- <- <-. eexists _, _. split; [reflexivity|]. split; auto. congruence.
Qed.

(** *** The loop *)
Record grel (st st' : Grow) : Prop := mkGrel {
  gr_nodes : g_nodes st' = g_nodes st;
  gr_pending : Forall2 srel (g_pending st) (g_pending st');
  gr_ml : forall n, In n (g_pending st) -> sn_is_missing_leaf n = false;
  gr_index : g_index st' = g_index st; gr_nn : g_n_nodes st' = g_n_nodes st; gr_nl : g_n_leaves st' = g_n_leaves st }.

Lemma pop_rel : forall policy pick step l l' n rest, gain_based pick -> Forall2 srel l l' ->
  pop_node policy pick step l = Some (n, rest) ->
  exists n' rest', pop_node policy pick step l' = Some (n', rest') /\ srel n n' /\ Forall2 srel rest rest' /\ In n l /\ incl rest l.
Proof.
  intros policy pick step l l' n rest GB F H. unfold pop_node in *. destruct F as [|a a' l l' S F]; [discriminate|].
  destruct policy.
  - injection H as <- <-. eexists _, _. split; [reflexivity|]. split; auto. split; auto. split; [left; auto|]. intros x; right; auto.
  - assert (K : map (fun n => (sn_num n, sn_gain n)) (a :: l) = map (fun n => (sn_num n, sn_gain n)) (a' :: l')).
    { simpl. rewrite (sr_num _ _ S), (sr_gain _ _ S). f_equal. clear - F. induction F as [|x y l l' S F IH]; simpl; auto.
      rewrite (sr_num _ _ S), (sr_gain _ _ S). f_equal. auto. }
    rewrite <- (GB step _ _ K). assert (FA : Forall2 srel (a :: l) (a' :: l')) by (constructor; auto). clear K.
    assert (LL : length (a' :: l') = length (a :: l)) by (symmetry; eapply Forall2_length; exact FA). rewrite LL.
    set (i := pick step (a :: l) mod length (a :: l)) in *. cbv zeta in *. inv_bind H.
    destruct (Forall2_nth_both _ _ _ _ _ _ _ FA E) as (b & Hb & Sb). rewrite Hb. cbn [bind].
    injection H as <- <-. eexists _, _. split; [reflexivity|]. split; auto. split; [|split].
    + apply Forall2_app; [apply Forall2_firstn; exact FA|exact (Forall2_skipn _ _ _ _ _ (Datatypes.S i) FA)].
    + eapply nth_error_In; eauto.
    + intros x Hx. apply in_app_iff in Hx. destruct Hx as [Hx|Hx].
      * rewrite <- (firstn_skipn i (a :: l)). apply in_app_iff; auto.
      * rewrite <- (firstn_skipn (Datatypes.S i) (a :: l)). apply in_app_iff; auto.
Qed.

Lemma grow_node_rel : forall md n n' st st' st2, srel n n' -> sn_is_missing_leaf n = false -> grel st st' ->
  grow_node s t md n st = Some st2 -> exists st2', grow_node s t' md n' st' = Some st2' /\ grel st2 st2'.
Proof.
  intros md n n' st st' st2 S ML [G1 G2 G3 G4 G5 G6] H. unfold grow_node in *.
  rewrite (sr_depth _ _ S). destruct (md <? sn_depth n + 1).
  { injection H as <-. eexists. split; [reflexivity|]. constructor; auto. }
  inv_bind H. destruct v as [[new nd] idx]. rewrite G4, G5.
  destruct (split_node_rel _ _ _ _ _ _ _ S ML E) as (new' & nd' & E' & F & P). rewrite E'. cbn [bind].
  destruct F as [|a a' new new' SA F].
  - injection H as <-. eexists. split; [reflexivity|]. constructor; simpl; auto. 
  - cbv zeta in *. rewrite (sr_num _ _ S), G1. inv_bind H. rewrite E0. cbn [bind].
    rewrite (P ltac:(discriminate)). inv_bind H. rewrite E1. cbn [bind]. injection H as <-.
    assert (FA : Forall2 srel (a :: new) (a' :: new')) by (constructor; auto).
    assert (LL : length (a' :: new') = length (a :: new)) by (symmetry; eapply Forall2_length; eauto).
    rewrite LL. eexists. split; [reflexivity|]. unfold push_children. constructor; cbn [g_nodes g_pending g_index g_n_nodes g_n_leaves]; auto.
    + f_equal. clear - FA. induction FA as [|x y l l' S F IH]; simpl; auto. f_equal; auto. apply srel_as_node; auto.
    + apply Forall2_app; auto. clear - FA. induction FA as [|x y l l' S F IH]; simpl; auto. rewrite (sr_ml _ _ S).
      destruct (negb (sn_is_missing_leaf x)); auto.
    + intros x Hx. apply in_app_iff in Hx. destruct Hx as [Hx|Hx]; auto. apply filter_In in Hx. destruct Hx as [_ Hx].
      destruct (sn_is_missing_leaf x); [discriminate|auto].
Qed.

Lemma grow_loop_rel : forall policy pick ml md fuel st st' st2, gain_based pick -> grel st st' ->
  grow_loop fuel policy pick s t ml md st = Some st2 ->
  exists st2', grow_loop fuel policy pick s t' ml md st' = Some st2' /\ grel st2 st2'.
Proof.
  intros policy pick ml md fuel. induction fuel as [|fu IH]; intros st st' st2 GB G H; pose proof G as [G1 G2 G3 G4 G5 G6]; simpl in *.
  - rewrite G6. destruct G2 as [|a a' l l' S F]; [injection H as <-; eauto|].
    destruct (ml <? g_n_leaves st + new_leaves_added s); [injection H as <-; eauto|discriminate].
  - rewrite G6. assert (PE : forall A (x y : A), match g_pending st with [] => x | _ => y end = match g_pending st' with [] => x | _ => y end).
    { intros A x y. destruct G2; auto. }
    rewrite <- PE. destruct (g_pending st) as [|a l] eqn:EP.
    { injection H as <-. eauto. }
    destruct (ml <? g_n_leaves st + new_leaves_added s); [injection H as <-; eauto|].
    inv_bind H. destruct v as [n rest]. rewrite <- EP in *.
    destruct (pop_rel _ _ _ _ _ _ _ GB G2 E) as (n' & rest' & EN & SN & FR & IN & IR). 
    rewrite EN. cbn [bind]. inv_bind H.
    destruct (grow_node_rel md n n' (mkGrow (g_nodes st) rest (g_index st) (g_n_nodes st) (g_n_leaves st))
      (mkGrow (g_nodes st') rest' (g_index st') (g_n_nodes st') (g_n_leaves st)) v SN) as (v' & EV & GV); auto.
    { constructor; simpl; auto. }
    rewrite EV. cbn [bind]. eapply IH; eauto.
Qed.

Theorem tree_fit_wide : forall policy pick index ml md sm nodes st, gain_based pick ->
  (sm = SNone -> index = seq 0 (m_rows data)) ->
  tree_fit policy pick s t index ml md sm = Some (nodes, st) ->
  exists st', tree_fit policy pick s t' index ml md sm = Some (nodes, st').
Proof.
  intros policy pick index ml md sm nodes st GB HS H. unfold tree_fit in *. inv_bind H. rename v into root. inv_bind H. rename v into st1.
  inv_bind H. injection H as <- <-. rename v into nodes.
  assert (R : exists root', root_node s t' index sm = Some root' /\ srel root root' /\ sn_is_missing_leaf root = false).
  { unfold root_node in *. simpl in *. inv_bind E. rewrite E2. destruct v as [[gs hs] sort]. cbn [bind] in *. inv_bind E.
    injection E as <-.
    assert (X : exists h', hist_new_serial data' cuts' grad hess index (cols ++ [c]) sort = Some h' /\ wrel v h').
    { destruct sm; simpl in E2.
      - injection E2 as <- <- <-. rewrite HS in * by auto. rewrite (hist_new_unsorted _ _ _ _ _ _ _ HI) in E3.
        rewrite <- HR, (hist_new_unsorted _ _ _ _ _ _ _ HI'), HR. injection E3 as <-. eexists. split; [reflexivity|]. apply spec_wrel.
      - inv_bind E2. inv_bind E2. injection E2 as <- <- <-. exact (hist_of_wide _ _ E3).
      - inv_bind E2. inv_bind E2. injection E2 as <- <- <-. exact (hist_of_wide _ _ E3). }
    destruct X as (h' & -> & RH). cbn [bind]. eexists. split; [reflexivity|]. split; auto. constructor; simpl; auto. }
  destruct R as (root' & -> & SR & MR). cbn [bind].
  assert (G0 : grel (grow_init s root index) (grow_init s root' index)).
  { constructor; simpl; auto.
    - f_equal. apply srel_as_node; auto.
    - intros n [<-|[]]; auto. }
  destruct (grow_loop_rel policy pick ml md _ _ _ _ GB G0 E0) as (st' & -> & G).
  cbn [bind]. rewrite (gr_nodes _ _ G), E1. simpl. eauto.
Qed.
End Widen.

(** *** A column that is binned like an earlier one is never taken *)
Section Copy.
Context {FS : Floats}.
Variables (s : Splitter) (t : Train) (cols : list nat) (c : nat) (ccols : list (list F64)) (a ka : nat).
Hypothesis HT : tr_cols t = cols ++ [c].
Hypotheses (Ha : nth_error cols ka = Some a) (HL : length (ccol ccols a) = length (ccol ccols c)) (HM : get_constraint s a = get_constraint s c) (NC : ~ In c cols).
Hypotheses (OL : OrdLaws (@f32 FS)) (ZN : fisnan f32 (fzero (@f32 FS)) = false).

Definition gain_of (r : option SplitInfo) : F32 := match r with Some x => si_gain x | None => fzero f32 end.

Lemma best_loop_snoc : forall n l idx best,
  best_split_loop s n (l ++ [c]) idx (gain_of best) best =
  (let* r := best_split_loop s n l idx (gain_of best) best in
   let* si := best_feature_split s n c (idx + length l) in
   Some (match si with Some info => if (gain_of r <? si_gain info)%f32 then Some info else r | None => r end)).
Proof.
  intros n. induction l as [|f l IH]; intros idx best; simpl.
  - rewrite Nat.add_0_r. destruct (best_feature_split s n c idx) as [[si|]|]; simpl; auto. destruct (_ <? _)%f32; auto.
  - destruct (best_feature_split s n f idx) as [[si|]|]; simpl; auto.
    + replace (idx + S (length l)) with (idx + 1 + length l) by lia.
      destruct (_ <? _)%f32; [apply (IH _ (Some si))|apply IH].
    + replace (idx + S (length l)) with (idx + 1 + length l) by lia. apply IH.
Qed.

Lemma best_loop_feature : forall n l idx g best r, best_split_loop s n l idx g best = Some r ->
  forall k f, nth_error l k = Some f -> exists x, best_feature_split s n f (idx + k) = Some x.
Proof.
  intros n. induction l as [|f l IH]; intros idx g best r H k f' Hk; [destruct k; discriminate|]. simpl in H. inv_bind H.
  destruct k as [|k]; simpl in Hk.
  - injection Hk as <-. rewrite Nat.add_0_r. eauto.
  - replace (idx + S k) with (idx + 1 + k) by lia. destruct v as [si|]; [destruct (_ <? _)%f32|]; eapply IH; eauto.
Qed.

Lemma candidate_panics : forall n m m' x x' j cg ch, gradient_sum m = gradient_sum m' -> hessian_sum m = hessian_sum m' ->
  candidate s n c m x j cg ch = None -> candidate s n a m' x' j cg ch = None.
Proof.
  intros n m m' x x' j cg ch E1 E2 H. unfold candidate in *. rewrite HM, <- E1, <- E2. 
  destruct (evaluate_split s cg ch _ _ _ _ _ _ _ _) as [[[[l r] mm]|]|]; simpl in *; auto.
  destruct (_ <=? _)%f32; [discriminate|]. destruct (child_bounds _ _ _ _ _). discriminate.
Qed.
Lemma cands_panics : forall n m m', gradient_sum m = gradient_sum m' -> hessian_sum m = hessian_sum m' ->
  forall l l' j cg ch, sums l' = sums l -> cands s n c m l j cg ch = None -> cands s n a m' l' j cg ch = None.
Proof.
  intros n m m' E1 E2. induction l as [|x l IH]; intros [|x' l'] j cg ch ES H; simpl in *; try discriminate.
  injection ES as S1 S2 S3. destruct (candidate s n c m x j cg ch) eqn:EC; simpl in H.
  - destruct (candidate s n a m' x' j cg ch); simpl; auto. rewrite S1, S2.
    destruct (cands s n c m l _ _ _) eqn:EL; [discriminate|]. rewrite (IH l' _ _ _ S3 EL). reflexivity.
  - rewrite (candidate_panics n m m' x x' j cg ch E1 E2 EC). reflexivity.
Qed.

Lemma tw_best : forall n, tw t ccols ka (length cols) (sn_hist n) -> best_split s n (cols ++ [c]) = best_split s n cols.
Proof.
  intros n TW. pose proof TW as (_ & ca & cb & C1 & C2 & C3).
  unfold best_split. change (fzero (@f32 FS)) with (gain_of None). rewrite best_loop_snoc.
  destruct (best_split_loop s n cols 0 (gain_of None) None) as [r|] eqn:EB; simpl; auto.
  destruct (best_loop_feature _ _ _ _ _ _ EB ka a Ha) as [x Hx]. simpl in Hx.
  assert (exists v, best_feature_split s n c (length cols) = Some v) as [v Hv].
  { destruct (best_feature_split s n c (length cols)) as [v|] eqn:EV; [eauto|]. exfalso.
    unfold best_feature_split in *. rewrite C1 in Hx. rewrite C2 in EV. simpl in Hx, EV.
    destruct ca as [|m ca]; [discriminate|]. destruct cb as [|m' cb]; [discriminate|]. simpl in C3. injection C3 as M1 M2 M3.
    rewrite feature_loop_cands in Hx, EV.
    destruct (cands s n c m' cb 0 (fzero f32) (fzero f32)) eqn:EC; [discriminate|].
    rewrite (cands_panics n m' m (eq_sym M1) (eq_sym M2) cb ca _ _ _ M3 EC) in Hx. discriminate. }
  rewrite Hv. simpl. destruct v as [info|]; auto. destruct (gain_of r <? si_gain info)%f32 eqn:EG; auto. exfalso.
  assert (HB : best_split s n (cols ++ [c]) = Some (Some info)).
  { unfold best_split. change (fzero (@f32 FS)) with (gain_of None). rewrite best_loop_snoc, EB. simpl. rewrite Hv. simpl. rewrite EG. reflexivity. }
  destruct (best_split_some s n OL ZN _ _ HB) as (k & j & A & _ & _ & M2).
  assert (Hc : nth_error (cols ++ [c]) (length cols) = Some c) by (rewrite nth_error_app2, Nat.sub_diag by lia; reflexivity).
  assert (FI : si_feature info = c).
  { destruct (best_feature_admissible s n (cols ++ [c]) (length cols) c info Hc Hv) as (j' & [f m bins bin Hf _ _ HCN]).
    destruct (candidate_inv _ _ _ _ _ _ _ _ _ HCN) as (? & ? & ? & _ & F & _). congruence. }
  assert (k = length cols).
  { pose proof A as [f m bins bin Hf _ _ HCN]. destruct (candidate_inv _ _ _ _ _ _ _ _ _ HCN) as (? & ? & ? & _ & F & _).
    rewrite FI in F. subst f. destruct (Nat.lt_ge_cases k (length cols)) as [L|L].
    - rewrite nth_error_app1 in Hf by auto. exfalso. apply NC. eapply nth_error_In; eauto.
    - apply nth_error_Some_lt in Hf. rewrite app_length in Hf. simpl in Hf. lia. }
  subst k. rewrite <- HT in *.
  assert (Ha' : nth_error (tr_cols t) ka = Some a) by (rewrite HT, nth_error_app1; auto; eapply nth_error_Some_lt; eauto).
  destruct (admissible_like s t ccols a c ka (length cols) Ha' Hc (nth_error_Some_lt _ _ Ha) HL HM n j info TW A) as (si' & A1 & A2).
  assert (BF : before ka j (length cols) j) by (left; eapply nth_error_Some_lt; eauto).
  specialize (M2 _ _ _ BF A1). rewrite A2, (o_lt_irrefl _ OL) in M2. discriminate.
Qed.
End Copy.
