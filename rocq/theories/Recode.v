(** Growing a tree on the same bins with recoded cut values gives the same tree with recoded split values. *)
From Coq Require Import List Arith Lia Bool Permutation Sorting.
From Verif Require Import Prelude Float Data DataProofs Utils Histogram HistogramProofs Node Splitter Tree Sim.
Import ListNotations.

Lemma j_get_col_map : forall A B (f : A -> B) (m : Jagged A) e c r k, e = j_ends m ->
  j_get_col (mkJagged (map f (j_data m)) e c r) k = option_map (map f) (j_get_col m k).
Proof.
  intros A B f m e c r k ->. unfold j_get_col. simpl. destruct (k <? length (j_ends m)); auto.
  destruct (nth_error (j_ends m) k) as [j|]; simpl; auto.
  destruct (match k with 0 => Some 0 | S c0 => nth_error (j_ends m) c0 end) as [i|]; simpl; auto.
  unfold slice. rewrite map_length. destruct ((i <=? j) && (j <=? length (j_data m))); simpl; auto.
  rewrite <- firstn_map, <- skipn_map. reflexivity.
Qed.

Section Recode.
Context {FS : Floats}.
Variable phi : nat -> F64 -> F64.
Variables (data : Matrix nat) (cuts cuts' : Jagged F64) (grad hess : list F32) (cols : list nat).
Variables (fcols : list (list nat)) (ccols ccols' : list (list F64)).
Hypothesis HI : hist_inputs data cuts grad hess cols fcols ccols.
Hypothesis HI' : hist_inputs data cuts' grad hess cols fcols ccols'.
Hypothesis HC : forall f, In f cols -> removelast (ccol ccols' f) = map (phi f) (removelast (ccol ccols f)).

Let t := mkTrain data cuts grad hess cols.
Let t' := mkTrain data cuts' grad hess cols.
Notation lay := (layout data cuts cols ccols).
Notation lay' := (layout data cuts' cols ccols').

Definition hrel (h h' : HistogramMatrix) : Prop :=
  lay h /\ lay' h' /\ map bin_sums (j_data h') = map bin_sums (j_data h).

Lemma ccol_length : forall f, In f cols -> length (ccol ccols' f) = length (ccol ccols f).
Proof.
  intros f Hf. pose proof (f_equal (@length _) (HC f Hf)) as L. rewrite map_length, !HistogramProofs.removelast_firstn_len, !firstn_length in L.
  destruct (ccol_ok _ _ _ _ _ _ _ HI f) as [_ N]; [apply (hi_bound _ _ _ _ _ _ _ HI); auto|].
  destruct (ccol_ok _ _ _ _ _ _ _ HI' f) as [_ N']; [apply (hi_bound _ _ _ _ _ _ _ HI); auto|].
  destruct (ccol ccols f); [tauto|]. destruct (ccol ccols' f); [tauto|]. simpl in *. lia.
Qed.
Lemma ends_same : hist_ends cols ccols' = hist_ends cols ccols.
Proof. unfold hist_ends. f_equal. apply map_ext_in. intros f Hf. apply ccol_length; auto. Qed.

Lemma hrel_hist : forall h h', hrel h h' -> hist_rel phi cols h h'.
Proof.
  intros h h' (L & L' & ES) idx f Hf.
  destruct (layout_lookup _ _ _ _ _ _ _ HI h L idx f Hf) as (c & E & C).
  destruct (layout_lookup _ _ _ _ _ _ _ HI' h' L' idx f Hf) as (c' & E' & C').
  exists c, c'. split; auto. split; auto.
  assert (S : map bin_sums c' = map bin_sums c).
  { pose proof (j_get_col_map _ _ bin_sums h (j_ends h) 0 0 idx eq_refl) as Q.
    pose proof (j_get_col_map _ _ bin_sums h' (j_ends h') 0 0 idx eq_refl) as Q'.
    rewrite E in Q. rewrite E' in Q'. simpl in Q, Q'. rewrite ES in Q'.
    assert (EE : j_ends h' = j_ends h).
    { destruct L as (_ & L & _). destruct L' as (_ & L' & _). rewrite L, L'. apply ends_same. }
    rewrite EE in Q'. congruence. }
  split; auto. apply nth_error_In in Hf. rewrite HC in C' by auto.
  destruct c as [|b c]; [discriminate|]. destruct c' as [|b' c']; [discriminate|]. simpl in *. congruence.
Qed.

Lemma spec_hrel : forall L, hrel (hist_spec data cuts grad hess cols fcols ccols L) (hist_spec data cuts' grad hess cols fcols ccols' L).
Proof.
  intros L. split; [apply (layout_spec _ _ _ _ _ _ _ HI)|]. split; [apply (layout_spec _ _ _ _ _ _ _ HI')|].
  simpl. unfold hist_cols. rewrite !concat_map, !map_map. f_equal. apply map_ext_in. intros f Hf.
  unfold feature_bins. rewrite !map_map. rewrite (ccol_length f Hf). apply map_ext. reflexivity.
Qed.

Lemma hist_of_rel : forall L h, hist_of t L = Some h -> exists h', hist_of t' L = Some h' /\ hrel h h'.
Proof.
  intros L h H.
  assert (IR : forall i, In i L -> i < m_rows data).
  { unfold hist_of, hist_new_serial, sort_gh in H. simpl in H. inv_bind H. destruct v as [sg sh]. inv_bind E. rewrite <- (hi_grad _ _ _ _ _ _ _ HI).
    intros i Hi. apply mapM_Forall2 in E0. clear - E0 Hi. induction E0 as [|x y l r Hxy F IH]; [destruct Hi|].
    destruct Hi as [->|Hi]; auto. apply nth_error_Some. simpl in Hxy. congruence. }
  unfold hist_of in *. simpl in *. rewrite (hist_new_sorted _ _ _ _ _ _ _ HI) in H by auto.
  rewrite (hist_new_sorted _ _ _ _ _ _ _ HI') by auto. injection H as <-. eexists. split; [reflexivity|]. apply spec_hrel.
Qed.

Lemma sums_combine : forall (f : Bin F32 -> Bin F32 -> Bin F32) (g : F32 * F32 -> F32 * F32 -> F32 * F32) (a b a' b' : list (Bin F32)),
  (forall x y, bin_sums (f x y) = g (bin_sums x) (bin_sums y)) ->
  map bin_sums a' = map bin_sums a -> map bin_sums b' = map bin_sums b ->
  map bin_sums (map (fun '(r, c) => f r c) (combine a' b')) = map bin_sums (map (fun '(r, c) => f r c) (combine a b)).
Proof.
  intros f g a. induction a as [|x a IH]; intros b [|x' a'] b' HF HA HB; simpl in *; try discriminate; auto.
  destruct b as [|y b]; destruct b' as [|y' b']; simpl in *; try discriminate; auto.
  injection HA as HA1 HA2 HA3. injection HB as HB1 HB2 HB3.
  assert (X : bin_sums x' = bin_sums x) by (unfold bin_sums; congruence).
  assert (Y : bin_sums y' = bin_sums y) by (unfold bin_sums; congruence).
  rewrite !HF, X, Y. f_equal. apply IH; auto.
Qed.

Lemma hrel_child : forall p p' c c', hrel p p' -> hrel c c' -> hrel (hist_from_parent_child p c) (hist_from_parent_child p' c').
Proof.
  intros p p' c c' (P1 & P2 & P3) (C1 & C2 & C3). split; [apply layout_parent_child; auto|]. split; [apply layout_parent_child; auto|].
  simpl. apply (sums_combine bin_from_parent_child (fun x y => ((fst x - fst y)%f32, (snd x - snd y)%f32))); auto.
Qed.
Lemma hrel_two : forall p p' a a' b b', hrel p p' -> hrel a a' -> hrel b b' ->
  hrel (hist_from_parent_two_children p a b) (hist_from_parent_two_children p' a' b').
Proof.
  intros p p' a a' b b' (P1 & P2 & P3) (A1 & A2 & A3) (B1 & B2 & B3).
  split; [apply layout_parent_two; auto|]. split; [apply layout_parent_two; auto|]. simpl. clear - P3 A3 B3.
  revert P3 A3 B3. generalize (j_data p) (j_data p') (j_data a) (j_data a') (j_data b) (j_data b').
  intros l. induction l as [|x l IH]; intros [|x' l'] m m' n n' H1 H2 H3; simpl in *; try discriminate; auto.
  destruct m as [|y m]; destruct m' as [|y' m']; simpl in *; try discriminate; auto.
  destruct n as [|z n]; destruct n' as [|z' n']; simpl in *; try discriminate; auto.
  injection H1 as X1 X2 X3. injection H2 as Y1 Y2 Y3. injection H3 as Z1 Z2 Z3. f_equal; [|apply IH; auto].
  unfold bin_sums. simpl. congruence.
Qed.

(** *** Nodes *)
Record srel (n n' : SplittableNode) : Prop := mkSrel {
  sr_num : sn_num n' = sn_num n; sr_weight : sn_weight n' = sn_weight n; sr_gain : sn_gain n' = sn_gain n;
  sr_grad : sn_grad n' = sn_grad n; sr_hess : sn_hess n' = sn_hess n; sr_depth : sn_depth n' = sn_depth n;
  sr_value : sn_split_value n' = sn_split_value n; sr_feature : sn_split_feature n' = sn_split_feature n;
  sr_sgain : sn_split_gain n' = sn_split_gain n; sr_missing : sn_missing_node n' = sn_missing_node n;
  sr_left : sn_left_child n' = sn_left_child n; sr_right : sn_right_child n' = sn_right_child n;
  sr_start : sn_start n' = sn_start n; sr_stop : sn_stop n' = sn_stop n;
  sr_lower : sn_lower n' = sn_lower n; sr_upper : sn_upper n' = sn_upper n;
  sr_leaf : sn_is_leaf n = true /\ sn_is_leaf n' = true; sr_ml : sn_is_missing_leaf n' = sn_is_missing_leaf n;
  sr_hist : sn_is_missing_leaf n = false -> hrel (sn_hist n) (sn_hist n') }.

Lemma srel_search : forall n n', srel n n' -> search_same n n'.
Proof. intros n n' []. constructor; auto. Qed.

Lemma srel_as_node : forall n n' lr, srel n n' -> as_node n' lr = map_node phi (as_node n lr).
Proof.
  intros n n' lr []. destruct sr_leaf0 as [L L']. unfold as_node, map_node. simpl. rewrite L.
  rewrite sr_num0, sr_weight0, sr_hess0, sr_depth0, sr_value0, sr_feature0, sr_sgain0, sr_missing0, sr_left0, sr_right0, L'. reflexivity.
Qed.

Lemma info_srel : forall num h h' depth start stop i, hrel h h' ->
  srel (from_node_info num h depth start stop i) (from_node_info num h' depth start stop i).
Proof. intros. constructor; simpl; auto. Qed.

(** the parent after a split *)
Definition prel (n n' : SplittableNode) : Prop :=
  forall old, make_parent_node (map_node phi old) n' = map_node phi (make_parent_node old n).

Lemma parent_rel : forall n n' m l r si, srel n n' ->
  prel (update_children n m l r si) (update_children n' m l r (map_si phi si)).
Proof.
  intros n n' m l r si S old. unfold make_parent_node, update_children, map_node. simpl.
  unfold get_split_gain. simpl. rewrite (sr_gain _ _ S). reflexivity.
Qed.

Lemma handle_imputer_rel : forall si nn n n' index new nd idx, srel n n' -> sn_is_missing_leaf n = false ->
  handle_imputer t si nn n index = Some (new, nd, idx) ->
  exists new' nd', handle_imputer t' (map_si phi si) nn n' index = Some (new', nd', idx) /\ Forall2 srel new new' /\ prel nd nd'.
Proof.
  intros si nn n n' index new nd idx S ML H. unfold handle_imputer in *. simpl in *.
  destruct (match si_missing si with MLeft => Some false | MRight => Some true | _ => None end) as [mr|]; [|discriminate]. cbn [bind] in *.
  rewrite (sr_start _ _ S), (sr_stop _ _ S), (sr_depth _ _ S).
  inv_bind H. rewrite E. cbn [bind]. rename v into sub. inv_bind H. rewrite E0. cbn [bind]. rename v into f.
  inv_bind H. rewrite E1. destruct v as [sub2 sp]. cbn [bind] in *.
  destruct (sp <=? sn_stop n - sn_start n); [|discriminate].
  assert (HH := sr_hist _ _ S ML).
  inv_bind H. destruct v as [lh rh]. 
  assert (X : exists lh' rh',
     (if sn_stop n - sn_start n - (sn_stop n - sn_start n - sp) <? sn_stop n - sn_start n - sp
      then let* l := let* sub := slice (splice index (sn_start n) sub2) (sn_start n) (sp + sn_start n) in hist_of t' sub in
           Some (l, hist_from_parent_child (sn_hist n') l)
      else let* r := let* sub := slice (splice index (sn_start n) sub2) (sp + sn_start n) (sn_stop n) in hist_of t' sub in
           Some (hist_from_parent_child (sn_hist n') r, r)) = Some (lh', rh') /\ hrel lh lh' /\ hrel rh rh').
  { destruct (_ <? _).
    - inv_bind E2. injection E2 as <- <-. inv_bind E3. destruct (hist_of_rel _ _ E3) as (h' & EH & R).
      rewrite E2. cbn [bind]. rewrite EH. cbn [bind]. eexists _, _. split; [reflexivity|]. split; auto. apply hrel_child; auto.
    - inv_bind E2. injection E2 as <- <-. inv_bind E3. destruct (hist_of_rel _ _ E3) as (h' & EH & R).
      rewrite E2. cbn [bind]. rewrite EH. cbn [bind]. eexists _, _. split; [reflexivity|]. split; auto. apply hrel_child; auto. }
  destruct X as (lh' & rh' & EX & RL & RR). rewrite EX. cbn [bind].
  injection H as <- <- <-. eexists _, _. split; [reflexivity|]. split.
  - repeat (constructor; [constructor; simpl; auto|]). constructor.
  - apply parent_rel; auto.
Qed.

Lemma handle_branch_rel : forall p term tr si nn n n' index new nd idx, srel n n' -> sn_is_missing_leaf n = false ->
  handle_branch p term tr t si nn n index = Some (new, nd, idx) ->
  exists new' nd', handle_branch p term tr t' (map_si phi si) nn n' index = Some (new', nd', idx) /\ Forall2 srel new new' /\ prel nd nd'.
Proof.
  intros p term tr si nn n n' index new nd idx S ML H. unfold handle_branch in *.
  simpl in H. simpl. 
  destruct (match si_missing si with MBranch i => Some (existsb (Nat.eqb (si_feature si)) term, i) | MLeaf i => Some (true, i) | _ => None end)
    as [[mleaf info]|]; [|discriminate]. cbn [bind] in *.
  rewrite (sr_start _ _ S), (sr_stop _ _ S), (sr_depth _ _ S), (sr_weight _ _ S).
  inv_bind H. rewrite E. cbn [bind]. rename v into sub. inv_bind H. rewrite E0. cbn [bind]. rename v into f.
  inv_bind H. rewrite E1. destruct v as [sub2 [ms sp]]. cbn [bind] in *.
  destruct (sp <=? sn_stop n - sn_start n); [|discriminate].
  destruct (_ <=? sn_stop n - sn_start n); [|discriminate].
  assert (HH := sr_hist _ _ S ML).
  inv_bind H. destruct v as [[[ml mh] lh] rh]. cbn [fst snd] in *.
  match type of E2 with (if ?a then (if ?b then _ else _) else (if ?c then _ else (if ?d then _ else _))) = _ =>
    set (A := a) in *; set (B := b) in *; set (C := c) in *; set (D := d) in * end.

  assert (HO : forall i j h, (let* sub := slice (splice index (sn_start n) sub2) i j in hist_of t sub) = Some h ->
     exists h', (let* sub := slice (splice index (sn_start n) sub2) i j in hist_of t' sub) = Some h' /\ hrel h h').
  { intros i j h Hh. inv_bind Hh. rewrite E3. cbn [bind]. apply hist_of_rel; auto. }
  match goal with |- exists new' nd', bind ?e _ = _ /\ _ => assert (X : exists mh' lh' rh', e = Some (ml, mh', lh', rh') /\
      (ml = false -> hrel mh mh') /\ hrel lh lh' /\ hrel rh rh') end.
  { destruct A; [destruct B|destruct C; [|destruct D]].
    - inv_bind E2. injection E2 as <- <- <- <-. destruct (HO _ _ _ E3) as (h' & -> & R). cbn [bind].
      eexists _, _, _. split; [reflexivity|]. split; [discriminate|]. split; auto. apply hrel_child; auto.
    - inv_bind E2. injection E2 as <- <- <- <-. destruct (HO _ _ _ E3) as (h' & -> & R). cbn [bind].
      eexists _, _, _. split; [reflexivity|]. split; [discriminate|]. split; auto. apply hrel_child; auto.
    - inv_bind E2. inv_bind E2. injection E2 as <- <- <- <-. destruct (HO _ _ _ E3) as (h' & -> & R). cbn [bind].
      destruct (HO _ _ _ E4) as (h2 & -> & R2). cbn [bind].
      eexists _, _, _. split; [reflexivity|]. split; [intros _; apply hrel_two; auto|]. split; auto.
    - inv_bind E2. inv_bind E2. injection E2 as <- <- <- <-. destruct (HO _ _ _ E3) as (h' & -> & R). cbn [bind].
      destruct (HO _ _ _ E4) as (h2 & -> & R2). cbn [bind].
      eexists _, _, _. split; [reflexivity|]. split; auto. split; auto. apply hrel_two; auto.
    - inv_bind E2. inv_bind E2. injection E2 as <- <- <- <-. destruct (HO _ _ _ E3) as (h' & -> & R). cbn [bind].
      destruct (HO _ _ _ E4) as (h2 & -> & R2). cbn [bind].
      eexists _, _, _. split; [reflexivity|]. split; auto. split; auto. apply hrel_two; auto. }
  destruct X as (mh' & lh' & rh' & -> & RM & RL & RR). cbn [bind].
  injection H as <- <- <-. eexists _, _. split; [reflexivity|]. split.
  - repeat (constructor; [constructor; simpl; auto|]). constructor.
  - apply parent_rel; auto.
Qed.

Lemma split_node_rel : forall s nn n n' index new nd idx, srel n n' -> sn_is_missing_leaf n = false ->
  split_node s t nn n index = Some (new, nd, idx) ->
  exists new' nd', split_node s t' nn n' index = Some (new', nd', idx) /\ Forall2 srel new new' /\
    (new <> [] -> prel nd nd').
Proof.
  intros s nn n n' index new nd idx S ML H. unfold split_node in *. simpl in *.
  rewrite (best_split_rel phi cols s n n' (srel_search _ _ S) (hrel_hist _ _ (sr_hist _ _ S ML))).
  inv_bind H. rewrite E. simpl. destruct v as [si|]; simpl.
  - unfold handle_split_info in *. destruct s as [p|p term tr force].
    + destruct (handle_imputer_rel _ _ _ _ _ _ _ _ S ML H) as (new' & nd' & A & B & C). eauto 6.
    + destruct (handle_branch_rel _ _ _ _ _ _ _ _ _ _ _ S ML H) as (new' & nd' & A & B & C). eauto 6.
  - injection H as <- <- <-. eexists _, _. split; [reflexivity|]. split; auto. congruence.
Qed.

(** *** The loop *)
(** the heap only compares gains (node.rs:47-51) *)
Definition gain_based (pick : pick_fn) : Prop := forall step l l',
  map (fun n => (sn_num n, sn_gain n)) l = map (fun n => (sn_num n, sn_gain n)) l' -> pick step l = pick step l'.

Record grel (st st' : Grow) : Prop := mkGrel {
  gr_nodes : g_nodes st' = map (map_node phi) (g_nodes st);
  gr_pending : Forall2 srel (g_pending st) (g_pending st');
  gr_ml : forall n, In n (g_pending st) -> sn_is_missing_leaf n = false;
  gr_index : g_index st' = g_index st; gr_nn : g_n_nodes st' = g_n_nodes st; gr_nl : g_n_leaves st' = g_n_leaves st }.

Lemma Forall2_length : forall A B (R : A -> B -> Prop) l l', Forall2 R l l' -> length l = length l'.
Proof. intros A B R l l' F. induction F; simpl; auto. Qed.
Lemma Forall2_firstn : forall A B (R : A -> B -> Prop) l l' k, Forall2 R l l' -> Forall2 R (firstn k l) (firstn k l').
Proof. intros A B R l l' k F. revert k. induction F; intros [|k]; simpl; auto. Qed.
Lemma Forall2_skipn : forall A B (R : A -> B -> Prop) l l' k, Forall2 R l l' -> Forall2 R (skipn k l) (skipn k l').
Proof. intros A B R l l' k F. revert k. induction F; intros [|k]; simpl; auto. Qed.
Lemma Forall2_nth_both : forall A B (R : A -> B -> Prop) l l' k a, Forall2 R l l' -> nth_error l k = Some a ->
  exists b, nth_error l' k = Some b /\ R a b.
Proof. intros A B R l l' k a F. revert k. induction F; intros [|k] H'; simpl in *; try discriminate; [injection H' as ->; eauto|eauto]. Qed.

Lemma pop_rel : forall policy pick step l l' n rest, gain_based pick -> Forall2 srel l l' ->
  pop_node policy pick step l = Some (n, rest) ->
  exists n' rest', pop_node policy pick step l' = Some (n', rest') /\ srel n n' /\ Forall2 srel rest rest' /\ In n l /\ incl rest l.
Proof.
  intros policy pick step l l' n rest GB F H. unfold pop_node in *. destruct F as [|a a' l l' S F]; [discriminate|].
  destruct policy.
  - injection H as <- <-. eexists _, _. split; [reflexivity|]. split; auto. split; auto. split; [left; auto|]. intros x; right; auto.
  - assert (K : map (fun n => (sn_num n, sn_gain n)) (a :: l) = map (fun n => (sn_num n, sn_gain n)) (a' :: l')).
    { simpl. rewrite (sr_num _ _ S), (sr_gain _ _ S). f_equal. clear - F. induction F as [|x y l l' S F IH]; simpl; auto.
      rewrite (sr_num _ _ S), (sr_gain _ _ S). f_equal. auto. }
    rewrite <- (GB step _ _ K). assert (FA : Forall2 srel (a :: l) (a' :: l')) by (constructor; auto). clear K.
    assert (LL : length (a' :: l') = length (a :: l)) by (symmetry; eapply Forall2_length; exact FA). rewrite LL.
    set (i := pick step (a :: l) mod length (a :: l)) in *. cbv zeta in *. inv_bind H.
    destruct (Forall2_nth_both _ _ _ _ _ _ _ FA E) as (b & Hb & Sb). rewrite Hb. cbn [bind].
    injection H as <- <-. eexists _, _. split; [reflexivity|]. split; auto. split; [|split].
    + apply Forall2_app; [apply Forall2_firstn; exact FA|exact (Forall2_skipn _ _ _ _ _ (Datatypes.S i) FA)].
    + eapply nth_error_In; eauto.
    + intros x Hx. apply in_app_iff in Hx. destruct Hx as [Hx|Hx].
      * rewrite <- (firstn_skipn i (a :: l)). apply in_app_iff; auto.
      * rewrite <- (firstn_skipn (Datatypes.S i) (a :: l)). apply in_app_iff; auto.
Qed.

Lemma grow_node_rel : forall s md n n' st st' st2, srel n n' -> sn_is_missing_leaf n = false -> grel st st' ->
  grow_node s t md n st = Some st2 -> exists st2', grow_node s t' md n' st' = Some st2' /\ grel st2 st2'.
Proof.
  intros s md n n' st st' st2 S ML [G1 G2 G3 G4 G5 G6] H. unfold grow_node in *.
  rewrite (sr_depth _ _ S). destruct (md <? sn_depth n + 1).
  { injection H as <-. eexists. split; [reflexivity|]. constructor; auto. }
  inv_bind H. destruct v as [[new nd] idx]. rewrite G4, G5.
  destruct (split_node_rel _ _ _ _ _ _ _ _ S ML E) as (new' & nd' & E' & F & P). rewrite E'. cbn [bind].
  destruct F as [|a a' new new' SA F].
  - injection H as <-. eexists. split; [reflexivity|]. constructor; simpl; auto. 
  - cbv zeta in *. rewrite (sr_num _ _ S), G1, nth_error_map. inv_bind H. rewrite E0. simpl option_map. cbn [bind].
    rewrite (P ltac:(discriminate)). inv_bind H. rewrite update_map, E1. simpl option_map. cbn [bind]. injection H as <-.
    assert (FA : Forall2 srel (a :: new) (a' :: new')) by (constructor; auto).
    assert (LL : length (a' :: new') = length (a :: new)) by (symmetry; eapply Forall2_length; eauto).
    rewrite LL. eexists. split; [reflexivity|]. unfold push_children. constructor; cbn [g_nodes g_pending g_index g_n_nodes g_n_leaves]; auto.
    + rewrite map_app, map_map. f_equal. clear - FA. induction FA as [|x y l l' S F IH]; simpl; auto. f_equal; auto. apply srel_as_node; auto.
    + apply Forall2_app; auto. clear - FA. induction FA as [|x y l l' S F IH]; simpl; auto. rewrite (sr_ml _ _ S).
      destruct (negb (sn_is_missing_leaf x)); auto.
    + intros x Hx. apply in_app_iff in Hx. destruct Hx as [Hx|Hx]; auto. apply filter_In in Hx. destruct Hx as [_ Hx].
      destruct (sn_is_missing_leaf x); [discriminate|auto].
Qed.

Lemma grow_loop_rel : forall policy pick s ml md fuel st st' st2, gain_based pick -> grel st st' ->
  grow_loop fuel policy pick s t ml md st = Some st2 ->
  exists st2', grow_loop fuel policy pick s t' ml md st' = Some st2' /\ grel st2 st2'.
Proof.
  intros policy pick s ml md fuel. induction fuel as [|fu IH]; intros st st' st2 GB G H; pose proof G as [G1 G2 G3 G4 G5 G6]; simpl in *.
  - rewrite G6. destruct G2 as [|a a' l l' S F]; [injection H as <-; eauto|].
    destruct (ml <? g_n_leaves st + new_leaves_added s); [injection H as <-; eauto|discriminate].
  - rewrite G6. assert (PE : forall A (x y : A), match g_pending st with [] => x | _ => y end = match g_pending st' with [] => x | _ => y end).
    { intros A x y. destruct G2; auto. }
    rewrite <- PE. destruct (g_pending st) as [|a l] eqn:EP.
    { injection H as <-. eauto. }
    destruct (ml <? g_n_leaves st + new_leaves_added s); [injection H as <-; eauto|].
    inv_bind H. destruct v as [n rest]. rewrite <- EP in *.
    destruct (pop_rel _ _ _ _ _ _ _ GB G2 E) as (n' & rest' & EN & SN & FR & IN & IR). 
    rewrite EN. cbn [bind]. inv_bind H.
    destruct (grow_node_rel s md n n' (mkGrow (g_nodes st) rest (g_index st) (g_n_nodes st) (g_n_leaves st))
      (mkGrow (g_nodes st') rest' (g_index st') (g_n_nodes st') (g_n_leaves st)) v SN) as (v' & EV & GV); auto.
    { constructor; simpl; auto. }
    rewrite EV. cbn [bind]. eapply IH; eauto.
Qed.

Theorem tree_fit_recode : forall policy pick s index ml md sm nodes st, gain_based pick ->
  (sm = SNone -> index = seq 0 (m_rows data)) ->
  tree_fit policy pick s t index ml md sm = Some (nodes, st) ->
  exists st', tree_fit policy pick s t' index ml md sm = Some (map (map_node phi) nodes, st').
Proof.
  intros policy pick s index ml md sm nodes st GB HS H. unfold tree_fit in *. inv_bind H. rename v into root. inv_bind H. rename v into st1.
  inv_bind H. injection H as <- <-. rename v into nodes.
  assert (R : exists root', root_node s t' index sm = Some root' /\ srel root root' /\ sn_is_missing_leaf root = false).
  { unfold root_node in *. simpl in *. inv_bind E. rewrite E2. destruct v as [[gs hs] sort]. cbn [bind] in *. inv_bind E.
    injection E as <-.
    assert (X : exists h', hist_new_serial data cuts' grad hess index cols sort = Some h' /\ hrel v h').
    { destruct sm; simpl in E2.
      - injection E2 as <- <- <-. rewrite HS in * by auto. rewrite (hist_new_unsorted _ _ _ _ _ _ _ HI) in E3.
        rewrite (hist_new_unsorted _ _ _ _ _ _ _ HI'). injection E3 as <-. eexists. split; [reflexivity|]. apply spec_hrel.
      - inv_bind E2. inv_bind E2. injection E2 as <- <- <-. exact (hist_of_rel _ _ E3).
      - inv_bind E2. inv_bind E2. injection E2 as <- <- <-. exact (hist_of_rel _ _ E3). }
    destruct X as (h' & -> & RH). cbn [bind]. eexists. split; [reflexivity|]. split; auto. constructor; simpl; auto. }
  destruct R as (root' & -> & SR & MR). cbn [bind].
  assert (G0 : grel (grow_init s root index) (grow_init s root' index)).
  { constructor; simpl; auto.
    - f_equal. apply srel_as_node; auto.
    - intros n [<-|[]]; auto. }
  destruct (grow_loop_rel policy pick s ml md _ _ _ _ GB G0 E0) as (st' & -> & G).
  cbn [bind]. rewrite (gr_nodes _ _ G), clean_up_map, E1. simpl. eauto.
Qed.
End Recode.
