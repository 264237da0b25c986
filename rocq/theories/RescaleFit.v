(** Training and prediction commute with order preserving changes of feature values. *)
From Coq Require Import List Arith Lia Bool String Permutation Sorting.
From Verif Require Import Prelude Float FloatLaws OrdProofs Data DataProofs Utils Binning BinningProofs CutProofs BinMatrix
  Histogram HistogramProofs Node Splitter Tree TreeWf FitSplits Objective Metric Sampler Contrib Booster PredictProofs BoostProofs FitModel
  TrainMore Sim Recode Rescale.
Import ListNotations.
Local Notation length := List.length.

Lemma mapM_pair : forall A B C (f : A -> option C) (g : B -> option C) l l' r, length l' = length l ->
  (forall k x x' c, nth_error l k = Some x -> nth_error l' k = Some x' -> f x = Some c -> g x' = Some c) ->
  mapM f l = Some r -> mapM g l' = Some r.
Proof.
  intros A B C f g. induction l as [|x l IH]; intros [|x' l'] r HL HX H; simpl in *; try discriminate; auto.
  inv_bind H. inv_bind H. injection H as <-. rewrite (HX 0 x x' v eq_refl eq_refl E). cbn [bind].
  rewrite (IH l' v0); auto. intros k. exact (HX (S k)).
Qed.

Section Fit.
Context {FS : Floats}.
Variable OL : OrdLaws (@f64 FS).
Notation FM := (fmax (@f64 FS)).
Variables (D : nat -> F64 -> Prop) (phi : nat -> F64 -> F64).

Section Miss.
Variable missing : F64.
Hypothesis RC : recoding D missing phi.
Notation ok f := (fun v => D f v /\ is_missing v missing = Some false).
Notation brel := (bin_rel D missing phi).

(** *** The binned matrix *)
Lemma cuts_fold_rel : forall S data sw pcts, compares S -> cells D data -> forall l cuts nu vecs cuts' vecs' c2 nu2,
  foldM (fun '(cuts, nunique) i =>
      let* col := m_get_col data i in
      let* cc := col_cuts S col sw pcts missing in
      Some (push_cuts cuts cc, nunique ++ [length cc])) l (cuts, nu) = Some (c2, nu2) ->
  jrep cuts vecs -> jrep cuts' vecs' ->
  exists c2' cc cc',
    foldM (fun '(cuts, nunique) i =>
      let* col := m_get_col (recode phi data) i in
      let* cc := col_cuts S col sw pcts missing in
      Some (push_cuts cuts cc, nunique ++ [length cc])) l (cuts', nu) = Some (c2', nu2) /\
    jrep c2 (vecs ++ cc) /\ jrep c2' (vecs' ++ cc') /\ length cc = length l /\ length cc' = length l /\
    forall i f a a', nth_error l i = Some f -> nth_error cc i = Some a -> nth_error cc' i = Some a' -> brel f a a'.
Proof.
  intros S data sw pcts CS HD. induction l as [|f l IH]; intros cuts nu vecs cuts' vecs' c2 nu2 H J J'; simpl in *.
  - injection H as <- <-. exists cuts', [], []. rewrite !app_nil_r. repeat (split; auto). intros [|i]; discriminate.
  - inv_bind H. inv_bind E. inv_bind E. injection E as <-. rename v0 into col, v1 into a.
    destruct (col_cuts_map OL D missing phi RC S f col sw pcts a CS (cells_col _ _ _ _ HD E0) E1) as (k & -> & HK & E1').
    rewrite recode_col, E0. simpl option_map. cbn [bind]. rewrite E1'. cbn [bind].
    replace (length (map (phi f) k ++ [FM])) with (length (k ++ [FM])) by (rewrite !app_length, map_length; auto).
    destruct (IH _ _ _ _ _ _ _ H (push_jrep _ _ (k ++ [FM]) J) (push_jrep _ _ (map (phi f) k ++ [FM]) J')) as (c2' & cc & cc' & F & R & R' & L & L' & P).
    exists c2', ((k ++ [FM]) :: cc), ((map (phi f) k ++ [FM]) :: cc'). rewrite <- app_assoc in R, R'. simpl in *.
    repeat (split; auto). intros [|i] g a a' HG HA HA'; simpl in *; [|eauto].
    injection HG as <-. injection HA as <-. injection HA' as <-. exists k. auto.
Qed.

Lemma bin_matrix_rel : forall S data sw nbins bd, compares S -> cells D data ->
  bin_matrix S data sw nbins missing = Some bd ->
  exists bd' cc cc', bin_matrix S (recode phi data) sw nbins missing = Some bd' /\
    b_data bd' = b_data bd /\ b_nunique bd' = b_nunique bd /\ jrep (b_cuts bd) cc /\ jrep (b_cuts bd') cc' /\
    length cc = m_cols data /\ length cc' = m_cols data /\ length (b_data bd) = length (m_data data) /\
    (forall f, f < m_cols data -> brel f (nth f cc []) (nth f cc' [])).
Proof.
  intros S data sw nbins bd CS HD H. unfold bin_matrix in *. inv_bind H. destruct v as [cuts nu]. inv_bind H. injection H as <-.
  rename v into bins.
  assert (J0 : jrep (@j_new F64) []) by (split; reflexivity).
  destruct (cuts_fold_rel S data sw (bin_pcts nbins) CS HD _ _ _ _ _ _ _ _ E J0 J0) as (cuts' & cc & cc' & E' & J & J' & L & L' & P).
  simpl in J, J'. rewrite seq_length in L, L'. cbn [recode m_cols]. rewrite E'. cbn [bind].
  assert (LB : length bins = length (m_data data)).
  { unfold bin_matrix_from_cuts in E0. apply mapM_length in E0. rewrite E0, combine_length, seq_length. lia. }
  assert (PP : forall f a a', nth_error cc f = Some a -> nth_error cc' f = Some a' -> brel f a a').
  { intros f a a' HA HA'. eapply (P f); eauto. rewrite nth_error_seq; auto. rewrite <- L. apply nth_error_Some_lt in HA; auto. }
  assert (EB : bin_matrix_from_cuts (recode phi data) cuts' missing = Some bins).
  { unfold bin_matrix_from_cuts in *. refine (mapM_pair _ _ _ _ _ _ _ _ _ _ E0).
    - rewrite !combine_length, !seq_length, recode_length. reflexivity.
    - intros k [i v] [i' v'] c HK HK' HC.
      assert (LK : k < length (m_data data)) by (apply nth_error_Some_lt in HK; rewrite combine_length, seq_length in HK; lia).
      destruct (nth_error (m_data data) k) as [u|] eqn:EU; [|apply nth_error_None in EU; lia].
      rewrite (nth_error_combine _ _ _ (nth_error_seq 0 LK) EU) in HK. injection HK as <- <-.
      assert (EU' : nth_error (m_data (recode phi data)) k = Some (phi (k / m_rows data) u)) by (rewrite recode_nth, EU; auto).
      rewrite recode_length in HK'. rewrite (nth_error_combine _ _ _ (nth_error_seq 0 LK) EU') in HK'. injection HK' as <- <-.
      cbn [fst snd recode m_rows] in *. destruct (m_rows data =? 0); [discriminate|]. inv_bind HC. inv_bind HC. subst.
      change (0 + k) with k in *.
      rewrite (jrep_get_col _ _ _ J) in E1. rewrite (jrep_get_col _ _ _ J').
      destruct (nth_error cc' (k / m_rows data)) as [a'|] eqn:EA'.
      + cbn [bind]. rewrite (map_bin_map OL D missing phi RC _ _ _ u (PP _ _ _ E1 EA')) by (apply HD; auto).
        rewrite E2. reflexivity.
      + apply nth_error_None in EA'. apply nth_error_Some_lt in E1. lia. }
  rewrite EB. cbn [bind]. exists (mkBinned bins cuts' nu), cc, cc'. repeat (split; auto).
  intros f Hf. apply PP; apply nth_error_nth'; lia.
Qed.

(** *** One tree *)
Lemma hist_inputs_of : forall data bd cc grad hess cols, jrep (b_cuts bd) cc -> length cc = m_cols data ->
  length (b_data bd) = m_rows data * m_cols data -> (forall c, In c cc -> c <> []) ->
  StronglySorted lt cols -> (forall c, In c cols -> c < m_cols data) -> length grad = m_rows data -> length hess = m_rows data ->
  hist_inputs (binned data bd) (b_cuts bd) grad hess cols
    (map (fun j => match m_get_col (binned data bd) j with Some c => c | None => [] end) (seq 0 (m_cols data))) cc.
Proof.
  intros data bd cc grad hess cols J L LB NE SO HB LG LH. constructor; auto.
  - rewrite map_length, seq_length. reflexivity.
  - intros j f Hf. rewrite nth_error_map in Hf.
    destruct (nth_error (seq 0 (m_cols data)) j) as [j'|] eqn:Ej; [|discriminate].
    assert (Hj : j < m_cols data) by (apply nth_error_Some_lt in Ej; rewrite seq_length in Ej; auto).
    rewrite (nth_error_seq 0 Hj) in Ej. injection Ej as <-. simpl in Hf.
    destruct (get_col_spec (binned data bd)) with (j := j) as (col & E1 & E2 & _); auto.
    rewrite E1 in Hf. injection Hf as <-. auto.
Qed.

(** the split values of a tree are values of their features *)
Definition tree_ok (nodes : list Node) : Prop :=
  forall n, In n nodes -> n_is_leaf n = false -> ok (n_split_feature n) (n_split_value n).

Lemma root_rows : forall s t index sm root, root_node s t index sm = Some root -> sm <> SNone ->
  forall i, In i index -> i < length (tr_grad t).
Proof.
  intros s t index sm root H HS i Hi. unfold root_node in H. inv_bind H. destruct v as [[gs hs] sort].
  destruct sm; [congruence| |]; simpl in E; inv_bind E; apply mapM_Forall2 in E0; clear - E0 Hi;
    (induction E0 as [|x y l r Hxy F IH]; [destruct Hi|]; destruct Hi as [->|Hi]; auto; apply nth_error_Some; simpl in Hxy; congruence).
Qed.

Lemma tree_rel : forall data bd bd' cc cc' grad hess cols policy pick s index ml md sm nodes st,
  b_data bd' = b_data bd -> jrep (b_cuts bd) cc -> jrep (b_cuts bd') cc' ->
  length cc = m_cols data -> length cc' = m_cols data -> length (b_data bd) = m_rows data * m_cols data ->
  (forall f, f < m_cols data -> brel f (nth f cc []) (nth f cc' [])) ->
  StronglySorted lt cols -> (forall c, In c cols -> c < m_cols data) -> length grad = m_rows data -> length hess = m_rows data ->
  gain_based pick -> (sm = SNone -> index = seq 0 (m_rows data)) ->
  tree_fit policy pick s (mkTrain (binned data bd) (b_cuts bd) grad hess cols) index ml md sm = Some (nodes, st) ->
  tree_ok nodes /\ exists st',
  tree_fit policy pick s (mkTrain (binned (recode phi data) bd') (b_cuts bd') grad hess cols) index ml md sm = Some (map (map_node phi) nodes, st').
Proof.
  intros data bd bd' cc cc' grad hess cols policy pick s index ml md sm nodes st ED J J' L L' LB R SO HB LG LH GB HS H.
  assert (NE : forall c, In c cc -> c <> []).
  { intros c Hc. apply In_nth with (d := []) in Hc. destruct Hc as (f & Hf & <-). destruct (R f) as (k & -> & _); [lia|]. destruct k; discriminate. }
  assert (NE' : forall c, In c cc' -> c <> []).
  { intros c Hc. apply In_nth with (d := []) in Hc. destruct Hc as (f & Hf & <-). destruct (R f) as (k & _ & _ & ->); [lia|]. destruct k; discriminate. }
  assert (HI := hist_inputs_of data bd cc grad hess cols J L LB NE SO HB LG LH).
  assert (HI' : hist_inputs (binned data bd) (b_cuts bd') grad hess cols
    (map (fun j => match m_get_col (binned data bd) j with Some c => c | None => [] end) (seq 0 (m_cols data))) cc').
  { destruct HI. constructor; auto. }
  assert (EB : binned (recode phi data) bd' = binned data bd) by (unfold binned; rewrite ED; reflexivity). rewrite EB.
  assert (RL : forall f, f < m_cols data -> exists k, removelast (ccol cc f) = k /\ Forall (ok f) k /\ removelast (ccol cc' f) = map (phi f) k).
  { intros f Hf. destruct (R f Hf) as (k & E1 & HK & E2). exists k. unfold ccol. rewrite E1, E2, !removelast_last. auto. }
  split.
  - intros n Hn Hl. assert (RN : forall i, In i index -> i < m_rows (tr_data (mkTrain (binned data bd) (b_cuts bd) grad hess cols))).
    { simpl. pose proof H as H2. unfold tree_fit in H2. inv_bind H2. destruct sm eqn:ES.
      - rewrite HS by auto. intros i Hi. apply in_seq in Hi. lia.
      - rewrite <- LG. intros i Hi. refine (root_rows _ _ _ _ _ E _ i Hi). discriminate.
      - rewrite <- LG. intros i Hi. refine (root_rows _ _ _ _ _ E _ i Hi). discriminate. }
    destruct (fit_split_cut policy pick s (mkTrain (binned data bd) (b_cuts bd) grad hess cols) index ml md sm _ cc HI RN HS _ _ H n Hn Hl) as [F1 F2].
    destruct (RL (n_split_feature n) (HB _ F1)) as (k & E1 & HK & _). rewrite E1 in F2. rewrite Forall_forall in HK. exact (HK _ F2).
  - eapply (tree_fit_recode phi (binned data bd) (b_cuts bd) (b_cuts bd') grad hess cols _ cc cc' HI HI'); eauto.
    intros f Hf. destruct (RL f (HB _ Hf)) as (k & -> & _ & E2). auto.
Qed.

(** *** Prediction *)
Lemma child_rel : forall n v, ok (n_split_feature n) (n_split_value n) -> n_is_leaf n = false -> D (n_split_feature n) v ->
  get_child_idx (map_node phi n) (phi (n_split_feature n) v) missing = get_child_idx n v missing.
Proof.
  intros n v HO HL HD. unfold get_child_idx. rewrite (rc_missing _ _ _ RC) by auto.
  destruct (is_missing v missing) as [[|]|] eqn:EM; simpl; auto. rewrite HL.
  rewrite (Plt OL (phi (n_split_feature n)) (ok (n_split_feature n)) (ok_num D missing phi RC _) (ok_le D missing phi RC _)) by auto. reflexivity.
Qed.

Lemma walk_rel : forall nodes row row', tree_ok nodes ->
  (forall f, row' f = option_map (phi f) (row f)) -> (forall f v, row f = Some v -> D f v) ->
  forall fuel i, walk fuel (map (map_node phi) nodes) row' missing i = option_map (map_node phi) (walk fuel nodes row missing i).
Proof.
  intros nodes row row' HT HR HD. induction fuel as [|fu IH]; intros i; simpl; auto.
  rewrite nth_error_map. destruct (nth_error nodes i) as [n|] eqn:EN; simpl; auto.
  destruct (n_is_leaf n) eqn:EL; simpl; auto. rewrite HR. destruct (row (n_split_feature n)) as [v|] eqn:ER; simpl; auto.
  rewrite child_rel; auto; [|apply HT; auto; eapply nth_error_In; eauto].
  destruct (get_child_idx n v missing); simpl; auto.
Qed.

(** a matrix whose values [phi] treats well *)
Definition sound (d : Matrix F64) : Prop := cells D d /\ m_index d = seq 0 (m_rows d).

Lemma leaf_rel : forall nodes d i, tree_ok nodes -> sound d -> i < m_rows d ->
  predict_leaf (map (map_node phi) nodes) (recode phi d) i missing = option_map (map_node phi) (predict_leaf nodes d i missing).
Proof.
  intros nodes d i HT [HD HI] Hi. unfold predict_leaf. rewrite map_length. apply walk_rel; auto.
  - intros f. apply recode_get; auto.
  - intros f v. apply cells_get; auto.
Qed.

Lemma tree_predict_rel : forall nodes d, tree_ok nodes -> sound d ->
  tree_predict (map (map_node phi) nodes) (recode phi d) missing = tree_predict nodes d missing.
Proof.
  intros nodes d HT HS. unfold tree_predict. cbn [recode m_index]. apply mapM_ext. intros i Hi.
  rewrite (proj2 HS) in Hi. apply in_seq in Hi. rewrite leaf_rel by (auto; lia). destruct (predict_leaf nodes d i missing); reflexivity.
Qed.
End Miss.

(** *** The booster *)
Definition map_booster (b : Booster) : Booster :=
  mkBooster (gb_params b) (gb_base_score b) (gb_history b) (gb_best b) (gb_pred b)
    (map (map (map_node phi)) (gb_trees b)) (gb_metadata b).
Definition map_eval (d : EvalData) : EvalData := (recode phi (fst (fst d)), snd (fst d), snd d).
Definition map_loop (l : Loop) : Loop :=
  mkLoop (map_booster (l_booster l)) (l_yhat l) (l_grad l) (l_hess l)
    (option_map (map (fun dy : EvalData * list F64 => (map_eval (fst dy), snd dy))) (l_evals l)) (l_best_metric l) (l_rng l) (l_stop l).
Definition model_ok (b : Booster) : Prop := Forall (tree_ok (p_missing (gb_params b))) (gb_trees b).

Lemma update_rel : forall p, recoding D (p_missing p) phi -> forall sh yh nodes d, tree_ok (p_missing p) nodes -> sound d ->
  update_predictions p sh yh (map (map_node phi) nodes) (recode phi d) = update_predictions p sh yh nodes d.
Proof. intros p RC sh yh nodes d HT HS. rewrite !update_serial, tree_predict_rel; auto. Qed.

Lemma eval_loop_rel : forall E p, recoding D (p_missing p) phi -> forall nodes, tree_ok (p_missing p) nodes ->
  forall i n sets j s sets2 ms s2, Forall (fun dy : EvalData * list F64 => sound (fst (fst (fst dy)))) sets ->
  eval_loop E p nodes i j n sets s = Some (sets2, ms, s2) ->
  eval_loop E p (map (map_node phi) nodes) i j n (map (fun dy : EvalData * list F64 => (map_eval (fst dy), snd dy)) sets) s =
    Some (map (fun dy : EvalData * list F64 => (map_eval (fst dy), snd dy)) sets2, ms, s2) /\
  Forall (fun dy : EvalData * list F64 => sound (fst (fst (fst dy)))) sets2.
Proof.
  intros E p RC nodes HT i n. induction sets as [|[[[d y] w] yh] sets IH]; intros j s sets2 ms s2 HS H; simpl in *.
  - injection H as <- <- <-. auto.
  - inversion HS; subst. simpl in *. rewrite update_rel by auto. inv_bind H. rewrite E0. cbn [bind]. inv_bind H. rewrite E1. cbn [bind].
    inv_bind H. destruct v1 as [[sets3 ms3] s3]. injection H as <- <- <-.
    destruct (IH _ _ _ _ _ H3 E2) as [IH1 IH2]. rewrite IH1. cbn [bind]. split; auto.
Qed.

Lemma grad_hess_length : forall o (y yh w : list F64) n, length y = n -> length yh = n -> length w = n ->
  length (fst (calc_grad_hess o y yh w)) = n /\ length (snd (calc_grad_hess o y yh w)) = n.
Proof.
  intros o y yh w n H1 H2 H3. unfold calc_grad_hess. rewrite split_length_l, split_length_r, map_length.
  unfold zip3. rewrite !combine_length. lia.
Qed.
Lemma goss_loop_length : forall r fact sub rest n grad hess used u g h n2,
  goss_loop r fact sub n rest grad hess used = Some (u, g, h, n2) -> length g = length grad /\ length h = length hess.
Proof.
  intros r fact sub. induction rest as [|i rest IH]; intros n grad hess used u g h n2 H; simpl in H.
  - injection H as <- <- <- <-. auto.
  - destruct (_ <? _)%f64; [|eapply IH; eauto]. inv_bind H. inv_bind H. inv_bind H. inv_bind H.
    apply IH in H. rewrite (update_length _ _ _ E1), (update_length _ _ _ E2) in H. auto.
Qed.
Lemma sample_length : forall E p n index grad hess c g h n2, sample_index E p n index grad hess = Some (c, g, h, n2) ->
  length g = length grad /\ length h = length hess /\ (p_sample_method p = SNone -> c = index).
Proof.
  intros E p n index grad hess c g h n2 H. unfold sample_index in H. destruct (p_sample_method p).
  - injection H as <- <- <- <-. auto.
  - destruct (random_sample _ _ _ _) as [[a b] m]. injection H as <- <- <- <-. split; auto. split; auto. discriminate.
  - inv_bind H. destruct v as [[[[u x] g1] h1] m]. injection H as <- <- <- <-. unfold goss_sample in E0.
    destruct (_ <=? _); [|discriminate]. destruct (_ <=? _); [|discriminate]. inv_bind E0. destruct v as [[[u2 g2] h2] m2].
    injection E0 as <- <- <- <- <-. apply goss_loop_length in E1. split; [tauto|]. split; [tauto|discriminate].
Qed.
Lemma column_sorted : forall E p n cols l n', rng_ok E p -> column_sample E p n cols = (l, n') ->
  StronglySorted lt l /\ forall c, In c l -> c < cols.
Proof.
  intros E p n cols l n' RO H. split; [|eapply column_sample_bound; eauto].
  unfold column_sample in H. destruct (_ =? _)%f64 eqn:EQ.
  - injection H as <- <-. apply seq_sorted.
  - destruct RO as [RO|RO]; [unfold F64 in *; congruence|]. injection H as <- <-.
    apply sort_nat_sorted. apply (rs_choose _ RO n _ (seq 0 cols) (seq_NoDup _ _)).
Qed.

Record loop_ok (p : Params) (rows : nat) (l : Loop) : Prop := mkLoopOk {
  lo_par : gb_params (l_booster l) = p; lo_trees : Forall (tree_ok (p_missing p)) (gb_trees (l_booster l));
  lo_yhat : length (l_yhat l) = rows; lo_grad : length (l_grad l) = rows; lo_hess : length (l_hess l) = rows;
  lo_evals : match l_evals l with Some sets => Forall (fun dy : EvalData * list F64 => sound (fst (fst (fst dy)))) sets | None => True end }.

Section Step.
Variables (E : Env) (data : Matrix F64) (y w : list F64) (bd bd' : BinnedData) (cc cc' : list (list F64)) (p : Params).
Hypothesis RC : recoding D (p_missing p) phi.
Hypothesis SD : sound data.
Hypothesis LD : length (m_data data) = m_rows data * m_cols data.
Hypothesis LY : length y = m_rows data.
Hypothesis LW : length w = m_rows data.
Hypothesis RO : rng_ok E p.
Hypothesis GB : forall k, gain_based (e_pick E k).
Hypothesis ED : b_data bd' = b_data bd.
Hypothesis J : jrep (b_cuts bd) cc.
Hypothesis J' : jrep (b_cuts bd') cc'.
Hypothesis L : length cc = m_cols data.
Hypothesis L' : length cc' = m_cols data.
Hypothesis LB : length (b_data bd) = length (m_data data).
Hypothesis R : forall f, f < m_cols data -> bin_rel D (p_missing p) phi f (nth f cc []) (nth f cc' []).

Lemma step_rel : forall i l l2, loop_ok p (m_rows data) l -> boost_step E data y w bd i l = Some l2 ->
  boost_step E (recode phi data) y w bd' i (map_loop l) = Some (map_loop l2) /\ loop_ok p (m_rows data) l2.
Proof.
  intros i l l2 [O1 O2 O3 O4 O5 O6] H. unfold boost_step in *. cbn [map_loop map_booster l_booster gb_params l_rng l_grad l_hess l_yhat l_evals
    gb_history gb_best gb_pred l_best_metric l_stop gb_base_score gb_trees gb_metadata recode m_index m_cols m_rows] in *.
  rewrite O1 in *. inv_bind H. destruct v as [[[chosen grad] hess] n]. rewrite E0. cbn [bind].
  destruct (sample_length _ _ _ _ _ _ _ _ _ _ E0) as (LG & LH & CI).
  destruct (column_sample E p n (m_cols data)) as [cols n2] eqn:EC. destruct (column_sorted _ _ _ _ _ _ RO EC) as [CS CB].
  inv_bind H. destruct v as [nodes st].
  destruct (tree_rel (p_missing p) data bd bd' cc cc' grad hess cols (p_grow_policy p) (e_pick E i) (splitter_of p) chosen
     (p_max_leaves p) (p_max_depth p) (p_sample_method p) nodes st) as (TO & st' & E1'); auto; try congruence.
  { intros X. rewrite CI by auto. apply SD. }
  unfold binned in E1'. cbn [recode m_cols m_rows] in E1'. rewrite E1'. cbn [bind].
  rewrite update_rel by auto. inv_bind H. rewrite E2. cbn [bind]. rename v into yhat.
  assert (LYH : length yhat = m_rows data).
  { rewrite update_serial in E2. inv_bind E2. injection E2 as <-. rewrite add_preds_length. auto. }
  inv_bind H. destruct v as [[hist evals] s].
  assert (X : (match option_map (map (fun dy : EvalData * list F64 => (map_eval (fst dy), snd dy))) (l_evals l) with
     | None => Some (gb_history (l_booster l), None, mkStop (l_best_metric l) (gb_best (l_booster l)) (gb_pred (l_booster l)) (l_stop l))
     | Some sets =>
         let h := match gb_history (l_booster l) with Some h => h | None => mkRowMajor [] 0 (length sets) end in
         let* (sets, ms, s) := eval_loop E p (map (map_node phi) nodes) i 0 (length sets) sets
             (mkStop (l_best_metric l) (gb_best (l_booster l)) (gb_pred (l_booster l)) (l_stop l)) in
         let* h := r_append_row h ms in
         Some (Some h, Some sets, s)
     end) = Some (hist, option_map (map (fun dy : EvalData * list F64 => (map_eval (fst dy), snd dy))) evals, s) /\
     match evals with Some sets => Forall (fun dy : EvalData * list F64 => sound (fst (fst (fst dy)))) sets | None => True end).
  { destruct (l_evals l) as [sets|]; unfold option_map at 1.
    - cbv beta iota zeta in *. rewrite map_length. inv_bind E3. destruct v as [[sets2 ms] s2].
      destruct (eval_loop_rel E p RC nodes TO _ _ _ _ _ _ _ _ O6 E4) as [X1 X2]. rewrite X1. cbn [bind].
      inv_bind E3. rewrite E5. cbn [bind]. injection E3 as <- <- <-. auto.
    - injection E3 as <- <- <-. auto. }
  destruct X as [X1 X2].
  match goal with |- bind ?e _ = _ /\ _ => replace e with (Some (hist, option_map (map (fun dy : EvalData * list F64 => (map_eval (fst dy), snd dy))) evals, s)) by (symmetry; exact X1) end.
  cbn [bind].
  destruct (if s_stop s then (grad, hess) else calc_grad_hess (p_objective p) y yhat w) as [g2 h2] eqn:EG.
  injection H as <-. split.
  - unfold map_loop, map_booster. cbn [l_booster gb_params l_rng l_grad l_hess l_yhat l_evals
    gb_history gb_best gb_pred l_best_metric l_stop gb_base_score gb_trees gb_metadata]. rewrite map_app. reflexivity.
  - assert (LGH : length g2 = m_rows data /\ length h2 = m_rows data).
    { destruct (s_stop s); [injection EG as <- <-; split; congruence|].
      destruct (grad_hess_length (p_objective p) y yhat w (m_rows data)) as [G1 G2]; auto. rewrite EG in G1, G2. auto. }
    constructor; simpl; try tauto. apply Forall_app; auto.
Qed.

Lemma loop_rel : forall is l l2, loop_ok p (m_rows data) l -> boost_loop E data y w bd is l = Some l2 ->
  boost_loop E (recode phi data) y w bd' is (map_loop l) = Some (map_loop l2) /\ loop_ok p (m_rows data) l2.
Proof.
  induction is as [|i is IH]; intros l l2 O H; simpl in *.
  - injection H as <-. auto.
  - inv_bind H. destruct (step_rel _ _ _ O E0) as [S1 S2]. rewrite S1. cbn [bind]. cbn [map_loop l_stop].
    destruct (l_stop v); [injection H as <-; auto|]. apply IH; auto.
Qed.
End Step.

Theorem fit_recode : forall E b data y w es b',
  recoding D (p_missing (gb_params b)) phi -> sound data ->
  match es with Some l => Forall (fun d : EvalData => sound (fst (fst d))) l | None => True end ->
  length (m_data data) = m_rows data * m_cols data -> length y = m_rows data -> length w = m_rows data ->
  compares (e_sorts E) -> (forall k, gain_based (e_pick E k)) -> rng_ok E (gb_params b) -> 
  fit E b data y w es = Some (b', None) ->
  fit E b (recode phi data) y w (option_map (map map_eval) es) = Some (map_booster b', None) /\ model_ok b'.
Proof.
  intros E b data y w es b' RC SD SE LD LY LW CS GB RO H.
  unfold fit in *.
  assert (EV : forall l i, validate_evals i (map map_eval l) = validate_evals i l).
  { induction l as [|[[d yy] ww] l IH]; intros i; simpl; auto. rewrite IH. reflexivity. }
  assert (EI : validate_inputs y w (option_map (map map_eval) es) = validate_inputs y w es).
  { unfold validate_inputs. destruct es; simpl; auto. rewrite EV. reflexivity. }
  rewrite EI. destruct (validate_inputs y w es); [discriminate|]. inv_bind H. injection H as <-.
  unfold fit_trees in *. inv_bind E0. destruct v0 as [bd l]. inv_bind E0. injection E0 as <-. rename v0 into l2.
  unfold fit_start in *. fold (start_booster b) in *.
  assert (EP : gb_params (start_booster b) = gb_params b /\ gb_trees (start_booster b) = []).
  { unfold start_booster. destruct (gb_trees b) eqn:ET; simpl; auto. }
  destruct EP as [EP1 EP2]. cbv zeta in *. rewrite EP1 in *.
  inv_bind E1. rewrite E0. cbn [bind]. rename v into base.
  destruct (calc_grad_hess (p_objective (gb_params b)) y (repeat base (length y)) w) as [g h] eqn:EG.
  inv_bind E1. rename v into bd0. injection E1 as -> <-.
  destruct (bin_matrix_rel (p_missing (gb_params b)) RC _ _ _ _ _ CS (proj1 SD) E3) as (bd' & cc & cc' & EB & ED & _ & J & J' & LC & LC' & LB & R).
  rewrite EB. cbn [bind].
  match type of E2 with boost_loop _ _ _ _ _ _ ?x = _ => assert (LO : loop_ok (gb_params b) (m_rows data) x) end.
  { destruct (grad_hess_length (p_objective (gb_params b)) y (repeat base (length y)) w (m_rows data)) as [G1 G2]; auto.
    { rewrite repeat_length; auto. }
    rewrite EG in G1, G2. constructor; simpl; auto.
    - rewrite EP2. constructor.
    - rewrite repeat_length; auto.
    - destruct es as [es|]; simpl; auto. apply Forall_forall. intros x Hx. apply in_map_iff in Hx. destruct Hx as (d & <- & Hd).
      simpl. rewrite Forall_forall in SE. apply SE; auto. }
  destruct (loop_rel E data y w bd bd' cc cc' (gb_params b) RC SD LD LY LW RO GB ED J J' LC LC' LB R _ _ _ LO E2) as [S1 S2].
  assert (ML : forall x x', x = x' -> boost_loop E (recode phi data) y w bd' (seq 0 (p_iterations (gb_params b))) x = Some (map_loop l2) ->
     boost_loop E (recode phi data) y w bd' (seq 0 (p_iterations (gb_params b))) x' = Some (map_loop l2)) by (intros; congruence).
  match goal with |- context [boost_loop E (recode phi data) y w bd' ?is ?x] => assert (EQ : boost_loop E (recode phi data) y w bd' is x = Some (map_loop l2)) end.
  { refine (ML _ _ _ S1). unfold map_loop, map_booster. cbn [l_booster gb_params l_rng l_grad l_hess l_yhat l_evals
    gb_history gb_best gb_pred l_best_metric l_stop gb_base_score gb_trees gb_metadata]. rewrite EP2. f_equal.
    destruct es as [es|]; simpl; auto. f_equal. rewrite !map_map. apply map_ext. intros [[d yy] ww]. reflexivity. }
  rewrite EQ. cbn [bind]. split; auto.
  unfold model_ok. rewrite (lo_par _ _ _ S2). apply S2.
Qed.

Lemma trees_recode : forall b, prediction_trees (map_booster b) = option_map (map (map (map_node phi))) (prediction_trees b).
Proof.
  intros b. unfold prediction_trees, map_booster, slice. cbn [gb_pred gb_trees]. rewrite map_length.
  destruct (_ && _); simpl; auto. rewrite <- firstn_map. reflexivity.
Qed.
Lemma trees_part : forall b ts t, prediction_trees b = Some ts -> In t ts -> In t (gb_trees b).
Proof.
  intros b ts t H Ht. unfold prediction_trees, slice in H. destruct (_ && _); [|discriminate]. injection H as <-. rewrite Nat.sub_0_r in Ht. simpl in Ht.
  rewrite <- (firstn_skipn (match gb_pred b with Some n => n | None => length (gb_trees b) end)). apply in_app_iff. auto.
Qed.

Theorem predict_recode : forall shs b d par, recoding D (p_missing (gb_params b)) phi -> model_ok b -> sound d ->
  predict shs (map_booster b) (recode phi d) par = predict shs b d par.
Proof.
  intros shs b d par RC MO SD. rewrite !predict_serial. rewrite trees_recode.
  destruct (prediction_trees b) as [ts|] eqn:ET; simpl; auto.
  assert (HT : forall t, In t ts -> tree_ok (p_missing (gb_params b)) t).
  { intros t Ht. unfold model_ok in MO. rewrite Forall_forall in MO. apply MO. eapply trees_part; eauto. }
  clear ET. unfold preds_after. generalize (repeat (gb_base_score b) (m_rows d)) as acc.
  induction ts as [|t ts IH]; intros acc; simpl; auto. rewrite tree_predict_rel by (auto; apply HT; left; auto).
  destruct (tree_predict t d _); simpl; auto. apply IH. intros x Hx. apply HT. right; auto.
Qed.

Theorem leaf_indices_recode : forall shs b d, recoding D (p_missing (gb_params b)) phi -> model_ok b -> sound d ->
  predict_leaf_indices shs (map_booster b) (recode phi d) = predict_leaf_indices shs b d.
Proof.
  intros shs b d RC MO SD. rewrite !predict_leaf_indices_serial. rewrite trees_recode.
  destruct (prediction_trees b) as [ts|] eqn:ET; simpl; auto.
  assert (HT : forall t, In t ts -> tree_ok (p_missing (gb_params b)) t).
  { intros t Ht. unfold model_ok in MO. rewrite Forall_forall in MO. apply MO. eapply trees_part; eauto. }
  clear ET.
  assert (EM : mapM (leaf_nums (p_missing (gb_params b)) (recode phi d)) (map (map (map_node phi)) ts) = mapM (leaf_nums (p_missing (gb_params b)) d) ts).
  { induction ts as [|t ts IH]; simpl; auto. rewrite IH by (intros x Hx; apply HT; right; auto).
    assert (EL : leaf_nums (p_missing (gb_params b)) (recode phi d) (map (map_node phi) t) = leaf_nums (p_missing (gb_params b)) d t).
    { unfold leaf_nums. cbn [recode m_index]. apply mapM_ext. intros i Hi. rewrite (proj2 SD) in Hi. apply in_seq in Hi.
      rewrite leaf_rel by first [lia | apply HT; left; reflexivity | auto]. destruct (predict_leaf t d i _); reflexivity. }
    rewrite EL. reflexivity. }
  rewrite EM. reflexivity.
Qed.
End Fit.
