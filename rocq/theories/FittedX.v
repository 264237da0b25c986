(** What every fitted model satisfies in exact arithmetic: each split separates training rows, covers
    and gains are finite, covers of parents are positive. *)
From Coq Require Import Reals Lra List Arith NArith Lia Bool Permutation Sorting.
From Flocq Require Import Core.Raux.
From Verif Require Import Prelude Float FloatX FloatLaws FloatMono OrdProofs Data DataProofs Utils UtilsX Binning BinningProofs CutProofs BinMatrix Histogram HistogramX Node Splitter
  SplitProofs EvalProofs Tree GrowProofs GrowInv GrowStep TreeWf TreeProofs FitProofs FitSplits PathProofs RouteX RouteFit
  GrowWeights MissTree Objective ObjectiveX Metric MetricX Sampler SamplerProofs Contrib Booster PredictProofs BoostProofs FitModel FinX BoostX LossX
  ContribProofs ContribX ImportProofs DependX.
Import ListNotations.
Local Open Scope R_scope.

(** *** Any arithmetic *)
Section Any.
Context {FS : Floats}.

(** A node on a path is the first one or the child some node on the path sends the row to. *)
Lemma path_from : forall nodes row missing c fuel i l, path fuel nodes row missing i = Some l -> In c l ->
  c = i \/ exists a n v, In a l /\ nth_error nodes a = Some n /\ n_is_leaf n = false /\
    row (n_split_feature n) = Some v /\ get_child_idx n v missing = Some c.
Proof.
  intros nodes row missing c. induction fuel as [|f IH]; intros i l H Hc; simpl in H; [discriminate|].
  inv_bind H. destruct (n_is_leaf v) eqn:EL.
  - injection H as <-. destruct Hc as [<-|[]]. auto.
  - inv_bind H. inv_bind H. inv_bind H. injection H as <-. destruct Hc as [<-|Hc]; auto. right.
    destruct (IH _ _ E2 Hc) as [->|(a & n & w & H1 & H2)].
    + exists i, v, v0. split; [left; auto|]. auto.
    + exists a, n, w. split; [right; auto|]. auto.
Qed.

Lemma child_in : forall (n : Node) v missing c, get_child_idx n v missing = Some c -> In c (children n).
Proof.
  intros n v missing c H. unfold get_child_idx in H. inv_bind H. injection H as <-. unfold children. simpl.
  destruct v0; auto. destruct (v <? n_split_value n)%f64; auto.
Qed.

Lemma passes_child : forall nodes row missing k n c, well_formed nodes -> nth_error nodes k = Some n -> n_is_leaf n = false ->
  In c (children n) -> passes nodes row missing c = true ->
  passes nodes row missing k = true /\ exists v, row (n_split_feature n) = Some v /\ get_child_idx n v missing = Some c.
Proof.
  intros nodes row missing k n c W Hk Hl Hc HP. unfold passes, full_path in *.
  destruct (path (length nodes) nodes row missing 0) as [l|] eqn:EL; [|discriminate].
  apply existsb_exists in HP. destruct HP as (c' & Hc' & E). apply Nat.eqb_eq in E. subst c'.
  destruct (path_from _ _ _ _ _ _ _ EL Hc') as [->|(a & na & v & Ha & Hna & Hla & Hv & Hg)].
  - exfalso. destruct (wf_child _ W _ _ _ Hk Hl Hc) as [Q _]. lia.
  - assert (a = k) by (eapply (wf_parent_unique _ W); eauto; eapply child_in; eauto). subst a.
    rewrite Hk in Hna. injection Hna as <-. split; eauto. apply existsb_exists. exists k. split; auto. apply Nat.eqb_refl.
Qed.

(** Both branches are binary, or three children are told apart, according to the splitter. *)
Lemma fit_sides : forall policy pick s t index max_leaves max_depth sm nodes st,
  tree_fit policy pick s t index max_leaves max_depth sm = Some (nodes, st) ->
  forall n, In n nodes -> n_is_leaf n = false ->
  match s with
  | Imputer _ => n_missing n = n_left n \/ n_missing n = n_right n
  | Branch _ _ _ _ => n_missing n <> n_left n /\ n_missing n <> n_right n
  end.
Proof.
  intros policy pick s t index max_leaves max_depth sm nodes st H n Hn Hl.
  destruct (fit_ghost _ _ _ _ _ _ _ _ _ _ H) as (root & g & HR & I & G).
  apply In_nth_error in Hn. destruct Hn as [i Hi]. destruct (G i n Hi) as (x & Hx & Ex & V & R).
  apply reweighted_eq in R. destruct R as (_ & _ & _ & _ & _ & _ & R7 & R8 & R9 & R10 & _).
  rewrite R10 in Hl. rewrite R7, R8, R9. inversion V; subst.
  - simpl in Hl. congruence.
  - cbn. destruct mr; auto.
  - match goal with H : split3 _ _ _ _ _ _ _ _ _ _ _ _ _ |- _ => destruct H as [f q term treat force i0 HS' _ _ _ _ _ _] end. rewrite HS'. cbn. lia.
Qed.
End Any.

(** *** One tree *)
Section OneTree.
Variables (S : Sorts) (data : Matrix xr) (sw : list xr) (nbins : nat) (missing : xr) (bd : @BinnedData XF).
Variables (policy : GrowPolicy) (pick : pick_fn) (s : @Splitter XF) (t : @Train XF) (index : list nat).
Variables (max_leaves max_depth : nat) (sm : SampleMethod).
Notation p := (params s).
Hypothesis TD : trained S data sw nbins missing bd s t index sm.
Hypothesis HN : forall x, In x (tr_hess t) -> xnonneg x.
Variables (nodes : list (@Node XF)) (st : @Grow XF).
Hypothesis HF : @tree_fit XF policy pick s t index max_leaves max_depth sm = Some (nodes, st).
Notation hs_of i := (val (nth i (tr_hess t) (Fin 0))).
Notation row i := (fun f => m_get data i f).

Lemma hess_at : forall i, 0 <= hs_of i.
Proof.
  intros i. destruct (nth_in_or_default i (tr_hess t) (Fin 0)) as [Hi|E]; [|setoid_rewrite E; simpl; lra].
  destruct (HN _ Hi) as (r & E & Hr). setoid_rewrite E. simpl. auto.
Qed.

Lemma cover_of : forall k n, nth_error nodes k = Some n ->
  n_hess n = Fin (sumR (map (fun i => hs_of i) (filter (fun i => @passes XF nodes (row i) missing k) index))).
Proof. exact (fit_cover S data sw nbins missing bd policy pick s t index max_leaves max_depth sm TD nodes st HF). Qed.

Lemma side_positive : forall n c m, In n nodes -> n_is_leaf n = false -> c = n_left n \/ c = n_right n -> nth_error nodes c = Some m -> xpos (n_hess m).
Proof.
  intros n c m Hn Hl Hc Hm. pose proof (@fit_min_leaf_weight XF _ _ _ _ _ _ _ _ _ _ HF n Hn Hl c m Hc Hm) as Q.
  rewrite (cover_of c m Hm) in Q |- *. destruct (td_mlw _ _ _ _ _ _ _ _ _ _ TD) as (mlw & EM & MP). rewrite EM in Q.
  eexists. split; [reflexivity|]. simpl in Q. match type of Q with Rlt_bool ?a ?b = false => destruct (Rlt_boolP a b) as [[E _]|[_ E]]; [congruence|exact (Rlt_le_trans _ _ _ MP E)] end.
Qed.

(** some sampled row with a positive hessian reaches each side *)
Lemma side_row : forall n c, In n nodes -> n_is_leaf n = false -> c = n_left n \/ c = n_right n ->
  exists i, In i index /\ (i < m_rows data)%nat /\ 0 < hs_of i /\ @passes XF nodes (row i) missing c = true.
Proof.
  intros n c Hn Hl Hc. pose proof (@fit_well_formed XF _ _ _ _ _ _ _ _ _ _ HF) as W.
  pose proof Hn as Hn'. apply In_nth_error in Hn'. destruct Hn' as [k Hk].
  destruct (wf_child _ W k n c Hk Hl) as (_ & m & Hm & _); [unfold children; destruct Hc as [->| ->]; simpl; auto|].
  destruct (side_positive n c m Hn Hl Hc Hm) as (r & Er & Pr). rewrite (cover_of c m Hm) in Er. injection Er as Er.
  assert (G : forall l, 0 < sumR (map (fun i => hs_of i) l) -> exists i, In i l /\ 0 < hs_of i).
  { induction l as [|i l IH]; [unfold sumR; simpl; lra|]. cbn [map]. rewrite sumR_cons. intros HS.
    destruct (Rlt_dec 0 (hs_of i)) as [P|P]; [exists i; split; [left|]; auto|].
    destruct IH as (j & Hj & Pj); [pose proof (hess_at i); lra|]. exists j. split; [right|]; auto. }
  rewrite <- Er in Pr. destruct (G _ Pr) as (i & Hi & Pi). apply filter_In in Hi. destruct Hi as [Hi Hp].
  exists i. split; auto. split; [apply (td_index _ _ _ _ _ _ _ _ _ _ TD); auto|]. auto.
Qed.

Lemma parent_positive : forall n, In n nodes -> n_is_leaf n = false -> xpos (n_hess n).
Proof.
  intros n Hn Hl. pose proof (@fit_well_formed XF _ _ _ _ _ _ _ _ _ _ HF) as W.
  pose proof Hn as Hn'. apply In_nth_error in Hn'. destruct Hn' as [k Hk].
  destruct (side_row n (n_left n) Hn Hl (or_introl eq_refl)) as (i & Hi & _ & Pi & HP).
  assert (HC : In (n_left n) (children n)) by (unfold children; simpl; auto).
  destruct (@passes_child XF _ _ _ _ _ _ W Hk Hl HC HP) as [HK _].
  rewrite (cover_of k n Hk). eexists. split; [reflexivity|].
  assert (IN : In i (filter (fun i => @passes XF nodes (row i) missing k) index)) by (apply filter_In; auto).
  apply in_split in IN. destruct IN as (l1 & l2 & ->). rewrite map_app, sumR_app. cbn [map]. rewrite sumR_cons.
  assert (NN : forall l, 0 <= sumR (map (fun i => hs_of i) l)).
  { intros l. apply sumR_nonneg. intros x Hx. apply in_map_iff in Hx. destruct Hx as (j & <- & _). apply hess_at. }
  pose proof (NN l1). pose proof (NN l2). lra.
Qed.

Lemma hess_nonneg_at : forall n, In n nodes -> xnonneg (n_hess n).
Proof.
  intros n Hn. apply In_nth_error in Hn. destruct Hn as [k Hk]. rewrite (cover_of k n Hk). eexists. split; [reflexivity|].
  apply sumR_nonneg. intros x Hx. apply in_map_iff in Hx. destruct Hx as (j & <- & _). apply hess_at.
Qed.

Lemma tree_finite_covers : finite_covers nodes.
Proof.
  intros n Hn. split; [apply xnonneg_fin, hess_nonneg_at; auto|]. intros Hl. destruct (parent_positive n Hn Hl) as (r & -> & Pr). simpl. lra.
Qed.

Lemma tree_covers_positive : covers_positive nodes.
Proof.
  split.
  - intros n Hn. destruct (hess_nonneg_at n Hn) as (r & E & Pr). unfold hs. rewrite E. split; [eexists; reflexivity|auto].
  - intros n Hn Hl. pose proof (@fit_well_formed XF _ _ _ _ _ _ _ _ _ _ HF) as W.
    pose proof Hn as Hn'. apply In_nth_error in Hn'. destruct Hn' as [k Hk].
    assert (ST : forall c, In c (children n) -> exists m, nth_error nodes c = Some m /\ 0 <= hs m).
    { intros c Hc. destruct (wf_child _ W k n c Hk Hl Hc) as (_ & m & Hm & _). exists m. split; auto.
      destruct (hess_nonneg_at m (nth_error_In _ _ Hm)) as (r & E & Pr). unfold hs. rewrite E. auto. }
    destruct (ST (n_left n)) as (l & HL & PL); [unfold children; simpl; auto|].
    destruct (ST (n_right n)) as (r & HR & PR); [unfold children; simpl; auto|].
    destruct (ST (n_missing n)) as (m & HM & PM); [unfold children; simpl; auto|].
    destruct (side_positive n _ l Hn Hl (or_introl eq_refl) HL) as (x & EX & PX).
    unfold child_total. rewrite HL, HR, HM. unfold hs in *. rewrite EX in *. simpl in *. destruct (has_missing_branch n); lra.
Qed.

End OneTree.

(** *** The whole model *)
Lemma hess_weight : forall o y yhat w i, length yhat = length y -> length w = length y ->
  (forall v, In v y -> xfin v) -> (forall v, In v yhat -> xfin v) -> (forall v, In v w -> xnonneg v) ->
  val (nth i w (Fin 0)) = 0 -> val (nth i (snd (@calc_grad_hess XF o y yhat w)) (Fin 0)) = 0.
Proof.
  intros o y yh w i L1 L2 F1 F2 F3. destruct (fin_lists y yh w) as (rs & -> & -> & -> & PW); auto.
  rewrite calc_grad_hess_X. cbn [snd]. unfold ws. clear. revert i.
  induction rs as [|[[a x] c] rs IH]; intros [|i]; try reflexivity.
  - cbn. intros ->. destruct o; unfold hess_R; simpl; ring.
  - exact (IH i).
Qed.

Section Model.
Variables (E : @Env XF) (b b' : @Booster XF) (data : Matrix xr) (y w : list xr) (es : option (list (@EvalData XF))) (base : R).
Notation p := (gb_params b).
Hypotheses (SP : sound_params p) (SD : sound_data p data y w) (SE : sound_env E p) (C : @clean XF b).
Hypothesis HBASE : (if p_initialize_base_score p then @calc_init XF (p_objective p) y w else Some (gb_base_score b)) = Some (Fin base).
Hypothesis HFIT : @fit XF E b data y w es = Some (b', None).
Notation row i := (fun f => m_get data i f).

Lemma sample_zero : forall n grad hess chosen grad' hess' n', sound_grads data grad hess ->
  @sample_index XF E p n (m_index data) grad hess = Some (chosen, grad', hess', n') ->
  forall i, val (nth i hess (Fin 0)) = 0 -> val (nth i hess' (Fin 0)) = 0.
Proof.
  intros n grad hess chosen grad' hess' n' SG HS i Z. destruct (sd_matrix _ _ _ _ SD) as (HI & _).
  destruct (sg_len _ _ _ SG) as [LG LH]. unfold sample_index in HS. destruct (p_sample_method p) eqn:ES.
  - injection HS as _ _ <- _. exact Z.
  - destruct (@random_sample XF _ _ _ _) as [[? ?] ?]. injection HS as _ _ <- _. exact Z.
  - destruct (sp_goss_ok _ SP ES) as (a & c & Ea & Ha & Eb & Hb).
    assert (TN : (@ftonat (@f64 XF) (@fmul (@f64 XF) (p_top_rate p) (@fofnat (@f64 XF) (length grad))) <= length grad)%nat).
    { rewrite Ea. set (m := length grad). change (xtonat (xmul (Fin a) (Fin (INR m))) <= m)%nat. rewrite xmul_fin.
      cbn [xtonat]. assert (PN : 0 <= INR m) by apply pos_INR.
      pose proof (Zfloor_lb (a * INR m)) as F1.
      assert (IZR (Zfloor (a * INR m)) <= IZR (Z.of_nat m)) by (rewrite <- INR_IZR_INZ; nra).
      apply le_IZR in H. lia. }
    destruct (@goss_spec XF (e_goss E) (e_rng E (p_seed p)) (p_top_rate p) (p_other_rate p) n grad hess (se_goss _ _ SE ES))
      as (top & kept & grad1 & hess1 & k' & EQ & ND & IX & _ & _ & K & NK); [exact (eq_trans LH (eq_sym LG))|exact TN|].
    rewrite HI in HS.
    assert (EQ' : @goss_sample XF (e_goss E) (e_rng E (p_seed p)) (p_top_rate p) (p_other_rate p) n (seq 0 (m_rows data)) grad hess = Some (top ++ kept, [], grad1, hess1, k'))
      by (rewrite <- LG; exact EQ).
    rewrite EQ' in HS. cbn [bind] in HS. injection HS as _ _ <- _.
    assert (FA : @to32 XF (@fdiv (@f64 XF) (@fsub (@f64 XF) (@fone (@f64 XF)) (p_top_rate p)) (p_other_rate p)) = Fin ((1 - a) / c)).
    { rewrite Ea, Eb. change (xdiv (Fin (1 - a)) (Fin c) = Fin ((1 - a) / c)). apply xdiv_fin. lra. }
    rewrite FA in K. destruct (in_dec Nat.eq_dec i kept) as [Hi|Hi].
    + destruct (K _ Hi) as (g & h & _ & Hh & _ & Eh).
      pose proof (nth_error_nth _ _ (Fin 0) Hh) as Q1. pose proof (nth_error_nth _ _ (Fin 0) Eh) as Q2.
      setoid_rewrite Q2. setoid_rewrite Q1 in Z.
      destruct (sg_hess _ _ _ SG _ (nth_error_In _ _ Hh)) as (q & -> & _). simpl in *. subst. ring.
    + destruct (NK _ Hi) as [_ Eh].
      assert (QE : forall l l' : list xr, nth_error l i = nth_error l' i -> nth i l (Fin 0) = nth i l' (Fin 0)).
      { clear. intros l l' H. destruct (nth_error l' i) eqn:E2.
        - rewrite (nth_error_nth _ _ (Fin 0) H), (nth_error_nth _ _ (Fin 0) E2). reflexivity.
        - rewrite !nth_overflow; auto; apply nth_error_None; auto. }
      setoid_rewrite (QE _ _ Eh). exact Z.
Qed.

(** How each tree was grown. *)
Lemma model_grown : forall t, In t (gb_trees b') ->
  exists bd k chosen grad hess cols st,
    trained (e_sorts E) data w (p_nbins p) (p_missing p) bd (@splitter_of XF p)
      (mkTrain (matrix_new (b_data bd) (m_rows data) (m_cols data)) (b_cuts bd) grad hess cols) chosen (p_sample_method p) /\
    @tree_fit XF (p_grow_policy p) (e_pick E k) (splitter_of p)
      (mkTrain (matrix_new (b_data bd) (m_rows data) (m_cols data)) (b_cuts bd) grad hess cols) chosen
      (p_max_leaves p) (p_max_depth p) (p_sample_method p) = Some (t, st) /\
    sound_tree data t /\ sound_sample data p chosen grad hess /\
    forall i, val (nth i w (Fin 0)) = 0 -> val (nth i hess (Fin 0)) = 0.
Proof.
  intros t Ht. apply In_nth_error in Ht. destruct Ht as [k Hk].
  destruct (model_steps E b b' data y w es base C HBASE HFIT) as (bd & HB & EP & EB & HT).
  destruct (model_yhat E b b' data y w base SP SD SE bd HB HT k) as (_ & yh & HP & LY & FY); [apply Nat.lt_le_incl; eapply nth_error_Some_lt; eauto|].
  destruct (model_yhat E b b' data y w base SP SD SE bd HB HT _ (le_n _)) as [ST _].
  pose proof (HT _ _ Hk) as (yh' & n & chosen & grad & hess & n' & cols & n'' & st & P1 & P2 & P3 & P4).
  assert (yh' = yh) as -> by (pose proof (eq_trans (eq_sym P1) HP) as Q; injection Q; auto).
  destruct (grads_sound E data y w bd p SD HB yh LY FY) as [SG RT]. cbv zeta in SG, RT.
  destruct (sample_sound E data y w p SP SD SE n _ _ SG RT) as (chosen' & grad' & hess' & n1 & HS & SS).
  pose proof (eq_trans (eq_sym P2) HS) as Q. injection Q as <- <- <- <-.
  exists bd, k, chosen, grad, hess, cols, st.
  split; [exact (trained_step E data y w bd p SP SD SE HB _ _ _ _ _ _ SS P3)|]. split; [exact P4|].
  split; [apply (ST k); auto; eapply nth_error_Some_lt; eauto|]. split; [exact SS|].
  intros i Hi. apply (sample_zero _ _ _ _ _ _ _ SG HS). apply hess_weight; auto.
  - exact (eq_trans LY (eq_sym (proj1 (sd_y _ _ _ _ SD)))).
  - exact (eq_trans (proj1 (sd_w _ _ _ _ SD)) (eq_sym (proj1 (sd_y _ _ _ _ SD)))).
  - apply (sd_y _ _ _ _ SD).
  - apply (sd_w _ _ _ _ SD).
Qed.

(** *** Each split separates training rows of positive weight *)
Theorem model_separates : forall t n c, In t (gb_trees b') -> In n t -> n_is_leaf n = false -> c = n_left n \/ c = n_right n ->
  exists i v x, (i < m_rows data)%nat /\ nth_error w i = Some v /\ xpos v /\ @passes XF t (row i) (p_missing p) c = true /\
    m_get data i (n_split_feature n) = Some x /\ @get_child_idx XF n x (p_missing p) = Some c.
Proof.
  intros t n c Ht Hn Hl Hc. destruct (model_grown t Ht) as (bd & k & chosen & grad & hess & cols & st & TD & HF & (W & _) & SS & WZ).
  destruct (side_row _ _ _ _ _ _ _ _ _ _ _ _ _ _ TD (sg_hess _ _ _ (ss_grads _ _ _ _ _ SS)) _ _ HF n c Hn Hl Hc) as (i & Hi & Hr & Pi & HP).
  simpl in Pi. destruct (nth_error w i) as [v|] eqn:EV.
  2:{ apply nth_error_None in EV. rewrite (proj1 (sd_w _ _ _ _ SD)) in EV. lia. }
  exists i, v. apply In_nth_error in Hn. destruct Hn as [j Hj].
  assert (HC : In c (children n)) by (unfold children; destruct Hc as [->| ->]; simpl; auto).
  destruct (@passes_child XF t (row i) (p_missing p) j n c W Hj Hl HC HP) as (_ & x & Hx & Hg). exists x.
  split; auto. split; auto. split; [|auto].
  destruct (proj2 (sd_w _ _ _ _ SD) v (nth_error_In _ _ EV)) as (r & -> & Pr). exists r. split; auto.
  destruct (Req_dec r 0) as [->|NZ]; [|lra]. exfalso. specialize (WZ i). rewrite (nth_error_nth _ _ _ EV) in WZ. specialize (WZ eq_refl). exact (Rlt_irrefl 0 (Rlt_le_trans _ _ _ Pi (Req_le _ _ WZ))).
Qed.

(** Rows of positive weight. *)
Definition counted (i : nat) : Prop := (i < m_rows data)%nat /\ exists v, nth_error w i = Some v /\ xpos v.

Theorem constant_column_unused : forall f, (forall i j, counted i -> counted j -> m_get data i f = m_get data j f) ->
  forall t, In t (gb_trees b') -> ~ @tree_features XF t f.
Proof.
  intros f HC t Ht (n & Hn & Hl & <-).
  destruct (model_separates t n _ Ht Hn Hl (or_introl eq_refl)) as (i & v & x & Hi & Hv & Pv & _ & Gx & Cx).
  destruct (model_separates t n _ Ht Hn Hl (or_intror eq_refl)) as (j & v' & x' & Hj & Hv' & Pv' & _ & Gx' & Cx').
  assert (EQ : m_get data i (n_split_feature n) = m_get data j (n_split_feature n)) by (apply HC; split; eauto).
  rewrite Gx, Gx' in EQ. injection EQ as <-. rewrite Cx in Cx'. injection Cx' as Q.
  destruct (model_grown t Ht) as (bd & k & chosen & grad & hess & cols & st & TD & HF & (W & _) & _).
  apply In_nth_error in Hn. destruct Hn as [k' Hk]. exact (wf_sides _ W _ _ Hk Hl Q).
Qed.

(** With a separate missing branch the missing cells do not count. *)
Theorem constant_values_unused : p_create_missing_branch p = true ->
  forall f, (forall i j x x', counted i -> counted j -> m_get data i f = Some x -> m_get data j f = Some x' ->
     @is_missing XF x (p_missing p) = Some false -> @is_missing XF x' (p_missing p) = Some false -> x = x') ->
  forall t, In t (gb_trees b') -> ~ @tree_features XF t f.
Proof.
  intros CB f HC t Ht (n & Hn & Hl & <-).
  destruct (model_separates t n _ Ht Hn Hl (or_introl eq_refl)) as (i & v & x & Hi & Hv & Pv & _ & Gx & Cx).
  destruct (model_separates t n _ Ht Hn Hl (or_intror eq_refl)) as (j & v' & x' & Hj & Hv' & Pv' & _ & Gx' & Cx').
  destruct (model_grown t Ht) as (bd & k & chosen & grad & hess & cols & st & TD & HF & (W & _) & _).
  pose proof (@fit_sides XF _ _ _ _ _ _ _ _ _ _ HF n Hn Hl) as SD'. unfold splitter_of in SD'. rewrite CB in SD'. destruct SD' as [NL NR].
  assert (NMI : forall z c, @get_child_idx XF n z (p_missing p) = Some c -> c <> n_missing n -> @is_missing XF z (p_missing p) = Some false).
  { clear. intros z c H N. unfold get_child_idx in H. destruct (is_missing z (p_missing p)) as [[|]|]; cbn [bind] in H; congruence. }
  assert (EQ : x = x').
  { assert (CI : counted i) by (split; eauto). assert (CJ : counted j) by (split; eauto).
    apply (HC i j x x' CI CJ Gx Gx'); [apply (NMI _ _ Cx)|apply (NMI _ _ Cx')]; auto. }
  subst x'. rewrite Cx in Cx'. injection Cx' as Q. apply In_nth_error in Hn. destruct Hn as [k' Hk]. exact (wf_sides _ W _ _ Hk Hl Q).
Qed.

(** No tree has more leaves than there are training rows. *)
Theorem leaves_bounded : p_create_missing_branch p = false -> (0 < m_rows data)%nat ->
  forall t, In t (gb_trees b') -> (length (filter (fun n => n_is_leaf n) t) <= m_rows data)%nat.
Proof.
  intros CB NR t Ht. destruct (model_grown t Ht) as (bd & k & chosen & grad & hess & cols & st & TD & HF & (W & TF & _) & _).
  pose proof (@fit_sides XF _ _ _ _ _ _ _ _ _ _ HF) as SI. unfold splitter_of in SI. rewrite CB in SI.
  assert (WR : forall i, (i < m_rows data)%nat -> exists n, @predict_leaf XF t data i (p_missing p) = Some n).
  { intros i Hi. apply (walk_row_total (p_missing p) data t (sd_matrix _ _ _ _ SD) W TF). rewrite (proj1 (sd_matrix _ _ _ _ SD)). apply in_seq. lia. }
  set (key := fun i => match @predict_leaf XF t data i (p_missing p) with Some m => n_num m | None => 0%nat end).
  assert (HR : forall n, In n t -> n_is_leaf n = true -> In (n_num n) (map key (seq 0 (m_rows data)))).
  { intros n Hn Hl. apply In_nth_error in Hn. destruct Hn as [j Hj]. rewrite (wf_num _ W _ _ Hj).
    assert (EX : exists i, (i < m_rows data)%nat /\ @passes XF t (row i) (p_missing p) j = true).
    { destruct (Nat.eq_dec j 0) as [->|NZ].
      - exists 0%nat. split; auto. destruct (WR 0%nat NR) as (m & Hm).
        destruct (wf_root _ W) as (r & Hr & _). unfold passes, full_path.
        pose proof (path_walk t (row 0%nat) (p_missing p) (wf_num _ W) (length t) 0%nat) as PW.
        destruct (path (length t) t (row 0%nat) (p_missing p) 0) as [l|] eqn:EL; [|pose proof (eq_trans (eq_sym Hm) PW) as Q; discriminate Q].
        apply existsb_exists. exists 0%nat. split; auto. destruct (length t) as [|q]; cbn [path] in EL; [discriminate|].
        replace (nth_error t 0) with (Some n) in EL by (symmetry; exact Hj). cbn [bind] in EL. rewrite Hl in EL. injection EL as <-. left. reflexivity.
      - destruct (wf_parent _ W j) as (a & na & Ha & La & Ca); [split; [lia|eapply nth_error_Some_lt; eauto]|].
        assert (HC : j = n_left na \/ j = n_right na).
        { specialize (SI na (nth_error_In _ _ Ha) La). unfold children in Ca. simpl in Ca. destruct Ca as [<-|[<-|[<-|[]]]]; tauto. }
        destruct (model_separates t na j Ht (nth_error_In _ _ Ha) La HC) as (i & v & x & Hi & _ & _ & HP & _). eauto. }
    destruct EX as (i & Hi & HP). apply in_map_iff. exists i. split; [|apply in_seq; lia].
    destruct (WR i Hi) as (m & Hm).
    unfold key. rewrite Hm. apply Nat.eqb_eq. exact (eq_trans (eq_sym (@leaf_rows XF data (p_missing p) t j n i m W Hm Hj Hl)) HP). }
  assert (Q : (length (map (fun n : @Node XF => n_num n) (filter (fun n => n_is_leaf n) t)) <= length (map key (seq 0 (m_rows data))))%nat);
    [|rewrite !map_length, seq_length in Q; exact Q]. apply NoDup_incl_length.
  - clear - W. assert (G : forall l i, (forall j n, nth_error l j = Some n -> n_num n = (i + j)%nat) ->
      NoDup (map (fun n : @Node XF => n_num n) (filter (fun n => n_is_leaf n) l)) /\
      forall k, In k (map (fun n : @Node XF => n_num n) (filter (fun n => n_is_leaf n) l)) -> (i <= k)%nat).
    { induction l as [|a l IH]; intros i H; [split; [constructor|intros k []]|].
      destruct (IH (S i)) as [N L]. { intros j n Hj. rewrite (H (S j) n Hj). lia. }
      pose proof (H 0%nat a eq_refl) as Ea. simpl. destruct (n_is_leaf a); simpl.
      - split; [constructor; auto; intros Q; specialize (L _ Q); lia|]. intros k [<-|Hk]; [lia|]. specialize (L _ Hk). lia.
      - split; auto. intros k Hk. specialize (L _ Hk). lia. }
    apply (G t 0%nat). intros j n Hj. exact (wf_num _ W _ _ Hj).
  - intros k' Hk. apply in_map_iff in Hk. destruct Hk as (n & <- & Hn). apply filter_In in Hn. destruct Hn. auto.
Qed.

(** *** Trees fit for the explanations *)
Theorem model_explainable : forall t, In t (gb_trees b') ->
  well_formed t /\ finite_weights t /\ finite_covers t /\ covers_positive t /\ (forall f, @tree_features XF t f -> (f < m_cols data)%nat) /\
  forall n, In n t -> n_is_leaf n = false -> xfin (n_split_gain n) /\ xfin (n_hess n).
Proof.
  intros t Ht. destruct (model_grown t Ht) as (bd & k & chosen & grad & hess & cols & st & TD & HF & (W & TF & FN) & SS & _).
  pose proof (sg_hess _ _ _ (ss_grads _ _ _ _ _ SS)) as HN.
  pose proof (tree_finite_covers _ _ _ _ _ _ _ _ _ _ _ _ _ _ TD HN _ _ HF) as FC.
  split; auto. split; auto. split; auto. split; [exact (tree_covers_positive _ _ _ _ _ _ _ _ _ _ _ _ _ _ TD HN _ _ HF)|]. split; auto.
  intros n Hn Hl. split; [|apply (FC n Hn)].
  destruct (sp_l1_ok _ SP) as (l1 & E1 & P1). destruct (sp_l2_ok _ SP) as (l2 & E2 & P2). destruct (sp_mds_ok _ SP) as (mds & E3 & P3).
  destruct (sp_lr_ok _ SP) as (lr & E4).
  assert (PP : params (@splitter_of XF p) = @mkSP XF (p_l1 p) (p_l2 p) (p_max_delta_step p) (p_gamma p) (p_min_leaf_weight p) (p_learning_rate p)
            (p_allow_missing_splits p) (match p_monotone_constraints p with Some m => m | None => [] end)).
  { unfold splitter_of. destruct (p_create_missing_branch p); reflexivity. }
  eapply (fit_gain_fin _ _ _ _ _ _ _ _ _ _ _ _ _ _ TD l1 l2 mds lr); try (rewrite PP; eassumption); auto.
  - simpl. apply (ss_root _ _ _ _ _ SS). auto.
  - exact HF.
  - exact Hn.
Qed.
End Model.
