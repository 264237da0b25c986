(** Fitting in exact arithmetic: on sound inputs every call of the loop returns. *)
From Coq Require Import Reals Lra List Arith NArith Lia Bool Permutation Sorting.
From Flocq Require Import Core.Raux.
From Verif Require Import Prelude Float FloatX FloatLaws OrdProofs Data DataProofs Utils PivotProofs Binning BinningProofs CutProofs BinMatrix Histogram Node Splitter
  Tree TreeWf TreeProofs FitProofs PathProofs RouteX RouteFit NoPanic Objective Metric Sampler SamplerProofs MetricX ObjectiveX Booster
  PredictProofs BoostProofs FitModel FinX.
Import ListNotations.
Local Open Scope R_scope.

(** *** Sound inputs *)

(** Parameters a caller may choose: finite, not negative where a size is meant. *)
Record sound_params (p : @Params XF) : Prop := mkSoundP {
  sp_l1_ok : xnonneg (p_l1 p);
  sp_l2_ok : xnonneg (p_l2 p);
  sp_mds_ok : xnonneg (p_max_delta_step p);
  sp_lr_ok : xfin (p_learning_rate p);
  sp_mlw_ok : xpos (p_min_leaf_weight p);
  sp_nbins_ok : p_nbins p <> 0%nat /\ (N.of_nat (p_nbins p) <= 65534)%N;
  sp_force_ok : p_create_missing_branch p = true -> p_force_children_to_bound_parent p = false;
  sp_goss_ok : p_sample_method p = SGoss -> exists a b, p_top_rate p = Fin a /\ 0 <= a <= 1 /\ p_other_rate p = Fin b /\ 0 < b }.

(** A matrix made by Matrix::new of the right size without NaN that is not the missing value. *)
Definition sound_matrix (missing : xr) (data : Matrix xr) : Prop :=
  m_index data = seq 0 (m_rows data) /\ length (m_data data) = (m_rows data * m_cols data)%nat /\
  forall v, In v (m_data data) -> @valid_cell XF missing v.

Record sound_data (p : @Params XF) (data : Matrix xr) (y w : list xr) : Prop := mkSoundD {
  sd_matrix : sound_matrix (p_missing p) data;
  sd_y : length y = m_rows data /\ forall v, In v y -> xfin v;
  sd_w : length w = m_rows data /\ forall v, In v w -> xnonneg v;
  sd_max : forall v, In v (m_data data) -> @is_missing XF v (p_missing p) = Some false -> xlt v xmax = true;
  (** every column is missing throughout or has a value with positive weight *)
  sd_positive : forall j, @col_values XF data w (p_missing p) j = [] \/
                  exists v, In v (@col_weights XF data w (p_missing p) j) /\ xlt (Fin 0) v = true;
  (** L2 regularisation, or some weight on the unsampled rows *)
  sd_root : xpos (p_l2 p) \/ p_sample_method p = SNone /\ exists v, In v w /\ xpos v }.

(** What the sorts and the generator are assumed to do. *)
Record sound_env (E : @Env XF) (p : @Params XF) : Prop := mkSoundE {
  se_sort : @SortSpec XF (e_sorts E);
  se_rng : @rng_ok XF E p;
  se_goss : p_sample_method p = SGoss -> @SortAbsSpec XF (e_goss E);
  se_auc : @get_metric XF p = AUC -> @SortDescSpec XF (e_auc E) }.

Definition sound_eval (p : @Params XF) (cols : nat) (d : @EvalData XF) : Prop :=
  sound_matrix (p_missing p) (fst (fst d)) /\ m_cols (fst (fst d)) = cols /\
  length (snd (fst d)) = m_rows (fst (fst d)) /\ length (snd d) = m_rows (fst (fst d)) /\
  (forall v, In v (snd (fst d)) -> v <> XNaN) /\ (forall v, In v (snd d) -> v <> XNaN /\ xlt v (Fin 0) = false) /\
  (@get_metric XF p = AUC -> m_rows (fst (fst d)) <> 0%nat).

(** *** Small facts *)
Lemma insert_sorted : forall x l, StronglySorted Nat.lt l -> ~ In x l -> StronglySorted Nat.lt (insert_nat x l).
Proof.
  induction l as [|a l IH]; intros S N; simpl; [repeat constructor|].
  inversion S as [|? ? S1 S2]; subst. destruct (Nat.leb_spec x a) as [H|H].
  - assert (x < a)%nat by (assert (x <> a) by (intros ->; apply N; left; auto); lia).
    constructor; [constructor; auto|]. constructor; auto. eapply Forall_impl; [|exact S2]. intros z Hz. unfold Nat.lt in *. lia.
  - constructor; [apply IH; auto; intros Hx; apply N; right; auto|].
    apply Forall_forall. intros z Hz. apply insert_nat_in in Hz. destruct Hz as [->|Hz]; [exact H|].
    rewrite Forall_forall in S2. auto.
Qed.
Lemma sort_sorted : forall l, NoDup l -> StronglySorted Nat.lt (sort_nat l).
Proof.
  induction l as [|a l IH]; intros N; simpl; [constructor|]. inversion N; subst.
  apply insert_sorted; auto. intros H. apply (proj1 (sort_nat_in _ _)) in H. contradiction.
Qed.
Lemma seq_sorted : forall n a, StronglySorted Nat.lt (seq a n).
Proof.
  induction n as [|n IH]; intros a; simpl; constructor; auto. apply Forall_forall. intros x Hx. apply in_seq in Hx. unfold Nat.lt. lia.
Qed.
Lemma column_sample_sorted : forall {FS : Floats} E p n cols l n', rng_ok E p -> column_sample E p n cols = (l, n') ->
  StronglySorted Nat.lt l.
Proof.
  intros FS E p n cols l n' R H. unfold column_sample in H. destruct (_ =? _)%f64 eqn:EQ.
  - injection H as <- <-. apply seq_sorted.
  - destruct R as [R|R]; [unfold F64 in *; congruence|]. injection H as <- <-. apply sort_sorted.
    apply (rs_choose _ R). apply seq_NoDup.
Qed.

Lemma fin_lists : forall (y yhat w : list xr), length yhat = length y -> length w = length y ->
  (forall v, In v y -> xfin v) -> (forall v, In v yhat -> xfin v) -> (forall v, In v w -> xnonneg v) ->
  exists rows, y = ys rows /\ yhat = yhats rows /\ w = ws rows /\ forall r, In r rows -> 0 <= snd r.
Proof.
  induction y as [|a y IH]; intros [|b yhat] [|c w] L1 L2 F1 F2 F3; simpl in *; try discriminate.
  - exists []. repeat split; auto. intros r [].
  - destruct (F1 a) as [ra ->]; auto. destruct (F2 b) as [rb ->]; auto. destruct (F3 c) as (rc & -> & PC); auto.
    destruct (IH yhat w) as (rows & E1 & E2 & E3 & P); auto.
    exists ((ra, rb, rc) :: rows). subst. repeat split; auto. intros r [<-|Hr]; auto.
Qed.

Lemma walk_row_total : forall missing (data : Matrix xr) nodes, sound_matrix missing data -> @well_formed XF nodes ->
  (forall f, @tree_features XF nodes f -> (f < m_cols data)%nat) ->
  forall i, In i (m_index data) -> exists n, @predict_leaf XF nodes data i missing = Some n.
Proof.
  intros missing data nodes (HI & LD & HV) W F i Hi. rewrite HI in Hi. apply in_seq in Hi.
  apply (@walk_total XF); auto. intros f Hf. specialize (F f Hf).
  unfold m_get, m_item_index. destruct (nth_error (m_data data) (1 * i + f * m_rows data)) as [v|] eqn:E.
  - exists v. split; auto. apply HV. eapply nth_error_In; eauto.
  - apply nth_error_None in E. rewrite LD in E. nia.
Qed.
Lemma tree_predict_fin : forall missing (data : Matrix xr) nodes, sound_matrix missing data -> @well_formed XF nodes ->
  (forall f, @tree_features XF nodes f -> (f < m_cols data)%nat) -> (forall n, In n nodes -> xfin (n_weight n)) ->
  exists pr, @tree_predict XF nodes data missing = Some pr /\ length pr = m_rows data /\ forall v, In v pr -> xfin v.
Proof.
  intros missing data nodes SM W F FN.
  destruct (mapM_total (fun i => let* n := @predict_leaf XF nodes data i missing in Some (@to64 XF (n_weight n))) (m_index data)) as [pr Hpr].
  { intros i Hi. destruct (walk_row_total _ _ _ SM W F i Hi) as [n ->]. simpl. eauto. }
  exists pr. split; [exact Hpr|]. pose proof (mapM_length _ _ Hpr) as LP. destruct SM as (HI & _).
  split; [rewrite LP, HI; apply seq_length|].
  intros v Hv. apply In_nth_error in Hv. destruct Hv as [k Hk].
  destruct (nth_error (m_index data) k) as [i|] eqn:Ei; [|apply nth_error_None in Ei; apply nth_error_Some_lt in Hk; lia].
  destruct (mapMn _ _ Hpr _ _ Ei) as (v' & Hv' & E). rewrite Hk in Hv'. injection Hv' as <-.
  inv_bind E. injection E as <-. unfold predict_leaf in E0. apply walk_in in E0. destruct E0 as [_ [j Hj]].
  exact (FN _ (nth_error_In _ _ Hj)).
Qed.
Lemma add_preds_fin : forall a b : list xr, length a = length b -> (forall v, In v a -> xfin v) -> (forall v, In v b -> xfin v) ->
  forall v, In v (@add_preds XF a b) -> xfin v.
Proof.
  intros a b L FA FB v Hv. rewrite (@add_preds_same XF) in Hv by auto. apply in_map_iff in Hv. destruct Hv as ((u, z) & <- & H).
  destruct (FA u (in_combine_l _ _ _ _ H)) as [ru ->]. destruct (FB z (in_combine_r _ _ _ _ H)) as [rz ->]. eexists; reflexivity.
Qed.

Lemma metric_total : forall {FS : Floats} S m (ey yh ew : list F64) n, length ey = n -> length yh = n -> length ew = n ->
  (m = AUC -> n <> 0%nat /\ SortDescSpec S) -> exists v, metric_fn S m ey yh ew = Some v.
Proof.
  intros FS S m ey yh ew n L1 L2 L3 HA. destruct m; simpl; eauto. destruct (HA eq_refl) as [NZ SS].
  unfold roc_auc_score. destruct (_ <=? _)%nat eqn:Q; [clear Q|exfalso; apply Nat.leb_gt in Q; simpl in Q; lia].
  destruct (SS (firstn (length ey) yh)) as [PM _]. 
  assert (LF : length (firstn (length ey) yh) = n) by (rewrite firstn_length; lia).
  assert (IX : forall i, In i (S (firstn (length ey) yh)) -> (i < n)%nat).
  { intros i Hi. apply (Permutation_in _ PM) in Hi. apply in_seq in Hi. simpl in *. lia. }
  apply Permutation_length in PM. rewrite seq_length in PM.
  destruct (S (firstn (length ey) yh)) as [|i0 rest]; [exfalso; simpl in PM; simpl in LF; lia|].
  assert (GET : forall (l : list F64) i, length l = n -> In i (i0 :: rest) -> exists v, nth_error l i = Some v).
  { intros l i L Hi. apply IX in Hi. destruct (nth_error l i) eqn:EN; eauto. apply nth_error_None in EN. lia. }
  destruct (GET ey i0 L1 (or_introl eq_refl)) as [a Ha]. destruct (GET ew i0 L3 (or_introl eq_refl)) as [b Hb]. destruct (GET yh i0 L2 (or_introl eq_refl)) as [c Hc].
  simpl in *. rewrite Ha, Hb, Hc. cbn [bind].
  assert (LOOP : forall r pv auc fp tp fpp tpp, (forall i, In i r -> In i (i0 :: rest)) ->
    exists q, auc_loop ey yh ew r pv auc fp tp fpp tpp = Some q).
  { induction r as [|i r IH]; intros pv auc fp tp fpp tpp HR; simpl; eauto.
    assert (Hi : In i (i0 :: rest)) by (apply HR; left; auto).
    destruct (GET ey i L1 Hi) as [a' Ha']. destruct (GET ew i L3 Hi) as [b' Hb']. destruct (GET yh i L2 Hi) as [c' Hc'].
    simpl in *. rewrite Hc'. cbn [bind]. destruct (if negb _ then _ else _) as [[? ?] ?]. rewrite Ha'. cbn [bind]. rewrite Hb'. cbn [bind].
    apply IH. intros; apply HR; right; auto. }
  edestruct (LOOP rest) as [q Hq]; [intros; right; auto|]. rewrite Hq. cbn [bind]. destruct q as [[[[? ?] ?] ?] ?].
  destruct (if _ || _ then _ else _) as [[? ?] ?]. eauto.
Qed.

Lemma append_total : forall T (h : RowMajor T) items, r_cols h <> 0%nat -> length items = r_cols h -> exists h', r_append_row h items = Some h'.
Proof.
  intros T h items N L. unfold r_append_row. rewrite (proj2 (Nat.eqb_neq _ _) N), L, Nat.mod_same by auto. simpl. eauto.
Qed.

(** rewrite with the value of a call up to unfolding of the carrier types *)
Ltac step H := match type of H with _ = ?v =>
  match goal with |- context [@bind _ _ ?e _] => replace e with v by (symmetry; exact H) end end; cbn [bind].

(** *** One iteration *)
Section Step.
Variables (E : @Env XF) (data : Matrix xr) (y w : list xr) (bd : @BinnedData XF) (p : @Params XF).
Hypotheses (SP : sound_params p) (SD : sound_data p data y w) (SE : sound_env E p).
Hypothesis HB : @bin_matrix XF (e_sorts E) data w (p_nbins p) (p_missing p) = Some bd.
Notation rows := (m_rows data).

(** Gradients and hessians a tree may be grown on. *)
Record sound_grads (grad hess : list xr) : Prop := mkSG {
  sg_len : length grad = rows /\ length hess = rows;
  sg_grad : forall v, In v grad -> xfin v;
  sg_hess : forall v, In v hess -> xnonneg v }.

Lemma grads_sound : forall yhat, length yhat = rows -> (forall v, In v yhat -> xfin v) ->
  let gh := @calc_grad_hess XF (p_objective p) y yhat w in
  sound_grads (fst gh) (snd gh) /\
  ((exists v, In v w /\ xpos v) -> 0 < sumR (map (fun i => val (nth i (snd gh) (Fin 0))) (seq 0 rows))).
Proof.
  intros yhat LH FH gh. destruct (sd_y _ _ _ _ SD) as [LY FY]. destruct (sd_w _ _ _ _ SD) as [LW FW].
  destruct (fin_lists y yhat w) as (rs & -> & -> & -> & PW); auto; try congruence.
  assert (LR : length rs = rows) by (rewrite <- LY; unfold ys; rewrite map_length; reflexivity).
  unfold gh. rewrite calc_grad_hess_X. cbn [fst snd].
  assert (HN : forall v, In v (map (fun '(y0, x, w0) => Fin (hess_R (p_objective p) y0 w0 x)) rs) -> xnonneg v).
  { intros v Hv. apply in_map_iff in Hv. destruct Hv as (((a, b), c) & <- & Hr). eexists. split; [reflexivity|]. apply hess_nonneg. apply (PW _ Hr). }
  split.
  - constructor; [rewrite !map_length; auto| |exact HN].
    intros v Hv. apply in_map_iff in Hv. destruct Hv as (((a, b), c) & <- & Hr). eexists; reflexivity.
  - intros (v & Hv & (r & -> & Pr)). unfold ws in Hv. apply in_map_iff in Hv. destruct Hv as (((a, b), c) & Ev & Hr). simpl in Ev. injection Ev as <-.
    assert (ES : map (fun i => val (nth i (map (fun '(y0, x, w0) => Fin (hess_R (p_objective p) y0 w0 x)) rs) (Fin 0))) (seq 0 rows)
       = map (fun '(y0, x, w0) => hess_R (p_objective p) y0 w0 x) rs).
    { rewrite <- LR. clear. induction rs as [|[[a b] c] rs IH]; simpl; auto. f_equal. rewrite <- seq_shift, map_map. exact IH. }
    refine (eq_ind_r (fun z => 0 < sumR z) _ ES). apply in_split in Hr. destruct Hr as (r1 & r2 & ->). rewrite map_app, sumR_app. cbn [map]. rewrite sumR_cons.
    assert (NN : forall l, (forall x, In x l -> In x (r1 ++ (a, b, c) :: r2)) -> 0 <= sumR (map (fun '(y0, x, w0) => hess_R (p_objective p) y0 w0 x) l)).
    { intros l Hl. apply sumR_nonneg. intros x Hx. apply in_map_iff in Hx. destruct Hx as (((a', b'), c') & <- & Hq).
      apply hess_nonneg. apply (PW _ (Hl _ Hq)). }
    assert (0 <= sumR (map (fun '(y0, x, w0) => hess_R (p_objective p) y0 w0 x) r1)) by (apply NN; intros; apply in_or_app; auto).
    assert (0 <= sumR (map (fun '(y0, x, w0) => hess_R (p_objective p) y0 w0 x) r2)) by (apply NN; intros; apply in_or_app; right; right; auto).
    assert (0 < hess_R (p_objective p) a c b).
    { destruct (p_objective p); simpl; auto. pose proof (sig_range b). apply Rmult_lt_0_compat; auto. nra. }
    lra.
Qed.

(** What sampling hands to the tree. *)
Record sound_sample (chosen : list nat) (grad hess : list xr) : Prop := mkSS {
  ss_grads : sound_grads grad hess;
  ss_index : forall i, In i chosen -> (i < rows)%nat;
  ss_none : p_sample_method p = SNone -> chosen = seq 0 rows;
  ss_root : forall l2, p_l2 p = Fin l2 -> 0 < sumR (map (fun i => val (nth i hess (Fin 0))) chosen) + l2 }.

Lemma sample_sound : forall n grad hess, sound_grads grad hess ->
  ((exists v, In v w /\ xpos v) -> 0 < sumR (map (fun i => val (nth i hess (Fin 0))) (seq 0 rows))) ->
  exists chosen grad' hess' n', @sample_index XF E p n (m_index data) grad hess = Some (chosen, grad', hess', n') /\
    sound_sample chosen grad' hess'.
Proof.
  intros n grad hess SG RT. destruct (sd_matrix _ _ _ _ SD) as (HI & _).
  destruct (sp_l2_ok _ SP) as (l2 & EL & PL). pose proof (sg_len _ _ SG) as [LG LH].
  assert (RTS : forall hess' chosen, (forall v, In v hess' -> xnonneg v) -> p_sample_method p <> SNone ->
    forall l2, p_l2 p = Fin l2 -> 0 < sumR (map (fun i => val (nth i hess' (Fin 0))) chosen) + l2).
  { intros hess' chosen HN NS l2' E'. destruct (sd_root _ _ _ _ SD) as [(r & Er & Pr)|[NS' _]]; [|congruence].
    rewrite E' in Er. injection Er as ->.
    assert (0 <= sumR (map (fun i => val (nth i hess' (Fin 0))) chosen)); [|lra].
    apply sumR_nonneg. intros x Hx. apply in_map_iff in Hx. destruct Hx as (i & <- & _).
    destruct (nth_in_or_default i hess' (Fin 0)) as [Hi| ->]; [|simpl; lra]. destruct (HN _ Hi) as (q & -> & Hq). auto. }
  unfold sample_index. destruct (p_sample_method p) eqn:ES.
  - exists (m_index data), grad, hess, n. split; auto. rewrite HI. constructor; auto.
    + intros i Hi. apply in_seq in Hi. lia.
    + intros l2' E'. rewrite EL in E'. injection E' as <-.
      destruct (sd_root _ _ _ _ SD) as [(r & Er & Pr)|[_ W]].
      * rewrite EL in Er. injection Er as ->.
        assert (0 <= sumR (map (fun i => val (nth i hess (Fin 0))) (seq 0 rows))); [|lra].
        apply sumR_nonneg. intros x Hx. apply in_map_iff in Hx. destruct Hx as (i & <- & _).
        destruct (nth_in_or_default i hess (Fin 0)) as [Hi| ->]; [|simpl; lra]. destruct (sg_hess _ _ SG _ Hi) as (q & -> & Hq). auto.
      * specialize (RT W). lra.
  - pose proof (@random_sample_flags XF (e_rng E (p_seed p)) (p_subsample p) (m_index data) n) as RF. cbv zeta in RF.
    rewrite RF. eexists _, grad, hess, _. split; [reflexivity|]. constructor; auto; [|congruence|].
    + intros i Hi. apply (flagged_incl nat) in Hi. rewrite HI in Hi. apply in_seq in Hi. lia.
    + apply RTS; [apply (sg_hess _ _ SG)|congruence].
  - destruct (sp_goss_ok _ SP ES) as (a & b & Ea & Ha & Eb & Hb).
    assert (TN : (@ftonat (@f64 XF) (@fmul (@f64 XF) (p_top_rate p) (@fofnat (@f64 XF) (length grad))) <= length grad)%nat).
    { rewrite Ea. set (m := length grad). change (xtonat (xmul (Fin a) (Fin (INR m))) <= m)%nat. rewrite xmul_fin.
      cbn [xtonat]. assert (PN : 0 <= INR m) by apply pos_INR.
      pose proof (Zfloor_lb (a * INR m)) as F1.
      assert (IZR (Zfloor (a * INR m)) <= IZR (Z.of_nat m)) by (rewrite <- INR_IZR_INZ; nra).
      apply le_IZR in H. lia. }
    destruct (@goss_spec XF (e_goss E) (e_rng E (p_seed p)) (p_top_rate p) (p_other_rate p) n grad hess (se_goss _ _ SE ES))
      as (top & kept & grad' & hess' & k' & EQ & ND & IX & _ & _ & K & NK); [exact (eq_trans LH (eq_sym LG))|exact TN|].
    rewrite HI.
    assert (EQ' : @goss_sample XF (e_goss E) (e_rng E (p_seed p)) (p_top_rate p) (p_other_rate p) n (seq 0 rows) grad hess = Some (top ++ kept, [], grad', hess', k'))
      by (rewrite <- LG; exact EQ).
    assert (IX' : forall i, In i (top ++ kept) -> (i < rows)%nat) by (rewrite <- LG; exact IX).
    rewrite EQ'. cbn [bind]. exists (top ++ kept), grad', hess', k'. split; auto.
    assert (FA : @to32 XF (@fdiv (@f64 XF) (@fsub (@f64 XF) (@fone (@f64 XF)) (p_top_rate p)) (p_other_rate p)) = Fin ((1 - a) / b)).
    { rewrite Ea, Eb. change (xdiv (Fin (1 - a)) (Fin b) = Fin ((1 - a) / b)). apply xdiv_fin. lra. }
    assert (FP : 0 <= (1 - a) / b) by (apply Rmult_le_pos; [lra|left; apply Rinv_0_lt_compat; lra]).
    rewrite FA in K. set (fa := Fin ((1 - a) / b)) in *.
    assert (K' : forall i, In i kept -> exists g h : xr, @nth_error xr grad i = Some g /\ @nth_error xr hess i = Some h /\
        @nth_error xr grad' i = Some (xmul g fa) /\ @nth_error xr hess' i = Some (xmul h fa)) by exact K.
    assert (NK' : forall i, ~ In i kept -> @nth_error xr grad' i = @nth_error xr grad i /\ @nth_error xr hess' i = @nth_error xr hess i) by exact NK.
    clear K NK. rename K' into K. rename NK' into NK.
    assert (KD : forall i, In i kept \/ ~ In i kept) by (intros; destruct (in_dec Nat.eq_dec i kept); auto).
    assert (SAME : forall i, (@nth_error xr grad' i = None <-> @nth_error xr grad i = None) /\ (@nth_error xr hess' i = None <-> @nth_error xr hess i = None)).
    { intros i. destruct (KD i) as [Hi|Hi].
      - destruct (K _ Hi) as (g & h & -> & -> & -> & ->). split; split; discriminate.
      - destruct (NK _ Hi) as [-> ->]. tauto. }
    assert (LEN : forall A B (l : list A) (l' : list B), (forall i, nth_error l' i = None <-> nth_error l i = None) -> length l' = length l).
    { intros A B l l' H. assert (length l' <= length l)%nat by (apply nth_error_None, H, nth_error_None; auto).
      assert (length l <= length l')%nat by (apply nth_error_None, H, nth_error_None; auto). lia. }
    assert (HN : forall v, In v hess' -> xnonneg v).
    { intros v Hv. destruct (@In_nth_error xr _ _ Hv) as [i Hi]. destruct (KD i) as [Hk|Hk].
      - destruct (K _ Hk) as (g & h & _ & Hh & _ & Eh). assert (EV : v = xmul h fa) by congruence. rewrite EV.
        destruct (sg_hess _ _ SG _ (nth_error_In _ _ Hh)) as (q & -> & Hq). eexists. split; [reflexivity|]. nra.
      - destruct (NK _ Hk) as [_ Eh]. rewrite Hi in Eh. symmetry in Eh. exact (sg_hess _ _ SG _ (nth_error_In _ _ Eh)). }
    constructor; auto; [|congruence|apply RTS; auto; congruence].
    constructor; auto.
    + split; [rewrite <- LG|rewrite <- LH]; apply LEN; intros i; apply SAME.
    + intros v Hv. destruct (@In_nth_error xr _ _ Hv) as [i Hi]. destruct (KD i) as [Hk|Hk].
      * destruct (K _ Hk) as (g & h & Hg & _ & Eg & _). assert (EV : v = xmul g fa) by congruence. rewrite EV.
        destruct (sg_grad _ _ SG _ (nth_error_In _ _ Hg)) as (q & ->). eexists. reflexivity.
      * destruct (NK _ Hk) as [Eg _]. rewrite Hi in Eg. symmetry in Eg. exact (sg_grad _ _ SG _ (nth_error_In _ _ Eg)).
Qed.

Lemma trained_step : forall chosen grad hess n cols n', sound_sample chosen grad hess -> @column_sample XF E p n (m_cols data) = (cols, n') ->
  trained (e_sorts E) data w (p_nbins p) (p_missing p) bd (@splitter_of XF p)
    (mkTrain (matrix_new (b_data bd) rows (m_cols data)) (b_cuts bd) grad hess cols) chosen (p_sample_method p).
Proof.
  intros chosen grad hess n cols n' SS HC. destruct (sd_matrix _ _ _ _ SD) as (HI & LD & HV). destruct (sd_w _ _ _ _ SD) as [LW FW].
  pose proof (ss_grads _ _ _ SS) as SG. destruct (sp_nbins_ok _ SP) as [N1 N2]. destruct (sg_len _ _ SG) as [LG LH].
  constructor; simpl; auto.
  - apply (se_sort _ _ SE).
  - intros j x Hx. unfold col_values in Hx. match type of Hx with context [match ?e with _ => _ end] => destruct e as [col|] eqn:EC end; [|inversion Hx].
    apply in_map_iff in Hx. destruct Hx as ([v v'] & <- & Hv). unfold observed in Hv. apply filter_In in Hv. destruct Hv as [Hv NM].
    apply in_combine_l in Hv.
    assert (IN : In v (m_data data)).
    { apply In_nth_error in Hv. destruct Hv as [k Hk]. unfold m_get_col, m_get_col_slice in EC.
      pose proof (slice_Some _ _ _ EC) as (_ & _ & HL & _). assert (Hlt := nth_error_Some_lt _ _ Hk).
      rewrite (slice_nth _ _ _ EC) in Hk by lia. eapply nth_error_In; eauto. }
    apply (sd_max _ _ _ _ SD); auto. destruct (@is_missing_valid XF v (p_missing p) (HV _ IN)) as [b Hb].
    cbn [fst] in NM. rewrite (@is_missing_bin XF x_ord_laws _ _ _ Hb) in NM. destruct b; [discriminate|]. exact Hb.
  - intros v Hv. destruct (FW _ Hv) as (r & -> & Hr). split; [unfold xle; simpl|reflexivity]. apply Rle_bool_true. auto.
  - apply (sd_positive _ _ _ _ SD).
  - eapply column_sample_sorted; [apply (se_rng _ _ SE)|exact HC].
  - eapply (@column_sample_bound XF); [apply (se_rng _ _ SE)|exact HC].
  - apply (sg_grad _ _ SG).
  - intros v Hv. apply xnonneg_fin. apply (sg_hess _ _ SG). auto.
  - apply (ss_index _ _ _ SS).
  - apply (ss_none _ _ _ SS).
  - destruct (sp_mlw_ok _ SP) as (r & Er & Pr). exists r. split; auto. unfold splitter_of. destruct (p_create_missing_branch p); exact Er.
Qed.

(** A tree every matrix of the right width can be scored with. *)
Definition sound_tree (nodes : list (@Node XF)) : Prop :=
  @well_formed XF nodes /\ (forall f, @tree_features XF nodes f -> (f < m_cols data)%nat) /\ forall n, In n nodes -> xfin (n_weight n).

Lemma step_tree : forall i chosen grad hess n cols n', sound_sample chosen grad hess -> @column_sample XF E p n (m_cols data) = (cols, n') ->
  exists nodes st, @tree_fit XF (p_grow_policy p) (e_pick E i) (splitter_of p)
      (mkTrain (matrix_new (b_data bd) rows (m_cols data)) (b_cuts bd) grad hess cols) chosen
      (p_max_leaves p) (p_max_depth p) (p_sample_method p) = Some (nodes, st) /\ sound_tree nodes.
Proof.
  intros i chosen grad hess n cols n' SS HC. pose proof (trained_step _ _ _ _ _ _ SS HC) as TD.
  destruct (fit_never_panics _ _ _ _ _ _ (p_grow_policy p) (e_pick E i) _ _ _ (p_max_leaves p) (p_max_depth p) _ TD) as (nodes & st & HF).
  { pose proof (sp_force_ok _ SP). unfold splitter_of. destruct (p_create_missing_branch p); simpl; auto. }
  exists nodes, st. split; [exact HF|]. split; [eapply (@fit_well_formed XF); eauto|]. split.
  - intros f (m & Hm & Hl & <-). eapply (@column_sample_bound XF); [apply (se_rng _ _ SE)|exact HC|].
    change cols with (tr_cols (mkTrain (matrix_new (b_data bd) rows (m_cols data)) (b_cuts bd) grad hess cols)).
    eapply (@fit_split_col XF); eauto.
  - destruct (sp_l1_ok _ SP) as (l1 & E1 & P1). destruct (sp_l2_ok _ SP) as (l2 & E2 & P2). destruct (sp_mds_ok _ SP) as (mds & E3 & P3).
    destruct (sp_lr_ok _ SP) as (lr & E4).
    assert (PP : params (@splitter_of XF p) = @mkSP XF (p_l1 p) (p_l2 p) (p_max_delta_step p) (p_gamma p) (p_min_leaf_weight p) (p_learning_rate p)
              (p_allow_missing_splits p) (match p_monotone_constraints p with Some m => m | None => [] end)).
    { unfold splitter_of. destruct (p_create_missing_branch p); reflexivity. }
    eapply (fit_finite _ _ _ _ _ _ _ _ _ _ _ _ _ _ TD l1 l2 mds lr); try (rewrite PP; eassumption); auto.
    + simpl. apply (sg_hess _ _ (ss_grads _ _ _ SS)).
    + simpl. apply (ss_root _ _ _ SS). auto.
    + exact HF.
Qed.

Lemma eval_loop_total : forall nodes i n es j yhs s, sound_tree nodes -> Forall (sound_eval p (m_cols data)) es ->
  Forall2 (fun d yh => length yh = m_rows (fst (fst d))) es yhs ->
  exists q, @eval_loop XF E p nodes i j n (combine es yhs) s = Some q.
Proof.
  intros nodes i n es j yhs s (W & TF & FN) FE F. revert j s.
  induction F as [|[[d ey] ew] yh es yhs HL F IH]; intros j s; simpl; eauto. inversion FE as [|? ? SV FE']; subst.
  destruct SV as (SM & SC & S1 & S2 & S3 & S4 & S5). simpl in *.
  rewrite (@update_serial XF). destruct (tree_predict_fin _ _ _ SM W) as (pr & -> & LP & _); auto; [rewrite SC; auto|]. cbn [bind].
  destruct (@metric_total XF (e_auc E) (@get_metric XF p) ey (@add_preds XF yh pr) ew (m_rows d)) as [m Hm]; auto.
  { rewrite (@add_preds_length XF). auto. }
  { intros EA. split; auto. apply (se_auc _ _ SE EA). }
  rewrite Hm. cbn [bind]. destruct (IH FE' (S j) (if (j + 1 =? n)%nat then @early_stop XF (p_early_stopping_rounds p) (metric_maximize (@get_metric XF p)) i m s else s)) as [[[q1 q2] q3] Hq].
  rewrite Hq. cbn [bind]. eauto.
Qed.

(** *** The loop *)
Variables (base : R) (md : list (String.string * String.string)) (pred0 : option nat).
Notation BI := (@BI XF E data y w bd p (Fin base) md None pred0).
Definition sound_evals (es : option (list (@EvalData XF))) : Prop :=
  match es with None => True | Some l => l <> [] /\ Forall (sound_eval p (m_cols data)) l end.

Record LI (es : option (list (@EvalData XF))) (k : nat) (l : @Loop XF) : Prop := mkLI {
  li_bi : BI es k l;
  li_yhat : length (l_yhat l) = rows /\ forall v, In v (l_yhat l) -> xfin v }.

Lemma preds_len : forall missing (d : Matrix xr) ts y0 yh, @preds_after XF missing ts d y0 = Some yh -> length yh = length y0.
Proof.
  intros missing d. induction ts as [|t ts IH]; intros y0 yh H; unfold preds_after in H; simpl in H; [injection H as <-; auto|].
  inv_bind H. inv_bind E0. injection E0 as <-. rewrite (IH _ _ H). apply (@add_preds_length XF).
Qed.

Lemma step_total : forall es k l, sound_evals es -> LI es k l -> l_stop l = false ->
  exists l', @boost_step XF E data y w bd k l = Some l' /\ LI es (S k) l'.
Proof.
  intros es k l SV [B [LY FY]] NS.
  pose proof B as [B1 B2 B3 B4 B5 B6 B7 B8]. specialize (B6 NS).
  assert (EX : exists l', @boost_step XF E data y w bd k l = Some l' /\ exists pr, l_yhat l' = @add_preds XF (l_yhat l) pr /\ length pr = rows /\ forall v, In v pr -> xfin v).
  { unfold boost_step. rewrite B1. rewrite (f_equal fst B6 : l_grad l = _), (f_equal snd B6 : l_hess l = _). cbn [fst snd].
    destruct (grads_sound _ LY FY) as [SG RT]. cbv zeta in SG, RT.
    destruct (sample_sound (l_rng l) _ _ SG RT) as (chosen & grad & hess & n' & HS & SS). step HS.
    match goal with |- context [column_sample ?a ?b ?c ?d] => destruct (column_sample a b c d) as [cols n''] eqn:EC end.
    destruct (step_tree k _ _ _ _ _ _ SS EC) as (nodes & st & HF & ST). step HF.
    rewrite (@update_serial XF). destruct ST as (W & TF & FN).
    destruct (tree_predict_fin _ _ _ (sd_matrix _ _ _ _ SD) W TF FN) as (pr & HP & LP & FP). step HP.
    destruct es as [es|].
    - destruct B8 as (yhs & rws & ms & A1 & A2 & A3 & A4 & A5 & A6 & A7 & A8 & A9). rewrite A1. destruct SV as [NE FE].
      assert (FL : Forall2 (fun d yh => length yh = m_rows (fst (fst d))) es yhs).
      { clear - A2 FE. induction A2 as [|d yh es yhs H A2 IH]; constructor; inversion FE as [|? ? Hd FE']; subst; auto.
        unfold eval_preds in H. apply preds_len in H. rewrite repeat_length in H. destruct Hd as (_ & _ & HL & _). exact (eq_trans H HL). }
      assert (LC : length (combine es yhs) = length es) by (rewrite combine_length, <- (F2_length A2); lia).
      destruct (eval_loop_total nodes k (length (combine es yhs)) es 0 yhs
        (mkStop (l_best_metric l) (gb_best (l_booster l)) (gb_pred (l_booster l)) (l_stop l))) as [[[sets mm] s2] HE]; auto; [split; auto|].
      step HE.
      rewrite LC in HE.
      destruct (@eval_loop_spec XF E p (Fin base) nodes (gb_trees (l_booster l)) k (length es) es 0 yhs _ _ _ _ A2 (eq_refl _) HE) as (_ & F2 & _).
      assert (NZ : length es <> 0%nat) by (destruct es; simpl; [congruence|lia]).
      assert (HA : exists h, @r_append_row xr (match gb_history (l_booster l) with Some h => h | None => mkRowMajor [] 0 (length (combine es yhs)) end) mm = Some h).
      { rewrite A3, LC. apply append_total; unfold hist_of_rows; destruct k; simpl; auto; symmetry; apply (F2_length F2). }
      destruct HA as [h HA]. step HA.
      destruct (if s_stop s2 then (grad, hess) else _) as [g h']. eexists. split; [reflexivity|]. simpl. eauto.
    - destruct B8 as (A1 & _ & _). rewrite A1. cbn [bind].
      destruct (if s_stop _ then (grad, hess) else _) as [g h']. eexists. split; [reflexivity|]. simpl. eauto. }
  destruct EX as (l' & HL & PR). exists l'. split; auto. destruct PR as (pr & EP & LP & FP). constructor.
  - eapply (@boost_step_BI XF); eauto.
  - rewrite EP. rewrite (@add_preds_length XF). split; auto. apply add_preds_fin; auto. exact (eq_trans LY (eq_sym LP)).
Qed.

Lemma loop_total : forall es, sound_evals es -> forall n k l, LI es k l -> l_stop l = false ->
  exists l', @boost_loop XF E data y w bd (seq k n) l = Some l'.
Proof.
  intros es SV. induction n as [|n IH]; intros k l L NS; simpl; eauto.
  destruct (step_total _ _ _ SV L NS) as (l' & HL & L'). rewrite HL. cbn [bind]. destruct (l_stop l') eqn:ES; eauto.
Qed.
End Step.

(** *** The whole of fit *)
Lemma bin_sound : forall E p data y w, sound_params p -> sound_data p data y w -> sound_env E p ->
  exists bd, @bin_matrix XF (e_sorts E) data w (p_nbins p) (p_missing p) = Some bd.
Proof.
  intros E p data y w SP SD SE. destruct (sd_matrix _ _ _ _ SD) as (HI & LD & HV). destruct (sp_nbins_ok _ SP) as [N1 N2].
  apply (@bin_matrix_total XF x_ord_laws); auto.
  - apply (se_sort _ _ SE).
  - apply (sd_w _ _ _ _ SD).
  - intros v Hv. destruct (@is_missing_valid XF v (p_missing p) (HV _ Hv)) as [[] Hb]; auto. right. split; auto.
    exact (sd_max _ _ _ _ SD _ Hv Hb).
Qed.

Lemma valid_sound : forall p data y w es, sound_data p data y w -> sound_evals data p es -> @validate_inputs XF y w es = None.
Proof.
  intros p data y w es SD SV. destruct (@validate_inputs XF y w es) as [e|] eqn:EV; auto. exfalso.
  destruct (proj1 (@validate_inputs_iff XF y w es)) as [H|[H|H]]; eauto.
  - destruct H as (x & Hx & N). destruct (proj2 (sd_y _ _ _ _ SD) _ Hx) as [r ->]. discriminate.
  - destruct H as (x & Hx & N). destruct (proj2 (sd_w _ _ _ _ SD) _ Hx) as (r & -> & Hr). destruct N as [N|N]; [discriminate|].
    change (xlt (Fin r) (Fin 0) = true) in N. cbn [xlt] in N. destruct (Rlt_boolP r 0) as [[_ ?]|[Q _]]; [lra|congruence].
  - destruct H as (l & d & ey & ew & -> & Hl & HB). destruct SV as [_ FE]. rewrite Forall_forall in FE.
    destruct (FE _ Hl) as (_ & _ & _ & _ & V1 & V2 & _). simpl in *. destruct HB as [(x & Hx & N)|(x & Hx & N)].
    + specialize (V1 _ Hx). destruct x; try discriminate; congruence.
    + destruct (V2 _ Hx) as [Q1 Q2]. destruct N as [N|N]; [destruct x; try discriminate; congruence|]. simpl in N. congruence.
Qed.

Theorem fit_total : forall E b data y w es base, let p := gb_params b in
  sound_params p -> sound_data p data y w -> sound_env E p -> sound_evals data p es -> @clean XF b ->
  (if p_initialize_base_score p then @calc_init XF (p_objective p) y w else Some (gb_base_score b)) = Some (Fin base) ->
  exists b', @fit XF E b data y w es = Some (b', None).
Proof.
  intros E b data y w es base p SP SD SE SV C HB. unfold fit. rewrite (valid_sound _ _ _ _ _ SD SV).
  destruct (bin_sound _ _ _ _ _ SP SD SE) as [bd Hbd].
  assert (FT : exists b', @fit_trees XF E b data y w es = Some b'); [|destruct FT as [b' ->]; simpl; eauto].
  unfold fit_trees, fit_start. fold (@start_booster XF b).
  assert (EP : gb_params (@start_booster XF b) = gb_params b /\ gb_base_score (@start_booster XF b) = gb_base_score b /\
     gb_trees (@start_booster XF b) = [] /\ gb_history (@start_booster XF b) = None /\ gb_best (@start_booster XF b) = None /\
     gb_metadata (@start_booster XF b) = gb_metadata b /\ gb_pred (@start_booster XF b) = match gb_trees b with [] => gb_pred b | _ => None end).
  { unfold start_booster. unfold clean in C. destruct (gb_trees b) eqn:ET; simpl; [|auto 10]. destruct C; auto 10. }
  destruct EP as (P1 & P2 & P3 & P4 & P5 & P6 & P7). rewrite P1, P2. fold p. step HB.
  match goal with |- context [@calc_grad_hess ?f ?a ?b ?c ?d] => destruct (@calc_grad_hess f a b c d) as [g h] eqn:EG end.
  step Hbd.
  match goal with |- exists b', (let* l := boost_loop _ _ _ _ _ _ ?l0 in _) = _ =>
    destruct (loop_total E data y w bd p SP SD SE Hbd base (gb_metadata b) (match gb_trees b with [] => gb_pred b | _ => None end)
      es SV (p_iterations p) 0 l0) as [l' Hl'] end; [|reflexivity|rewrite Hl'; simpl; eauto].
  constructor.
  - constructor; simpl; auto; rewrite ?P3; auto.
    { intros j t Hj. destruct j; discriminate. }
    destruct es as [es|]; simpl.
    + exists (map (fun d : EvalData => repeat (Fin base) (List.length (snd (fst d)))) es), [], [].
      split; [f_equal; apply (@repeat_eval XF)|]. split; [|split; [auto|split; [tauto|split; [auto|split; [|split; [constructor|split; [|intros; lia]]]]]]].
      * clear. induction es as [|d es IH]; simpl; constructor; auto. reflexivity.
      * intros j r Hj. destruct j; discriminate.
      * rewrite P5, P7. reflexivity.
    + rewrite P4, P5, P7. auto.
  - simpl. rewrite repeat_length. split; [apply (sd_y _ _ _ _ SD)|]. intros v Hv. apply repeat_spec in Hv. subst. eexists; reflexivity.
Qed.
