(** The Python object's answers: rows, columns by name, importances, partial dependence, options. *)
From Coq Require Import List Arith NArith ZArith Bool String Lia Permutation.
From Verif Require Import Prelude Float Data DataProofs Utils Binning Histogram Node Splitter Tree TreeWf Objective Metric Sampler Contrib Booster
  PredictProofs ContribProofs BoostProofs ImportProofs FitModel TrainMore Serde SerdeProofs SerdePredict PyWrap PyNames PyProofs PyState PyLoad PyFit.
Import ListNotations.

Section More.
Context {FS : Floats}.
Variable pc : PyCodec.

Lemma firstn_in : forall A (x : A) n l, In x (firstn n l) -> In x l.
Proof. induction n as [|n IH]; intros [|a l] H; simpl in *; try tauto. destruct H; auto. Qed.

Lemma nodup_nth : forall A (l : list A) i j x, NoDup l -> nth_error l i = Some x -> nth_error l j = Some x -> i = j.
Proof. intros A l i j x N Hi Hj. apply (proj1 (NoDup_nth_error l) N); [eapply nth_error_Some_lt; eauto|congruence]. Qed.

(** *** Frames put on top of each other *)
Definition stack (X X' : Frame) : Frame := mkFrame (x_names X) (x_rows X ++ x_rows X') (x_cols X).
Definition res_app {A} (a b : res (list A)) : res (list A) :=
  match a, b with
  | Some (inl x), Some (inl y) => Some (inl (x ++ y))
  | Some (inr e), _ => Some (inr e)
  | _, _ => None
  end.
Lemma stack_ok : forall X X', frame_ok X -> frame_ok X' -> x_cols X' = x_cols X -> frame_ok (stack X X').
Proof.
  intros X X' [A B] [C D] E. split; simpl; auto. intros r Hr. apply in_app_iff in Hr. destruct Hr; auto. rewrite <- E. auto.
Qed.
Lemma mapM_app_rows : forall A B (f : A -> option B) l l',
  mapM f (l ++ l') = (let* a := mapM f l in let* b := mapM f l' in Some (a ++ b)).
Proof.
  induction l as [|x l IH]; intros l'; simpl.
  - destruct (mapM f l'); reflexivity.
  - destruct (f x); simpl; auto. rewrite IH. destruct (mapM f l); simpl; auto. destruct (mapM f l'); reflexivity.
Qed.
Lemma if_valid_names : forall A (m : PyModel) X X' (r : res A), x_names X' = x_names X -> if_valid m X' r = if_valid m X r.
Proof. intros A m X X' r H. unfold if_valid, columns. now rewrite H. Qed.

Theorem predict_stack : forall shs shs1 shs2 m X X' par par1 par2, frame_ok X -> frame_ok X' -> x_cols X' = x_cols X -> x_names X' = x_names X ->
  py_predict shs m (stack X X') par = res_app (py_predict shs1 m X par1) (py_predict shs2 m X' par2).
Proof.
  intros shs shs1 shs2 m X X' par par1 par2 HX HX' HC HN. unfold py_predict.
  rewrite (if_valid_names _ m X (stack X X')), (if_valid_names _ m X X') by auto.
  rewrite !predict_frame by auto using stack_ok. unfold if_valid. destruct (validate_features m (columns X)); [|reflexivity].
  destruct (prediction_trees (py_booster m)); simpl; auto. rewrite mapM_app_rows.
  destruct (mapM _ (x_rows X)); simpl; auto. destruct (mapM _ (x_rows X')); reflexivity.
Qed.
Theorem contributions_stack : forall sh sh1 sh2 m X X' me par par1 par2, frame_ok X -> frame_ok X' -> x_cols X' = x_cols X -> x_names X' = x_names X ->
  py_predict_contributions sh m (stack X X') me par = res_app (py_predict_contributions sh1 m X me par1) (py_predict_contributions sh2 m X' me par2).
Proof.
  intros sh sh1 sh2 m X X' me par par1 par2 HX HX' HC HN. rewrite !py_contributions_rows by auto using stack_ok.
  rewrite (if_valid_names _ m X (stack X X')), (if_valid_names _ m X X') by auto.
  unfold if_valid. destruct (validate_features m (columns X)); [|reflexivity]. destruct (plain _ _); [|reflexivity]. rewrite HC. cbn [stack x_rows x_cols].
  destruct (ready (py_booster m) c); simpl; auto. rewrite mapM_app_rows. destruct (mapM _ (x_rows X)); simpl; auto. destruct (mapM _ (x_rows X')); reflexivity.
Qed.
Theorem leaves_stack : forall shs shs1 shs2 m X X', frame_ok X -> frame_ok X' -> x_cols X' = x_cols X -> x_names X' = x_names X ->
  py_predict_leaf_indices shs m (stack X X') = res_app (py_predict_leaf_indices shs1 m X) (py_predict_leaf_indices shs2 m X').
Proof.
  intros shs shs1 shs2 m X X' HX HX' HC HN. rewrite !py_leaves_rows by auto using stack_ok.
  rewrite (if_valid_names _ m X (stack X X')), (if_valid_names _ m X X') by auto.
  unfold if_valid. destruct (validate_features m (columns X)); [|reflexivity]. destruct (prediction_trees (py_booster m)); simpl; auto.
  rewrite mapM_app_rows. destruct (mapM _ (x_rows X)); simpl; auto. destruct (mapM _ (x_rows X')); reflexivity.
Qed.

(** *** The shape of the answers, and predictions as sums over the reported leaves *)
Theorem contributions_shape : forall sh m X me par r, frame_ok X -> py_predict_contributions sh m X me par = Some (inl r) ->
  List.length r = List.length (x_rows X) /\ forall row, In row r -> List.length row = x_cols X + 1.
Proof.
  intros sh m X me par r HX H. rewrite py_contributions_rows in H by auto. unfold if_valid in H. destruct (validate_features m (columns X)); [|discriminate].
  destruct (plain _ _); [|discriminate]. inv_bind H. inv_bind H. injection H as <-. split; [now apply mapM_length in E0|].
  intros row HR. apply In_nth_error in HR. destruct HR as [i Hi]. apply mapM_Forall2 in E0. destruct (Forall2_nth_r E0 i Hi) as (x & _ & Hx). eapply contrib_row_length; eauto.
Qed.
Theorem leaves_explain : forall shs shs' m X par p, frame_ok X -> (forall t, In t (gb_trees (py_booster m)) -> well_formed t) ->
  py_predict shs m X par = Some (inl p) ->
  exists L, py_predict_leaf_indices shs' m X = Some (inl L) /\ List.length p = List.length (x_rows X) /\ List.length L = List.length (x_rows X) /\
    forall i row, nth_error L i = Some row ->
      let ts := firstn (match gb_pred (py_booster m) with Some n => n | None => List.length (gb_trees (py_booster m)) end) (gb_trees (py_booster m)) in
      exists leaves, Forall2 (fun tj n => n_is_leaf n = true /\ nth_error (fst tj) (snd tj) = Some n) (combine ts row) leaves /\
        List.length row = List.length ts /\
        nth_error p i = Some (fold_left (fun acc n => (acc + to64 (n_weight n))%f64) leaves (gb_base_score (py_booster m))).
Proof.
  intros shs shs' m X par p HX WF H. unfold py_predict in H. rewrite predict_frame in H by auto. rewrite py_leaves_rows by auto.
  unfold if_valid in *. destruct (validate_features m (columns X)); [|discriminate].
  destruct (prediction_trees (py_booster m)) as [ts|] eqn:ET; [|discriminate]. cbn [bind] in H. inv_bind H. injection H as <-.
  assert (TS : firstn (match gb_pred (py_booster m) with Some n => n | None => List.length (gb_trees (py_booster m)) end) (gb_trees (py_booster m)) = ts).
  { unfold prediction_trees, slice in ET. destruct (_ && _)%bool; [|discriminate]. injection ET as <-. simpl. now rewrite Nat.sub_0_r. }
  assert (WFT : forall t, In t ts -> well_formed t).
  { intros t Ht. apply WF. rewrite <- TS in Ht. eapply firstn_in; eauto. }
  assert (ROW : forall row x, score (p_missing (gb_params (py_booster m))) ts (nth_error row) (gb_base_score (py_booster m)) = Some x ->
    exists js leaves, leaf_row (p_missing (gb_params (py_booster m))) ts row = Some js /\
      Forall2 (fun tj n => n_is_leaf n = true /\ nth_error (fst tj) (snd tj) = Some n) (combine ts js) leaves /\ List.length js = List.length ts /\
      x = fold_left (fun acc n => (acc + to64 (n_weight n))%f64) leaves (gb_base_score (py_booster m))).
  { intros row x HS. apply score_leaves in HS. destruct HS as (leaves & F & ->). exists (map (fun n => n_num n) leaves), leaves.
    split; [|split; [|split; [rewrite map_length; symmetry; eapply F2_length; eauto|reflexivity]]].
    - clear WFT TS ET E. unfold leaf_row. induction F as [|t n ts' ls H1 F IH]; simpl; auto. rewrite H1. simpl. rewrite IH. reflexivity.
    - clear TS ET E. induction F as [|t n ts' ls H1 F IH]; simpl; constructor; auto; [|apply IH; intros; apply WFT; right; auto].
      destruct (walk_in _ _ _ _ _ _ H1) as (HL & j & Hj). split; auto. simpl.
      rewrite (wf_num t (WFT t (or_introl eq_refl)) j n Hj). auto. }
  assert (LV : exists L, mapM (leaf_row (p_missing (gb_params (py_booster m))) ts) (x_rows X) = Some L).
  { clear - ROW E. revert v E. induction (x_rows X) as [|r rs IH]; intros v E; simpl in *; eauto. inv_bind E. inv_bind E.
    destruct (ROW _ _ E0) as (js & _ & -> & _). destruct (IH _ E1) as [L ->]. simpl. eauto. }
  destruct LV as [L HL]. exists L. cbn [bind]. rewrite HL. split; [reflexivity|]. split; [now apply mapM_length in E|]. split; [now apply mapM_length in HL|].
  cbv zeta. rewrite TS. intros i row HR. apply mapM_Forall2 in HL. destruct (Forall2_nth_r HL i HR) as (x & Hx & HLR).
  destruct (mapMn _ _ E i x Hx) as (s & Hs & HS). destruct (ROW _ _ HS) as (js & leaves & E1 & F & LJ & ->).
  assert (js = row) by congruence. subst js. exists leaves. auto.
Qed.

(** *** A fit that raises *)
Theorem failed_fit : forall E m X t w ev m' e, py_fit pc E m X t w ev = Some (m', Some e) ->
  let b := py_booster m in let b' := py_booster m' in
  py_params m' = py_params m /\ gb_trees b' = gb_trees b /\ gb_base_score b' = gb_base_score b /\ gb_pred b' = gb_pred b /\ gb_history b' = gb_history b /\ gb_best b' = gb_best b.
Proof.
  intros E m X t w ev m' e H. unfold py_fit in H.
  assert (F : let b := py_booster m in let b' := py_booster (fit_features pc m X) in py_params (fit_features pc m X) = py_params m /\
    gb_trees b' = gb_trees b /\ gb_base_score b' = gb_base_score b /\ gb_pred b' = gb_pred b /\ gb_history b' = gb_history b /\ gb_best b' = gb_best b).
  { unfold fit_features. destruct (columns X); cbv zeta; repeat split. }
  destruct (let? d := _ in _) as [cm|e1]; [|injection H as <- _; exact F].
  destruct (let? d := _ in _) as [ts|e2]; [|injection H as <- _; exact F].
  destruct (py_evals _ _) as [evs|e3]; [|injection H as <- _; exact F].
  apply bind_Some in H. destruct H as ([b e'] & HF & H). destruct e' as [e'|]; [|discriminate]. injection H as <- _.
  destruct (proj2 (fit_rejects _ _ _ _ _ _) _ _ HF) as [_ ->]. exact F.
Qed.

(** *** Importances *)
Fixpoint nassoc {V} (k : nat) (l : list (nat * V)) : option V :=
  match l with [] => None | (k', v) :: r => if k =? k' then Some v else nassoc k r end.
Lemma nassoc_in : forall V (l : list (nat * V)) k v, NoDup (map fst l) -> In (k, v) l -> nassoc k l = Some v.
Proof.
  induction l as [|[a b] l IH]; simpl; intros k v N H; [tauto|]. inversion N; subst. destruct H as [[= -> ->]|H].
  - now rewrite Nat.eqb_refl.
  - destruct (Nat.eqb_spec k a); [|auto]. subst. exfalso. apply H2. apply (in_map fst) in H. auto.
Qed.
Lemma nassoc_none : forall V (l : list (nat * V)) k, (forall v, ~ In (k, v) l) -> nassoc k l = None.
Proof.
  induction l as [|[a b] l IH]; simpl; intros k H; auto. destruct (Nat.eqb_spec k a); [subst; exfalso; eapply H; left; eauto|]. apply IH. intros v HI. eapply H. eauto.
Qed.
Lemma dget_KNat : forall (imp : list (nat * F32)) i, dget (KNat i) (map (fun '(k, v) => (KNat k, to64 v)) imp) = option_map (fun v => to64 v) (nassoc i imp).
Proof.
  induction imp as [|[k v] imp IH]; intros i; auto. cbn [map dget nassoc]. destruct (Nat.eqb_spec i k) as [->|NE].
  - rewrite key_eqb_refl. reflexivity.
  - rewrite key_eqb_neq; [apply IH|]. intros E. apply KNat_inj in E. tauto.
Qed.
Lemma dget_named : forall names (imp : list (nat * F32)) l, NoDup names -> Forall2 (fun kv fv => nth_error names (fst kv) = Some (fst fv) /\ snd fv = to64 (snd kv)) imp l ->
  forall i f, nth_error names i = Some f -> dget f l = option_map (fun v => to64 v) (nassoc i imp).
Proof.
  intros names imp l N F. induction F as [|[k v] [g u] imp l [H1 H2] F IH]; intros i f Hi; auto. simpl in *. subst u. destruct (Nat.eqb_spec i k) as [->|NE].
  - assert (g = f) by congruence. subst. now rewrite key_eqb_refl.
  - rewrite key_eqb_neq; [now apply IH|]. intros ->. apply NE. eapply nodup_nth; eauto.
Qed.

Definition expected_columns (m : PyModel) : option nat :=
  match py_names m with Some l => Some (List.length l) | None => py_n_features m end.
Theorem importances_array : forall m me imp n, plain de_importance (y_importance_method (py_params m)) = inl me ->
  calculate_feature_importance (py_booster m) me true = Some imp -> NoDup (map fst imp) ->
  (forall l, py_names m = Some l -> NoDup l) -> expected_columns m = Some n -> (forall k v, In (k, v) imp -> k < n) ->
  exists r, py_feature_importances m = Some (inl r) /\ List.length r = n /\
    (forall i v, In (i, v) imp -> nth_error r i = Some (to64 v)) /\
    (forall i, i < n -> (forall v, ~ In (i, v) imp) -> nth_error r i = Some (fzero f64)).
Proof.
  intros m me imp n HM HI ND NN HC HK. unfold py_feature_importances, py_importance. rewrite HM, HI. cbn [bind]. unfold expected_columns in HC.
  set (at_ i := match nassoc i imp with Some v => to64 v | None => fzero f64 end).
  assert (FIN : forall r, (forall i, i < n -> nth_error r i = Some (at_ i)) ->
    (forall i v, In (i, v) imp -> nth_error r i = Some (to64 v)) /\ (forall i, i < n -> (forall v, ~ In (i, v) imp) -> nth_error r i = Some (fzero f64))).
  { intros r H. split.
    - intros i v Hv. rewrite H by eauto. unfold at_. now rewrite (nassoc_in _ _ _ _ ND Hv).
    - intros i Hi Hv. rewrite H by auto. unfold at_. now rewrite nassoc_none. }
  destruct (py_names m) as [l|] eqn:EN.
  - injection HC as <-. specialize (NN l eq_refl).
    assert (X : exists q, emapM (fun '(k, v) => let? f := or_raise KeyError (nth_error l k) in inl (f, to64 v)) imp = inl q /\
      Forall2 (fun kv fv => nth_error l (fst kv) = Some (fst fv) /\ snd fv = to64 (snd kv)) imp q).
    { clear - HK. induction imp as [|[k v] imp IH]; [exists []; split; [reflexivity|constructor]|]. simpl.
      destruct (nth_error_lt l) with (i := k) as [f Hf]; [eapply HK; left; eauto|].
      destruct IH as (q & E & F); [intros; eapply HK; right; eauto|].
      exists ((f, to64 v) :: q). rewrite Hf. cbn [or_raise ebind]. rewrite E. split; [reflexivity|]. constructor; auto. }
    destruct X as (q & EQ & F). rewrite EQ. cbn [ebind].
    assert (NQ : NoDup (map fst q)).
    { apply (F2_nodup _ _ (fun k f => nth_error l k = Some f) (map fst imp)); auto.
      - intros a b c Ha Hb. eapply nodup_nth; eauto.
      - apply F2_map. eapply F2_impl; [|exact F]. intros a b [H _]. exact H. }
    rewrite dict_of_id by auto. eexists. split; [reflexivity|]. split; [apply map_length|]. apply FIN. intros i Hi.
    destruct (nth_error_lt l Hi) as [f Hf]. rewrite nth_error_map, Hf. cbn [option_map]. rewrite (dget_named l imp q NN F i f Hf).
    unfold at_. destruct (nassoc i imp); reflexivity.
  - rewrite HC. cbn [ebind]. eexists. split; [reflexivity|]. split; [now rewrite !map_length, seq_length|]. apply FIN. intros i Hi.
    rewrite !nth_error_map, nth_error_seq by auto. cbn [option_map Nat.add]. rewrite dget_KNat. unfold at_. destruct (nassoc i imp); reflexivity.
Qed.

Lemma importance_keys : forall b me imp, (forall t, In t (gb_trees b) -> well_formed t) -> calculate_feature_importance b me true = Some imp ->
  NoDup (map fst imp) /\ forall k, (exists v, In (k, v) imp) <-> exists t nd, In t (gb_trees b) /\ In nd t /\ n_is_leaf nd = false /\ n_split_feature nd = k.
Proof.
  intros b me imp W H. destruct (importance_raw b me W) as (raw & vs & R & P & N & C). destruct (importance_normalised b me raw R) as (E & _ & _).
  rewrite E in H. inv_bind H. injection H as <-. rename v into sorted.
  assert (K : map fst (map (fun '(k, v) => (k, (v / fsum f32 sorted)%f32)) raw) = map fst raw).
  { rewrite map_map. apply map_ext. intros [k v]. reflexivity. }
  split; [now rewrite K|]. intros k.
  assert (A : (exists v, In (k, v) (map (fun '(k, v) => (k, (v / fsum f32 sorted)%f32)) raw)) <-> exists v, In (k, v) raw).
  { split; intros [v Hv].
    - apply in_map_iff in Hv. destruct Hv as ([k' v'] & [= -> _] & Hv). eauto.
    - exists (v / fsum f32 sorted)%f32. apply in_map_iff. exists (k, v). auto. }
  rewrite A. split.
  - intros [v Hv]. apply C in Hv. destruct Hv as [NE _]. destruct (on_feature k vs) as [|nd q] eqn:EQ; [tauto|].
    assert (HI : In nd (on_feature k vs)) by (rewrite EQ; left; auto). apply filter_In in HI. destruct HI as [HI HK]. apply Nat.eqb_eq in HK.
    apply (Permutation_in _ P) in HI. apply in_flat_map in HI. destruct HI as (t & HT & HN). apply filter_In in HN. destruct HN as [HN HL]. apply negb_true_iff in HL. eauto 8.
  - intros (t & nd & HT & HN & HL & HK). eexists. apply C. split; [|reflexivity]. intros EQ.
    assert (HI : In nd (on_feature k vs)); [|rewrite EQ in HI; destruct HI]. apply filter_In. split; [|now apply Nat.eqb_eq].
    apply (Permutation_in _ (Permutation_sym P)). apply in_flat_map. exists t. split; auto. apply filter_In. split; auto. now rewrite HL.
Qed.
Theorem importances_array_wf : forall m me imp n, plain de_importance (y_importance_method (py_params m)) = inl me ->
  calculate_feature_importance (py_booster m) me true = Some imp -> (forall t, In t (gb_trees (py_booster m)) -> well_formed t) ->
  (forall l, py_names m = Some l -> NoDup l) -> expected_columns m = Some n ->
  (forall t nd, In t (gb_trees (py_booster m)) -> In nd t -> n_is_leaf nd = false -> n_split_feature nd < n) ->
  exists r, py_feature_importances m = Some (inl r) /\ List.length r = n /\
    (forall i v, In (i, v) imp -> nth_error r i = Some (to64 v)) /\
    (forall i, i < n -> (forall t nd, In t (gb_trees (py_booster m)) -> In nd t -> n_is_leaf nd = false -> n_split_feature nd <> i) ->
       nth_error r i = Some (fzero f64)).
Proof.
  intros m me imp n HM HI W NN HC HK. destruct (importance_keys _ _ _ W HI) as [ND KS].
  destruct (importances_array m me imp n HM HI ND NN HC) as (r & E & L & R1 & R2).
  - intros k v Hv. destruct (proj1 (KS k) (ex_intro _ v Hv)) as (t & nd & HT & HN & HL & <-). eauto.
  - exists r. split; [exact E|]. split; [exact L|]. split; [exact R1|]. intros i Hi NO. apply R2; auto. intros v Hv.
    destruct (proj1 (KS i) (ex_intro _ v Hv)) as (t & nd & HT & HN & HL & HF). eapply NO; eauto.
Qed.

(** *** Partial dependence *)
Fixpoint increasing (l : list F64) : Prop :=
  match l with [] => True | x :: r => match r with [] => True | y :: _ => (x <? y)%f64 = true end /\ increasing r end.
Lemma unique_insert_head : forall x l y r, unique_insert x l = y :: r -> y = x \/ exists r', l = y :: r'.
Proof.
  intros x [|a l] y r; simpl; [intros [= -> _]; auto|]. destruct (x <? a)%f64; [intros [= -> _]; auto|]. destruct (x =? a)%f64; intros [= -> _]; eauto.
Qed.
Lemma unique_insert_increasing : forall (OL : OrdLaws f64) x l, fisnan f64 x = false -> (forall y, In y l -> fisnan f64 y = false) -> increasing l -> increasing (unique_insert x l).
Proof.
  intros OL x l Hx. induction l as [|a l IH]; intros HL H; [simpl; auto|]. cbn [unique_insert].
  destruct (x <? a)%f64 eqn:E1; [simpl; auto|]. destruct (x =? a)%f64 eqn:E2; auto.
  destruct H as [H1 H2]. assert (AX : (a <? x)%f64 = true).
  { assert (Ha : fisnan f64 a = false) by (apply HL; left; auto). rewrite (ol_lt_le _ OL) in E1 |- * by auto. rewrite (ol_eq _ OL) in E2.
    destruct (fle f64 a x); simpl in *; [|discriminate]. rewrite andb_true_r in E2. now rewrite E2. }
  cbn [increasing]. split; [|apply IH; auto; intros; apply HL; right; auto].
  destruct (unique_insert x l) as [|y r] eqn:EU; auto. destruct (unique_insert_head _ _ _ _ EU) as [->|(r' & ->)]; auto.
Qed.
Lemma unique_insert_in : forall x l y, In y (unique_insert x l) -> y = x \/ In y l.
Proof.
  induction l as [|a l IH]; simpl; intros y H; [destruct H as [->|[]]; auto|]. destruct (x <? a)%f64; [destruct H as [->|H]; auto|].
  destruct (x =? a)%f64; [auto|]. destruct H as [->|H]; auto. apply IH in H. tauto.
Qed.
Lemma unique_insert_keeps : forall x l y, In y l -> In y (unique_insert x l).
Proof.
  induction l as [|a l IH]; simpl; intros y H; [tauto|]. destruct (x <? a)%f64; [right; auto|]. destruct (x =? a)%f64; [auto|]. destruct H as [->|H]; [left; auto|right; auto].
Qed.
Lemma unique_insert_hit : forall (OL : OrdLaws f64) x l, fisnan f64 x = false -> exists y, In y (unique_insert x l) /\ (x =? y)%f64 = true.
Proof.
  intros OL x l Hx. induction l as [|a l IH]; simpl.
  - exists x. split; auto. rewrite (ol_eq _ OL), (ol_le_refl _ OL) by auto. reflexivity.
  - destruct (x <? a)%f64; [exists x; split; [left; auto|]; rewrite (ol_eq _ OL), (ol_le_refl _ OL) by auto; reflexivity|].
    destruct (x =? a)%f64 eqn:E; [exists a; split; [left; auto|auto]|]. destruct IH as (y & Hy & E'). exists y. split; [right; auto|auto].
Qed.
Lemma unique_spec : forall (OL : OrdLaws f64) l, (forall x, In x l -> fisnan f64 x = false) ->
  increasing (unique l) /\ (forall x, In x (unique l) -> In x l) /\ (forall x, In x l -> exists y, In y (unique l) /\ (x =? y)%f64 = true).
Proof.
  intros OL l HL. unfold unique.
  assert (G : forall s, (forall x, In x s -> fisnan f64 x = false) -> increasing s ->
    let u := fold_left (fun s x => unique_insert x s) l s in
    increasing u /\ (forall x, In x u -> In x l \/ In x s) /\ (forall x, In x s -> In x u) /\ (forall x, In x l -> exists y, In y u /\ (x =? y)%f64 = true)).
  { induction l as [|a l IH]; intros s HS I; simpl; [repeat split; auto; intros ? []|].
    destruct (IH (fun x H => HL x (or_intror H)) (unique_insert a s)) as (A & B & C & D).
    - intros x Hx. apply unique_insert_in in Hx. destruct Hx as [->|Hx]; auto. apply HL. left; auto.
    - apply unique_insert_increasing; auto. apply HL. left; auto.
    - split; [exact A|]. split; [|split].
      + intros x Hx. apply B in Hx. destruct Hx as [Hx|Hx]; auto. apply unique_insert_in in Hx. destruct Hx as [->|Hx]; auto.
      + intros x Hx. apply C. now apply unique_insert_keeps.
      + intros x [->|Hx]; auto. destruct (unique_insert_hit OL x s (HL x (or_introl eq_refl))) as (y & Hy & E). exists y. split; auto. }
  destruct (G []) as (A & B & C & D); simpl; auto; [intros ? []|]. split; auto. split; auto. intros x Hx. apply B in Hx. destruct Hx as [Hx|[]]; auto.
Qed.

Lemma positions_in : forall f l i, In i (positions f l) <-> nth_error l i = Some f.
Proof.
  intros f l i. unfold positions.
  assert (G : forall k, In i (flat_map (fun '(i, v) => if key_eqb v f then [i] else []) (combine (seq k (List.length l)) l)) <-> k <= i /\ nth_error l (i - k) = Some f).
  { induction l as [|a l IH]; intros k; simpl.
    - split; [tauto|]. intros [_ H]. destruct (i - k); discriminate.
    - rewrite in_app_iff, (IH (S k)). split.
      + intros [H|[H1 H2]].
        * destruct (key_eqb a f) eqn:E; [|destruct H]. destruct H as [->|[]]. apply key_eqb_eq in E. subst. rewrite Nat.sub_diag. auto.
        * split; [lia|]. replace (i - k) with (S (i - S k)) by lia. auto.
      + intros [H1 H2]. destruct (Nat.eq_dec i k) as [->|NE].
        * rewrite Nat.sub_diag in H2. simpl in H2. injection H2 as ->. rewrite key_eqb_refl. left; left; auto.
        * right. split; [lia|]. replace (i - k) with (S (i - S k)) in H2 by lia. auto. }
  rewrite G, Nat.sub_0_r. split; [tauto|]. intros; split; [lia|auto].
Qed.
Lemma positions_nodup : forall f l, NoDup (positions f l).
Proof.
  intros f l. unfold positions. generalize 0 as k. induction l as [|a l IH]; intros k; simpl; [constructor|].
  destruct (key_eqb a f); simpl; auto. constructor; auto. intros H.
  assert (G : forall l k i, In i (flat_map (fun '(i, v) => if key_eqb v f then [i] else []) (combine (seq k (List.length l)) l)) -> k <= i).
  { clear. induction l as [|a l IH]; intros k i; simpl; [tauto|]. rewrite in_app_iff. intros [H|H]; [destruct (key_eqb a f); [destruct H as [->|[]]; lia|destruct H]|]. apply IH in H. lia. }
  apply G in H. lia.
Qed.
Lemma positions_one : forall f l i, NoDup l -> nth_error l i = Some f -> positions f l = [i].
Proof.
  intros f l i N H. pose proof (positions_nodup f l) as NP. pose proof (positions_in f l) as PI.
  destruct (positions f l) as [|a [|b r]].
  - exfalso. apply (PI i). auto.
  - f_equal. assert (Ha : nth_error l a = Some f) by (apply PI; left; auto). exact (nodup_nth _ _ _ _ _ N Ha H).
  - exfalso. assert (Ha : nth_error l a = Some f) by (apply PI; left; auto). assert (Hb : nth_error l b = Some f) by (apply PI; right; left; auto).
    assert (a = b) by exact (nodup_nth _ _ _ _ _ N Ha Hb). subst. inversion NP; subst. apply H2. left; auto.
Qed.

(** the values looked at: those of the column, or those of the column of that name *)
Definition pd_column (m : PyModel) (X : Frame) (f : FeatureArg) (vals : list F64) (idx : nat) : Prop :=
  match f with
  | ByIndex i => i < x_cols X /\ vals = column X i /\ idx = i
  | ByName s => exists cols j, x_names X = Some cols /\ nth_error cols j = Some (KStr s) /\ vals = column X j /\
      nth_error (match py_names m with Some l => l | None => cols end) idx = Some (KStr s)
  end.
Theorem pd_spec : forall (OL : OrdLaws f64) sh m X f ex r, py_partial_dependence sh m X f ex = Some (inl r) ->
  exists vals idx u, pd_column m X f vals idx /\ map fst r = (if ex then [] else [y_missing (py_params m)]) ++ u /\
    increasing u /\
    (forall x, In x u -> In x vals /\ fisnan f64 x = false /\ (x =? y_missing (py_params m))%f64 = false) /\
    (forall x, In x vals -> fisnan f64 x = false -> (x =? y_missing (py_params m))%f64 = false -> exists y, In y u /\ (x =? y)%f64 = true) /\
    (forall v y, In (v, y) r -> value_partial_dependence sh (py_booster m) idx v = Some y).
Proof.
  intros OL sh m X f ex r H. unfold py_partial_dependence in H. inv_bind H. destruct v as [[vals idx]|e]; [|discriminate]. cbv zeta in H. inv_bind H. injection H as <-.
  set (flt_ := filter (fun v => negb (fisnan f64 v || (v =? y_missing (py_params m))%f64)) vals) in *.
  assert (FI : forall x, In x flt_ <-> In x vals /\ fisnan f64 x = false /\ (x =? y_missing (py_params m))%f64 = false).
  { intros x. unfold flt_. rewrite filter_In, negb_true_iff, orb_false_iff. tauto. }
  destruct (unique_spec OL flt_) as (U1 & U2 & U3); [intros x Hx; apply FI in Hx; tauto|].
  exists vals, idx, (unique flt_). split; [|split; [|split; [exact U1|split; [|split]]]].
  - clear - E. destruct f as [s|i]; simpl in *.
    + unfold loc_column in E. destruct (x_names X) as [cols|] eqn:EN; [|discriminate]. destruct (positions (KStr s) cols) as [|j [|j' q]] eqn:EP; simpl in E; try discriminate.
      unfold feature_index, columns in E. rewrite EN in E. destruct (positions (KStr s) (match py_names m with Some l => l | None => cols end)) as [|k [|k' q']] eqn:EP2; simpl in E; try discriminate.
      injection E as <- <-. exists cols, j. split; auto. split; [apply positions_in; rewrite EP; left; auto|]. split; auto. apply positions_in. rewrite EP2. left; auto.
    + destruct (Nat.ltb_spec i (x_cols X)); [|discriminate]. injection E as <- <-. auto.
  - assert (M : forall l q, mapM (fun v => let* r := value_partial_dependence sh (py_booster m) idx v in Some (v, r)) l = Some q -> map fst q = l).
    { clear. induction l as [|a l IH]; simpl; intros q H; [now injection H as <-|]. inv_bind H. inv_bind E. inv_bind H. injection H as <-. injection E as <-. simpl. f_equal. auto. }
    rewrite (M _ _ E0). destruct ex; reflexivity.
  - intros x Hx. apply FI. auto.
  - intros x Hx Hn Hm. apply U3, FI. auto.
  - intros x y HI. apply In_nth_error in HI. destruct HI as [k Hk]. apply mapM_Forall2 in E0. destruct (Forall2_nth_r E0 k Hk) as (z & _ & Hz). inv_bind Hz. injection Hz as <- <-. auto.
Qed.
(** a column by its name is the column at its position at fit time *)
Theorem pd_name : forall sh m X cols l s i j ex, x_names X = Some cols -> NoDup cols -> py_names m = Some l -> NoDup l ->
  nth_error cols j = Some (KStr s) -> nth_error l i = Some (KStr s) -> j < x_cols X ->
  py_partial_dependence sh m X (ByName s) ex =
  (let* sel := Some (column X j) in
   py_partial_dependence sh m (mkFrame None (map (fun x => repeat x (S i)) sel) (S i)) (ByIndex i) ex).
Proof.
  intros sh m X cols l s i j ex HX NC HM NL Hj Hi HJ. unfold py_partial_dependence, loc_column, feature_index.
  rewrite HX, HM, (positions_one _ _ _ NC Hj), (positions_one _ _ _ NL Hi). cbn [bind ebind x_cols].
  rewrite (proj2 (Nat.ltb_lt i (S i))) by lia.
  assert (E : column (mkFrame None (map (fun x => repeat x (S i)) (column X j)) (S i)) i = column X j).
  { unfold column at 1. cbn [x_rows]. rewrite map_map. rewrite <- map_id. apply map_ext. intros a.
    clear. induction i; simpl in *; auto. }
  rewrite E. reflexivity.
Qed.

(** *** Which options the constructor takes *)
Definition valid32 (x : F64) : Prop := validate_positive_float f32 (to32 x) = true.
Definition valid64 (x : F64) : Prop := validate_positive_float f64 x = true.
Definition valid_options (y : PyParams) : Prop :=
  In (y_objective y) ["LogLoss"; "SquaredLoss"]%string /\ In (y_grow_policy y) ["DepthWise"; "LossGuide"]%string /\
  (forall s, y_evaluation_metric y = Some s -> In s ["AUC"; "LogLoss"; "RootMeanSquaredLogError"; "RootMeanSquaredError"]%string) /\
  In (y_missing_node_treatment y) ["None"; "AssignToParent"; "AverageLeafWeight"; "AverageNodeWeight"]%string /\
  valid32 (y_learning_rate y) /\ valid32 (y_l1 y) /\ valid32 (y_l2 y) /\ valid32 (y_gamma y) /\ valid32 (y_max_delta_step y) /\
  valid32 (y_min_leaf_weight y) /\ valid32 (y_subsample y) /\ valid64 (y_top_rate y) /\ valid64 (y_other_rate y) /\ valid64 (y_colsample_bytree y).
Lemma sample_name_cases : forall s, sample_name s = "Goss"%string \/ sample_name s = "Random"%string.
Proof.
  intros s. unfold sample_name. cbn [sget SAMPLE_METHODS]. repeat (destruct (String.eqb s _); [auto|]). auto.
Qed.
Lemma sample_method_decodes : forall y, exists sm, de_method (JStr (sample_method_ y)) = Some sm.
Proof.
  intros y. unfold sample_method_. destruct (y_sample_method y) as [s|]; [destruct (sample_name_cases s) as [-> | ->]|]; destruct (_ <? _)%f64; simpl; eauto.
Qed.
Lemma validate_iff : forall p, validate_parameters p = None <->
  validate_positive_float f32 (p_learning_rate p) = true /\ validate_positive_float f32 (p_l1 p) = true /\ validate_positive_float f32 (p_l2 p) = true /\
  validate_positive_float f32 (p_gamma p) = true /\ validate_positive_float f32 (p_max_delta_step p) = true /\ validate_positive_float f32 (p_min_leaf_weight p) = true /\
  validate_positive_float f32 (p_subsample p) = true /\ validate_positive_float f64 (p_top_rate p) = true /\ validate_positive_float f64 (p_other_rate p) = true /\
  validate_positive_float f64 (p_colsample_bytree p) = true.
Proof.
  intros p. unfold validate_parameters.
  repeat (match goal with |- context [if validate_positive_float ?F ?x then _ else _] => destruct (validate_positive_float F x) end; [|split; [discriminate|intuition discriminate]]).
  split; auto 20.
Qed.
Theorem constructor_accepts : forall y, (exists m, py_new pc y = inl m) <-> valid_options y.
Proof.
  intros y. split.
  - intros [m H]. apply py_init_spec in H. destruct H as (d & (D1 & D2 & D3 & D4 & D5) & V & _). apply validate_iff in V. unfold valid_options, valid32, valid64.
    apply objective_name in D1. apply policy_name in D3. apply treatment_name in D5. 
    split; [rewrite D1; destruct (d_obj d); simpl; auto|]. split; [rewrite D3; destruct (d_po d); simpl; auto|].
    split; [|split; [rewrite D5; destruct (d_tr d); simpl; auto|exact V]].
    intros s Hs. rewrite Hs in D4. destruct (d_me d) as [me|]; [|tauto]. apply metric_name in D4. rewrite D4. destruct me; simpl; auto.
  - intros (A & B & C & D & V). destruct (sample_method_decodes y) as [sm SM].
    assert (O : exists o, de_objective (JStr (y_objective y)) = Some o) by (destruct A as [<-|[<-|[]]]; simpl; eauto).
    assert (P : exists o, de_policy (JStr (y_grow_policy y)) = Some o) by (destruct B as [<-|[<-|[]]]; simpl; eauto).
    assert (T : exists o, de_treatment (JStr (y_missing_node_treatment y)) = Some o) by (destruct D as [<-|[<-|[<-|[<-|[]]]]]; simpl; eauto).
    assert (M : exists me, match y_evaluation_metric y, me with None, None => True | Some s, Some me => de_metric (JStr s) = Some me | _, _ => False end).
    { destruct (y_evaluation_metric y) as [s|]; [|exists None; auto]. destruct (C s eq_refl) as [<-|[<-|[<-|[<-|[]]]]]; eexists (Some _); reflexivity. }
    destruct O as [o O]. destruct P as [p P]. destruct T as [t T]. destruct M as [me M].
    eexists. apply py_init_spec. exists (mkNames o sm p me t). split; [repeat split; auto|]. split; [|reflexivity]. apply validate_iff. exact V.
Qed.
End More.
