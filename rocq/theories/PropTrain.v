(** Properties C65-C71: what training depends on. *)
From Coq Require Import ZArith List Arith Lia Bool String Sorting.
From Verif Require Import Prelude Float FloatX FloatI FloatLaws OrdProofs Data Utils Binning BinningX PropBinning Histogram Node Splitter
  Tree TreeWf PropTree Objective Metric Sampler Contrib Booster PredictProofs BoostProofs FitModel PropPredict TrainMore Serde
  Sim Recode Rescale RescaleFit.
Import ListNotations.
Local Notation length := List.length.

Section Any.
Context {FS : Floats}.

(** *** C65: the chosen iteration is the best one in the direction of the metric: the largest AUC, the
    smallest value of every other metric.  Column [r_cols h - 1] is the last evaluation set. *)
Theorem C65_metric_direction : OrdLaws (@f64 FS) -> forall E b data y w es b' r,
  clean b -> p_early_stopping_rounds (gb_params b) = Some r -> 0 < p_iterations (gb_params b) ->
  fit E b data y w (Some es) = Some (b', None) ->
  exists h best vb, gb_history b' = Some h /\ gb_best b' = Some best /\ r_get h best (r_cols h - 1) = Some vb /\
    forall i v, i < r_rows h -> r_get h i (r_cols h - 1) = Some v -> fisnan f64 v = false ->
      fisnan f64 vb = false /\
      match p_evaluation_metric (gb_params b) with
      | Some AUC => (vb <? v)%f64 = false
      | _ => (v <? vb)%f64 = false
      end.
Proof. exact best_direction. Qed.

(** *** C66: evaluation sets, metric, early stopping, number of iterations, logging and threads do not
    influence the trees: of two fits that differ only in these, one model is a prefix of the other. *)
Theorem C66_watching : forall E E' b b' data y w es es' f f',
  (forall s, e_rng E s = e_rng E' s) -> e_sorts E = e_sorts E' -> e_goss E = e_goss E' -> (forall k, e_pick E k = e_pick E' k) ->
  unwatched (gb_params b) = unwatched (gb_params b') -> gb_base_score b = gb_base_score b' ->
  fit E b data y w es = Some (f, None) -> fit E' b' data y w es' = Some (f', None) ->
  gb_base_score f = gb_base_score f' /\
  exists more, gb_trees f = gb_trees f' ++ more \/ gb_trees f' = gb_trees f ++ more.
Proof.
  intros E E' b b' data y w es es' f f' H1 H2 H3 H4 HP HB H H'.
  destruct (watching_changes_nothing E E' b b' data y w es es' f f' (mkWatchEnv _ _ H1 H2 H3 H4) HP HB H H') as [X A].
  split; auto. apply agree_more. exact A.
Qed.

(** *** C67: the columns of a tree: sorted, in range, min(floor(cols * colsample_bytree), cols) of them
    (all when the rate is 1); every split uses one of them. *)
Theorem C67_columns : forall E b data y w es b', clean b -> rng_ok E (gb_params b) ->
  fit E b data y w es = Some (b', None) ->
  forall t, In t (gb_trees b') -> exists cols,
    StronglySorted lt cols /\ (forall c, In c cols -> c < m_cols data) /\
    length cols = (if (p_colsample_bytree (gb_params b) =? fone f64)%f64 then m_cols data
      else Nat.min (ftonat f64 (fofnat f64 (m_cols data) * p_colsample_bytree (gb_params b))%f64) (m_cols data)) /\
    forall n, In n t -> n_is_leaf n = false -> In (n_split_feature n) cols.
Proof. exact fit_columns. Qed.

(** *** C68: an unweighted fit is the fit with weight one on every row of the matrix *)
Theorem C68_unweighted : forall E b data y es w,
  length w = m_rows data -> (forall x, In x w -> x = fone f64) ->
  fit_unweighted E b data y es = fit E b data y w es.
Proof.
  intros E b data y es w L H. unfold fit_unweighted. f_equal.
  rewrite <- L. clear L. induction w as [|x w IH]; simpl; auto. rewrite (H x) by (left; auto). f_equal.
  apply IH. intros z Hz. apply H. right; auto.
Qed.

(** *** C69: metadata: the last inserted value is read back, other keys are untouched, and neither
    training nor prediction looks at it *)
Theorem C69_metadata : forall b k v k',
  get_metadata (insert_metadata b k v) k' = if String.eqb k' k then Some v else get_metadata b k'.
Proof. intros b k v k'. unfold get_metadata, insert_metadata. simpl. apply map_get_insert. Qed.

Theorem C69_metadata_inert : forall E b k v data y w es shs d par,
  fit E (insert_metadata b k v) data y w es =
    option_map (fun '(b', e) => (mkBooster (gb_params b') (gb_base_score b') (gb_history b') (gb_best b') (gb_pred b') (gb_trees b')
      (map_insert k v (gb_metadata b)), e)) (fit E b data y w es) /\
  predict shs (insert_metadata b k v) d par = predict shs b d par.
Proof.
  intros E b k v data y w es shs d par. split; [|reflexivity].
  unfold fit. destruct (validate_inputs y w es); simpl; [destruct b; reflexivity|].
  change (insert_metadata b k v) with (with_meta b (map_insert k v (gb_metadata b))). rewrite fit_trees_meta.
  destruct (fit_trees E b data y w es); reflexivity.
Qed.

(** *** C70: only the order of feature values matters.  [phi] changes the values of every feature keeping
    missing cells missing and the order of the others; nothing reaches f64::MAX.  Fitting on the changed
    data gives the same model up to the thresholds, which change alike, and the same predictions. *)
Theorem C70_recoding : OrdLaws (@f64 FS) -> forall (D : nat -> F64 -> Prop) (phi : nat -> F64 -> F64) E b data y w es b',
  (forall f v, D f v -> is_missing (phi f v) (p_missing (gb_params b)) = is_missing v (p_missing (gb_params b))) ->
  (forall f u v, D f u -> D f v ->
     is_missing u (p_missing (gb_params b)) = Some false -> is_missing v (p_missing (gb_params b)) = Some false ->
     (phi f u <=? phi f v)%f64 = (u <=? v)%f64) ->
  (forall f v, D f v -> is_missing v (p_missing (gb_params b)) = Some false ->
     (v <? fmax f64)%f64 = true /\ (phi f v <? fmax f64)%f64 = true) ->
  sound D data ->
  match es with Some l => Forall (fun d : EvalData => sound D (fst (fst d))) l | None => True end ->
  length (m_data data) = m_rows data * m_cols data -> length y = m_rows data -> length w = m_rows data ->
  compares (e_sorts E) -> (forall k, gain_based (e_pick E k)) -> rng_ok E (gb_params b) ->
  fit E b data y w es = Some (b', None) ->
  exists b2, fit E b (recode phi data) y w
      (option_map (map (fun d : EvalData => (recode phi (fst (fst d)), snd (fst d), snd d))) es) = Some (b2, None) /\
    gb_base_score b2 = gb_base_score b' /\ gb_history b2 = gb_history b' /\ gb_best b2 = gb_best b' /\ gb_pred b2 = gb_pred b' /\
    gb_trees b2 = map (map (map_node phi)) (gb_trees b') /\
    (forall shs d par, sound D d -> predict shs b2 (recode phi d) par = predict shs b' d par) /\
    (forall shs d, sound D d -> predict_leaf_indices shs b2 (recode phi d) = predict_leaf_indices shs b' d).
Proof.
  intros OL D phi E b data y w es b' R1 R2 R3 SD SE LD LY LW CS GB RO H.
  destruct (fit_recode OL D phi E b data y w es b' (mkRecoding _ _ _ R1 R2 R3) SD SE LD LY LW CS GB RO H) as [H2 MO].
  assert (EP : gb_params b' = gb_params b).
  { apply fit_ok in H. destruct H as [_ H]. exact (fit_params _ _ _ _ _ _ _ H). }
  exists (map_booster phi b'). split; [exact H2|]. repeat (split; [reflexivity|]).
  split; intros; [apply (predict_recode OL D)|apply (leaf_indices_recode OL D)]; auto; rewrite EP; apply mkRecoding; auto.
Qed.
End Any.
Print Assumptions C65_metric_direction.
Print Assumptions C66_watching.
Print Assumptions C67_columns.
Print Assumptions C68_unweighted.
Print Assumptions C69_metadata.
Print Assumptions C69_metadata_inert.
Print Assumptions C70_recoding.

(** *** C71: names.  The metric parser accepts exactly four names; they are the ones a saved model uses, and the
    default metric of each objective. *)
Theorem C71_metric_names : forall s m, metric_from_str s = Some m <->
  ser_metric m = JStr s.
Proof.
  intros s m. unfold metric_from_str, ser_metric. split.
  - repeat match goal with |- context [String.eqb s ?t] => destruct (String.eqb_spec s t) as [->|_];
      [intros X; injection X as <-; reflexivity|] end. discriminate.
  - destruct m; intros H; injection H as <-; reflexivity.
Qed.
Theorem C71_metric_names_all : forall s, metric_from_str s <> None <->
  In s ["AUC"; "LogLoss"; "RootMeanSquaredLogError"; "RootMeanSquaredError"]%string.
Proof.
  intros s. unfold metric_from_str. simpl. split.
  - repeat match goal with |- context [String.eqb s ?t] => destruct (String.eqb_spec s t) as [->|_]; [auto|] end. congruence.
  - intros [<-|[<-|[<-|[<-|[]]]]]; discriminate.
Qed.
Print Assumptions C71_metric_names.
Print Assumptions C71_metric_names_all.

(** *** Examples, on the run of PropPredict *)
Definition ext_params (iters : nat) (rounds : option nat) (metric : option Metric) (cs : b64) : @Params IE :=
  @mkParams IE SquaredLoss iters (q32 1 2) 5 10 (z32 0) (z32 1) (z32 0) (z32 0) (z32 1) 2
    true false None (z32 1) (z64 1) (z64 1) cs 7%N (fnan IOps64) true SNone DepthWise metric rounds true [] TNone 0 false.
Definition ext_new iters rounds metric cs : @Booster IE := @mkBooster IE (ext_params iters rounds metric cs) (z64 0) None None None [] [].
Definition half64 : b64 := fdiv IOps64 (z64 1) (z64 2).
Definition ext_labels : list b64 := map z64 [0; 1; 1; 0; 1]%Z.

(** C65: AUC is watched on labels, the other metric on numbers *)
Example C65_example :
  let b := ext_new 4 (Some 2) (Some AUC) (z64 1) in
  let es := [(ex_data, ext_labels, ex_sw)] in
  exb_fit b (Some es) = Some (exb_out b (Some es), None) /\ clean b /\ gb_best (exb_out b (Some es)) = Some 0 /\
  match gb_history (exb_out b (Some es)) with Some h => r_rows h | None => 0 end = 3.
Proof.
  split; [apply exb_some; vm_compute; reflexivity|]. split; [intros _; auto|]. split; vm_compute; reflexivity.
Qed.

(** C66: four trees unwatched, two of them when watched *)
Example C66_example :
  let b := ext_new 4 None None (z64 1) in let b' := ext_new 3 (Some 1) (Some RootMeanSquaredError) (z64 1) in
  exb_fit b None = Some (exb_out b None, None) /\ exb_fit b' (Some exb_sets) = Some (exb_out b' (Some exb_sets), None) /\
  unwatched (gb_params b) = unwatched (gb_params b') /\
  length (gb_trees (exb_out b None)) = 4 /\ length (gb_trees (exb_out b' (Some exb_sets))) = 2.
Proof.
  split; [apply exb_some; vm_compute; reflexivity|]. split; [apply exb_some; vm_compute; reflexivity|].
  split; [reflexivity|]. split; vm_compute; reflexivity.
Qed.

(** C67: one column out of two *)
Lemma ext_rng : forall s, RngSpec (e_rng exb_env s).
Proof.
  intros s. constructor.
  - intros n. split; vm_compute; reflexivity.
  - intros n. split; vm_compute; reflexivity.
  - intros n a l ND. cbn [exb_env e_rng choose]. split; [|split].
    + clear - ND. revert a. induction ND as [|x l NI ND IH]; intros [|a]; simpl; constructor; auto.
      intros H. apply NI. rewrite <- (firstn_skipn a l). apply in_or_app. auto.
    + intros x Hx. rewrite <- (firstn_skipn a l). apply in_or_app. auto.
    + apply firstn_length.
Qed.
Example C67_example :
  let b := ext_new 2 None None half64 in
  exb_fit b None = Some (exb_out b None, None) /\ rng_ok exb_env (gb_params b) /\ clean b /\
  Nat.min (ftonat IOps64 (fmul IOps64 (fofnat IOps64 (m_cols ex_data)) half64)) (m_cols ex_data) = 1 /\
  map (@length _) (gb_trees (exb_out b None)) = [4; 4].
Proof.
  split; [apply exb_some; vm_compute; reflexivity|]. split; [right; apply ext_rng|]. split; [intros _; auto|].
  split; vm_compute; reflexivity.
Qed.

(** C70: doubling the first feature and shifting the others *)
Definition ext_phi (f : nat) (v : b64) : b64 := match f with 0 => fmul IOps64 (z64 2) v | _ => fadd IOps64 v (z64 100) end.
Definition ext_dom (f : nat) (v : b64) : Prop := In v (m_data ex_data).
Definition obool_eqb (a b : option bool) : bool :=
  match a, b with Some x, Some y => Bool.eqb x y | None, None => true | _, _ => false end.
Lemma obool_eqb_eq : forall a b, obool_eqb a b = true -> a = b.
Proof. intros [[|]|] [[|]|]; simpl; congruence. Qed.

(** insertion sort only compares *)
Lemma insert_pos_same : forall {FS : Floats} (v v' : list F64) i l, same_order v v' ->
  i < length v -> (forall j, In j l -> j < length v) -> insert_pos v' i l = insert_pos v i l.
Proof.
  intros FS v v' i l [L H] Hi HL. induction l as [|j l IH]; simpl; auto.
  assert (Hj : j < length v) by (apply HL; left; auto).
  rewrite (H i j (nth i v (fzero f64)) (nth j v (fzero f64)) (nth i v' (fzero f64)) (nth j v' (fzero f64)))
    by (apply nth_error_nth'; lia).
  rewrite IH by (intros; apply HL; right; auto). reflexivity.
Qed.
Lemma isort_same : forall {FS : Floats} (v v' : list F64), same_order v v' -> isort v' = isort v.
Proof.
  intros FS v v' H. unfold isort. rewrite (proj1 H).
  assert (B : forall j, In j (seq 0 (length v)) -> j < length v) by (intros j Hj; apply in_seq in Hj; lia).
  revert B. generalize (seq 0 (length v)) as q. induction q as [|i q IH]; intros B; simpl; auto.
  rewrite IH by (intros; apply B; right; auto). apply insert_pos_same; [exact H|apply B; left; auto|].
  intros j Hj. apply B. right. eapply Permutation.Permutation_in; [apply isort_perm|exact Hj].
Qed.
Lemma isorts_compare : forall {FS : Floats}, compares isorts.
Proof. intros FS v v' _ _ H. split; apply isort_same; auto. Qed.

Lemma ext_sound : @sound IE ext_dom ex_data.
Proof. split; [|vm_compute; reflexivity]. intros k v Hk. eapply nth_error_In; eauto. Qed.

Lemma ext_missing : forall f v, ext_dom f v -> @is_missing IE (ext_phi f v) (fnan IOps64) = @is_missing IE v (fnan IOps64).
Proof.
  intros f v Hv. apply obool_eqb_eq. unfold ext_dom in Hv.
  destruct f; refine (proj1 (forallb_forall (fun v => obool_eqb (@is_missing IE (ext_phi _ v) (fnan IOps64)) (@is_missing IE v (fnan IOps64))) (m_data ex_data)) _ v Hv);
  vm_compute; reflexivity.
Qed.
Lemma ext_le : forall f u v, ext_dom f u -> ext_dom f v -> fle IOps64 (ext_phi f u) (ext_phi f v) = fle IOps64 u v.
Proof.
  intros f u v Hu Hv. apply Bool.eqb_prop. unfold ext_dom in *.
  destruct f; (refine (proj1 (forallb_forall (fun v => Bool.eqb (fle IOps64 (ext_phi _ u) (ext_phi _ v)) (fle IOps64 u v)) (m_data ex_data)) _ v Hv);
    refine (proj1 (forallb_forall (fun u => forallb (fun v => Bool.eqb (fle IOps64 (ext_phi _ u) (ext_phi _ v)) (fle IOps64 u v)) (m_data ex_data)) (m_data ex_data)) _ u Hu);
    vm_compute; reflexivity).
Qed.
Lemma ext_max : forall f v, ext_dom f v -> @is_missing IE v (fnan IOps64) = Some false ->
  flt IOps64 v (fmax IOps64) = true /\ flt IOps64 (ext_phi f v) (fmax IOps64) = true.
Proof.
  intros f v Hv HM. apply andb_prop. unfold ext_dom in *.
  assert (X : (negb (obool_eqb (@is_missing IE v (fnan IOps64)) (Some false)) || (flt IOps64 v (fmax IOps64) && flt IOps64 (ext_phi f v) (fmax IOps64)))%bool = true).
  { destruct f; refine (proj1 (forallb_forall (fun v => negb (obool_eqb (@is_missing IE v (fnan IOps64)) (Some false)) || (flt IOps64 v (fmax IOps64) && flt IOps64 (ext_phi _ v) (fmax IOps64)))%bool (m_data ex_data)) _ v Hv);
    vm_compute; reflexivity. }
  rewrite HM in X. exact X.
Qed.

Example C70_example : forall shs par,
  let b := ext_new 4 None None (z64 1) in
  exists b2, @fit IE exb_env b (@recode IE ext_phi ex_data) exb_y ex_sw None = Some (b2, None) /\
    length (gb_trees b2) = 4 /\
    @predict IE shs b2 (@recode IE ext_phi ex_data) par = @predict IE shs (exb_out b None) ex_data par.
Proof.
  intros shs par b.
  destruct (@C70_recoding IE i64_ord_laws ext_dom ext_phi exb_env b ex_data exb_y ex_sw None (exb_out b None))
    as (b2 & H & _ & _ & _ & _ & HT & HP & _).
  - exact ext_missing.
  - intros f u v Hu Hv _ _. apply ext_le; auto.
  - exact ext_max.
  - exact ext_sound.
  - exact I.
  - vm_compute; reflexivity.
  - vm_compute; reflexivity.
  - vm_compute; reflexivity.
  - exact (@isorts_compare IE).
  - intros k step l l' _. reflexivity.
  - right. apply ext_rng.
  - apply exb_some. vm_compute. reflexivity.
  - exists b2. split; [exact H|]. split; [|apply HP; exact ext_sound].
    rewrite HT, map_length. vm_compute. reflexivity.
Qed.
