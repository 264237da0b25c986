(** Property C107: options of features that are switched off, and limits that are not reached, change nothing. *)
From Coq Require Import ZArith NArith List Arith Lia Bool String Permutation Sorting.
From Flocq Require Import IEEE754.BinarySingleNaN.
From Verif Require Import Prelude Float FloatX FloatI FloatLaws OrdProofs Data DataProofs Utils Binning BinningProofs BinMatrix BinningX PropBinning Histogram
  HistogramProofs Node Splitter Tree TreeWf TreeProofs FitProofs PropTree Objective Metric Sampler SamplerProofs Booster BoostProofs PredictProofs FitModel PropPredict Neutral Limits.
Import ListNotations.
Local Notation length := List.length.
Local Open Scope nat_scope.

Section Any.
Context {FS : Floats}.

(** [same_effect] lists what two sets of options must share: everything except
    - [parallel] and [log_iterations];
    - [subsample] unless sampling at random, [top_rate] and [other_rate] unless GOSS, [seed] unless rows or columns are sampled;
    - how constraints are written: an Unconstrained column is one that is not mentioned;
    - [max_delta_step] among the values that never cut a weight;
    - the treatment of missing nodes, the terminating columns and the bounding of children without a missing branch;
    - the evaluation metric and the early stopping rounds without evaluation data.
    The base score given does not matter either when it is to be computed. *)
Theorem C107_options : forall (E : Env) (b c b' : Booster) data y w es,
  same_effect (given es) (gb_params b) (gb_params c) ->
  (gb_base_score c = gb_base_score b \/ p_initialize_base_score (gb_params b) = true) ->
  gb_trees c = gb_trees b -> gb_history c = gb_history b -> gb_best c = gb_best b -> gb_pred c = gb_pred b -> gb_metadata c = gb_metadata b ->
  fit E b data y w es = Some (b', None) ->
  exists c', fit E c data y w es = Some (c', None) /\ gb_params c' = gb_params c /\
    gb_trees c' = gb_trees b' /\ gb_base_score c' = gb_base_score b' /\ gb_history c' = gb_history b' /\
    gb_best c' = gb_best b' /\ gb_pred c' = gb_pred b' /\ gb_metadata c' = gb_metadata b'.
Proof.
  intros E b c b' data y w es S HB H1 H2 H3 H4 H5 H. exists (b_with (gb_params c) b').
  split; [|repeat split]. apply (fit_same E b c data y w es b' S); [|exact H].
  destruct HB as [HB|HB]; [left|right; tauto]. unfold b_with. rewrite HB, H1, H2, H3, H4, H5. destruct b; reflexivity.
Qed.

(** Limits.  If every tree has fewer leaves than max_leaves, any other limit above its leaf counts gives the same
    model; if every node is less deep than max_depth, any larger max_depth does (for the heap of loss guided
    growth: when its choice depends on the pending nodes only). *)
Theorem C107_max_leaves : forall (E : Env) (b b' : Booster) data y w es max_leaves,
  fit E b data y w es = Some (b', None) ->
  (forall t, In t (gb_trees b') -> n_leaves t < p_max_leaves (gb_params b) /\ n_leaves t < max_leaves) ->
  fit E (b_with (p_limits max_leaves (p_max_depth (gb_params b)) (gb_params b)) b) data y w es
    = Some (b_with (p_limits max_leaves (p_max_depth (gb_params b)) (gb_params b)) b', None).
Proof. intros E b b' data y w es ml H HL. apply fit_limits; auto. Qed.
Theorem C107_max_depth : forall (E : Env) (b b' : Booster) data y w es max_depth,
  fit E b data y w es = Some (b', None) ->
  (forall t n, In t (gb_trees b') -> In n t -> n_depth n < p_max_depth (gb_params b)) -> p_max_depth (gb_params b) <= max_depth ->
  p_grow_policy (gb_params b) = DepthWise \/ (forall i m n l, e_pick E i m l = e_pick E i n l) ->
  fit E (b_with (p_limits (p_max_leaves (gb_params b)) max_depth (gb_params b)) b) data y w es
    = Some (b_with (p_limits (p_max_leaves (gb_params b)) max_depth (gb_params b)) b', None).
Proof.
  intros E b b' data y w es md H HD HM HP. apply fit_limits; auto. destruct (Nat.eq_dec md (p_max_depth (gb_params b))) as [->|N]; [left; reflexivity|].
  right. split; [lia|]. split; auto.
Qed.
End Any.

(** In IEEE arithmetic max_delta_step is switched off by a zero of either sign and by infinity. *)
Theorem C107_step_off : forall (iexp iln iln1p : b64 -> b64) (d : b32), d = B754_zero false \/ d = B754_zero true \/ d = B754_infinity false ->
  @step_off (IF iexp iln iln1p) d.
Proof.
  intros iexp iln iln1p d [H|[H|H]]; subst d; [left; reflexivity|left; reflexivity|right]. intros [s|s| |s m e B]; reflexivity.
Qed.

(** *** Cases *)
(** Four trees with splits; other options that come to the same, for a fit without evaluation data. *)
Definition exn_params : @Params IE :=
  @mkParams IE SquaredLoss 4 (q32 1 2) 5 10 (z32 0) (z32 1) (z32 0) (finf IOps32) (z32 1) 2
    false false (Some [(1, Unconstrained)]) (q32 1 3) (q64 1 5) (q64 1 7) (z64 1) 12345%N (fnan IOps64) true SNone DepthWise (Some RootMeanSquaredError) (Some 1) true [] TNone 50 false.
Lemma exn_same : @same_effect IE false (gb_params (exb_new None true)) exn_params.
Proof.
  constructor; try reflexivity; try discriminate.
  - constructor; try reflexivity. discriminate.
  - right. split; apply C107_step_off; [left|right; right]; reflexivity.
  - intros [|[|f]]; reflexivity.
  - intros [H|H]; [contradiction H; reflexivity|]. exfalso. revert H. vm_compute. discriminate.
  - intros _. repeat split; auto.
Qed.
Definition exn_new : @Booster IE := @mkBooster IE exn_params (z64 17) None None None [] [].
Lemma exn_fitted : @fit IE exb_env (exb_new None true) ex_data exb_y ex_sw None = Some (exb_out (exb_new None true) None, None).
Proof. apply exb_some. vm_compute. reflexivity. Qed.
Example exn_options : exists c', @fit IE exb_env exn_new ex_data exb_y ex_sw None = Some (c', None) /\
  gb_trees c' = gb_trees (exb_out (exb_new None true) None) /\ gb_base_score c' = gb_base_score (exb_out (exb_new None true) None).
Proof.
  destruct (@C107_options IE exb_env (exb_new None true) exn_new _ ex_data exb_y ex_sw None exn_same (or_intror eq_refl) eq_refl eq_refl eq_refl eq_refl eq_refl exn_fitted)
    as (c' & H1 & _ & H2 & H3 & _). exists c'. split; [exact H1|]. split; [exact H2|exact H3].
Qed.
Definition exn_sizes (b : @Booster IE) := map (fun t => (length t, @n_leaves IE t, fold_right Nat.max 0 (map (@n_depth IE) t))) (gb_trees b).
Example exn_trees : exn_sizes (exb_out (exb_new None true) None) = [(7, 5, 2); (7, 5, 2); (7, 5, 2); (7, 5, 2)].
Proof. vm_compute. reflexivity. Qed.

(** The limits of that fit are 10 leaves and depth 5: 6 leaves and depth 30 give the same trees. *)
Lemma exn_below_any : forall b : @Booster IE, exn_sizes b = [(7, 5, 2); (7, 5, 2); (7, 5, 2); (7, 5, 2)] ->
  forall t, In t (gb_trees b) -> @n_leaves IE t = 5 /\ forall n, In n t -> n_depth n <= 2.
Proof.
  intros b HB t Ht. assert (In (length t, @n_leaves IE t, fold_right Nat.max 0 (map (@n_depth IE) t)) (exn_sizes b)) as H.
  { unfold exn_sizes. apply in_map_iff. exists t. split; [reflexivity|exact Ht]. }
  rewrite HB in H. assert (@n_leaves IE t = 5 /\ fold_right Nat.max 0 (map (@n_depth IE) t) = 2) as [H1 H2].
  { destruct H as [H|[H|[H|[H|[]]]]]; injection H as _ H1 H2; split; congruence. }
  split; [exact H1|]. intros n Hn. rewrite <- H2. clear - Hn. induction t as [|a t IH]; [contradiction|]. cbn [map fold_right].
  destruct Hn as [<-|Hn]; [lia|]. specialize (IH Hn). lia.
Qed.
Definition exn_below := exn_below_any (exb_out (exb_new None true) None) exn_trees.
Lemma exn_less : forall t, In t (gb_trees (exb_out (exb_new None true) None)) -> @n_leaves IE t < 10 /\ @n_leaves IE t < 6.
Proof. intros t Ht. destruct (exn_below t Ht) as [H _]. rewrite H. lia. Qed.
Lemma exn_deep : forall t n, In t (gb_trees (exb_out (exb_new None true) None)) -> In n t -> @n_depth IE n < 5.
Proof. intros t n Ht Hn. destruct (exn_below t Ht) as [_ H]. specialize (H n Hn). lia. Qed.
Notation exn_p := (gb_params (exb_new None true)).
Example exn_leaves : @fit IE exb_env (b_with (p_limits 6 (p_max_depth exn_p) exn_p) (exb_new None true)) ex_data exb_y ex_sw None =
  Some (b_with (p_limits 6 (p_max_depth exn_p) exn_p) (exb_out (exb_new None true) None), None).
Proof. exact (@C107_max_leaves IE exb_env (exb_new None true) (exb_out (exb_new None true) None) ex_data exb_y ex_sw None 6 exn_fitted exn_less). Qed.
Lemma exn_30 : p_max_depth exn_p <= 30. Proof. change (5 <= 30). lia. Qed.
Example exn_depth : @fit IE exb_env (b_with (p_limits (p_max_leaves exn_p) 30 exn_p) (exb_new None true)) ex_data exb_y ex_sw None =
  Some (b_with (p_limits (p_max_leaves exn_p) 30 exn_p) (exb_out (exb_new None true) None), None).
Proof. exact (@C107_max_depth IE exb_env (exb_new None true) (exb_out (exb_new None true) None) ex_data exb_y ex_sw None 30 exn_fitted exn_deep exn_30 (or_introl eq_refl)). Qed.
(** A limit that is reached does matter. *)
Example exn_tight : option_map (fun r => exn_sizes (fst r)) (@fit IE exb_env (b_with (@p_limits IE 3 5 (gb_params (exb_new None true))) (exb_new None true)) ex_data exb_y ex_sw None)
  = Some [(4, 3, 1); (4, 3, 1); (4, 3, 1); (4, 3, 1)].
Proof. vm_compute. reflexivity. Qed.

(** Sampling rows at random with subsample 1 keeps every row, yet is not the same as no sampling in floating
    point: the totals at the root are added up in another order. *)
Definition exn_y : list b64 := map z64 ([2 ^ 60; 1] ++ repeat 0 14 ++ [- 2 ^ 60] ++ repeat 0 15)%Z.
Definition exn_wide : Matrix b64 := matrix_new (map z64 (repeat 0 32)%Z) 32 1.
Definition exn_sampled (m : SampleMethod) : @Booster IE := @mkBooster IE
  (@mkParams IE SquaredLoss 1 (q32 1 2) 2 10 (z32 0) (z32 1) (z32 0) (z32 0) (z32 1) 64
    true false None (z32 1) (z64 1) (z64 1) (z64 1) 7%N (fnan IOps64) false m DepthWise None None false [] TNone 0 false)
  (z64 0) None None None [] [].
Definition exn_w : list b64 := map z64 (repeat 1 32)%Z.
Definition exn_run (m : SampleMethod) := @fit IE exb_env (exn_sampled m) exn_wide exn_y exn_w None.
Lemma exn_rng : RngSpec (e_rng exb_env 7%N).
Proof.
  constructor; cbn.
  - intros _. split; vm_compute; reflexivity.
  - intros _. split; vm_compute; reflexivity.
  - intros _ k l N. split; [|split; [|apply firstn_length]].
    + rewrite <- (firstn_skipn k l) in N. clear - N. induction (firstn k l) as [|a r IH]; [constructor|]. inversion N; subst.
      constructor; [intros I; apply H1; apply in_or_app; left; exact I|apply IH; exact H2].
    + intros x Hx. rewrite <- (firstn_skipn k l). apply in_or_app. left. exact Hx.
Qed.
Lemma exn_every : fst (random_sample (e_rng exb_env 7%N) (p_subsample (gb_params (exn_sampled SRandom))) 0 (m_index exn_wide)) = (m_index exn_wide, []).
Proof. vm_compute. reflexivity. Qed.
Lemma exn_one : feq (@f32 IE) (p_subsample (gb_params (exn_sampled SRandom))) (fone (@f32 IE)) = true.
Proof. vm_compute. reflexivity. Qed.
Definition exn_weights (o : option (@Booster IE * option ForustError)) : list (list bool) :=
  match o with Some (b, None) => map (map (fun n => feq IOps32 (@n_weight IE n) (z32 0))) (gb_trees b) | _ => [] end.
Lemma exn_differ : forall o o' : option (@Booster IE * option ForustError), exn_weights o = [[false]] -> exn_weights o' = [[true]] ->
  exists b c, o = Some (b, None) /\ o' = Some (c, None) /\ gb_trees b <> gb_trees c.
Proof.
  intros [[b [e|]]|] [[c [e'|]]|] H1 H2; try discriminate. exists b, c. split; [reflexivity|]. split; [reflexivity|]. intros Q.
  cbn [exn_weights] in H1, H2. rewrite Q, H2 in H1. discriminate.
Qed.
Lemma exn_none : exn_weights (exn_run SNone) = [[false]]. Proof. vm_compute. reflexivity. Qed.
Lemma exn_random : exn_weights (exn_run SRandom) = [[true]]. Proof. vm_compute. reflexivity. Qed.
Lemma exn_pack : forall (E : @Env IE) (b c : @Booster IE) data y w o o',
  RngSpec (e_rng E 7%N) -> feq (@f32 IE) (p_subsample (gb_params c)) (fone (@f32 IE)) = true -> p_sample_method (gb_params b) = SNone -> p_sample_method (gb_params c) = SRandom ->
  fst (random_sample (e_rng E 7%N) (p_subsample (gb_params c)) 0 (m_index data)) = (m_index data, []) ->
  @fit IE E b data y w None = o -> @fit IE E c data y w None = o' -> exn_weights o = [[false]] -> exn_weights o' = [[true]] ->
  exists (E : @Env IE) (b c b' c' : @Booster IE) data y w,
  RngSpec (e_rng E 7%N) /\ feq (@f32 IE) (p_subsample (gb_params c)) (fone (@f32 IE)) = true /\ p_sample_method (gb_params b) = SNone /\ p_sample_method (gb_params c) = SRandom /\
  fst (random_sample (e_rng E 7%N) (p_subsample (gb_params c)) 0 (m_index data)) = (m_index data, []) /\
  @fit IE E b data y w None = Some (b', None) /\ @fit IE E c data y w None = Some (c', None) /\
  gb_trees b' <> gb_trees c'.
Proof.
  intros E b c data y w o o' H1 H2 H3 H4 H5 H6 H7 H8 H9. destruct (exn_differ o o' H8 H9) as (b' & c' & D1 & D2 & D3).
  exists E, b, c, b', c', data, y, w. rewrite H6, H7. auto 10.
Qed.
Theorem C107_subsample_one_refuted : exists (E : @Env IE) (b c b' c' : @Booster IE) data y w,
  RngSpec (e_rng E 7%N) /\ feq (@f32 IE) (p_subsample (gb_params c)) (fone (@f32 IE)) = true /\ p_sample_method (gb_params b) = SNone /\ p_sample_method (gb_params c) = SRandom /\
  fst (random_sample (e_rng E 7%N) (p_subsample (gb_params c)) 0 (m_index data)) = (m_index data, []) /\
  @fit IE E b data y w None = Some (b', None) /\ @fit IE E c data y w None = Some (c', None) /\
  gb_trees b' <> gb_trees c'.
Proof.
  exact (exn_pack exb_env (exn_sampled SNone) (exn_sampled SRandom) exn_wide exn_y exn_w (exn_run SNone) (exn_run SRandom)
    exn_rng exn_one eq_refl eq_refl exn_every eq_refl eq_refl exn_none exn_random).
Qed.

Print Assumptions C107_options.
Print Assumptions C107_max_leaves.
Print Assumptions C107_max_depth.
Print Assumptions C107_step_off.
Print Assumptions C107_subsample_one_refuted.
