(** Property C101: what the text dump says about a model. *)
From Coq Require Import List Arith Lia NArith ZArith Bool String Ascii DecimalN DecimalString.
From Flocq Require Import Core IEEE754.Binary IEEE754.Bits.
From Verif Require Import Prelude Float FloatI Data Utils BinningX PropBinning Histogram Node Splitter Tree TreeWf WfCheck Objective Metric Sampler Contrib Booster
  PropTree PropPredict Serde SerdeProofs PropSerde Dump.
Import ListNotations.

(** [number_text show]: different numbers have different texts, which do not contain a comma, a closing
    bracket or a line end.  Trees of fitted models are well formed (C11). *)
Theorem C101_dump_exists : forall {FS : Floats} show32 show64 b, Forall well_formed (gb_trees b) -> exists s, text_dump show32 show64 b = Some s.
Proof. intros FS show32 show64 b. exact (text_dump_total show32 show64 b). Qed.

(** Models with the same text, the same base score and the same reading of missing values give the same
    predictions, partial dependence and importances. *)
Theorem C101_same_text_same_model : forall {FS : Floats} show32 show64, number_text show32 -> number_text show64 ->
  forall b b' s, Forall well_formed (gb_trees b) -> Forall well_formed (gb_trees b') ->
  text_dump show32 show64 b = Some s -> text_dump show32 show64 b' = Some s ->
  gb_pred b = gb_pred b' -> gb_base_score b = gb_base_score b' -> p_missing (gb_params b) = p_missing (gb_params b') ->
  (forall shs par data, predict shs b data par = predict shs b' data par) /\
  (forall sh feature value, p_parallel (gb_params b) = p_parallel (gb_params b') ->
     value_partial_dependence sh b feature value = value_partial_dependence sh b' feature value) /\
  (forall m normalize, calculate_feature_importance b m normalize = calculate_feature_importance b' m normalize).
Proof.
  intros FS show32 show64 N1 N2 b b' s W W' T T' EP EB EM. split; [|split].
  - exact (text_predict show32 show64 N1 N2 b b' s W W' T T' EP EB EM).
  - exact (text_pd show32 show64 N1 N2 b b' s W W' T T' EP EB EM).
  - exact (text_importance show32 show64 N1 N2 b b' s W W' T T').
Qed.

(** Node by node: the text says everything about a node except the value of one that is split. *)
Theorem C101_text_shows : forall {FS : Floats} show32 show64, number_text show32 -> number_text show64 ->
  forall b b' s, Forall well_formed (gb_trees b) -> Forall well_formed (gb_trees b') ->
  text_dump show32 show64 b = Some s -> text_dump show32 show64 b' = Some s ->
  List.length (gb_trees b) = List.length (gb_trees b') /\
  forall k t t', nth_error (gb_trees b) k = Some t -> nth_error (gb_trees b') k = Some t' ->
  List.length t = List.length t' /\
  forall i n m, nth_error t i = Some n -> nth_error t' i = Some m ->
    n_num n = n_num m /\ n_depth n = n_depth m /\ n_is_leaf n = n_is_leaf m /\ n_hess n = n_hess m /\
    (n_is_leaf n = true -> n_weight n = n_weight m) /\
    (n_is_leaf n = false -> n_split_feature n = n_split_feature m /\ n_split_value n = n_split_value m /\ n_split_gain n = n_split_gain m /\
       n_left n = n_left m /\ n_right n = n_right m /\ n_missing n = n_missing m).
Proof.
  intros FS show32 show64 N1 N2 b b' s W W' T T'. pose proof (text_dump_shown show32 show64 N1 N2 b b' s W W' T T') as SH.
  split; [exact (Forall2_length _ _ _ _ _ SH)|]. intros k t t' Ht Ht'. pose proof (nth_forall2 _ _ _ _ _ k SH) as Q. rewrite Ht, Ht' in Q.
  split; [exact (Forall2_length _ _ _ _ _ Q)|]. intros i n m Hn Hm. pose proof (nth_forall2 _ _ _ _ _ i Q) as P. rewrite Hn, Hm in P. exact P.
Qed.

(** *** A text for numbers: the bit pattern in decimal. *)
Lemma digits_Z : forall z, digits (Z_text z) = true.
Proof. intros z. unfold Z_text, NilZero.string_of_uint. destruct (N.to_uint (Z.to_N z)) eqn:E; try reflexivity; rewrite <- E; apply digits_uint. Qed.
Definition exd_show32 (x : b32) : string := Z_text (bits_of_b32 (BSN2B _ _ default_nan_pl32 x)).
Definition exd_show64 (x : b64) : string := Z_text (bits_of_b64 (BSN2B _ _ default_nan_pl64 x)).
Lemma exd_text32 : number_text exd_show32.
Proof.
  constructor; try (intros x; apply digits_has; [apply digits_Z|reflexivity]).
  intros x y H. apply (f_equal text_Z) in H. unfold exd_show32 in H. rewrite !text_Z_text in H by (apply bits_of_binary_float_range; reflexivity).
  injection H as H. apply (f_equal (fun z => B2BSN 24 128 (b32_of_bits z))) in H. unfold b32_of_bits, bits_of_b32 in H.
  rewrite !(binary_float_of_bits_of_binary_float 23 8) in H by reflexivity. rewrite !B2BSN_BSN2B in H. exact H.
Qed.
Lemma exd_text64 : number_text exd_show64.
Proof.
  constructor; try (intros x; apply digits_has; [apply digits_Z|reflexivity]).
  intros x y H. apply (f_equal text_Z) in H. unfold exd_show64 in H. rewrite !text_Z_text in H by (apply bits_of_binary_float_range; reflexivity).
  injection H as H. apply (f_equal (fun z => B2BSN 53 1024 (b64_of_bits z))) in H. unfold b64_of_bits, bits_of_b64 in H.
  rewrite !(binary_float_of_bits_of_binary_float 52 11) in H by reflexivity. rewrite !B2BSN_BSN2B in H. exact H.
Qed.

(** *** Two models that differ in the value of the root, which is split *)
Definition exd_tree (w : Z) : list (@Node IE) :=
  [@mkNode IE 0 (z32 w) (z32 5) 0 (z64 2) 0 (z32 3) 1 1 2 false;
   @mkNode IE 1 (z32 (-1)) (z32 2) 1 (z64 0) 0 (z32 0) 0 0 0 true;
   @mkNode IE 2 (z32 4) (z32 3) 1 (z64 0) 0 (z32 0) 0 0 0 true].
Definition exd_model (w : Z) : @Booster IE := @mkBooster IE (exb_params None true) (z64 0) None None None [exd_tree w] [].
Definition exd_data : Matrix b64 := matrix_new (map z64 [1; 3]%Z) 2 1.
Example exd_text : @tree_text IE (fun _ => "x"%string) (fun _ => "y"%string) (exd_tree 1) =
  Some ("0:[0 < y] yes=1,no=2,missing=1,gain=x,cover=x" ++ String newline
       ("      1:leaf=x,cover=x" ++ String newline ("      2:leaf=x,cover=x" ++ String newline "")))%string.
Proof. vm_compute. reflexivity. Qed.
Lemma exd_wf : forall w, Forall (@well_formed IE) (gb_trees (exd_model w)).
Proof.
  intros w. constructor; [|constructor]. constructor.
  - eexists. split; reflexivity.
  - intros [|[|[|i]]] n H; try (destruct i; discriminate H); injection H as <-; reflexivity.
  - intros [|[|[|i]]] n c H HL HC; try (destruct i; discriminate H); injection H as <-; try discriminate HL.
    destruct HC as [<-|[<-|[<-|[]]]]; (split; [simpl; lia|]); [exists (@mkNode IE 1 (z32 (-1)) (z32 2) 1 (z64 0) 0 (z32 0) 0 0 0 true)|exists (@mkNode IE 1 (z32 (-1)) (z32 2) 1 (z64 0) 0 (z32 0) 0 0 0 true)|exists (@mkNode IE 2 (z32 4) (z32 3) 1 (z64 0) 0 (z32 0) 0 0 0 true)]; split; reflexivity.
  - intros c [H1 H2]. simpl in H2. exists 0. eexists. split; [reflexivity|]. split; [reflexivity|].
    assert (c = 1 \/ c = 2) as [-> | ->] by lia; [right; left|right; right; left]; reflexivity.
  - intros c [|[|[|i]]] [|[|[|j]]] n m H HL _ H' HL' _; try (destruct i; discriminate H); try (destruct j; discriminate H'); auto;
      try (injection H as <-; discriminate HL); try (injection H' as <-; discriminate HL').
  - intros [|[|[|i]]] n H HL; try (destruct i; discriminate H); injection H as <-; try discriminate HL; discriminate.
Qed.

Definition exd_contrib (w : Z) : option (list b64) := @predict_contributions IE Seq (exd_model w) exd_data CWeight false.
(** The text does not determine contributions by the method Weight. *)
Theorem C101_weight_contributions_refuted : exists show32 show64 (b b' : @Booster IE) s data c c',
  number_text show32 /\ number_text show64 /\ Forall (@well_formed IE) (gb_trees b) /\ Forall (@well_formed IE) (gb_trees b') /\
  gb_params b = gb_params b' /\ gb_base_score b = gb_base_score b' /\ gb_pred b = gb_pred b' /\
  @text_dump IE show32 show64 b = Some s /\ @text_dump IE show32 show64 b' = Some s /\
  @predict_contributions IE Seq b data CWeight false = Some c /\ @predict_contributions IE Seq b' data CWeight false = Some c' /\ c <> c'.
Proof.
  exists exd_show32, exd_show64, (exd_model 1), (exd_model 2), (get [] (@text_dump IE exd_show32 exd_show64 (exd_model 1))), exd_data,
    (get [] (exd_contrib 1)), (get [] (exd_contrib 2)).
  split; [exact exd_text32|]. split; [exact exd_text64|]. split; [apply exd_wf|]. split; [apply exd_wf|].
  split; [reflexivity|]. split; [reflexivity|]. split; [reflexivity|].
  split; [vm_compute; reflexivity|]. split; [vm_compute; reflexivity|].
  assert (G : forall w, is_some (exd_contrib w) = true -> exd_contrib w = Some (get [] (exd_contrib w))).
  { intros w H. destruct (exd_contrib w); [reflexivity|discriminate]. }
  split; [exact (G 1%Z ltac:(vm_compute; reflexivity))|]. split; [exact (G 2%Z ltac:(vm_compute; reflexivity))|].
  intros H. assert (K : map (fun x => Bits.bits_of_b64 (BSN2B _ _ default_nan_pl64 x)) (get [] (exd_contrib 1)) =
    map (fun x => Bits.bits_of_b64 (BSN2B _ _ default_nan_pl64 x)) (get [] (exd_contrib 2))) by (rewrite H; reflexivity).
  revert K. vm_compute. discriminate.
Qed.

(** The example models are told apart by nothing else. *)
Example exd_same : forall shs par data, @predict IE shs (exd_model 1) data par = @predict IE shs (exd_model 2) data par.
Proof.
  destruct (@C101_dump_exists IE exd_show32 exd_show64 (exd_model 1) (exd_wf 1)) as [s Hs].
  assert (E : @text_dump IE exd_show32 exd_show64 (exd_model 2) = Some s) by (rewrite <- Hs; vm_compute; reflexivity).
  exact (proj1 (@C101_same_text_same_model IE exd_show32 exd_show64 exd_text32 exd_text64 (exd_model 1) (exd_model 2) s (exd_wf 1) (exd_wf 2) Hs E eq_refl eq_refl eq_refl)).
Qed.

Print Assumptions C101_dump_exists.
Print Assumptions C101_same_text_same_model.
Print Assumptions C101_text_shows.
Print Assumptions C101_weight_contributions_refuted.
