(** Properties C86-C89: trained Python objects, tables of trees, xgboost models, serializers. *)
From Coq Require Import List Arith NArith ZArith Bool String Ascii Lia Permutation.
From Flocq Require Import IEEE754.BinarySingleNaN.
From Verif Require Import Prelude Float FloatI FloatConv Data Utils Binning BinningX PropBinning Histogram Node Splitter Tree TreeWf Objective Metric Sampler Contrib
  Booster PredictProofs BoostProofs PropTree PropPredict Serde SerdeProofs PropSerde PyWrap PyProofs PyState PyLoad PyFit PyMore PyTable PyTrained XgbImport PySerialize
  PyExamples PropPython.
Import ListNotations.
Local Open Scope string_scope.

(** *** C86.  The table of a trained object: one row per node, no ID twice; starting at the first row of a tree and going from row
    to row by Missing, Yes and No one arrives at the leaf that predict_leaf_indices reports, and nowhere else. *)
Theorem C86_table : forall {FS : Floats} pc y m E X t w ev m', life pc y m -> rng_ok E (gb_params (py_booster m)) -> frame_ok X -> NoDup (columns X) ->
  columns X <> [] \/ py_names m = None -> py_fit pc E m X t w ev = Some (m', None) ->
  exists T, py_trees_to_dataframe m' = inl T /\
    List.length T = fold_right (fun t k => (List.length t + k)%nat) 0 (gb_trees (py_booster m')) /\
    (forall r, In r T -> w_id r = (w_tree r, w_node r)) /\
    (forall r r', In r T -> In r' T -> w_id r = w_id r' -> r = r') /\
    forall shs X' L, frame_ok X' -> py_predict_leaf_indices shs m' X' = Some (inl L) ->
    forall i row lrow k n, nth_error (x_rows X') i = Some row -> nth_error L i = Some lrow -> nth_error lrow k = Some n ->
    exists r, follow T (cell_of m' row) (p_missing (gb_params (py_booster m'))) (k, 0) r /\ w_id r = (k, n) /\
      forall r', follow T (cell_of m' row) (p_missing (gb_params (py_booster m'))) (k, 0) r' -> r' = r.
Proof. intros FS. exact trained_table. Qed.
Print Assumptions C86_table.

(** *** C87.  An imported xgboost model computes, for data held in single precision, the base score plus the leaves of the original trees. *)
Theorem C87_import : forall {FS : Floats} pc rd maxsize x m features, (forall a b : F32, (to64 a <? to64 b)%f64 = (a <? b)%f32) ->
  from_xgboost_model pc rd maxsize x = Some (inl m) -> x_features x = Some features -> NoDup features -> fisnan f64 (fnan f64) = true ->
  (forall t, In t (x_trees x) -> xid t = 0 /\ proper t /\ forall i d s v g c y n mi cs, In (XSplit i d s v g c y n mi cs) (xflat t) -> In s features) ->
  forall shs X par, frame_ok X -> x_cols X = List.length features -> columns X = [] \/ columns X = features ->
  (forall row z, In row (x_rows X) -> In z row -> z = to64 (to32 z)) ->
  py_names m = Some features /\ py_n_features m = Some (List.length features) /\
  exists p, py_predict shs m X par = Some (inl p) /\
    Forall2 (fun row v => xsum rd (x_cell features row) (x_trees x)
       (if x_logistic x then fln (x_base x / (fone f64 - x_base x))%f64 else x_base x) = Some v) (x_rows X) p.
Proof. intros FS pc rd maxsize x m features W. exact (model_import W pc rd maxsize x m features). Qed.
Print Assumptions C87_import.
(** The order law holds for the floats of the machine. *)
Theorem C87_widening : forall iexp iln iln1p (a b : b32),
  flt (@f64 (IF iexp iln iln1p)) (@to64 (IF iexp iln iln1p) a) (@to64 (IF iexp iln iln1p) b) = flt (@f32 (IF iexp iln iln1p)) a b.
Proof. intros. exact (widen_lt a b). Qed.
Print Assumptions C87_widening.
(** A tree is taken if and only if its node numbers are 0, 1, 2, ... in some order; then the nodes are those of the tree, by number. *)
Theorem C87_nodes : forall {FS : Floats} rd fmap x, exists r, xgboost_tree_to_nodes rd fmap x = Some r /\
  ((exists nodes, r = inl nodes) <-> Permutation (map xid (xflat x)) (seq 0 (List.length (xflat x)))) /\
  forall nodes, r = inl nodes -> List.length nodes = List.length (xflat x) /\
    forall y, In y (xflat x) -> nth_error nodes (xid y) = Some (from_xgboost_node rd fmap y).
Proof.
  intros FS rd fmap x. destruct (conversion_total rd fmap x) as (r & E & I). exists r. split; [exact E|]. split; [exact I|].
  intros nodes ->. exact (node_at rd fmap x nodes E).
Qed.
Print Assumptions C87_nodes.

(** *** C88.  Arrays of every shape survive NumpySerializer; plain strings survive ScalerSerializer. *)
Theorem C88_arrays : forall A (a : NArray A), array_ok a -> exists d, numpy_serialize a = Some d /\ numpy_deserialize d = Some a.
Proof. intros A. exact numpy_round_trip. Qed.
Print Assumptions C88_arrays.
Theorem C88_strings : forall s, plain_text s = true -> scaler_deserialize (scaler_serialize s) = Some s.
Proof. exact scaler_round_trip. Qed.
Print Assumptions C88_strings.

(** *** C89.  After a successful fit the object answers on every frame with the same columns: no exception, no panic. *)
Theorem C89_trained_answers : forall {FS : Floats} pc y m E X t w ev m', life pc y m -> gb_trees (py_booster m) <> [] \/ gb_pred (py_booster m) = None ->
  rng_ok E (gb_params (py_booster m)) -> frame_ok X -> py_fit pc E m X t w ev = Some (m', None) ->
  forall X', frame_ok X' -> x_cols X' = x_cols X -> columns X' = [] \/ py_names m' = Some (columns X') \/ py_names m' = None ->
  (forall r v, In r (x_rows X') -> In v r -> fisnan f64 (y_missing y) = true \/ fisnan f64 v = false) ->
  forall shs par, exists p L, py_predict shs m' X' par = Some (inl p) /\ List.length p = List.length (x_rows X') /\
    py_predict_leaf_indices shs m' X' = Some (inl L) /\ List.length L = List.length (x_rows X').
Proof. intros FS. exact trained_answers. Qed.
Print Assumptions C89_trained_answers.

(** *** Examples and refutations *)
(** C86, C89: the object of PyExamples *)
Lemma exp_rng : @rng_ok IE exb_env (gb_params (py_booster (exp_new exp_one))).
Proof. left. vm_compute. reflexivity. Qed.
Lemma exp_frame : frame_ok exp_X /\ NoDup (columns exp_X) /\ columns exp_X <> [].
Proof.
  split; [split|split].
  - intros r H. simpl in H. repeat (destruct H as [<-|H]; [reflexivity|]). destruct H.
  - intros l [= <-]. reflexivity.
  - repeat constructor; simpl; intros H; repeat (destruct H as [H|H]; [discriminate|]); destruct H.
  - discriminate.
Qed.
Example C86_example : match @py_trees_to_dataframe IE exp_m with inl T => map (fun r => (w_id r, w_feature r, w_yes r)) (firstn 7 T) | inr _ => [] end =
  [((0, 0), Some exp_a, Some (0, 2)); ((0, 1), None, None); ((0, 2), None, None); ((0, 3), Some exp_b, Some (0, 5)); ((0, 4), None, None); ((0, 5), None, None); ((0, 6), None, None)] /\
  exists T, @py_trees_to_dataframe IE exp_m = inl T /\ List.length T = 28.
Proof.
  split; [vm_compute; reflexivity|]. destruct exp_trained as (N & F & S & _). destruct exp_frame as (F1 & F2 & F3).
  destruct (@C86_table IE ex_pc exp_one (exp_new exp_one) exb_env exp_X exp_t exp_w None exp_m (life_new _ _ _ N) exp_rng F1 F2 (or_introl F3) F) as (T & E & L & _).
  exists T. split; [exact E|]. rewrite L. clear - S. revert S. generalize (gb_trees (py_booster exp_m)) as ts. intros ts S.
  do 4 (destruct ts as [|? ts]; [discriminate|]; simpl in S; injection S as ? S). destruct ts; [|discriminate]. simpl. lia.
Qed.
(** After a fit on a frame and another on an array with more columns, the names are too few and the table raises KeyError. *)
Theorem C86_refit_on_array_refuted : exists (m m' : @PyModel IE), life ex_pc (exp_y [] []) m /\ exp_fit m (unnamed exp_X) exp_t = Some (m', None) /\
  match @py_trees_to_dataframe IE m' with inr KeyError => true | _ => false end = true.
Proof.
  pose (m := exp_out (exp_new (exp_y [] [])) exp_narrow exp_t). exists m, (exp_out m (unnamed exp_X) exp_t).
  split; [|split; [apply exp_fit_ok; vm_compute; reflexivity|vm_compute; reflexivity]].
  eapply life_fit; [apply life_new; apply exp_new_ok; vm_compute; reflexivity|]. apply exp_fit_ok with (e := None). vm_compute; reflexivity.
Qed.
Print Assumptions C86_refit_on_array_refuted.
Lemma exp_new_none : gb_pred (py_booster (exp_new exp_one)) = None.
Proof. vm_compute. reflexivity. Qed.
Lemma exp_values : forall r v, In r (x_rows exp_X) -> In v r -> fisnan IOps64 (y_missing exp_one) = true \/ fisnan IOps64 v = false.
Proof. intros r v _ _. left. reflexivity. Qed.
Example C89_example : forall shs par, exists p L, @py_predict IE shs exp_m exp_X par = Some (inl p) /\ List.length p = List.length exp_rows /\
  @py_predict_leaf_indices IE shs exp_m exp_X = Some (inl L) /\ List.length L = List.length exp_rows.
Proof.
  destruct exp_trained as (N & F & S & NA). destruct exp_frame as (F1 & F2 & F3).
  exact (@C89_trained_answers IE ex_pc exp_one (exp_new exp_one) exb_env exp_X exp_t exp_w None exp_m (life_new _ _ _ N) (or_intror exp_new_none) exp_rng F1 F exp_X F1 eq_refl
    (or_intror (or_introl NA)) exp_values).
Qed.

(** C87: two trees over the features u and v *)
Definition xu : pykey := KStr "u".
Definition xv : pykey := KStr "v".
Definition ex_tree1 : @xnode IE := @XSplit IE 0 0 xu (q64 1 2) (z64 3) (z64 8) 1 2 2
  [@XLeaf IE 1 (z64 1) (z64 4); @XSplit IE 2 1 xv (z64 3) (z64 2) (z64 4) 3 4 3 [@XLeaf IE 3 (z64 10) (z64 2); @XLeaf IE 4 (z64 100) (z64 2)]].
Definition ex_tree2 : @xnode IE := @XSplit IE 0 0 xv (z64 1) (z64 3) (z64 8) 2 1 1 [@XLeaf IE 2 (z64 1000) (z64 4); @XLeaf IE 1 (z64 2000) (z64 4)].
Definition ex_x (wrapped : bool) (features : option (list pykey)) : @XModel IE := @mkX IE wrapped features [ex_tree1; ex_tree2] (q64 1 2) false.
Notation ex_import x := (@from_xgboost_model IE ex_pc conv32 50 x).
Definition ex_xm (x : @XModel IE) : @PyModel IE := match ex_import x with Some (inl m) => m | _ => exp_m end.
Definition ex_xrows : list (list b64) := [[z64 0; z64 0]; [z64 1; z64 2]; [fnan IOps64; fnan IOps64]; [z64 1; z64 5]].
Definition ex_xX (names : option (list pykey)) : @Frame IE := @mkFrame IE names ex_xrows 2.
Lemma ex_import_ok : forall x, answers (ex_import x) = true -> ex_import x = Some (inl (ex_xm x)).
Proof. intros x. unfold ex_xm. destruct (ex_import x) as [[m|e]|]; simpl; try discriminate. reflexivity. Qed.
Definition agree (a b : list b64) : bool := ((List.length a =? List.length b)%nat && forallb (fun '(x, y) => feq IOps64 x y) (combine a b))%bool.
Example C87_example : (ex_import (ex_x true (Some [xu; xv])) = Some (inl (ex_xm (ex_x true (Some [xu; xv]))))) /\
  (forall t, In t [ex_tree1; ex_tree2] -> xid t = 0 /\ proper t /\ forall i d s v g c y n mi cs, In (@XSplit IE i d s v g c y n mi cs) (xflat t) -> In s [xu; xv]) /\
  (forall row z, In row ex_xrows -> In z row -> z = conv64 (conv32 z)) /\
  match @py_predict IE (fun _ => Seq) (ex_xm (ex_x true (Some [xu; xv]))) (ex_xX (Some [xu; xv])) None with
  | Some (inl p) => agree p (map (fun k => (q64 (2 * k + 1) 2)) [1001; 2010; 2010; 2100]%Z) | _ => false end = true.
Proof.
  split; [apply ex_import_ok; vm_compute; reflexivity|]. split; [|split; [|vm_compute; reflexivity]].
  - intros t [<-|[<-|[]]]; (split; [reflexivity|]); (split; intros i d s v g c y n mi cs H; cbn [xflat ex_tree1 ex_tree2 flat_map app In] in H;
      repeat (destruct H as [H|H]; [try discriminate H; injection H; intros; subst; cbn [map In xid]; tauto|]); destruct H).
  - assert (F : Forall (fun z => B2SF z = B2SF (conv64 (conv32 z))) (List.concat ex_xrows)) by (repeat constructor; vm_compute; reflexivity).
    rewrite Forall_forall in F. intros row z H Hz. apply B2SF_inj. apply F. apply in_concat. eauto.
Qed.
(** Without feature names every split of the imported model looks at column 0. *)
Theorem C87_without_names_refuted : exists (x : @XModel IE) m, ex_import x = Some (inl m) /\ x_features x = None /\
  forallb (forallb (fun n => (n_split_feature n =? 0)%nat)) (gb_trees (py_booster m)) = true /\
  match @py_predict IE (fun _ => Seq) m (ex_xX None) None with
  | Some (inl p) => agree p (map (fun k => (q64 (2 * k + 1) 2)) [1001; 2010; 2010; 2100]%Z) | _ => true end = false.
Proof.
  exists (ex_x true None), (ex_xm (ex_x true None)). split; [apply ex_import_ok; vm_compute; reflexivity|]. split; [reflexivity|]. split; vm_compute; reflexivity.
Qed.
Print Assumptions C87_without_names_refuted.
(** An xgboost.Booster, which the type annotation and the first branch of the function allow, always raises. *)
Theorem C87_plain_booster_refuted : (exists x : @XModel IE, fails (ex_import x) = Some AttributeError /\ answers (ex_import (ex_x true (x_features x))) = true) /\
  forall {FS : Floats} pc rd maxsize x m, x_wrapped x = false -> from_xgboost_model pc rd maxsize x <> Some (inl m).
Proof.
  split; [exists (ex_x false (Some [xu; xv])); split; vm_compute; reflexivity|].
  intros FS pc rd maxsize x m H E. unfold from_xgboost_model in E. inv_bind E. destruct v; [|discriminate]. rewrite H in E. discriminate.
Qed.
Print Assumptions C87_plain_booster_refuted.
(** A double precision value just below a threshold goes left here, and right in xgboost, which compares in single precision. *)
Definition ex_close : b64 := fsub IOps64 (q64 1 2) (q64 1 1073741824).
Theorem C87_double_precision_refuted : exists v x, @xsum IE conv32 (@x_cell IE [xu; xv] [v; z64 2]) [ex_tree1; ex_tree2] (q64 1 2) = Some x /\
  match @py_predict IE (fun _ => Seq) (ex_xm (ex_x true (Some [xu; xv]))) (@mkFrame IE None [[v; z64 2]] 2) None with
  | Some (inl [p]) => feq IOps64 p x | _ => true end = false.
Proof.
  exists ex_close. eexists. split; [apply (get_some _ (z64 0)); vm_compute; reflexivity|vm_compute; reflexivity].
Qed.
Print Assumptions C87_double_precision_refuted.
(** The names of an imported model are not saved with it. *)
Theorem C87_names_saved_refuted : exists m : @PyModel IE, ex_import (ex_x true (Some [xu; xv])) = Some (inl m) /\ py_names m = Some [xu; xv] /\
  match @py_load IE bits_codec ex_pc (@py_save IE bits_codec rev_orders m) with Some (inl m') => match py_names m' with None => true | _ => false end | _ => false end = true.
Proof.
  exists (ex_xm (ex_x true (Some [xu; xv]))). split; [apply ex_import_ok; vm_compute; reflexivity|]. split; vm_compute; reflexivity.
Qed.
Print Assumptions C87_names_saved_refuted.

(** C88 *)
Example C88_example : array_ok (mkArray [2; 3] [1; 2; 3; 4; 5; 6]) /\ array_ok (mkArray [2; 0; 3] (@nil nat)) /\ array_ok (mkArray [] [7]) /\
  numpy_serialize (mkArray [2; 3] [1; 2; 3; 4; 5; 6]) = Some (NList [NList [Item 1; Item 2; Item 3]; NList [Item 4; Item 5; Item 6]], [2; 3]) /\
  plain_text "a ""quoted"" word" = true.
Proof. repeat split. Qed.
(** A string with a quote in it cannot be read back, or comes back as another string. *)
Theorem C88_quotes_refuted : scaler_deserialize (scaler_serialize "it's") = None /\ scaler_deserialize (scaler_serialize "a' 'b") = Some "ab" /\
  scaler_deserialize (scaler_serialize (String "a" (String backslash "n"))) = Some (String "a" (String newline "")) /\
  exists s t, scaler_deserialize (scaler_serialize s) = Some t /\ t <> s.
Proof. split; [reflexivity|]. split; [reflexivity|]. split; [reflexivity|]. exists "a' 'b", "ab". split; [reflexivity|discriminate]. Qed.
Print Assumptions C88_quotes_refuted.
