(** The Python package: /repo/py-forust/src/lib.rs (the extension class, "lib.rs" below) and
    /repo/py-forust/forust/__init__.py (the class the user sees, "init" below).

    A Python float is an [F64]; an argument of Rust type f32 is rounded by the extension module
    ([to32]) and shown again as a float ([to64]).  Python's integers where Rust expects usize, u64 or
    u16 are taken to be in range, as everywhere in the model; feature numbers and constraint values,
    which reach Rust inside dictionaries, are checked.  Left out: warnings, logging, the argument
    `parallel` of the Rust prediction functions being None, arrays that are not contiguous, dtype
    conversions, xgboost models (see XgbImport), and what numpy.quantile computes. *)
From Coq Require Import List Arith NArith ZArith Bool String.
From Verif Require Import Prelude Float Data Utils Binning Histogram Node Splitter Tree Objective Metric Sampler Contrib Booster Serde.
Import ListNotations.

Inductive PyErr := ValueError | KeyError | TypeError | OverflowError | AttributeError | IndexError | ZeroDivisionError.

(** Code that may raise; a Rust panic inside is None (PanicException). *)
Definition exc (A : Type) : Type := A + PyErr.
Definition res (A : Type) : Type := option (exc A).
Definition ebind {A B} (x : exc A) (f : A -> exc B) : exc B := match x with inl a => f a | inr e => inr e end.
Notation "'let?' x ':=' e 'in' k" := (ebind e (fun x => k)) (at level 200, x pattern, e at level 200, k at level 200).
Fixpoint emapM {A B} (f : A -> exc B) (l : list A) : exc (list B) :=
  match l with [] => inl [] | x :: r => let? y := f x in let? ys := emapM f r in inl (y :: ys) end.
Definition or_raise {A} (e : PyErr) (x : option A) : exc A := match x with Some a => inl a | None => inr e end.

(** *** Dictionaries and sets.  A key is an integer or a string: what feature numbers and column names are. *)
Inductive pykey := KInt (i : Z) | KStr (s : string).
Definition key_eqb (a b : pykey) : bool :=
  match a, b with KInt i, KInt j => Z.eqb i j | KStr s, KStr t => String.eqb s t | _, _ => false end.
Definition KNat (n : nat) : pykey := KInt (Z.of_nat n).
Fixpoint dget {V} (k : pykey) (d : list (pykey * V)) : option V :=
  match d with [] => None | (k', v) :: r => if key_eqb k k' then Some v else dget k r end.
Fixpoint dset {V} (k : pykey) (v : V) (d : list (pykey * V)) : list (pykey * V) :=
  match d with [] => [(k, v)] | (k', v') :: r => if key_eqb k k' then (k', v) :: r else (k', v') :: dset k v r end.
(** a dictionary display or comprehension *)
Definition dict_of {V} (l : list (pykey * V)) : list (pykey * V) := fold_left (fun d kv => dset (fst kv) (snd kv) d) l [].
Definition sadd (s : list pykey) (k : pykey) : list pykey := if existsb (key_eqb k) s then s else s ++ [k].
Definition set_of (l : list pykey) : list pykey := fold_left sadd l [].
(** `a != b` on lists *)
Fixpoint keys_eqb (a b : list pykey) : bool :=
  match a, b with [], [] => true | x :: a, y :: b => key_eqb x y && keys_eqb a b | _, _ => false end.

(** *** Conversions at the boundary *)
Definition to_usize (k : pykey) : exc nat :=
  match k with
  | KInt i => if (i <? 0)%Z then inr OverflowError else inl (Z.to_nat i)
  | KStr _ => inr TypeError
  end.
Definition to_i8 (z : Z) : exc Z := if ((z <? -128) || (127 <? z))%Z then inr OverflowError else inl z.
(** lib.rs:24-36 *)
Definition int_to_constraint (z : Z) : exc Constraint :=
  match z with (-1)%Z => inl Negative | 1%Z => inl Positive | 0%Z => inl Unconstrained | _ => inr ValueError end.
(** The argument of type HashMap<usize, i8> is converted before the function runs. *)
Definition int_map_to_constraint_map (d : list (pykey * Z)) : exc ConstraintMap :=
  let? l := emapM (fun '(k, v) => let? k := to_usize k in let? v := to_i8 v in inl (k, v)) d in
  emapM (fun '(k, v) => let? c := int_to_constraint v in inl (k, c)) l.
(** lib.rs:381-388 *)
Definition constraint_to_int (c : Constraint) : Z := match c with Negative => -1 | Positive => 1 | Unconstrained => 0 end%Z.

(** serde_plain reads and writes a unit variant as its bare name *)
Definition plain {A} (de : json -> option A) (s : string) : exc A := or_raise ValueError (de (JStr s)).
Definition plain_name (j : json) : string := match j with JStr s => s | _ => EmptyString end.
Local Open Scope string_scope.
Definition de_contributions (j : json) : option ContributionsMethod :=
  match j with
  | JStr "Weight" => Some CWeight | JStr "Average" => Some CAverage | JStr "BranchDifference" => Some CBranchDifference
  | JStr "MidpointDifference" => Some CMidpointDifference | JStr "ModeDifference" => Some CModeDifference
  | JStr "ProbabilityChange" => Some CProbabilityChange | JStr "Shapley" => Some CShapley | _ => None end.
Definition de_importance (j : json) : option ImportanceMethod :=
  match j with
  | JStr "Weight" => Some IWeight | JStr "Gain" => Some IGain | JStr "Cover" => Some ICover
  | JStr "TotalGain" => Some ITotalGain | JStr "TotalCover" => Some ITotalCover | _ => None end.

(** dict.get(key, default) on a dictionary of strings *)
Fixpoint sget (d : list (string * string)) (k default : string) : string :=
  match d with [] => default | (a, b) :: d => if String.eqb k a then b else sget d k default end.
(** init:22-39, used as CONTRIBUTION_METHODS.get(method, method) *)
Definition CONTRIBUTION_METHODS : list (string * string) :=
  [("weight", "Weight"); ("Weight", "Weight"); ("average", "Average"); ("Average", "Average");
   ("branch-difference", "BranchDifference"); ("branchdifference", "BranchDifference"); ("BranchDifference", "BranchDifference");
   ("midpoint-difference", "MidpointDifference"); ("midpointdifference", "MidpointDifference"); ("MidpointDifference", "MidpointDifference");
   ("mode-difference", "ModeDifference"); ("modedifference", "ModeDifference"); ("ModeDifference", "ModeDifference");
   ("ProbabilityChange", "ProbabilityChange"); ("probabilitychange", "ProbabilityChange"); ("probability-change", "ProbabilityChange")].
Definition contribution_name (s : string) : string := sget CONTRIBUTION_METHODS s s.
(** init:41-46, used as SAMPLE_METHODS.get(sample_method, "Random") *)
Definition SAMPLE_METHODS : list (string * string) := [("goss", "Goss"); ("Goss", "Goss"); ("random", "Random"); ("Random", "Random")].
Definition sample_name (s : string) : string := sget SAMPLE_METHODS s "Random".

(** *** Values kept as text in the metadata: serialize.py:47-52 (json.dumps, json.loads) *)
Inductive pyval := VNames (l : list pykey) | VNat (n : nat) | VStr (s : string).
Record PyCodec := mkPyCodec { dumps : pyval -> string; loads : string -> option pyval }.

Section PyWrap.
Context {FS : Floats}.
Variables (jc : @Codec FS) (pc : PyCodec).

(** *** The parameters, as attributes of the Python object: init:290-325, 457-459, 502-541.
    monotone_constraints=None and terminate_missing_features=None become empty there. *)
Record PyParams := mkPy {
  y_objective : string; y_iterations : nat; y_learning_rate : F64; y_max_depth : nat; y_max_leaves : nat;
  y_l1 : F64; y_l2 : F64; y_gamma : F64; y_max_delta_step : F64; y_min_leaf_weight : F64; y_base_score : F64; y_nbins : nat;
  y_parallel : bool; y_allow_missing_splits : bool; y_constraints : list (pykey * Z);
  y_subsample : F64; y_top_rate : F64; y_other_rate : F64; y_colsample_bytree : F64; y_seed : N; y_missing : F64;
  y_create_missing_branch : bool; y_sample_method : option string; y_grow_policy : string;
  y_evaluation_metric : option string; y_early_stopping_rounds : option nat; y_initialize_base_score : bool;
  y_terminate : list pykey; y_missing_node_treatment : string; y_log_iterations : nat;
  y_importance_method : string; y_force_children_to_bound_parent : bool }.

(** lib.rs:87-169 *)
Definition lib_new (y : PyParams) (constraints : list (pykey * Z)) (sample_method : option string) (terminate : list nat) : exc Booster :=
  let? cm := int_map_to_constraint_map constraints in
  let? objective := plain de_objective (y_objective y) in
  let? sm := (match sample_method with Some s => plain de_method s | None => inl SNone end) in
  let? policy := plain de_policy (y_grow_policy y) in
  let? metric := (match y_evaluation_metric y with Some s => let? m := plain de_metric s in inl (Some m) | None => inl None end) in
  let? treatment := plain de_treatment (y_missing_node_treatment y) in
  match booster_new
    (mkParams objective (y_iterations y) (to32 (y_learning_rate y)) (y_max_depth y) (y_max_leaves y) (to32 (y_l1 y)) (to32 (y_l2 y))
       (to32 (y_gamma y)) (to32 (y_max_delta_step y)) (to32 (y_min_leaf_weight y)) (y_nbins y) (y_parallel y) (y_allow_missing_splits y)
       (Some cm) (to32 (y_subsample y)) (y_top_rate y) (y_other_rate y) (y_colsample_bytree y) (y_seed y) (y_missing y)
       (y_create_missing_branch y) sm policy metric (y_early_stopping_rounds y) (y_initialize_base_score y) terminate treatment
       (y_log_iterations y) (y_force_children_to_bound_parent y)) (y_base_score y) with
  | inl b => inl b
  | inr _ => inr ValueError
  end.

(** lib.rs:171-182 *)
Definition with_constraints (p : Params) (cm : option ConstraintMap) : Params :=
  mkParams (p_objective p) (p_iterations p) (p_learning_rate p) (p_max_depth p) (p_max_leaves p) (p_l1 p) (p_l2 p) (p_gamma p)
    (p_max_delta_step p) (p_min_leaf_weight p) (p_nbins p) (p_parallel p) (p_allow_missing_splits p) cm (p_subsample p)
    (p_top_rate p) (p_other_rate p) (p_colsample_bytree p) (p_seed p) (p_missing p) (p_create_missing_branch p) (p_sample_method p)
    (p_grow_policy p) (p_evaluation_metric p) (p_early_stopping_rounds p) (p_initialize_base_score p)
    (p_terminate_missing_features p) (p_missing_node_treatment p) (p_log_iterations p) (p_force_children_to_bound_parent p).
Definition with_terminate (p : Params) (s : list nat) : Params :=
  mkParams (p_objective p) (p_iterations p) (p_learning_rate p) (p_max_depth p) (p_max_leaves p) (p_l1 p) (p_l2 p) (p_gamma p)
    (p_max_delta_step p) (p_min_leaf_weight p) (p_nbins p) (p_parallel p) (p_allow_missing_splits p) (p_monotone_constraints p)
    (p_subsample p) (p_top_rate p) (p_other_rate p) (p_colsample_bytree p) (p_seed p) (p_missing p) (p_create_missing_branch p)
    (p_sample_method p) (p_grow_policy p) (p_evaluation_metric p) (p_early_stopping_rounds p) (p_initialize_base_score p)
    s (p_missing_node_treatment p) (p_log_iterations p) (p_force_children_to_bound_parent p).
Definition lib_set_constraints (b : Booster) (cm : ConstraintMap) : Booster := set_params b (with_constraints (gb_params b) (Some cm)).
Definition lib_set_terminate (b : Booster) (s : list nat) : Booster := set_params b (with_terminate (gb_params b) s).

(** lib.rs:359-454.  The Python class adds feature_importance_method, whose default is "Gain" (init:323). *)
Definition lib_get_params (b : Booster) : PyParams :=
  let p := gb_params b in
  mkPy (plain_name (ser_objective (p_objective p))) (p_iterations p) (to64 (p_learning_rate p)) (p_max_depth p) (p_max_leaves p)
    (to64 (p_l1 p)) (to64 (p_l2 p)) (to64 (p_gamma p)) (to64 (p_max_delta_step p)) (to64 (p_min_leaf_weight p)) (gb_base_score b)
    (p_nbins p) (p_parallel p) (p_allow_missing_splits p)
    (map (fun '(f, c) => (KNat f, constraint_to_int c)) (match p_monotone_constraints p with Some m => m | None => [] end))
    (to64 (p_subsample p)) (p_top_rate p) (p_other_rate p) (p_colsample_bytree p) (p_seed p) (p_missing p) (p_create_missing_branch p)
    (match p_sample_method p with SNone => None | m => Some (plain_name (ser_method m)) end)
    (plain_name (ser_policy (p_grow_policy p))) (option_map (fun m => plain_name (ser_metric m)) (p_evaluation_metric p))
    (p_early_stopping_rounds p) (p_initialize_base_score p) (map KNat (p_terminate_missing_features p))
    (plain_name (ser_treatment (p_missing_node_treatment p))) (p_log_iterations p) "Gain" (p_force_children_to_bound_parent p).

(** *** The Python object: the extension object, the parameters, and the attributes feature_names_in_ and
    n_features_, which exist only after a fit. *)
Record PyModel := mkPyModel {
  py_booster : Booster; py_params : PyParams; py_names : option (list pykey); py_n_features : option nat }.
Definition with_booster (m : PyModel) (b : Booster) : PyModel := mkPyModel b (py_params m) (py_names m) (py_n_features m).
Definition with_params (m : PyModel) (y : PyParams) : PyModel := mkPyModel (py_booster m) y (py_names m) (py_n_features m).
Definition with_base (y : PyParams) (v : F64) : PyParams :=
  mkPy (y_objective y) (y_iterations y) (y_learning_rate y) (y_max_depth y) (y_max_leaves y) (y_l1 y) (y_l2 y) (y_gamma y)
    (y_max_delta_step y) (y_min_leaf_weight y) v (y_nbins y) (y_parallel y) (y_allow_missing_splits y) (y_constraints y)
    (y_subsample y) (y_top_rate y) (y_other_rate y) (y_colsample_bytree y) (y_seed y) (y_missing y) (y_create_missing_branch y)
    (y_sample_method y) (y_grow_policy y) (y_evaluation_metric y) (y_early_stopping_rounds y) (y_initialize_base_score y)
    (y_terminate y) (y_missing_node_treatment y) (y_log_iterations y) (y_importance_method y) (y_force_children_to_bound_parent y).
Definition with_cons (y : PyParams) (d : list (pykey * Z)) : PyParams :=
  mkPy (y_objective y) (y_iterations y) (y_learning_rate y) (y_max_depth y) (y_max_leaves y) (y_l1 y) (y_l2 y) (y_gamma y)
    (y_max_delta_step y) (y_min_leaf_weight y) (y_base_score y) (y_nbins y) (y_parallel y) (y_allow_missing_splits y) d
    (y_subsample y) (y_top_rate y) (y_other_rate y) (y_colsample_bytree y) (y_seed y) (y_missing y) (y_create_missing_branch y)
    (y_sample_method y) (y_grow_policy y) (y_evaluation_metric y) (y_early_stopping_rounds y) (y_initialize_base_score y)
    (y_terminate y) (y_missing_node_treatment y) (y_log_iterations y) (y_importance_method y) (y_force_children_to_bound_parent y).
Definition with_importance (y : PyParams) (s : string) : PyParams :=
  mkPy (y_objective y) (y_iterations y) (y_learning_rate y) (y_max_depth y) (y_max_leaves y) (y_l1 y) (y_l2 y) (y_gamma y)
    (y_max_delta_step y) (y_min_leaf_weight y) (y_base_score y) (y_nbins y) (y_parallel y) (y_allow_missing_splits y) (y_constraints y)
    (y_subsample y) (y_top_rate y) (y_other_rate y) (y_colsample_bytree y) (y_seed y) (y_missing y) (y_create_missing_branch y)
    (y_sample_method y) (y_grow_policy y) (y_evaluation_metric y) (y_early_stopping_rounds y) (y_initialize_base_score y)
    (y_terminate y) (y_missing_node_treatment y) (y_log_iterations y) s (y_force_children_to_bound_parent y).

(** init:1033-1035 *)
Definition set_meta (m : PyModel) (k : string) (v : pyval) : PyModel := with_booster m (insert_metadata (py_booster m) k (dumps pc v)).

(** init:447-456 *)
Definition sample_method_ (y : PyParams) : string :=
  let s := match y_sample_method y with None => "None" | Some s => sample_name s end in
  if ((y_subsample y <? fone f64)%f64 && String.eqb s "None")%bool then "Random" else s.

(** init:290-545, __init__ run on an object whose attributes feature_names_in_ and n_features_ are [names] and [n]
    (absent for a new object; `set_params` runs it on an old one) *)
Definition py_init (names : option (list pykey)) (n : option nat) (y : PyParams) : exc PyModel :=
  let? b := lib_new y [] (Some (sample_method_ y)) [] in
  inl (set_meta (mkPyModel b y names n) "feature_importance_method" (VStr (y_importance_method y))).
Definition py_new (y : PyParams) : exc PyModel := py_init None None y.
(** init:1128-1149: get_params reads the attributes; set_params starts over with them *)
Definition py_get_params (m : PyModel) : PyParams := py_params m.
Definition py_set_params (m : PyModel) (change : PyParams -> PyParams) : exc PyModel :=
  py_init (py_names m) (py_n_features m) (change (py_get_params m)).

(** *** Input frames: a 2-dimensional array (no names) or a DataFrame *)
Record Frame := mkFrame { x_names : option (list pykey); x_rows : list (list F64); x_cols : nat }.
Definition frame_ok (X : Frame) : Prop :=
  (forall r, In r (x_rows X) -> List.length r = x_cols X) /\ (forall l, x_names X = Some l -> List.length l = x_cols X).
(** init:248-265 *)
Definition columns (X : Frame) : list pykey := match x_names X with Some l => l | None => [] end.
Definition ravel (X : Frame) : list F64 :=
  flat_map (fun j => map (fun r => nth j r (fnan f64)) (x_rows X)) (seq 0 (x_cols X)).
Definition frame_matrix (X : Frame) : Matrix F64 := matrix_new (ravel X) (List.length (x_rows X)) (x_cols X).

(** init:643-648 *)
Definition validate_features (m : PyModel) (features : list pykey) : exc unit :=
  match features, py_names m with
  | _ :: _, Some l => if keys_eqb features l then inl tt else inr ValueError
  | _, _ => inl tt
  end.

(** init:992-1010 *)
Definition feature_map (cols : list pykey) : list (pykey * nat) := dict_of (combine cols (seq 0 (List.length cols))).
Definition standardize_monotonicity_map (m : PyModel) (X : Frame) : exc (list (pykey * Z)) :=
  match x_names X with
  | None => inl (y_constraints (py_params m))
  | Some cols =>
      let? l := emapM (fun '(f, v) => let? i := or_raise KeyError (dget f (feature_map cols)) in inl (KNat i, v)) (y_constraints (py_params m)) in
      inl (dict_of l)
  end.
Definition standardize_terminate (m : PyModel) (X : Frame) : exc (list pykey) :=
  match x_names X with
  | None => inl (set_of (y_terminate (py_params m)))
  | Some cols =>
      let? l := emapM (fun f => let? i := or_raise KeyError (dget f (feature_map cols)) in inl (KNat i)) (y_terminate (py_params m)) in
      inl (set_of l)
  end.

(** init:598-627 *)
Definition PyEval : Type := Frame * list F64 * option (list F64).
Definition py_eval (m : PyModel) (e : PyEval) : exc EvalData :=
  let '(X, y, w) := e in
  let? _ := validate_features m (columns X) in
  inl (frame_matrix X, y, match w with Some w => w | None => repeat (fone f64) (List.length (x_rows X)) end).
Definition py_evals (m : PyModel) (evals : option (list PyEval)) : exc (option (list EvalData)) :=
  match evals with None => inl None | Some l => let? l := emapM (py_eval m) l in inl (Some l) end.

(** init:547-641.  The model afterwards, and the exception if one was raised. *)
Definition fit_features (m : PyModel) (X : Frame) : PyModel :=
  let m := set_meta (mkPyModel (py_booster m) (py_params m) (py_names m) (Some (x_cols X))) "n_features_" (VNat (x_cols X)) in
  match columns X with
  | [] => m
  | l => set_meta (mkPyModel (py_booster m) (py_params m) (Some l) (py_n_features m)) "feature_names_in_" (VNames l)
  end.
Definition py_fit (E : Env) (m : PyModel) (X : Frame) (y : list F64) (w : option (list F64)) (evals : option (list PyEval))
  : option (PyModel * option PyErr) :=
  let m := fit_features m X in
  let w := match w with Some w => w | None => repeat (fone f64) (List.length y) end in
  match (let? d := standardize_monotonicity_map m X in int_map_to_constraint_map d) with
  | inr e => Some (m, Some e)
  | inl cm =>
      let m := with_booster m (lib_set_constraints (py_booster m) cm) in
      match (let? s := standardize_terminate m X in emapM to_usize s) with
      | inr e => Some (m, Some e)
      | inl ts =>
          let m := with_booster m (lib_set_terminate (py_booster m) ts) in
          match py_evals m evals with
          | inr e => Some (m, Some e)
          | inl evs =>
              let* (b, e) := fit E (py_booster m) (frame_matrix X) y w evs in
              let m := with_booster m b in
              match e with
              | Some _ => Some (m, Some ValueError)
              | None => Some (with_params m (with_base (py_params m) (gb_base_score b)), None)
              end
          end
      end
  end.

(** *** Prediction *)
Definition if_valid {A} (m : PyModel) (X : Frame) (r : res A) : res A :=
  match validate_features m (columns X) with inr e => Some (inr e) | inl _ => r end.
Definition parallel_ (m : PyModel) (parallel : option bool) : bool := match parallel with Some b => b | None => y_parallel (py_params m) end.
(** numpy.reshape(a, (n, k)) and the same with order="F", as lists of rows *)
Definition cut {A} (n k : nat) (a : list A) : list (list A) := map (fun i => firstn k (skipn (i * k) a)) (seq 0 n).
Definition reshape {A} (n k : nat) (a : list A) : exc (list (list A)) :=
  if (List.length a =? n * k)%nat then inl (cut n k a) else inr ValueError.
Definition reshape_F {A} (n k : nat) (a : list A) : exc (list (list A)) :=
  if (List.length a =? n * k)%nat
  then inl (map (fun i => flat_map (fun j => match nth_error a (j * n + i) with Some x => [x] | None => [] end) (seq 0 k)) (seq 0 n))
  else inr ValueError.

(** init:650-671, lib.rs:244-256 *)
Definition py_predict (shs : nat -> SplitShape) (m : PyModel) (X : Frame) (parallel : option bool) : res (list F64) :=
  if_valid m X (let* r := predict shs (py_booster m) (frame_matrix X) (parallel_ m parallel) in Some (inl r)).
(** init:685-726, lib.rs:258-275 *)
Definition py_predict_contributions (sh : SplitShape) (m : PyModel) (X : Frame) (method : string) (parallel : option bool)
  : res (list (list F64)) :=
  if_valid m X
    (match plain de_contributions (contribution_name method) with
     | inr e => Some (inr e)
     | inl me =>
         let* r := predict_contributions sh (py_booster m) (frame_matrix X) me (parallel_ m parallel) in
         Some (reshape (List.length (x_rows X)) (x_cols X + 1) r)
     end).
(** init:728-749, lib.rs:277-287 *)
Definition py_predict_leaf_indices (shs : nat -> SplitShape) (m : PyModel) (X : Frame) : res (list (list nat)) :=
  if_valid m X
    (let* r := predict_leaf_indices shs (py_booster m) (frame_matrix X) in
     let n := match gb_pred (py_booster m) with Some n => n | None => List.length (gb_trees (py_booster m)) end in
     Some (reshape_F (List.length (x_rows X)) n r)).
(** init:751-760, lib.rs:184-188 *)
Definition py_set_prediction_iteration (m : PyModel) (i : nat) : PyModel :=
  let b := py_booster m in
  with_booster m (mkBooster (gb_params b) (gb_base_score b) (gb_history b) (gb_best b) (Some i) (gb_trees b) (gb_metadata b)).
(** init:1041-1066, lib.rs:456-465 *)
Definition py_evaluation_history (m : PyModel) : exc (option (list (list F64))) :=
  match gb_history (py_booster m) with
  | None => inl None
  | Some h => let? r := reshape (r_rows h) (r_cols h) (r_data h) in inl (Some r)
  end.

(** *** Importances: init:881-920, 673-683, lib.rs:289-298.  The values are shown as floats.  The names are looked up in {i: f for i, f in
    enumerate(feature_names_in_)}. *)
Definition py_importance (m : PyModel) (method : string) (normalize : bool) : res (list (pykey * F64)) :=
  match plain de_importance method with
  | inr e => Some (inr e)
  | inl me =>
      let* imp := calculate_feature_importance (py_booster m) me normalize in
      Some (match py_names m with
            | None => inl (map (fun '(k, v) => (KNat k, to64 v)) imp)
            | Some names =>
                let? l := emapM (fun '(k, v) => let? f := or_raise KeyError (nth_error names k) in inl (f, to64 v)) imp in
                inl (dict_of l)
            end)
  end.
Definition py_feature_importances (m : PyModel) : res (list F64) :=
  let* v := py_importance m (y_importance_method (py_params m)) true in
  Some (let? vals := v in
        let get k := match dget k vals with Some v => v | None => fzero f64 end in
        match py_names m with
        | Some names => inl (map get names)
        | None => match py_n_features m with Some n => inl (map get (map KNat (seq 0 n))) | None => inr AttributeError end
        end).

(** *** Partial dependence: init:834-879 with samples=None, lib.rs:300-302.  numpy.unique sorts. *)
Inductive FeatureArg := ByName (f : string) | ByIndex (i : nat).
Fixpoint unique_insert (x : F64) (l : list F64) : list F64 :=
  match l with
  | [] => [x]
  | y :: r => if (x <? y)%f64 then x :: l else if (x =? y)%f64 then l else y :: unique_insert x r
  end.
Definition unique (l : list F64) : list F64 := fold_left (fun s x => unique_insert x s) l [].
Definition positions (f : pykey) (l : list pykey) : list nat :=
  flat_map (fun '(i, v) => if key_eqb v f then [i] else []) (combine (seq 0 (List.length l)) l).
Definition feature_index (m : PyModel) (X : Frame) (f : pykey) : exc nat :=
  let names := match py_names m with Some l => l | None => columns X end in
  match positions f names with [i] => inl i | _ => inr ValueError end.
Definition column (X : Frame) (j : nat) : list F64 := map (fun r => nth j r (fnan f64)) (x_rows X).
(** X.loc[:, feature]; a repeated name selects a sub-frame, which the code does not expect: outside the model *)
Definition loc_column (X : Frame) (f : pykey) : res (list F64) :=
  match x_names X with
  | None => Some (inr ValueError)
  | Some l => match positions f l with [j] => Some (inl (column X j)) | [] => Some (inr KeyError) | _ => None end
  end.
Definition py_partial_dependence (sh : SplitShape) (m : PyModel) (X : Frame) (feature : FeatureArg) (exclude_missing : bool)
  : res (list (F64 * F64)) :=
  let* sel := (match feature with
               | ByName f => let* v := loc_column X (KStr f) in
                             Some (let? v := v in let? i := feature_index m X (KStr f) in inl (v, i))
               | ByIndex i => Some (if (i <? x_cols X)%nat then inl (column X i, i) else inr IndexError)
               end) in
  match sel with
  | inr e => Some (inr e)
  | inl (values, idx) =>
      let missing := y_missing (py_params m) in
      let search := unique (filter (fun v => negb (fisnan f64 v || (v =? missing)%f64)) values) in
      let search := if exclude_missing then search else missing :: search in
      let* l := mapM (fun v => let* r := value_partial_dependence sh (py_booster m) idx v in Some (v, r)) search in
      Some (inl l)
  end.

(** *** Saving, loading, pickling *)
(** init:984-990; the file is the JSON *)
Definition py_save (o : Orders) (m : PyModel) : json := json_dump jc o (py_booster m).

(** init:974-979: {ft: c.monotone_constraints[i] for i, ft in enumerate(feature_names_in_)} *)
Definition named_constraints (names : list pykey) (d : list (pykey * Z)) : exc (list (pykey * Z)) :=
  let? l := emapM (fun '(i, ft) => let? v := or_raise KeyError (dget (KNat i) d) in inl (ft, v))
      (combine (seq 0 (List.length names)) names) in
  inl (dict_of l).

(** init:949-982, 1037-1039.  A metadata entry holding something else than the wrapper wrote there is outside the model. *)
Definition load_attr (m : PyModel) (k : string) (f : PyModel -> pyval -> res PyModel) : res PyModel :=
  match get_metadata (py_booster m) k with
  | None => Some (inl m)
  | Some s => match loads pc s with None => Some (inr ValueError) | Some v => f m v end
  end.
Definition py_load (j : json) : res PyModel :=
  match from_json jc j with
  | None => Some (inr ValueError)
  | Some b =>
      match py_new (lib_get_params b) with
      | inr e => Some (inr e)
      | inl c =>
          let c := with_booster c b in
          let* c := load_attr c "feature_names_in_" (fun c v =>
              match v with
              | VNames l =>
                  let c := mkPyModel (py_booster c) (py_params c) (Some l) (py_n_features c) in
                  Some (inl (match named_constraints l (y_constraints (py_params c)) with
                             | inl d => with_params c (with_cons (py_params c) d)
                             | inr _ => c
                             end))
              | _ => None
              end) in
          match c with inr e => Some (inr e) | inl c =>
          let* c := load_attr c "n_features_" (fun c v =>
              match v with VNat n => Some (inl (mkPyModel (py_booster c) (py_params c) (py_names c) (Some n))) | _ => None end) in
          match c with inr e => Some (inr e) | inl c =>
          load_attr c "feature_importance_method" (fun c v =>
              match v with VStr s => Some (inl (with_params c (with_importance (py_params c) s))) | _ => None end)
          end end
      end
  end.

(** init:1104-1124.  Every parameter is an attribute of the pickled object, so the loop over
    get_params() adds nothing. *)
Definition py_getstate (o : Orders) (m : PyModel) : PyParams * option (list pykey) * option nat * json :=
  (py_params m, py_names m, py_n_features m, json_dump jc o (py_booster m)).
Definition py_setstate (s : PyParams * option (list pykey) * option nat * json) : exc PyModel :=
  let '(y, names, n, j) := s in
  let? b := or_raise ValueError (from_json jc j) in
  inl (mkPyModel b y names n).
End PyWrap.
