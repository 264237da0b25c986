(** Saving and loading: the serde derives of gradientbooster.rs:31-192, objective.rs:6-10, metric.rs:34-40,
    sampler.rs:5-10, constraints.rs:4-11, tree.rs:16-19, node.rs:32-45, data.rs:170-177, and
    gradientbooster.rs:194-255 (defaults, parse_missing), 1031-1047 (json_dump, from_json).

    JSON is modelled as a value tree; number literals are kept as text.  What serde_json does to a
    value tree's text (quoting, separators, white space) is not modelled.  Also left out: serde's
    alternative encodings of a struct as an array and of a unit variant as a one-entry object, which
    the derives accept but never produce; and the range checks of usize, u64 and u16 (these are
    unbounded in the model, as everywhere). *)
From Coq Require Import List Arith NArith Bool String Decimal DecimalString.
From Verif Require Import Prelude Float Data Utils Node Splitter Tree Objective Metric Sampler Contrib Booster.
Import ListNotations.

Inductive json :=
| JNull | JBool (b : bool) | JNum (s : string) | JStr (s : string) | JArr (l : list json) | JObj (l : list (string * json)).

(** *** Integers, booleans, options, sequences *)
Definition nat_text (n : nat) : string := NilZero.string_of_uint (Nat.to_uint n).
Definition text_nat (s : string) : option nat := option_map Nat.of_uint (NilZero.uint_of_string s).
Definition ser_nat (n : nat) : json := JNum (nat_text n).
Definition de_nat (j : json) : option nat := match j with JNum s => text_nat s | _ => None end.
Definition ser_N (n : N) : json := JNum (NilZero.string_of_uint (N.to_uint n)).
Definition de_N (j : json) : option N :=
  match j with JNum s => option_map N.of_uint (NilZero.uint_of_string s) | _ => None end.
Definition de_bool (j : json) : option bool := match j with JBool b => Some b | _ => None end.
Definition de_str (j : json) : option string := match j with JStr s => Some s | _ => None end.
Definition ser_opt {A} (f : A -> json) (x : option A) : json := match x with Some v => f v | None => JNull end.
Definition de_opt {A} (f : json -> option A) (j : json) : option (option A) :=
  match j with JNull => Some None | _ => option_map Some (f j) end.
Definition ser_list {A} (f : A -> json) (l : list A) : json := JArr (map f l).
Definition de_list {A} (f : json -> option A) (j : json) : option (list A) :=
  match j with JArr l => mapM f l | _ => None end.

(** *** Unit variants are their names *)
Local Open Scope string_scope.
Definition ser_objective (o : ObjectiveType) : json :=
  JStr (match o with LogLoss => "LogLoss" | SquaredLoss => "SquaredLoss" end).
Definition de_objective (j : json) : option ObjectiveType :=
  match j with JStr "LogLoss" => Some LogLoss | JStr "SquaredLoss" => Some SquaredLoss | _ => None end.
Definition ser_metric (m : Metric) : json :=
  JStr (match m with
        | AUC => "AUC" | MLogLoss => "LogLoss" | RootMeanSquaredLogError => "RootMeanSquaredLogError"
        | RootMeanSquaredError => "RootMeanSquaredError" end).
Definition de_metric (j : json) : option Metric :=
  match j with
  | JStr "AUC" => Some AUC | JStr "LogLoss" => Some MLogLoss
  | JStr "RootMeanSquaredLogError" => Some RootMeanSquaredLogError
  | JStr "RootMeanSquaredError" => Some RootMeanSquaredError | _ => None end.
Definition ser_method (m : SampleMethod) : json :=
  JStr (match m with SNone => "None" | SRandom => "Random" | SGoss => "Goss" end).
Definition de_method (j : json) : option SampleMethod :=
  match j with JStr "None" => Some SNone | JStr "Random" => Some SRandom | JStr "Goss" => Some SGoss | _ => None end.
Definition ser_policy (m : GrowPolicy) : json := JStr (match m with DepthWise => "DepthWise" | LossGuide => "LossGuide" end).
Definition de_policy (j : json) : option GrowPolicy :=
  match j with JStr "DepthWise" => Some DepthWise | JStr "LossGuide" => Some LossGuide | _ => None end.
Definition ser_treatment (m : MissingNodeTreatment) : json :=
  JStr (match m with
        | TNone => "None" | AssignToParent => "AssignToParent" | AverageLeafWeight => "AverageLeafWeight"
        | AverageNodeWeight => "AverageNodeWeight" end).
Definition de_treatment (j : json) : option MissingNodeTreatment :=
  match j with
  | JStr "None" => Some TNone | JStr "AssignToParent" => Some AssignToParent
  | JStr "AverageLeafWeight" => Some AverageLeafWeight | JStr "AverageNodeWeight" => Some AverageNodeWeight
  | _ => None end.
Definition ser_constraint (m : Constraint) : json :=
  JStr (match m with Positive => "Positive" | Negative => "Negative" | Unconstrained => "Unconstrained" end).
Definition de_constraint (j : json) : option Constraint :=
  match j with
  | JStr "Positive" => Some Positive | JStr "Negative" => Some Negative | JStr "Unconstrained" => Some Unconstrained
  | _ => None end.

(** *** Structs: the derived reader takes the members in any order, ignores unknown ones and refuses
    a known one given twice. *)
Definition obj (j : json) : option (list (string * json)) := match j with JObj l => Some l | _ => None end.
Definition field (l : list (string * json)) (name : string) : option (option json) :=
  match filter (fun kv => String.eqb (fst kv) name) l with
  | [] => Some None
  | [(_, v)] => Some (Some v)
  | _ => None
  end.
(** a member without attribute *)
Definition req {A} (l : list (string * json)) (name : string) (f : json -> option A) : option A :=
  let* v := field l name in match v with Some v => f v | None => None end.
(** a member with `#[serde(default = "...")]` *)
Definition dft {A} (l : list (string * json)) (name : string) (f : json -> option A) (d : A) : option A :=
  let* v := field l name in match v with Some v => f v | None => Some d end.
(** an `Option` member without attribute: absent is None *)
Definition opt {A} (l : list (string * json)) (name : string) (f : json -> option A) : option (option A) :=
  dft l name (de_opt f) None.

(** *** Maps and sets: any order out; entries are inserted one by one when read, a later one replacing
    an earlier one of the same key *)
Fixpoint nmap_insert {A} (k : nat) (v : A) (l : list (nat * A)) : list (nat * A) :=
  match l with
  | [] => [(k, v)]
  | (k', v') :: r => if Nat.eqb k k' then (k, v) :: r else (k', v') :: nmap_insert k v r
  end.
Definition set_insert (k : nat) (l : list nat) : list nat := if existsb (Nat.eqb k) l then l else (l ++ [k])%list.
Definition de_constraints (j : json) : option ConstraintMap :=
  let* l := obj j in
  foldM (fun m '(k, v) => let* k := text_nat k in let* v := de_constraint v in Some (nmap_insert k v m)) l [].
Definition de_set (j : json) : option (list nat) :=
  let* l := de_list de_nat j in Some (fold_left (fun s k => set_insert k s) l []).
Definition de_metadata (j : json) : option (list (string * string)) :=
  let* l := obj j in foldM (fun m '(k, v) => let* v := de_str v in Some (map_insert k v m)) l [].

(** The order in which a hash map or set yields its entries. *)
Record Orders := mkOrders {
  o_constraints : ConstraintMap -> ConstraintMap; o_set : list nat -> list nat;
  o_metadata : list (string * string) -> list (string * string) }.
Definition ser_constraints (o : Orders) (m : ConstraintMap) : json :=
  JObj (map (fun '(k, v) => (nat_text k, ser_constraint v)) (o_constraints o m)).
Definition ser_set (o : Orders) (s : list nat) : json := ser_list ser_nat (o_set o s).
Definition ser_metadata (o : Orders) (m : list (string * string)) : json :=
  JObj (map (fun '(k, v) => (k, JStr v)) (o_metadata o m)).

Section Serde.
Context {FS : Floats}.

(** Printing and reading of finite floats: serde_json's (with its float_roundtrip feature,
    Cargo.toml:20); an arbitrary pair here. *)
Record Codec := mkCodec {
  pr32 : F32 -> string; rd32 : string -> option F32; pr64 : F64 -> string; rd64 : string -> option F64 }.
Variable c : Codec.

(** f32::is_finite / f64::is_finite: `self.abs() < INFINITY`.  serde_json writes null for the others
    and does not read null as a float. *)
Definition is_finite (F : FloatOps) (x : fcar F) : bool := flt F (fabs F x) (finf F).
Definition ser_f32 (x : F32) : json := if is_finite f32 x then JNum (pr32 c x) else JNull.
Definition ser_f64 (x : F64) : json := if is_finite f64 x then JNum (pr64 c x) else JNull.
Definition de_f32 (j : json) : option F32 := match j with JNum s => rd32 c s | _ => None end.
Definition de_f64 (j : json) : option F64 := match j with JNum s => rd64 c s | _ => None end.

(** gradientbooster.rs:250-255 *)
Definition parse_missing (j : json) : option F64 :=
  let* x := de_opt de_f64 j in Some (match x with Some v => v | None => fnan f64 end).

(** node.rs:32-45, tree.rs:16-19 *)
Definition ser_node (n : Node) : json := JObj [
  ("num", ser_nat (n_num n)); ("weight_value", ser_f32 (n_weight n)); ("hessian_sum", ser_f32 (n_hess n));
  ("depth", ser_nat (n_depth n)); ("split_value", ser_f64 (n_split_value n));
  ("split_feature", ser_nat (n_split_feature n)); ("split_gain", ser_f32 (n_split_gain n));
  ("missing_node", ser_nat (n_missing n)); ("left_child", ser_nat (n_left n)); ("right_child", ser_nat (n_right n));
  ("is_leaf", JBool (n_is_leaf n))].
Definition de_node (j : json) : option Node :=
  let* l := obj j in
  let* num := req l "num" de_nat in
  let* weight_value := req l "weight_value" de_f32 in
  let* hessian_sum := req l "hessian_sum" de_f32 in
  let* depth := req l "depth" de_nat in
  let* split_value := req l "split_value" de_f64 in
  let* split_feature := req l "split_feature" de_nat in
  let* split_gain := req l "split_gain" de_f32 in
  let* missing_node := req l "missing_node" de_nat in
  let* left_child := req l "left_child" de_nat in
  let* right_child := req l "right_child" de_nat in
  let* is_leaf := req l "is_leaf" de_bool in
  Some (mkNode num weight_value hessian_sum depth split_value split_feature split_gain missing_node left_child
          right_child is_leaf).
Definition ser_tree (t : list Node) : json := JObj [("nodes", ser_list ser_node t)].
Definition de_tree (j : json) : option (list Node) := let* l := obj j in req l "nodes" (de_list de_node).

(** data.rs:170-177 *)
Definition ser_matrix (m : RowMajor F64) : json := JObj [
  ("data", ser_list ser_f64 (r_data m)); ("rows", ser_nat (r_rows m)); ("cols", ser_nat (r_cols m));
  ("stride1", ser_nat (r_stride1 m)); ("stride2", ser_nat (r_stride2 m))].
Definition de_matrix (j : json) : option (RowMajor F64) :=
  let* l := obj j in
  let* data := req l "data" (de_list de_f64) in
  let* rows := req l "rows" de_nat in
  let* cols := req l "cols" de_nat in
  let* stride1 := req l "stride1" de_nat in
  let* stride2 := req l "stride2" de_nat in
  Some (mkRM data rows cols stride1 stride2).

(** gradientbooster.rs:194-248.  0.1 and 0.2 are written as quotients, which round to the same. *)
Definition default_l1 : F32 := fzero f32.
Definition default_max_delta_step : F32 := fzero f32.
Definition default_initialize_base_score : bool := false.
Definition default_grow_policy : GrowPolicy := DepthWise.
Definition default_top_rate : F64 := (fone f64 / fofnat f64 10)%f64.
Definition default_other_rate : F64 := (fone f64 / fofnat f64 5)%f64.
Definition default_sample_method : SampleMethod := SNone.
Definition default_evaluation_metric : option Metric := None.
Definition default_early_stopping_rounds : option nat := None.
Definition default_evaluation_history : option (RowMajor F64) := None.
Definition default_best_iteration : option nat := None.
Definition default_prediction_iteration : option nat := None.
Definition default_terminate_missing_features : list nat := [].
Definition default_colsample_bytree : F64 := fone f64.
Definition default_missing_node_treatment : MissingNodeTreatment := AssignToParent.
Definition default_log_iterations : nat := 0.
Definition default_force_children_to_bound_parent : bool := false.

(** gradientbooster.rs:83-192 *)
Definition booster_fields (o : Orders) (b : Booster) : list (string * json) :=
  let p := gb_params b in [
  ("objective_type", ser_objective (p_objective p)); ("iterations", ser_nat (p_iterations p));
  ("learning_rate", ser_f32 (p_learning_rate p)); ("max_depth", ser_nat (p_max_depth p));
  ("max_leaves", ser_nat (p_max_leaves p)); ("l1", ser_f32 (p_l1 p)); ("l2", ser_f32 (p_l2 p));
  ("gamma", ser_f32 (p_gamma p)); ("max_delta_step", ser_f32 (p_max_delta_step p));
  ("min_leaf_weight", ser_f32 (p_min_leaf_weight p)); ("base_score", ser_f64 (gb_base_score b));
  ("nbins", ser_nat (p_nbins p)); ("parallel", JBool (p_parallel p));
  ("allow_missing_splits", JBool (p_allow_missing_splits p));
  ("monotone_constraints", ser_opt (ser_constraints o) (p_monotone_constraints p));
  ("subsample", ser_f32 (p_subsample p)); ("top_rate", ser_f64 (p_top_rate p));
  ("other_rate", ser_f64 (p_other_rate p)); ("colsample_bytree", ser_f64 (p_colsample_bytree p));
  ("seed", ser_N (p_seed p)); ("missing", ser_f64 (p_missing p));
  ("create_missing_branch", JBool (p_create_missing_branch p));
  ("sample_method", ser_method (p_sample_method p)); ("grow_policy", ser_policy (p_grow_policy p));
  ("evaluation_metric", ser_opt ser_metric (p_evaluation_metric p));
  ("early_stopping_rounds", ser_opt ser_nat (p_early_stopping_rounds p));
  ("initialize_base_score", JBool (p_initialize_base_score p));
  ("terminate_missing_features", ser_set o (p_terminate_missing_features p));
  ("evaluation_history", ser_opt ser_matrix (gb_history b)); ("best_iteration", ser_opt ser_nat (gb_best b));
  ("prediction_iteration", ser_opt ser_nat (gb_pred b));
  ("missing_node_treatment", ser_treatment (p_missing_node_treatment p));
  ("log_iterations", ser_nat (p_log_iterations p));
  ("force_children_to_bound_parent", JBool (p_force_children_to_bound_parent p));
  ("trees", ser_list ser_tree (gb_trees b)); ("metadata", ser_metadata o (gb_metadata b))].

(** gradientbooster.rs:1031-1036; serialisation of these types cannot fail *)
Definition json_dump (o : Orders) (b : Booster) : json := JObj (booster_fields o b).

(** gradientbooster.rs:1041-1047; None is the UnableToRead error *)
Definition from_json (j : json) : option Booster :=
  let* l := obj j in
  let* objective_type := req l "objective_type" de_objective in
  let* iterations := req l "iterations" de_nat in
  let* learning_rate := req l "learning_rate" de_f32 in
  let* max_depth := req l "max_depth" de_nat in
  let* max_leaves := req l "max_leaves" de_nat in
  let* l1 := dft l "l1" de_f32 default_l1 in
  let* l2 := req l "l2" de_f32 in
  let* gamma := req l "gamma" de_f32 in
  let* max_delta_step := dft l "max_delta_step" de_f32 default_max_delta_step in
  let* min_leaf_weight := req l "min_leaf_weight" de_f32 in
  let* base_score := req l "base_score" de_f64 in
  let* nbins := req l "nbins" de_nat in
  let* parallel := req l "parallel" de_bool in
  let* allow_missing_splits := req l "allow_missing_splits" de_bool in
  let* monotone_constraints := opt l "monotone_constraints" de_constraints in
  let* subsample := req l "subsample" de_f32 in
  let* top_rate := dft l "top_rate" de_f64 default_top_rate in
  let* other_rate := dft l "other_rate" de_f64 default_other_rate in
  let* colsample_bytree := dft l "colsample_bytree" de_f64 default_colsample_bytree in
  let* seed := req l "seed" de_N in
  let* missing := req l "missing" parse_missing in
  let* create_missing_branch := req l "create_missing_branch" de_bool in
  let* sample_method := dft l "sample_method" de_method default_sample_method in
  let* grow_policy := dft l "grow_policy" de_policy default_grow_policy in
  let* evaluation_metric := dft l "evaluation_metric" (de_opt de_metric) default_evaluation_metric in
  let* early_stopping_rounds := dft l "early_stopping_rounds" (de_opt de_nat) default_early_stopping_rounds in
  let* initialize_base_score := dft l "initialize_base_score" de_bool default_initialize_base_score in
  let* terminate_missing_features := dft l "terminate_missing_features" de_set default_terminate_missing_features in
  let* evaluation_history := dft l "evaluation_history" (de_opt de_matrix) default_evaluation_history in
  let* best_iteration := dft l "best_iteration" (de_opt de_nat) default_best_iteration in
  let* prediction_iteration := dft l "prediction_iteration" (de_opt de_nat) default_prediction_iteration in
  let* missing_node_treatment := dft l "missing_node_treatment" de_treatment default_missing_node_treatment in
  let* log_iterations := dft l "log_iterations" de_nat default_log_iterations in
  let* force_children_to_bound_parent := dft l "force_children_to_bound_parent" de_bool default_force_children_to_bound_parent in
  let* trees := req l "trees" (de_list de_tree) in
  let* metadata := req l "metadata" de_metadata in
  Some (mkBooster
    (mkParams objective_type iterations learning_rate max_depth max_leaves l1 l2 gamma max_delta_step min_leaf_weight
       nbins parallel allow_missing_splits monotone_constraints subsample top_rate other_rate colsample_bytree seed
       missing create_missing_branch sample_method grow_policy evaluation_metric early_stopping_rounds
       initialize_base_score terminate_missing_features missing_node_treatment log_iterations
       force_children_to_bound_parent)
    base_score evaluation_history best_iteration prediction_iteration trees metadata).
End Serde.
