(** /repo/src/gradientbooster.rs, /repo/src/utils.rs:33-94 (validation). *)
From Coq Require Import List Arith NArith Bool String.
From Verif Require Import Prelude Float Data Utils Binning Histogram Node Splitter Tree Objective Metric Sampler Contrib.
Import ListNotations.

(** errors.rs:4-27: the errors these functions can return; the texts are dropped, the name of the offending input is kept. *)
Inductive FieldName := FieldY | FieldWeight | FieldEvalY (i : nat) | FieldEvalWeight (i : nat).
Inductive ForustError :=
| InvalidParameter (name : string) | MissingValuesFound (f : FieldName) | NegativeValuesFound (f : FieldName).

(** gradientbooster.rs:37-54, 56-66 *)
Inductive ContributionsMethod :=
| CWeight | CAverage | CBranchDifference | CMidpointDifference | CModeDifference | CProbabilityChange | CShapley.
Inductive ImportanceMethod := IWeight | IGain | ICover | ITotalGain | ITotalCover.

Section Booster.
Context {FS : Floats}.

(** *** Validation: utils.rs:33-85.  None = Ok. *)
Definition validate_positive_float (F : FloatOps) (v : fcar F) : bool :=
  negb (fisnan F v || flt F v (fzero F) || flt F (finf F) v).

Definition validate_not_nan_vec (v : list F64) (name : FieldName) : option ForustError :=
  if existsb (fisnan f64) v then Some (MissingValuesFound name) else None.
Definition validate_positive_vec (v : list F64) (name : FieldName) : option ForustError :=
  if existsb (fun x => (x <? fzero f64)%f64) v then Some (NegativeValuesFound name) else None.
Definition validate_positive_not_nan_vec (v : list F64) (name : FieldName) : option ForustError :=
  let remainder := filter (fun x => fisnan f64 x || (x <? fzero f64)%f64)%bool v in
  match validate_positive_vec remainder name with
  | Some e => Some e
  | None => validate_not_nan_vec remainder name
  end.

(** *** The booster: gradientbooster.rs:84-192.  [Params] holds the fields set by the user except
    base_score, which training may overwrite. *)
Record Params := mkParams {
  p_objective : ObjectiveType; p_iterations : nat; p_learning_rate : F32; p_max_depth : nat; p_max_leaves : nat;
  p_l1 : F32; p_l2 : F32; p_gamma : F32; p_max_delta_step : F32; p_min_leaf_weight : F32; p_nbins : nat;
  p_parallel : bool; p_allow_missing_splits : bool; p_monotone_constraints : option ConstraintMap;
  p_subsample : F32; p_top_rate : F64; p_other_rate : F64; p_colsample_bytree : F64; p_seed : N; p_missing : F64;
  p_create_missing_branch : bool; p_sample_method : SampleMethod; p_grow_policy : GrowPolicy;
  p_evaluation_metric : option Metric; p_early_stopping_rounds : option nat; p_initialize_base_score : bool;
  p_terminate_missing_features : list nat; p_missing_node_treatment : MissingNodeTreatment; p_log_iterations : nat;
  p_force_children_to_bound_parent : bool }.

Record Booster := mkBooster {
  gb_params : Params; gb_base_score : F64; gb_history : option (RowMajor F64); gb_best : option nat;
  gb_pred : option nat; gb_trees : list (list Node); gb_metadata : list (string * string) }.

(** gradientbooster.rs:416-428 (in this order) *)
Definition validate_parameters (p : Params) : option ForustError :=
  let chk (ok : bool) name k := if ok then k else Some (InvalidParameter name) in
  chk (validate_positive_float f32 (p_learning_rate p)) "learning_rate"%string
  (chk (validate_positive_float f32 (p_l1 p)) "l1"%string
  (chk (validate_positive_float f32 (p_l2 p)) "l2"%string
  (chk (validate_positive_float f32 (p_gamma p)) "gamma"%string
  (chk (validate_positive_float f32 (p_max_delta_step p)) "max_delta_step"%string
  (chk (validate_positive_float f32 (p_min_leaf_weight p)) "min_leaf_weight"%string
  (chk (validate_positive_float f32 (p_subsample p)) "subsample"%string
  (chk (validate_positive_float f64 (p_top_rate p)) "top_rate"%string
  (chk (validate_positive_float f64 (p_other_rate p)) "other_rate"%string
  (chk (validate_positive_float f64 (p_colsample_bytree p)) "colsample_bytree"%string None))))))))).

(** gradientbooster.rs:341-414 *)
Definition booster_new (p : Params) (base_score : F64) : Booster + ForustError :=
  match validate_parameters p with
  | Some e => inr e
  | None => inl (mkBooster p base_score None None None [] [])
  end.

(** What a run depends on besides its inputs: the random generator of each seed, the unspecified
    order of equal elements in sorts, the heap's choices in tree number i, and the schedule of
    the parallel predictions (iteration, data set). *)
Record Env := mkEnv {
  e_rng : N -> Rng; e_sorts : Sorts; e_auc : sort_desc; e_goss : sort_abs_desc;
  e_pick : nat -> @pick_fn FS; e_shape : nat -> nat -> SplitShape }.

(** (data, y, sample_weight): gradientbooster.rs:27 *)
Definition EvalData : Type := Matrix F64 * list F64 * list F64.

(** gradientbooster.rs:461-488 *)
Definition splitter_of (p : Params) : Splitter :=
  let cm := match p_monotone_constraints p with Some m => m | None => [] end in
  let sp := mkSP (p_l1 p) (p_l2 p) (p_max_delta_step p) (p_gamma p) (p_min_leaf_weight p) (p_learning_rate p)
              (p_allow_missing_splits p) cm in
  if p_create_missing_branch p
  then Branch sp (p_terminate_missing_features p) (p_missing_node_treatment p) (p_force_children_to_bound_parent p)
  else Imputer sp.

(** gradientbooster.rs:493-509; returns also the gradients, changed in place by GOSS, and the
    number of uses of the generator *)
Definition sample_index (E : Env) (p : Params) (n : nat) (index : list nat) (grad hess : list F32)
  : option (list nat * list F32 * list F32 * nat) :=
  let r := e_rng E (p_seed p) in
  match p_sample_method p with
  | SNone => Some (index, grad, hess, n)
  | SRandom => let '(chosen, _, n) := random_sample r (p_subsample p) n index in Some (chosen, grad, hess, n)
  | SGoss => let* (used, _, grad, hess, n) := goss_sample (e_goss E) r (p_top_rate p) (p_other_rate p) n index grad hess in
             Some (used, grad, hess, n)
  end.

(** `v.sort()` on column numbers *)
Fixpoint insert_nat (x : nat) (l : list nat) : list nat :=
  match l with [] => [x] | y :: r => if x <=? y then x :: l else y :: insert_nat x r end.
Definition sort_nat (l : list nat) : list nat := fold_right insert_nat [] l.

(** gradientbooster.rs:586-605.  `(x).floor() as usize` is [ftonat] for the non-negative x here
    (and 0 for negative or NaN either way). *)
Definition column_sample (E : Env) (p : Params) (n : nat) (cols : nat) : list nat * nat :=
  if (p_colsample_bytree p =? fone f64)%f64 then (seq 0 cols, n)
  else
    let amount := ftonat f64 (fofnat f64 cols * p_colsample_bytree p)%f64 in
    (sort_nat (choose (e_rng E (p_seed p)) n amount (seq 0 cols)), S n).

(** gradientbooster.rs:511-520 *)
Definition get_metric (p : Params) : Metric :=
  match p_evaluation_metric p with Some m => m | None => default_metric (p_objective p) end.

(** `a.iter_mut().zip(b).for_each(|(i, j)| *i += j)` *)
Definition add_preds (yhat preds : list F64) : list F64 :=
  map (fun '(a, b) => (a + b)%f64) (combine yhat preds) ++ skipn (List.length preds) yhat.

(** tree.rs:434-440 *)
Definition tree_predict_any (parallel : bool) (sh : SplitShape) (nodes : list Node) (data : Matrix F64) (missing : F64)
  : option (list F64) :=
  if parallel then tree_predict_parallel sh nodes data missing else tree_predict nodes data missing.

(** gradientbooster.rs:711-714 *)
Definition update_predictions (p : Params) (sh : SplitShape) (yhat : list F64) (nodes : list Node) (data : Matrix F64)
  : option (list F64) :=
  let* preds := tree_predict_any (p_parallel p) sh nodes data (p_missing p) in
  Some (add_preds yhat preds).

(** gradientbooster.rs:522-527 *)
Definition reset (b : Booster) : Booster :=
  mkBooster (gb_params b) (gb_base_score b) None None None [] (gb_metadata b).

(** gradientbooster.rs:640-671, 706-709: the early stopping state (best_metric, best_iteration,
    prediction_iteration, stop_early) after metric [m] on the last evaluation set at iteration i. *)
Record Stop := mkStop { s_metric : option F64; s_best : option nat; s_pred : option nat; s_stop : bool }.
Definition early_stop (rounds : option nat) (maximize : bool) (i : nat) (m : F64) (s : Stop) : Stop :=
  match rounds with
  | None => s
  | Some r =>
      match s_metric s with
      | None => mkStop (Some m) (Some i) (Some (i + 1)) (s_stop s)
      | Some v =>
          if is_comparison_better v m maximize then mkStop (Some m) (Some i) (Some (i + 1)) (s_stop s)
          else mkStop (Some v) (s_best s) (s_pred s)
                 (match s_best s with Some bi => if r <=? i - bi then true else s_stop s | None => s_stop s end)
      end
  end.

(** gradientbooster.rs:630-673: the evaluation sets, each with its running predictions *)
Fixpoint eval_loop (E : Env) (p : Params) (nodes : list Node) (i j n : nat) (sets : list (EvalData * list F64)) (s : Stop)
  : option (list (EvalData * list F64) * list F64 * Stop) :=
  match sets with
  | [] => Some ([], [], s)
  | (d, yh) :: rest =>
      let '(data, y, w) := d in
      let* yh := update_predictions p (e_shape E i (S j)) yh nodes data in
      let* m := metric_fn (e_auc E) (get_metric p) y yh w in
      let s := if j + 1 =? n
               then early_stop (p_early_stopping_rounds p) (metric_maximize (get_metric p)) i m s else s in
      let* (rest, ms, s) := eval_loop E p nodes i (S j) n rest s in
      Some ((d, yh) :: rest, m :: ms, s)
  end.

(** What the loop of fit_trees carries. *)
Record Loop := mkLoop {
  l_booster : Booster; l_yhat : list F64; l_grad : list F32; l_hess : list F32;
  l_evals : option (list (EvalData * list F64)); l_best_metric : option F64; l_rng : nat; l_stop : bool }.

(** gradientbooster.rs:575-696: one iteration up to the push of the tree.  Logging is dropped. *)
Definition boost_step (E : Env) (data : Matrix F64) (y w : list F64) (bd : BinnedData) (i : nat) (l : Loop)
  : option Loop :=
  let b := l_booster l in
  let p := gb_params b in
  let* (chosen, grad, hess, n) := sample_index E p (l_rng l) (m_index data) (l_grad l) (l_hess l) in
  let '(cols, n) := column_sample E p n (m_cols data) in
  let* (nodes, _) := tree_fit (p_grow_policy p) (e_pick E i) (splitter_of p)
      (mkTrain (matrix_new (b_data bd) (m_rows data) (m_cols data)) (b_cuts bd) grad hess cols) chosen
      (p_max_leaves p) (p_max_depth p) (p_sample_method p) in
  let* yhat := update_predictions p (e_shape E i 0) (l_yhat l) nodes data in
  let* (hist, evals, s) :=
    (match l_evals l with
     | None => Some (gb_history b, None, mkStop (l_best_metric l) (gb_best b) (gb_pred b) (l_stop l))
     | Some sets =>
         let h := match gb_history b with Some h => h | None => mkRowMajor [] 0 (List.length sets) end in
         let* (sets, ms, s) := eval_loop E p nodes i 0 (List.length sets) sets
             (mkStop (l_best_metric l) (gb_best b) (gb_pred b) (l_stop l)) in
         let* h := r_append_row h ms in
         Some (Some h, Some sets, s)
     end) in
  let '(grad, hess) := (if s_stop s then (grad, hess) else calc_grad_hess (p_objective p) y yhat w) in
  Some (mkLoop (mkBooster p (gb_base_score b) hist (s_best s) (s_pred s) (gb_trees b ++ [nodes]) (gb_metadata b))
          yhat grad hess evals (s_metric s) n (s_stop s)).

(** gradientbooster.rs:575, 688-690: the iterations, left early when stop_early is set *)
Fixpoint boost_loop (E : Env) (data : Matrix F64) (y w : list F64) (bd : BinnedData) (is : list nat) (l : Loop)
  : option Loop :=
  match is with
  | [] => Some l
  | i :: rest =>
      let* l := boost_step E data y w bd i l in
      if l_stop l then Some l else boost_loop E data y w bd rest l
  end.

(** gradientbooster.rs:537-574: what precedes the loop *)
Definition fit_start (E : Env) (b : Booster) (data : Matrix F64) (y w : list F64) (evals : option (list EvalData))
  : option (BinnedData * Loop) :=
  let b := match gb_trees b with [] => b | _ => reset b end in
  let p := gb_params b in
  let* base := (if p_initialize_base_score p then calc_init (p_objective p) y w else Some (gb_base_score b)) in
  let b := mkBooster p base (gb_history b) (gb_best b) (gb_pred b) (gb_trees b) (gb_metadata b) in
  let yhat := repeat base (List.length y) in
  let '(grad, hess) := calc_grad_hess (p_objective p) y yhat w in
  let* bd := bin_matrix (e_sorts E) data w (p_nbins p) (p_missing p) in
  let sets := option_map (map (fun d : EvalData => (d, repeat base (List.length (snd (fst d)))))) evals in
  Some (bd, mkLoop b yhat grad hess sets None 0 false).

(** gradientbooster.rs:529-704 *)
Definition fit_trees (E : Env) (b : Booster) (data : Matrix F64) (y w : list F64) (evals : option (list EvalData))
  : option Booster :=
  let* (bd, l) := fit_start E b data y w evals in
  let* l := boost_loop E data y w bd (seq 0 (p_iterations (gb_params b))) l in
  Some (l_booster l).

(** gradientbooster.rs:443-454 *)
Fixpoint validate_evals (i : nat) (evals : list EvalData) : option ForustError :=
  match evals with
  | [] => None
  | (_, y, w) :: rest =>
      match validate_not_nan_vec y (FieldEvalY i) with
      | Some e => Some e
      | None => match validate_positive_not_nan_vec w (FieldEvalWeight i) with
                | Some e => Some e
                | None => validate_evals (S i) rest
                end
      end
  end.
Definition validate_inputs (y w : list F64) (evals : option (list EvalData)) : option ForustError :=
  match validate_not_nan_vec y FieldY with
  | Some e => Some e
  | None => match validate_positive_not_nan_vec w FieldWeight with
            | Some e => Some e
            | None => match evals with Some l => validate_evals 0 l | None => None end
            end
  end.

(** gradientbooster.rs:436-491.  The second component is the returned error, the first the booster afterwards. *)
Definition fit (E : Env) (b : Booster) (data : Matrix F64) (y w : list F64) (evals : option (list EvalData))
  : option (Booster * option ForustError) :=
  match validate_inputs y w evals with
  | Some e => Some (b, Some e)
  | None => let* b := fit_trees E b data y w evals in Some (b, None)
  end.

(** gradientbooster.rs:720-728 *)
Definition fit_unweighted (E : Env) (b : Booster) (data : Matrix F64) (y : list F64) (evals : option (list EvalData)) :=
  fit E b data y (repeat (fone f64) (m_rows data)) evals.

(** *** Prediction *)

(** gradientbooster.rs:836-839 *)
Definition prediction_trees (b : Booster) : option (list (list Node)) :=
  let n := match gb_pred b with Some n => n | None => List.length (gb_trees b) end in
  slice (gb_trees b) 0 n.

(** gradientbooster.rs:733-744; [shs k] is the schedule for tree k *)
Definition predict (shs : nat -> SplitShape) (b : Booster) (data : Matrix F64) (parallel : bool) : option (list F64) :=
  let* trees := prediction_trees b in
  foldM (fun acc '(k, nodes) =>
      let* preds := tree_predict_any parallel (shs k) nodes data (p_missing (gb_params b)) in
      Some (add_preds acc preds))
    (combine (seq 0 (List.length trees)) trees) (repeat (gb_base_score b) (m_rows data)).

(** gradientbooster.rs:747-752 *)
Definition predict_leaf_indices (shs : nat -> SplitShape) (b : Booster) (data : Matrix F64) : option (list nat) :=
  let* trees := prediction_trees b in
  let* ls := mapM (fun '(k, nodes) => tree_predict_leaf_indices (shs k) nodes data (p_missing (gb_params b)))
    (combine (seq 0 (List.length trees)) trees) in
  Some (List.concat ls).

(** The buffer of (cols+1) * rows zeros is cut into one chunk per row (chunks_mut /
    par_chunks_mut); the bias cell of every chunk starts at the given score. *)
Definition row_start (cols : nat) (bias : F64) : list F64 := repeat (fzero f64) cols ++ [(fzero f64 + bias)%f64].
Definition for_rows {A} (parallel : bool) (sh : SplitShape) (data : Matrix F64) (f : list F64 -> option (list A))
  : option (list A) :=
  let row i := let* r := m_get_row data i in f r in
  let* rows := (if parallel then par_map sh row (m_index data) else mapM row (m_index data)) in
  Some (List.concat rows).

(** gradientbooster.rs:777-832 *)
Definition row_method (m : ContributionsMethod) : option (list Node -> list F64 -> F64 -> list F64 -> option (list F64)) :=
  match m with
  | CWeight => Some contrib_weight
  | CBranchDifference => Some contrib_branch_difference
  | CMidpointDifference => Some contrib_midpoint_difference
  | CModeDifference => Some contrib_mode_difference
  | CShapley => Some contrib_shapley
  | CAverage | CProbabilityChange => None
  end.
Definition contrib_row_alone (b : Booster) (cols : nat)
    (f : list Node -> list F64 -> F64 -> list F64 -> option (list F64)) (row : list F64) : option (list F64) :=
  let* trees := prediction_trees b in
  foldM (fun c t => f t row (p_missing (gb_params b)) c) trees (row_start cols (gb_base_score b)).
Definition predict_contributions_tree_alone (sh : SplitShape) (b : Booster) (data : Matrix F64) (parallel : bool)
    (m : ContributionsMethod) : option (list F64) :=
  let* f := row_method m in
  for_rows parallel sh data (contrib_row_alone b (m_cols data) f).

(** gradientbooster.rs:845-900 *)
Definition contrib_row_average (b : Booster) (cols : nat) (weights : list (list F64)) (row : list F64) : option (list F64) :=
  let* trees := prediction_trees b in
  foldM (fun c '(t, w) => contrib_average t row w (p_missing (gb_params b)) c)
    (combine trees weights) (row_start cols (gb_base_score b)).
Definition predict_contributions_average (sh : SplitShape) (b : Booster) (data : Matrix F64) (parallel : bool)
  : option (list F64) :=
  let* trees := prediction_trees b in
  let* weights := (if parallel then par_map sh distribute_leaf_weights trees else mapM distribute_leaf_weights trees) in
  for_rows parallel sh data (contrib_row_average b (m_cols data) weights).

(** gradientbooster.rs:902-951 *)
Definition contrib_row_probability (b : Booster) (cols : nat) (row : list F64) : option (list F64) :=
  let* trees := prediction_trees b in
  let* (_, c) := foldM (fun '(acc, c) t => contrib_probability_change t row (p_missing (gb_params b)) acc c)
    trees (gb_base_score b, row_start cols (odds (gb_base_score b))) in
  Some c.
Definition predict_contributions_probability (sh : SplitShape) (b : Booster) (data : Matrix F64) (parallel : bool)
  : option (list F64) := for_rows parallel sh data (contrib_row_probability b (m_cols data)).

(** gradientbooster.rs:755-772 *)
Definition predict_contributions (sh : SplitShape) (b : Booster) (data : Matrix F64) (m : ContributionsMethod) (parallel : bool)
  : option (list F64) :=
  match m with
  | CAverage => predict_contributions_average sh b data parallel
  | CProbabilityChange =>
      match p_objective (gb_params b) with
      | LogLoss => predict_contributions_probability sh b data parallel
      | _ => None
      end
  | _ => predict_contributions_tree_alone sh b data parallel m
  end.

(** rayon's sum: the halves are summed independently and added *)
Fixpoint par_sum (sh : SplitShape) (l : list F64) : F64 :=
  match sh with
  | Seq => fsum f64 l
  | SplitAt k a b => (par_sum a (firstn k l) + par_sum b (skipn k l))%f64
  end.

(** gradientbooster.rs:958-971 *)
Definition value_partial_dependence (sh : SplitShape) (b : Booster) (feature : nat) (value : F64) : option F64 :=
  let* trees := prediction_trees b in
  let* pds := mapM (fun t => tree_value_partial_dependence t feature value (p_missing (gb_params b))) trees in
  Some ((if p_parallel (gb_params b) then par_sum sh pds else fsum f64 pds) + gb_base_score b)%f64.

(** gradientbooster.rs:1009-1012: ascending sort of the values.  The unwrap of partial_cmp panics on
    a NaN as soon as there is something to compare it with. *)
Fixpoint insert_f32 (x : F32) (l : list F32) : list F32 :=
  match l with [] => [x] | y :: r => if (y <? x)%f32 then y :: insert_f32 x r else x :: l end.
Definition sort_f32 (l : list F32) : option (list F32) :=
  if (1 <? List.length l) && existsb (fisnan f32) l then None else Some (fold_right insert_f32 [] l).

(** gradientbooster.rs:982-988 *)
Definition importance_stat (m : ImportanceMethod) : bool * (Node -> F32) :=
  match m with
  | IWeight => (false, fun _ => fone f32)
  | IGain => (true, n_split_gain) | ITotalGain => (false, n_split_gain)
  | ICover => (true, n_hess) | ITotalCover => (false, n_hess)
  end.

(** gradientbooster.rs:989-992 *)
Definition all_stats (stat : Node -> F32) (trees : list (list Node)) : option Stats :=
  foldM (fun s t => node_stats (List.length t) stat t 0 s) trees [].

(** gradientbooster.rs:977-1017 *)
Definition calculate_feature_importance (b : Booster) (m : ImportanceMethod) (normalize : bool)
  : option (list (nat * F32)) :=
  let '(average, stat) := importance_stat m in
  let* stats := all_stats stat (gb_trees b) in
  let imp := map (fun '(k, (v, c)) => (k, if average : bool then (v / fofnat f32 c)%f32 else v)) stats in
  if normalize then
    let* sorted := sort_f32 (map snd imp) in
    let total := fsum f32 sorted in
    Some (map (fun '(k, v) => (k, (v / total)%f32)) imp)
  else Some imp.

(** *** Setters and metadata: gradientbooster.rs:1142-1147, 1236-1239, 1257-1265.  The other setters
    replace one field of [Params] and are covered by quantifying over [Params]. *)
Definition set_base_score (b : Booster) (v : F64) : Booster :=
  mkBooster (gb_params b) v (gb_history b) (gb_best b) (gb_pred b) (gb_trees b) (gb_metadata b).
Definition set_params (b : Booster) (p : Params) : Booster :=
  mkBooster p (gb_base_score b) (gb_history b) (gb_best b) (gb_pred b) (gb_trees b) (gb_metadata b).
Definition set_prediction_iteration (b : Booster) (i : option nat) : Booster :=
  mkBooster (gb_params b) (gb_base_score b) (gb_history b) (gb_best b) (option_map S i) (gb_trees b) (gb_metadata b).
Fixpoint map_insert (k v : string) (l : list (string * string)) : list (string * string) :=
  match l with
  | [] => [(k, v)]
  | (k', v') :: r => if String.eqb k k' then (k, v) :: r else (k', v') :: map_insert k v r
  end.
Fixpoint map_get (k : string) (l : list (string * string)) : option string :=
  match l with [] => None | (k', v) :: r => if String.eqb k k' then Some v else map_get k r end.
Definition insert_metadata (b : Booster) (k v : string) : Booster :=
  mkBooster (gb_params b) (gb_base_score b) (gb_history b) (gb_best b) (gb_pred b) (gb_trees b)
    (map_insert k v (gb_metadata b)).
Definition get_metadata (b : Booster) (k : string) : option string := map_get k (gb_metadata b).
End Booster.
