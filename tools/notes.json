{
 "C01": {
  "note": "IEEE, any sort; refuted for values above f64::MAX (+inf)."
 },
 "C02": {
  "note": "IEEE; needs a positive weight in the column; refuted when all weights of a column are zero."
 },
 "C03": {
  "note": "IEEE."
 },
 "C04": {
  "note": "IEEE; holds up to nbins = 65534, refuted at 65535."
 },
 "C05": {
  "note": "Exact arithmetic."
 },
 "C06": {
  "note": "Holds when some row goes right; refuted when all rows go left (last row misplaced); empty slice panics."
 },
 "C07": {
  "note": "Any arithmetic (integer code)."
 },
 "C08": {
  "note": "IEEE for the sums in row order; exact for the totals."
 },
 "C09": {
  "note": "Exact arithmetic."
 },
 "C10": {
  "note": "Histogram construction under every rayon schedule; tree prediction see C10 theorems in PropPredict."
 },
 "C11": {
  "note": "Any arithmetic."
 },
 "C12": {
  "note": "Any arithmetic."
 },
 "C13": {
  "note": "Any arithmetic."
 },
 "C14": {
  "note": "Any arithmetic; the bound max(1, max_leaves) is refuted by a run with max_leaves = 2 giving 3 leaves."
 },
 "C15": {
  "note": "Any arithmetic."
 },
 "C16": {
  "note": "IEEE."
 },
 "C17": {
  "note": "IEEE."
 },
 "C18": {
  "note": "IEEE."
 },
 "C19": {
  "note": "Any arithmetic."
 },
 "C20": {
  "note": "Exact arithmetic. C106 gives the floating-point version for integer hessians."
 },
 "C21": {
  "note": "Exact arithmetic. C106 gives the floating-point version for integer hessians."
 },
 "C22": {
  "note": "Exact arithmetic."
 },
 "C57": {
  "note": "Any arithmetic."
 },
 "C59": {
  "note": "IEEE."
 },
 "C60": {
  "note": "Exact arithmetic; C105 is the floating-point version."
 },
 "C61": {
  "note": "Exact arithmetic."
 },
 "C46": {
  "note": "Exact arithmetic, every order of tied scores."
 },
 "C47": {
  "note": "Exact arithmetic."
 },
 "C48": {
  "note": "IEEE."
 },
 "C49": {
  "note": "Exact arithmetic; row-wise in any arithmetic."
 },
 "C50": {
  "note": "Exact arithmetic."
 },
 "C51": {
  "note": "Any arithmetic and generator; the extremes in IEEE for generators drawing from [0,1)."
 },
 "C52": {
  "note": "Any arithmetic and generator. C52_goss_rate says which of the other rows are kept: one draw per row below floor(other_rate*n)/(n-floor(top_rate*n))."
 },
 "C28": {
  "note": "Any float arithmetic; leaves come from predict_leaf_indices."
 },
 "C29": {
  "note": "Any arithmetic: predictions, leaf indices and contributions (all seven methods)."
 },
 "C30": {
  "note": "Any float arithmetic; the random generator only has to pick columns that exist. The Shapley method is covered, in exact arithmetic, by C36_shapley_values."
 },
 "C31": {
  "note": "Second theorem: tree k is grown on the gradients at the prediction of the first k trees."
 },
 "C41": {
  "note": "IEEE arithmetic."
 },
 "C42": {
  "note": "Any float arithmetic."
 },
 "C43": {
  "note": "Any float arithmetic."
 },
 "C44": {
  "note": "The two refutations show what the statement excludes: a prediction_iteration set by the user before the first fit survives and can make prediction panic; an empty list of evaluation sets makes fit panic."
 },
 "C45": {
  "note": "IEEE arithmetic for the rejection test."
 },
 "C32": {
  "note": "Sum in exact arithmetic for models with finite node weights; every cell in any arithmetic."
 },
 "C33": {
  "note": "Sum in exact arithmetic for finite weights and covers, inner covers nonzero; cells and the average recursion in any arithmetic."
 },
 "C34": {
  "note": "Sum in exact arithmetic for finite weights; feature cells in any arithmetic."
 },
 "C37": {
  "note": "Any arithmetic; bias is 0 + base_score (differs from base_score only in the sign of zero)."
 },
 "C38": {
  "note": "Exact arithmetic, finite weights and covers, nonzero child covers."
 },
 "C39": {
  "note": "Exact arithmetic for totals and normalisation (nonzero total); any arithmetic for the raw values; normalising panics on a NaN value."
 },
 "C40": {
  "note": "Any arithmetic; the order and depth of lines, not the text of a line."
 },
 "C58": {
  "note": "Any arithmetic."
 },
 "C23": {
  "note": "IEEE and exact arithmetic, whole models."
 },
 "C24": {
  "note": "IEEE and exact arithmetic, whole models; the refutation is a run with one constrained and one unconstrained column."
 },
 "C25": {
  "note": "Bracketing in IEEE; absence of aborts in exact arithmetic; the refutation is an aborting run with one of two columns constrained."
 },
 "C26": {
  "note": "Any arithmetic for the missing branch, AssignToParent and AverageLeafWeight (averages rounded as the code rounds them); IEEE for AverageNodeWeight and None; the average formula also in exact arithmetic."
 },
 "C27": {
  "note": "Exact arithmetic. MissDir.fit_missing_side covers l1 >= 0 and finite max_delta_step with the gains the code uses."
 },
 "C35": {
  "note": "Exact arithmetic. Covers of inner nodes finite and nonzero, node weights finite."
 },
 "C36": {
  "note": "Exact arithmetic, game and Shapley value defined independently of the path algorithm; the theorem also says the call does not panic."
 },
 "C53": {
  "note": "Any Floats instance. A saved model loads again exactly when every float other than `missing` is finite (C53_loads_iff_finite); then all fields come back (C53_round_trip) and all predictions agree (C53_same_answers). As stated for every model it is false: a log-loss model trained on labels without positives and initialize_base_score saves base_score null and does not load (C53_trained_model_does_not_load_refuted); missing = infinity comes back as NaN (C53_infinite_missing_refuted). JSON is a value tree; serde_json's text layer and float printing are a quantified codec."
 },
 "C54": {
  "note": "Any Floats instance, any JSON value that loads, any subset of the defaulted members."
 },
 "C62": {
  "note": "Exact arithmetic [X]. Hypotheses are the records sound_params, sound_data, sound_env, sound_evals of BoostX.v; the base score must be finite, which C62_base_score gives for initialize_base_score. C62_empty_evals (any Floats) shows that Some [] as evaluation sets always panics when iterations > 0 (data.rs:208 takes a remainder by 0 columns). C105 gives completion (not finiteness) in floating point."
 },
 "C63": {
  "note": "Exact arithmetic [X]. C63_tree_never_raises_loss is the step, C63_loss_never_increases any two prefixes."
 },
 "C64": {
  "note": "Exact arithmetic [X]: overflow of f32/f64 is outside this statement."
 },
 "C65": {
  "note": "Any Floats with the order laws of Float.v (both instances have them)."
 },
 "C66": {
  "note": "Any Floats. `unwatched` erases iterations, parallel, metric, early stopping rounds and log_iterations; everything else must agree. Both fits are assumed to succeed."
 },
 "C67": {
  "note": "Any Floats. The generator's choose_multiple is assumed to return distinct elements, as many as asked for (RngSpec)."
 },
 "C68": {
  "note": "Any Floats."
 },
 "C69": {
  "note": "Any Floats. The HashMap is an association list; its iteration order is not observable here."
 },
 "C70": {
  "note": "Any Floats with the order laws, so also IEEE. Assumes that the standard sorts only compare (two lists in the same order are permuted alike) and that the choice among equal gains in the loss-guided heap looks at node numbers and gains only. Contributions are not covered."
 },
 "C71": {
  "note": "The serde side is the name table of Serde.v."
 },
 "C72": {
  "note": "Exact arithmetic, no row sampling, positive weights, finite non-missing cells, finite base score; the two runs may sort equal values differently but share generator, heap choice and schedule. The equality covers panics and validation errors. With rounding it is false already for reordering: C72_row_order_rounding_refuted (base score of 1e16, 1, -1e16)."
 },
 "C73": {
  "note": "Refuted on the IEEE instance: rows 1 and 5 against rows 1, 5 and a row 3 of weight zero; the threshold moves from 5 to 3 and the two models answer 4 differently. No arithmetic is to blame: percentiles_or_value collects the distinct values before looking at weights."
 },
 "C74": {
  "note": "Exact arithmetic. Equality of whole runs, panics and validation errors included; the changed model is written out field by field in PropSymmetry (in_unit, model_in_unit). The two library sorts (loss-guide heap, GOSS) are assumed to look at their keys only through comparisons; finite targets and weights when the base score comes from the data. False with rounding: C74_shift_rounding_refuted (adding 2^60), C74_unit_rounding_refuted (multiplying by 2^-200, exact in binary64, but gradients are narrowed to binary32)."
 },
 "C75": {
  "note": "Exact arithmetic. Equality of whole runs, panics and validation errors included. AUC as metric not covered."
 },
 "C76": {
  "note": "IEEE arithmetic, any libm; equal up to the sign of zeros. Base score taken from the data, no evaluation sets; depth-wise growth (the loss-guide heap compares gains with total_cmp, which tells zeros apart) and no constraints (the midpoint of two bounds may overflow). C76_forced_bounds_refuted: with force_children_to_bound_parent, targets 1, 1, 4 give predictions 1, 2, 4 but targets -1, -1, -4 give -2, -1, -4."
 },
 "C77": {
  "note": "Any arithmetic. Model of the Python class in PyWrap.v; leaf sums need well formed trees, which C11 gives for every fitted tree."
 },
 "C78": {
  "note": "Any arithmetic. Refutations: C78_failed_fit_keeps_columns_refuted (a NaN target and swapped columns: ValueError, trees as before, but the frame the trees were trained on is refused from then on), C78_refit_on_array_refuted (fit on a frame with one column, then on an array with two: importances raise KeyError)."
 },
 "C79": {
  "note": "Any arithmetic in which widening a single precision number and rounding it back returns it (proved for IEEE: FloatConv.to32_to64). The metadata text codec (json.dumps, json.loads of names and numbers) and the float codec are assumed to read back what they wrote; both are exhibited in the example."
 },
 "C80": {
  "note": "Positive half for objects without constraints and terminating features. C80_refit_after_load_refuted: two named columns, one constrained; the loaded object answers alike but its next fit on the same frame raises KeyError. C80_constraints_survive_refuted: saved before the first fit, the constraints are gone."
 },
 "C81": {
  "note": "Any arithmetic."
 },
 "C82": {
  "note": "Any arithmetic. The clone's fit succeeds with a model if and only if a fresh object's fit succeeds with the same model. C82_set_params_is_new_refuted: after set_params a frame with other columns is refused."
 },
 "C83": {
  "note": "Any arithmetic. Refutations: C83_misspelt_options_refuted, C83_lower_case_refuted."
 },
 "C84": {
  "note": "Any arithmetic whose binary64 order obeys the laws proved for both instances. The samples argument (numpy.quantile) is not modelled."
 },
 "C85": {
  "note": "Any arithmetic."
 },
 "C86": {
  "note": "Any arithmetic. C86_columns gives the remaining columns. Refutation: C86_refit_on_array_refuted (stale column names)."
 },
 "C87": {
  "note": "Any arithmetic in which widening keeps the order, proved for IEEE (C87_widening). Reading a written number as single precision is any function rd. Refutations: C87_without_names_refuted, C87_plain_booster_refuted, C87_double_precision_refuted, C87_names_saved_refuted."
 },
 "C88": {
  "note": "Element values and dtype text are taken to survive json. Refutation: C88_quotes_refuted."
 },
 "C89": {
  "note": "Any arithmetic; lives in which no prediction iteration was set before the first fit."
 },
 "C90": {
  "note": "IEEE and exact arithmetic. Refutation without the hypothesis on the other columns: C90_one_column_refuted."
 },
 "C91": {
  "note": "Any arithmetic. Constraint keys are distinct, as in a Python dictionary."
 },
 "C92": {
  "note": "Any arithmetic; at least one tree."
 },
 "C93": {
  "note": "No arithmetic involved."
 },
 "C94": {
  "note": "Exact arithmetic, sound inputs (as in C62). The bound on the leaves is for fits without a missing branch. C94_rounding_refuted: in floating point a leaf with enough recorded weight may be reached by no training row. C106 gives the floating-point version for integer hessians."
 },
 "C95": {
  "note": "Exact arithmetic, sound inputs (as in C62); the hypotheses of C32, C33, C35, C36, C38 and C39 on the trees are discharged for fitted models."
 },
 "C96": {
  "note": "The parts on predictions, leaf indices, contributions, partial dependence and importances hold in any arithmetic, hence with rounding. The part on constant columns is exact arithmetic, sound inputs, by C94."
 },
 "C97": {
  "note": "IEEE arithmetic. Histograms of the two columns stay equal bin by bin through every subtraction, so that every candidate on the copy has an earlier one of the same gain."
 },
 "C98": {
  "note": "Any arithmetic, hence with rounding."
 },
 "C99": {
  "note": "Exact arithmetic; the refutation for L2 = 1 is a run on IEEE numbers."
 },
 "C100": {
  "note": "Exact arithmetic; the refutation for two trees is a run on IEEE numbers."
 },
 "C101": {
  "note": "Any arithmetic. The text of a floating point number is quantified; Rust prints the shortest decimal that reads back, which is injective. The refutation is a pair of models on IEEE numbers."
 },
 "C102": {
  "note": "Any arithmetic; for gamma IEEE single precision."
 },
 "C103": {
  "note": "Simulation of the two trainings. The heap of the loss guided policy is assumed to compare gains only, as in C70."
 },
 "C104": {
  "note": "Proved for IEEE arithmetic and any standard-library sort that meets its contract; fit_constant is the statement for any arithmetic with 0 = 0, 0 + 0 = 0 - 0 = 0. C104_missing_used_refuted is the remaining combination of options."
 },
 "C105": {
  "note": "Proved for IEEE arithmetic; the lemmas are for any arithmetic with 0 = 0 and 0 + 0 = 0 (ZeroLaws). The key invariant is that a node without rows has an all-zero histogram. Hypotheses are the records able_params, able_data, able_env, able_evals of FitAny.v. Unlike C60 and C62 (exact arithmetic) nothing is asked of labels, weights, gradients or regularisation. C105_top_rate discharges the GOSS hypothesis for a top_rate between 0 and 1 and up to 2^53 rows."
 },
 "C106": {
  "note": "IEEE versions of C20, C21 and C94 for hessians that are integers. The lemmas are for any arithmetic in which integers up to T are exact (CountLaws); CountI.v proves that of binary32 and binary64 with T = 2^24. LogLoss hessians and fractional weights are not covered (C94_rounding_refuted uses weights up to 2^24 whose total exceeds it)."
 },
 "C107": {
  "note": "For fits that return (C62, C105). subsample = 1 with random sampling is refuted as a neutral setting: the totals of the root are added in another order."
 },
 "C108": {
  "note": "Exact arithmetic, equality of whole tables, panics included. The tables are described cell by cell (cells in PropExplain). ProbabilityChange with squared loss panics before and after."
 },
 "C109": {
  "note": "Exact arithmetic; follows from the pair count of C46. C109_weight_unit_rounding_refuted: the products of the weights overflow in binary64."
 }
}