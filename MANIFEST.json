{
 "claims": [
  {
   "property": "C01",
   "status": "proved",
   "theorems": [
    "C01_binned_split_agrees",
    "C01_infinity_refuted"
   ],
   "note": "IEEE, any sort; refuted for values above f64::MAX (+inf)."
  },
  {
   "property": "C02",
   "status": "proved",
   "theorems": [
    "C02_bin_zero_iff_missing",
    "C02_zero_weights_refuted"
   ],
   "note": "IEEE; needs a positive weight in the column; refuted when all weights of a column are zero."
  },
  {
   "property": "C03",
   "status": "proved",
   "theorems": [
    "C03_cuts"
   ],
   "note": "IEEE."
  },
  {
   "property": "C04",
   "status": "proved",
   "theorems": [
    "C04_bin_matrix_total",
    "C04_bin_matrix_overflow",
    "C04_bin_overflow_refuted"
   ],
   "note": "IEEE; holds up to nbins = 65534, refuted at 65535."
  },
  {
   "property": "C05",
   "status": "proved",
   "theorems": [
    "C05_percentiles_quantiles",
    "C05_bin_cuts_quantiles"
   ],
   "note": "Exact arithmetic."
  },
  {
   "property": "C06",
   "status": "proved",
   "theorems": [
    "C06_two_way_partition",
    "C06_all_left_refuted",
    "C06_empty_panics"
   ],
   "note": "Holds when some row goes right; refuted when all rows go left (last row misplaced); empty slice panics."
  },
  {
   "property": "C07",
   "status": "proved",
   "theorems": [
    "C07_three_way_partition",
    "C07_permutes"
   ],
   "note": "Any arithmetic (integer code)."
  },
  {
   "property": "C08",
   "status": "proved",
   "theorems": [
    "C08_histogram",
    "C08_histogram_exact"
   ],
   "note": "IEEE for the sums in row order; exact for the totals."
  },
  {
   "property": "C09",
   "status": "proved",
   "theorems": [
    "C09_subtract_one",
    "C09_subtract_two"
   ],
   "note": "Exact arithmetic."
  },
  {
   "property": "C10",
   "status": "proved",
   "theorems": [
    "C10_histogram_parallel",
    "C10_parallel_fit",
    "C10_parallel_predict",
    "C10_parallel_leaf_indices",
    "C10_parallel_contributions"
   ],
   "note": "Histogram construction under every rayon schedule; tree prediction see C10 theorems in PropPredict."
  },
  {
   "property": "C11",
   "status": "proved",
   "theorems": [
    "C11_well_formed"
   ],
   "note": "Any arithmetic."
  },
  {
   "property": "C12",
   "status": "proved",
   "theorems": [
    "C12_max_depth"
   ],
   "note": "Any arithmetic."
  },
  {
   "property": "C13",
   "status": "proved",
   "theorems": [
    "C13_max_leaves"
   ],
   "note": "Any arithmetic."
  },
  {
   "property": "C14",
   "status": "proved",
   "theorems": [
    "C14_max_leaves_branch",
    "C14_max_leaves_branch_refuted"
   ],
   "note": "Any arithmetic; the bound max(1, max_leaves) is refuted by a run with max_leaves = 2 giving 3 leaves."
  },
  {
   "property": "C15",
   "status": "proved",
   "theorems": [
    "C15_min_leaf_weight"
   ],
   "note": "Any arithmetic."
  },
  {
   "property": "C16",
   "status": "proved",
   "theorems": [
    "C16_gamma"
   ],
   "note": "IEEE."
  },
  {
   "property": "C17",
   "status": "proved",
   "theorems": [
    "C17_split_cut"
   ],
   "note": "IEEE."
  },
  {
   "property": "C18",
   "status": "proved",
   "theorems": [
    "C18_best_split",
    "C18_no_split",
    "C18_tree_splits"
   ],
   "note": "IEEE."
  },
  {
   "property": "C19",
   "status": "proved",
   "theorems": [
    "C19_rows_tiled"
   ],
   "note": "Any arithmetic."
  },
  {
   "property": "C20",
   "status": "proved",
   "theorems": [
    "C20_routes"
   ],
   "note": "Exact arithmetic. C106 gives the floating-point version for integer hessians."
  },
  {
   "property": "C21",
   "status": "proved",
   "theorems": [
    "C21_cover"
   ],
   "note": "Exact arithmetic. C106 gives the floating-point version for integer hessians."
  },
  {
   "property": "C22",
   "status": "proved",
   "theorems": [
    "C22_weight_optimal",
    "C22_gain",
    "C22_gain_given_weight"
   ],
   "note": "Exact arithmetic."
  },
  {
   "property": "C23",
   "status": "proved",
   "theorems": [
    "C23_max_delta_step",
    "C23_max_delta_step_exact"
   ],
   "note": "IEEE and exact arithmetic, whole models."
  },
  {
   "property": "C24",
   "status": "proved",
   "theorems": [
    "C24_monotone",
    "C24_monotone_below",
    "C24_monotone_exact",
    "C24_monotone_refuted"
   ],
   "note": "IEEE and exact arithmetic, whole models; the refutation is a run with one constrained and one unconstrained column."
  },
  {
   "property": "C25",
   "status": "proved",
   "theorems": [
    "C25_brackets",
    "C25_no_abort",
    "C25_abort_refuted"
   ],
   "note": "Bracketing in IEEE; absence of aborts in exact arithmetic; the refutation is an aborting run with one of two columns constrained."
  },
  {
   "property": "C26",
   "status": "proved",
   "theorems": [
    "C26_missing_weight",
    "C26_missing_branch",
    "C26_average_leaf_weight",
    "C26_average_formula"
   ],
   "note": "Any arithmetic for the missing branch, AssignToParent and AverageLeafWeight (averages rounded as the code rounds them); IEEE for AverageNodeWeight and None; the average formula also in exact arithmetic."
  },
  {
   "property": "C27",
   "status": "proved",
   "theorems": [
    "C27_missing_side",
    "C27_missing_right_by_default"
   ],
   "note": "Exact arithmetic. MissDir.fit_missing_side covers l1 >= 0 and finite max_delta_step with the gains the code uses."
  },
  {
   "property": "C28",
   "status": "proved",
   "theorems": [
    "C28_prediction_is_leaf_sum"
   ],
   "note": "Any float arithmetic; leaves come from predict_leaf_indices."
  },
  {
   "property": "C29",
   "status": "proved",
   "theorems": [
    "C29_row_alone_contributions",
    "C29_row_alone_predict",
    "C29_row_alone_leaves"
   ],
   "note": "Any arithmetic: predictions, leaf indices and contributions (all seven methods)."
  },
  {
   "property": "C30",
   "status": "proved",
   "theorems": [
    "C30_contributions_total",
    "C30_fitted_predicts",
    "C30_clean"
   ],
   "note": "Any float arithmetic; the random generator only has to pick columns that exist. The Shapley method is covered, in exact arithmetic, by C36_shapley_values."
  },
  {
   "property": "C31",
   "status": "proved",
   "theorems": [
    "C31_history_is_metric",
    "C31_trees_follow_predictions"
   ],
   "note": "Second theorem: tree k is grown on the gradients at the prediction of the first k trees."
  },
  {
   "property": "C32",
   "status": "proved",
   "theorems": [
    "C32_C33_cells",
    "C32_weight_sums"
   ],
   "note": "Sum in exact arithmetic for models with finite node weights; every cell in any arithmetic."
  },
  {
   "property": "C33",
   "status": "proved",
   "theorems": [
    "C32_C33_cells",
    "C33_average",
    "C33_average_sums"
   ],
   "note": "Sum in exact arithmetic for finite weights and covers, inner covers nonzero; cells and the average recursion in any arithmetic."
  },
  {
   "property": "C34",
   "status": "proved",
   "theorems": [
    "C34_cells",
    "C34_probability_sums"
   ],
   "note": "Sum in exact arithmetic for finite weights; feature cells in any arithmetic."
  },
  {
   "property": "C35",
   "status": "proved",
   "theorems": [
    "C35_shapley_sums"
   ],
   "note": "Exact arithmetic. Covers of inner nodes finite and nonzero, node weights finite."
  },
  {
   "property": "C36",
   "status": "proved",
   "theorems": [
    "C36_shapley_values",
    "C36_shapley_spelled",
    "C36_subsets",
    "C36_all_subsets",
    "C36_subsets_once",
    "C36_coalition"
   ],
   "note": "Exact arithmetic, game and Shapley value defined independently of the path algorithm; the theorem also says the call does not panic."
  },
  {
   "property": "C37",
   "status": "proved",
   "theorems": [
    "C37_difference_contributions",
    "C37_missing_branch_adds_nothing"
   ],
   "note": "Any arithmetic; bias is 0 + base_score (differs from base_score only in the sign of zero)."
  },
  {
   "property": "C38",
   "status": "proved",
   "theorems": [
    "C38_partial_dependence",
    "C38_between_leaves",
    "C38_unused_feature"
   ],
   "note": "Exact arithmetic, finite weights and covers, nonzero child covers."
  },
  {
   "property": "C39",
   "status": "proved",
   "theorems": [
    "C39_importance",
    "C39_normalised",
    "C39_importance_exact"
   ],
   "note": "Exact arithmetic for totals and normalisation (nonzero total); any arithmetic for the raw values; normalising panics on a NaN value."
  },
  {
   "property": "C40",
   "status": "proved",
   "theorems": [
    "C40_dump"
   ],
   "note": "Any arithmetic; the order and depth of lines, not the text of a line."
  },
  {
   "property": "C41",
   "status": "proved",
   "theorems": [
    "C41_early_stopping"
   ],
   "note": "IEEE arithmetic."
  },
  {
   "property": "C42",
   "status": "proved",
   "theorems": [
    "C42_refit_forgets"
   ],
   "note": "Any float arithmetic."
  },
  {
   "property": "C43",
   "status": "proved",
   "theorems": [
    "C43_rejects_bad_inputs"
   ],
   "note": "Any float arithmetic."
  },
  {
   "property": "C44",
   "status": "proved",
   "theorems": [
    "C44_tree_count",
    "C44_user_iteration_survives_refuted",
    "C44_no_evaluation_sets_panics_refuted"
   ],
   "note": "The two refutations show what the statement excludes: a prediction_iteration set by the user before the first fit survives and can make prediction panic; an empty list of evaluation sets makes fit panic."
  },
  {
   "property": "C45",
   "status": "proved",
   "theorems": [
    "C45_new_is_empty",
    "C45_new_validates"
   ],
   "note": "IEEE arithmetic for the rejection test."
  },
  {
   "property": "C46",
   "status": "proved",
   "theorems": [
    "C46_auc_is_pair_share",
    "C46_auc_row_order",
    "C46_auc_no_rows"
   ],
   "note": "Exact arithmetic, every order of tied scores."
  },
  {
   "property": "C47",
   "status": "proved",
   "theorems": [
    "C47_log_loss",
    "C47_rmse",
    "C47_rmsle",
    "C47_invariant"
   ],
   "note": "Exact arithmetic."
  },
  {
   "property": "C48",
   "status": "proved",
   "theorems": [
    "C48_strict_order",
    "C48_nan_worst"
   ],
   "note": "IEEE."
  },
  {
   "property": "C49",
   "status": "proved",
   "theorems": [
    "C49_derivatives",
    "C49_rowwise"
   ],
   "note": "Exact arithmetic; row-wise in any arithmetic."
  },
  {
   "property": "C50",
   "status": "proved",
   "theorems": [
    "C50_base_score_zero_gradient"
   ],
   "note": "Exact arithmetic."
  },
  {
   "property": "C51",
   "status": "proved",
   "theorems": [
    "C51_random_splits_rows",
    "C51_random_extremes"
   ],
   "note": "Any arithmetic and generator; the extremes in IEEE for generators drawing from [0,1)."
  },
  {
   "property": "C52",
   "status": "proved",
   "theorems": [
    "C52_goss",
    "C52_goss_rate",
    "C52_excluded_empty",
    "C52_top_rate_panics"
   ],
   "note": "Any arithmetic and generator. C52_goss_rate says which of the other rows are kept: one draw per row below floor(other_rate*n)/(n-floor(top_rate*n))."
  },
  {
   "property": "C53",
   "status": "proved",
   "theorems": [
    "C53_round_trip",
    "C53_same_answers",
    "C53_loads_iff_finite",
    "C53_missing",
    "C53_trained_model_does_not_load_refuted",
    "C53_infinite_missing_refuted"
   ],
   "note": "Any Floats instance. A saved model loads again exactly when every float other than `missing` is finite (C53_loads_iff_finite); then all fields come back (C53_round_trip) and all predictions agree (C53_same_answers). As stated for every model it is false: a log-loss model trained on labels without positives and initialize_base_score saves base_score null and does not load (C53_trained_model_does_not_load_refuted); missing = infinity comes back as NaN (C53_infinite_missing_refuted). JSON is a value tree; serde_json's text layer and float printing are a quantified codec."
  },
  {
   "property": "C54",
   "status": "proved",
   "theorems": [
    "C54_defaults",
    "C54_old_dump",
    "C54_like_saved"
   ],
   "note": "Any Floats instance, any JSON value that loads, any subset of the defaulted members."
  },
  {
   "property": "C55",
   "status": "proved",
   "theorems": [
    "C55_column_major",
    "C55_append_row",
    "C55_append_row_total",
    "C55_jagged"
   ],
   "note": ""
  },
  {
   "property": "C56",
   "status": "proved",
   "theorems": [
    "C56_fast_sum",
    "C56_fast_f64_sum",
    "C56_naive_sum"
   ],
   "note": ""
  },
  {
   "property": "C57",
   "status": "proved",
   "theorems": [
    "C57_turns",
    "C57_size",
    "C57_fails_only_by_panic"
   ],
   "note": "Any arithmetic."
  },
  {
   "property": "C58",
   "status": "proved",
   "theorems": [
    "C58_child",
    "C58_missing_pattern",
    "C58_path_follows",
    "C58_nan_rejected"
   ],
   "note": "Any arithmetic."
  },
  {
   "property": "C59",
   "status": "proved",
   "theorems": [
    "C59_leaves_done"
   ],
   "note": "IEEE."
  },
  {
   "property": "C60",
   "status": "proved",
   "theorems": [
    "C60_never_panics"
   ],
   "note": "Exact arithmetic; C105 is the floating-point version."
  },
  {
   "property": "C61",
   "status": "proved",
   "theorems": [
    "C61_values"
   ],
   "note": "Exact arithmetic."
  },
  {
   "property": "C62",
   "status": "proved",
   "theorems": [
    "C62_fit_completes",
    "C62_base_score",
    "C62_empty_evals"
   ],
   "note": "Exact arithmetic [X]. Hypotheses are the records sound_params, sound_data, sound_env, sound_evals of BoostX.v; the base score must be finite, which C62_base_score gives for initialize_base_score. C62_empty_evals (any Floats) shows that Some [] as evaluation sets always panics when iterations > 0 (data.rs:208 takes a remainder by 0 columns). C105 gives completion (not finiteness) in floating point."
  },
  {
   "property": "C63",
   "status": "proved",
   "theorems": [
    "C63_tree_never_raises_loss",
    "C63_loss_never_increases"
   ],
   "note": "Exact arithmetic [X]. C63_tree_never_raises_loss is the step, C63_loss_never_increases any two prefixes."
  },
  {
   "property": "C64",
   "status": "proved",
   "theorems": [
    "C64_predictions_finite"
   ],
   "note": "Exact arithmetic [X]: overflow of f32/f64 is outside this statement."
  },
  {
   "property": "C65",
   "status": "proved",
   "theorems": [
    "C65_metric_direction"
   ],
   "note": "Any Floats with the order laws of Float.v (both instances have them)."
  },
  {
   "property": "C66",
   "status": "proved",
   "theorems": [
    "C66_watching"
   ],
   "note": "Any Floats. `unwatched` erases iterations, parallel, metric, early stopping rounds and log_iterations; everything else must agree. Both fits are assumed to succeed."
  },
  {
   "property": "C67",
   "status": "proved",
   "theorems": [
    "C67_columns"
   ],
   "note": "Any Floats. The generator's choose_multiple is assumed to return distinct elements, as many as asked for (RngSpec)."
  },
  {
   "property": "C68",
   "status": "proved",
   "theorems": [
    "C68_unweighted"
   ],
   "note": "Any Floats."
  },
  {
   "property": "C69",
   "status": "proved",
   "theorems": [
    "C69_metadata",
    "C69_metadata_inert"
   ],
   "note": "Any Floats. The HashMap is an association list; its iteration order is not observable here."
  },
  {
   "property": "C70",
   "status": "proved",
   "theorems": [
    "C70_recoding"
   ],
   "note": "Any Floats with the order laws, so also IEEE. Assumes that the standard sorts only compare (two lists in the same order are permuted alike) and that the choice among equal gains in the loss-guided heap looks at node numbers and gains only. Contributions are not covered."
  },
  {
   "property": "C71",
   "status": "proved",
   "theorems": [
    "C71_metric_names",
    "C71_metric_names_all"
   ],
   "note": "The serde side is the name table of Serde.v."
  },
  {
   "property": "C72",
   "status": "proved",
   "theorems": [
    "C72_weighted_rows",
    "C72_row_order",
    "C72_shared_weight",
    "C72_weight_counts",
    "C72_row_order_rounding_refuted"
   ],
   "note": "Exact arithmetic, no row sampling, positive weights, finite non-missing cells, finite base score; the two runs may sort equal values differently but share generator, heap choice and schedule. The equality covers panics and validation errors. With rounding it is false already for reordering: C72_row_order_rounding_refuted (base score of 1e16, 1, -1e16)."
  },
  {
   "property": "C73",
   "status": "proved",
   "theorems": [
    "C73_zero_weight_row_refuted"
   ],
   "note": "Refuted on the IEEE instance: rows 1 and 5 against rows 1, 5 and a row 3 of weight zero; the threshold moves from 5 to 3 and the two models answer 4 differently. No arithmetic is to blame: percentiles_or_value collects the distinct values before looking at weights."
  },
  {
   "property": "C74",
   "status": "proved",
   "theorems": [
    "C74_targets_change_of_unit",
    "C74_predictions_change_of_unit",
    "C74_targets_shift",
    "C74_shift_rounding_refuted",
    "C74_unit_rounding_refuted"
   ],
   "note": "Exact arithmetic. Equality of whole runs, panics and validation errors included; the changed model is written out field by field in PropSymmetry (in_unit, model_in_unit). The two library sorts (loss-guide heap, GOSS) are assumed to look at their keys only through comparisons; finite targets and weights when the base score comes from the data. False with rounding: C74_shift_rounding_refuted (adding 2^60), C74_unit_rounding_refuted (multiplying by 2^-200, exact in binary64, but gradients are narrowed to binary32)."
  },
  {
   "property": "C75",
   "status": "proved",
   "theorems": [
    "C75_labels_exchanged",
    "C75_scores_change_sign"
   ],
   "note": "Exact arithmetic. Equality of whole runs, panics and validation errors included. AUC as metric not covered."
  },
  {
   "property": "C76",
   "status": "proved",
   "theorems": [
    "C76_targets_change_sign",
    "C76_forced_bounds_refuted"
   ],
   "note": "IEEE arithmetic, any libm; equal up to the sign of zeros. Base score taken from the data, no evaluation sets; depth-wise growth (the loss-guide heap compares gains with total_cmp, which tells zeros apart) and no constraints (the midpoint of two bounds may overflow). C76_forced_bounds_refuted: with force_children_to_bound_parent, targets 1, 1, 4 give predictions 1, 2, 4 but targets -1, -1, -4 give -2, -1, -4."
  },
  {
   "property": "C77",
   "status": "proved",
   "theorems": [
    "C77_rows_independent",
    "C77_contributions_shape",
    "C77_leaf_indices_explain"
   ],
   "note": "Any arithmetic. Model of the Python class in PyWrap.v; leaf sums need well formed trees, which C11 gives for every fitted tree."
  },
  {
   "property": "C78",
   "status": "proved",
   "theorems": [
    "C78_other_columns_refused",
    "C78_same_columns_accepted",
    "C78_names_are_positions",
    "C78_failed_fit_keeps_trees",
    "C78_failed_fit_keeps_columns_refuted",
    "C78_refit_on_array_refuted"
   ],
   "note": "Any arithmetic. Refutations: C78_failed_fit_keeps_columns_refuted (a NaN target and swapped columns: ValueError, trees as before, but the frame the trees were trained on is refused from then on), C78_refit_on_array_refuted (fit on a frame with one column, then on an array with two: importances raise KeyError)."
  },
  {
   "property": "C79",
   "status": "proved",
   "theorems": [
    "C79_save_load"
   ],
   "note": "Any arithmetic in which widening a single precision number and rounding it back returns it (proved for IEEE: FloatConv.to32_to64). The metadata text codec (json.dumps, json.loads of names and numbers) and the float codec are assumed to read back what they wrote; both are exhibited in the example."
  },
  {
   "property": "C80",
   "status": "proved",
   "theorems": [
    "C80_refit_after_load",
    "C80_refit_after_load_refuted",
    "C80_constraints_survive_refuted"
   ],
   "note": "Positive half for objects without constraints and terminating features. C80_refit_after_load_refuted: two named columns, one constrained; the loaded object answers alike but its next fit on the same frame raises KeyError. C80_constraints_survive_refuted: saved before the first fit, the constraints are gone."
  },
  {
   "property": "C81",
   "status": "proved",
   "theorems": [
    "C81_pickle"
   ],
   "note": "Any arithmetic."
  },
  {
   "property": "C82",
   "status": "proved",
   "theorems": [
    "C82_get_params",
    "C82_clone",
    "C82_set_params",
    "C82_set_params_is_new_refuted"
   ],
   "note": "Any arithmetic. The clone's fit succeeds with a model if and only if a fresh object's fit succeeds with the same model. C82_set_params_is_new_refuted: after set_params a frame with other columns is refused."
  },
  {
   "property": "C83",
   "status": "proved",
   "theorems": [
    "C83_constructor",
    "C83_misspelt_options_refuted",
    "C83_lower_case_refuted"
   ],
   "note": "Any arithmetic. Refutations: C83_misspelt_options_refuted, C83_lower_case_refuted."
  },
  {
   "property": "C84",
   "status": "proved",
   "theorems": [
    "C84_partial_dependence",
    "C84_by_name"
   ],
   "note": "Any arithmetic whose binary64 order obeys the laws proved for both instances. The samples argument (numpy.quantile) is not modelled."
  },
  {
   "property": "C85",
   "status": "proved",
   "theorems": [
    "C85_feature_importances"
   ],
   "note": "Any arithmetic."
  },
  {
   "property": "C86",
   "status": "proved",
   "theorems": [
    "C86_columns",
    "C86_table",
    "C86_refit_on_array_refuted"
   ],
   "note": "Any arithmetic. C86_columns gives the remaining columns. Refutation: C86_refit_on_array_refuted (stale column names)."
  },
  {
   "property": "C87",
   "status": "proved",
   "theorems": [
    "C87_import",
    "C87_widening",
    "C87_nodes",
    "C87_without_names_refuted",
    "C87_plain_booster_refuted",
    "C87_double_precision_refuted",
    "C87_names_saved_refuted"
   ],
   "note": "Any arithmetic in which widening keeps the order, proved for IEEE (C87_widening). Reading a written number as single precision is any function rd. Refutations: C87_without_names_refuted, C87_plain_booster_refuted, C87_double_precision_refuted, C87_names_saved_refuted."
  },
  {
   "property": "C88",
   "status": "proved",
   "theorems": [
    "C88_arrays",
    "C88_strings",
    "C88_quotes_refuted"
   ],
   "note": "Element values and dtype text are taken to survive json. Refutation: C88_quotes_refuted."
  },
  {
   "property": "C89",
   "status": "proved",
   "theorems": [
    "C89_trained_answers"
   ],
   "note": "Any arithmetic; lives in which no prediction iteration was set before the first fit."
  },
  {
   "property": "C90",
   "status": "proved",
   "theorems": [
    "C90_monotone",
    "C90_monotone_exact",
    "C90_one_column_refuted"
   ],
   "note": "IEEE and exact arithmetic. Refutation without the hypothesis on the other columns: C90_one_column_refuted."
  },
  {
   "property": "C91",
   "status": "proved",
   "theorems": [
    "C91_fit_uses_options"
   ],
   "note": "Any arithmetic. Constraint keys are distinct, as in a Python dictionary."
  },
  {
   "property": "C92",
   "status": "proved",
   "theorems": [
    "C92_history"
   ],
   "note": "Any arithmetic; at least one tree."
  },
  {
   "property": "C93",
   "status": "proved",
   "theorems": [
    "C93_method_names",
    "C93_other_names"
   ],
   "note": "No arithmetic involved."
  },
  {
   "property": "C94",
   "status": "proved",
   "theorems": [
    "C94_rounding_refuted",
    "C94_splits_separate",
    "C94_constant_column",
    "C94_constant_values",
    "C94_leaves_bounded"
   ],
   "note": "Exact arithmetic, sound inputs (as in C62). The bound on the leaves is for fits without a missing branch. C94_rounding_refuted: in floating point a leaf with enough recorded weight may be reached by no training row. C106 gives the floating-point version for integer hessians."
  },
  {
   "property": "C95",
   "status": "proved",
   "theorems": [
    "C95_contributions",
    "C95_probability",
    "C95_shapley_values",
    "C95_partial_dependence",
    "C95_importance"
   ],
   "note": "Exact arithmetic, sound inputs (as in C62); the hypotheses of C32, C33, C35, C36, C38 and C39 on the trees are discharged for fitted models."
  },
  {
   "property": "C96",
   "status": "proved",
   "theorems": [
    "C96_predict",
    "C96_leaf_indices",
    "C96_contributions",
    "C96_no_credit",
    "C96_dependence",
    "C96_importance",
    "C96_constant_column"
   ],
   "note": "The parts on predictions, leaf indices, contributions, partial dependence and importances hold in any arithmetic, hence with rounding. The part on constant columns is exact arithmetic, sound inputs, by C94."
  },
  {
   "property": "C97",
   "status": "proved",
   "theorems": [
    "C97_duplicate_column",
    "C97_increasing_copy",
    "C97_copy_is_ignored"
   ],
   "note": "IEEE arithmetic. Histograms of the two columns stay equal bin by bin through every subtraction, so that every candidate on the copy has an earlier one of the same gain."
  },
  {
   "property": "C98",
   "status": "proved",
   "theorems": [
    "C98_longer_training",
    "C98_predictions"
   ],
   "note": "Any arithmetic, hence with rounding."
  },
  {
   "property": "C99",
   "status": "proved",
   "theorems": [
    "C99_error_shrinks",
    "C99_mean_preserved",
    "C99_l2_refuted"
   ],
   "note": "Exact arithmetic; the refutation for L2 = 1 is a run on IEEE numbers."
  },
  {
   "property": "C100",
   "status": "proved",
   "theorems": [
    "C100_first_tree_in_range",
    "C100_two_trees_refuted"
   ],
   "note": "Exact arithmetic; the refutation for two trees is a run on IEEE numbers."
  },
  {
   "property": "C101",
   "status": "proved",
   "theorems": [
    "C101_dump_exists",
    "C101_same_text_same_model",
    "C101_text_shows",
    "C101_weight_contributions_refuted"
   ],
   "note": "Any arithmetic. The text of a floating point number is quantified; Rust prints the shortest decimal that reads back, which is injective. The refutation is a pair of models on IEEE numbers."
  },
  {
   "property": "C102",
   "status": "proved",
   "theorems": [
    "C102_max_depth_zero",
    "C102_one_leaf",
    "C102_gamma_infinite",
    "C102_constant"
   ],
   "note": "Any arithmetic; for gamma IEEE single precision."
  },
  {
   "property": "C103",
   "status": "proved",
   "theorems": [
    "C103_copy_changes_nothing",
    "C103_colsample_refuted"
   ],
   "note": "Simulation of the two trainings. The heap of the loss guided policy is assumed to compare gains only, as in C70."
  },
  {
   "property": "C104",
   "status": "proved",
   "theorems": [
    "C104_constant_changes_nothing",
    "C104_missing_used_refuted"
   ],
   "note": "Proved for IEEE arithmetic and any standard-library sort that meets its contract; fit_constant is the statement for any arithmetic with 0 = 0, 0 + 0 = 0 - 0 = 0. C104_missing_used_refuted is the remaining combination of options."
  },
  {
   "property": "C105",
   "status": "proved",
   "theorems": [
    "C105_fit_never_panics",
    "C105_tree_never_panics",
    "C105_top_rate",
    "C105_goss_params"
   ],
   "note": "Proved for IEEE arithmetic; the lemmas are for any arithmetic with 0 = 0 and 0 + 0 = 0 (ZeroLaws). The key invariant is that a node without rows has an all-zero histogram. Hypotheses are the records able_params, able_data, able_env, able_evals of FitAny.v. Unlike C60 and C62 (exact arithmetic) nothing is asked of labels, weights, gradients or regularisation. C105_top_rate discharges the GOSS hypothesis for a top_rate between 0 and 1 and up to 2^53 rows."
  },
  {
   "property": "C106",
   "status": "proved",
   "theorems": [
    "C106_routes",
    "C106_tree_cover",
    "C106_cover",
    "C106_leaf_cover",
    "C106_separates",
    "C106_constant_column",
    "C106_leaves_rows",
    "C106_leaves_weight"
   ],
   "note": "IEEE versions of C20, C21 and C94 for hessians that are integers. The lemmas are for any arithmetic in which integers up to T are exact (CountLaws); CountI.v proves that of binary32 and binary64 with T = 2^24. LogLoss hessians and fractional weights are not covered (C94_rounding_refuted uses weights up to 2^24 whose total exceeds it)."
  },
  {
   "property": "C107",
   "status": "proved",
   "theorems": [
    "C107_options",
    "C107_max_leaves",
    "C107_max_depth",
    "C107_step_off",
    "C107_subsample_one_refuted"
   ],
   "note": "For fits that return (C62, C105). subsample = 1 with random sampling is refuted as a neutral setting: the totals of the root are added in another order."
  },
  {
   "property": "C108",
   "status": "proved",
   "theorems": [
    "C108_contributions_change_of_unit",
    "C108_dependence_change_of_unit",
    "C108_importance_change_of_unit",
    "C108_explanations_follow_targets",
    "C108_labels_exchanged",
    "C108_unit_rounding_refuted"
   ],
   "note": "Exact arithmetic, equality of whole tables, panics included. The tables are described cell by cell (cells in PropExplain). ProbabilityChange with squared loss panics before and after."
  },
  {
   "property": "C109",
   "status": "proved",
   "theorems": [
    "C109_order_only",
    "C109_probabilities",
    "C109_weight_unit",
    "C109_labels_and_scores",
    "C109_labels_exchanged",
    "C109_one_iff_separated",
    "C109_weight_unit_rounding_refuted"
   ],
   "note": "Exact arithmetic; follows from the pair count of C46. C109_weight_unit_rounding_refuted: the products of the weights overflow in binary64."
  }
 ]
}