{"id": "C01", "title": "A binned split and the raw split it stands for select the same rows", "statement": "After binning a column whose non-missing values are at most f64::MAX, for every non-missing training value v and every candidate split k of that column, the row's bin number is below k exactly when v is strictly below the raw cut value stored with that split. Hence a split chosen on binned data sends every training row the same way as the stored split_value does on raw data. (With the value +inf this fails.)", "quantifier": "every column of every matrix, every weight vector, every nbins, every missing sentinel, every non-missing value and every candidate split of the column", "why_tests_cant": "A test checks a handful of values; the claim ranges over all f64 values including ties with cut points, duplicates, negative zero and values between adjacent cuts.", "anchors": ["src/utils.rs:map_bin", "src/binning.rs:bin_matrix", "src/binning.rs:bin_matrix_from_cuts", "src/histogram.rs:create_feature_histogram", "src/node.rs:Node::get_child_idx"]}
{"id": "C02", "title": "Bin 0 means missing and nothing else", "statement": "In binned training data, for a column in which some non-missing row has positive weight, a cell gets bin 0 exactly when its raw value is the missing value (NaN when missing is NaN, equal to the sentinel otherwise); every other cell gets a bin between 1 and the number of finite cuts of its column. (For a column whose non-missing rows all have weight 0 this fails.)", "quantifier": "every matrix, every weight vector with a positive total over the non-missing rows of the column, every nbins >= 1, every missing sentinel", "why_tests_cant": "The claim depends on the smallest observed value always becoming a cut, for every weighting and every nbins; examples cannot cover all weightings.", "anchors": ["src/utils.rs:map_bin", "src/utils.rs:is_missing", "src/utils.rs:percentiles", "src/binning.rs:percentiles_or_value", "src/binning.rs:bin_matrix"]}
{"id": "C03", "title": "Cut points are strictly increasing observed values", "statement": "For every column the cuts are strictly increasing, end with f64::MAX, all other cuts are non-missing values observed in the column, there are at most nbins + 2 of them, and if the column has at most nbins + 1 distinct non-missing values the cuts are exactly those values.", "quantifier": "every column of finite values, every weight vector, every nbins >= 1", "why_tests_cant": "Sortedness of every percentile sequence under every weighting is a universally quantified statement over unbounded columns.", "anchors": ["src/binning.rs:percentiles_or_value", "src/binning.rs:bin_matrix", "src/utils.rs:percentiles"]}
{"id": "C04", "title": "Binning never runs out of bin numbers", "statement": "Binning a matrix never panics because a bin number does not fit in 16 bits, for every nbins up to 65534; nbins = 65535 can panic.", "quantifier": "every nbins in 1..=65535 and every column", "why_tests_cant": "The failing case needs 65536 distinct values with the largest legal nbins; no unit test builds it.", "anchors": ["src/utils.rs:map_bin", "src/binning.rs:bin_matrix_from_cuts"]}
{"id": "C05", "title": "Percentile cuts are weighted quantiles", "statement": "Each cut returned for a percentile p is the smallest observed value whose cumulative weight share (over values sorted ascending) reaches p, in the order the percentiles were given.", "quantifier": "every vector, every non-negative weight vector with positive total, every ascending list of percentiles in [0,1)", "why_tests_cant": "Must hold for arbitrary weights and arbitrarily many ties; the existing test uses fixed vectors.", "anchors": ["src/utils.rs:percentiles"]}
{"id": "C06", "title": "Two-way partition of a node's rows", "statement": "Reordering a node's rows around a split is a permutation of those rows, and, when at least one row goes right, the returned position separates exactly the rows that go left (bin below the split, or missing when missing goes left) from those that go right; when all rows go left the position is one too small, and an empty node panics.", "quantifier": "every row list, every bin column, every split bin, both missing directions, every interleaving of left/right/missing rows", "why_tests_cant": "The in-place two-pointer loop has boundary cases (last element, all-left, all-right) that depend on every interleaving.", "anchors": ["src/utils.rs:pivot_on_split", "src/utils.rs:missing_compare"]}
{"id": "C07", "title": "Three-way partition of a node's rows", "statement": "With a separate missing branch the reordering is a permutation and the two returned positions delimit exactly the missing rows, then the rows below the split, then the rows at or above it.", "quantifier": "every row list, every bin column, every split bin >= 1, every interleaving", "why_tests_cant": "Three moving cursors with swaps; correctness must be shown for every interleaving of the three classes.", "anchors": ["src/utils.rs:pivot_on_split_exclude_missing"]}
{"id": "C08", "title": "Histograms are exact per-bin sums", "statement": "The histogram of a node holds, for every sampled feature and every bin, the sum of gradients and hessians of exactly the node's rows that fall in this bin, with the bin's raw cut value; looking up the k-th sampled column gives the k-th sampled feature's histogram for every column sample.", "quantifier": "every binned matrix, every row subset, every column subset, with and without row sampling", "why_tests_cant": "Offsets of the jagged storage depend on every combination of column sizes and column samples.", "anchors": ["src/histogram.rs:create_feature_histogram", "src/histogram.rs:HistogramMatrix::new", "src/data.rs:JaggedMatrix::get_col"]}
{"id": "C09", "title": "Histogram subtraction equals direct construction", "statement": "The histogram obtained by subtracting one child (or two children) from the parent equals the histogram computed directly from the remaining child's rows.", "quantifier": "every parent row set and every two-way or three-way partition of it (exact arithmetic)", "why_tests_cant": "An algebraic identity over all partitions; tests compare one data set at tolerance.", "anchors": ["src/histogram.rs:HistogramMatrix::from_parent_child", "src/histogram.rs:HistogramMatrix::from_parent_two_children"]}
{"id": "C10", "title": "Parallel and serial execution give the same result", "statement": "Predictions, leaf indices, contributions and training histograms computed with parallel=true equal those computed with parallel=false, for every way the work is split over threads and every order in which the tasks run.", "quantifier": "every input, every work-splitting tree and every interleaving of the row tasks", "why_tests_cant": "Schedules cannot be enumerated by tests.", "anchors": ["src/tree.rs:Tree::predict", "src/gradientbooster.rs:predict_contributions", "src/histogram.rs:HistogramMatrix::new", "src/gradientbooster.rs:value_partial_dependence"]}
{"id": "C11", "title": "Every fitted tree is a well-formed tree", "statement": "In every tree produced by fitting: node i carries number i; every internal node's left, right and missing children are existing nodes with larger numbers, at depth one more; every node other than the root is a child of exactly one node; left and right differ.", "quantifier": "every data set, both splitters, every parameter setting, both grow policies and every order in which nodes are expanded", "why_tests_cant": "Shape invariants over all growth histories.", "anchors": ["src/tree.rs:Tree::fit", "src/splitter.rs:handle_split_info", "src/node.rs:SplittableNode::update_children"]}
{"id": "C12", "title": "max_depth is respected", "statement": "No node of a fitted tree is deeper than max_depth (the root has depth 0).", "quantifier": "every data set, every parameter setting, every growth order", "why_tests_cant": "Ranges over all growth histories.", "anchors": ["src/tree.rs:Tree::fit"]}
{"id": "C13", "title": "max_leaves is respected without a missing branch", "statement": "With create_missing_branch=false a fitted tree has at most max(1, max_leaves) leaves.", "quantifier": "every data set, every max_leaves, every growth order", "why_tests_cant": "Ranges over all growth histories.", "anchors": ["src/tree.rs:Tree::fit", "src/splitter.rs:Splitter::new_leaves_added"]}
{"id": "C14", "title": "max_leaves with a missing branch", "statement": "With create_missing_branch=true a fitted tree has at most max(1, max_leaves) + 1 leaves; max(1, max_leaves) itself can be exceeded.", "quantifier": "every data set, every max_leaves, every growth order", "why_tests_cant": "The trait/inherent method resolution makes the budget check use the wrong increment; only specific max_leaves values expose it.", "anchors": ["src/tree.rs:Tree::fit", "src/splitter.rs:MissingBranchSplitter::new_leaves_added"]}
{"id": "C15", "title": "min_leaf_weight is respected", "statement": "Every left and right child of every split of a fitted tree has a recorded cover (hessian sum) that is not below min_leaf_weight.", "quantifier": "every data set, every parameter setting, every growth order", "why_tests_cant": "Ranges over all data and growth histories.", "anchors": ["src/splitter.rs:evaluate_split", "src/tree.rs:Tree::fit"]}
{"id": "C16", "title": "Every split pays for gamma", "statement": "Every split of a fitted tree has a recorded split_gain strictly greater than gamma (hence positive).", "quantifier": "every data set, every parameter setting, every growth order", "why_tests_cant": "Ranges over all data and growth histories.", "anchors": ["src/splitter.rs:best_feature_split", "src/splitter.rs:best_split", "src/node.rs:get_split_gain"]}
{"id": "C17", "title": "Splits only use sampled columns and observed cut values", "statement": "Every split of a tree uses a feature of the column sample drawn for that tree, and its split_value is one of that feature's cut points below f64::MAX.", "quantifier": "every data set, every colsample_bytree, every RNG outcome", "why_tests_cant": "RNG outcomes and growth histories cannot be enumerated.", "anchors": ["src/gradientbooster.rs:fit_trees", "src/splitter.rs:best_split", "src/splitter.rs:best_feature_split"]}
{"id": "C18", "title": "Each split is the best admissible one", "statement": "The split chosen for a node has a gain at least that of every other admissible (feature, cut) candidate of that node, and ties go to the earliest sampled column and, within it, to the lowest cut; if no candidate has positive gain the node becomes a leaf.", "quantifier": "every node state, every histogram, every column sample", "why_tests_cant": "Universally quantified argmax over all candidates.", "anchors": ["src/splitter.rs:best_split", "src/splitter.rs:best_feature_split"]}
{"id": "C19", "title": "Row sampling is conserved while growing", "statement": "While a tree grows, the row index stays a permutation of the sampled rows and the row ranges of the current leaves tile it exactly: every sampled row belongs to exactly one leaf.", "quantifier": "every data set and growth history", "why_tests_cant": "In-place reordering across the whole growth history.", "anchors": ["src/tree.rs:Tree::fit", "src/utils.rs:pivot_on_split", "src/splitter.rs:handle_split_info"]}
{"id": "C20", "title": "Training and prediction route rows to the same leaf", "statement": "Every sampled training row is, at the end of growing a tree, in the row range of exactly the leaf that predict reaches for this row on the raw data.", "quantifier": "every data set with min_leaf_weight > 0, both splitters, every growth order (exact arithmetic)", "why_tests_cant": "Links binning, in-place partitioning and prediction for all data.", "anchors": ["src/tree.rs:Tree::fit", "src/tree.rs:predict_leaf", "src/binning.rs:bin_matrix", "src/utils.rs:pivot_on_split"]}
{"id": "C21", "title": "Recorded cover and weight describe the rows of the node", "statement": "For every node of a fitted tree the recorded hessian_sum is the sum of the hessians of the sampled rows that prediction routes through the node (exact arithmetic).", "quantifier": "every data set, every growth order", "why_tests_cant": "Algebraic identity along all growth histories.", "anchors": ["src/tree.rs:Tree::fit", "src/splitter.rs:handle_split_info", "src/node.rs:SplittableNode"]}
{"id": "C22", "title": "Leaf weights are the regularised optimum", "statement": "The weight computed for a gradient sum G and hessian sum H with H + l2 > 0 minimises G*w + (H + l2)/2*w^2 + l1*|w| over all w with |w| <= max_delta_step (over all w if max_delta_step is 0), and for l1 = 0 and no clipping the recorded gain is twice the decrease of that objective.", "quantifier": "all G, all H, all l1, l2, max_delta_step >= 0 (exact arithmetic)", "why_tests_cant": "Optimality over a continuum.", "anchors": ["src/utils.rs:weight", "src/utils.rs:l1_regularization", "src/utils.rs:gain_given_weight", "src/utils.rs:gain"]}
{"id": "C23", "title": "max_delta_step bounds every leaf", "statement": "If max_delta_step > 0 (finite and at most 2^126), every node weight of every tree of a fitted model is at most learning_rate * max_delta_step in magnitude, with or without a missing branch, for the missing-node treatments None and AssignToParent.", "quantifier": "every data set, every parameter setting, every growth order", "why_tests_cant": "Ranges over all data.", "anchors": ["src/utils.rs:weight", "src/utils.rs:constrained_weight", "src/node.rs:as_node"]}
{"id": "C24", "title": "Monotone constraints hold for the whole model", "statement": "If every feature of the training data is constrained Positive or Negative, or no unconstrained feature is split on below a split on a constrained one, then for any two rows that differ only in a constrained feature, with both values non-missing, the model's prediction for the larger value is not smaller (Positive) or not larger (Negative). If an unconstrained feature is split on below a constrained one this can fail. (Missing-node treatments None and AssignToParent.)", "quantifier": "every data set, every constraint map, every pair of rows", "why_tests_cant": "Universally quantified over pairs of inputs of the whole ensemble.", "anchors": ["src/utils.rs:constrained_weight", "src/utils.rs:cull_gain", "src/splitter.rs:best_feature_split", "src/splitter.rs:evaluate_split"]}
{"id": "C25", "title": "force_children_to_bound_parent brackets the parent", "statement": "With create_missing_branch and force_children_to_bound_parent on, for every split of every tree of a fitted model the parent's weight lies between the left and the right child weights (treatment other than AverageLeafWeight); and growing never aborts on the internal assertion when all columns or no columns are monotonically constrained, hessians are non-negative and l2 > 0 (exact arithmetic). With constraints on some columns only, training can abort.", "quantifier": "every data set, every constraint map", "why_tests_cant": "Reachability of the assertion depends on constraints on ancestors.", "anchors": ["src/utils.rs:bound_to_parent", "src/utils.rs:between", "src/splitter.rs:MissingBranchSplitter::evaluate_split"]}
{"id": "C26", "title": "Missing-node treatments do what they say", "statement": "With create_missing_branch=true every split has a missing child of its own; AssignToParent gives every missing node the weight of its parent; AverageLeafWeight leaves every missing leaf equal to its parent and every parent equal to the cover-weighted average of its left, right and non-leaf missing children; AverageNodeWeight gives the missing node the cover-weighted average of the left and right values; None gives a missing node without cover the weight of its parent; features listed in terminate_missing_features always get a missing leaf.", "quantifier": "every data set, every growth order, every treatment", "why_tests_cant": "Ranges over all trees.", "anchors": ["src/splitter.rs:handle_split_info", "src/splitter.rs:update_average_missing_nodes"]}
{"id": "C27", "title": "Imputed missing direction is the better one", "statement": "Without a missing branch, at a split on an unconstrained feature missing rows are sent to the side with the larger resulting gain (right on ties), and when the node has no missing rows prediction sends missing values right (exact arithmetic, hessians non-negative, l1 = 0, max_delta_step = 0, l2 > 0).", "quantifier": "every node state", "why_tests_cant": "Ranges over all gradients.", "anchors": ["src/splitter.rs:MissingImputerSplitter::evaluate_split", "src/splitter.rs:MissingImputerSplitter::handle_split_info"]}
{"id": "C28", "title": "Prediction is base score plus the selected leaf weights", "statement": "predict returns, for every row, base_score plus the weights of the leaves named by predict_leaf_indices, added in tree order, over the first prediction_iteration trees (all trees when unset).", "quantifier": "every model, every data matrix", "why_tests_cant": "Ranges over all models and rows.", "anchors": ["src/gradientbooster.rs:predict", "src/gradientbooster.rs:predict_leaf_indices", "src/gradientbooster.rs:get_prediction_trees", "src/tree.rs:predict_leaf"]}
{"id": "C29", "title": "A prediction depends only on its own row", "statement": "The prediction, leaf indices and contributions of a row are the same whatever other rows are in the matrix and wherever the row is placed.", "quantifier": "every model, every pair of matrices sharing a row", "why_tests_cant": "Ranges over all batches.", "anchors": ["src/gradientbooster.rs:predict", "src/data.rs:Matrix::get", "src/data.rs:Matrix::get_row"]}
{"id": "C30", "title": "Prediction on a fitted model always returns", "statement": "For every fitted model and every matrix with at least as many columns as the training data and no NaN outside the missing convention, predict terminates without panicking and returns one value per row.", "quantifier": "every fitted model, every matrix", "why_tests_cant": "Termination and absence of out-of-bounds for all trees.", "anchors": ["src/tree.rs:predict_leaf", "src/utils.rs:is_missing"]}
{"id": "C31", "title": "Evaluation history is the metric of the prefix models", "statement": "After fit, row k of the evaluation history holds, for each evaluation set, the metric of the predictions of the first k+1 trees, with the same floating point result as predict restricted to those trees; the running training predictions equal predict on the training data.", "quantifier": "every data set, every number of iterations", "why_tests_cant": "Relates incremental state to recomputation for all histories.", "anchors": ["src/gradientbooster.rs:fit_trees", "src/gradientbooster.rs:update_predictions_inplace"]}
{"id": "C32", "title": "Weight contributions sum to the prediction", "statement": "For method Weight the contributions of a row (features plus bias) sum to the row's prediction (exact arithmetic).", "quantifier": "every model, every row", "why_tests_cant": "Telescoping sum over all paths.", "anchors": ["src/tree.rs:predict_contributions_row_weight", "src/gradientbooster.rs:predict_contributions_tree_alone"]}
{"id": "C33", "title": "Average contributions sum to the prediction", "statement": "For method Average the contributions of a row (features plus bias) sum to the row's prediction (exact arithmetic).", "quantifier": "every model, every row", "why_tests_cant": "Telescoping over all paths.", "anchors": ["src/tree.rs:predict_contributions_row_average", "src/tree.rs:distribute_leaf_weights"]}
{"id": "C34", "title": "ProbabilityChange contributions sum to the probability", "statement": "For method ProbabilityChange the contributions of a row sum to 1/(1+exp(-prediction)) (exact arithmetic).", "quantifier": "every LogLoss model, every row", "why_tests_cant": "Telescoping over all trees and paths.", "anchors": ["src/tree.rs:predict_contributions_row_probability_change", "src/gradientbooster.rs:predict_contributions_probability_change"]}
{"id": "C35", "title": "Shapley contributions sum to the prediction", "statement": "For method Shapley the contributions of a row (features plus bias) sum to the row's prediction (exact arithmetic).", "quantifier": "every model whose internal nodes have positive cover, every row", "why_tests_cant": "The path algorithm's bookkeeping must be right for every path with arbitrarily repeated features.", "anchors": ["src/shapley.rs:tree_shap", "src/shapley.rs:predict_contributions_row_shapley"]}
{"id": "C36", "title": "Shapley contributions are the Shapley values", "statement": "For method Shapley the contribution of feature f is the Shapley value of f in the game that gives a feature set S the cover-weighted expected output of the model when features in S follow the row and all others are averaged over children by cover.", "quantifier": "every model whose internal nodes have positive cover, every row, every feature", "why_tests_cant": "Exponentially many coalitions for every tree.", "anchors": ["src/shapley.rs:extend_path", "src/shapley.rs:unwind_path", "src/shapley.rs:unwound_path_sum", "src/shapley.rs:tree_shap"]}
{"id": "C37", "title": "Difference contributions ignore the missing branch", "statement": "For BranchDifference, MidpointDifference and ModeDifference the bias is 0 + base_score, each visited split adds the documented difference to its feature, and a split left through a separate missing branch adds nothing.", "quantifier": "every model, every row", "why_tests_cant": "Ranges over all paths.", "anchors": ["src/tree.rs:predict_contributions_row_branch_difference", "src/tree.rs:predict_contributions_row_midpoint_difference", "src/tree.rs:predict_contributions_row_mode_difference"]}
{"id": "C38", "title": "Partial dependence is the cover-weighted expectation", "statement": "value_partial_dependence(f, v) is base_score plus, per prediction tree, the sum over leaves of the leaf weight times the product of child cover shares at splits on other features and of the indicator of following v at splits on f (exact arithmetic); it lies between the smallest and largest leaf sums and does not depend on v if no tree splits on f.", "quantifier": "every model, every feature, every value", "why_tests_cant": "Ranges over all trees and values.", "anchors": ["src/partial_dependence.rs:tree_partial_dependence", "src/gradientbooster.rs:value_partial_dependence"]}
{"id": "C39", "title": "Feature importance totals", "statement": "Weight importance counts the splits on a feature over all trees, TotalGain/TotalCover sum their gain/cover, Gain/Cover are the averages; exactly the features used in some split appear; normalised importances sum to 1 (exact arithmetic).", "quantifier": "every fitted model", "why_tests_cant": "Sums over all trees.", "anchors": ["src/gradientbooster.rs:calculate_feature_importance", "src/tree.rs:calc_feature_node_stats"]}
{"id": "C40", "title": "The text dump shows every node once", "statement": "The text dump of a fitted tree has exactly one line per node, a parent's line precedes its children's lines, and lines are indented by depth.", "quantifier": "every fitted tree", "why_tests_cant": "Ranges over all tree shapes.", "anchors": ["src/tree.rs:Display for Tree"]}
{"id": "C41", "title": "Early stopping keeps the best iteration", "statement": "With early stopping and evaluation data, best_iteration is the first iteration whose metric on the last evaluation set is the best seen, prediction_iteration is best_iteration + 1, training stops at the first non-improving iteration that is at least early_stopping_rounds after the best one, and the history has one row per tree.", "quantifier": "every sequence of metric values (including NaN), every early_stopping_rounds, maximise or minimise", "why_tests_cant": "Ranges over all metric histories.", "anchors": ["src/gradientbooster.rs:fit_trees", "src/metric.rs:is_comparison_better", "src/gradientbooster.rs:update_best_iteration"]}
{"id": "C42", "title": "Refitting forgets the previous fit", "statement": "Fitting a booster that was fitted before gives exactly the model that fitting a fresh booster with the same parameters (and, when initialize_base_score is off, the same base_score) gives, including evaluation history and best iteration; only metadata is kept.", "quantifier": "every pair of fits on the same booster object", "why_tests_cant": "Ranges over histories of calls.", "anchors": ["src/gradientbooster.rs:fit_trees", "src/gradientbooster.rs:reset"]}
{"id": "C43", "title": "Rejected inputs leave the booster untouched", "statement": "fit returns an error exactly when some target is NaN, or some weight is NaN or negative, in the training or an evaluation set, and then the booster is unchanged; it never trains on such data.", "quantifier": "every booster, every input", "why_tests_cant": "Ranges over all inputs.", "anchors": ["src/gradientbooster.rs:fit", "src/utils.rs:validate_positive_not_nan_vec", "src/utils.rs:validate_not_nan_vec"]}
{"id": "C44", "title": "Number of trees and recorded rows", "statement": "fit trains exactly `iterations` trees unless early stopping triggers and never more; parameters and metadata are unchanged; and unless the user set prediction_iteration before the first fit, the prediction_iteration after fit selects an existing prefix of the trees, so prediction right after fit cannot panic.", "quantifier": "every data set and parameter setting", "why_tests_cant": "Ranges over all training histories.", "anchors": ["src/gradientbooster.rs:fit_trees", "src/gradientbooster.rs:get_prediction_trees"]}
{"id": "C45", "title": "The constructor rejects invalid numeric parameters", "statement": "Creating a booster succeeds exactly when none of learning_rate, l1, l2, gamma, max_delta_step, min_leaf_weight, subsample, top_rate, other_rate, colsample_bytree is NaN or negative, and the created booster has no trees and carries the parameters unchanged.", "quantifier": "all parameter values", "why_tests_cant": "Ranges over all floats in ten parameters.", "anchors": ["src/gradientbooster.rs:new", "src/gradientbooster.rs:validate_parameters", "src/utils.rs:validate_float_parameter"]}
{"id": "C46", "title": "AUC is the weighted Mann-Whitney statistic", "statement": "For labels in [0,1], non-negative weights and non-NaN scores roc_auc_score equals the weight share of (positive, negative) pairs ranked correctly, ties counting one half; it lies in [0,1], does not depend on the order of the rows or of tied rows, is NaN when one class has no weight, and panics on no rows (exact arithmetic).", "quantifier": "all label, score and weight vectors", "why_tests_cant": "Double sum over all pairs; tie orders.", "anchors": ["src/metric.rs:roc_auc_score", "src/metric.rs:trapezoid_area"]}
{"id": "C47", "title": "Error metrics are weighted means of the row losses", "statement": "With non-negative weights, one of them positive, log_loss (targets in [0,1]), root_mean_squared_error and root_mean_squared_log_error (arguments above -1) are the weighted means (roots of them) of the row losses: non-negative, zero exactly for perfect predictions on the rows with weight (the two root mean squares), invariant under permuting rows and rescaling all weights (exact arithmetic).", "quantifier": "all vectors", "why_tests_cant": "Ranges over all vectors.", "anchors": ["src/metric.rs:log_loss", "src/metric.rs:root_mean_squared_error", "src/metric.rs:root_mean_squared_log_error"]}
{"id": "C48", "title": "Metric comparison is a strict order with NaN worst", "statement": "is_comparison_better is irreflexive, asymmetric and transitive, a NaN is never better than anything, and any number is better than NaN.", "quantifier": "all triples of f64 (IEEE), both directions", "why_tests_cant": "All floats including NaN and infinities.", "anchors": ["src/metric.rs:is_comparison_better"]}
{"id": "C49", "title": "Gradients and hessians are derivatives of the loss", "statement": "For each objective and row, the gradient and hessian used for training are the first and second derivative, with respect to the raw prediction, of the per-row loss (LogLoss) or of half of it (SquaredLoss).", "quantifier": "all targets, predictions and weights (exact arithmetic)", "why_tests_cant": "A statement about derivatives over a continuum.", "anchors": ["src/objective.rs:LogLoss", "src/objective.rs:SquaredLoss"]}
{"id": "C50", "title": "The initial base score zeroes the total gradient", "statement": "With initialize_base_score the base score makes the weighted gradients of all rows sum to zero (SquaredLoss always when the total weight is positive; LogLoss when both classes carry weight).", "quantifier": "all targets and weights (exact arithmetic)", "why_tests_cant": "Ranges over all vectors.", "anchors": ["src/objective.rs:calc_init"]}
{"id": "C51", "title": "Random row sampling splits the rows", "statement": "Random sampling returns chosen and excluded rows that together are exactly the input rows, each list in input order; subsample = 0 chooses none and subsample >= 1 chooses all.", "quantifier": "every RNG outcome, every index, every subsample", "why_tests_cant": "All RNG outcomes.", "anchors": ["src/sampler.rs:RandomSampler::sample"]}
{"id": "C52", "title": "GOSS keeps the largest gradients and rescales only sampled small ones", "statement": "GOSS sampling returns distinct rows, including the floor(top_rate*n) rows of largest absolute gradient (when that is at most n; otherwise it panics); every other returned row has its gradient and hessian multiplied by (1-top_rate)/other_rate and all remaining gradients are unchanged; the list of excluded rows is always empty, although rows are left out.", "quantifier": "every RNG outcome, every gradient vector", "why_tests_cant": "All RNG outcomes and gradients.", "anchors": ["src/sampler.rs:GossSampler::sample"]}
{"id": "C53", "title": "Saving and loading a model preserves it", "statement": "Loading the JSON produced by saving a model gives back a model with the same parameters, trees, history and metadata, hence identical predictions.", "quantifier": "every model", "why_tests_cant": "Ranges over all models including non-finite fields.", "anchors": ["src/gradientbooster.rs:json_dump", "src/gradientbooster.rs:from_json", "src/gradientbooster.rs:parse_missing"]}
{"id": "C54", "title": "Models saved without the newer fields still load", "statement": "A JSON model lacking any of the fields that carry a serde default loads, with the documented defaults, and behaves like a model saved with those values.", "quantifier": "every subset of the defaulted fields removed", "why_tests_cant": "2^n subsets of fields.", "anchors": ["src/gradientbooster.rs:default_l1", "src/gradientbooster.rs:GradientBooster"]}
{"id": "C55", "title": "Matrix accessors agree", "statement": "For a column-major matrix, get(i,j), get_col(j)[i] and get_row(i)[j] are the same element for all in-range i, j; appending rows to a row-major matrix keeps earlier rows and makes new ones readable at the following indices; column j of a jagged matrix built from vectors is the j-th vector.", "quantifier": "all shapes and indices", "why_tests_cant": "All shapes.", "anchors": ["src/data.rs:Matrix", "src/data.rs:RowMajorMatrix", "src/data.rs:JaggedMatrix"]}
{"id": "C56", "title": "Fast summation is summation", "statement": "The lane-wise sums return the sum of the slice for every length (exact arithmetic), including lengths not divisible by the lane count.", "quantifier": "all slices", "why_tests_cant": "All lengths.", "anchors": ["src/utils.rs:fast_sum", "src/utils.rs:fast_f64_sum"]}
{"id": "C57", "title": "Tree growing terminates", "statement": "Growing a tree with a finite max_depth finishes after finitely many node expansions, at most (3^(max_depth+1)-1)/2 nodes are created.", "quantifier": "every data set, every parameter setting, every growth order", "why_tests_cant": "Termination over all inputs.", "anchors": ["src/tree.rs:Tree::fit", "src/grower.rs"]}
{"id": "C58", "title": "Predictions see missing values as training did", "statement": "For rows containing missing values, prediction follows the missing child at each split on a missing feature; in particular the leaf reached does not depend on the bit pattern of the missing value, and with a non-NaN sentinel a NaN input is rejected rather than routed.", "quantifier": "every fitted tree, every row", "why_tests_cant": "Ranges over all rows.", "anchors": ["src/node.rs:get_child_idx", "src/utils.rs:is_missing"]}
{"id": "C59", "title": "Growth is exhaustive", "statement": "In a fitted tree, unless the max_leaves budget is used up, every leaf is a leaf for a reason: it is a missing leaf that must not be split, it is at max_depth, or none of its candidate splits has positive gain after gamma, min_leaf_weight and constraints.", "quantifier": "every data set, every parameter setting, every growth order", "why_tests_cant": "Ranges over all growth histories; a test cannot tell a missed split from a missing one.", "anchors": ["src/tree.rs:Tree::fit", "src/splitter.rs:best_split"]}
{"id": "C60", "title": "Growing a tree never panics on valid inputs", "statement": "For binned data, finite gradients and hessians, a positive min_leaf_weight and force_children_to_bound_parent off, growing a tree returns: no slice, index, subtraction or unreachable! fails (exact arithmetic).", "quantifier": "every data set, both splitters, every parameter setting, both grow policies and every expansion order", "why_tests_cant": "Absence of panics over all inputs and growth histories.", "anchors": ["src/tree.rs:Tree::fit", "src/splitter.rs:handle_split_info", "src/utils.rs:pivot_on_split", "src/utils.rs:pivot_on_split_exclude_missing"]}
{"id": "C61", "title": "Node values are the optimal step for the rows they hold", "statement": "Without constraints and without a missing branch, every node's value (so every leaf's) is learning_rate times the regularised optimal weight of the gradient and hessian sums of exactly those sampled rows that prediction routes through the node (exact arithmetic).", "quantifier": "every data set, every growth order", "why_tests_cant": "Connects routing, sums and weights for all data.", "anchors": ["src/tree.rs:Tree::fit", "src/utils.rs:weight", "src/node.rs:as_node", "src/splitter.rs:evaluate_split"]}
{"id": "C62", "title": "A fit on sound inputs completes", "statement": "With finite targets, non-negative finite weights, a matrix of the declared size whose values are below f64::MAX and not NaN (unless NaN is the missing value), valid parameters with positive min_leaf_weight, positive L2 (or no sampling and some positive weight), and well-formed evaluation sets, fit returns Ok: no tree, metric or bookkeeping step panics and every gradient stays finite (exact arithmetic). An empty list of evaluation sets is not sound: with at least one iteration fit panics on it.", "quantifier": "every data set, every parameter setting, every sampling method and random stream, every number of iterations and evaluation sets", "why_tests_cant": "Termination without panic over all inputs and all iterations.", "anchors": ["src/gradientbooster.rs:GradientBooster::fit", "src/gradientbooster.rs:fit_trees", "src/data.rs:RowMajorMatrix::append_row", "src/sampler.rs", "src/metric.rs:roc_auc_score"]}
{"id": "C63", "title": "Training never raises the squared loss", "statement": "With SquaredLoss, no row sampling, no monotone constraints, no missing branch and a learning rate in [0,1], the weighted squared error on the training data of the first k+1 trees is never larger than that of the first k trees, for any regularisation, max_delta_step, depth, leaves and column sampling (exact arithmetic).", "quantifier": "every data set, every iteration, every parameter setting named", "why_tests_cant": "An optimality statement about every tree on every data set.", "anchors": ["src/gradientbooster.rs:fit_trees", "src/tree.rs:Tree::fit", "src/utils.rs:weight", "src/objective.rs:SquaredLoss"]}
{"id": "C64", "title": "A fitted model predicts finite numbers", "statement": "A model fitted on sound inputs gives one finite prediction per row, with any number of its trees, on every matrix of the training width whose cells are valid (exact arithmetic): no leaf weight is infinite or NaN.", "quantifier": "every training set, every scored matrix, every prefix of the trees", "why_tests_cant": "Ranges over all models and all inputs.", "anchors": ["src/gradientbooster.rs:predict", "src/tree.rs:predict", "src/utils.rs:weight", "src/splitter.rs:evaluate_split"]}
{"id": "C65", "title": "The chosen iteration is best in the metric's own direction", "statement": "With early stopping, the reported best iteration has, on the last evaluation set, a value no other evaluated iteration beats: the largest AUC when the metric is AUC, the smallest value for every other metric (NaN values aside).", "quantifier": "every training run with early stopping, every metric, every history", "why_tests_cant": "A wrong direction shows only on runs whose metric moves the right way.", "anchors": ["src/metric.rs:is_comparison_better", "src/metric.rs:metric_callables", "src/gradientbooster.rs:fit_trees"]}
{"id": "C66", "title": "Watching a fit does not change it", "statement": "Two successful fits on the same data whose parameters differ only in iterations, evaluation sets, evaluation metric, early stopping, logging and threads have the same base score, and the trees of one are a prefix of the trees of the other.", "quantifier": "every pair of such fits, every data set, every sampling method and seed", "why_tests_cant": "A relation between two whole training runs.", "anchors": ["src/gradientbooster.rs:fit_trees"]}
{"id": "C67", "title": "Each tree uses a column sample of the requested size", "statement": "Each tree is grown on a duplicate-free set of columns of the matrix, all of them when colsample_bytree is 1 and min(floor(cols * colsample_bytree), cols) otherwise, and splits only on these.", "quantifier": "every fit, every tree, every random stream", "why_tests_cant": "Depends on every draw of the generator.", "anchors": ["src/gradientbooster.rs:fit_trees", "src/gradientbooster.rs:587-599"]}
{"id": "C68", "title": "An unweighted fit is a fit with unit weights", "statement": "fit_unweighted gives exactly the result of fit with weight one for every row of the matrix, errors included.", "quantifier": "every data set, every parameter setting", "why_tests_cant": "An equation between two programs on all inputs.", "anchors": ["src/gradientbooster.rs:fit_unweighted"]}
{"id": "C69", "title": "Metadata is kept and inert", "statement": "get_metadata returns the last value inserted for a key and leaves other keys alone; inserting metadata changes neither fit nor predict.", "quantifier": "every key, value and model", "why_tests_cant": "Ranges over all models and all fits.", "anchors": ["src/gradientbooster.rs:insert_metadata", "src/gradientbooster.rs:get_metadata"]}
{"id": "C70", "title": "Only the order of feature values matters", "statement": "If the values of each feature are replaced by others in the same order (missing cells staying missing, all values below f64::MAX), fitting on the changed data gives the same trees with the thresholds changed alike, the same leaf weights, base score and evaluation history, and the same predictions and leaf indices on changed data.", "quantifier": "every data set, every order preserving change per feature, every parameter setting", "why_tests_cant": "A relation between runs on two data sets; holds for rounding floats.", "anchors": ["src/binning.rs", "src/utils.rs:percentiles", "src/gradientbooster.rs:fit", "src/tree.rs:predict"]}
{"id": "C71", "title": "Metric names", "statement": "The metric parser accepts exactly AUC, LogLoss, RootMeanSquaredLogError and RootMeanSquaredError, and reads each as the metric that a saved model writes under this name.", "quantifier": "every string", "why_tests_cant": "Infinitely many strings.", "anchors": ["src/metric.rs:Metric::from_str"]}
{"id": "C72", "title": "Only the weighted rows matter", "statement": "Without row sampling, fit depends on the training rows only through the total weight of each combination of values and label: reordering the rows, replacing a row by several copies that share its weight, or replacing a row of integer weight n by n rows of weight one gives the same model (same trees, weights, base score, history).", "quantifier": "every table of rows with positive weights, every parameter setting without row sampling, every evaluation set", "why_tests_cant": "A relation between runs on two data sets of any size; a test sees one pair.", "anchors": ["src/gradientbooster.rs:fit", "src/binning.rs:bin_matrix", "src/histogram.rs", "src/splitter.rs", "src/objective.rs"]}
{"id": "C73", "title": "Rows of weight zero", "statement": "A row of weight zero does not change the fitted model. (Expected by users of sample weights; refuted: the row's values still become candidate thresholds.)", "quantifier": "every data set and every added row of weight zero", "why_tests_cant": "The claim is about every data set; its failure needs a particular one.", "anchors": ["src/binning.rs:percentiles_or_value", "src/gradientbooster.rs:fit"]}
{"id": "C74", "title": "Targets in another unit give the same model in that unit", "statement": "With squared loss, fitting on targets a*y + c (a nonzero) instead of y, with l1 and max_delta_step multiplied by |a|, gamma by a*a, monotone directions turned round when a is negative, and the evaluation targets changed alike under the RMSE metric, gives the same trees with leaf weights times a and gains times a*a, the same stopping point, recorded metrics times |a|, and predictions a*p + c. A plain shift of the targets changes nothing but the base score.", "quantifier": "every data set, every parameter setting accepted by validation (for negative a without force_children_to_bound_parent), every a and c", "why_tests_cant": "A relation between two whole runs for every data set, unit and origin; a test sees single pairs, and rounding hides small failures.", "anchors": ["src/gradientbooster.rs:fit", "src/gradientbooster.rs:predict", "src/objective.rs:SquaredLoss", "src/utils.rs:weight", "src/splitter.rs", "src/tree.rs"]}
{"id": "C75", "title": "Exchanging the two labels changes the sign of the scores", "statement": "With log loss, fitting on labels 1 - y instead of y (monotone directions turned round) gives the same trees with leaf weights of the opposite sign, the same gains, recorded log losses and stopping point; the scores change sign, so predicted probabilities p become 1 - p.", "quantifier": "every data set with labels between 0 and 1, every parameter setting accepted by validation without force_children_to_bound_parent, log loss as metric", "why_tests_cant": "A relation between two whole runs for every data set; a test sees single pairs.", "anchors": ["src/gradientbooster.rs:fit", "src/objective.rs:LogLoss", "src/metric.rs:log_loss", "src/splitter.rs"]}
{"id": "C76", "title": "No bias between positive and negative targets", "statement": "In floating point, with squared loss and no monotone constraints, fitting on -y instead of y gives trees with the same structure and thresholds, and predictions of exactly the opposite value. (False with force_children_to_bound_parent.)", "quantifier": "every data set of binary64 values including infinities, depth-wise growth, every parameter setting accepted by validation without force_children_to_bound_parent", "why_tests_cant": "Exact equality of two whole floating point runs for every data set, whatever rounding does along the way.", "anchors": ["src/gradientbooster.rs:fit", "src/splitter.rs:bound_to_parent", "src/utils.rs", "src/histogram.rs"]}
{"id": "C77", "title": "Python predictions row by row", "statement": "For any frame, predict, predict_contributions and predict_leaf_indices answer each row as if it were alone, whatever the parallel argument: the answers for two frames put on top of each other are the answers for the first followed by those for the second. Contributions have one row per input row and one entry per column plus one; a prediction is the base score plus the weights of the leaves that predict_leaf_indices reports, added in tree order.", "quantifier": "every Python object, every 2-dimensional input with or without column names, every number of rows and columns, every parallel flag and work distribution", "why_tests_cant": "The numpy layout (column-major flattening, reshape, order F) is right only if it is right for every shape; tests use a few shapes.", "anchors": ["py-forust/forust/__init__.py:predict", "py-forust/forust/__init__.py:predict_contributions", "py-forust/forust/__init__.py:predict_leaf_indices", "py-forust/src/lib.rs"]}
{"id": "C78", "title": "Column names mean positions", "statement": "Training on a DataFrame with constraints and terminating features given by column name is the same as training on its array with them given by position: same exception or same model. After a fit every prediction method refuses a frame with other columns or another column order with ValueError, and treats a frame with the same columns as its array. A fit that raises leaves trees and parameters alone. (False: a fit that raises replaces the column names; a fit on an array keeps old column names.)", "quantifier": "every parameter setting, frame with distinct column names, targets, weights and evaluation sets", "why_tests_cant": "Names are translated by several dictionaries in two languages; a test exercises one set of names.", "anchors": ["py-forust/forust/__init__.py:fit", "py-forust/forust/__init__.py:_standardize_monotonicity_map", "py-forust/forust/__init__.py:_validate_features", "py-forust/src/lib.rs:fit"]}
{"id": "C79", "title": "A saved Python model answers as before", "statement": "After save_booster and load_booster, a Python object constructed with any accepted parameters, fitted any number of times (successfully or not), with any chosen prediction iteration and extra metadata, gives the same predictions, contributions, leaf indices, partial dependences, importances, evaluation history, metadata, column names and parameters (six of them rounded to single precision).", "quantifier": "every history of the object, every order in which maps are written; all floats of the model finite; missing finite or NaN", "why_tests_cant": "Needs an invariant over all histories of an object: what the attributes and the metadata say stays in step.", "anchors": ["py-forust/forust/__init__.py:save_booster", "py-forust/forust/__init__.py:load_booster", "py-forust/src/lib.rs:get_params", "py-forust/src/lib.rs:json_dump"]}
{"id": "C80", "title": "Training goes on after loading", "statement": "An object without monotone constraints and terminating features that was saved and loaded can be fitted again with the same outcome as the original: same exception, or models that answer everything alike. (False with a constraint on some of several named columns: the fit raises KeyError. Constraints are lost when the object is saved before its first fit.)", "quantifier": "every history of the object, every data set of the further fit", "why_tests_cant": "Quantifies over pairs of runs on arbitrary data.", "anchors": ["py-forust/forust/__init__.py:load_booster", "py-forust/forust/__init__.py:fit", "py-forust/src/lib.rs:get_params"]}
{"id": "C81", "title": "Pickling", "statement": "An object that was pickled and unpickled has the same parameters, gives the same answers, and every further fit has the same outcome as on the original, with any constraints.", "quantifier": "every history of the object; all floats of the model finite; missing finite or NaN", "why_tests_cant": "Quantifies over all histories and all further fits.", "anchors": ["py-forust/forust/__init__.py:__getstate__", "py-forust/forust/__init__.py:__setstate__"]}
{"id": "C82", "title": "get_params, set_params and clones", "statement": "get_params returns what the constructor was given, except the base score, which a fit with initialize_base_score replaces. The constructor accepts what get_params returned, and the object so made (sklearn's clone) fits exactly as the original did when new. set_params makes the object start over with changed parameters. (False: after set_params the object remembers the columns of the fit that is gone.)", "quantifier": "every history of the object, every data set", "why_tests_cant": "Cross-validation relies on clones never carrying anything over, for all fits.", "anchors": ["py-forust/forust/__init__.py:get_params", "py-forust/forust/__init__.py:set_params", "py-forust/forust/__init__.py:__init__"]}
{"id": "C83", "title": "The constructor refuses wrong options", "statement": "The constructor succeeds exactly when the objective, grow policy, metric and missing-node treatment are among the documented names and the ten checked numbers are neither NaN nor negative; otherwise it raises ValueError and nothing else. (False for two options: an unknown sample_method is taken as the random one, an unknown feature_importance_method is accepted. The contribution method \"shapley\" is refused although the other six are taken in lower case.)", "quantifier": "every combination of option values", "why_tests_cant": "Infinitely many option strings and numbers.", "anchors": ["py-forust/forust/__init__.py:__init__", "py-forust/src/lib.rs:new", "src/gradientbooster.rs:validate_parameters"]}
{"id": "C84", "title": "Partial dependence tables", "statement": "partial_dependence with samples=None lists exactly the distinct values of the column that are neither NaN nor the missing value, in strictly increasing order, after the missing value unless it is excluded, each with the model's partial dependence for the position the column had when the model was fitted; a column by name and by position give the same.", "quantifier": "every fitted object, frame and column", "why_tests_cant": "numpy's unique, the masks and the name lookup combine for every column content.", "anchors": ["py-forust/forust/__init__.py:partial_dependence", "py-forust/src/lib.rs:value_partial_dependence"]}
{"id": "C85", "title": "feature_importances_ lines up with the columns", "statement": "feature_importances_ has one entry per training column, in column order: the normalised importance of that column, and 0 for a column no tree splits on.", "quantifier": "every object whose trees are well formed and split on training columns only, named or not", "why_tests_cant": "The array is assembled from a dictionary in arbitrary order; a test sees one order.", "anchors": ["py-forust/forust/__init__.py:feature_importances_", "py-forust/forust/__init__.py:calculate_feature_importance", "src/gradientbooster.rs:calculate_feature_importance"]}
{"id": "C86", "title": "The table of trees agrees with the predictions", "statement": "trees_to_dataframe on a trained object gives one row per node, no ID twice; starting at the first row of a tree and going from row to row through the columns Missing, Yes and No according to the value of the named feature ends at exactly the leaf that predict_leaf_indices reports.", "quantifier": "every object trained on a frame with distinct column names or first trained on an array, every row predicted", "why_tests_cant": "Node numbering, names and missing directions combine for every tree shape and row.", "anchors": ["py-forust/forust/__init__.py:trees_to_dataframe", "py-forust/forust/__init__.py:get_node_lists"]}
{"id": "C87", "title": "An imported xgboost model predicts like the original", "statement": "The model made from an xgboost dump has the nodes of the dump by number, takes a tree exactly when its node numbers are 0..n-1, and predicts for rows held in single precision the (transformed) base score plus, tree by tree, the leaf xgboost reaches by comparing in single precision and sending missing values to the missing child.", "quantifier": "every dump with feature names whose splits name features and whose children carry the numbers referred to; every row", "why_tests_cant": "The dump may list children in any order and depth; comparisons at thresholds need all float values.", "anchors": ["py-forust/forust/__init__.py:_from_xgboost_model", "py-forust/forust/__init__.py:_xgboost_tree_to_nodes", "py-forust/forust/__init__.py:Node._from_xgboost_node"]}
{"id": "C88", "title": "Serializers give back what they were given", "statement": "NumpySerializer returns an array equal in shape and elements for every shape, also with zero or no dimensions; ScalerSerializer returns every string without quotes, backslashes, line breaks or null characters.", "quantifier": "all arrays and shapes, all such strings", "why_tests_cant": "Shapes with empty dimensions and characters in strings are unbounded.", "anchors": ["py-forust/forust/serialize.py:NumpySerializer", "py-forust/forust/serialize.py:ScalerSerializer"]}
{"id": "C89", "title": "A trained Python object always answers", "statement": "After a fit that raised nothing, predict and predict_leaf_indices on a frame with the same columns (or an array of the same width) neither raise nor abort, and give one answer per row.", "quantifier": "every life of an object, fit and frame whose NaN values are declared missing", "why_tests_cant": "Absence of exceptions over all trained models and frames.", "anchors": ["py-forust/forust/__init__.py:fit", "py-forust/forust/__init__.py:predict", "py-forust/forust/__init__.py:predict_leaf_indices", "py-forust/src/lib.rs:predict"]}
{"id": "C90", "title": "Monotone constraints given in Python hold", "statement": "When every column has a monotone constraint (by name for a DataFrame, by number for an array) and missing nodes are not averaged, two rows of any later frame that differ only in column f, both values present, get predictions ordered as the constraint on f says. (False when another column is unconstrained.)", "quantifier": "every life of the object, data set, parameters and pair of rows; IEEE and exact arithmetic", "why_tests_cant": "Quantifies over all trained models and all pairs of rows, through the translation of names into positions.", "anchors": ["py-forust/forust/__init__.py:fit", "py-forust/forust/__init__.py:_standardize_monotonicity_map", "py-forust/src/lib.rs:set_monotone_constraints", "src/constraints.rs"]}
{"id": "C91", "title": "fit trains with the options the constructor was given", "statement": "A successful fit trains on the cells of the frame with exactly the options given to the constructor: each name stands for the method it names, numbers arrive in single or double precision as declared, the constraint and the terminating flag of a column are those of its name, subsample below one without a sample method samples at random, and weights that were not given are ones, also for evaluation sets.", "quantifier": "every life of the object, all options and data", "why_tests_cant": "Thirty options pass through two languages by position; tests exercise few combinations.", "anchors": ["py-forust/forust/__init__.py:__init__", "py-forust/forust/__init__.py:fit", "py-forust/src/lib.rs:new"]}
{"id": "C92", "title": "The evaluation history shows the metric of predict", "statement": "After a fit with evaluation sets, get_evaluation_history has one row per tree and one column per set, and the entry of row k is the chosen metric of what predict returns on that set after set_prediction_iteration(k + 1).", "quantifier": "every life of the object, all data and evaluation sets", "why_tests_cant": "Relates every entry of the history to a separate computation, for all models.", "anchors": ["py-forust/forust/__init__.py:get_evaluation_history", "py-forust/forust/__init__.py:set_prediction_iteration", "py-forust/src/lib.rs:get_evaluation_history"]}
{"id": "C93", "title": "Spellings of contribution methods", "statement": "predict_contributions accepts exactly the documented spellings, each standing for its method; any other string raises ValueError.", "quantifier": "all strings", "why_tests_cant": "Ranges over all strings.", "anchors": ["py-forust/forust/__init__.py:CONTRIBUTION_METHODS", "py-forust/forust/__init__.py:predict_contributions"]}
{"id": "C94", "title": "Splits separate training rows", "statement": "Each split of a fitted model sends some training row of positive weight to its left child and another one to its right child. Hence a column that has the same value in all rows of positive weight is never split on; with a separate missing branch the same holds of a column with one non-missing value; and a tree (without missing branches) has at most as many leaves as there are training rows.", "quantifier": "all data, weights, options, evaluation sets, generators; any number of trees", "why_tests_cant": "Quantifies over every split of every tree of every fit.", "anchors": ["src/gradientbooster.rs:fit", "src/splitter.rs:best_feature_split", "src/tree.rs:fit"]}
{"id": "C95", "title": "Explanations of a fitted model add up", "statement": "For every model that fit returned, on every matrix with the columns of the training data: Weight, Average and Shapley contributions exist, are finite and sum to the prediction row by row; the ProbabilityChange contributions of a log-loss model sum to the predicted probability; the Shapley contributions are the Shapley values; partial dependence lies between the extreme predictions; importances list each split feature once.", "quantifier": "all data, options, fits, scored matrices", "why_tests_cant": "Combines training and explanation for every input; a unit test checks one model.", "anchors": ["src/gradientbooster.rs:fit", "src/gradientbooster.rs:predict_contributions", "src/gradientbooster.rs:value_partial_dependence", "src/gradientbooster.rs:calculate_feature_importance"]}
{"id": "C96", "title": "Columns no split uses are ignored", "statement": "If no tree that predict consults splits on a column, then changing that column of the scored matrix changes neither predictions, leaf indices nor contributions of any method; every contribution to it is exactly zero; partial dependence on it is the same at every value; and a column no tree splits on is not listed in the importances. For a column constant over the training rows of positive weight this holds of every fitted model.", "quantifier": "all models, scored matrices, columns, schedules; the last part: all data, options, fits", "why_tests_cant": "Relates two runs over every pair of matrices that differ in the unused column.", "anchors": ["src/gradientbooster.rs:predict", "src/gradientbooster.rs:predict_contributions", "src/gradientbooster.rs:predict_leaf_indices", "src/gradientbooster.rs:value_partial_dependence", "src/shapley.rs:tree_shap"]}
{"id": "C97", "title": "Copies of a column are never split on", "statement": "If a column of the training data repeats an earlier column with the same monotonicity constraint, or is a strictly increasing function of it that is missing in the same rows, then no tree that was offered the earlier column splits on the copy. Without column sampling the copy is therefore unused: it has no importance and changing it does not change predictions.", "quantifier": "all data, weights, options, samplings, evaluation sets, generators; any number of trees and columns; with rounding", "why_tests_cant": "Depends on how every tie between equal gains in every node of every tree is resolved.", "anchors": ["src/gradientbooster.rs:fit", "src/splitter.rs:best_split", "src/histogram.rs:HistogramMatrix"]}
{"id": "C98", "title": "Training longer extends the model", "statement": "If training for n iterations succeeds, then training on the same inputs for k <= n iterations succeeds as well, and its base score, trees and recorded metrics are the beginning of those of the longer training; if the longer training stopped early before k trees, the models are the same. Predictions, leaf indices and contributions of the shorter model are those of the longer one with the prediction iteration set to the last of its trees.", "quantifier": "all data, options, evaluation sets, samplings, generators, numbers of iterations; any arithmetic", "why_tests_cant": "Relates two trainings for every input and every pair of lengths.", "anchors": ["src/gradientbooster.rs:fit_trees", "src/gradientbooster.rs:set_prediction_iteration", "src/gradientbooster.rs:predict"]}
{"id": "C99", "title": "Without regularisation the mean of the predictions approaches, or is, the mean of the targets", "statement": "Squared loss, no L1, L2 or step limit, no sampling, no missing branch, no constraints, exact arithmetic: each tree multiplies the weighted total of the training errors by 1 - learning_rate, so after k trees it is (1 - learning_rate)^k times that of the base score. With the base score initialised from the data the weighted mean of the training predictions is that of the targets after every tree, for any learning rate and any shape of trees. With the default L2 = 1 this is false.", "quantifier": "all sound data, weights, options of the growing, sort orders, numbers of trees", "why_tests_cant": "An exact identity over all data sets; numerical tests can only see it up to tolerance, and a wrong leaf (rows routed differently in training and prediction) can be arbitrarily rare.", "anchors": ["src/gradientbooster.rs:fit_trees", "src/splitter.rs:best_split", "src/utils.rs:weight", "src/objective.rs:calc_init"]}
{"id": "C100", "title": "One tree stays within the range of the targets; two need not", "statement": "Squared loss, learning rate between 0 and 1, no sampling, no missing branch, no constraints, exact arithmetic: after the first tree every prediction, of any row of any data, lies between any lower and upper bound of the targets (and of the base score; if it is initialised from the data it does). After two trees a prediction can be below every target.", "quantifier": "all sound data, weights, regularisation, growing options; all rows predicted", "why_tests_cant": "For all data and all unseen rows; the second half shows that the bound users expect of averaging trees does not hold for boosted ones.", "anchors": ["src/gradientbooster.rs:fit_trees", "src/gradientbooster.rs:predict", "src/utils.rs:weight"]}
{"id": "C101", "title": "The text dump tells models apart", "statement": "Every model with well-formed trees has a text dump. If the dumps of two models are equal character by character then the trees agree in number, shape, splits, gains, covers and leaf values; with equal base score, prediction iteration and missing value the models give equal predictions on all data, equal partial dependence and equal feature importances. The dump does not determine contributions of method Weight, because values of nodes that are split are not printed.", "quantifier": "all models with well-formed trees; all data; any arithmetic; any injective way of printing numbers without commas, closing brackets and line ends", "why_tests_cant": "Comparing dumps is how users check that two models are the same; whether two different models can share a dump is a statement about all pairs of models.", "anchors": ["src/node.rs:Display for Node", "src/tree.rs:Display for Tree", "py-forust/src/lib.rs:text_dump"]}
{"id": "C102", "title": "Options that forbid splitting give constant models", "statement": "With max_depth = 0, or with max_leaves <= 1 and no missing branch, or with gamma infinite (or NaN), every tree of a fitted model is a single leaf, and every row of any data gets the same prediction: the base score plus the values of the leaves in order.", "quantifier": "all data, weights, other options, generators, numbers of trees; IEEE arithmetic for gamma, any arithmetic for the others", "why_tests_cant": "A limit on every training run; tests try a few data sets.", "anchors": ["src/tree.rs:fit", "src/splitter.rs:best_feature_split", "src/gradientbooster.rs:predict"]}
{"id": "C103", "title": "A redundant copy of a column changes nothing in the trained model", "statement": "Appending to the training matrix a copy of one of its columns (same monotone constraint, no column sampling) gives exactly the same trained model: same trees, same base score, same evaluation history, whatever the evaluation sets hold in the new column. With column sampling this fails.", "quantifier": "all matrices, columns, labels, weights, options with colsample_bytree = 1, evaluation sets, IEEE arithmetic", "why_tests_cant": "A statement about pairs of whole training runs on all data.", "anchors": ["src/gradientbooster.rs:fit", "src/splitter.rs:best_split", "src/binning.rs:bin_matrix"]}
{"id": "C104", "title": "A column with a single known value changes nothing in the trained model", "statement": "Appending a column that holds one number wherever it is not missing gives exactly the same trained model (same trees, base score and evaluation history), without column sampling, when missing values have their own branch, or splits on missingness are not allowed, or the column is missing in every row, or it is missing in no row and min_leaf_weight is positive. Otherwise it can change the model: with imputation and splits on missingness allowed, such a column separates the rows where it is missing.", "quantifier": "all matrices, columns with a single known value (any number, infinite ones included), labels, weights, options with colsample_bytree = 1, evaluation sets; IEEE arithmetic", "why_tests_cant": "A statement about pairs of whole training runs on all data.", "anchors": ["src/gradientbooster.rs:fit", "src/splitter.rs:evaluate_split", "src/binning.rs:bin_matrix"]}
{"id": "C105", "title": "Training never panics in floating point, whatever the numbers", "statement": "With rounding, overflow and NaN, fit() returns on every matrix of the declared size whose known values are below f64::MAX and whose NaN cells are missing values, with as many labels and weights as rows and any labels and weights at all: it reports an error exactly when its input checks reject the labels or weights, and otherwise trains. Gradients, row sums and leaf weights may be infinite or NaN. Asked of the options: 1 to 65534 bins, forcing children to bound the parent off with a missing branch, a positive min_leaf_weight when splits on missingness are allowed without a missing branch, and a GOSS top sample no larger than the data.", "quantifier": "all matrices, labels, weights, evaluation sets, options as stated, generators and sorts meeting their contracts; IEEE arithmetic", "why_tests_cant": "The panics guarded against (slices, subtractions, unreachable!, pivoting an empty range) depend on how rounding distributes sums over histograms; no finite set of runs shows their absence.", "anchors": ["src/gradientbooster.rs:fit", "src/tree.rs:fit", "src/splitter.rs:split_node", "src/utils.rs:pivot_on_split"]}
{"id": "C106", "title": "With squared loss and whole-number weights, covers are exact row counts in floating point", "statement": "Train with squared loss in IEEE arithmetic on any labels, with positive integer weights totalling at most 2^24 (weight 1 for every row included), min_leaf_weight positive and no GOSS. Then the cover of every node is exactly the total weight of the training rows (the sampled ones under random row sampling) that prediction sends through it; a leaf's cover is the weight of the training rows predicted to it; every split sends training rows both ways; and a column with one value in all rows is never split on. Without a branch for missing values a tree has at most one leaf per training row, and, when min_leaf_weight is above every whole number below k, a tree that splits has at most (total weight) / k leaves. This holds however the gradients round.", "quantifier": "all matrices, labels, integer weights as stated, options except GOSS, sorts and generators meeting their contracts; IEEE arithmetic; any number of trees", "why_tests_cant": "C94_rounding_refuted shows the claim fails for other weights of the same size; that it never fails for integer weights depends on every histogram subtraction being exact, in every tree on every data set.", "anchors": ["src/objective.rs:SquaredLoss", "src/histogram.rs", "src/splitter.rs:best_feature_split", "src/tree.rs:fit", "src/utils.rs:pivot_on_split"]}
{"id": "C107", "title": "Options of features that are switched off, and limits that are not reached, change nothing", "statement": "Two boosters whose options differ only where the feature they belong to is off train to the same trees, base score, evaluation history and best iteration: parallel and log_iterations; subsample without random sampling, top_rate and other_rate without GOSS, seed without row or column sampling; constraints that say Unconstrained instead of nothing; max_delta_step 0 or infinite; treatment of missing nodes, terminating columns and bounding of children without a missing branch; metric and early stopping rounds without evaluation data; the given base score when it is computed. If no tree reaches max_leaves, any other limit above its leaf counts gives the same model; if no node reaches max_depth, any larger one does.", "quantifier": "all matrices, labels, weights, evaluation sets, boosters and options, any arithmetic; max_depth with loss guided growth: heaps whose choice depends on the pending nodes", "why_tests_cant": "It is a statement about every pair of option sets at once; a test compares two. Seemingly neutral settings do matter: random sampling with subsample 1 keeps every row and yet gives another model in floating point (C107_subsample_one_refuted).", "anchors": ["src/gradientbooster.rs:fit", "src/gradientbooster.rs:fit_trees", "src/splitter.rs:evaluate_split", "src/tree.rs:fit", "src/utils.rs:weight", "src/utils.rs:constrained_weight", "src/sampler.rs"]}
{"id": "C108", "title": "Explanations follow the targets", "statement": "Squared loss: training on targets a*y + c (parameters in that unit, C74) multiplies every contribution of every feature by a, turns the bias x into a*x + c and a partial dependence v into a*v + c; gain importances are multiplied by a squared, split counts and covers stay, and normalised importances are the same. Log loss: with the two labels exchanged (C75) all contributions and partial dependences change sign, contributions to the probability change sign and their bias becomes one minus it, and all importances are the same. In exact arithmetic; with rounding a unit of 2^-200 empties the importances.", "quantifier": "all models, matrices, methods, schedules, factors a <> 0 and shifts c; for trained models the hypotheses of C74 and C75", "why_tests_cant": "The rules differ for seven contribution methods, five importances and the bias, and hold for every model; a test compares two models up to a tolerance that hides whether a difference is rounding or a wrong formula.", "anchors": ["src/gradientbooster.rs:predict_contributions", "src/gradientbooster.rs:value_partial_dependence", "src/gradientbooster.rs:calculate_feature_importance", "src/tree.rs:predict_contributions_row_*", "src/tree.rs:distribute_leaf_weights", "src/shapley.rs", "src/partial_dependence.rs"]}
{"id": "C109", "title": "The AUC is a matter of ranking", "statement": "The AUC of scored, labelled and weighted rows does not change when the scores are replaced by others in the same order, in particular by the probabilities of log loss, nor when all weights are multiplied by one positive number, nor when the labels are exchanged and the scores negated. Exchanging the labels alone turns a into 1 - a. The AUC is 1 exactly when every row with positive weight of the label 1 scores above every row with positive weight of the label 0. In exact arithmetic; in floating point two rows in the right order have AUC NaN with weights 2^600.", "quantifier": "all non-empty sets of rows with labels in [0, 1], weights not negative, scores not NaN (infinite ones included), any number of ties, every sort meeting its contract", "why_tests_cant": "The loop adds trapezoids between distinct scores in the order of an unstable sort; that the total only depends on the ranking is a statement about all tie patterns, weights and orders of equal scores.", "anchors": ["src/metric.rs:roc_auc_score", "src/metric.rs:trapezoid_area"]}
