# Formal model of jinlow/forust in Rocq

## 1. Shape of the model

`rocq/theories/` holds a function-by-function model of the crate in `/repo/src`.
Every definition carries a comment `(* file:lines ... *)` naming the code it models
and any simplification.

### Arithmetic
All numeric code is written once, over a record of floating point *operations*
(`Float.v`: `FloatOps`, `Floats`; no laws are fields of the record).  It is then used at

* **[G]** any operations at all: the theorem quantifies over the record, so it holds of
  f32/f64 hardware arithmetic, whatever it does (structure of trees, routing, schedules,
  bookkeeping, early stopping, serialisation);
* **[I]** IEEE-754 binary32/binary64 with round-to-nearest-even (Flocq's
  `BinarySingleNaN`; NaN payloads and signs are not modelled): order properties,
  binning, comparisons, monotonicity, counterexamples;
* **[X]** exact extended reals (`R` plus +inf, -inf, NaN, with IEEE rules for the
  special values and no signed zero): algebraic identities, which hold only up to rounding
  in the real code.  Each such theorem says "exact arithmetic" in its property.

exp, ln, ln_1p of the C library are fields of the operations record (oracles) in [G]/[I];
in [X] they are the real functions.

### Control
* A Rust panic (out-of-bounds, `unwrap` on None, failed `assert!`, subtraction underflow,
  `unreachable!`) is `None` in the option monad; `Result::Err` is a separate value.
* `while`/`loop` become structural recursion or fuel; the fuel passed is proved sufficient.
* The RNG (`StdRng`) is an oracle: a stream of draws, universally quantified.
* `sort_unstable_by` is modelled by a relation/oracle: any permutation that is sorted by
  the comparator (theorems hold for every such permutation), or by a concrete insertion
  sort where ties are indistinguishable.
* `BinaryHeap` pop is an oracle returning any position of the pending list (theorems hold
  for every expansion order); `VecDeque` push_front/pop_back is a FIFO list.
* rayon `par_iter().map().collect()` is an arbitrary binary splitting of the index range
  with results concatenated; `par_chunks_mut().for_each` is an arbitrary interleaving of
  per-chunk tasks; parallel `sum` is an arbitrary reduction tree.
* `HashMap`/`HashSet` are association lists/lists used only through lookup and membership;
  where iteration order matters (importance, JSON) the order is an arbitrary permutation.

## 2. Files

All under `rocq/theories/`, in build order.  *Model* files contain definitions only (plus the
small lemmas needed to define them); *proof* files contain lemmas; `Prop*.v` files contain, per
property, the theorem, `Print Assumptions` and an example meeting its hypotheses.

| model file | source | contents |
|---|---|---|
| `Prelude.v` | - | option monad (None = panic), list helpers, parallel collect schedules |
| `Float.v` | `data.rs` FloatData | the operations record `FloatOps`, class `Floats` |
| `FloatX.v`, `FloatI.v` | - | exact instance `XF`, IEEE instance `IF` |
| `Data.v` | `data.rs` | column-major, row-major and jagged matrices |
| `Utils.v` | `utils.rs`, `constraints.rs` | weight, gain, bounds, sums, percentiles, map_bin, pivots |
| `Binning.v` | `binning.rs` | cuts and binned data |
| `Histogram.v` | `histogram.rs` | bins, histograms, subtraction |
| `Node.v` | `node.rs`, `splitter.rs:14-40` | nodes, split descriptions |
| `Splitter.v` | `splitter.rs` | both splitters: split search, missing handling, clean-up passes |
| `Tree.v` | `tree.rs`, `grower.rs` | growing loop, prediction, leaf indices |
| `Objective.v`, `Metric.v`, `Sampler.v` | same names | losses, gradients, base score; metrics; row sampling |
| `Contrib.v` | `tree.rs`, `shapley.rs`, `partial_dependence.rs` | contributions, TreeSHAP, partial dependence, importances, text dump |
| `Booster.v` | `gradientbooster.rs`, `utils.rs:33-94` | constructor, validation, fit, predict, setters, importances |
| `Serde.v` | serde derives, `gradientbooster.rs:194-251` | save and load at the level of JSON values |
| `PyWrap.v` | `py-forust/src/lib.rs`, `py-forust/forust/__init__.py` | the Python class: constructor, fit, predictions, importances, partial dependence, save, load, pickle |

| proof files | about |
|---|---|
| `FloatLaws`, `FloatMono`, `OrdProofs` | order and monotonicity laws of both instances |
| `DataProofs` | containers |
| `UtilsX` | weight, gain and sums, exact |
| `PivotProofs`, `Pivot3Proofs` | in-place partitions |
| `BinningProofs`, `CutProofs`, `BinMatrix`, `BinningX`, `CutQuant` | cuts, bins, percentiles |
| `HistogramProofs`, `HistogramX`, `HistBinned` | histogram contents |
| `SplitProofs`, `EvalProofs` | split search and split evaluation |
| `GrowProofs`, `GrowInv`, `GrowStep`, `TreeWf`, `TreeProofs`, `FitProofs`, `FitSplits` | the invariant of the growing loop (a ghost tree recording the growth) and what follows for fitted trees |
| `PathProofs`, `RouteX`, `RouteFit`, `NoPanic` | routing of rows, sums per node, absence of panics |
| `SamplerProofs`, `MetricX`, `MetricProofs`, `ObjectiveX`, `PosSort` | sampling, metrics, losses |
| `PredictProofs`, `BoostProofs`, `FitModel` | prediction, boosting loop, early stopping, refits |
| `GrowWeights`, `GrowMono`, `MonoFit`, `Bracket` | leaf weights, monotone constraints, bracketing |
| `MissTree`, `MissDir`, `MissWeights` | missing values while growing |
| `FinX`, `BoostX`, `LossX` | finite values, completion of fits, descent of the squared loss |
| `FittedX` | exact arithmetic: each side of a split of a fitted tree has rows of positive weight; covers are positive and finite |
| `Unused` | any arithmetic: answers of a model depend only on the columns its trees split on |
| `Twin` | any arithmetic: columns binned alike have equal histograms in every node; the later one is never chosen |
| `Extend` | any arithmetic: the iterations option only says how long the loop runs |
| `Groups` | X: the value each leaf gives to its training rows is the step of the group; total error per tree, range of the first tree |
| `Dump` | model of `Display` for nodes and trees (node.rs, tree.rs) and of text_dump; equal texts have equal nodes |
| `NoSplit` | any arithmetic: trees of one node under depth and leaf limits, their predictions |
| `Widen` | Growing a tree with one more column that the search never takes [G] |
| `WidenFit` | Binning and training with one more column [G] |
| `Constant` | Binning and search on a column with a single known value [G] |
| `NoPanicAny` | Growing a tree never panics, any arithmetic [G] |
| `FitAny` | A fit never panics, any arithmetic [G] |
| `CountRoute` | Hessians that are counts: covers and routing of one tree [G] |
| `CountFit` | The same for a tree grown on binned data [G] |
| `CountI` | Integers up to 2^24 are exact [I] |
| `CountModel` | Covers and splits of a fit on whole-number weights [G] |
| `GossI` | A share of at most one of n rows is at most n rows [I] |
| `Neutral` | Options without effect: splitters that decide alike, trees, boosting loop [G] |
| `Limits` | Limits that no tree reaches [G] |
| `Explain` | Explanations are linear in the node weights [G, under linearity laws] |
| `ExplainX` | Change of unit and exchange of labels: contributions, dependences, importances [X] |
| `AucX` | The AUC as a function of the ranking: order-preserving maps, unit of the weights, exchanged labels [X] |
| `ContribProofs`, `ContribX`, `ImportProofs`, `DependX`, `WfCheck` | contributions, importances, partial dependence |
| `Shapley`, `ShapX`, `ShapTree` | Shapley values and the path algorithm |
| `SerdeProofs`, `SerdePredict` | saving and loading |
| `TrainMore` | fits that differ only in how they are watched, columns per tree, metadata |
| `Sim`, `Recode`, `Rescale`, `RescaleFit` | simulation between fits on two codings of the features: split search, growing, binning, whole fit |
| `Distr`, `DistrCuts`, `DistrFit`, `DistrRows` | exact arithmetic: simulation between fits on two data sets with the same weighted rows: growing, cuts, whole fit, tables of rows |
| `Scale`, `ScaleFit` | any arithmetic: simulation between two fits whose gradients, gains, scores and metrics are related (laws `ScaleLaws`, `FitLaws`, `MetricLaws`) |
| `ScaleX`, `ScaleThm` | the laws for multiplication by a real number, squared loss under a*y + c, log loss under 1 - y; whole fits and predictions |
| `ScaleI` | the laws for change of sign in IEEE arithmetic (rounding to nearest even is odd) |
| `FloatConv` | IEEE: widening and rounding back |
| `PyNames`, `PyProofs`, `PyState`, `PyLoad`, `PyFit`, `PyMore`, `PyExamples` | the Python class: option names, array layout, invariant over all uses of an object, loading and pickling, names against positions and clones, answers; the object used in examples |
| `PyTable`, `PyTrained` | `__init__.py`: `get_node_lists`, `trees_to_dataframe`; what holds after a successful fit |
| `PyMono` | training from Python in terms of the options given: constraints, terminating features, weights, history, method names |
| `XgbImport` | `__init__.py`: import of xgboost models; what an xgboost tree computes |
| `PySerialize` | `serialize.py`; the fragment of Python string literals it needs |

Property files: `PropBinning` C01-C05; `PropHist` C06-C09, C10, C22, C55, C56; `PropTree` C11-C21,
C57, C59-C61; `PropMetric` C46-C52; `PropPredict` C10, C28-C31, C41-C45; `PropWeights` C23-C27;
`PropFit` C62-C64; `PropContrib` C29, C32-C34, C37-C40, C58; `PropShap` C35, C36;
`PropSerde` C53, C54; `PropTrain` C65-C71; `PropDistr` C72, C73; `PropSymmetry` C74-C76;
`PropPython` C77-C85; `PropPyTrees` C86-C89; `PropPyTrain` C90-C93; `PropFitted` C94, C95; `PropUnused` C96; `PropTwin` C97; `PropExtend` C98; `PropGroups` C99, C100; `PropDump` C101; `PropOptions` C102; `PropCopy` C103; `PropConstant` C104; `PropAny` C105; `PropCount` C106; `PropNeutral` C107; `PropExplain` C108; `PropAuc` C109.

## 3. Plan per property

| id | level | model | proof |
|---|---|---|---|
| C01 | I | map_bin, bin_matrix | binary search invariant + order laws of binary64 |
| C02 | I | bin_matrix | first percentile is 0, so the minimum is a cut |
| C03 | I | percentiles(_or_value) | loop invariant: output sorted and drawn from the input |
| C04 | G/I | map_bin, bin_matrix | bound from C03; refuted at nbins = 65535 |
| C05 | X | percentiles | loop invariant on cumulative weight |
| C06, C07 | G | pivots | two/three cursor invariants; refuted if no row goes right |
| C08 | X (content), G (layout) | histogram | fold invariant, jagged offsets |
| C09 | X | subtraction | sums over a partition |
| C10 | G | parallel collect / for_each | induction on splitting tree / interleaving; PDP sum refuted bitwise |
| C11, C12, C13, C15, C17, C19, C57 | G | Tree::fit loop | inductive invariant of the growth state, any expansion order |
| C14 | G | same | refuted by a concrete run; max_leaves + 1 proved |
| C16 | I, X | same | sign of a rounded difference |
| C18 | I, X | best_split | argmax fold |
| C20, C21 | X | Tree::fit + bin_matrix | growth invariant: histogram and sums of every pending node are those of its rows; covers force non-empty sides |
| C22 | X | weight | convexity |
| C23 | I | weight chain | order laws |
| C24 | X, I | constraints | bounds invariant when every split feature is constrained; refuted in general |
| C25 | I | bound_to_parent | case analysis; assertion failure reachable |
| C26 | G, X | missing treatments | growth invariant, structural induction |
| C27 | G | imputer | case analysis |
| C28-C31, C58 | G | predict, fit_trees | induction on trees / iterations |
| C32-C34 | X | contributions | telescoping along the path |
| C35, C36 | X | TreeSHAP | path weights are coefficients of prod (z_j + o_j x), extend/unwind = multiply/divide; null-player lemma |
| C37 | G | difference methods | path induction |
| C38 | X | PDP | induction on the tree |
| C39 | X | importance | sums over nodes |
| C40 | G | Display | stack invariant |
| C41, C42, C44 | G | fit_trees | induction on iterations |
| C43, C45 | G | validation | direct |
| C46, C47 | X | metrics | prefix-sum invariant, permutation |
| C48 | I | comparison | order laws |
| C49, C50 | X | objectives | derivatives in R |
| C51, C52 | G, X | samplers | induction on draws |
| C53, C54 | G | serde | field-wise round trip; refuted for non-finite fields |
| C55, C56 | G, X | containers, sums | list arithmetic |
| C59 | I | Tree::fit loop | the loop ends only with no pending node or a full leaf budget |
| C60 | X | Tree::fit | growth invariant carries sizes and bounds of every index used |
| C61 | X | Tree::fit | C21 + C22 for every node |
| C62 | X | GradientBooster::fit | every step of the loop returns when the inputs are sound |
| C63 | X | fit with squared loss | C61 per leaf: a damped optimal step does not raise the quadratic |
| C64 | X | fit, predict | node values finite by the growth invariant |
| C65 | G + order laws (I, X) | early stopping | C41 read per metric |
| C66 | G | boosting loop | lockstep of two runs |
| C67 | G | column sample | C12's invariant plus the generator's specification |
| C68, C69 | G | fit_unweighted, metadata | equations; metadata carried through the loop unchanged |
| C70 | G + order laws (I, X) | whole fit | simulation: same bins and histograms, thresholds mapped; the sorts may only compare (`compares`) and the pick among pending nodes may depend on their numbers and gains only (`gain_based`) |
| C71 | - | from_str | case analysis |
| C72 | X, refuted on I | whole fit on a table of rows | simulation of the two fits: index sets hold the same weighted kinds of rows; cuts, histograms and sums are functions of these |
| C73 | refuted on I | whole fit with an added row of weight zero | witness |
| C74 | X, refuted on I | whole fit on targets a*y + c; predictions | relational simulation of the two runs, then the relation read as a function |
| C75 | X | whole fit on labels 1 - y; scores and probabilities | same simulation with a = -1 |
| C76 | I; refuted with forced bounds | whole fit on targets -y | same simulation; every operation determined, up to sign, by the numbers its operands stand for |
| C77 | G | py_predict, py_predict_contributions, py_predict_leaf_indices | column-major layout: a cell of the flattened frame is the cell of its row; then row by row |
| C78 | G; refuted: names after a failing fit, old names after a fit on an array | py_fit, if_valid | dictionaries of names and of positions give the same Rust maps |
| C79 | G with narrowing law; law proved for I | py_load (py_save m) | invariant `sane` over all uses (`life`); loaded object written out |
| C80 | G; refuted with constraints | py_fit on the loaded object | relation `twin`, kept by fits |
| C81 | G | py_setstate (py_getstate m) | `twin` |
| C82 | G; refuted: names after set_params | py_get_params, py_new, py_set_params | `sane`; a fit that takes the base score from the data forgets the old one |
| C83 | G; refuted for two options | py_init | inversion of the option tables |
| C84 | G with order laws | py_partial_dependence | insertion keeps the list strictly increasing |
| C85 | G | py_feature_importances | keys of the importance map are the split features |
| C86 | G; refuted with stale names | py_trees_to_dataframe | rows of the table are the nodes; `follow` mirrors `walk` |
| C87 | G with the order law of widening (I); refuted without names, for a plain Booster, for double precision rows, for saving | from_xgboost_model | the queue visits a permutation of the nodes; induction over the nested tree |
| C88 | G; refuted for quotes | numpy_serialize, scaler_serialize | induction on the shape, on the string |
| C89 | G | py_fit, py_predict, py_predict_leaf_indices | `life_clean`, C30 |
| C90 | I, X | py_fit, py_predict, standardize_monotonicity_map | `constraint_at`, C24 |
| C91 | G | py_init, py_fit | `py_fit_parts`, `constraint_at`, `constraint_none`, `terminate_at` |
| C92 | G | py_fit, py_evaluation_history, py_set_prediction_iteration | `history_rows`, C31 |
| C93 | - | contribution_name, py_predict_contributions | lookup in the table of names |
| C94 | X | fit, best_feature_split | both children of a ghost node have positive hessian; leaves of distinct rows |
| C95 | X | fit, predict_contributions, partial dependence, importances | `fit_gain_fin`, `tree_covers_positive`, then C32-C39 |
| C96 | G (constant columns: X) | predict, predict_leaf_indices, predict_contributions, value_partial_dependence, calculate_feature_importance | `predict_agree`, `contributions_agree`, `unused_cell`; C94 |
| C97 | I | fit, best_split, from_parent_child, from_parent_two_children, column sampling | `tw` invariant over the growing tree, `best_split_some`; `equal_alike`, `increasing_alike` |
| C98 | G | fit, fit_trees, predict, predict_contributions | `loop_iters`, `loop_app`, `loop_extends` |
| C99 | X, I | tree_fit, tree_predict, weight, calc_grad_hess, calc_init, fit | `tree_leaves`, `tree_groups`, `tree_error`, `base_mean` |
| C100 | X, I | tree_fit, predict, weight | `weight_between`, `first_range`, `base_range` |
| C101 | G, I | Display for Node and Tree, text_dump, predict, value_partial_dependence, calculate_feature_importance | `line_shown`, `lines_shown`, `tree_shown`, `walk_shown` |
| C102 | G, I | tree_fit, fit, predict | `wf_one_leaf`, `fit_depth0`, `fit_one_leaf`, `one_node_constant` |
| C103 | G, I | tree_fit, bin_matrix, fit | `tree_fit_wide`, `tw_best`, `bin_wide`, `fit_copy` |
| C104 | G, I | bin_matrix, evaluate_split, fit | `const_cuts`, `single_quiet`, `fit_wide`, `fit_constant` |
| C105 | G, I | fit, tree_fit | `gvalid_empty`, `empty_unsplit`, `NoPanicAny.fit_never_panics_any`, `FitAny.fit_never_panics_any` |
| C106 | G, I | fit, tree_fit | `gvalid_routed`, `fit_routes`, `fit_cover`, `i_count_laws`, `count_covers`, `count_separates`, `count_leaves_any` |
| C107 | G, I | fit, tree_fit | `tree_alike`, `fit_with`, `fit_same`, `tree_limits`, `fit_limits` |
| C108 | X, refuted on I | predict_contributions, value_partial_dependence, calculate_feature_importance | `contributions_table`, `dependence_value`, `importance_h`, `labels_probability` |
| C109 | X, refuted on I | roc_auc_score | `auc_order`, `auc_exchange`, `auc_flip`, `auc_one`, `prob_order` |

## 4. Trusted base

* The Coq 8.16.1 kernel (`vm_compute` is used in examples and refutations only).
* The standard-library axioms listed per theorem in section 5.  They come with `Reals`
  (`ClassicalDedekindReals.sig_not_dec`, `ClassicalDedekindReals.sig_forall_dec`,
  `FunctionalExtensionality.functional_extensionality_dep`) and with Flocq's and the standard library's
  classical lemmas (`Classical_Prop.classic`).  No axiom is declared in this development.
* The faithfulness of the model to the Rust text, argued definition by definition in the comments.
* Flocq's IEEE-754 formalisation for the [I] theorems, and the assumption that the target's f32/f64
  operations follow it with round-to-nearest-even.  The Rust compiler and the libraries called are trusted
  to do what their documentation says.

External behaviour is quantified over rather than assumed:

| dependency | in the model |
|---|---|
| `StdRng` | stream of draws, arbitrary (some theorems ask that draws lie in [0,1) or that picked columns exist) |
| `sort_unstable_by`, `sort_by` | any function returning a sorted permutation |
| `BinaryHeap::pop` | any choice of a pending node |
| rayon | any splitting tree or interleaving |
| `HashMap` iteration | any permutation |
| `exp`, `ln`, `ln_1p` | arbitrary functions in [G]/[I], the real functions in [X] |
| serde_json number text | a codec that reads back what it printed for finite numbers; non-finite numbers print as null |

### Modelled
All of `binning.rs`, `constraints.rs`, `data.rs`, `grower.rs`, `histogram.rs`, `metric.rs`, `node.rs`,
`objective.rs`, `partial_dependence.rs`, `sampler.rs`, `shapley.rs`, `splitter.rs`, `tree.rs`, `utils.rs`
and `gradientbooster.rs` outside their test modules, and the Python package (`py-forust/src/lib.rs`,
`py-forust/forust/__init__.py`, `py-forust/forust/serialize.py`), up to the points below.

### Not modelled
* JSON text: `Serde.v` maps a booster to a JSON *value* and back.  Struct-as-array input, externally tagged
  enum variants written as maps, duplicate keys and integer ranges on input are not modelled.
* Files (`save_booster`, `load_booster`) and the errors they raise, logging, the digits of numbers in texts,
  `errors.rs` message texts.
* usize overflow: sizes are unbounded naturals (u16 bin numbers are range checked).
* NaN payloads and signs.  Memory and stack limits.
* The scalar/SIMD choice of the compiler: `fast_sum` and friends are modelled as written.
* `lib.rs` (re-exports), `benches`, `examples`, `scripts`.
* Of `py-forust`: warnings, logging, dtype conversion and non-contiguous arrays, integers out of range (other than
  in dictionaries), the `samples` argument of `partial_dependence` (numpy.quantile),
  repeated column names in `X.loc`.  The strings "tree-node" in the table of trees are pairs of numbers.  An xgboost model is
  its dump, names, base score and objective; `json.dumps` and reading back keep every number except for rounding to single
  precision.  Of Python's string literals only those in single quotes with four escapes are modelled.

### Limits of the properties
[X] theorems are about exact arithmetic: in f32/f64 they hold up to rounding, and branches that compare
rounded numbers may go the other way.  The following are false of the model as first stated and proved in a
restricted form, with the counterexample as a theorem:

| id | what fails |
|---|---|
| C01 | infinite values (above the sentinel f64::MAX) are not separated by the last cut |
| C02 | a column whose weights are all zero gets no cuts, so all values share the missing bin |
| C04 | nbins = 65535 exhausts u16 |
| C06 | when every row goes left the last row is put on the right |
| C14 | max_leaves with a missing branch can be exceeded by one |
| C24 | with an unconstrained column a monotone constraint can be violated |
| C25 | with an unconstrained column the bracketing assertion can abort a fit |
| C44 | a user-set prediction iteration survives a fit; empty evaluation list panics |
| C53 | a model with a non-finite float other than NaN `missing` cannot be loaded |
| C72 | with rounding the base score depends on the order of the rows |
| C73 | a row of weight zero adds candidate thresholds |
| C74 | with rounding a shift of 2^60 or a unit of 2^-200 removes every split |
| C76 | force_children_to_bound_parent moves the right child for positive targets and the left child for negative ones |
| C78 | a fit that raises replaces the column names; a fit on an array keeps the names of an earlier frame |
| C80 | after loading, constraints on some of several named columns make the next fit raise KeyError; an object saved before its first fit loses its constraints |
| C82 | set_params keeps the column names of the fit it throws away |
| C86 | after a fit on a frame and one on a wider array the table raises KeyError |
| C87 | without feature names every split moves to column 0; a plain xgboost Booster is refused; rows in double precision can go the other way at a threshold; the names are lost on saving |
| C88 | strings with quotes or backslashes fail or come back changed |
| C99 | with the default L2 = 1 the mean of the predictions is not that of the targets |
| C100 | two trees can predict below every target |
| C101 | contributions by Weight differ between models with the same text |
| C94 | with rounding a leaf can be reached by no training row (its recorded weight is an artefact of subtraction) |
| C103 | with column sampling a copied column changes the model |
| C104 | with imputation and splits on missingness, a column with one value and gaps is used |
| C105 | not covered: min_leaf_weight 0 with splits on missingness and no missing branch |
| C106 | LogLoss, GOSS, fractional weights and totals above 2^24 are not covered |
| C107 | random sampling with subsample 1 is not the same as no sampling in floating point |
| C108 | with rounding, targets times 2^-200 leave a model without importances |
| C109 | with rounding, the AUC of two rows in the right order is NaN for weights 2^600 |
| C83 | unknown sample_method and feature_importance_method are accepted; "shapley" is refused |

## 5. Axioms per theorem

Generated by `tools/axioms.py` from the `Print Assumptions` commands of the `Prop*.v` files.

<!-- AXIOMS -->
* **no axiom** (closed under the global context) — 123 theorems: C06_all_left_refuted, C06_empty_panics, C06_two_way_partition, C07_permutes, C07_three_way_partition, C101_dump_exists, C101_same_text_same_model, C101_text_shows, C102_constant, C102_max_depth_zero, C102_one_leaf, C107_max_depth, C107_max_leaves, C107_options, C10_histogram_parallel, C10_parallel_contributions, C10_parallel_fit, C10_parallel_leaf_indices, C10_parallel_predict, C11_well_formed, C12_max_depth, C13_max_leaves, C14_max_leaves_branch, C15_min_leaf_weight, C19_rows_tiled, C26_average_leaf_weight, C26_missing_branch, C28_prediction_is_leaf_sum, C29_row_alone_contributions, C29_row_alone_leaves, C29_row_alone_predict, C30_clean, C30_contributions_total, C30_fitted_predicts, C31_history_is_metric, C31_trees_follow_predictions, C32_C33_cells, C33_average, C34_cells, C36_all_subsets, C36_subsets, C36_subsets_once, C37_difference_contributions, C37_missing_branch_adds_nothing, C39_importance, C39_normalised, C40_dump, C42_refit_forgets, C43_rejects_bad_inputs, C44_tree_count, C45_new_is_empty, C49_rowwise, C51_random_splits_rows, C52_excluded_empty, C52_goss, C52_goss_rate, C52_top_rate_panics, C53_loads_iff_finite, C53_missing, C53_round_trip, C53_same_answers, C54_defaults, C54_like_saved, C54_old_dump, C55_append_row, C55_append_row_total, C55_column_major, C55_jagged, C57_fails_only_by_panic, C57_size, C57_turns, C58_child, C58_missing_pattern, C58_nan_rejected, C58_path_follows, C62_empty_evals, C65_metric_direction, C66_watching, C67_columns, C68_unweighted, C69_metadata, C69_metadata_inert, C70_recoding, C71_metric_names, C71_metric_names_all, C77_contributions_shape, C77_leaf_indices_explain, C77_rows_independent, C78_failed_fit_keeps_trees, C78_names_are_positions, C78_other_columns_refused, C78_same_columns_accepted, C79_save_load, C80_refit_after_load, C81_pickle, C82_clone, C82_get_params, C82_set_params, C83_constructor, C83_lower_case_refuted, C84_by_name, C84_partial_dependence, C85_feature_importances, C86_columns, C86_table, C87_import, C87_nodes, C88_arrays, C88_quotes_refuted, C88_strings, C89_trained_answers, C91_fit_uses_options, C92_history, C93_method_names, C93_other_names, C96_contributions, C96_dependence, C96_importance, C96_leaf_indices, C96_no_credit, C96_predict, C98_longer_training, C98_predictions.
* `ClassicalDedekindReals.sig_forall_dec`, `ClassicalDedekindReals.sig_not_dec`, `Classical_Prop.classic`, `FunctionalExtensionality.functional_extensionality_dep` — 157 theorems: C01_binned_split_agrees, C01_infinity_refuted, C02_bin_zero_iff_missing, C02_zero_weights_refuted, C03_cuts, C04_bin_matrix_overflow, C04_bin_matrix_total, C04_bin_overflow_refuted, C05_bin_cuts_quantiles, C05_percentiles_quantiles, C08_histogram, C08_histogram_exact, C09_subtract_one, C09_subtract_two, C100_first_tree_in_range, C100_two_trees_refuted, C101_weight_contributions_refuted, C102_gamma_infinite, C103_colsample_refuted, C103_copy_changes_nothing, C104_constant_changes_nothing, C104_missing_used_refuted, C105_fit_never_panics, C105_goss_params, C105_top_rate, C105_tree_never_panics, C106_constant_column, C106_cover, C106_leaf_cover, C106_leaves_rows, C106_leaves_weight, C106_routes, C106_separates, C106_tree_cover, C107_step_off, C107_subsample_one_refuted, C108_contributions_change_of_unit, C108_dependence_change_of_unit, C108_explanations_follow_targets, C108_importance_change_of_unit, C108_labels_exchanged, C108_unit_rounding_refuted, C109_labels_and_scores, C109_labels_exchanged, C109_one_iff_separated, C109_order_only, C109_probabilities, C109_weight_unit, C109_weight_unit_rounding_refuted, C14_max_leaves_branch_refuted, C16_gamma, C17_split_cut, C18_best_split, C18_no_split, C18_tree_splits, C20_routes, C21_cover, C22_gain, C22_gain_given_weight, C22_weight_optimal, C23_max_delta_step, C23_max_delta_step_exact, C24_monotone, C24_monotone_below, C24_monotone_exact, C24_monotone_refuted, C25_abort_refuted, C25_brackets, C25_no_abort, C26_average_formula, C26_missing_weight, C27_missing_right_by_default, C27_missing_side, C32_weight_sums, C33_average_sums, C34_probability_sums, C35_shapley_sums, C36_coalition, C36_shapley_values, C38_between_leaves, C38_partial_dependence, C38_unused_feature, C39_importance_exact, C41_early_stopping, C44_no_evaluation_sets_panics_refuted, C44_user_iteration_survives_refuted, C45_new_validates, C46_auc_is_pair_share, C46_auc_no_rows, C46_auc_row_order, C47_invariant, C47_log_loss, C47_rmse, C47_rmsle, C48_nan_worst, C48_strict_order, C49_derivatives, C50_base_score_zero_gradient, C51_random_extremes, C53_infinite_missing_refuted, C53_trained_model_does_not_load_refuted, C56_fast_f64_sum, C59_leaves_done, C60_never_panics, C61_values, C62_base_score, C62_fit_completes, C63_loss_never_increases, C63_tree_never_raises_loss, C64_predictions_finite, C72_row_order, C72_row_order_rounding_refuted, C72_shared_weight, C72_weight_counts, C72_weighted_rows, C73_zero_weight_row_refuted, C74_predictions_change_of_unit, C74_shift_rounding_refuted, C74_targets_change_of_unit, C74_targets_shift, C74_unit_rounding_refuted, C75_labels_exchanged, C75_scores_change_sign, C76_forced_bounds_refuted, C76_targets_change_sign, C78_failed_fit_keeps_columns_refuted, C78_refit_on_array_refuted, C80_constraints_survive_refuted, C80_refit_after_load_refuted, C82_set_params_is_new_refuted, C83_misspelt_options_refuted, C86_refit_on_array_refuted, C87_double_precision_refuted, C87_names_saved_refuted, C87_plain_booster_refuted, C87_widening, C87_without_names_refuted, C90_monotone, C90_monotone_exact, C90_one_column_refuted, C94_constant_column, C94_constant_values, C94_leaves_bounded, C94_rounding_refuted, C94_splits_separate, C95_contributions, C95_importance, C95_partial_dependence, C95_probability, C95_shapley_values, C96_constant_column, C97_copy_is_ignored, C97_duplicate_column, C97_increasing_copy, C99_error_shrinks, C99_l2_refuted, C99_mean_preserved.
* `ClassicalDedekindReals.sig_forall_dec`, `ClassicalDedekindReals.sig_not_dec`, `FunctionalExtensionality.functional_extensionality_dep` — 2 theorems: C56_fast_sum, C56_naive_sum.
* `ClassicalDedekindReals.sig_forall_dec`, `FunctionalExtensionality.functional_extensionality_dep` — 1 theorems: C36_shapley_spelled.
<!-- END AXIOMS -->
