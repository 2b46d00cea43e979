# Design of the formal model of acv-exp (salimamoukou/acv00)

The source in `/repo` is read as text; nothing is built or run.  The model is a
set of total, computable Gallina functions that mirror the Python / Cython / C
functions branch by branch.  Every model definition carries a comment with the
file and lines it mirrors and the simplifications made.

## Layout (`rocq/theories`)

| file | content |
|------|---------|
| `Base.v` | exact rationals, finite sums, extended bounds, small list tools |
| `*Model.v` | executable models of the code, no proofs |
| `*Spec.v` | independent specifications (textbook notions) used by the statements |
| `*Proofs.v` | lemmas |
| `Properties*.v` | only the property theorems (`exact lemma.`), `Print Assumptions`, and one concrete `Example` per theorem |

## Trusted base

* Coq 8.16.1's kernel (and the VM for `vm_compute` examples).
* Axioms: none added.  `coqchk -o` over the whole development lists only the
  standard-library entries of `Coq.ssr.ssrunder` (`Under_rel` and its
  lemmas, an opaque module of the ssreflect plugin loaded by `lia`/`lra`
  files), on which no theorem depends, and the axioms of the standard
  library's real numbers.  Each property theorem is followed by `Print
  Assumptions`; all of them print "Closed under the global context" except
  eleven of the C101 theorems (logistic function), which print
  `ClassicalDedekindReals.sig_forall_dec`, `ClassicalDedekindReals.sig_not_dec`,
  `FunctionalExtensionality.functional_extensionality_dep` and, for some,
  `Classical_Prop.classic`, the axioms of `Coq.Reals`.  `coqchk` also lists the
  opaque constants of `Coq.Reals.Rdefinitions` (`RbaseSymbolsImpl`, `RinvImpl`).
* The reading of the source: floating-point numbers are modelled as exact
  rationals `Q` (as reals `R` in C101) (rounding, NaN and infinities of `double` are not modelled;
  interval bounds have explicit plus/minus infinity; a division whose
  denominator may be zero and is not guarded in the code is modelled by an
  `option`); C `int`/`unsigned`/`long` are modelled as `nat`/`Z` without wrap-around.
* External code is a universally quantified parameter of the theorem (model
  prediction functions, probability estimators in searches, random draws).
* numpy, pandas, sklearn, ranger and tree-library behaviour outside the cited
  lines is not modelled.

## Per property

See the table at the end; it says what is modelled and how it is proved, or why
it is not expressed.

| id | modelled | proof |
|----|----------|-------|
| C01 | array trees, `get_partition`, `tree_predict` | well-formed arrays (child index > parent, one parent per node); induction along the path: membership of the rectangle of a leaf iff the walk from the root ends there |
| C02 | same | induction along the upward walk |
| C03 | `tree_predict`, `dense_tree_predict` | induction on trees |
| C04 | `tree_update_weights` over a data set | induction on samples; path membership |
| C05 | `max_var` computation | refuted with two trees; proved when the last tree attains the maximum |
| C06 | leaf/coalition loops of `shap_values_leaves` | coefficient identity (adding null players) + null-player elimination in the textbook formula |
| C07 | same + prediction | generic efficiency theorem of the textbook formula, C01, C06 |
| C08, C09 | same | from the leaf-wise formula |
| C10 | `leaves_cache`, `shap_values_leaves_cache` | loop-by-loop equality |
| C11 | slots written in any order | permutation of iterations over disjoint slots |
| C12, C13 | `shap_values_acv_leaves` | C12 like C06; C13 refuted (empty projection), proved when counts are positive |
| C14 | `_comb_int_long` | loop invariant val = C(N, j) |
| C15, C16 | `compute_exp`, `compute_exp_cat`, `compute_exp_normalized`, Python `compute_exp` | counting, reduction to the Shapley game of C06; boundary case refuted; Python version raises for no variable |
| C17 | `compute_sdp_clf(_cat)`, Python versions | clipping; the unclipped compiled `compute_sdp_clf` refuted (value 22/21) |
| C51, C52 | `compute_sdp_clf_cat`, `compute_sdp_reg_cat` | the three sums are means of a row functional over matching / flagged / other rows, hence the ratio is a frequency; for regression the row functional is a square up to a constant |
| C18 | `search` / `search_clf` loops of all variants, with the probability as an arbitrary function | per-row run over the visited levels (`run_result`), induction on levels |
| C19 | same; the estimator is a function of row and set, which `global_sdp_reg` satisfies for one tree only (C85) | lock-step simulation of the batch by a one-row search |
| C20 | `sdp_global` | invariant: counts over the rows found so far |
| C21 | index rows | refuted with coalitions (stale tail); invariant "set then -1" for single variables and clearing variants |
| C22 | `power`, cut at 2^15 | counting of combinations up to 15 groups; refuted at 16 and 17 by computation |
| C23, C53, C54 | `sufficient_expl_rf`, API stripping | invariant: listed sets are the minimal ones among the candidates seen; 0/0 and the `[1:]` slice refuted |
| C24 | coalition list helpers | permutation; stale rows refuted |
| C50 | `S_bar` and the divergent searches | C18 on the complement estimator |
| C25-C27, C30, C32, C58 | level-by-level projected-forest traversal (`rf_step`, `rule_step`, `vec_step`); arrays are flat memory with arbitrary contents outside the bounds | generic traversal `gstep` with an arbitrary decision; invariants on samples, children and nodes read; weights as sums over trees |
| C28, C29 | the rule carried through the trees | invariant: the rule is the intersection of the splits read; equal decisions on the nodes read give equal runs |
| C31 | same, padded arrays of base_tree.py | refuted (node -1 of the first tree is read as soon as another tree is deeper; the answer depends on stray memory); proved for the other trees, and for the first when no leaf is met before the last level |
| C49, C59 | box variants `cond_step`, `intv_step` | generic traversal; C59 refuted for classes, proved for intervals |
| C55 | padded arrays, real trees | reached nodes of the projected tree = nodes met; unique parents give same leaves = same sides |
| C56 | same | refuted (selection may be empty); proved when the cell is large enough |
| C57 | vector against set versions | both selections are the cell when large enough |
| C33 | `weighted_percentile`, with an arbitrary correct `argsort` | sorted prefix sums, position found by `searchsorted` |
| C60 | same | refuted for ties with different weights; proved for distinct values (the sorted list is unique) |
| C61 | `undo_selected`: the undoing traversal of `quantile_rf` and utils_exp.py, trees as compiled rows or as Python indexes them | generic traversal; invariants of the loop with undo |
| C62, C63 | `compute_quantile`, `compute_shaff_sdp(_clf)`, `compute_shaff_exp` | C61 (selections not empty) + C33 / weighted sums |
| C64 | compiled against Python rows | same nodes met when the stray memory is harmless; large cells: both selections are the cell (C55, C61) |
| C65 | `compute_quantile_diff` | C33 on the list of differences of chosen samples |
| C34, C66 | `find_nbor`, `extend_rec` | C34 refuted (the neighbour may stick out on a variable where they do not touch), proved otherwise; C66 refuted (the negation in the guard binds to the first comparison only), proved when the neighbour is as wide |
| C35 | `find_union`, `extend_partition` | invariant over the sequence of merges; the fuel never runs out |
| C38, C67, C68 | `remove_in`, `remove_in_wsdp` of utils.py and utils_cr.py, in-place double loop | invariant "rows grow and stay among the given ones"; passes make rows maximal; the deleting version and the pairing with probabilities refuted, their exact behaviour proved |
| C39 | conditions and selection of counterfactual rules, arbitrary estimator | case analysis, argmax |
| C40 | `compute_rules_metrics` | coverage refuted for a rule on no variable, most frequent label refuted for labels other than 0/1; rest proved |
| C41 | `global_rules_model(_reg)`, NaN accuracies as `None` | refuted: ties ignore the coverage threshold, and the predictor raises when no rule has enough coverage; exact conditions of each outcome proved |
| C69 | `get_compatible_leaf` after the leaves are computed; `np.round` exactly | refuted (a leaf emptied by rounding wins); proved when every rounded leaf holds a sample |
| C70 | `rules_frequency`, `unique_rules`, `np.allclose` exactly over rationals | own output refuted for close rules |
| C71 | `return_xy_cnt` | filtering |
| C36, C76 | `rules_simulated_annealing` and both wrappers; arbitrary generator (a state, `rand`, `randint`), arbitrary `exp` and logarithms, ghost list of the candidates evaluated | loop invariants; validity refuted for utils.py (the initial rule may hold a bad sample), proved equivalent to that of the initial rule; with one variable `np.squeeze` makes it raise (refuted), otherwise it never raises |
| C37 | `generate_candidate`, `simulated_annealing` of both files | loop invariants; refuted for utils_cr.py (a variable with no training value in the rule gets the lower bound, a value no sample has), proved when values are available; exact condition under which utils.py raises |
| C72 | acceptance test | refuted: `exp(-diff/t)` is at least 1 when `diff <= 0`, so every candidate is accepted |
| C73 | `convert_boundvalues`, `volume_rectangle` | refuted for finite bounds outside the data range, proved otherwise (products of nonnegative factors) |
| C74 | `max_dens` | sums |
| C75 | `return_leaf_cnt(_reg)` after probabilities and rules; each search starts from an arbitrary generator state | C36 for each leaf |
| C42 | `swing_sv_clf`, `compute_sdp_swing` (compiled, called by the API as "slow"), `swing_sv_clf_direct`, `compute_sdp_swing_diff` (called by `swing_sv_clf` of the API); accumulators as folds; the variables read before assignment are a parameter, 0/0 is None | every accumulator is a sum over coalitions, counters enumerate subsets, 1/binomial/m is the Shapley weight; efficiency false of the direct version for whatever stray values (**refuted**): it keeps only the leaves holding the observation, so the last player always looks superfluous |
| C77 | `swing_tree_shap(_clf)`, `chain_l` (raises on a list of one), `powerset` | same sums, players up to order; **refuted** for coalitions of one column |
| C78 | `shap_values_leaves_notoptimized`, `shap_values_discrete_notoptimized` | C77 for the two conditional expectations; NaN for the normalised one when a leaf projection is empty (**refuted**) |
| C43 | `compute_local_sdp_one`, `compute_local_sdp` (concat, per-column counts, average over the observations with explanations; IndexError and NaN as values) | counting; exact range, extreme values, when it raises and when it is a NaN |
| C44 | `single_msdp`, `msdp`, `single_msdp_reg` for any predictor; the shortcut `len(S) == len(x)` is modelled | the shortcut agrees with the share because distinct columns then cover the row |
| C79 | `local_sdp` with its recursion as fuel, `chain_l` and the coalitions, for any probability function | invariant over sizes; partition by permutation; **refuted**: the level announced as decaying is constant (the radius decays), and with coalitions columns may be left out (the test compares a number of columns with a number of players) |
| C80 | `global_sdp_importance` (`sdp_importance_variable_count`) over any rows | C79; **refuted** with coalitions: the loop goes on after appending the whole remainder, so a column may be counted twice. Through `py_compute_local_sdp_clf` of acv_tree.py the call raises a TypeError before any of this (its `cond_func` does not take the arguments passed); the model takes a probability function instead |
| C45 | LightGBM branch of `SingleTree.__init__`: the queue, `visited`, arrays of arbitrary initial content, IndexError as None. A dump of a single leaf without `leaf_index` (KeyError in the source) is not expressible | queue invariant (cells of the vertices taken out are final); the arrays then show a numbered tree, on which the walk and well-formedness are proved once for all loaders |
| C81 | XGBoost JSON branch (`max_id`, `extract_data`) | same numbered trees; **refuted**: a value equal to the condition goes left (`<=`) while XGBoost tests `<`; proved when no value falls on a condition, and exactly what is computed otherwise |
| C82 | pyspark branch (`getNumNodes`, `buildTree`), one output, continuous splits, `normalize` off | prefix numbering |
| C46 | `CatBoostTreeModelLoader.get_trees` for one tree: unravelled splits, heap children, unravelled weights | heap arithmetic; **refuted** for one-hot splits (an equality becomes a threshold); proved for numerical splits of any depth |
| C47 | `XGBTreeModelLoader.__init__` on bytes (every `read`, struct errors and the assertion as None; UTF-8 decoding and the logit of the base score left out) against an independent writer | round trip by fields, and the converse (whatever is accepted was written); **refuted**: `lstrip(b'binf')` also eats the low byte of a base score equal to one of these letters, exactly then |
| C83 | `get_trees`: bits of the split index, `nextafter` on 32-bit patterns, arrays; data are 32-bit patterns | the order of patterns is that of numbers; induction on the walk; **refuted** for 64-bit values that are not 32-bit numbers |
| C84 | `compute_sdp_reg` (cyext_acv.pyx 464-672) with the arrays `mean_forest_b`, `p_n` indexed as in the code (no index for the second tree) and `norm` carried from one observation to the next; Python version utils_sdp.py 7-122 | one tree: value as a weighted mean of squared distances, frequency for no column, 1 for all columns, independence of the batch; **refuted**: bounds, prediction 0 with all columns, two trees (frequency, batch) |
| C85 | estimates made inside `global_sdp_reg` (968-1266): the same function with `m` = number of groups, normalisers never reset | equal to `compute_sdp_reg` for one tree without coalitions; **refuted** with coalitions and for two trees |
| C86 | `ACXplainer` as a state machine over its calls (fit, explanations, predict, global rules; forests and rules are opaque values) | invariant over histories; **refuted**: the converted forest is made once, at the first explanation, and a later fit does not replace it, while the default levels of regression follow the last fit |
| C87 | columns chosen by the five searches of `ACXplainer` (argsort of the importances, `[:10]`) and by `importance_sdp_clf` of `ACVTree` (`value_counts`, keys in decreasing count, ties in any order), then the searches of C17-C18 | the chosen columns give disjoint groups, at most ten, so the enumeration cut of C22 is not met; minimality and completeness relative to these groups; **refuted** among all columns with eleven columns |
| C88 | `ACVTree.shap_values`: the counts cached by the constructor for its coalitions are read with the coalitions of the call | C12 when they are the same; **refuted** otherwise |
| C89 | body of the loops of `return_{local,global}_counterfactuals` over `get_compatible_leaf` (C69), `return_counterfactuals` (C39) and `remove_in_wsdp_cr` (C68); leaves and estimator are parameters | the functions composed are characterised one by one; **refuted**: two leaves equal on the divergent variables delete each other, a more probable larger condition is deleted, regression passes `acc_level` as `pi_level` |
| C90 | `run_sampling_local_counterfactuals` over `simulated_annealing` (C37); generator, isolation score and predictor are parameters | invariant of the annealing loop for each draw; **refuted**: the accuracy counts any change of class, and the original model given is dropped by the constructor |
| C91 | `run_sampling_regional_counterfactuals` | same; the denominator of the coverage is proved to be the number of draws, so the coverage is always 1 (**refuted** as a coverage); raises exactly when a draw is needed before any local session |
| C92 | `run_sampling_regional_counterfactuals_alltests`; the rule is indexed once too often, which raises for the first divergent variable | choice of the rule by argmax; **refuted**: raises, or returns the observations unchanged |
| C93 | `run_{local,regional}_divergent_set`: `importance_cdp_{rf,intv}` (C18, C86), `get_active_null_coalition_list` (C24), `compute_cdp{,_intv}_weights` (C25, C58, C59) composed; the order of `np.argsort` is a parameter | invariant of the search rows (best set tried), then the estimators; the local session is proved; **refuted**: a set of all columns counts as found, the regional session reports the probability of the complement, and for classes it looks for the other classes |
| C94 | `shap_values_leaves_normalized` (and nopa): players, coalitions and coefficients of C06, the running normaliser over the leaves of the tree | per leaf a game normalized given the players it meets; Shapley restricted to those players, efficiency by gluing the observation with a row of any other leaf; **refuted** as Shapley values of the normalized expectation, and for efficiency when a leaf is empty |
| C95 | `shap_values_leaves_normalized_cache`, `leaves_cache_normalized`, `ACVTree.shap_values_normalized` with the flags of the constructor | equality entry by entry off the bounds; **refuted** on a bound (half-open test reversed) and for coalitions other than the stored ones; exact condition of the AttributeError |
| C96 | `py_acv.shap_values_leaves` (`py_shap_values`): players and leaf nodes extended by coalitions, subsets by `powerset`/`chain_l`, unguarded divisions (NaN), ValueError | sum over the powerset of the met players = restricted Shapley value; same number as C06; **refuted** for empty leaves (NaN) and one-column coalitions (raises) |
| C97 | `py_acv.shap_values_leaves_v2` (`py_shap_valuesv2`), with the never-true membership test | equal to C06 without coalitions or when they cover the used columns; every other column proved to be 0; **refuted** with coalitions |
| C98 | `py_acv.shap_values_acv_leaves` (`py_shap_values_acv`): closed lower bound for the observation, `np.prod([])`, IndexError | equal to C12 whenever a number, off the lower bounds; **refuted** on a bound, without null variable, for split coalitions |
| C99 | `shap_values_acv_leaves_adap` with its per-row slices and the two single-observation routines (same text as C06/C12), `get_null_coalition` on a batch | row by row reduction to C12 and C06, one Shapley statement for both branches; **refuted** for the layout the docstring asks for (universally proved to read out of bounds), empty leaves, short N_star |
| C100 | the inline estimator of the classifier searches with its work arrays (reset, accumulation over leaves in any schedule, normalisation), the whole search loop | refinement of the array program into `search_clf`/`search` with `compute_sdp_clf` as estimator (equality of states), composed with C18; **refuted** for the empty set (`minimal = 0`) and for `global_sdp_clf_ptrees` |
| C101 | `values_binary` and `values` as flat memory, unchecked reads, the choice of table by each classifier routine of `ACVTree`; leaf values are reals | block arithmetic of the flat arrays, properties of the logistic function, induction over trees; decision **refuted** from three trees on (for every such number) and with an offset; missing column **refuted** for the six routines that always take the raw table, with the value they read instead |
| C102 | `shap_values_leaves_nopa` with its work vectors, the one buffer `S` (writes beyond it give `None`), std::remove with the value read through a reference, phi accumulated in place over rows, leaves and trees | loop invariant of std::remove (kept entries, gap of moved-away entries), additive fold invariant over counters, players, leaves and trees for arbitrary stale contents; refines C06; overlapping coalitions **refuted** (buffer overrun, a second group lost) |
| C103 | `compute_sdp_maxrules` with `compute_sdp_maxrule` (weights, recorded probabilities and rules of the training samples, untouched buffers) and both searches, on top of the models of C25-C36 | the samples of the rule share the whole result of the observation (C29), hence their own weight; invariant of the annealing; **refuted** on lower bounds (the trees exclude them, the search includes them), for observations outside the training set and for `algo2` |
| C104 | `explore_partition`, `get_tree_partition`, `cond_sdp_forest`, `cond_sdp_forest_clf`: the recursion with its narrowed rectangles, the closed tests, the scalar products over an empty set, the flags of each tree, clipping, NaN and exceptions | induction over the calls of the recursion (leaves listed once, rectangles = decision paths); the three means are means over the rows of a common section, so their quotient is a share; **refuted** for rows on thresholds, different sections, several trees, the empty set, NaN |
| C105 | padding of the trees of an ensemble (several outputs, stacked classes, offsets, assertions), `tree_predict` and `dense_tree_predict` on flat memory with unsigned 32 bit indexes, reads outside a block give `None`, `BaseTree.predict` | the flat walk follows the walk of TreeModel (induction on the fuel, index arithmetic); invariants of the loops over outputs, trees and rows; equal column by column to the one-output model of C03; **refuted** for too few columns (reads the next row), cells beyond 2^32, limits inside a round, boosters without class count |
| C106 | the branches of `BaseTree.__init__` for scikit-learn and NGBoost, the constructors of `SingleTree` from a scikit-learn tree and from arrays, `IsoTree` with `_recalculate_value`, `SingleTree.predict`; prediction is the flat program of C105 | the loaded arrays have the structure of the original, so paths coincide (`visits_agree`), then C105; isolation trees by induction on the depth of the node along its path; **refuted** for several targets, rate 0, one feature, NGBoost, array baselines of classifiers |
| C107 | `utils.py` 1102-1300: `find_nbor_r`, `extend_rec`, `remove_rule`, `return_largest_rectangle` (shuffles as a universally quantified function), `return_best`, `return_adjacent_rec`, `overapprox_rectangle`, `return_edges`; `mc_approx_rules` is not modelled since the import of `HoleFinder` is commented out (line 16) and it raises for every rule | invariant of the merging loop over all shuffles (`merge_spec`); exact with at most two axes; reachability by induction for the over-approximation; **refuted**: with three axes only the corner pieces of the neighbour are kept; nearly equal rectangles are confused |
| C108 | `cyext_acv.pyx` 4826-4965, 5085-5127: `single_compute_sdp_rule_biased` (bounds kept per level, `nodes_child` never emptied), `compile_rules` (ValueError as None), `compute_sdp_rule_biased`, `compute_sdp_maxrule_biased`, `compute_sdp_maxrule_biased_v2`, one observation at a time | invariant over the levels (`levels_spec`), closed bounds of the merged levels (`tree_cell`), count of rows (`shrink_spec`), compiled rule (`rule_spec`); **refuted**: closed lower bounds, size of the intersection, probability always 0, one failing sample fails the call, rules of zeros |
| C109 | `utils.py` 178-271: `nb_row`, `get_partition_tree`, `get_final_partition`, `leaves_proba`, `rebuild_tree` and `rebuild_acvtree` (one definition with a flag; NaN of an empty mean as None) | invariant of the recursion (`rebuild_ok`): every write is the right one, every node is below the root; agreement with `update_weights` of C04; simulation between the two upward walks (`partition_sim`); **refuted**: empty leaves, other outputs, closed lower bounds, no columns |
| C110 | `utils.py` 274-307: `condMVN`, `marMVN`, `sampleMVN`, `sampleMarMVN`; `experiments/exp_linear_gmm.py` 153-205: exact expectations of the linear model (rationals; `np.linalg.inv` is a parameter that returns inverses, the generator of samples a parameter) | unique solution of a system with an inverse; block solution (`block_solve`) gives the chain rule and the factorisation of the density; covariances as bilinear forms of coefficient vectors; **refuted**: empty conditioning set, spread values, marginal sampler |
| C111 | `experiments/exp_linear.py` 373-557: `linear_shap`, `linear_mar_shap`, `tree_shap` (value function a parameter), `itertools.permutations` by positions, `chain_l` | enumeration of positions = enumeration of orders for distinct players; one order telescopes to the contribution of the player (`walk`); order form of the Shapley value (GameProofs); conditional expectations do not depend on the order (C110); **refuted**: single groups raise, sum over variables, overlapping groups, unused variables |
| C112 | `experiments/exp_linear_gmm.py` 89-105, 125-151, 207-269, 1126-1161: `linear_gmm`, `density_x_y_set` (density a parameter), `cond_exp_linear_gmm`, `linear_gmm_shap` without Monte Carlo | cases on the known indicators against the list of the classes that agree with them; regressions are unique (C110); the set with the indicators moved to the end gives the same value, hence C111; **refuted**: order of the indicators, Shapley values without the group, indicators of no class |
| C113 | `experiments/exp_linear_gmm.py` 270-410 (same text 412-553, 555-697), 838-868, `experiments/exp_linear.py` 272-285: tables with named columns, draws of classes and samples as parameters | sorted names are a sorted permutation, hence the columns in order iff n ≤ 10; the rows are the completed points one by one; the branches against the classes that agree with the indicators; exact draws give C112; **refuted**: eleven variables, known variables listed in another order |
| C114 | `acv_agnosticX.py` 233-327, 424-848, 1220-1309, 1414-1522, 1595-1703, `acv_tree.py` 831-907, 1070-1080, 1132-1247, `cyext_acv.pyx` loops 4095-7572 (21 routines) and 4787-4819, 5044-5080, 5325-5405: argument checks, conversions of `t`, one step per tree of every iteration, any interleaving | the view of one iteration only changes with its own steps; a complete schedule gives each the estimator of RfModel; conditional inner loops as filtered schedules; **refuted**: `compute_cdf_rf`, number `t`, short `t` |
| C115 | `exp_linear.py` 54-107, 219-220 (same text `exp_syn.py`, `shap_linear.py`): recursion `G` | induction over the tree; weights of the children add up; **refuted** as a conditional mean |
| C116 | `exp_linear.py` 95-246, `exp_linear_gmm.py` 991-1000: `explore`, `explore_partition`, sections as counts | leaves of the walk = leaves that can be met (C104), counts of the training sample; **refuted**: weights do not add up to one |
| C117 | `exp_linear.py` 109-132, 250-371, 398-436: boxes rebuilt from the leaf to the root, R's `pcmvnorm` as a parameter, `sampleMarMVN` as a parameter | the rebuilt boxes equal those of the walk; boxes partition the space; **refuted** on thresholds etc. |
| C118 | `exp_linear_gmm.py` 1239-1439 | normalised weights; **refuted** for 'shap' |
| C119 | `exp_linear_gmm.py` 1441-1666; samples of 'monte_carlo' are a parameter | reduction to C104; **refuted** outside the common section |
| C120 | `exp_linear.py` 516-557 on the expectations of C115 and C117 | C111 on set functions; **refuted** for 'plugin' |
| C121 | `cyext_acv.pyx` 32-231 and `cyext_acv_nopa.pyx` 26-225 as array programs: all rows and columns, padded tables, counters, shared or per-tree buffers, passes of `prange` in any order, out-of-range access = failure, NaN/inf of the unguarded quotient | invariant of the buffer cells over the passes; refinement into the one-row functions of C15-C16; **refuted**: normalised entries that are NaN or out of range |
| C122 | `cyext_acv.pyx` 237-453 and `cyext_acv_nopa.pyx` 231-447 as array programs | the six counters as sums over flagged rows; refinement into C17/C51; **refuted**: repeated columns, unchecked lengths |
| C123 | `base_tree.py` 513-634 (tables of leaves, boxes, values, padding) on top of the loader of C106, the methods `acv_tree.py` 626-645, 692-701 with the conversions of their arguments, calling the array programs of C121 | composition: boxes of `get_partition` tile, tables refine the forests of C15, so entries are means of what the trees give along their decision paths; **refuted**: argument forms, narrow observations, missing routine |
| C124 | `acv_tree.py` 266-341, 414-437: check_array, column_or_1d, predict_proba, argmax, choice of values or values_binary, calls of the array programs of C122 | composition with C122 and C51; **refuted**: empty list, boosted classifiers in the sequential methods, unconverted background |
| C125 | `cyext_acv.pyx` 1272-1485 and `cyext_acv_nopa.pyx` 1503-1700 as array programs (all rows and outputs, tables, slots per leaf and counter, accesses outside the arrays apart), `acv_tree.py` 16-37, 342-351, `base_tree.py` 586-624 (`max_var`, `node_idx_trees`) on top of the tables of C123 | refinement to the one-observation model of C06 by an additive invariant on the slots, composition with C06-C08; **refuted**: ensembles whose last tree is shallower (buffers of `2**max_var` cells) |
| C126 | `cyext_acv.pyx` 1755-2020 and `cyext_acv_nopa.pyx` 1707-1947 as array programs (all rows and outputs, tables, slots per leaf and counter, the array `S` of known columns, non-numbers, accesses outside the arrays apart), `acv_tree.py` 74-98, 352-361, on top of the object of C125 | refinement to the one-observation model of C12 by an additive invariant on the slots and on `S`, composition with C12; **refuted**: shallow last trees, coalitions with null columns, active columns beyond the background, list arguments |
| C127 | `acv_tree.py` 99-264, 402-412, 528-543 from the trees to the four arrays, on top of the object of C125/C126 and the searches of C100; what is told about a set of columns is the modelled `compute_sdp_clf` of the same object (C124) | the groups searched are characterised by the leaves below the splits; the searches of C100 are related to `compute_sdp_clf` set by set; **refuted**: `stop`, columns beyond the ten most used, `minimal = 0`, `_ptrees`, boosted binary models in `_nopa` |
| C128 | `acv_tree.py` 554-562, 712-719 with `base_tree.py` 710-776 (the object predicts itself, offset included) and `cyext_acv.pyx` 679-840, from the trees to the array | the padded predictions of C105 and the tables of C123 are tied to the sums of C52; **refuted**: offsets change the value, 0 although all rows agree |
| C129 | `acv_tree.py` 592-599, 609-616, `cyext_acv.pyx` 846-962 (`nopa` 840-961) from the trees to the four arrays; what is told about a set is the modelled `compute_sdp_reg_cat` of the same object | the search of C100 related to C128 set by set; **refuted**: all columns reported by convention, `stop` |
| C130 | `acv_tree.py` 545-552, `cyext_acv.pyx` 464-672 from the trees to the array | C84 carried over to the object with its offset; **refuted**: two trees, values above 1, 0 with all columns |
| C131 | `acv_tree.py` 38-73, 362-376 with `cyext_acv.pyx` 3258-3786 (`nopa` 1954-2478), from the trees to the array, one explanation per observation; `get_null_coalition` and `importance_sdp_clf` in front | each row is shown to be the call of C125/C126 with the observation alone; the pipeline uses an invariant of the search of C127 (rows list distinct columns, fillers behind); **refuted**: buffers, documented layout of `N_star`, lengths, empty explanations |
| C132 | `acv_tree.py` 600-607, 617-624 with `cyext_acv.pyx` 968-1266 (`nopa` 962-1260), from the trees to the arrays; the normalisers pass from estimate to estimate | every search that passes a state on is shown equal to a search with fixed estimates (each pair of set and observation is estimated once), so the facts of C18/C127 apply to all ensembles; for one tree the estimates are those of `compute_sdp_reg`; **refuted**: two trees, other observations, coalitions, values above 1, stop |
| C133 | `base_tree.py` 636-640, `acv_tree.py` 16-37, 377-401, 672-691 with `cyext_acv_cache.pyx` 59-404 (`nopa` 2482-2827), from the trees to the array; the stored counts with their dimensions | every stored cell is shown to hold the count of its leaf, player and counter (each cell is bumped once); the cached passes then equal those of C125 step by step; **refuted**: no room (the constructor goes astray), coalitions in the call other than in the constructor (wrong values, or a read outside the array for the default) |
| C134 | `utils_sdp.py` 388-603 with `acv_tree.py` 731-802, 1107-1131, `acv_agnosticX.py` 1349-1374: the loop statement by statement (`R`, `R_buf`, `S`, `S_size`, `N`, `r`), NaN values, IndexErrors; any model, any comparison of predictions | the program is shown to be the search of `SearchModel.v` (C18-C21) for the marginal shares of C44, with -1 for a NaN; then stated on shares of the background; **refuted**: early stop, 17 columns, the 15 columns kept by `ACVTree` |
| C135 | `base_agnostree.py` 22-172, 215-246 (constructor: -2 mended to column 0, unequal outputs, IndexError, `np.squeeze` on one column, depth) with `acv_agnosticX.py` 225-278 and the methods of C114; the trees are an inductive type, `written` relates them to the arrays | `wf_tree` and the depth of the arrays from `written`; walk of the compiled loops = `together` by induction on the tree; then C114, C28; **refuted**: stray memory, one column |
| C136 | `acv_agnosticX.py` 849-1073, 1523-1594, 1704-1775 with `cyext_acv.pyx` 6008-6133, 6163-6287, 6641-6778, 7151-7280, 7584-7717: check, object, levels, boolean masks of the rows still searched, call of the estimator of one set on the selected rows (ApiModel), update, counts, four arrays | masks as selected positions; the array program is the search of SearchModel with the probabilities of the methods for given sets (C114), under the invariant that the mask holds the unfinished rows; then C18-C20, C87, C135; **refuted**: all columns, stop, ten columns |
| C137 | the models of C135 and C136 for the methods with boxes (`cond_step`, `intv_step` of RfModel.v: `cyext_acv.pyx` 5647-5803, 6482-6640, 6885-7042, 7425-7583; `acv_agnosticX.py` 582-640, 795-848, 1414-1775) | walk of the compiled loops = recursion on the tree (`fine_follows`, by induction on the tree, fuel the height of the forest); then the selection is exactly the rows that follow; **refuted**: rows outside the box, other classes |
| C138 | AsfModel.v: `sufficient_expl_rf`, `sufficient_cxpl_rf` (`acv_agnosticX.py` 1074-1218, `cyext_acv.pyx` 6293-6475) as array program over the constructor and the estimators of C135 | each row of the array program = the one-row search of C23 with the estimates of the object (induction over the candidates), counters = sums over the lists (invariant); **refuted**: shifted probabilities, complement, 0/0, ten columns |
| C139 | TxtModel.v: the branch for text dumps of the constructor of a tree (`base_tree.py` 1041-1094): lstrip, split, int, the dictionary of lines, the loop over the nodes; `float` is any function that reads what was printed | TxtSpec.v writes the dump of a tree of XGBoost; proved by induction over the tree that every line parses back (splitting lemmas) and that the arrays are those of the tree; **refuted**: ties, named columns, names with leaf |
| C140 | NbufModel.v: the array program of `shap_values_leaves_normalized` (`cyext_acv.pyx` 1492-1749) with its buffers, leaves in any order, and `ACVTree.shap_values_normalized` from the trees | loop invariants over the buffers give the leaf routine of NormModel.v, which NormProofs.v relates to the game; NbufSpec.v states the even trees; **refuted**: the normalized expectation in general, an empty leaf, deep first tree |
| C141 | NbufModel.v: `leaves_cache_normalized`, the cached routines (`cyext_acv_cache.pyx` 410-635, 640-796, `cyext_acv_nopa.pyx` 2833-3222), the last step of the constructor and the methods (`acv_tree.py` 647-670) | invariant over all five indices of the stored counts; then the two routines use equal weights at every cell they read; **refuted**: ties, other coalitions |
| C142 | QbufModel.v: the array program of `single_compute_quantile_rf` with its shared arrays (`cyext_acv.pyx` 4335-4421), numbers that may be 0/0, `weighted_percentile` on them, exceptions in a `cdef double` | invariants over the levels and nodes give `compute_quantile` of QuantModel.v (C62); **refuted**: size zero, swallowed exceptions |
| C143 | QbufModel.v: `single_compute_quantile_diff_rf` (`cyext_acv.pyx` 4427-4511) with unsigned comparison and unchecked reads | fold invariants give `compute_quantile_diff` of QuantModel.v (C64, C65); **refuted**: swallowed exceptions |
| C144 | QbufModel.v: the Python estimators with numpy's 0/0 and the loops of the methods (`utils_exp.py` 74-139, 184-216, 270-303, `acv_tree.py` 804-829, 1290-1315) | sums over samples exchanged with averages over trees; **refuted**: classes with size zero |
| C145 | CrsModel.v: `run_local_divergent_set` and `run_local_counterfactual_rules` (`counterfactual_rules.py` 43-97, `utils_cr.py` 8-55, 119-196, 361-417, 480-544) on the methods of AgnModel.v, the searches of AxsModel.v, the annealing of AnnealModel.v; exceptions end the session | composition of C74, C89-C92, C135-C137 by the rows of every call; **refuted**: level reached by the stored probability (all columns) |
| C146 | CrsModel.v: `run_regional_divergent_set` and `run_regional_counterfactual_rules` (`counterfactual_rules.py` 151-205, `utils_cr.py` 211-268, 558-617), for any rules stored by `run_sufficient_rules` | as C145; **refuted**: stored probability (asked for the complement), target in classification |
| C147 | SufModel.v: `run_sufficient_rules` (`counterfactual_rules.py` 132-149) on the search of AxsModel.v, the tables of ApiModel.v/MaxModel.v and the annealing or the unions of `compute_sdp_maxrules` (`acv_agnosticX.py` 369-421) | composition of C74, C103, C114, C135, C136 per observation; **refuted**: rows of the rule at the level (all columns forced) |
| C148 | SampModel.v: `run_sampling_local_counterfactuals` (`counterfactual_rules.py` 99-138) and `run_sampling_regional_counterfactuals` (207-243) on what the sessions of CrsModel.v store; draws of CrModel.v | composition of C145/C146 with C90/C91; the bounds of the rules are in order because `np.round` is monotone and the enlarged leaf holds its training row |
| C149 | SwgModel.v: `swing_sv_clf_slow` (`acv_tree.py` 585-591), `swing_sv_clf` and `compute_sdp_swing` (`cyext_acv.pyx` 2026-2244) with `S`, `sm_buf`, `va_id_a` as buffers, the parallel loops as any order; tables of ArrModel.v | the buffers hold the players, so each call is the one of SwingModel.v (C42) and the arrays are its sums; refuted: boosting with two classes, agreement with `compute_sdp_clf` |
| C150 | SwdModel.v: `swing_sv_clf`, `swing_sv_clf_nopa` (`acv_tree.py` 563-577), `swing_sv_clf_direct` and `compute_sdp_swing_diff` (`cyext_acv.pyx` 2252-2630, `cyext_acv_nopa.pyx` 3225-3604) with their buffers, parallel loops as any order, unassigned variables as any tests | the cells hold the counts of SwingModel.v, so each call is its difference, which is invariant under the order of the columns and is the change of a level; refuted: sum 1, independence of the unassigned variables, boosting with two classes |
| C151 | ShowModel.v: `show_local_counterfactuals`, `show_global_counterfactuals` (`counterfactual_rules.py` 295-359), `print_rule` (`utils_cr.py` 271-282), on the sessions of CrsModel.v; lines as kinds with values, not characters | a reader (ShowSpec.v) that cuts the lines at the headings distributes over the loops, so it recovers the list of rules; the conditions are equivalent to the box; with C145 and C146 for the sessions; refuted: far points, missing names, stale observations, output of a regression |
| C152 | AllModel.v: `run_sampling_regional_counterfactuals_alltests` (`counterfactual_rules.py` 244-293) on the arrays of the regional session, draws of CrModel.v | the rule chosen has a counterfactual (first best of the probabilities), and the row of bounds handed over raises for a divergent set that is not empty (as for C92); refuted with a session of CrsModel.v |
| C48 | depth recursion | induction |
