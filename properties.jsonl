{"id": "C01", "title": "Leaf rectangles tile the input space and agree with prediction", "statement": "For every well-formed decision tree, every observation lies in exactly one of the half-open leaf rectangles the explainer derives from the tree, and that leaf is the one the tree's own prediction routine reaches.", "quantifier": "every array-encoded binary tree (any size and shape, any thresholds) and every observation", "why_tests_cant": "Needs all trees and all real-valued observations including those on a threshold; a test only samples.", "anchors": ["acv_explainers/utils.py:get_partition", "acv_explainers/base_tree.py:BaseTree.__init__ (partition_leaves_trees)", "acv_explainers/cext_acv/acv_tree.h:tree_predict", "acv_explainers/base_tree.py:SingleTree.predict"]}
{"id": "C02", "title": "The variables listed for a leaf are exactly the ones that can constrain it", "statement": "The rectangle of a leaf is unbounded in both directions on every feature that is not in the list of variables recorded for that leaf, so membership of the leaf depends on the recorded variables only; and the recorded variables are exactly the split features on the path from the root.", "quantifier": "every tree, every leaf, every pair of observations that agree on the recorded variables", "why_tests_cant": "Quantifies over all trees and pairs of observations.", "anchors": ["acv_explainers/utils.py:get_partition", "acv_explainers/base_tree.py:BaseTree.__init__ (node_idx_trees)"]}
{"id": "C03", "title": "Ensemble prediction is offset plus the sum of the selected trees", "statement": "The prediction of an ensemble limited to its first k trees equals the base offset plus the sum of the k trees' leaf values, so growing the limit from j to k adds exactly trees j..k-1, and explaining tree by tree adds up to the ensemble.", "quantifier": "every ensemble, every tree limit, every observation (missing values follow the default child)", "why_tests_cant": "All ensembles, limits and observations.", "anchors": ["acv_explainers/cext_acv/acv_tree.h:dense_tree_predict", "acv_explainers/cext_acv/acv_tree.h:single_tree_predict", "acv_explainers/cext_acv/acv_tree.h:tree_predict"]}
{"id": "C04", "title": "Node weights recomputed from data count the samples through each node", "statement": "After re-weighting an ensemble with a data set, the weight of each node grows by exactly the number of samples whose decision path visits it; in particular the root grows by the number of samples and every internal node's growth equals the sum of its two children's.", "quantifier": "every tree, every initial weight, every data set in any order", "why_tests_cant": "Invariant over arbitrary sequences of samples and arbitrary trees.", "anchors": ["acv_explainers/cext_acv/acv_tree.h:tree_update_weights", "acv_explainers/cext_acv/acv_tree.h:dense_tree_update_weights"]}
{"id": "C05", "title": "Work buffers are large enough for every leaf of every tree", "statement": "The exponent used to size the per-coalition buffers (the maximal number of variables of a leaf) is at least the number of variables of every leaf of every tree, so no coalition index falls outside a buffer.", "quantifier": "every ensemble", "why_tests_cant": "A violation needs an ensemble whose last tree is shallower than an earlier one; out-of-bounds writes are silent because bounds checks are switched off.", "anchors": ["acv_explainers/base_tree.py:BaseTree.__init__ (max_var)", "acv_explainers/cyext_acv/cyext_acv.pyx:shap_values_leaves_pa", "acv_explainers/base_agnostree.py:BaseAgnosTree.__init__"]}
{"id": "C06", "title": "Leaf-based Shapley values equal the textbook Shapley values", "statement": "The Shapley value returned for a feature (or declared coalition of features) equals the textbook Shapley value - the average over all orders of arrival, in subset form - of the cooperative game whose worth of a set of players is the sum over trees and leaves of the leaf value times the plug-in conditional probability of the leaf given the players' features.", "quantifier": "every ensemble, background data set, observation, set of disjoint coalitions, output dimension", "why_tests_cant": "Equality of an exponential-size sum with a leaf-wise shortcut for all inputs.", "anchors": ["acv_explainers/cyext_acv/cyext_acv.pyx:shap_values_leaves_pa", "acv_explainers/cyext_acv/cyext_acv_nopa.pyx:shap_values_leaves_nopa", "acv_explainers/py_acv.py:shap_values_leaves"]}
{"id": "C07", "title": "Shapley values account for the whole prediction (efficiency)", "statement": "The Shapley values of all players add up to the worth of the full feature set minus the worth of the empty set; when every leaf containing the observation holds at least one background sample this is the ensemble's prediction minus the average prediction over the background data.", "quantifier": "every ensemble, background data set, observation and coalition structure", "why_tests_cant": "All inputs; also identifies the empty-leaf case, which random tests almost never hit.", "anchors": ["acv_explainers/cyext_acv/cyext_acv.pyx:shap_values_leaves_pa", "acv_explainers/cext_acv/acv_tree.h:dense_tree_predict"]}
{"id": "C08", "title": "Features no tree splits on receive zero", "statement": "A feature (outside any coalition that is split on) that no leaf of any tree depends on gets Shapley value exactly zero for every observation and output.", "quantifier": "every ensemble, data set, observation", "why_tests_cant": "Universal over inputs.", "anchors": ["acv_explainers/cyext_acv/cyext_acv.pyx:shap_values_leaves_pa"]}
{"id": "C09", "title": "All members of a declared coalition receive the same attribution", "statement": "When features are declared as one coalition, every member column of the output carries the same value, and this value is the Shapley value of the coalition seen as one player; the value does not change with the number of extra columns in the table.", "quantifier": "every coalition structure with disjoint groups, every ensemble and observation", "why_tests_cant": "Universal over coalition structures and inputs.", "anchors": ["acv_explainers/cyext_acv/cyext_acv.pyx:shap_values_leaves_pa"]}
{"id": "C10", "title": "The cached variant returns the same Shapley values as the direct one", "statement": "Computing the background counts once and reusing them gives the same Shapley values as recounting for every call, for any observations explained afterwards.", "quantifier": "every ensemble, background data, coalition structure, list of observations", "why_tests_cant": "Equivalence of two programs on all inputs.", "anchors": ["acv_explainers/cyext_acv/cyext_acv_cache.pyx:leaves_cache", "acv_explainers/cyext_acv/cyext_acv_cache.pyx:shap_values_leaves_cache", "acv_explainers/cyext_acv/cyext_acv_nopa.pyx:shap_values_leaves_cache_nopa", "acv_explainers/cyext_acv/cyext_acv.pyx:shap_values_leaves_pa"]}
{"id": "C11", "title": "Parallel loops give the same answer under every schedule", "statement": "The multi-threaded Shapley computation, in which leaves are handed to threads in an arbitrary order and each leaf writes its own slot, returns the same result as the single-threaded computation for every order in which the leaves complete.", "quantifier": "every permutation of the loop iterations, every input", "why_tests_cant": "A test observes one schedule.", "anchors": ["acv_explainers/cyext_acv/cyext_acv.pyx:shap_values_leaves_pa (prange)", "acv_explainers/cyext_acv/cyext_acv.pyx:compute_exp (prange)", "acv_explainers/cyext_acv/cyext_acv_nopa.pyx:shap_values_leaves_nopa"]}
{"id": "C12", "title": "Active-coalition Shapley values solve the restricted game", "statement": "Given a split of the variables into active and null ones, the active-coalition Shapley values equal the textbook Shapley values of the game on the active players only, where a non-empty set of players is worth the plug-in conditional expectation given these players and all null variables, and the empty set is worth the plug-in mean; hence they add up to the worth of all variables minus the mean.", "quantifier": "every ensemble, data set in which the counts involved are non-zero, observation, split of variables", "why_tests_cant": "All inputs.", "anchors": ["acv_explainers/cyext_acv/cyext_acv.pyx:shap_values_acv_leaves", "acv_explainers/cyext_acv/cyext_acv_nopa.pyx:shap_values_acv_leaves_nopa"]}
{"id": "C13", "title": "Active-coalition Shapley values are always numbers", "statement": "For every ensemble and background data set, the active-coalition Shapley computation never divides by zero.", "quantifier": "every ensemble, every background data set", "why_tests_cant": "The failing case needs a leaf whose projection holds no background sample.", "anchors": ["acv_explainers/cyext_acv/cyext_acv.pyx:shap_values_acv_leaves", "acv_explainers/cyext_acv/cyext_acv_nopa.pyx:shap_values_acv_leaves_nopa"]}
{"id": "C14", "title": "Binomial coefficients are exact", "statement": "The running multiply-then-floor-divide computation returns the exact binomial coefficient for every pair of arguments, and zero when the lower argument exceeds the upper one.", "quantifier": "all non-negative N, k (over exact integers)", "why_tests_cant": "Infinite domain; relies on each intermediate division being exact.", "anchors": ["acv_explainers/cyext_acv/cyext_acv.pyx:_comb_int_long", "acv_explainers/cyext_acv/cyext_acv.pyx:binomialC"]}
{"id": "C15", "title": "Conditional expectation interpolates between mean and prediction", "statement": "The leaf-based conditional expectation given no variable equals the average ensemble prediction over the background data, and given all variables equals the ensemble prediction at the observation, when no value sits exactly on a leaf boundary and the leaf of the observation is populated.", "quantifier": "every ensemble, data set, observation with no value on a boundary", "why_tests_cant": "Universal over inputs; on boundaries the claim is false because intervals are closed on both sides.", "anchors": ["acv_explainers/cyext_acv/cyext_acv.pyx:compute_exp", "acv_explainers/utils_exp.py:compute_exp"]}
{"id": "C16", "title": "The normalised conditional expectation is an average of leaf values", "statement": "The normalised conditional expectation of a single tree lies between the smallest and the largest leaf value of that tree whenever the normaliser is non-zero.", "quantifier": "every tree, data set, observation, conditioning set", "why_tests_cant": "Universal.", "anchors": ["acv_explainers/cyext_acv/cyext_acv.pyx:compute_exp_normalized"]}
{"id": "C17", "title": "Tree-based same-decision probabilities are probabilities", "statement": "Every value returned by the tree-based classifier same-decision-probability routines lies in [0, 1]; it is 1 when all variables are given and 0 when none is.", "quantifier": "every ensemble, data set, observation, conditioning set", "why_tests_cant": "Universal over real inputs; a plug-in ratio is not bounded by construction.", "anchors": ["acv_explainers/cyext_acv/cyext_acv.pyx:compute_sdp_clf_cat", "acv_explainers/cyext_acv/cyext_acv.pyx:compute_sdp_clf", "acv_explainers/utils_sdp.py:compute_sdp_clf", "acv_explainers/utils_sdp.py:compute_sdp_clf_cat"]}
{"id": "C18", "title": "Minimal sufficient explanations are sufficient and minimal", "statement": "When the search reports for an observation a probability at or above the requested level, the reported set of variables attains that probability, and no candidate set with fewer groups (from the requested minimal size on) reaches the level; among sets of the same size it has the largest probability.", "quantifier": "every probability function, table, level, minimal size, coalition structure", "why_tests_cant": "All possible probability landscapes and search histories.", "anchors": ["acv_explainers/cyext_acv/cyext_acv.pyx:global_sdp_rf", "acv_explainers/cyext_acv/cyext_acv.pyx:global_sdp_clf", "acv_explainers/cyext_acv/cyext_acv.pyx:global_sdp_reg", "acv_explainers/utils_sdp.py:importance_msdp_clf_search"]}
{"id": "C19", "title": "Batch search equals row-by-row search", "statement": "The explanation found for an observation does not depend on which other observations are in the batch or on their order.", "quantifier": "every batch, every probability function, every level", "why_tests_cant": "All batches; rows leave the worklist at different times.", "anchors": ["acv_explainers/cyext_acv/cyext_acv.pyx:global_sdp_rf", "acv_explainers/cyext_acv/cyext_acv.pyx:global_sdp_clf"]}
{"id": "C20", "title": "Global importance is the frequency in the explanations found", "statement": "The global importance of a variable equals the fraction of all observations whose reported sufficient explanation (those that reached the level) contains the variable, hence lies in [0, 1].", "quantifier": "every batch, probability function, level, coalition structure with disjoint groups", "why_tests_cant": "All search histories.", "anchors": ["acv_explainers/cyext_acv/cyext_acv.pyx:global_sdp_rf", "acv_explainers/cyext_acv/cyext_acv.pyx:global_sdp_clf"]}
{"id": "C21", "title": "The returned index row lists exactly the explanation", "statement": "In the returned index matrix, the non-negative entries of a row are exactly the variables of the explanation of that row, and the reported size is their number.", "quantifier": "every search history, with and without coalitions", "why_tests_cant": "Stale entries only appear for particular sequences of improvements of different sizes.", "anchors": ["acv_explainers/cyext_acv/cyext_acv.pyx:global_sdp_rf", "acv_explainers/cyext_acv/cyext_acv.pyx:global_sdp_reg", "acv_explainers/acv_agnosticX.py:importance_sdp_rf"]}
{"id": "C22", "title": "The enumeration of candidate sets is complete and in bounds", "statement": "The search visits every subset of the groups, by increasing size and once each, and never indexes beyond the enumerated sizes.", "quantifier": "every number of groups and every stop setting", "why_tests_cant": "Fails only from 16 or 17 groups on, where exhaustive testing is slow.", "anchors": ["acv_explainers/cyext_acv/cyext_acv.pyx:global_sdp_rf", "acv_explainers/utils_sdp.py:importance_msdp_clf_search", "acv_explainers/cyext_acv/cyext_acv_nopa.pyx:global_sdp_clf_nopa", "acv_explainers/utils.py:powerset"]}
{"id": "C23", "title": "The list of all sufficient explanations is an antichain and complete", "statement": "For each observation, the list of sufficient explanations contains only sets reaching the level, no listed set contains another one, and every candidate set reaching the level contains a listed one.", "quantifier": "every probability function, level, table, stop setting", "why_tests_cant": "All landscapes.", "anchors": ["acv_explainers/cyext_acv/cyext_acv.pyx:sufficient_expl_rf", "acv_explainers/acv_agnosticX.py:sufficient_expl_rf"]}
{"id": "C24", "title": "Active and null variables partition the table", "statement": "For every row, the active variables (first size entries of the index row) and the null variables together list every column exactly once.", "quantifier": "every index matrix whose rows list distinct columns", "why_tests_cant": "Universal.", "anchors": ["acv_explainers/utils.py:get_active_null_coalition_list", "acv_explainers/utils.py:get_null_coalition"]}
{"id": "C25", "title": "Projected-forest same-decision probabilities are probabilities", "statement": "The projected-forest estimate of the same-decision probability lies in [0, 1]; the training-sample weights behind it are non-negative and sum to at most one, and to exactly one as soon as one training sample agrees with the observation on the conditioning variables.", "quantifier": "every forest, data set, observation, conditioning set, depth and minimal node size", "why_tests_cant": "Universal over forests and data.", "anchors": ["acv_explainers/cyext_acv/cyext_acv.pyx:single_compute_sdp_rf", "acv_explainers/cyext_acv/cyext_acv.pyx:single_compute_sdp_rule_weights"]}
{"id": "C26", "title": "Same- and different-decision probabilities are complementary", "statement": "For the same inputs the same-decision probability and the different-decision probability of the projected forest add up to the total weight of the selected training samples, hence to one when every tree selects at least one sample.", "quantifier": "every forest, data set, observation, conditioning set", "why_tests_cant": "Universal.", "anchors": ["acv_explainers/cyext_acv/cyext_acv.pyx:single_compute_sdp_rf", "acv_explainers/cyext_acv/cyext_acv.pyx:single_compute_ddp_rf"]}
{"id": "C27", "title": "Projected-forest estimates only look at the conditioning variables", "statement": "Two observations that agree on the conditioning variables (and on the target) get the same same-decision probability, the same weights and the same rule.", "quantifier": "every forest, data set, conditioning set and pair of observations", "why_tests_cant": "Non-interference over all pairs.", "anchors": ["acv_explainers/cyext_acv/cyext_acv.pyx:single_compute_sdp_rf", "acv_explainers/cyext_acv/cyext_acv.pyx:single_compute_sdp_rule"]}
{"id": "C28", "title": "The local rule contains its observation and constrains only the conditioning variables", "statement": "The rule returned with a projected-forest probability contains the observation, is never narrower than the constraints of the splits actually met, and leaves every variable outside the conditioning set at its initial bounds.", "quantifier": "every forest, data set, observation within the initial bounds", "why_tests_cant": "Universal.", "anchors": ["acv_explainers/cyext_acv/cyext_acv.pyx:single_compute_sdp_rule"]}
{"id": "C29", "title": "Every observation in the rule has the same same-decision probability", "statement": "Every observation that falls in the rule of x (open lower bound, closed upper bound, on the conditioning variables) with the same target gets the same probability, rule and weights as x, provided thresholds lie within the initial bounds.", "quantifier": "every forest, data set, pair of observations", "why_tests_cant": "It is the advertised guarantee of the rule and concerns infinitely many observations.", "anchors": ["acv_explainers/cyext_acv/cyext_acv.pyx:single_compute_sdp_rule", "acv_explainers/acv_agnosticX.py:compute_sdp_rule"]}
{"id": "C30", "title": "Conditioning on nothing gives the empirical frequency", "statement": "With an empty conditioning set the projected forest weighs all training samples equally, so the probability is the plain frequency of the decision in the data.", "quantifier": "every forest, data set, observation", "why_tests_cant": "Universal.", "anchors": ["acv_explainers/cyext_acv/cyext_acv.pyx:single_compute_sdp_rf", "acv_explainers/cyext_acv/cyext_acv.pyx:single_compute_exp_rf"]}
{"id": "C31", "title": "Forest traversal reads only existing nodes", "statement": "The level-by-level traversal of the projected forest never reads a node index outside the tree arrays.", "quantifier": "every forest whose trees have leaves above the maximal depth", "why_tests_cant": "Bounds checks are off, so the stray read is silent.", "anchors": ["acv_explainers/cyext_acv/cyext_acv.pyx:single_compute_sdp_rf", "acv_explainers/cyext_acv/cyext_acv.pyx:single_compute_sdp_rule"]}
{"id": "C32", "title": "Projected expectation and distribution function are consistent", "statement": "The projected-forest conditional expectation lies between the smallest and the largest training target, and the projected distribution function is non-decreasing with values in [0, 1].", "quantifier": "every forest and data set in which every tree selects at least one sample", "why_tests_cant": "Universal.", "anchors": ["acv_explainers/cyext_acv/cyext_acv.pyx:single_compute_exp_rf", "acv_explainers/cyext_acv/cyext_acv.pyx:single_compute_cdf_rf"]}
{"id": "C33", "title": "Weighted percentiles lie between the extremes and are monotone", "statement": "A weighted percentile is defined exactly for percentiles in [0,100] and samples with a positive weight, lies between two values with positive weight, is non-decreasing in the percentile, does not depend on the scale of the weights, and for distinct values is the linear interpolation between the ranks.", "quantifier": "every sample, every non-negative weights, every percentile", "why_tests_cant": "Universal over real data.", "anchors": ["acv_explainers/utils.py:weighted_percentile"]}
{"id": "C34", "title": "Merging two compatible rectangles covers both", "statement": "The union rectangle used to enlarge a rule contains both rectangles it is built from.", "quantifier": "every pair of rectangles and conditioning set", "why_tests_cant": "Universal over real rectangles.", "anchors": ["acv_explainers/utils.py:find_union", "acv_explainers/utils.py:extend_rec"]}
{"id": "C35", "title": "Extended rules contain the original rule", "statement": "Enlarging a rule with the rules of neighbouring samples never removes a point from the rule, terminates, and leaves the variables outside the conditioning set unchanged.", "quantifier": "every rule, list of sample rules and probabilities, level", "why_tests_cant": "All sequences of merges.", "anchors": ["acv_explainers/utils.py:extend_partition", "acv_explainers/utils.py:extend_rec", "acv_explainers/utils.py:find_nbor"]}
{"id": "C36", "title": "Simulated-annealing rules stay valid", "statement": "The rule returned by the annealing search always satisfies the validity check it is meant to respect, and its volume is the largest among the candidates accepted, whatever the random draws.", "quantifier": "every sequence of random draws, every temperature and iteration budget", "why_tests_cant": "All random histories.", "anchors": ["acv_explainers/utils_cr.py:rules_simulated_annealing", "acv_explainers/utils.py:rules_simulated_annealing", "acv_explainers/utils.py:check_rule"]}
{"id": "C37", "title": "Counterfactual sampling changes only the allowed variables", "statement": "Every candidate generated and returned when sampling counterfactuals agrees with the observation outside the chosen variables, and on the chosen variables takes values from training samples inside the counterfactual rule.", "quantifier": "every random history, data set, rule and variable set", "why_tests_cant": "All random histories.", "anchors": ["acv_explainers/utils_cr.py:generate_candidate", "acv_explainers/utils_cr.py:simulated_annealing"]}
{"id": "C38", "title": "Removing dominated counterfactual rules keeps the coverage", "statement": "Removing redundant rules leaves at least one rule that contains each removed rule, so no point covered before is lost.", "quantifier": "every list of rules", "why_tests_cant": "All lists, including duplicates.", "anchors": ["acv_explainers/utils_cr.py:remove_in", "acv_explainers/utils_cr.py:remove_in_wsdp", "acv_explainers/utils.py:remove_in", "acv_explainers/utils.py:remove_in_wsdp"]}
{"id": "C39", "title": "Counterfactual rules honour the probability level", "statement": "A counterfactual rule returned for an observation fixes the untouched variables to the observation's values (or rule), takes the changed variables from one compatible leaf, and has estimated probability at least the level unless no leaf reaches it, in which case the best one is returned.", "quantifier": "every list of leaves and probability function", "why_tests_cant": "All landscapes.", "anchors": ["acv_explainers/utils_cr.py:return_counterfactuals", "acv_explainers/utils.py:return_counterfactuals"]}
{"id": "C40", "title": "Rule metrics are proportions", "statement": "The coverage and accuracy computed for each global rule lie in [0, 1], coverage is the fraction of samples inside the rule, and in classification the output is a most frequent label among the covered samples.", "quantifier": "every rule list and data set", "why_tests_cant": "Universal.", "anchors": ["acv_explainers/utils.py:compute_rules_metrics"]}
{"id": "C41", "title": "Rule-based prediction uses a rule that covers the sample and is good enough", "statement": "The global-rule predictor answers for a sample only with rules that contain it and exceed the coverage and accuracy thresholds, choosing the most accurate; otherwise it abstains.", "quantifier": "every rule list, sample, thresholds", "why_tests_cant": "Universal.", "anchors": ["acv_explainers/utils.py:global_rules_model"]}
{"id": "C42", "title": "Swing decomposition recovers the Shapley values", "statement": "The positive and negative swings add up to the Shapley value of the thresholded game, every count of positive, negative and null swings adds up to the number of coalitions without the player, and the values satisfy efficiency.", "quantifier": "every set function, number of players, level", "why_tests_cant": "Universal over games.", "anchors": ["acv_explainers/cyext_acv/cyext_acv.pyx:swing_sv_clf", "acv_explainers/cyext_acv/cyext_acv.pyx:swing_sv_clf_direct", "acv_explainers/py_acv.py:swing_tree_shap"]}
{"id": "C43", "title": "Local explanatory importance is a frequency", "statement": "The local importance of a variable is the fraction of the listed explanations containing it, between 0 and 1, and is 1 exactly for the variables in all explanations.", "quantifier": "every non-empty list of explanations over distinct variables", "why_tests_cant": "Universal.", "anchors": ["acv_explainers/acv_agnosticX.py:compute_local_sdp", "acv_explainers/acv_tree.py:compute_local_sdp"]}
{"id": "C44", "title": "Marginal same-decision probability is a probability and exact at the ends", "statement": "The marginal same-decision probability of a classifier lies in [0,1], equals 1 when all variables are fixed, and equals the share of background samples with the same decision when none is.", "quantifier": "every model, sample, background set, variable set", "why_tests_cant": "Any model function.", "anchors": ["acv_explainers/utils_sdp.py:single_msdp", "acv_explainers/utils_sdp.py:msdp"]}
{"id": "C45", "title": "Loaded LightGBM trees predict like the dump", "statement": "The array tree built from a nested LightGBM dump gives, for every observation, the leaf value that following the nested dump gives, and satisfies the well-formedness the explainer relies on.", "quantifier": "every nested dump, every observation", "why_tests_cant": "All trees.", "anchors": ["acv_explainers/base_tree.py:SingleTree.__init__ (LightGBM tree_structure)"]}
{"id": "C46", "title": "Loaded CatBoost oblivious trees predict like the oblivious rule", "statement": "The heap-shaped array tree built from an oblivious CatBoost tree sends every observation to the leaf whose index is given by its split answers.", "quantifier": "every depth, list of splits, leaf values, observation", "why_tests_cant": "All depths.", "anchors": ["acv_explainers/base_tree.py:CatBoostTreeModelLoader.get_trees"]}
{"id": "C47", "title": "Binary XGBoost models are parsed back to what was written", "statement": "Parsing the binary form of a tree recovers every node field, in particular the split index and the default direction packed in one word.", "quantifier": "every node list", "why_tests_cant": "All bit patterns.", "anchors": ["acv_explainers/base_tree.py:XGBTreeModelLoader"]}
{"id": "C48", "title": "The reported depth bounds every path", "statement": "The depth computed for a tree is exactly the length of its longest root-to-leaf path, so a level-by-level traversal of that many levels reaches every leaf.", "quantifier": "every tree", "why_tests_cant": "All trees.", "anchors": ["acv_explainers/cext_acv/acv_tree.h:compute_expectations", "acv_explainers/cext_acv/acv_tree.h:compute_expectations (max_depth)", "acv_explainers/base_tree.py:SingleTree.__init__"]}
{"id": "C49", "title": "Conditional-rule weights keep every compatible training sample", "statement": "When the unconditioned variables are restricted to a given box, every training sample inside the box that agrees with the observation on the conditioning variables keeps a positive weight.", "quantifier": "every forest, box, data set, observation", "why_tests_cant": "Universal.", "anchors": ["acv_explainers/cyext_acv/cyext_acv.pyx:single_compute_cdp_cond_rule_weights", "acv_explainers/cyext_acv/cyext_acv.pyx:single_compute_ddp_cond_rule_weights", "acv_explainers/cyext_acv/cyext_acv.pyx:single_compute_cdp_intv_rule_weights"]}
{"id": "C50", "title": "Divergent-set search evaluates the complement of each candidate", "statement": "The divergent-set search reports a set of variables such that conditioning on all the other variables gives the reported probability, at least the level and minimal in size.", "quantifier": "every probability function, level, table", "why_tests_cant": "All landscapes.", "anchors": ["acv_explainers/cyext_acv/cyext_acv.pyx:global_ddp_rf", "acv_explainers/cyext_acv/cyext_acv.pyx:global_cdp_rf"]}
{"id": "C51", "title": "Categorical classifier same-decision probability is an exact frequency", "statement": "The categorical classifier same-decision-probability routine returns exactly the fraction of rows with the decision of the observation among the background rows equal to it on the given variables, provided the mean ensemble values of the two kinds of rows differ; this holds whenever the decision is a threshold on the predicted value and both decisions occur.", "quantifier": "every ensemble, data set, observation, proper non-empty conditioning set", "why_tests_cant": "Universal over real inputs; the code computes a ratio of differences of conditional means, not a count.", "anchors": ["acv_explainers/cyext_acv/cyext_acv.pyx:compute_sdp_clf_cat", "acv_explainers/utils_sdp.py:compute_sdp_clf_cat"]}
{"id": "C52", "title": "Categorical regression same-decision probability is an exact frequency", "statement": "The categorical regression routine always returns a value in [0, 1] and, when the row predictions are those of the ensemble, no row sits on a boundary and both near and far rows occur, exactly the fraction of matching rows whose prediction is within the tolerance of the prediction of the observation.", "quantifier": "every ensemble, data set, observation, tolerance, conditioning set", "why_tests_cant": "The code sums products over all pairs of trees and leaves; equality with a count is universal.", "anchors": ["acv_explainers/cyext_acv/cyext_acv.pyx:compute_sdp_reg_cat"]}
{"id": "C53", "title": "Global importance over all sufficient explanations is a frequency", "statement": "The global importance returned with the list of all sufficient explanations is, for each variable, the fraction of the listed explanations (over all observations) that contain it, and lies in [0, 1].", "quantifier": "every table, probability function, level, coalition structure", "why_tests_cant": "the division by the number of listed explanations fails only when no observation has any, which depends on the data", "anchors": ["acv_explainers/cyext_acv/cyext_acv.pyx:sufficient_expl_rf", "acv_explainers/cyext_acv/cyext_acv.pyx:sufficient_cxpl_rf"]}
{"id": "C54", "title": "Listed explanations and their probabilities stay in step", "statement": "In the answer of the methods listing all sufficient (or counterfactual) explanations, the probabilities given for a row are those of its listed sets, in the same order and number.", "quantifier": "every table, probability function, level", "why_tests_cant": "the shift is invisible unless every row of the two answers is compared with a recomputed probability", "anchors": ["acv_explainers/acv_agnosticX.py:sufficient_expl_rf", "acv_explainers/acv_agnosticX.py:sufficient_cxpl_rf"]}
{"id": "C55", "title": "The projected forest selects the samples of the observation's projected cell", "statement": "In each tree the training samples used by the projected-forest estimators include all samples that the projected tree does not separate from the observation (they reach the same leaves when splits outside the conditioning set are followed both ways), and are exactly those when the selection is at least the minimal node size; with all split variables known they are the samples of the observation's leaf.", "quantifier": "every forest with the arrays the loaders build, data set, conditioning set, depth at least that of the tree", "why_tests_cant": "The traversal never empties its list of nodes between levels and follows the -1 children of leaves; whether it still computes the cell is a statement about all trees.", "anchors": ["acv_explainers/cyext_acv/cyext_acv.pyx:single_compute_sdp_rf", "acv_explainers/cyext_acv/cyext_acv.pyx:single_compute_exp_rf", "acv_explainers/base_tree.py:BaseTree.__init__"]}
{"id": "C56", "title": "Minimal node size", "statement": "When the training set has at least min_node_size samples, every tree of the projected forest keeps at least min_node_size samples.", "quantifier": "every forest, data set, conditioning set", "why_tests_cant": "The loop stops only after the set has become too small; whether it does depends on the data.", "anchors": ["acv_explainers/cyext_acv/cyext_acv.pyx:single_compute_sdp_rf", "acv_explainers/cyext_acv/cyext_acv.pyx:single_compute_sdp_rule"]}
{"id": "C57", "title": "Vector and set versions of the projected forest agree", "statement": "The older versions of the projected-forest routines, which keep the nodes of a level in a vector with duplicates, give the same classification probabilities as the set versions whenever the selections reach the minimal node size.", "quantifier": "every forest, data set, observation", "why_tests_cant": "Equality of two traversals on all inputs.", "anchors": ["acv_explainers/cyext_acv/cyext_acv.pyx:single_compute_sdp_rf_v0", "acv_explainers/cyext_acv/cyext_acv.pyx:single_compute_sdp_rf"]}
{"id": "C58", "title": "Rule routines return the probabilities of the plain routines", "statement": "The routines returning a rule and weights return the same probability as those returning only the probability, and rule and weights do not depend on the decision counted (same, different, counterfactual).", "quantifier": "every forest, data set, observation, conditioning set", "why_tests_cant": "The text is duplicated a dozen times; equality of the copies is universal.", "anchors": ["acv_explainers/cyext_acv/cyext_acv.pyx:single_compute_sdp_rule_weights", "acv_explainers/cyext_acv/cyext_acv.pyx:single_compute_ddp_rule_weights", "acv_explainers/cyext_acv/cyext_acv.pyx:single_compute_cdp_rule_weights"]}
{"id": "C59", "title": "Counterfactual and divergent probabilities on a box are complementary", "statement": "On a box alone the counterfactual probability (decision kept) and the divergent probability (decision changed) add up to the total weight.", "quantifier": "every forest, data set, box, target", "why_tests_cant": "One of the two copies of the indicator is wrong for classes only; a test has to compare both routines on classification data.", "anchors": ["acv_explainers/cyext_acv/cyext_acv.pyx:single_compute_cdp_intv_rule_weights", "acv_explainers/cyext_acv/cyext_acv.pyx:single_compute_ddp_intv_rule_weights"]}
{"id": "C60", "title": "Weighted percentiles do not depend on the order of the samples", "statement": "Permuting the samples or using another correct sorting routine does not change the weighted percentile.", "quantifier": "every sample, weights, percentile, sorting routine", "why_tests_cant": "All permutations and all ways to break ties.", "anchors": ["acv_explainers/utils.py:weighted_percentile"]}
{"id": "C61", "title": "The undoing traversal keeps the minimal node size and the projected cell", "statement": "The traversal that undoes the step making the selection too small returns distinct training samples, at least min(min_node_size, number of samples) of them, contains every sample of the observation's projected cell, and is exactly that cell if it is large enough.", "quantifier": "every forest, data set, conditioning set", "why_tests_cant": "All trees and data sets.", "anchors": ["acv_explainers/cyext_acv/cyext_acv.pyx:quantile_rf", "acv_explainers/utils_exp.py:compute_shaff_sdp"]}
{"id": "C62", "title": "Conditional quantiles are defined, bracketed and monotone", "statement": "The quantile of the projected forest is defined for every percentile in [0,100], lies between the targets of two selected training samples, is monotone, and only depends on the conditioning variables of the observation.", "quantifier": "every forest, data set, conditioning set, percentile", "why_tests_cant": "Universal over data and forests.", "anchors": ["acv_explainers/cyext_acv/cyext_acv.pyx:quantile_rf", "acv_explainers/cyext_acv/cyext_acv.pyx:compute_quantile_rf", "acv_explainers/utils_exp.py:compute_shaff_quantile"]}
{"id": "C63", "title": "The Python projected-forest estimators are probabilities and averages", "statement": "The Python probabilities lie in [0,1] and grow with the tolerance, the Python expectation lies between the targets of the selected samples, and all are defined for a positive node size.", "quantifier": "every forest, data set, conditioning set", "why_tests_cant": "Universal over data and forests.", "anchors": ["acv_explainers/utils_exp.py:compute_shaff_sdp", "acv_explainers/utils_exp.py:compute_shaff_exp"]}
{"id": "C64", "title": "Compiled and Python projected-forest estimators agree", "statement": "The compiled and the Python quantile agree; the Python probability and expectation agree with the compiled ones whenever the projected cells hold the minimal number of samples.", "quantifier": "every forest, data set, conditioning set", "why_tests_cant": "Equality of two implementations on all inputs.", "anchors": ["acv_explainers/cyext_acv/cyext_acv.pyx:quantile_rf", "acv_explainers/cyext_acv/cyext_acv.pyx:compute_sdp_rf", "acv_explainers/utils_exp.py:compute_shaff_sdp", "acv_explainers/utils_exp.py:compute_shaff_exp"]}
{"id": "C65", "title": "Quantiles of target differences are bracketed and monotone", "statement": "The quantile of the difference between the observation's target and those of the selected samples is defined exactly if some tree selects a sample, lies between two such differences and is monotone.", "quantifier": "every forest, data set, conditioning set, percentile", "why_tests_cant": "Universal over data and forests.", "anchors": ["acv_explainers/cyext_acv/cyext_acv.pyx:quantile_diff_rf"]}
{"id": "C66", "title": "Merging rectangles adds only points of the neighbour", "statement": "Merging a rule with a neighbouring rectangle adds no point that lies in neither of them.", "quantifier": "every pair of rectangles and conditioning set", "why_tests_cant": "Universal over real rectangles.", "anchors": ["acv_explainers/utils.py:extend_rec", "acv_explainers/utils.py:find_nbor"]}
{"id": "C67", "title": "Removing contained rules leaves exactly the maximal ones", "statement": "After removal no kept rule contains another, and a given rule is kept if and only if no given rule strictly contains it.", "quantifier": "every list of rules", "why_tests_cant": "The in-place double loop must be right for every order and every chain of inclusions.", "anchors": ["acv_explainers/utils.py:remove_in", "acv_explainers/utils_cr.py:remove_in"]}
{"id": "C68", "title": "Rules keep their own probability when redundant ones are removed", "statement": "After removing redundant rules, the probability at each position is that of the rule at this position.", "quantifier": "every list of rules with probabilities", "why_tests_cant": "Depends on the order of values.", "anchors": ["acv_explainers/utils.py:remove_in_wsdp", "acv_explainers/utils.py:return_counterfactuals"]}
{"id": "C69", "title": "Compatible leaves are the accurate ones, else the best", "statement": "The leaves retained for counterfactuals are, up to rounding, exactly those whose accuracy reaches the level; if none does, the most accurate leaf is returned.", "quantifier": "every list of leaves, data set, target, level", "why_tests_cant": "Rounding and empty leaves are corner cases.", "anchors": ["acv_explainers/utils_cr.py:get_compatible_leaf"]}
{"id": "C70", "title": "Distinct rules keep their output and frequency", "statement": "The frequency of a rule is the share of equal rules, between 1/n and 1; every distinct rule is listed with its own output.", "quantifier": "every list of rules and outputs", "why_tests_cant": "Closeness tolerance is relative.", "anchors": ["acv_explainers/utils.py:rules_frequency", "acv_explainers/utils.py:unique_rules"]}
{"id": "C71", "title": "Counterfactual samples have the target", "statement": "The samples used to build counterfactual rules all have the target; they are exactly those with positive weight if one exists, and there is at least one as soon as the data contain the target.", "quantifier": "every data set and weights", "why_tests_cant": "Universal.", "anchors": ["acv_explainers/utils_cr.py:return_xy_cnt", "acv_explainers/utils.py:return_xy_cnt"]}
{"id": "C72", "title": "Annealing accepts worse candidates with decreasing probability", "statement": "A candidate worse than the current one is accepted by the annealing searches with probability exp(diff/t), which decreases with the loss and with the iterations.", "quantifier": "every difference, iteration, temperature, random draw, any increasing exponential", "why_tests_cant": "The searches still return good answers when every candidate is accepted; only the acceptance rule shows it.", "anchors": ["acv_explainers/utils_cr.py:rules_simulated_annealing", "acv_explainers/utils_cr.py:simulated_annealing", "acv_explainers/utils.py:simulated_annealing"]}
{"id": "C73", "title": "The volume of a rule grows with the rule", "statement": "The volume guiding the enlargement of rules is nonnegative and never larger for a rule than for one containing it; the enlarged rule is never smaller than the initial one.", "quantifier": "every rule, range of the data, random history", "why_tests_cant": "Universal over rules; infinite bounds.", "anchors": ["acv_explainers/utils_cr.py:volume_rectangle", "acv_explainers/utils_cr.py:convert_boundvalues", "acv_explainers/utils.py:volume_rectangle"]}
{"id": "C74", "title": "The density of a rule is a share", "statement": "The density of a rule is the share of good samples inside it, between 0 and 1, grows with the rule, and is undefined exactly when there is no good sample.", "quantifier": "every data set, set of bad samples, rule", "why_tests_cant": "Universal.", "anchors": ["acv_explainers/utils_cr.py:max_dens", "acv_explainers/utils.py:max_dens"]}
{"id": "C75", "title": "Enlarged leaves of counterfactuals stay supported", "statement": "The leaves used for counterfactual rules contain, once enlarged, the rule of every sample reaching the level, each comes from the rule of such a sample if there is one, and no training sample enters that is outside these rules.", "quantifier": "every random history, set of rules, level", "why_tests_cant": "All random histories.", "anchors": ["acv_explainers/utils_cr.py:return_leaf_cnt", "acv_explainers/utils_cr.py:return_leaf_cnt_reg"]}
{"id": "C76", "title": "The annealing of rules never raises", "statement": "The annealing of rules returns a rule for every data set, number of variables, rule and random history.", "quantifier": "every input with a non-empty batch", "why_tests_cant": "The lists drawn from depend on the random history.", "anchors": ["acv_explainers/utils_cr.py:rules_simulated_annealing", "acv_explainers/utils.py:rules_simulated_annealing"]}
{"id": "C77", "title": "Python and compiled swing values agree", "statement": "For every declared list of disjoint coalitions the Python loop over coalitions returns the same value, parts and counts as the compiled loop.", "quantifier": "every set function, list of coalitions", "why_tests_cant": "Universal over games and coalitions.", "anchors": ["acv_explainers/py_acv.py:swing_tree_shap", "acv_explainers/py_acv.py:swing_tree_shap_clf", "acv_explainers/utils.py:chain_l", "acv_explainers/utils.py:powerset"]}
{"id": "C78", "title": "Shapley values by enumeration", "statement": "The reference Shapley values computed by enumerating the coalitions are numbers, and are the Shapley values of the conditional expectation they use.", "quantifier": "every forest, data, observation, coalitions", "why_tests_cant": "All forests.", "anchors": ["acv_explainers/py_acv.py:shap_values_leaves_notoptimized", "acv_explainers/py_acv.py:shap_values_discrete_notoptimized"]}
{"id": "C79", "title": "Successive clusters of sufficient variables", "statement": "The recursive search splits the columns into disjoint clusters covering all of them; each cluster is a smallest sufficient set of the columns still left, of largest probability for its size, and what is left when no set is sufficient forms the last cluster. The documentation adds that the probability level decays from one cluster to the next.", "quantifier": "every probability function, level, decay, threshold, number of columns, coalitions", "why_tests_cant": "Recursion over all subsets for an arbitrary probability function.", "anchors": ["acv_explainers/py_acv.py:local_sdp"]}
{"id": "C80", "title": "Global variable counts are shares of observations", "statement": "The global importance of a column is the share of observations for which a cluster containing the column reaches the level, hence between 0 and 1.", "quantifier": "every list of observations, probability functions, levels, coalitions", "why_tests_cant": "Arbitrary probability functions and any number of rows.", "anchors": ["acv_explainers/py_acv.py:global_sdp_importance"]}
{"id": "C81", "title": "Loaded XGBoost JSON trees predict like the dump", "statement": "The array tree built from a JSON dump of an XGBoost tree gives every observation, with missing values or not, the leaf value that XGBoost's rule (strictly below the condition goes to the yes child, missing to the missing child) gives, carries the covers as weights, and is well formed.", "quantifier": "every dump, children in any order, every observation", "why_tests_cant": "All trees, and observations exactly on a split are rare in tests.", "anchors": ["acv_explainers/base_tree.py:SingleTree.__init__ (XGBoost JSON, extract_data)"]}
{"id": "C82", "title": "Loaded Spark trees predict like the Spark tree", "statement": "The array tree built by the prefix traversal of a Spark tree gives every observation the value of the leaf Spark reaches, numbers the nodes in prefix order with their counts, and is well formed.", "quantifier": "every tree, every observation without missing values", "why_tests_cant": "All trees.", "anchors": ["acv_explainers/base_tree.py:SingleTree.__init__ (pyspark, buildTree)"]}
{"id": "C83", "title": "Trees loaded from the binary form predict like XGBoost", "statement": "For every observation the loaded array tree ends on the leaf XGBoost reaches (strictly below the threshold goes left, missing follows the default direction) and predicts its value.", "quantifier": "every node list, every observation, every missing pattern", "why_tests_cant": "All bit patterns of thresholds and values; the failures sit between two consecutive 32-bit numbers.", "anchors": ["acv_explainers/base_tree.py:XGBTreeModelLoader.get_trees"]}
{"id": "C84", "title": "Same-decision probability of regression forests", "statement": "compute_sdp_reg returns a number between 0 and 1 that depends on the observation only, equals the frequency of the background predictions within the tolerance when no column is given, and equals 1 when all columns are given and the background has a row in the leaf of the observation.", "quantifier": "every forest, background, observation, set of columns, tolerance and batch", "why_tests_cant": "All forests and batches; the order in which the normalisers are written matters only from the second observation and the second tree on.", "anchors": ["acv_explainers/cyext_acv/cyext_acv.pyx:compute_sdp_reg", "acv_explainers/utils_sdp.py:compute_sdp_reg"]}
{"id": "C85", "title": "The regression search uses the documented probability", "statement": "The probabilities that global_sdp_reg compares with the requested level are those compute_sdp_reg returns for the same set of columns and observation, with or without coalitions.", "quantifier": "every forest, background, sequence of sets and observations", "why_tests_cant": "All histories of earlier evaluations.", "anchors": ["acv_explainers/cyext_acv/cyext_acv.pyx:global_sdp_reg"]}
{"id": "C86", "title": "Explanations use the fitted forest", "statement": "After any sequence of calls of an ACXplainer, explanations, predictions and default levels come from the last fitted forest, predict_global_rules from the last fitted rules, and calls made before any fit raise NotFittedError.", "quantifier": "every sequence of calls of fit, explanation methods, predict and global rules", "why_tests_cant": "Histories of any length; the failure needs a fit after an explanation.", "anchors": ["acv_explainers/acv_agnosticX.py:ACXplainer.check_is_explainer", "acv_explainers/acv_agnosticX.py:ACXplainer.fit"]}
{"id": "C87", "title": "Columns considered by the searches", "statement": "The searches reached through ACXplainer and ACVTree never run out of range for any number of columns, look at the ten most important (most used) columns, and what they report is minimal and sufficient, and complete, among all columns.", "quantifier": "every number of columns, importance ranking, coalition list, estimator and batch", "why_tests_cant": "Any number of columns and any estimator; eleven columns already need 2047 subsets.", "anchors": ["acv_explainers/acv_agnosticX.py:ACXplainer.importance_sdp_rf", "acv_explainers/acv_tree.py:ACVTree.importance_sdp_clf"]}
{"id": "C88", "title": "The cache does not change the Shapley values", "statement": "ACVTree.shap_values returns the same values whether the leaf counts were cached by the constructor or not.", "quantifier": "every forest, background, observation and coalition lists of the constructor and of the call", "why_tests_cant": "All pairs of coalition lists and all forests.", "anchors": ["acv_explainers/acv_tree.py:ACVTree.shap_values", "acv_explainers/base_tree.py:BaseTree.__init__"]}
{"id": "C89", "title": "Counterfactual rules of an observation", "statement": "The counterfactual rules kept for an observation (or a regional rule) are compatible leaves on the divergent variables and the observation (the rule) elsewhere, carry their own probability and reach pi_level unless none does; none contains another; an observation whose leaves reach the level keeps a rule, and the most probable one.", "quantifier": "every data set, leaves, estimator, divergent set and levels", "why_tests_cant": "All lists of leaves and estimators; the failure needs two leaves equal on the divergent variables.", "anchors": ["acv_explainers/counterfactual_rules.py:CR.run_local_counterfactual_rules", "acv_explainers/utils_cr.py:return_local_counterfactuals"]}
{"id": "C90", "title": "Local sampling session", "statement": "run_sampling_local_counterfactuals draws, for each observation with a counterfactual, a sample that satisfies its most probable rule, and reports the share reaching the target class (interval), the same for the original model, and the share of observations covered; it never raises.", "quantifier": "every random stream, data, rules, predictor, target", "why_tests_cant": "Depends on the random draws; all predictors with more than two classes.", "anchors": ["acv_explainers/counterfactual_rules.py:CR.run_sampling_local_counterfactuals"]}
{"id": "C91", "title": "Regional sampling session", "statement": "run_sampling_regional_counterfactuals draws samples from test observations of each rule along its most probable counterfactual, and the coverage it reports is the share of the test observations for which a counterfactual exists; it can be called without a local session.", "quantifier": "every random stream, data, test set, rules, predictor", "why_tests_cant": "Depends on the random draws; the coverage error is a tautology of the code, seen only by reasoning.", "anchors": ["acv_explainers/counterfactual_rules.py:CR.run_sampling_regional_counterfactuals"]}
{"id": "C92", "title": "Sampling for every test observation", "statement": "run_sampling_regional_counterfactuals_alltests chooses for each test observation a rule that holds it and draws a sample from the most probable counterfactual of that rule.", "quantifier": "every random stream, data, test set, rules, predictor", "why_tests_cant": "Depends on the random draws and on all families of rules.", "anchors": ["acv_explainers/counterfactual_rules.py:CR.run_sampling_regional_counterfactuals_alltests"]}
{"id": "C93", "title": "Divergent-set sessions", "statement": "run_local_divergent_set and run_regional_divergent_set report for each observation (rule) a minimal set of variables which, once freed, leads to the target with the level asked for (the best set tried if there is none), its complement, the probability of that set and the training weights this probability comes from; the importance counts the observations whose reported set reaches the level.", "quantifier": "every forest, training set, observations, rules, targets, level, number of columns", "why_tests_cant": "All forests and data; the search, the complement and the recomputation of the probability only disagree on whole sets or on rules that bind.", "anchors": ["acv_explainers/counterfactual_rules.py:CR.run_local_divergent_set", "acv_explainers/counterfactual_rules.py:CR.run_regional_divergent_set", "acv_explainers/cyext_acv/cyext_acv.pyx:global_cdp_rf", "acv_explainers/cyext_acv/cyext_acv.pyx:global_cdp_intv"]}
{"id": "C94", "title": "Normalized Shapley values", "statement": "shap_values_normalized returns, for every column, the Shapley value of its player in the game whose worth is the normalized conditional expectation (leaf probabilities divided by their total over the tree); the values of the players add up to the prediction minus the average prediction.", "quantifier": "every forest, background data, observation, declared coalitions", "why_tests_cant": "All forests, data and subsets of players; the coalitions enumerated for a leaf and the normaliser of that leaf range over different variables, and the running normaliser is reset by an empty leaf only for some coalitions.", "anchors": ["acv_explainers/cyext_acv/cyext_acv.pyx:shap_values_leaves_normalized", "acv_explainers/acv_tree.py:ACVTree.shap_values_normalized"]}
{"id": "C95", "title": "Normalized Shapley values from stored counts", "statement": "shap_values_normalized returns the same values with and without cache_normalized, for every observation and every coalitions.", "quantifier": "every forest, background data, observation, flags, coalitions of the constructor and of the call", "why_tests_cant": "The routines differ only on observations lying on a threshold, on coalitions other than those of the constructor, and on one combination of flags.", "anchors": ["acv_explainers/cyext_acv/cyext_acv_cache.pyx:shap_values_leaves_normalized_cache", "acv_explainers/cyext_acv/cyext_acv_cache.pyx:leaves_cache_normalized", "acv_explainers/acv_tree.py:ACVTree.shap_values_normalized", "acv_explainers/base_tree.py:BaseTree.__init__"]}
{"id": "C96", "title": "Pure Python Shapley values", "statement": "py_shap_values returns the same Shapley values as the compiled routine, for every forest, data, observation and declared coalitions.", "quantifier": "every forest, background data, observation, declared coalitions", "why_tests_cant": "All forests and subsets of players; a division by an empty projection only appears for particular leaves without background row, and one-column coalitions are never tried.", "anchors": ["acv_explainers/py_acv.py:shap_values_leaves", "acv_explainers/acv_tree.py:ACVTree.py_shap_values", "acv_explainers/utils.py:chain_l", "acv_explainers/utils.py:powerset"]}
{"id": "C97", "title": "Second pure Python Shapley routine", "statement": "py_shap_valuesv2 returns the same Shapley values as the compiled routine, for every forest, data, observation and declared coalitions.", "quantifier": "every forest, background data, observation, declared coalitions", "why_tests_cant": "Without coalitions the routine is right; the membership test between an integer and a list of lists only matters when coalitions are declared and a leaf uses another column.", "anchors": ["acv_explainers/py_acv.py:shap_values_leaves_v2", "acv_explainers/acv_tree.py:ACVTree.py_shap_valuesv2"]}
{"id": "C98", "title": "Pure Python active Shapley values", "statement": "py_shap_values_acv returns the same active-coalition Shapley values as the compiled routine, for every forest, data, observation, active and null variables, and declared coalitions.", "quantifier": "every forest, background data, observation, active and null variables, declared coalitions", "why_tests_cant": "The routines differ on observations lying exactly on a threshold, without null variable, or with a coalition partly active; random tests do not meet these.", "anchors": ["acv_explainers/py_acv.py:shap_values_acv_leaves", "acv_explainers/acv_tree.py:ACVTree.py_shap_values_acv"]}
{"id": "C99", "title": "Active Shapley values with one explanation per observation", "statement": "For every batch of observations and index arrays of active and null columns as documented, shap_values_acv_adap returns for each observation the Shapley values of its own restricted game, and the plain Shapley values when all columns are active.", "quantifier": "every forest, data, batch of observations, index arrays, declared coalitions", "why_tests_cant": "Index arrays are only tried as produced by one helper; a wrong layout reads outside the arrays without any exception.", "anchors": ["acv_explainers/cyext_acv/cyext_acv.pyx:shap_values_acv_leaves_adap", "acv_explainers/cyext_acv/cyext_acv.pyx:single_shap_values_acv_leaves", "acv_explainers/cyext_acv/cyext_acv.pyx:single_shap_values", "acv_explainers/acv_tree.py:ACVTree.shap_values_acv_adap", "acv_explainers/utils.py:get_null_coalition"]}
{"id": "C100", "title": "The classifier searches use the documented probability", "statement": "The probabilities that global_sdp_clf, global_sdp_clf_approx, global_sdp_clf_nopa and global_sdp_clf_ptrees compare with the requested level are those compute_sdp_clf returns for the same columns and observation, whatever was evaluated before and in whatever order the threads treat the leaves; hence a reported explanation is minimal and sufficient for compute_sdp_clf.", "quantifier": "every forest, background, batch, coalition list, level, minimal size, thread schedule", "why_tests_cant": "All histories of the reused work arrays and all thread schedules; a stale cell only shows for particular sequences of sets.", "anchors": ["acv_explainers/cyext_acv/cyext_acv.pyx:global_sdp_clf", "acv_explainers/cyext_acv/cyext_acv.pyx:global_sdp_clf_approx", "acv_explainers/cyext_acv/cyext_acv.pyx:global_sdp_clf_ptrees", "acv_explainers/cyext_acv/cyext_acv_nopa.pyx:global_sdp_clf_nopa"]}
{"id": "C101", "title": "Value table of binary boosted classifiers", "statement": "For a binary boosted classifier the table values_binary gives each node the probabilities [1-p, p]/num_trees with p the logistic of its raw value; one node per tree gives a distribution over the two classes that prefers the class the model predicts; and every classifier routine of ACVTree is handed a table in which the column of every class exists.", "quantifier": "every number of trees and nodes, all real leaf values, all leaf choices, all classifier routines", "why_tests_cant": "All forests and leaf combinations; the tests use one boosted model and compare no decision.", "anchors": ["acv_explainers/base_tree.py:BaseTree", "acv_explainers/acv_tree.py:importance_sdp_clf_greedy", "acv_explainers/acv_tree.py:compute_sdp_clf", "acv_explainers/acv_tree.py:compute_sdp_clf_nopa", "acv_explainers/acv_tree.py:swing_sv_clf"]}
{"id": "C102", "title": "Sequential Shapley routine as an array program", "statement": "shap_values_leaves_nopa gives every row of a batch the Shapley values of its own game: deleting groups by std::remove through a reference into the same vector and pop_back removes exactly that group, the buffer S of m cells is never overrun, and what an earlier tree or leaf left in the work vectors has no influence.", "quantifier": "all disjoint coalitions, forests, backgrounds, batches of rows and contents of the work arrays", "why_tests_cant": "Memory safety and independence of stale contents over all coalitions and forests cannot be sampled; an overrun of a C buffer need not be visible in a test.", "anchors": ["acv_explainers/cyext_acv/cyext_acv_nopa.pyx:shap_values_leaves_nopa"]}
{"id": "C103", "title": "Guarantee of the maximal rules", "statement": "compute_sdp_maxrules returns, for every observation whose same-decision probability reaches the level, a rule containing the rule of the observation such that all observations that fall in it have a probability above the level given the same variables; the training samples of the rule of the observation get weight, its probability and its rule.", "quantifier": "every forest, data set, conditioning set, level and sequence of random draws; both search algorithms", "why_tests_cant": "Every rule the annealing can reach and every observation inside it would have to be evaluated; boundary values only meet in special data.", "anchors": ["acv_explainers/acv_agnosticX.py:compute_sdp_maxrules", "acv_explainers/cyext_acv/cyext_acv.pyx:compute_sdp_maxrule", "acv_explainers/cyext_acv/cyext_acv.pyx:compute_sdp_maxrule_verbose"]}
{"id": "C104", "title": "Pure Python same-decision probabilities", "statement": "cond_sdp_forest and cond_sdp_forest_clf walk over exactly the leaves compatible with the observation on the variables S, give each its rectangle, count each data row in the leaf it falls in, and return the share of the rows of the section on S for which the forest takes the decision of the observation; the result is a number between 0 and 1.", "quantifier": "every forest, observation, set of variables, data set, reference value and threshold", "why_tests_cant": "All trees and data; rows on thresholds, sections that differ between leaves, forests of several trees and the empty set behave differently.", "anchors": ["acv_explainers/utils.py:explore_partition", "acv_explainers/utils.py:get_tree_partition", "acv_explainers/py_acv.py:cond_sdp_forest", "acv_explainers/py_acv.py:cond_sdp_forest_clf"]}
{"id": "C105", "title": "Prediction on the padded arrays of an ensemble", "statement": "The trees of a model, possibly with several outputs or one tree per class in turn, are copied into padded arrays, and the compiled routine walks through these arrays with unsigned 32 bit indexes and without bounds checks: it reads only cells of its arrays, and output k of row i is the offset plus the sum over the kept trees (of class k) of the value of the leaf in which the decision path of the row ends.", "quantifier": "every list of well-formed trees of any sizes, numbers of outputs, classes, rows and columns, limit, offset and missing values", "why_tests_cant": "Memory safety and index arithmetic for all shapes; the failures need few columns, limits inside a round or very large arrays.", "anchors": ["acv_explainers/base_tree.py:BaseTree.__init__", "acv_explainers/base_tree.py:predict", "acv_explainers/cext_acv/acv_tree.h:tree_predict", "acv_explainers/cext_acv/acv_tree.h:dense_tree_predict", "acv_explainers/cext_acv/_cext.cc:_cext_dense_tree_predict"]}
{"id": "C106", "title": "Models loaded from scikit-learn predict like the originals", "statement": "Loading a regression or classification forest, a single tree, gradient boosting, histogram boosting or an isolation forest and predicting with the compiled routine gives on every row what the model itself says: the mean of the leaf outputs, the mean of the class shares (probabilities that sum to one), the initial value plus the rate times the sum of the leaves, the baseline plus the leaves with missing values sent to the declared side, the mean path length; one tree asked alone gives its own output.", "quantifier": "every well-formed list of trees, every number of outputs, rows and columns, every offset, rate and missing value", "why_tests_cant": "Agreement for all tree shapes and rows; the failures need several targets, a zero rate, one feature or array baselines.", "anchors": ["acv_explainers/base_tree.py:BaseTree.__init__", "acv_explainers/base_tree.py:SingleTree.__init__", "acv_explainers/base_tree.py:SingleTree.predict", "acv_explainers/base_tree.py:IsoTree", "acv_explainers/base_tree.py:_recalculate_value"]}
{"id": "C107", "title": "Merged rectangles cover what the rules covered", "statement": "Merging the rectangles that touch covers exactly the points that were covered before and leaves no flat rectangle, whatever the random order of the steps; the rectangle returned as the largest lies inside the covered set and contains the given rule when one of the rules did; the over-approximation is the smallest rectangle around the rule and everything reached from it through touching rectangles; the points handed to the search of holes are the corners of the rectangles.", "quantifier": "every list of non-flat rectangles in any dimension, every reordering done by the shuffles", "why_tests_cant": "The set equality is over all points, all lists and all random orders; a lost part only shows with three axes and a neighbour that is larger on both remaining ones, or with sides that differ by less than the tolerance.", "anchors": ["acv_explainers/utils.py:return_largest_rectangle", "acv_explainers/utils.py:return_best", "acv_explainers/utils.py:overapprox_rectangle", "acv_explainers/utils.py:extend_rec", "acv_explainers/utils.py:find_nbor_r", "acv_explainers/utils.py:return_adjacent_rec", "acv_explainers/utils.py:return_edges"]}
{"id": "C108", "title": "Rules cut level by level keep enough rows and describe the cells of the observation", "statement": "The rule compiled from the bounds of every level is, tree by tree, the closed cell of the observation at the deepest level whose cell holds more than the asked number of training rows; the observation satisfies it; variables outside the coalition stay free; the call raises exactly when the first split of some tree leaves too few rows; the routine over all training samples returns the rule of each of them.", "quantifier": "every projected forest, training set, coalition, depth, minimal number of rows and observation", "why_tests_cant": "Which level is kept depends on the counts of every tree, on ties with thresholds and on splits outside the coalition; the statement is over all forests and points.", "anchors": ["acv_explainers/cyext_acv.pyx:single_compute_sdp_rule_biased", "acv_explainers/cyext_acv.pyx:compile_rules", "acv_explainers/cyext_acv.pyx:compute_sdp_rule_biased", "acv_explainers/cyext_acv.pyx:compute_sdp_maxrule_biased", "acv_explainers/cyext_acv.pyx:compute_sdp_maxrule_biased_v2"]}
{"id": "C109", "title": "Trees rebuilt on data hold the counts and means of the rows that reach their nodes", "statement": "Rebuilding a tree on data gives every node the number of rows that pass it and the mean of their targets, the same weights as the compiled routine; the predictions on the rows have the total of the targets; the rectangle collected from a node upwards is the one of the explainer; the rows counted for a leaf are the rows inside its rectangle.", "quantifier": "every well-formed tree, every data set and targets with any number of outputs, every subset of columns", "why_tests_cant": "The counts hold for all trees and data; empty leaves, rows exactly on a threshold and the untouched outputs are rare in tests.", "anchors": ["acv_explainers/utils.py:rebuild_tree", "acv_explainers/utils.py:rebuild_acvtree", "acv_explainers/utils.py:get_partition_tree", "acv_explainers/utils.py:get_final_partition", "acv_explainers/utils.py:leaves_proba", "acv_explainers/utils.py:nb_row"]}
{"id": "C110", "title": "The conditional Gaussian parameters are those of the linear regression, and conditioning in steps agrees", "statement": "For known variables with an invertible covariance, condMVN returns the mean of the linear regression of the other variables on the known ones and the covariance of what the regression leaves: symmetric, positive, smallest among linear predictions, with the law of total covariance; known variables keep their values; the order of the known variables does not matter; conditioning in two steps is conditioning once; the exponents of the densities add up; the samplers return one row per draw; the exact expectations of a linear model are the regression of the model on the known variables.", "quantifier": "every dimension, mean, covariance, lists of known and wanted variables and values, every inverse routine that returns inverses, every generator of samples of the right size", "why_tests_cant": "The identities hold for all matrices; the empty conditioning set, permuted lists and the wrong call of marMVN are not reached by the experiments' tests.", "anchors": ["acv_explainers/utils.py:condMVN", "acv_explainers/utils.py:marMVN", "acv_explainers/utils.py:sampleMVN", "acv_explainers/utils.py:sampleMarMVN", "experiments/exp_linear_gmm.py:cond_exp_linear_y_set", "experiments/exp_linear_gmm.py:mar_exp_linear_y_set"]}
{"id": "C111", "title": "The Shapley values of the experiments, computed over all orders of arrival, are the Shapley values", "statement": "linear_shap, linear_mar_shap and tree_shap of the experiments average the marginal contributions over all orders of the players: for any value function that depends only on the set of variables this is the Shapley value of the group of each variable, the same number as the library's enumeration; one entry per group adds up to the prediction minus its mean; the interventional values of a linear model have the closed form coefficient times distance to the mean; without correlations the observational values equal them.", "quantifier": "every dimension, every disjoint declared groups, every value function on sets, every mean, covariance, coefficients and observation, every inverse routine that returns inverses", "why_tests_cant": "The number of orders grows as a factorial, so only three or four variables can be run; the identities hold for all dimensions.", "anchors": ["experiments/exp_linear.py:linear_shap", "experiments/exp_linear.py:linear_mar_shap", "experiments/exp_linear.py:tree_shap", "experiments/exp_linear.py:cond_exp_linear_model", "experiments/exp_linear.py:mar_exp_linear_model", "acv_explainers/utils.py:chain_l"]}
{"id": "C112", "title": "The exact expectations of the linear model on a mixture of Gaussians are expectations of the mixture", "statement": "cond_exp_linear_gmm returns, for any set of known numeric variables and class indicators, the mean over the classes that agree with the known indicators, weighted by their conditional probabilities (prior times density of the known numeric variables), of the regressions of the model in these classes; it lies between the values of these classes, is the prediction when everything is known and the mean when nothing is, and satisfies total expectation when an indicator becomes known; it does not depend on the order in which the variables are listed, so that linear_gmm_shap computes Shapley values.", "quantifier": "every number of numeric variables, every means, covariances, coefficients and positive priors, every observation, every set of known variables, every positive density that depends on the values only, every inverse routine that returns inverses", "why_tests_cant": "A run gives one number with no reference; the cases of the branches (no indicator, one, both, all variables) and the orders of the list multiply with the dimension.", "anchors": ["experiments/exp_linear_gmm.py:cond_exp_linear_gmm", "experiments/exp_linear_gmm.py:density_x_y_set", "experiments/exp_linear_gmm.py:linear_gmm", "experiments/exp_linear_gmm.py:linear_gmm_shap"]}
{"id": "C113", "title": "The Monte Carlo expectations are means of the model over draws completed with the observation", "statement": "cond_exp_monte_carlo_linear (and the generic versions with the same text) returns the mean of the model over N points, each with the known variables of the observation, a class drawn among those that agree with the known indicators with its conditional probability, and the unknown numeric variables drawn in that class; mar_exp_linear_mc the mean over rows completed with the observation; if the frequencies and the means of the draws are exact, the value for the linear model is the conditional expectation of C112; the estimate on a single Gaussian vector completes the sample in the same way.", "quantifier": "every number of variables, every mixture with positive priors, every observation, every set of known variables, every model that reads the variables, every generator of classes and of Gaussian samples", "why_tests_cant": "The draws are random, a run is compared with nothing; the order of the columns of the completed table depends on the number of variables.", "anchors": ["experiments/exp_linear_gmm.py:cond_exp_monte_carlo_linear", "experiments/exp_linear_gmm.py:cond_exp_monte_carlo_gen", "experiments/exp_linear_gmm.py:cond_dist_monte_carlo_gen", "experiments/exp_linear_gmm.py:mar_exp_linear_mc", "experiments/exp_linear.py:cond_exp_tree"]}
{"id": "C114", "title": "The entry points of the projected forest answer row by row, under every schedule of the workers", "statement": "Each method of ACXplainer, ACVTree and ACVTreeAgnostic that estimates probabilities, rules or weights for a batch returns, for every observation, the estimator on that observation with its own target, set, box, bounds and levels; the answer does not depend on the interleaving of the parallel workers, a batch answers like its parts, probabilities lie in [0, 1], and arguments of different lengths are refused; the tables of the maximal rules hold the values of their own row and training sample.", "quantifier": "every forest, training sample, batch and target, every complete interleaving of the steps of the workers, every routine (21), every form of the argument t (nothing, number, vector, matrix)", "why_tests_cant": "A parallel run shows one interleaving; the conversions in front of the compiled routines and the out-of-bounds reads depend on the form of t.", "anchors": ["acv_explainers/acv_agnosticX.py:compute_sdp_rf", "acv_explainers/acv_agnosticX.py:compute_cdf_rf", "acv_explainers/acv_tree.py:compute_sdp_rf", "acv_explainers/cyext_acv/cyext_acv.pyx:compute_ddp_cond_weights", "acv_explainers/cyext_acv/cyext_acv.pyx:compute_sdp_maxrule"]}
{"id": "C115", "title": "The path-dependent expectation of one tree is a convex combination of the leaves that can be met", "statement": "cond_exp_tree with algo 'shap' answers a number between the values of the leaves that can be met given x on S; it is the prediction when S holds the split features, the mean prediction over the training sample when S is empty, depends on x only on S, and is the mean over the rows agreeing with x on S when the agreeing rows split like the training sample.", "quantifier": "every sklearn-shaped tree with positive additive weights, every observation, every list of known features, every data set", "why_tests_cant": "A test compares a few trees with a Monte Carlo estimate; agreement in mean on samples does not bound the answer.", "anchors": ["experiments/exp_linear.py:cond_exp_tree", "experiments/exp_syn.py:cond_exp_tree", "experiments/shap_linear.py:cond_exp_tree"]}
{"id": "C116", "title": "The plug-in expectation of one tree is a mean over rows", "statement": "cond_exp_tree with algo 'plugin' answers the mean prediction over the rows within the sides on S of the leaves met (one common section), the training mean without known features and the prediction with all of them; 'plugin_v1' answers the mean over the training rows that fall in a leaf that can be met.", "quantifier": "every sklearn-shaped tree with positive additive weights, every observation, every list of known features, every data set", "why_tests_cant": "The weights only fail to add up to one for particular positions of the thresholds and of the data.", "anchors": ["experiments/exp_linear.py:cond_exp_tree", "experiments/exp_linear_gmm.py:cond_exp_tree"]}
{"id": "C117", "title": "The interventional and exact expectations of one tree are means of the prediction with the known features replaced", "statement": "'plugin_interventional', 'plugin_interventionalv2', 'exact', 'exact_v1' and 'monte_carlo_interventional' answer the mean of the prediction over the rows (or under the law whose boxes R measures) whose known features are replaced by those of x, and agree with each other.", "quantifier": "every sklearn-shaped tree with positive additive weights, every observation, every list of known features, every data set, every law given by its boxes, every sample", "why_tests_cant": "Rows on thresholds, more than ten columns and indices that leave out split columns are rare in tests.", "anchors": ["experiments/exp_linear.py:cond_exp_tree", "experiments/exp_linear.py:cond_exp_tree_intv", "experiments/exp_linear_gmm.py:cond_exp_tree"]}
{"id": "C118", "title": "The conditional distance of one tree to a number is a mean squared distance", "statement": "cond_dist_tree answers a number between the least and greatest squared distance of the leaves that can be met, the same for 'plugin' and 'plugin2', the mean squared distance over the training sample without known features and over the common section otherwise.", "quantifier": "every sklearn-shaped tree with positive additive weights, every observation, every list of known features, every data set, every number fx", "why_tests_cant": "The two algorithms differ in rounding only, so a sample comparison hides an error common to both.", "anchors": ["experiments/exp_linear_gmm.py:cond_dist_tree"]}
{"id": "C119", "title": "The same-decision probability of one tree in the experiments is a share of rows", "statement": "cond_sdp_tree answers the share of the rows of the section (of the samples for 'monte_carlo') whose prediction is close to fx, hence a number in [0, 1], and agrees with the routine of the library on the forest of this tree.", "quantifier": "every sklearn-shaped tree with positive additive weights, every observation, every list of known features, every data set, every fx and threshold", "why_tests_cant": "Values outside [0, 1] need particular positions of the thresholds.", "anchors": ["experiments/exp_linear_gmm.py:cond_sdp_tree"]}
{"id": "C120", "title": "The Shapley values of one tree are efficient and null for unused features", "statement": "tree_shap with the expectations above: the values of the players add up to the prediction minus the mean prediction, and a player the tree never splits on gets 0.", "quantifier": "every sklearn-shaped tree with positive additive weights, every observation, every list of known features, every data set, every partition into players", "why_tests_cant": "The sum over all orders of arrival is checked on a few observations only.", "anchors": ["experiments/exp_linear.py:tree_shap"]}
{"id": "C121", "title": "The compiled expectations fill every entry with the conditional expectation, whatever the order of the threads", "statement": "compute_exp, compute_exp_cat and compute_exp_normalized, run as array programs on the padded leaf tables, never access an array outside its bounds and store in entry (i, j) the expectation of output j for row i; the entry depends neither on the order of the parallel passes, nor on the other rows, nor on the order or repetition of the columns in S; the normalised entry is a number in the range of the leaf values.", "quantifier": "all tables of an ensemble that fit together, all batches of rows, all background data, all lists of columns, all orders of execution of the parallel loop", "why_tests_cant": "A race or a buffer shared between trees shows up under some schedules and some leaf counts only.", "anchors": ["acv_explainers/cyext_acv/cyext_acv.pyx:compute_exp", "acv_explainers/cyext_acv/cyext_acv.pyx:compute_exp_cat", "acv_explainers/cyext_acv/cyext_acv.pyx:compute_exp_normalized", "acv_explainers/cyext_acv/cyext_acv_nopa.pyx:compute_exp"]}
{"id": "C122", "title": "The compiled same-decision probabilities of a classifier fill every entry with the probability, whatever the order of the threads", "statement": "compute_sdp_clf_cat and compute_sdp_clf, run as array programs, never access an array outside its bounds and store in entry i the same-decision probability of row i for its class; the entry depends neither on the order of the parallel passes, nor on the bound of the summing loop, nor on the other rows, nor on the way the set of columns is written.", "quantifier": "all tables of an ensemble that fit together, all batches of rows, all background data, all lists of columns, all orders of execution of the parallel loop, all predicted classes", "why_tests_cant": "Schedules cannot be enumerated by tests; a wrong index into fX or y_pred reads another row's class.", "anchors": ["acv_explainers/cyext_acv/cyext_acv.pyx:compute_sdp_clf_cat", "acv_explainers/cyext_acv/cyext_acv.pyx:compute_sdp_clf", "acv_explainers/cyext_acv/cyext_acv_nopa.pyx:compute_sdp_clf"]}
{"id": "C123", "title": "An ACVTree built on an ensemble returns conditional means of the ensemble's own outputs", "statement": "For every ensemble, ACVTree(model, data) can be built, and compute_exp_cat, compute_exp and compute_exp_normalized of the object return for every observation and output the mean of that output of the ensemble over the background rows that agree with the observation (respectively the sum over the leaves that it meets), with the prediction for all columns and the mean of the background for none; the sequential methods return the same; whatever form of table and columns one method takes, all take.", "quantifier": "all well-formed ensembles of trees (and all forests of scikit-learn), all tables of observations and background data in any of their forms, all sets of columns, all orders of the parallel loop", "why_tests_cant": "The chain from the loader through the padded tables to the compiled loops is only tested on one model with loose tolerances; argument forms are tested one at a time.", "anchors": ["acv_explainers/base_tree.py:TreeEnsemble.__init__", "acv_explainers/base_tree.py:BaseTree", "acv_explainers/acv_tree.py:ACVTree.compute_exp", "acv_explainers/acv_tree.py:ACVTree.compute_exp_cat", "acv_explainers/acv_tree.py:ACVTree.compute_exp_normalized", "acv_explainers/acv_tree.py:ACVTree.compute_exp_nopa"]}
{"id": "C124", "title": "The same-decision probability of an ACVTree is the share of background rows with the same class", "statement": "compute_sdp_clf_cat of the object returns for every observation a number in [0, 1], which is the share of the background rows agreeing with it on the columns that the model gives the same class; compute_sdp_clf refines the one-row definition; all columns give 1, none 0; the sequential methods return the same numbers and accept the same arguments.", "quantifier": "all well-formed ensembles of trees (and all forests of scikit-learn), all tables of observations and background data in any of their forms, all sets of columns, all orders of the parallel loop, all classifiers", "why_tests_cant": "Needs every classifier and every background sample; tests compare two implementations that share the tables.", "anchors": ["acv_explainers/acv_tree.py:ACVTree.compute_sdp_clf", "acv_explainers/acv_tree.py:ACVTree.compute_sdp_clf_cat", "acv_explainers/acv_tree.py:ACVTree.compute_sdp_clf_nopa", "acv_explainers/acv_tree.py:ACVTree.compute_sdp_clf_cat_nopa"]}
{"id": "C125", "title": "shap_values of an ACVTree are the Shapley values of the ensemble, from its trees to the returned array", "statement": "For every ensemble and background, shap_values returns for every observation, column and output the Shapley value of the player of the column in the game of plug-in conditional expectations of that output; the values of the players add up to the output of the observation minus the mean output of the background; unused columns get zero; the sequential method returns the same array; no execution, whatever the order of the parallel loop, reads or writes outside the work buffers.", "quantifier": "all well-formed ensembles (and all forests of scikit-learn), all backgrounds with rows, all tables of observations with at least as many columns, all disjoint coalitions, all listings of the sets of features, all orders of the parallel loop", "why_tests_cant": "Tests run one model whose trees have similar depth; the buffers are sized after the last tree only, so overruns depend on the order of the trees in the model.", "anchors": ["acv_explainers/acv_tree.py:ACVTree.shap_values", "acv_explainers/acv_tree.py:ACVTree.shap_values_nopa", "acv_explainers/base_tree.py:BaseTree", "acv_explainers/cyext_acv/cyext_acv.pyx:shap_values_leaves_pa", "acv_explainers/cyext_acv/cyext_acv_nopa.pyx:shap_values_leaves_nopa"]}
{"id": "C126", "title": "shap_values_acv of an ACVTree are the active Shapley values of the ensemble, from its trees to the returned array", "statement": "For every ensemble, background, active and null columns, shap_values_acv returns for every observation, active column and output the Shapley value of its player in the game where any non-empty set of players also knows the null columns; it is a number exactly where the leaves hold background rows; where all leaves do, the values add up to the output of the observation minus the mean output of the background; columns of no player get zero; the sequential method returns the same array; arguments may be given as documented; no execution reads or writes outside the work buffers.", "quantifier": "all well-formed ensembles (and all forests of scikit-learn), all backgrounds with rows, all tables of observations with at least as many columns, all active and null columns covering the splits, all disjoint coalitions, all listings of the sets of features, all orders of the parallel loop", "why_tests_cant": "Tests call it with one pair of column arrays on one model; empty leaves, coalitions that touch null columns, wider tables and shallow last trees are not tried.", "anchors": ["acv_explainers/acv_tree.py:ACVTree.shap_values_acv", "acv_explainers/acv_tree.py:ACVTree.shap_values_acv_nopa", "acv_explainers/base_tree.py:BaseTree", "acv_explainers/cyext_acv/cyext_acv.pyx:shap_values_acv_leaves", "acv_explainers/cyext_acv/cyext_acv_nopa.pyx:shap_values_acv_leaves_nopa"]}
{"id": "C127", "title": "importance_sdp_clf of an ACVTree reports the minimal sufficient explanations that compute_sdp_clf of the same object confirms", "statement": "For every ensemble and background, importance_sdp_clf returns four arrays; a row whose reported probability reaches the level shows a smallest set of groups whose probability, as compute_sdp_clf returns it, reaches the level, with the largest probability among the sets of its size; when the level is not reached no set reaches it; the importance of a column is the share of the observations whose explanation contains it; threads do not matter; importance_sdp_clf_nopa and importance_sdp_clf_ptrees return the same; no access outside an array.", "quantifier": "all well-formed ensembles (boosted or not, stacked or not), all backgrounds, observations, predict_proba functions, coalitions, levels in (0,1], minimal sizes, with and without stop, all orders of the leaves, all listings of the sets of features, all ties of value_counts", "why_tests_cant": "Tests look at one model's explanations without an independent minimality check; more than ten columns, boosted binary models and default arguments of the variants are not compared.", "anchors": ["acv_explainers/acv_tree.py:ACVTree.importance_sdp_clf", "acv_explainers/acv_tree.py:ACVTree.importance_sdp_clf_greedy", "acv_explainers/acv_tree.py:ACVTree.importance_sdp_clf_search", "acv_explainers/acv_tree.py:ACVTree.importance_sdp_clf_nopa", "acv_explainers/acv_tree.py:ACVTree.importance_sdp_clf_ptrees", "acv_explainers/cyext_acv/cyext_acv.pyx:global_sdp_clf", "acv_explainers/cyext_acv/cyext_acv.pyx:global_sdp_clf_approx"]}
{"id": "C128", "title": "compute_sdp_reg_cat of an ACVTree returns the share of the matching background rows whose own predictions are within the tolerance", "statement": "For every ensemble with one output and every offset, compute_sdp_reg_cat predicts observations and background itself and returns for every observation a number between 0 and 1: the share of the background rows equal to the observation on the columns whose prediction differs by at most the tolerance (squared); 1 when all of them do; lists, frames, other dtypes and several outputs are answered as documented; no access outside an array.", "quantifier": "all well-formed ensembles with one output, all offsets (number or vector), observations (frame or array of any dtype), backgrounds with at least as many columns, columns, tolerances", "why_tests_cant": "The test suite has one regression forest without offset; offsets only occur in boosted models, and the value 0 for rows that all agree needs a prediction that cancels.", "anchors": ["acv_explainers/acv_tree.py:ACVTree.compute_sdp_reg_cat", "acv_explainers/acv_tree.py:ACVTree.compute_sdp_reg_cat_nopa", "acv_explainers/cyext_acv/cyext_acv.pyx:compute_sdp_reg_cat", "acv_explainers/cyext_acv/cyext_acv_nopa.pyx:compute_sdp_reg_cat_nopa", "acv_explainers/base_tree.py:BaseTree.predict"]}
{"id": "C129", "title": "importance_sdp_reg_cat of an ACVTree reports the minimal sufficient explanations that compute_sdp_reg_cat of the same object confirms", "statement": "importance_sdp_reg_cat and importance_sdp_reg_cat_nopa return four arrays; a row at the level shows a smallest set of groups whose probability, as compute_sdp_reg_cat of the same object returns it, reaches the level, with the largest probability of its size; below the level no set reaches it; the importance of a column is the share of the observations whose explanation contains it.", "quantifier": "all well-formed ensembles with one output, offsets, observations, backgrounds, tolerances, coalitions with at most fifteen groups, levels in (0,1], minimal sizes, with and without stop", "why_tests_cant": "Tests compare one model's output with nothing; a minimality check needs all smaller sets and a second method of the object.", "anchors": ["acv_explainers/acv_tree.py:ACVTree.importance_sdp_reg_cat", "acv_explainers/acv_tree.py:ACVTree.importance_sdp_reg_cat_nopa", "acv_explainers/cyext_acv/cyext_acv.pyx:global_sdp_reg_cat", "acv_explainers/cyext_acv/cyext_acv_nopa.pyx:global_sdp_reg_cat_nopa"]}
{"id": "C130", "title": "compute_sdp_reg of an ACVTree does not depend on the other observations, is a probability, agrees with compute_sdp_reg_cat without columns and is 1 with all columns", "statement": "From the trees and the offset to the array returned: the number of an observation depends on it alone; it is the position of the weighted mean squared distance of the leaves between the rows beyond and within the tolerance; it lies between 0 and 1; without columns it is that of compute_sdp_reg_cat; with all columns and a background row in the same leaf it is 1.", "quantifier": "all well-formed ensembles with one output, offsets, observations, backgrounds, columns, tolerances", "why_tests_cant": "Order effects between observations only show in forests with repeated calls; values above 1 need an unbalanced background.", "anchors": ["acv_explainers/acv_tree.py:ACVTree.compute_sdp_reg", "acv_explainers/cyext_acv/cyext_acv.pyx:compute_sdp_reg", "acv_explainers/base_tree.py:BaseTree.predict"]}
{"id": "C131", "title": "shap_values_acv_adap of an ACVTree returns for every observation the Shapley values of its own explanation", "statement": "shap_values_acv_adap and its variant without parallel loops return, for every observation, what shap_values or shap_values_acv return for it alone with its own active and null columns: the Shapley values of its own game, zero for columns without a player, adding up to its output minus the mean output of the background; handed the explanations importance_sdp_clf of the same object reports and the null columns get_null_coalition computes from them, they return; index tables written as documented are accepted, tables of the wrong length are refused.", "quantifier": "all well-formed ensembles, observations, backgrounds, groups, tables of active and null columns with one row per observation (frame, list, array), orders of the parallel loop over the leaves, levels and minimal sizes of the search", "why_tests_cant": "Tests call the method with one table computed by the library itself; rows with fillers in other places, shorter tables and ensembles whose last tree is shallower give reads outside the arrays that usually go unnoticed.", "anchors": ["acv_explainers/acv_tree.py:ACVTree.shap_values_acv_adap", "acv_explainers/acv_tree.py:ACVTree.shap_values_acv_adap_nopa", "acv_explainers/cyext_acv/cyext_acv.pyx:shap_values_acv_leaves_adap", "acv_explainers/cyext_acv/cyext_acv.pyx:single_shap_values_acv_leaves", "acv_explainers/cyext_acv/cyext_acv.pyx:single_shap_values", "acv_explainers/cyext_acv/cyext_acv_nopa.pyx:shap_values_acv_leaves_adap_nopa"]}
{"id": "C132", "title": "importance_sdp_reg of an ACVTree reports the minimal sufficient explanations that compute_sdp_reg of the same object confirms", "statement": "importance_sdp_reg and importance_sdp_reg_nopa return four arrays; a row at the level shows a smallest set of groups whose probability, as compute_sdp_reg of the same object returns it, reaches the level, with the largest probability of its size; below the level no set reaches it; probabilities do not exceed 1; an explanation does not depend on the other observations of the call; the importance of a column is the share of the observations whose explanation contains it.", "quantifier": "all well-formed ensembles with one output, offsets, observations, backgrounds, tolerances, coalitions with at most fifteen groups, levels in (0,1], minimal sizes, with and without stop", "why_tests_cant": "The library's tests only run the method on one forest; that an explanation depends on the rows explained before it or that coalitions shorten the test of the leaves shows only in a comparison with a second method of the object.", "anchors": ["acv_explainers/acv_tree.py:ACVTree.importance_sdp_reg", "acv_explainers/acv_tree.py:ACVTree.importance_sdp_reg_nopa", "acv_explainers/cyext_acv/cyext_acv.pyx:global_sdp_reg", "acv_explainers/cyext_acv/cyext_acv_nopa.pyx:global_sdp_reg_nopa"]}
{"id": "C133", "title": "The cached Shapley values of an ACVTree are those of the object without the cache", "statement": "An ACVTree built with cache=True returns from shap_values, shap_values_cache and shap_values_cache_nopa, for every observations and coalitions, the array that shap_values of the same object without the cache returns, that is the Shapley values of the plug-in game; the constructor returns whenever that of the uncached object does.", "quantifier": "all well-formed ensembles, backgrounds, observations with at least as many columns, coalitions of the constructor and of the call, with and without threads, all orders of the leaves", "why_tests_cant": "That the stored arrays have one place per player of the constructor and 2**max_var counters shows only for ensembles whose last tree is shallow or for coalitions that differ between the constructor and the call; reading outside an array is silent.", "anchors": ["acv_explainers/base_tree.py:BaseTree.__init__", "acv_explainers/acv_tree.py:ACVTree.shap_values", "acv_explainers/acv_tree.py:ACVTree.shap_values_cache", "acv_explainers/acv_tree.py:ACVTree.shap_values_cache_nopa", "acv_explainers/cyext_acv/cyext_acv_cache.pyx:leaves_cache", "acv_explainers/cyext_acv/cyext_acv_cache.pyx:shap_values_leaves_cache", "acv_explainers/cyext_acv/cyext_acv_nopa.pyx:leaves_cache_nopa", "acv_explainers/cyext_acv/cyext_acv_nopa.pyx:shap_values_leaves_cache_nopa"]}
{"id": "C134", "title": "Marginal sufficient explanations are smallest sufficient sets of the model's own predictions", "statement": "For every model, importance_msdp_clf_search and importance_msdp_reg_search (and the methods importance_msdp_clf, importance_msdp_reg of ACVTree) return, for each observation reported at or above the level, the columns of a smallest choice of groups for which at least that share of the background keeps the decision (the prediction within the threshold) once these columns are those of the observation, the share itself, their number, and -1 elsewhere; the importances are the frequencies of the columns; an observation reported below the level has no such choice.", "quantifier": "all models, observations, backgrounds, levels, thresholds, coalitions, search spaces, minimal sizes, with and without early stop", "why_tests_cant": "The value returned comes from arrays overwritten set after set (index rows, the buffer of rows, the buffer of columns, the list of rows being shortened); only a proof over the whole loop excludes a stale entry, and the enumeration is cut silently beyond 15 groups.", "anchors": ["acv_explainers/utils_sdp.py:importance_msdp_clf_search", "acv_explainers/utils_sdp.py:importance_msdp_reg_search", "acv_explainers/utils_sdp.py:msdp", "acv_explainers/utils_sdp.py:msdp_reg", "acv_explainers/acv_tree.py:ACVTree.importance_msdp_clf", "acv_explainers/acv_tree.py:ACVTree.importance_msdp_reg", "acv_explainers/acv_tree.py:ACVTree.importance_msdp_clf_search", "acv_explainers/acv_tree.py:ACVTree.importance_msdp_reg_search", "acv_explainers/acv_tree.py:ACVTreeAgnostic.importance_msdp_reg_search", "acv_explainers/acv_agnosticX.py:ACXplainer.importance_msdp_reg_search"]}
{"id": "C135", "title": "From the fitted skranger forest to the numbers, rules and weights of ACXplainer", "statement": "For every skranger forest over two or more columns whose arrays hold binary trees (with -2 written for column 0 at some splits), the object built by BaseAgnosTree has the column and threshold of every split and the height of the forest; the methods compute_sdp_rf, compute_ddp_rf, compute_cdp_rf, compute_exp_rf and their versions with rules and weights then return, for each observation, the mean over the trees of the mean over the training rows that the tree does not separate from it by the known columns; the rule holds exactly for the observations no tree separates; the weights are the corresponding shares; with all columns known the rows are those of the leaf of the observation.", "quantifier": "all forests, all widths and heights, training sets, observations, sets of columns, levels, all complete interleavings of the parallel loops", "why_tests_cant": "The result depends on the trees, on the padding of the arrays, on the memory before them and on the order of the workers; a test sees one forest and one memory layout.", "anchors": ["acv_explainers/base_agnostree.py:BaseAgnosTree.__init__", "acv_explainers/base_agnostree.py:SingleTree.__init__", "acv_explainers/acv_agnosticX.py:ACXplainer.check_is_explainer", "acv_explainers/acv_agnosticX.py:ACXplainer.compute_sdp_rf", "acv_explainers/acv_agnosticX.py:ACXplainer.compute_ddp_rf", "acv_explainers/acv_agnosticX.py:ACXplainer.compute_cdp_rf", "acv_explainers/acv_agnosticX.py:ACXplainer.compute_exp_rf", "acv_explainers/acv_agnosticX.py:ACXplainer.compute_sdp_rule", "acv_explainers/acv_agnosticX.py:ACXplainer.compute_ddp_rule", "acv_explainers/acv_agnosticX.py:ACXplainer.compute_cdp_rule"]}
{"id": "C136", "title": "Minimal explanations of ACXplainer from the skranger forest to the returned arrays", "statement": "importance_sdp_rf, importance_ddp_rf, importance_cdp_rf, importance_ddp_intv and importance_cdp_intv return four arrays of the right shape for documented arguments; a row at the level shows a smallest set of searched groups whose probability, as the method for a given set of the same object returns it, reaches the level, with the largest probability among the sets of that size; otherwise no searched set reaches the level; importances are shares of the explained rows; the non-negative indices are the explanation; the order of the workers does not matter; without boxes the probability is the mean over the trees of the shares among the rows not separated.", "quantifier": "all forests, training sets, observations, coalitions, levels pi, minimal, stop, all complete interleavings", "why_tests_cant": "The claim compares a search over all sets, on shrinking masks of rows, with separate calls of another method for every set; tests run a few searches and never compare all sets.", "anchors": ["acv_explainers/acv_agnosticX.py:ACXplainer.importance_sdp_rf", "acv_explainers/acv_agnosticX.py:ACXplainer.importance_ddp_rf", "acv_explainers/acv_agnosticX.py:ACXplainer.importance_cdp_rf", "acv_explainers/acv_agnosticX.py:ACXplainer.importance_ddp_intv", "acv_explainers/acv_agnosticX.py:ACXplainer.importance_cdp_intv", "acv_explainers/cyext_acv/cyext_acv.pyx:global_sdp_rf", "acv_explainers/cyext_acv/cyext_acv.pyx:global_ddp_rf", "acv_explainers/cyext_acv/cyext_acv.pyx:global_cdp_rf", "acv_explainers/cyext_acv/cyext_acv.pyx:global_ddp_intv", "acv_explainers/cyext_acv/cyext_acv.pyx:global_cdp_intv"]}
{"id": "C137", "title": "Methods of ACXplainer with boxes from the skranger forest to the numbers and weights", "statement": "compute_ddp_cond, compute_cdp_cond, compute_ddp_intv, compute_cdp_intv (and the versions with one set for all observations) return, for each observation, the mean over the trees of the mean over the training rows that lie on the side followed at every split met: the side of the observation on the columns of the set (both sides for the interventional methods), the side of the box on the others, both when the threshold cuts the box; the weights are the corresponding shares; rows equal to the observation on the set and inside the box are always kept, a box cut by every threshold gives the methods without boxes, a box reduced to the observation gives the rows of its leaf; the searches with boxes report these numbers.", "quantifier": "all forests, training sets, observations, sets, boxes, levels, all complete interleavings", "why_tests_cant": "The rows kept depend on every threshold of every tree relative to every box; a test sees a few boxes and cannot tell which rows outside the box were counted.", "anchors": ["acv_explainers/acv_agnosticX.py:ACXplainer.compute_ddp_cond_weights", "acv_explainers/acv_agnosticX.py:ACXplainer.compute_cdp_cond_weights", "acv_explainers/acv_agnosticX.py:ACXplainer.compute_ddp_intv_weights", "acv_explainers/acv_agnosticX.py:ACXplainer.compute_cdp_intv_weights", "acv_explainers/acv_agnosticX.py:ACXplainer.importance_ddp_intv", "acv_explainers/acv_agnosticX.py:ACXplainer.importance_cdp_intv", "acv_explainers/cyext_acv/cyext_acv.pyx:compute_ddp_cond_weights", "acv_explainers/cyext_acv/cyext_acv.pyx:compute_cdp_cond_weights", "acv_explainers/cyext_acv/cyext_acv.pyx:compute_ddp_intv_weights", "acv_explainers/cyext_acv/cyext_acv.pyx:compute_cdp_intv_weights"]}
{"id": "C138", "title": "All sufficient explanations of ACXplainer from the skranger forest to the lists returned", "statement": "sufficient_expl_rf and sufficient_cxpl_rf return for every observation exactly the minimal searched sets whose probability, as the method for a given set of the same object returns it, reaches the level, with these probabilities in the same order, and for every column the share of the listed sets that contain it; the threads do not matter.", "quantifier": "all forests, training sets, observations, coalitions, levels, minimal sizes, all complete interleavings of the calls", "why_tests_cant": "The lists depend on every candidate set of every observation; a test on one data set cannot see a missing minimal set, a listed superset or probabilities attached to another observation.", "anchors": ["acv_explainers/acv_agnosticX.py:ACXplainer.sufficient_expl_rf", "acv_explainers/acv_agnosticX.py:ACXplainer.sufficient_cxpl_rf", "acv_explainers/cyext_acv/cyext_acv.pyx:sufficient_expl_rf", "acv_explainers/cyext_acv/cyext_acv.pyx:sufficient_cxpl_rf"]}
{"id": "C139", "title": "Trees loaded from the text dumps of XGBoost", "statement": "The constructor of a single tree, given the text of a dump with statistics, builds the tree that was dumped: it predicts for every observation the (scaled) value XGBoost predicts, its weights are the covers, it agrees with the tree loaded from the JSON dump, and a dump without statistics is refused.", "quantifier": "all trees with distinct node numbers, all decimal spellings of numbers that do not contain the separators, all observations, all missing values, all scalings", "why_tests_cant": "The parser splits lines on substrings such as no= and leaf; a test on one model cannot show that no depth, node number, feature index or spelling of a number moves a piece.", "anchors": ["acv_explainers/base_tree.py:SingleTree.__init__"]}
{"id": "C140", "title": "Normalized Shapley values of an ensemble, from its trees to the returned array", "statement": "ACVTree.shap_values_normalized returns, for every row, column and output, the Shapley value of the player of the column in the game of the normalized conditional expectation, whatever the order in which the threads treat the leaves; the values add up to the output minus the mean output of the background; columns that no tree splits on get nothing.", "quantifier": "all well-formed ensembles, backgrounds, observations, coalitions, orders of the leaves", "why_tests_cant": "The work buffers are sized for the last tree, filled by threads in any order, and the normaliser runs over all leaves of a tree; only particular ensembles, empty leaves or deep first trees go wrong.", "anchors": ["acv_explainers/acv_tree.py:ACVTree.shap_values_normalized", "acv_explainers/cyext_acv/cyext_acv.pyx:shap_values_leaves_normalized"]}
{"id": "C141", "title": "Stored counts of the normalized Shapley values, from the trees to the returned array", "statement": "With cache and cache_normalized, the constructor stores counts with which shap_values_normalized, shap_values_normalized_cache and shap_values_normalized_cache_nopa return exactly the array that is returned without the cache.", "quantifier": "all well-formed ensembles, backgrounds, observations, coalitions, orders of the leaves, flags", "why_tests_cant": "The cached routine compares with other bounds and reads five-dimensional arrays stored for the coalitions of the constructor; agreement on an example says nothing about ties, other coalitions or places outside the arrays.", "anchors": ["acv_explainers/acv_tree.py:ACVTree.shap_values_normalized_cache", "acv_explainers/acv_tree.py:ACVTree.shap_values_normalized_cache_nopa", "acv_explainers/base_tree.py:BaseTree.__init__", "acv_explainers/cyext_acv/cyext_acv_cache.pyx:leaves_cache_normalized", "acv_explainers/cyext_acv/cyext_acv_cache.pyx:shap_values_leaves_normalized_cache", "acv_explainers/cyext_acv/cyext_acv_nopa.pyx:shap_values_leaves_normalized_cache_nopa"]}
{"id": "C142", "title": "The compiled conditional quantiles, array by array", "statement": "compute_quantile_rf returns, for every row and its set, the weighted percentile of the targets over the training samples that the trees select for it: between the targets of two selected samples, growing with the percentage, independent of the other rows; an invalid percentage is refused.", "quantifier": "all arrays of trees, samples, targets, sets, sizes, percentages, sorting routines", "why_tests_cant": "The rows share arrays that the traversal overwrites level by level, a tree without samples divides zero by zero, and exceptions of a compiled function of type double may only be printed.", "anchors": ["acv_explainers/cyext_acv/cyext_acv.pyx:compute_quantile_rf", "acv_explainers/cyext_acv/cyext_acv.pyx:single_compute_quantile_rf", "acv_explainers/acv_tree.py:ACVTree.compute_quantile_rf"]}
{"id": "C143", "title": "The compiled quantiles of differences, array by array", "statement": "compute_quantile_diff_rf returns, for every row, the weighted percentile of the differences between its target and those of the selected samples, independent of the other rows.", "quantifier": "all arrays of trees, samples, targets, sets, sizes, percentages, sorting routines", "why_tests_cant": "A negative size is compared as an unsigned number, rows without samples fail in a compiled function that may swallow the exception.", "anchors": ["acv_explainers/cyext_acv/cyext_acv.pyx:compute_quantile_diff_rf", "acv_explainers/cyext_acv/cyext_acv.pyx:single_compute_quantile_diff_rf", "acv_explainers/acv_tree.py:ACVTree.compute_quantile_diff_rf"]}
{"id": "C144", "title": "The methods over the Python estimators", "statement": "The methods compute_*_shaff return one value per row: averages over the trees of the share (mean target, percentile) of the selected samples; probabilities of all classes add up to one; rows without target raise.", "quantifier": "all trees, samples, targets, sets, sizes, percentages", "why_tests_cant": "Trees that keep no sample weigh nothing in one estimator, are not a number in the next and only appear for particular sizes.", "anchors": ["acv_explainers/utils_exp.py:compute_shaff_quantile", "acv_explainers/utils_exp.py:compute_shaff_exp", "acv_explainers/utils_exp.py:compute_shaff_sdp_clf", "acv_explainers/utils_exp.py:compute_shaff_sdp"]}
{"id": "C145", "title": "A local counterfactual session, from the forest to the rules", "statement": "run_local_divergent_set finds for every observation a minimal set of columns whose change makes the target likely, with the probability and the weights of that set; run_local_counterfactual_rules returns rules that fix the other columns at the observation, take the divergent columns from the leaves of training rows with the target, carry their own estimated probability and reach the level.", "quantifier": "all forests, training rows, observations, targets, intervals, levels, schedules, random draws", "why_tests_cant": "A session chains five estimators whose sets, complements, weights and levels must fit; a mixed-up complement still gives plausible numbers.", "anchors": ["acv_explainers/counterfactual_rules.py:CR.run_local_divergent_set", "acv_explainers/counterfactual_rules.py:CR.run_local_counterfactual_rules", "acv_explainers/utils_cr.py:return_global_counterfactuals", "acv_explainers/utils_cr.py:return_leaf_cnt"]}
{"id": "C146", "title": "A regional counterfactual session, from the forest to the rules", "statement": "run_regional_divergent_set finds for every rule a minimal divergent set for the target with its probability and weights; run_regional_counterfactual_rules changes the rule only on that set, with probabilities estimated for the changed rule.", "quantifier": "all forests, training rows, rules, targets, intervals, levels, schedules, random draws", "why_tests_cant": "The search treats the columns of the set as missing while the local one treats them as known, so the same complement is right for one and wrong for the other.", "anchors": ["acv_explainers/counterfactual_rules.py:CR.run_regional_divergent_set", "acv_explainers/counterfactual_rules.py:CR.run_regional_counterfactual_rules", "acv_explainers/utils_cr.py:return_ge_global_counterfactuals"]}
{"id": "C147", "title": "Sufficient rules of a session, from the forest to the maximal rules", "statement": "run_sufficient_rules finds for every observation a minimal sufficient explanation with its same decision probability; its rule contains all points that no tree separates from the observation by those columns, and every training row in the rule has a same decision probability at the level.", "quantifier": "all forests, training rows, observations, levels, schedules, random draws, both algorithms", "why_tests_cant": "The annealing is random and the tables of the training rows are filled in parallel; a rule that is too wide is right on most draws, and the guarantee is on all training rows and all draws.", "anchors": ["acv_explainers/counterfactual_rules.py:CR.run_sufficient_rules", "acv_explainers/acv_agnosticX.py:ACXplainer.compute_sdp_maxrules"]}
{"id": "C148", "title": "Samples after a counterfactual session, from the forest to the samples", "statement": "After a local session the sampling returns one sample for each observation with a counterfactual rule: the observation outside of its divergent set, training values inside a most probable rule on it; the sample satisfies that rule, and success, accuracy and coverage are as defined. The regional sampling does the same from the test observations inside the rules, at most max_obs for a rule.", "quantifier": "all forests, training rows, observations, targets, schedules, random draws, predictions", "why_tests_cant": "The sample is inside the rule only if the rounded bounds of the enlarged leaves stay in order, and if the rule, the set and the observation of the same index meet; both sessions are random.", "anchors": ["acv_explainers/counterfactual_rules.py:CR.run_sampling_local_counterfactuals", "acv_explainers/counterfactual_rules.py:CR.run_sampling_regional_counterfactuals"]}
{"id": "C149", "title": "Swing values of an ACVTree, from its trees to the arrays", "statement": "swing_sv_clf_slow returns for every observation and column the Shapley value of the column's player, its positive and negative part and the counts of positive, negative and null swings, of the game that tells whether the explained share of the class of the observation reaches the level; values sum to 1 over the players, whatever the threads do.", "quantifier": "all ensembles, observations, data arrays, coalitions, levels, thread orders, contents of uninitialised buffers", "why_tests_cant": "Buffers are shared by all players and all subsets, parallel loops write the result, and the sums have 2^(players-1) terms; a stale column or a wrong weight gives plausible numbers.", "anchors": ["acv_explainers/acv_tree.py:ACVTree.swing_sv_clf_slow", "acv_explainers/cyext_acv/cyext_acv.pyx:swing_sv_clf", "acv_explainers/cyext_acv/cyext_acv.pyx:compute_sdp_swing"]}
{"id": "C150", "title": "Swing values computed from differences, from the trees to the arrays", "statement": "swing_sv_clf and swing_sv_clf_nopa return for every observation and column the weighted mean of the changes of level made by the column's player, the parts from gains and losses (within [0,1] and [-1,0]) and the three counts; both versions agree whatever the threads do, the result is determined by the arguments, and the values sum to 1 like those of swing_sv_clf_slow.", "quantifier": "all ensembles, observations, data arrays, coalitions, levels, thread orders, contents of uninitialised buffers and variables", "why_tests_cant": "The empty-set branch tests variables that were never assigned; with the usual compiler the run gives plausible values that depend on what the registers held, and no test can enumerate them.", "anchors": ["acv_explainers/acv_tree.py:ACVTree.swing_sv_clf", "acv_explainers/acv_tree.py:ACVTree.swing_sv_clf_nopa", "acv_explainers/cyext_acv/cyext_acv.pyx:swing_sv_clf_direct", "acv_explainers/cyext_acv/cyext_acv.pyx:compute_sdp_swing_diff"]}
{"id": "C151", "title": "What the counterfactual sessions print, from the forest to the lines", "statement": "show_local_counterfactuals and show_global_counterfactuals print every observation or sufficient rule of the session and, under it, every counterfactual rule once and in order; a reader of the lines recovers from the conditions exactly the points for which the rule holds, that the columns outside the divergent set keep the values of the observation (or the sides of the rule), the probability of the rule, and an output that is the target, or in regression lies in the interval asked for.", "quantifier": "all forests, sessions, observations, rules, names of columns, points", "why_tests_cant": "What is printed is never compared with what was computed; a condition left out, a rule printed under another observation or an output outside of the interval looks like any other line.", "anchors": ["acv_explainers/counterfactual_rules.py:CR.show_local_counterfactuals", "acv_explainers/counterfactual_rules.py:CR.show_global_counterfactuals", "acv_explainers/utils_cr.py:print_rule"]}
{"id": "C152", "title": "Samples for all test observations after the regional session", "statement": "After the regional session, run_sampling_regional_counterfactuals_alltests returns for every test observation in a rule with a counterfactual a sample that differs from it only on the divergent set of that rule and is in a counterfactual rule, and for no other observation.", "quantifier": "all sessions, rules, test observations, generators, models", "why_tests_cant": "The method is called by no test; that it raises, or gives the observations back unchanged, shows only when it is called.", "anchors": ["acv_explainers/counterfactual_rules.py:CR.run_sampling_regional_counterfactuals_alltests"]}
