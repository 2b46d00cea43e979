{
 "claims": [
  {
   "property": "C01",
   "status": "proved",
   "theorems": [
    "C01_leaf_rectangles_tile"
   ],
   "note": "array trees whose children have larger indices than their parent (what the loaders build)"
  },
  {
   "property": "C02",
   "status": "proved",
   "theorems": [
    "C02_leaf_variables_exact"
   ],
   "note": ""
  },
  {
   "property": "C03",
   "status": "proved",
   "theorems": [
    "C03_prediction_is_offset_plus_trees",
    "C03_growing_the_limit_adds_trees",
    "C03_single_tree",
    "C03_leaf_value_functional"
   ],
   "note": "one output column"
  },
  {
   "property": "C04",
   "status": "proved",
   "theorems": [
    "C04_node_weights_count_paths",
    "C04_root_and_children"
   ],
   "note": ""
  },
  {
   "property": "C05",
   "status": "partial",
   "theorems": [
    "C05_buffer_exponent_refuted",
    "C05_buffer_exponent_partial"
   ],
   "note": "false of the code: max_var is reset for every tree, so only the last tree counts; proved when the last tree attains the maximum"
  },
  {
   "property": "C06",
   "status": "proved",
   "theorems": [
    "C06_shap_is_shapley",
    "C06_shap_is_order_average",
    "C06_every_column_has_a_player"
   ],
   "note": "exact arithmetic, one output column; leaves as guaranteed by C02"
  },
  {
   "property": "C07",
   "status": "proved",
   "theorems": [
    "C07_efficiency",
    "C07_prediction_minus_average"
   ],
   "note": ""
  },
  {
   "property": "C08",
   "status": "proved",
   "theorems": [
    "C08_unused_feature_zero"
   ],
   "note": ""
  },
  {
   "property": "C09",
   "status": "proved",
   "theorems": [
    "C09_members_share_value",
    "C09_extra_columns_irrelevant"
   ],
   "note": ""
  },
  {
   "property": "C10",
   "status": "proved",
   "theorems": [
    "C10_cache_same"
   ],
   "note": ""
  },
  {
   "property": "C100",
   "status": "partial",
   "theorems": [
    "C100_search_partial",
    "C100_search_nopa_partial",
    "C100_found_partial",
    "C100_found_nopa_partial",
    "C100_not_found_partial",
    "C100_schedules",
    "C100_defined",
    "C100_ptrees",
    "C100_empty_refuted",
    "C100_ptrees_refuted"
   ],
   "note": "the search with its work arrays equals the search with compute_sdp_clf for sets of at least one group; refuted for minimal = 0 (empty set) and for global_sdp_clf_ptrees, which uses the unnormalised and unlimited ratio"
  },
  {
   "property": "C101",
   "status": "partial",
   "theorems": [
    "C101_entries",
    "C101_padding",
    "C101_distribution",
    "C101_decision_partial",
    "C101_outvoted",
    "C101_decision_refuted",
    "C101_offset_refuted",
    "C101_columns_partial",
    "C101_columns_refuted",
    "C101_raw_class_0",
    "C101_raw_class_1",
    "C101_raw_class_1_next",
    "C101_raw_class_1_end"
   ],
   "note": "the table is a distribution whose log-odds are the raw values; it decides like the model for at most two trees without offset or for one sign; refuted from three trees on and with an offset; the nopa and swing routines are handed the one-column raw table and read the next node for class 1"
  },
  {
   "property": "C102",
   "status": "partial",
   "theorems": [
    "C102_shapley",
    "C102_same_as_parallel",
    "C102_stale_contents",
    "C102_alias_partial",
    "C102_alias_refuted",
    "C102_overlap_refuted"
   ],
   "note": "proved for disjoint coalitions; refuted for overlapping ones: the buffer is overrun, and std::remove through a reference loses a second group"
  },
  {
   "property": "C103",
   "status": "partial",
   "theorems": [
    "C103_own_rule",
    "C103_recorded",
    "C103_annealing_partial",
    "C103_annealing_iff_partial",
    "C103_annealing_refuted",
    "C103_every_observation_refuted",
    "C103_defined",
    "C103_extremes",
    "C103_extend_partial",
    "C103_extend_refuted"
   ],
   "note": "annealing: proved for training samples when none sits on a lower bound of the start rule, refuted otherwise and for observations outside the training set; algo2: only containment holds, the guarantee is refuted"
  },
  {
   "property": "C104",
   "status": "partial",
   "theorems": [
    "C104_leaves",
    "C104_rows_partial",
    "C104_rows_refuted",
    "C104_range",
    "C104_range_clf",
    "C104_share_partial",
    "C104_number_partial",
    "C104_share_refuted",
    "C104_certain_partial",
    "C104_forest_refuted",
    "C104_empty_refuted",
    "C104_number_refuted",
    "C104_single_column",
    "C104_clf_partial",
    "C104_clf_full",
    "C104_clf_forest_refuted",
    "C104_clf_empty_refuted"
   ],
   "note": "leaves, rectangles and range proved; the share is proved for one tree whose compatible leaves have a common section and refuted for different sections, several trees and the empty set; NaN and rows on thresholds refuted"
  },
  {
   "property": "C105",
   "status": "partial",
   "theorems": [
    "C105_predict",
    "C105_columns",
    "C105_stacked",
    "C105_rounds_partial",
    "C105_limit_refuted",
    "C105_columns_refuted",
    "C105_size_refuted",
    "C105_classes_partial",
    "C105_booster_refuted"
   ],
   "note": "proved for trees with several outputs and for stacked classes when the indexes fit in 32 bits and X has the columns of the trees; refuted for tables with too few columns, arrays beyond 2^32 cells, limits inside a round and boosters loaded without their classes"
  },
  {
   "property": "C106",
   "status": "partial",
   "theorems": [
    "C106_regressor",
    "C106_classifier",
    "C106_probability",
    "C106_boosting",
    "C106_histogram",
    "C106_tree_partial",
    "C106_isolation_partial",
    "C106_isolation_nodes",
    "C106_isolation_one_feature",
    "C106_multioutput_refuted",
    "C106_tree_refuted",
    "C106_isolation_refuted",
    "C106_ngboost_refuted",
    "C106_histogram_refuted"
   ],
   "note": "proved for forests, single trees, boosting, histogram boosting and isolation forests on at least two features; refuted for classifiers with several targets, a tree of a model with rate 0, isolation forests on one feature, NGBoost and histogram classifiers whose baseline is an array"
  },
  {
   "property": "C107",
   "status": "partial",
   "theorems": [
    "C107_merge",
    "C107_merge_plane_partial",
    "C107_best_partial",
    "C107_overapprox_partial",
    "C107_edges",
    "C107_merge_refuted",
    "C107_best_refuted",
    "C107_overapprox_refuted"
   ],
   "note": "merging proved sound in every dimension and exact for at most two axes with sides apart by more than the tolerances of numpy; refuted with three axes (the sides of the neighbour away from its corners are lost); containment of the rule and the enclosing box proved for sides apart, refuted when a nearly equal rectangle is removed instead"
  },
  {
   "property": "C108",
   "status": "partial",
   "theorems": [
    "C108_rule",
    "C108_raises",
    "C108_empty",
    "C108_contains",
    "C108_cell_partial",
    "C108_maxrule",
    "C108_v2",
    "C108_v2_contains_partial",
    "C108_sdp_zero",
    "C108_cell_refuted",
    "C108_size_refuted",
    "C108_sdp_refuted",
    "C108_rows_refuted",
    "C108_v2_refuted"
   ],
   "note": "the rule is characterised completely; refuted: a point on a lower bound belongs to the rule though the trees send it the other way, the intersection over the trees may hold fewer rows than asked, the probability returned is always 0, one training sample without rule makes the whole call raise, and in the second version samples without weight get a rule of zeros"
  },
  {
   "property": "C109",
   "status": "partial",
   "theorems": [
    "C109_rebuild",
    "C109_weights",
    "C109_total",
    "C109_balance",
    "C109_partition",
    "C109_row",
    "C109_proba_partial",
    "C109_proba_weight_partial",
    "C109_number_refuted",
    "C109_outputs_refuted",
    "C109_proba_refuted",
    "C109_empty_refuted"
   ],
   "note": "counts, means, totals and rectangles proved for all trees; refuted: a leaf no row reaches predicts NaN, rebuild_tree only writes the first output, rows on a threshold are counted in two leaves (closed lower bounds), and without columns the count is 1 whatever the data"
  },
  {
   "property": "C11",
   "status": "proved",
   "theorems": [
    "C11_parallel_is_sequential",
    "C11_schedule_independent"
   ],
   "note": "interleavings of load and store steps of all leaves; second theorem for any number type and addition"
  },
  {
   "property": "C110",
   "status": "partial",
   "theorems": [
    "C110_conditional",
    "C110_symmetric",
    "C110_positive",
    "C110_best",
    "C110_total",
    "C110_known",
    "C110_at_mean",
    "C110_uncorrelated",
    "C110_order",
    "C110_select",
    "C110_chain",
    "C110_density",
    "C110_empty_partial",
    "C110_empty_refuted",
    "C110_empty_order_refuted",
    "C110_lengths_refuted",
    "C110_sample",
    "C110_sample_raises",
    "C110_marginal_sample_refuted",
    "C110_linear_marginal",
    "C110_linear_conditional"
   ],
   "note": "regression, chain rule, factorisation and sampling proved over the rationals for any sound inverse; refuted: without known variables the whole distribution is returned whatever variables are wanted (wrong dimension or order), a single value is silently spread over several known variables, sampleMarMVN always raises (four arguments for five parameters)"
  },
  {
   "property": "C111",
   "status": "partial",
   "theorems": [
    "C111_shapley",
    "C111_efficiency",
    "C111_library",
    "C111_raises",
    "C111_single_refuted",
    "C111_marginal",
    "C111_conditional",
    "C111_sum_partial",
    "C111_uncorrelated",
    "C111_unused_refuted",
    "C111_sum_refuted",
    "C111_overlap_refuted"
   ],
   "note": "equality with the Shapley value, efficiency over groups, closed forms proved; refuted: a group of one variable raises, every member of a group gets the whole value of the group so the entries do not add up, overlapping groups are accepted with a wrong number of players, a variable that the model does not use gets an observational value"
  },
  {
   "property": "C112",
   "status": "partial",
   "theorems": [
    "C112_bayes_partial",
    "C112_between",
    "C112_prediction",
    "C112_mean",
    "C112_total",
    "C112_order_partial",
    "C112_order_refuted",
    "C112_shapley_partial",
    "C112_sum",
    "C112_shapley_refuted",
    "C112_no_class_refuted"
   ],
   "note": "Bayes formula, bounds, total expectation, Shapley values proved when the two indicators are listed in order or equal; refuted: listed in the other order they stand for the other class, so without declaring them as a group the Shapley values are wrong; indicators of no class give values"
  },
  {
   "property": "C113",
   "status": "partial",
   "theorems": [
    "C113_names",
    "C113_marginal_partial",
    "C113_marginal_refuted",
    "C113_conditional_partial",
    "C113_known_partial",
    "C113_returns",
    "C113_exact_partial",
    "C113_order_refuted",
    "C113_single",
    "C113_single_known"
   ],
   "note": "proved with at most ten variables, listed in order when all the numeric ones are known; refuted: the columns are sorted as strings, so with eleven variables the model receives permuted rows; the values of the known variables are taken in the order of the list, not of the variables"
  },
  {
   "property": "C114",
   "status": "partial",
   "theorems": [
    "C114_rows",
    "C114_same_rows",
    "C114_schedules",
    "C114_probabilities",
    "C114_join",
    "C114_no_condition",
    "C114_lengths",
    "C114_acv_lengths",
    "C114_max_tables",
    "C114_max_tables_v0",
    "C114_max_tables_opti",
    "C114_cdf_never",
    "C114_cdf_refuted",
    "C114_cdf_partial",
    "C114_number_never",
    "C114_search_number_never",
    "C114_number_refuted",
    "C114_acv_partial",
    "C114_short_levels",
    "C114_short_levels_refuted",
    "C114_agnostic_partial",
    "C114_agnostic_v0",
    "C114_agnostic_short"
   ],
   "note": "proved for the 13 + 2 batch methods of ACXplainer and the three loops of the maximal rules; refuted: ACXplainer.compute_cdf_rf never returns for a classifier or with the default levels; the methods of ACVTree never return with the documented number t; a matrix t with too few rows is read outside"
  },
  {
   "property": "C115",
   "status": "partial",
   "theorems": [
    "C115_range",
    "C115_full",
    "C115_known",
    "C115_empty",
    "C115_conditional_partial",
    "C115_conditional_refuted"
   ],
   "note": "range, full set, empty set and dependence proved; the conditional mean proved when the agreeing rows split like the sample, refuted in general"
  },
  {
   "property": "C116",
   "status": "partial",
   "theorems": [
    "C116_empty",
    "C116_full",
    "C116_section_partial",
    "C116_section_refuted",
    "C116_twice",
    "C116_number_refuted",
    "C116_v1",
    "C116_v1_range",
    "C116_v1_refuted"
   ],
   "note": "conditional mean proved for a common section; refuted: a constant tree gets 9/10, no number on other rows, doubled rows halve the answer (proved for every tree), plugin_v1 is not the mean over the agreeing rows"
  },
  {
   "property": "C117",
   "status": "partial",
   "theorems": [
    "C117_interventional_partial",
    "C117_interventional2_partial",
    "C117_two",
    "C117_interventional_refuted",
    "C117_empty_refuted",
    "C117_index_refuted",
    "C117_all_known_refuted",
    "C117_exact",
    "C117_exact_range",
    "C117_single_refuted",
    "C117_sampled_partial",
    "C117_sampled_refuted"
   ],
   "note": "exact algorithms proved for every law; interventional ones off the thresholds; refuted on thresholds, without known features on other rows, with an index that leaves out a split column, with one column ('exact' raises), from eleven columns on"
  },
  {
   "property": "C118",
   "status": "partial",
   "theorems": [
    "C118_two",
    "C118_range",
    "C118_full",
    "C118_empty",
    "C118_section_partial",
    "C118_section_refuted",
    "C118_shap_refuted"
   ],
   "note": "refuted: 'shap' computes no distance; different sections"
  },
  {
   "property": "C119",
   "status": "partial",
   "theorems": [
    "C119_library",
    "C119_section_partial",
    "C119_range_refuted",
    "C119_ends",
    "C119_ends_refuted",
    "C119_sampled_partial",
    "C119_sampled_full_refuted",
    "C119_sampled_refuted"
   ],
   "note": "refuted: outside [0, 1] without a common section, predictions at both ends, squared distance with all the features, negative threshold"
  },
  {
   "property": "C12",
   "status": "proved",
   "theorems": [
    "C12_acv_is_shapley",
    "C12_acv_efficiency",
    "C12_null_columns_zero"
   ],
   "note": "whenever the routine returns numbers (no empty projection)"
  },
  {
   "property": "C120",
   "status": "partial",
   "theorems": [
    "C120_shap_efficiency",
    "C120_shap_unused",
    "C120_interventional_efficiency",
    "C120_interventional_unused",
    "C120_plugin_refuted"
   ],
   "note": "efficiency and null players proved for 'shap' and 'plugin_interventionalv2'; refuted for 'plugin'"
  },
  {
   "property": "C121",
   "status": "partial",
   "theorems": [
    "C121_expectation",
    "C121_expectation_refines",
    "C121_expectation_order",
    "C121_categorical_refines",
    "C121_categorical_mean",
    "C121_categorical_order",
    "C121_normalised",
    "C121_normalised_refines",
    "C121_normalised_order",
    "C121_normalised_number_refuted",
    "C121_normalised_range_refuted"
   ],
   "note": "proved for the plain and categorical versions; the normalised version proved up to its NaN and zero cases, which are characterised exactly; refuted: NaN from one empty leaf, 0 outside the range for a row on a threshold"
  },
  {
   "property": "C122",
   "status": "partial",
   "theorems": [
    "C122_categorical",
    "C122_categorical_refines",
    "C122_refines",
    "C122_categorical_order",
    "C122_order",
    "C122_set_of_columns_refuted",
    "C122_lengths_refuted"
   ],
   "note": "proved for lists of columns of the same length; refuted: repeated columns trigger the shortcut for all columns; the length of y_pred is not checked"
  },
  {
   "property": "C123",
   "status": "partial",
   "theorems": [
    "C123_built",
    "C123_conditional",
    "C123_expectation",
    "C123_average",
    "C123_prediction",
    "C123_normalised",
    "C123_single_threaded",
    "C123_forest",
    "C123_arguments",
    "C123_forms",
    "C123_forms_refuted",
    "C123_narrow_refuted",
    "C123_normalised_nopa_refuted"
   ],
   "note": "values proved for all ensembles and scikit-learn forests; refuted: a list of columns or a data frame of background is a TypeError, narrow observations are accepted silently, compute_exp_normalized_nopa does not exist"
  },
  {
   "property": "C124",
   "status": "partial",
   "theorems": [
    "C124_frequency",
    "C124_forest",
    "C124_refines",
    "C124_trivial",
    "C124_empty",
    "C124_empty_refuted",
    "C124_single_threaded_partial",
    "C124_single_threaded_boosted",
    "C124_single_threaded_refuted",
    "C124_background_refuted"
   ],
   "note": "proved where the two groups of rows have different mean outputs and no background value is on a threshold; refuted: the empty list of columns, the sequential versions for boosted classifiers (read past the values) and for data frames"
  },
  {
   "property": "C125",
   "status": "partial",
   "theorems": [
    "C125_built",
    "C125_no_background",
    "C125_sequential",
    "C125_parallel_partial",
    "C125_same_partial",
    "C125_stray",
    "C125_parallel_refuted",
    "C125_adds_up",
    "C125_unused",
    "C125_forest"
   ],
   "note": "proved for the sequential method without conditions, and for the parallel one where no leaf has more players than one plus the greatest number of features above a leaf of the last tree; refuted: with deeper earlier trees every parallel execution leaves its buffers"
  },
  {
   "property": "C126",
   "status": "partial",
   "theorems": [
    "C126_sequential",
    "C126_parallel_partial",
    "C126_same_partial",
    "C126_stray",
    "C126_parallel_refuted",
    "C126_beyond",
    "C126_beyond_refuted",
    "C126_nobody",
    "C126_no_active",
    "C126_numbers",
    "C126_adds_up",
    "C126_forest",
    "C126_lists",
    "C126_lists_refuted",
    "C126_overlap_refuted"
   ],
   "note": "proved for the sequential method where no coalition of a player has null columns, and for the parallel one in the columns of the background where the buffers of the last tree have room; refuted: deeper earlier trees and coalitions with null columns leave the buffers, active columns beyond the background get 0 from the parallel method, lists of columns (documented) raise a type error"
  },
  {
   "property": "C127",
   "status": "partial",
   "theorems": [
    "C127_returns",
    "C127_rows_partial",
    "C127_importance",
    "C127_indices",
    "C127_threads",
    "C127_sequential_partial",
    "C127_stop_refuted",
    "C127_empty_refuted",
    "C127_ptrees_refuted",
    "C127_ptrees_raises",
    "C127_boosted_stray",
    "C127_boosted_refuted",
    "C127_space_refuted"
   ],
   "note": "proved within the searched groups (all up to ten columns, the ten most used beyond) and, with stop, up to half of the columns; refuted: stop gives up before larger sets, columns beyond the ten most used are not tried, minimal=0 (default of the variants) reports empty explanations, ptrees reports sets below the level and does not take lists or frames as background, the sequential variant leaves the values of the leaves for boosted binary models"
  },
  {
   "property": "C128",
   "status": "partial",
   "theorems": [
    "C128_built",
    "C128_returns",
    "C128_value",
    "C128_none",
    "C128_frequency_partial",
    "C128_frequency_refuted",
    "C128_all_partial",
    "C128_all_refuted",
    "C128_errors",
    "C128_outputs",
    "C128_unchecked"
   ],
   "note": "proved: always a probability, the exact value for any offset, 0 without matching row within the tolerance, the share without offset when matching rows lie on both sides, errors; refuted: with an offset the share is not returned, and with all matching rows within the tolerance the answer can be 0"
  },
  {
   "property": "C129",
   "status": "partial",
   "theorems": [
    "C129_returns",
    "C129_rows_partial",
    "C129_sequential_partial",
    "C129_importance",
    "C129_everything_refuted",
    "C129_stop_refuted"
   ],
   "note": "proved up to fifteen groups; refuted: all columns are reported with 1 although compute_sdp_reg_cat returns 0 for them, stop gives up before larger sets; more than fifteen groups not covered"
  },
  {
   "property": "C13",
   "status": "partial",
   "theorems": [
    "C13_always_numbers_refuted",
    "C13_numbers_partial"
   ],
   "note": "false of the code: unguarded divisions; proved when every leaf holds a background row"
  },
  {
   "property": "C130",
   "status": "partial",
   "theorems": [
    "C130_batch_partial",
    "C130_batch_refuted",
    "C130_value_partial",
    "C130_probability_refuted",
    "C130_nothing_partial",
    "C130_nothing_refuted",
    "C130_everything_partial",
    "C130_everything_refuted"
   ],
   "note": "proved for one tree; refuted: two trees depend on the previous observation and disagree with compute_sdp_reg_cat without columns, values above 1, 0 with all columns"
  },
  {
   "property": "C131",
   "status": "partial",
   "theorems": [
    "C131_rows",
    "C131_nopa",
    "C131_values_partial",
    "C131_nobody",
    "C131_adds_up",
    "C131_stray",
    "C131_buffers_refuted",
    "C131_filler",
    "C131_documented",
    "C131_documented_refuted",
    "C131_no_size",
    "C131_length_refuted",
    "C131_errors",
    "C131_pipeline",
    "C131_empty_refuted"
   ],
   "note": "proved: each observation gets exactly what the methods return for it alone, hence the Shapley values of its own game, zero without a player, the sum, the pipeline from the explanations of the same object; refuted: buffers sized for the last tree also without parallel loops, the documented layout of N_star is read outside the array, short N_star and size are not refused, empty explanations give no numbers"
  },
  {
   "property": "C132",
   "status": "partial",
   "theorems": [
    "C132_returns",
    "C132_importance",
    "C132_reported",
    "C132_rows_partial",
    "C132_sequential_partial",
    "C132_trees_refuted",
    "C132_batch_refuted",
    "C132_coalition_refuted",
    "C132_probability_refuted",
    "C132_stop_refuted"
   ],
   "note": "proved for all ensembles: the four arrays, the importance, the form of the rows; proved for one tree with single columns: smallest sets confirmed by compute_sdp_reg; refuted: two trees (reported although not confirmed, dependence on the other observations), coalitions of several columns, values above 1, sets missed with stop"
  },
  {
   "property": "C133",
   "status": "partial",
   "theorems": [
    "C133_same_partial",
    "C133_shapley_partial",
    "C133_stray",
    "C133_room_refuted",
    "C133_default_stray",
    "C133_default_refuted",
    "C133_groups_refuted"
   ],
   "note": "proved if the buffers have room and the call has the coalitions of the constructor: the same array, the Shapley values; proved: without room the constructor goes astray; the default coalitions after others in the constructor go astray; refuted: both provisos"
  },
  {
   "property": "C134",
   "status": "partial",
   "theorems": [
    "C134_clf_explained",
    "C134_reg_explained",
    "C134_clf_unexplained",
    "C134_reg_unexplained",
    "C134_importance",
    "C134_clf_importance",
    "C134_alone",
    "C134_returns_partial",
    "C134_clf_returns_partial",
    "C134_stop_refuted",
    "C134_wide_refuted",
    "C134_tree_clf_partial",
    "C134_tree_reg_partial",
    "C134_tree_wide",
    "C134_tree_wide_refuted"
   ],
   "note": "proved for any model: explained rows, importances, independence of the rows; returns up to 15 groups; unexplained rows without early stop or up to half of the columns; refuted: the early stop, 17 columns (IndexError with the default arguments), more than 15 columns in the methods of ACVTree (the deciding column is not searched)"
  },
  {
   "property": "C135",
   "status": "partial",
   "theorems": [
    "C135_object",
    "C135_values_partial",
    "C135_rules_partial",
    "C135_weights_partial",
    "C135_same_leaf_partial",
    "C135_memory_refuted",
    "C135_one_column",
    "C135_one_column_refuted"
   ],
   "note": "proved from the arrays of skranger to the returned arrays when every tree keeps min_node_size rows and the memory before the arrays does no harm (or the first tree has no early leaf); refuted: memory before the arrays decides with a shallow first tree; with a single column the constructor raises for every forest with a split (np.squeeze)"
  },
  {
   "property": "C136",
   "status": "partial",
   "theorems": [
    "C136_returns",
    "C136_rows_partial",
    "C136_importance",
    "C136_indices",
    "C136_threads",
    "C136_values_partial",
    "C136_forced_refuted",
    "C136_stop_refuted",
    "C136_space_refuted"
   ],
   "note": "returns, importances, indices, independence of the workers proved; rows minimal among the searched groups with respect to the method for a given set; refuted: all columns are reported with probability 1 although the method returns less, stop gives up rows with a larger sufficient set, columns beyond the ten most important are not searched"
  },
  {
   "property": "C137",
   "status": "partial",
   "theorems": [
    "C137_values_partial",
    "C137_weights_partial",
    "C137_compatible",
    "C137_wide",
    "C137_point",
    "C137_search_partial",
    "C137_box_refuted",
    "C137_class_refuted"
   ],
   "note": "numbers, weights, searches proved when every tree keeps min_node_size rows and the memory before the arrays is harmless; refuted: rows outside the box are counted; compute_cdp_intv_weights with a classifier returns the share of the other classes"
  },
  {
   "property": "C138",
   "status": "partial",
   "theorems": [
    "C138_returns",
    "C138_rows_partial",
    "C138_probabilities",
    "C138_cxpl_probabilities",
    "C138_importance_partial",
    "C138_threads",
    "C138_values_partial",
    "C138_aligned_refuted",
    "C138_complement_refuted",
    "C138_importance_refuted",
    "C138_space_refuted"
   ],
   "note": "lists, probabilities of sufficient_expl_rf, importances, threads, values from the trees proved; refuted: sufficient_cxpl_rf returns the probabilities of the next observation after a -1 and keeps the set instead of its complement fixed, the importances are 0/0 without any set, columns beyond the ten most important are not searched"
  },
  {
   "property": "C139",
   "status": "partial",
   "theorems": [
    "C139_computes",
    "C139_predicts_partial",
    "C139_agrees_with_json",
    "C139_weights",
    "C139_well_formed",
    "C139_no_statistics",
    "C139_predicts_refuted",
    "C139_names_refuted",
    "C139_leaf_refuted"
   ],
   "note": "parsing, predictions off the conditions, weights, well-formedness, agreement with the JSON loader, refusal without statistics proved; refuted: a value equal to a condition goes left, names of columns are silently read as indices of other columns, a name containing leaf is refused"
  },
  {
   "property": "C14",
   "status": "proved",
   "theorems": [
    "C14_binomial_exact",
    "C14_choose_is_factorial_ratio"
   ],
   "note": "exact integers; the code computes in double"
  },
  {
   "property": "C140",
   "status": "partial",
   "theorems": [
    "C140_local_partial",
    "C140_shapley_partial",
    "C140_shapley_refuted",
    "C140_accounts_partial",
    "C140_accounts_refuted",
    "C140_unused_partial",
    "C140_orders_partial",
    "C140_stray",
    "C140_room_refuted"
   ],
   "note": "with room in the buffers and a background row in every leaf: Shapley values of the game normalized leaf by leaf, of the normalized expectation itself if the leaves of a tree depend on the same players, sums, unused columns, independence of the order; refuted: Shapley values of the normalized expectation in general, sums with an empty leaf, buffers sized for the last tree"
  },
  {
   "property": "C141",
   "status": "partial",
   "theorems": [
    "C141_same_partial",
    "C141_local_partial",
    "C141_bounds_refuted",
    "C141_without",
    "C141_unstored",
    "C141_stray",
    "C141_default_stray",
    "C141_default_refuted"
   ],
   "note": "same array for the coalitions of the constructor, observations off the thresholds and room in the buffers; what is raised without the stored counts; refuted: observation on a threshold, default coalitions after others in the constructor"
  },
  {
   "property": "C142",
   "status": "partial",
   "theorems": [
    "C142_entries",
    "C142_between_partial",
    "C142_monotone",
    "C142_row_alone",
    "C142_any_size",
    "C142_between_refuted",
    "C142_invalid",
    "C142_too_few_sets",
    "C142_refused_refuted"
   ],
   "note": "entries, bounds, growth, independence of the other rows for a positive size and a percentage; the smallest target where a tree keeps no sample; what happens on invalid arguments; refuted: bounds with size zero, refusal of an invalid percentage where exceptions of compiled functions are printed"
  },
  {
   "property": "C143",
   "status": "partial",
   "theorems": [
    "C143_entries_partial",
    "C143_row_alone",
    "C143_missing",
    "C143_raises",
    "C143_entries_refuted"
   ],
   "note": "entries where some tree keeps a sample, independence of the other rows, failure otherwise; refuted: a zero that is no difference where exceptions of compiled functions are printed"
  },
  {
   "property": "C144",
   "status": "partial",
   "theorems": [
    "C144_classes",
    "C144_distances",
    "C144_probabilities_partial",
    "C144_probabilities_refuted",
    "C144_expectations",
    "C144_quantiles",
    "C144_missing_target"
   ],
   "note": "averages over the trees, bounds, complement, one for a positive size; expectations and quantiles with the rows on which they fail; refuted: classes adding up to one with size zero"
  },
  {
   "property": "C145",
   "status": "partial",
   "theorems": [
    "C145_divergent_sets",
    "C145_weights_partial",
    "C145_level_refuted",
    "C145_rules_sound",
    "C145_rules_apart",
    "C145_returns"
   ],
   "note": "minimal sets, stored probability of the set, weights from the trees, form and probability of the rules, level, antichain, when the call returns; refuted: the stored probability reaches the level of the search"
  },
  {
   "property": "C146",
   "status": "partial",
   "theorems": [
    "C146_divergent_sets_partial",
    "C146_stored_refuted",
    "C146_weights_partial",
    "C146_target_refuted",
    "C146_rules_sound",
    "C146_rules_apart",
    "C146_returns"
   ],
   "note": "minimal sets, stored numbers as those of the complement, weights from the trees, form and probability of the rules, level, antichain, when the call returns; refuted: stored probability of the set found, sets that make the target likely in classification"
  },
  {
   "property": "C147",
   "status": "partial",
   "theorems": [
    "C147_explanations",
    "C147_tables",
    "C147_rules_partial",
    "C147_unions",
    "C147_trees_partial",
    "C147_level_refuted",
    "C147_regional_session"
   ],
   "note": "minimal sets with their probabilities, the tables of the training rows, rules at least as wide as those of compute_sdp_rule with the same guarantee, the unions of algo2, cells and weights of the trees, the regional session on these rules; refuted: the level when all columns are needed"
  },
  {
   "property": "C148",
   "status": "proved",
   "theorems": [
    "C148_local_samples",
    "C148_local_figures",
    "C148_regional_samples",
    "C148_regional_returns"
   ],
   "note": "local: one sample per observation with rules, inside a most probable rule, with its score and success, never an exception; accuracy and coverage; regional: number of samples, where they start, inside a most probable rule, and exactly when the call raises"
  },
  {
   "property": "C149",
   "status": "partial",
   "theorems": [
    "C149_decomposition_partial",
    "C149_accounts_partial",
    "C149_orders_partial",
    "C149_unchecked",
    "C149_boosted_refuted",
    "C149_same_refuted"
   ],
   "note": "all ensembles whose leaves have a value for every class predicted; refuted for gradient boosting with two classes (reads outside the array), and the game is not the thresholded compute_sdp_clf"
  },
  {
   "property": "C15",
   "status": "proved",
   "theorems": [
    "C15_exp_no_variable",
    "C15_exp_all_variables",
    "C15_exp_is_worth",
    "C15_python_agrees",
    "C15_exp_cat_conditional_mean",
    "C15_on_boundary_refuted",
    "C15_python_empty_set_raises"
   ],
   "note": "off the boundaries as stated; on a boundary false (C15_on_boundary_refuted); the Python version raises for the empty set; the categorical version needs no boundary condition"
  },
  {
   "property": "C150",
   "status": "partial",
   "theorems": [
    "C150_changes_partial",
    "C150_accounts_partial",
    "C150_orders_partial",
    "C150_unchecked",
    "C150_total_refuted",
    "C150_stray_refuted",
    "C150_boosted_refuted"
   ],
   "note": "changes to nonempty sets for observations and rows off the thresholds, sums, bounds, thread orders, equality of the two versions; refuted: the result depends on unassigned variables, the values do not sum to 1 whatever these hold, gradient boosting with two classes reads outside the array"
  },
  {
   "property": "C151",
   "status": "partial",
   "theorems": [
    "C151_rule_partial",
    "C151_far_refuted",
    "C151_names_refuted",
    "C151_many_names",
    "C151_local_partial",
    "C151_stale_refuted",
    "C151_raises",
    "C151_global_partial",
    "C151_output_refuted"
   ],
   "note": "the lines of both methods after their sessions, for points without coordinate beyond 1e10, distinct names and the observations of the session; refuted: points beyond 1e10, fewer names than columns, other observations than those of the session, output in regression outside of the interval"
  },
  {
   "property": "C152",
   "status": "partial",
   "theorems": [
    "C152_raises",
    "C152_first_rule",
    "C152_still",
    "C152_samples_refuted"
   ],
   "note": "the statement is false: with divergent sets that are not empty the method raises as soon as a test observation is in a rule with a counterfactual of positive probability, and for all observations if the first rule has one; if it returns, every sample is a test observation unchanged"
  },
  {
   "property": "C16",
   "status": "proved",
   "theorems": [
    "C16_normalised_expectation_bounds"
   ],
   "note": "normaliser non-zero expressed as: some leaf compatible with x holds a row"
  },
  {
   "property": "C17",
   "status": "partial",
   "theorems": [
    "C17_sdp_clf_cat_probability",
    "C17_python_cat_same",
    "C17_python_sdp_clf_probability",
    "C17_compiled_sdp_clf_partial",
    "C17_compiled_sdp_clf_refuted"
   ],
   "note": "proved for compute_sdp_clf_cat and both utils_sdp versions; false of the compiled compute_sdp_clf, which returns an unlimited ratio (witness above 1)"
  },
  {
   "property": "C18",
   "status": "proved",
   "theorems": [
    "C18_found_is_minimal_sufficient",
    "C18_found_is_minimal_sufficient_clf",
    "C18_not_found",
    "C18_not_found_clf",
    "C18_not_found_half"
   ],
   "note": "any probability function, any variant of the search, level in (0, 1]; also what an unfound row implies"
  },
  {
   "property": "C19",
   "status": "proved",
   "theorems": [
    "C19_row_by_row",
    "C19_row_by_row_clf"
   ],
   "note": ""
  },
  {
   "property": "C20",
   "status": "proved",
   "theorems": [
    "C20_importance_is_frequency",
    "C20_importance_is_frequency_clf"
   ],
   "note": ""
  },
  {
   "property": "C21",
   "status": "partial",
   "theorems": [
    "C21_index_row_partial",
    "C21_index_row_clf_partial",
    "C21_index_row_refuted",
    "C21_index_row_tree_refuted"
   ],
   "note": "false of the code with coalitions (stale tail in the forest and tree searches); proved for single variables and for the searches that clear the tail"
  },
  {
   "property": "C22",
   "status": "partial",
   "theorems": [
    "C22_enumeration_partial",
    "C22_in_bounds_partial",
    "C22_in_bounds_clf",
    "C22_in_bounds_refuted",
    "C22_in_bounds_no_stop_refuted",
    "C22_complete_clf_refuted"
   ],
   "note": "false of the code beyond 15 groups (the enumeration is cut at 2^15 sets): out-of-bounds reads or missed sets; proved up to 15 groups"
  },
  {
   "property": "C23",
   "status": "proved",
   "theorems": [
    "C23_all_minimal_sufficient"
   ],
   "note": "up to 15 groups; the method passes at most 10 variables"
  },
  {
   "property": "C24",
   "status": "partial",
   "theorems": [
    "C24_active_null_partition",
    "C24_search_rows_partition",
    "C24_null_coalition_partial",
    "C24_null_coalition_refuted"
   ],
   "note": "the list version always partitions; get_null_coalition raises on the stale rows of C21, proved for tidy rows"
  },
  {
   "property": "C25",
   "status": "proved",
   "theorems": [
    "C25_sdp_in_unit_interval",
    "C25_weights",
    "C25_sdp_is_weight"
   ],
   "note": "any memory around the arrays"
  },
  {
   "property": "C26",
   "status": "proved",
   "theorems": [
    "C26_complement",
    "C26_complement_one",
    "C26_ddp_in_unit_interval",
    "C26_cdp_is_sdp"
   ],
   "note": ""
  },
  {
   "property": "C27",
   "status": "proved",
   "theorems": [
    "C27_noninterference"
   ],
   "note": ""
  },
  {
   "property": "C28",
   "status": "proved",
   "theorems": [
    "C28_rule_contains_observation",
    "C28_other_variables_free",
    "C28_rule_not_too_narrow",
    "C28_rule_exact"
   ],
   "note": ""
  },
  {
   "property": "C29",
   "status": "proved",
   "theorems": [
    "C29_rule_guarantee"
   ],
   "note": "no assumption on the thresholds needed"
  },
  {
   "property": "C30",
   "status": "proved",
   "theorems": [
    "C30_no_condition"
   ],
   "note": ""
  },
  {
   "property": "C31",
   "status": "partial",
   "theorems": [
    "C31_reads_outside_refuted",
    "C31_depends_on_stray_refuted",
    "C31_reads_inside_partial"
   ],
   "note": "false of the code: node -1 of the first tree is read when another tree is deeper; proved for all other trees, and for the first one when no leaf is met before the last level"
  },
  {
   "property": "C32",
   "status": "proved",
   "theorems": [
    "C32_expectation_between",
    "C32_cdf_bounds",
    "C32_cdf_monotone",
    "C32_cdf_ends"
   ],
   "note": ""
  },
  {
   "property": "C33",
   "status": "proved",
   "theorems": [
    "C33_defined",
    "C33_between",
    "C33_monotone",
    "C33_scale",
    "C33_smallest",
    "C33_largest",
    "C33_interpolation"
   ],
   "note": "for every correct sorting routine"
  },
  {
   "property": "C34",
   "status": "partial",
   "theorems": [
    "C34_union_covers_refuted",
    "C34_union_covers_partial"
   ],
   "note": "the merge may lose points of the neighbour; proved when the neighbour lies within the rule on the other variables"
  },
  {
   "property": "C35",
   "status": "proved",
   "theorems": [
    "C35_extended_rule"
   ],
   "note": ""
  },
  {
   "property": "C36",
   "status": "partial",
   "theorems": [
    "C36_valid_cr",
    "C36_valid_refuted",
    "C36_valid_partial",
    "C36_valid_iff_partial",
    "C36_work",
    "C36_stops_cr",
    "C36_stops",
    "C36_keeps"
   ],
   "note": "utils.py: valid exactly when the initial rule is"
  },
  {
   "property": "C37",
   "status": "partial",
   "theorems": [
    "C37_sampling_partial",
    "C37_fallback_partial",
    "C37_training_values_refuted",
    "C37_budget",
    "C37_raises"
   ],
   "note": "utils_cr.py: a variable without training value in the rule gets the lower bound"
  },
  {
   "property": "C38",
   "status": "partial",
   "theorems": [
    "C38_remove_covers",
    "C38_remove_points",
    "C38_remove_members",
    "C38_remove_distinct",
    "C38_delete_refuted",
    "C38_delete_partial",
    "C38_delete_minimal_partial"
   ],
   "note": "proved for remove_in; utils_cr.remove_in_wsdp deletes the larger rule (refuted), its exact behaviour is proved"
  },
  {
   "property": "C39",
   "status": "proved",
   "theorems": [
    "C39_condition",
    "C39_condition_regional",
    "C39_counterfactuals"
   ],
   "note": ""
  },
  {
   "property": "C40",
   "status": "partial",
   "theorems": [
    "C40_coverage_partial",
    "C40_coverage_refuted",
    "C40_accuracy",
    "C40_majority_partial",
    "C40_majority_refuted",
    "C40_regression"
   ],
   "note": "coverage wrong for rules on no variable; majority only for labels 0/1"
  },
  {
   "property": "C41",
   "status": "partial",
   "theorems": [
    "C41_answers_partial",
    "C41_coverage_refuted",
    "C41_coverage_partial",
    "C41_abstains_refuted",
    "C41_raises_partial",
    "C41_abstains_partial",
    "C41_undefined_accuracy",
    "C41_regression_partial"
   ],
   "note": "ties ignore the coverage threshold; raises instead of abstaining when no rule has enough coverage; exact outcomes proved"
  },
  {
   "property": "C42",
   "status": "partial",
   "theorems": [
    "C42_decomposition_partial",
    "C42_parts",
    "C42_efficiency_partial",
    "C42_thresholded_partial",
    "C42_value",
    "C42_total_partial",
    "C42_direct_range",
    "C42_direct_refuted"
   ],
   "note": "proved of swing_sv_clf (slow in the API); swing_sv_clf_direct breaks efficiency"
  },
  {
   "property": "C43",
   "status": "proved",
   "theorems": [
    "C43_one",
    "C43_range",
    "C43_always",
    "C43_never",
    "C43_average",
    "C43_average_range",
    "C43_raises"
   ],
   "note": ""
  },
  {
   "property": "C44",
   "status": "proved",
   "theorems": [
    "C44_exact",
    "C44_range",
    "C44_all_fixed",
    "C44_none_fixed",
    "C44_undefined",
    "C44_regression",
    "C44_close",
    "C44_radius"
   ],
   "note": ""
  },
  {
   "property": "C45",
   "status": "proved",
   "theorems": [
    "C45_loads",
    "C45_predicts",
    "C45_weights",
    "C45_well_formed"
   ],
   "note": ""
  },
  {
   "property": "C46",
   "status": "partial",
   "theorems": [
    "C46_leaf_partial",
    "C46_leaf_refuted",
    "C46_weights",
    "C46_well_formed"
   ],
   "note": "proved for numerical splits; refuted for one-hot splits"
  },
  {
   "property": "C47",
   "status": "partial",
   "theorems": [
    "C47_parse_partial",
    "C47_exact",
    "C47_parse_refuted",
    "C47_sound",
    "C47_packed"
   ],
   "note": "recovered exactly when the low byte of the base score is not one of the letters b, i, n, f"
  },
  {
   "property": "C48",
   "status": "proved",
   "theorems": [
    "C48_depth_exact"
   ],
   "note": ""
  },
  {
   "property": "C49",
   "status": "proved",
   "theorems": [
    "C49_cond_weights",
    "C49_intv_weights",
    "C49_wide_box"
   ],
   "note": ""
  },
  {
   "property": "C50",
   "status": "proved",
   "theorems": [
    "C50_divergent_set_minimal",
    "C50_no_exception"
   ],
   "note": ""
  },
  {
   "property": "C51",
   "status": "proved",
   "theorems": [
    "C51_sdp_clf_cat_is_frequency",
    "C51_threshold_decisions"
   ],
   "note": ""
  },
  {
   "property": "C52",
   "status": "proved",
   "theorems": [
    "C52_sdp_reg_cat_probability",
    "C52_sdp_reg_cat_is_frequency",
    "C52_all_rows_near_refuted"
   ],
   "note": "zero base offset; when all matching rows are near the routine may answer 0 (C52_all_rows_near_refuted)"
  },
  {
   "property": "C53",
   "status": "partial",
   "theorems": [
    "C53_suff_global_partial",
    "C53_suff_global_refuted"
   ],
   "note": "0/0 when no row has an explanation; proved otherwise"
  },
  {
   "property": "C54",
   "status": "partial",
   "theorems": [
    "C54_api_aligned_partial",
    "C54_api_aligned_cxpl_refuted"
   ],
   "note": "false of sufficient_cxpl_rf (drops the first row instead of the sentinel); proved for sufficient_expl_rf"
  },
  {
   "property": "C55",
   "status": "proved",
   "theorems": [
    "C55_selected_same_leaves",
    "C55_same_leaves_full"
   ],
   "note": "first tree: provided the stray memory is harmless (C31)"
  },
  {
   "property": "C56",
   "status": "partial",
   "theorems": [
    "C56_min_node_size_refuted",
    "C56_min_node_size_partial"
   ],
   "note": "false of the code: the test comes after the erasure; proved when the cell holds enough samples"
  },
  {
   "property": "C57",
   "status": "proved",
   "theorems": [
    "C57_vector_version_agrees",
    "C57_sdp_v0_is_sdp"
   ],
   "note": ""
  },
  {
   "property": "C58",
   "status": "proved",
   "theorems": [
    "C58_rule_routines_agree",
    "C58_rule_family"
   ],
   "note": ""
  },
  {
   "property": "C59",
   "status": "partial",
   "theorems": [
    "C59_intv_complement_partial",
    "C59_intv_complement_refuted"
   ],
   "note": "false of the code for classes (both routines count the other classes); proved for target intervals"
  },
  {
   "property": "C60",
   "status": "partial",
   "theorems": [
    "C60_order_irrelevant_refuted",
    "C60_order_irrelevant_partial"
   ],
   "note": "false of the code for tied values with different weights; proved for distinct values"
  },
  {
   "property": "C61",
   "status": "proved",
   "theorems": [
    "C61_undo_size",
    "C61_undo_contains_cell",
    "C61_undo_is_cell",
    "C61_python_cell"
   ],
   "note": ""
  },
  {
   "property": "C62",
   "status": "proved",
   "theorems": [
    "C62_quantile_defined",
    "C62_quantile_between",
    "C62_quantile_monotone",
    "C62_noninterference"
   ],
   "note": ""
  },
  {
   "property": "C63",
   "status": "proved",
   "theorems": [
    "C63_sdp_clf_in_unit_interval",
    "C63_sdp_in_unit_interval",
    "C63_sdp_monotone",
    "C63_exp_between",
    "C63_defined"
   ],
   "note": ""
  },
  {
   "property": "C64",
   "status": "proved",
   "theorems": [
    "C64_versions_agree",
    "C64_python_agrees_with_compiled"
   ],
   "note": "provided the stray memory is harmless (C31)"
  },
  {
   "property": "C65",
   "status": "proved",
   "theorems": [
    "C65_diff_defined",
    "C65_diff_between",
    "C65_diff_monotone"
   ],
   "note": ""
  },
  {
   "property": "C66",
   "status": "partial",
   "theorems": [
    "C66_union_only_refuted",
    "C66_union_only_partial"
   ],
   "note": "the guard is parsed differently than meant"
  },
  {
   "property": "C67",
   "status": "proved",
   "theorems": [
    "C67_antichain",
    "C67_maximal"
   ],
   "note": ""
  },
  {
   "property": "C68",
   "status": "partial",
   "theorems": [
    "C68_pairing_refuted",
    "C68_pairing_partial",
    "C68_constant_partial"
   ],
   "note": "rules and probabilities are sorted separately"
  },
  {
   "property": "C69",
   "status": "partial",
   "theorems": [
    "C69_compatible_partial",
    "C69_best_leaf_refuted"
   ],
   "note": "a leaf emptied by rounding is preferred"
  },
  {
   "property": "C70",
   "status": "partial",
   "theorems": [
    "C70_frequency",
    "C70_frequency_exact",
    "C70_close",
    "C70_outputs_partial",
    "C70_own_output_refuted"
   ],
   "note": "close rules share the output of the first"
  },
  {
   "property": "C71",
   "status": "proved",
   "theorems": [
    "C71_samples_have_target",
    "C71_samples_exact",
    "C71_samples_exist"
   ],
   "note": ""
  },
  {
   "property": "C72",
   "status": "partial",
   "theorems": [
    "C72_metropolis_refuted",
    "C72_always_accepts_partial"
   ],
   "note": "sign of the exponent: every candidate is accepted"
  },
  {
   "property": "C73",
   "status": "partial",
   "theorems": [
    "C73_volume_refuted",
    "C73_volume_partial",
    "C73_annealing_volume_partial"
   ],
   "note": "finite bounds must lie in the range of the data"
  },
  {
   "property": "C74",
   "status": "proved",
   "theorems": [
    "C74_density_bounds",
    "C74_density_monotone",
    "C74_density_defined",
    "C74_density_is_share"
   ],
   "note": ""
  },
  {
   "property": "C75",
   "status": "proved",
   "theorems": [
    "C75_leaves",
    "C75_defined"
   ],
   "note": ""
  },
  {
   "property": "C76",
   "status": "partial",
   "theorems": [
    "C76_one_variable_refuted",
    "C76_one_variable_raises",
    "C76_defined_partial"
   ],
   "note": "raises with one variable"
  },
  {
   "property": "C77",
   "status": "partial",
   "theorems": [
    "C77_python_partial",
    "C77_thresholded_partial",
    "C77_raises",
    "C77_python_refuted"
   ],
   "note": "the Python loop raises for a declared coalition of one column"
  },
  {
   "property": "C78",
   "status": "partial",
   "theorems": [
    "C78_discrete_partial",
    "C78_leaves_partial",
    "C78_leaves_refuted"
   ],
   "note": "coalitions of at least two columns; the normalised expectation may be a NaN"
  },
  {
   "property": "C79",
   "status": "partial",
   "theorems": [
    "C79_clusters_partial",
    "C79_partition_partial",
    "C79_documented_refuted",
    "C79_coalitions_refuted"
   ],
   "note": "proved without coalitions; the threshold decays instead of the level; with coalitions columns are left out"
  },
  {
   "property": "C80",
   "status": "partial",
   "theorems": [
    "C80_share_partial",
    "C80_coalitions_refuted"
   ],
   "note": "proved without coalitions; with coalitions a count may exceed 1"
  },
  {
   "property": "C81",
   "status": "partial",
   "theorems": [
    "C81_predicts_partial",
    "C81_computes",
    "C81_predicts_refuted",
    "C81_weights",
    "C81_well_formed"
   ],
   "note": "refuted for values equal to a condition, proved otherwise"
  },
  {
   "property": "C82",
   "status": "proved",
   "theorems": [
    "C82_predicts",
    "C82_weights",
    "C82_well_formed"
   ],
   "note": ""
  },
  {
   "property": "C83",
   "status": "partial",
   "theorems": [
    "C83_leaf_partial",
    "C83_predicts_partial",
    "C83_threshold",
    "C83_cells",
    "C83_double_refuted"
   ],
   "note": "proved for 32-bit observations, refuted for 64-bit values in between"
  },
  {
   "property": "C84",
   "status": "partial",
   "theorems": [
    "C84_batch_partial",
    "C84_value_partial",
    "C84_empty_partial",
    "C84_full_partial",
    "C84_probability_refuted",
    "C84_full_refuted",
    "C84_empty_refuted",
    "C84_batch_refuted",
    "C84_python_probability",
    "C84_python_agrees"
   ],
   "note": "proved for one tree; bounds refuted, and for two trees the result depends on the batch and is not the frequency"
  },
  {
   "property": "C85",
   "status": "partial",
   "theorems": [
    "C85_search_partial",
    "C85_coalition_refuted",
    "C85_history_refuted"
   ],
   "note": "proved for one tree without coalitions, refuted otherwise"
  },
  {
   "property": "C86",
   "status": "partial",
   "theorems": [
    "C86_unfitted",
    "C86_first_explanation",
    "C86_later_explanations",
    "C86_current_partial",
    "C86_current_refuted",
    "C86_levels_refuted",
    "C86_predict",
    "C86_global_rules"
   ],
   "note": "explanations keep the forest of the first explanation; refuted after a later fit"
  },
  {
   "property": "C87",
   "status": "partial",
   "theorems": [
    "C87_space",
    "C87_space_tree",
    "C87_defined",
    "C87_found_partial",
    "C87_not_found_partial",
    "C87_tree_found_partial",
    "C87_tree_not_found_partial",
    "C87_minimal_refuted",
    "C87_complete_refuted"
   ],
   "note": "minimality and completeness hold among the ten columns kept, refuted among all columns"
  },
  {
   "property": "C88",
   "status": "partial",
   "theorems": [
    "C88_cache_partial",
    "C88_cache_refuted"
   ],
   "note": "proved when the call uses the coalitions of the constructor, refuted otherwise"
  },
  {
   "property": "C89",
   "status": "partial",
   "theorems": [
    "C89_local_sound",
    "C89_regional_sound",
    "C89_local_antichain",
    "C89_regional_antichain",
    "C89_defined",
    "C89_local_complete_partial",
    "C89_regional_complete_partial",
    "C89_nonempty_refuted",
    "C89_best_refuted",
    "C89_level_refuted"
   ],
   "note": "sound and incomparable; complete when the conditions differ; refuted: equal conditions delete each other, the most probable one may be deleted, regression ignores pi_level"
  },
  {
   "property": "C90",
   "status": "partial",
   "theorems": [
    "C90_draws",
    "C90_inside",
    "C90_figures",
    "C90_total",
    "C90_target_partial",
    "C90_target_refuted",
    "C90_original_never",
    "C90_original_refuted"
   ],
   "note": "the accuracy counts changes of class, not the target: proved for two classes, refuted for three; the accuracy of the original model is never computed"
  },
  {
   "property": "C91",
   "status": "partial",
   "theorems": [
    "C91_draws",
    "C91_inside",
    "C91_raises",
    "C91_coverage_partial",
    "C91_coverage_refuted",
    "C91_original_never"
   ],
   "note": "the coverage reported is always 1; raises before any local session"
  },
  {
   "property": "C92",
   "status": "partial",
   "theorems": [
    "C92_choice_partial",
    "C92_choice_refuted",
    "C92_raises",
    "C92_still",
    "C92_accuracy",
    "C92_session_refuted"
   ],
   "note": "refuted: the session raises or leaves every observation unchanged"
  },
  {
   "property": "C93",
   "status": "partial",
   "theorems": [
    "C93_local_set",
    "C93_local_weights",
    "C93_local_defined",
    "C93_importance_refuted",
    "C93_regional_set_partial",
    "C93_regional_weights",
    "C93_regional_defined",
    "C93_regional_probability_refuted",
    "C93_regional_target_refuted"
   ],
   "note": "local session proved; refuted: the importance counts a set of all columns whatever its probability, the regional session reports the probability of the complement and seeks the classes other than the target"
  },
  {
   "property": "C94",
   "status": "partial",
   "theorems": [
    "C94_local_game",
    "C94_shapley_partial",
    "C94_shapley_refuted",
    "C94_efficiency_partial",
    "C94_efficiency_refuted"
   ],
   "note": "proved with a background row in every leaf: Shapley values of the game normalized leaf by leaf, and efficiency; refuted: not the Shapley values of the normalized expectation unless all leaves of a tree meet the same players, and an empty leaf resets the normaliser"
  },
  {
   "property": "C95",
   "status": "partial",
   "theorems": [
    "C95_cache_partial",
    "C95_bounds_refuted",
    "C95_coalitions_refuted",
    "C95_raises"
   ],
   "note": "equal off the bounds of the leaves with the same coalitions; refuted on a bound and for other coalitions; raises without the plain cache"
  },
  {
   "property": "C96",
   "status": "partial",
   "theorems": [
    "C96_python_partial",
    "C96_compiled_partial",
    "C96_numbers_partial",
    "C96_numbers_refuted",
    "C96_one_column_refuted"
   ],
   "note": "whenever a number is returned it is the Shapley value and the number of the compiled routine; a number when every leaf holds a background row; refuted: NaN for an empty leaf, ValueError for a one-column coalition"
  },
  {
   "property": "C97",
   "status": "partial",
   "theorems": [
    "C97_v2_partial",
    "C97_numbers_partial",
    "C97_single_columns_zero",
    "C97_v2_refuted"
   ],
   "note": "Shapley value without coalitions or when they cover the columns of the leaves; refuted otherwise: single columns are dropped"
  },
  {
   "property": "C98",
   "status": "partial",
   "theorems": [
    "C98_python_partial",
    "C98_compiled_partial",
    "C98_numbers_partial",
    "C98_bounds_refuted",
    "C98_no_null_refuted",
    "C98_split_refuted"
   ],
   "note": "equal to the compiled values off the lower bounds with unsplit coalitions; refuted on a lower bound, without null variable (raises) and for split coalitions"
  },
  {
   "property": "C99",
   "status": "partial",
   "theorems": [
    "C99_row_active",
    "C99_row_all_active",
    "C99_plain_is_active",
    "C99_shapley_partial",
    "C99_efficiency_partial",
    "C99_null_zero_partial",
    "C99_numbers_partial",
    "C99_documented_layout",
    "C99_documented_layout_refuted",
    "C99_numbers_refuted",
    "C99_rows_refuted"
   ],
   "note": "with the arrays of get_null_coalition each row gets the Shapley values of its own restricted game; refuted for the documented layout of N_star (reads outside the arrays), for empty leaves (NaN) and for a short N_star"
  }
 ]
}