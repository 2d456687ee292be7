{
 "claims": [
  {
   "property": "C01",
   "status": "proved",
   "theorems": [
    "C01_kinds_exclusive",
    "C01_attribute_size",
    "C01_instance_size",
    "C01_instance_vector",
    "C01_add_vector"
   ],
   "note": ""
  },
  {
   "property": "C02",
   "status": "proved",
   "theorems": [
    "C02_one_hot",
    "C02_unknown_is_zero"
   ],
   "note": ""
  },
  {
   "property": "C03",
   "status": "proved",
   "theorems": [
    "C03_sparse_entries",
    "C03_sparse_increasing",
    "C03_dot_agrees"
   ],
   "note": ""
  },
  {
   "property": "C04",
   "status": "partial",
   "theorems": [
    "C04_subset_is_projection_partial",
    "C04_subset_throws",
    "C04_subset_composes",
    "C04_composite_labels_refuted"
   ],
   "note": "REFUTED in part: the projection of a composite instance loses its possible labels (C04_composite_labels_refuted); everything else of the statement is proved."
  },
  {
   "property": "C05",
   "status": "partial",
   "theorems": [
    "C05_set_possible_partial",
    "C05_set_possible_fresh",
    "C05_set_possible_refuted",
    "C05_set_possible_never_replaces",
    "C05_add_attribute"
   ],
   "note": "REFUTED in part: setPossibleClassLabels appends / never replaces existing labels (C05_set_possible_refuted); the case of a composite without labels is proved."
  },
  {
   "property": "C06",
   "status": "proved",
   "theorems": [
    "C06_stored_conform",
    "C06_add_keeps_conformance"
   ],
   "note": ""
  },
  {
   "property": "C07",
   "status": "partial",
   "theorems": [
    "C07_arity_refuted",
    "C07_arity_at_most_partial",
    "C07_every_prefix_accepted",
    "C07_arity_uniform_partial"
   ],
   "note": "REFUTED: instances shorter than the definition are accepted (C07_arity_refuted); proved: never longer, every prefix accepted, uniform histories stay uniform."
  },
  {
   "property": "C08",
   "status": "proved",
   "theorems": [
    "C08_history",
    "C08_first_instance_defines",
    "C08_outcome",
    "C08_list"
   ],
   "note": ""
  },
  {
   "property": "C09",
   "status": "proved",
   "theorems": [
    "C09_load_stores_well_formed_lines",
    "C09_load_succeeds",
    "C09_empty_first_line_undefined"
   ],
   "note": ""
  },
  {
   "property": "C10",
   "status": "partial",
   "theorems": [
    "C10_write_read_refuted",
    "C10_comma_refuted",
    "C10_precision_refuted",
    "C10_write_read_partial"
   ],
   "note": "REFUTED: commas, number precision and composite labels are lost (three refutation theorems); proved for the data that survive (C10_write_read_partial)."
  },
  {
   "property": "C11",
   "status": "proved",
   "theorems": [
    "C11_feature_subset",
    "C11_out_of_range"
   ],
   "note": ""
  },
  {
   "property": "C12",
   "status": "partial",
   "theorems": [
    "C12_counts_refuted",
    "C12_counts_partial",
    "C12_add",
    "C12_remove"
   ],
   "note": "REFUTED: indexed attributes are counted neither as discrete nor continuous; the sum identity is proved with the indexed count added."
  },
  {
   "property": "C13",
   "status": "proved",
   "theorems": [
    "C13_sort_by_feature",
    "C13_nan_undefined"
   ],
   "note": ""
  },
  {
   "property": "C14",
   "status": "proved",
   "theorems": [
    "C14_sort_by_class",
    "C14_contiguous_blocks",
    "C14_less"
   ],
   "note": ""
  },
  {
   "property": "C15",
   "status": "proved",
   "theorems": [
    "C15_distinct_labels",
    "C15_value_list",
    "C15_union_possible",
    "C15_possible_labels"
   ],
   "note": ""
  },
  {
   "property": "C16",
   "status": "proved",
   "theorems": [
    "C16_class_counts",
    "C16_class_keys",
    "C16_class_sum",
    "C16_order_independent"
   ],
   "note": ""
  },
  {
   "property": "C17",
   "status": "proved",
   "theorems": [
    "C17_contingency_table",
    "C17_rows_add_up",
    "C17_indexed_distribution",
    "C17_mixed_column"
   ],
   "note": ""
  },
  {
   "property": "C18",
   "status": "proved",
   "theorems": [
    "C18_continuous_average",
    "C18_order_independent",
    "C18_discrete_average",
    "C18_indexed_average",
    "C18_average_vector",
    "C18_unknown_index_undefined"
   ],
   "note": ""
  },
  {
   "property": "C19",
   "status": "proved",
   "theorems": [
    "C19_standard_deviation",
    "C19_sum_of_squares",
    "C19_shift_invariant",
    "C19_scale",
    "C19_single_is_nan"
   ],
   "note": ""
  },
  {
   "property": "C20",
   "status": "proved",
   "theorems": [
    "C20_symmetric_psd",
    "C20_diagonal"
   ],
   "note": ""
  },
  {
   "property": "C21",
   "status": "partial",
   "theorems": [
    "C21_nothing_loaded_refuted",
    "C21_layout_partial",
    "C21_written"
   ],
   "note": "REFUTED (C21_nothing_loaded_refuted): for every list whose first instance has a feature that is not discrete-indexed, reading back the text that serialize writes gives an empty list. Proved for the layout of the shipped files (C21_layout_partial): every table of clean cells is read back exactly."
  },
  {
   "property": "C22",
   "status": "proved",
   "theorems": [
    "C22_partition_by_class"
   ],
   "note": ""
  },
  {
   "property": "C23",
   "status": "proved",
   "theorems": [
    "C23_partition_by_value"
   ],
   "note": ""
  },
  {
   "property": "C24",
   "status": "proved",
   "theorems": [
    "C24_partition_by_index"
   ],
   "note": ""
  },
  {
   "property": "C25",
   "status": "proved",
   "theorems": [
    "C25_partition_by_threshold",
    "C25_nan_second"
   ],
   "note": ""
  },
  {
   "property": "C26",
   "status": "proved",
   "theorems": [
    "C26_random_split",
    "C26_ceiling"
   ],
   "note": ""
  },
  {
   "property": "C27",
   "status": "partial",
   "theorems": [
    "C27_class_proportions_partial",
    "C27_rounding_refuted"
   ],
   "note": "REFUTED in floating point: C27_rounding_refuted shows the rounded bound exceeds the exact one; proved in exact arithmetic."
  },
  {
   "property": "C28",
   "status": "proved",
   "theorems": [
    "C28_children_match_conditions",
    "C28_test_decides"
   ],
   "note": ""
  },
  {
   "property": "C29",
   "status": "proved",
   "theorems": [
    "C29_counts"
   ],
   "note": ""
  },
  {
   "property": "C30",
   "status": "proved",
   "theorems": [
    "C30_accuracy"
   ],
   "note": ""
  },
  {
   "property": "C31",
   "status": "proved",
   "theorems": [
    "C31_merge",
    "C31_any_order",
    "C31_order_of_classification"
   ],
   "note": ""
  },
  {
   "property": "C32",
   "status": "proved",
   "theorems": [
    "C32_precision_recall",
    "C32_f_measure"
   ],
   "note": ""
  },
  {
   "property": "C33",
   "status": "proved",
   "theorems": [
    "C33_weighted_f",
    "C33_unpredicted_nan"
   ],
   "note": ""
  },
  {
   "property": "C34",
   "status": "partial",
   "theorems": [
    "C34_reports_defined_partial",
    "C34_missing_label_refuted",
    "C34_plain_test_safe"
   ],
   "note": "REFUTED: a declared label that never occurs as actual label leaves entries of the result arrays unwritten (C34_missing_label_refuted, reachable through test() on composite instances); proved: defined exactly when every declared label occurs, always so for tests on plain instances."
  },
  {
   "property": "C35",
   "status": "proved",
   "theorems": [
    "C35_mean_error",
    "C35_mean_order",
    "C35_mean_accuracy",
    "C35_mean_detailed",
    "C35_standard_deviation",
    "C35_standard_deviation_accuracy",
    "C35_single_result",
    "C35_mixed_results_undefined",
    "C35_accuracy"
   ],
   "note": ""
  },
  {
   "property": "C36",
   "status": "partial",
   "theorems": [
    "C36_strict_order",
    "C36_larger_mean",
    "C36_negatively_transitive_partial",
    "C36_nan_refuted",
    "C36_null"
   ],
   "note": "REFUTED in part: negative transitivity fails when an accuracy is NaN (C36_nan_refuted); irreflexive, asymmetric, transitive and null-dereference cases proved in full, negative transitivity proved for accuracies that are numbers."
  },
  {
   "property": "C37",
   "status": "proved",
   "theorems": [
    "C37_terminates",
    "C37_quadratic"
   ],
   "note": ""
  },
  {
   "property": "C38",
   "status": "proved",
   "theorems": [
    "C38_experiments_comparable",
    "C38_local_optimum"
   ],
   "note": ""
  },
  {
   "property": "C39",
   "status": "partial",
   "theorems": [
    "C39_evaluated_lists",
    "C39_no_set_twice_partial",
    "C39_floating_refuted"
   ],
   "note": "REFUTED for floating selection: the same set can be evaluated as [2;0;1] and [0;1;2]; proved for forward and backward selection as sets and for all three strategies as index lists."
  },
  {
   "property": "C40",
   "status": "proved",
   "theorems": [
    "C40_forward",
    "C40_backward",
    "C40_append",
    "C40_get"
   ],
   "note": ""
  },
  {
   "property": "C41",
   "status": "proved",
   "theorems": [
    "C41_to_continuous",
    "C41_to_binary",
    "C41_to_indexed",
    "C41_arity"
   ],
   "note": ""
  },
  {
   "property": "C42",
   "status": "partial",
   "theorems": [
    "C42_no_indicator_refuted",
    "C42_bad_index_refuted",
    "C42_collision_refuted",
    "C42_continuous_partial",
    "C42_binary_partial"
   ],
   "note": "REFUTED: the value ',' is looked up as 'comma' (Attribute::to_string), so it gets no indicator / index -1, or collides with the value 'comma'. Partial: exact encoding for every string, one indicator set unless the value is ','."
  },
  {
   "property": "C43",
   "status": "partial",
   "theorems": [
    "C43_refuted",
    "C43_pca_refuted",
    "C43_partial"
   ],
   "note": "REFUTED: convertDataDefinition edits a copy (getDataDefinition returns by value), the data set keeps its old definition. Partial: the definition is unchanged for every filter; with no discrete feature nothing changes."
  },
  {
   "property": "C44",
   "status": "proved",
   "theorems": [
    "C44_normalize",
    "C44_single"
   ],
   "note": ""
  },
  {
   "property": "C45",
   "status": "proved",
   "theorems": [
    "C45_value",
    "C45_symmetric",
    "C45_nonnegative",
    "C45_finite",
    "C45_self",
    "C45_throws"
   ],
   "note": ""
  },
  {
   "property": "C46",
   "status": "partial",
   "theorems": [
    "C46_triangle_refuted",
    "C46_separation_refuted",
    "C46_root_triangle_partial",
    "C46_separates_partial"
   ],
   "note": "REFUTED: the returned value is a squared distance (0,1,2 on a line) and indexed or binary features are ignored. Proved: its square root satisfies the triangle inequality, and it separates instances with finite continuous and discrete features."
  },
  {
   "property": "C47",
   "status": "proved",
   "theorems": [
    "C47_neighbours",
    "C47_euclidean"
   ],
   "note": ""
  },
  {
   "property": "C48",
   "status": "proved",
   "theorems": [
    "C48_majority",
    "C48_training_label",
    "C48_composite",
    "C48_composite_answers",
    "C48_probability",
    "C48_no_neighbours"
   ],
   "note": ""
  },
  {
   "property": "C49",
   "status": "proved",
   "theorems": [
    "C49_argmax",
    "C49_maximal",
    "C49_default",
    "C49_composite",
    "C49_seen_label",
    "C49_answers",
    "C49_lda_answers",
    "C49_qda_answers",
    "C49_kmeans_nearest"
   ],
   "note": ""
  },
  {
   "property": "C50",
   "status": "partial",
   "theorems": [
    "C50_dummy",
    "C50_random",
    "C50_ensemble_partial",
    "C50_ensemble_refuted",
    "C50_kmeans",
    "C50_lda_refuted",
    "C50_qda_refuted",
    "C50_bayes_refuted",
    "C50_bayes_kind_refuted",
    "C50_lda_partial",
    "C50_qda_partial",
    "C50_bayes_partial",
    "C50_lda_new_labels_partial",
    "C50_svm_refuted"
   ],
   "note": "REFUTED for LDA, QDA and naive Bayes (map emplace keeps the entries of an earlier training) and for bagging and random forests (old trees stay and outvote the new ones). Proved: k-means, dummy and random models are replaced as a whole, and exactly what is stale in the others. SVM: REFUTED, train appends to the offsets, counts and support vectors of the previous training (C50_svm_refuted)."
  },
  {
   "property": "C51",
   "status": "partial",
   "theorems": [
    "C51_partial",
    "C51_monotone_partial",
    "C51_no_win",
    "C51_refused",
    "C51_overflow_refuted"
   ],
   "note": "REFUTED: from thirteen untied pairs on, one win makes the int factorial overflow (C51_overflow_refuted); proved for at most twelve untied pairs (and any number when there is no win), refusals proved in general."
  },
  {
   "property": "C52",
   "status": "partial",
   "theorems": [
    "C52_partial",
    "C52_five_by_two",
    "C52_value_partial",
    "C52_degrees_partial",
    "C52_single_refuted",
    "C52_degrees"
   ],
   "note": "REFUTED for a single result: the statistic is NaN and nothing is refused (C52_single_refuted); proved for two or more finite results, and for both 5x2 t tests."
  },
  {
   "property": "C53",
   "status": "proved",
   "theorems": [
    "C53_symmetric",
    "C53_ten",
    "C53_refused",
    "C53_degrees"
   ],
   "note": ""
  },
  {
   "property": "C54",
   "status": "partial",
   "theorems": [
    "C54_decision",
    "C54_partial",
    "C54_sign_partial",
    "C54_t_partial",
    "C54_large_alpha_refuted",
    "C54_f_test_refuted"
   ],
   "note": "REFUTED: the F test never supports the three-way compare (C54_f_test_refuted) and above one half a decision can flip (C54_large_alpha_refuted); proved for levels up to one half, with the sign and paired t tests as instances (t distribution's tails a contract)."
  },
  {
   "property": "C55",
   "status": "proved",
   "theorems": [
    "C55_one_tailed",
    "C55_two_tailed",
    "C55_kept",
    "C55_nan"
   ],
   "note": ""
  },
  {
   "property": "C56",
   "status": "proved",
   "theorems": [
    "C56_kfold",
    "C56_stratified",
    "C56_total",
    "C56_contract_met"
   ],
   "note": ""
  },
  {
   "property": "C57",
   "status": "partial",
   "theorems": [
    "C57_partial",
    "C57_same_folds_refuted",
    "C57_stratified_partial"
   ],
   "note": "REFUTED: every repetition builds its folds from the same seed, so all repetitions are the same cross validation (C57_same_folds_refuted); proved: M cross validations, M*K results."
  },
  {
   "property": "C58",
   "status": "proved",
   "theorems": [
    "C58_separate",
    "C58_stratified",
    "C58_once"
   ],
   "note": ""
  },
  {
   "property": "C59",
   "status": "proved",
   "theorems": [
    "C59_bootstrap",
    "C59_single",
    "C59_single_stratified"
   ],
   "note": ""
  },
  {
   "property": "C60",
   "status": "partial",
   "theorems": [
    "C60_growing_terminates_partial",
    "C60_training_terminates_partial",
    "C60_pruned_training_refuted",
    "C60_rounding_refuted",
    "C60_indexed_rounding_refuted"
   ],
   "note": "Proved in exact arithmetic for growing (any parameters) and for training without pruning, or with pruning when a class keeps an instance after the stratified split. REFUTED: with pruning, training throws on every set in which no class occurs twice (C60_pruned_training_refuted); with binary64 midpoints growing recurses for ever on two neighbouring doubles (C60_rounding_refuted); the indexed-column entropy can round below the parent's although nothing is separated (C60_indexed_rounding_refuted)."
  },
  {
   "property": "C61",
   "status": "proved",
   "theorems": [
    "C61_known_label",
    "C61_possible_label"
   ],
   "note": ""
  },
  {
   "property": "C62",
   "status": "partial",
   "theorems": [
    "C62_majority_partial",
    "C62_best_of_prunings_partial",
    "C62_composite_refuted"
   ],
   "note": "Proved for plain instances (also: no pruned version does better on the training data). REFUTED for composite instances, where ties are broken by each instance's own label order (C62_composite_refuted)."
  },
  {
   "property": "C63",
   "status": "proved",
   "theorems": [
    "C63_pruning_never_hurts",
    "C63_pruning_finishes"
   ],
   "note": ""
  },
  {
   "property": "C64",
   "status": "proved",
   "theorems": [
    "C64_stump_height",
    "C64_stump_finishes"
   ],
   "note": ""
  },
  {
   "property": "C65",
   "status": "partial",
   "theorems": [
    "C65_not_restored_refuted",
    "C65_leaf_refuted",
    "C65_pruning_lost_refuted",
    "C65_layout_partial",
    "C65_uncovered_refuted"
   ],
   "note": "REFUTED: serialize and the stream constructor disagree. A tree with splits comes back as a single leaf (C65_not_restored_refuted), a single leaf leaves fields uninitialised (C65_leaf_refuted), pruning is not written (C65_pruning_lost_refuted). Proved for the layout of the shipped files (C65_layout_partial): same prediction and probabilities on every instance some child accepts at every inner node; elsewhere the loaded tree answers the empty label (C65_uncovered_refuted)."
  },
  {
   "property": "C66",
   "status": "proved",
   "theorems": [
    "C66_most_votes",
    "C66_vote_shares"
   ],
   "note": ""
  },
  {
   "property": "C67",
   "status": "proved",
   "theorems": [
    "C67_test_records_all",
    "C67_failure_propagates",
    "C67_testers_agree"
   ],
   "note": ""
  },
  {
   "property": "C68",
   "status": "proved",
   "theorems": [
    "C68_most_frequent"
   ],
   "note": ""
  },
  {
   "property": "C69",
   "status": "proved",
   "theorems": [
    "C69_prediction_kernel",
    "C69_symmetric",
    "C69_training_kernel"
   ],
   "note": ""
  },
  {
   "property": "C70",
   "status": "partial",
   "theorems": [
    "C70_every_state",
    "C70_returned_box",
    "C70_returned_sum_refuted"
   ],
   "note": "Proved for every state the solver visits (box and equality constraint) and for the box of the returned multipliers. REFUTED for the equality constraint of the returned multipliers: the in-place reordering duplicates some of them (C70_returned_sum_refuted)."
  },
  {
   "property": "C71",
   "status": "proved",
   "theorems": [
    "C71_bookkeeping",
    "C71_set_aside",
    "C71_pair_stays",
    "C71_looks_again",
    "C71_shrinks_nothing"
   ],
   "note": ""
  },
  {
   "property": "C72",
   "status": "partial",
   "theorems": [
    "C72_before_shrinking_partial",
    "C72_refuted"
   ],
   "note": "REFUTED: when the working set has been permuted, the in-place write-back overwrites multipliers that are read later (C72_refuted). Partial: runs that stop before the first shrinking (at most min(l,1000) iterations) return the multipliers in the original order, optimal up to 0.001 and with correct margins. That the iteration stops is C114."
  },
  {
   "property": "C73",
   "status": "proved",
   "theorems": [
    "C73_pairs",
    "C73_train_safe",
    "C73_decision_values",
    "C73_pair_case"
   ],
   "note": ""
  },
  {
   "property": "C74",
   "status": "proved",
   "theorems": [
    "C74_votes",
    "C74_total",
    "C74_two_classes"
   ],
   "note": ""
  },
  {
   "property": "C75",
   "status": "partial",
   "theorems": [
    "C75_distribution_partial",
    "C75_overflow_refuted"
   ],
   "note": "Proved for raw outputs on which exp is finite (exact arithmetic; exp is a positive increasing function, as a parameter). REFUTED when exp overflows: the outputs are NaN (C75_overflow_refuted)."
  },
  {
   "property": "C76",
   "status": "proved",
   "theorems": [
    "C76_plain",
    "C76_possible",
    "C76_linear",
    "C76_mlp",
    "C76_deep"
   ],
   "note": ""
  },
  {
   "property": "C77",
   "status": "proved",
   "theorems": [
    "C77_linear",
    "C77_mlp",
    "C77_auto",
    "C77_deep",
    "C77_auto_misfit"
   ],
   "note": ""
  },
  {
   "property": "C78",
   "status": "partial",
   "theorems": [
    "C78_raw_partial",
    "C78_refuted"
   ],
   "note": "REFUTED: predictProbability of the perceptrons returns the raw outputs, which can be negative and need not add up to one (C78_refuted). Partial: it returns exactly the raw output of each label."
  },
  {
   "property": "C79",
   "status": "partial",
   "theorems": [
    "C79_chain",
    "C79_empty_topology",
    "C79_step_chain",
    "C79_update_partial",
    "C79_tanh_refuted",
    "C79_retrain_refuted"
   ],
   "note": "Layers fit together for every topology with a hidden layer, and every step updates every layer (sigmoid, relu). REFUTED: with tanh, unless every hidden layer has as many units as there are hidden layers, training leaves all weights at their initial values (a size mismatch is swallowed, C79_tanh_refuted); a second train call throws out_of_range (C79_retrain_refuted)."
  },
  {
   "property": "C80",
   "status": "proved",
   "theorems": [
    "C80_output",
    "C80_predict"
   ],
   "note": ""
  },
  {
   "property": "C81",
   "status": "proved",
   "theorems": [
    "C81_split",
    "C81_terminates",
    "C81_every_node_tried",
    "C81_factor"
   ],
   "note": ""
  },
  {
   "property": "C82",
   "status": "partial",
   "theorems": [
    "C82_dummy",
    "C82_random_refuted",
    "C82_knn_refuted",
    "C82_kmeans_refuted",
    "C82_lda_refuted",
    "C82_qda_refuted",
    "C82_bayes_partial",
    "C82_bayes_discrete_refuted",
    "C82_ensemble_refuted",
    "C82_network_refuted",
    "C82_svm_fields_partial",
    "C82_svm_refuted",
    "C82_auto_encoder_refuted",
    "C82_auto_encoder_empty"
   ],
   "note": "Proved for the dummy model, for continuous naive Bayes (C82_bayes_partial) and for the numbers of the SVM (C82_svm_fields_partial). REFUTED for random, k nearest neighbours, k means, LDA, QDA, discrete naive Bayes, ensembles, networks, and SVM prediction (C82_*_refuted): the reader expects other fields than the writer gives."
  },
  {
   "property": "C83",
   "status": "partial",
   "theorems": [
    "C83_declared_read_partial",
    "C83_last_line_refuted",
    "C83_bad_number_throws",
    "C83_data_set_conforms"
   ],
   "note": "REFUTED for a last line without newline (C83_last_line_refuted); proved for newline-terminated files."
  },
  {
   "property": "C84",
   "status": "proved",
   "theorems": [
    "C84_value_index",
    "C84_missing_list_undefined",
    "C84_subset_loses_values",
    "C84_clear_keeps_values"
   ],
   "note": ""
  },
  {
   "property": "C85",
   "status": "proved",
   "theorems": [
    "C85_read_results",
    "C85_final_newline_throws"
   ],
   "note": ""
  },
  {
   "property": "C86",
   "status": "partial",
   "theorems": [
    "C86_default_refuted",
    "C86_partial",
    "C86_too_many_refuted"
   ],
   "note": "REFUTED: the constructors without a dimension read an uninitialised iterator for every data set; more dimensions than eigenvectors erases past the end. Partial: k dimensions gives the projections on the first k eigenvectors. Math's Matrix::characteristics is an explicit parameter; that its eigenvectors are sorted by eigenvalue is its contract, not proved."
  },
  {
   "property": "C87",
   "status": "proved",
   "theorems": [
    "C87_bagging"
   ],
   "note": ""
  },
  {
   "property": "C88",
   "status": "proved",
   "theorems": [
    "C88_dummy",
    "C88_dummy_probability"
   ],
   "note": ""
  },
  {
   "property": "C89",
   "status": "partial",
   "theorems": [
    "C89_random_partial",
    "C89_random_reaches_all",
    "C89_random_refuted",
    "C89_random_probability_partial",
    "C89_random_probability_refuted"
   ],
   "note": "Proved for a trained model. REFUTED: a composite instance without possible labels or an untrained model computes x % 0 (C89_random_refuted); a label list with repetitions given to the constructor yields probabilities that do not add up to one (C89_random_probability_refuted)."
  },
  {
   "property": "C90",
   "status": "proved",
   "theorems": [
    "C90_fixed_subset"
   ],
   "note": "This documents a defect: the subset is not redrawn per node or per tree, so a forest never uses the other attributes."
  },
  {
   "property": "C91",
   "status": "proved",
   "theorems": [
    "C91_safe",
    "C91_progress",
    "C91_optimal"
   ],
   "note": ""
  },
  {
   "property": "C92",
   "status": "proved",
   "theorems": [
    "C92_descent"
   ],
   "note": ""
  },
  {
   "property": "C93",
   "status": "proved",
   "theorems": [
    "C93_near_optimal",
    "C93_final_state",
    "C93_linear_psd"
   ],
   "note": ""
  },
  {
   "property": "C94",
   "status": "partial",
   "theorems": [
    "C94_linear_partial",
    "C94_mlp_partial",
    "C94_deep_partial",
    "C94_stale_refuted"
   ],
   "note": "Proved for instances of the trained width. REFUTED for other widths: the size mismatch is caught and ignored, and the answer is that of the previous prediction (C94_stale_refuted)."
  },
  {
   "property": "C95",
   "status": "partial",
   "theorems": [
    "C95_linear",
    "C95_mlp_partial",
    "C95_deep_partial",
    "C95_auto",
    "C95_tanh_refuted"
   ],
   "note": "Proved for the linear perceptron, for the auto encoder, and for the multilayer and deep perceptron with sigmoid and relu. REFUTED for tanh: the derivative is evaluated at tanh of the hidden value (C95_tanh_refuted)."
  },
  {
   "property": "C96",
   "status": "partial",
   "theorems": [
    "C96_step_partial",
    "C96_outputs_fixed",
    "C96_gate_refuted"
   ],
   "note": "Proved for the responses of the leaves (C96_step_partial). REFUTED for the gate (C96_gate_refuted): the update uses the scratch member `outputs` of the two leaves instead of their responses; calculateOutput never writes it for a leaf, so it keeps the random values of the constructor (C96_outputs_fixed)."
  },
  {
   "property": "C97",
   "status": "partial",
   "theorems": [
    "C97_train_partial",
    "C97_missing_class_refuted",
    "C97_probability_refuted"
   ],
   "note": "Proved when every class is left in the training part (C97_train_partial). REFUTED otherwise (C97_missing_class_refuted): a class with one instance always goes to the validation part, the new leaves then have fewer responses than there are classes and training reads beyond the end of a vector. REFUTED for predictProbability (C97_probability_refuted): the inherited method returns an empty map for a single leaf and dereferences a null pointer for a tree with splits."
  },
  {
   "property": "C99",
   "status": "proved",
   "theorems": [
    "C99_random",
    "C99_knn",
    "C99_kmeans",
    "C99_lda",
    "C99_qda",
    "C99_bayes",
    "C99_ensemble",
    "C99_networks"
   ],
   "note": ""
  },
  {
   "property": "C100",
   "status": "partial",
   "theorems": [
    "C100_replaced_partial",
    "C100_random_refuted",
    "C100_lda_refuted",
    "C100_bayes_refuted",
    "C100_ensemble_refuted",
    "C100_deep_refuted"
   ],
   "note": "Proved for the dummy, k means and k nearest neighbours models (C100_replaced_partial). REFUTED for the others: random, ensemble and deep network append to what they held, LDA and naive Bayes keep the old weights of labels they already know."
  },
  {
   "property": "C101",
   "status": "partial",
   "theorems": [
    "C101_lda",
    "C101_single_instance_refuted"
   ],
   "note": "Proved for every data set with at least two instances per class (C101_lda). REFUTED when a class has exactly one instance (C101_single_instance_refuted): its covariance divides 0 by 0, the pooled covariance becomes NaN in every entry and, if the inversion of NaNs gives NaNs, every query is answered with the most frequent label."
  },
  {
   "property": "C102",
   "status": "proved",
   "theorems": [
    "C102_qda"
   ],
   "note": "Hypotheses: at least two instances per class, invertible class covariances with positive determinant."
  },
  {
   "property": "C103",
   "status": "proved",
   "theorems": [
    "C103_discrete_bayes",
    "C103_smoothing"
   ],
   "note": ""
  },
  {
   "property": "C104",
   "status": "partial",
   "theorems": [
    "C104_continuous_bayes",
    "C104_posterior_refuted"
   ],
   "note": "Proved: the score is log relative frequency minus half the sum of squared standardised deviations, and the prediction maximises it (C104_continuous_bayes). REFUTED that this is the Gaussian posterior (C104_posterior_refuted): the factor 1/sigma of the density is missing, wide classes win too often."
  },
  {
   "property": "C105",
   "status": "proved",
   "theorems": [
    "C105_mahalanobis",
    "C105_metric",
    "C105_mismatch"
   ],
   "note": ""
  },
  {
   "property": "C106",
   "status": "partial",
   "theorems": [
    "C106_destroy_refuted",
    "C106_composite_refuted",
    "C106_destroy_partial",
    "C106_removed_leak_refuted",
    "C106_remove_all_refuted"
   ],
   "note": "REFUTED in the letter of the standard: Attribute and Instance have no virtual destructor, so deleting an instance with attributes is undefined (C106_destroy_refuted, C106_composite_refuted). C106_destroy_partial: with the usual implementation exactly the instance and its attributes are released. C106_removed_leak_refuted: attributes removed with removeAttribute/removeAllAttributes are never released. Missing: memory reuse by the allocator (cells are never reused in the model)."
  },
  {
   "property": "C107",
   "status": "partial",
   "theorems": [
    "C107_projection",
    "C107_rescaling_refuted",
    "C107_destroy_refuted",
    "C107_data_set"
   ],
   "note": "Reading the projection is proved. REFUTED independence: rescaling the subset rescales the original (C107_rescaling_refuted); after destroying the original, reading the subset is undefined and destroying it is a double free (C107_destroy_refuted)."
  },
  {
   "property": "C108",
   "status": "partial",
   "theorems": [
    "C108_fresh_partial",
    "C108_unshared_partial",
    "C108_twice_refuted"
   ],
   "note": "Proved for instances that share no attribute object. REFUTED otherwise: an instance stored twice (bootstrap sample) is rescaled twice (C108_twice_refuted)."
  },
  {
   "property": "C109",
   "status": "partial",
   "theorems": [
    "C109_nodes",
    "C109_conditions_refuted",
    "C109_retrain_refuted",
    "C109_untrained_refuted",
    "C109_copy_refuted"
   ],
   "note": "C109_nodes: trained once, exactly the tree and its nodes are released. REFUTED: condition attributes stay (C109_conditions_refuted), retraining leaks the first tree (C109_retrain_refuted), `DecisionTree t;` destroyed untrained deletes an indeterminate pointer (C109_untrained_refuted), a copied tree is a double free (C109_copy_refuted)."
  },
  {
   "property": "C110",
   "status": "partial",
   "theorems": [
    "C110_destroy_refuted",
    "C110_usual_partial",
    "C110_node_refuted"
   ],
   "note": "REFUTED in the letter of the standard (C110_destroy_refuted). C110_usual_partial: with the usual implementation tree and nodes are released exactly once. C110_node_refuted: deleting a SoftDecisionNode with children through its own class is a double free, both destructors delete the children."
  },
  {
   "property": "C111",
   "status": "proved",
   "theorems": [
    "C111_destroy",
    "C111_copy_refuted",
    "C111_shared_refuted"
   ],
   "note": "As stated (condition attributes of the trees leak, counted exactly). REFUTED extra: copying the model (C111_copy_refuted) or constructing two models from the same trees (C111_shared_refuted) leads to a double free."
  },
  {
   "property": "C112",
   "status": "partial",
   "theorems": [
    "C112_fmeasure_refuted",
    "C112_fmeasure_partial",
    "C112_tests",
    "C112_paired5x2t_refuted"
   ],
   "note": "C112_tests: the paired t, combined 5x2 t and F tests. REFUTED: fMeasure uses delete on new[] (undefined, C112_fmeasure_refuted); where that releases the array, weightedFMeasure still leaks one array per call (C112_fmeasure_partial); the 5x2 t test leaks its array exactly when it throws for variance 0 (C112_paired5x2t_refuted)."
  },
  {
   "property": "C113",
   "status": "proved",
   "theorems": [
    "C113_frequencies"
   ],
   "note": ""
  },
  {
   "property": "C114",
   "status": "proved",
   "theorems": [
    "C114_solver",
    "C114_no_infinite_run",
    "C114_train"
   ],
   "note": "In exact arithmetic (the model's doubles do not round)."
  },
  {
   "property": "C115",
   "status": "proved",
   "theorems": [
    "C115_greedy",
    "C115_stump",
    "C115_forest",
    "C115_fits_training_data_refuted"
   ],
   "note": "In exact arithmetic. The last theorem is a negative result about a neighbouring expectation (an unpruned tree need not classify consistent training data)."
  },
  {
   "property": "C116",
   "status": "proved",
   "theorems": [
    "C116_settings",
    "C116_wrong_class",
    "C116_derived",
    "C116_not_read",
    "C116_null",
    "C116_seed",
    "C116_seeds"
   ],
   "note": "The support vector machine reads a null parameter only when there are two classes to separate."
  },
  {
   "property": "C117",
   "status": "partial",
   "theorems": [
    "C117_rounds",
    "C117_seed",
    "C117_separately",
    "C117_linear",
    "C117_mlp",
    "C117_auto",
    "C117_null_parameter",
    "C117_feature_selected",
    "C117_lda_partial",
    "C117_qda_partial",
    "C117_bagging_partial",
    "C117_forest_partial",
    "C117_lda_refuted",
    "C117_qda_refuted",
    "C117_bayes_refuted",
    "C117_bagging_refuted",
    "C117_forest_refuted",
    "C117_svm_refuted",
    "C117_deep_refuted"
   ],
   "note": "Rounds are independent for ten of the classifiers; for LDA, QDA, naive Bayes, bagging, random forests, SVM and deep networks the claim is false and the theorems say what happens instead."
  },
  {
   "property": "C118",
   "status": "partial",
   "theorems": [
    "C118_tree",
    "C118_stump",
    "C118_dummy_and_random",
    "C118_accuracy",
    "C118_pruned_refuted"
   ],
   "note": "False for pruned decision trees; forests draw positions and are not covered."
  },
  {
   "property": "C119",
   "status": "proved",
   "theorems": [
    "C119_tree",
    "C119_pruned_tree",
    "C119_forest",
    "C119_decreasing_refuted"
   ],
   "note": "Arithmetic is exact: rounding of the converted numbers is not modelled."
  },
  {
   "property": "C120",
   "status": "partial",
   "theorems": [
    "C120_knn_partial",
    "C120_knn_all",
    "C120_knn_refuted",
    "C120_kmeans",
    "C120_lda",
    "C120_qda",
    "C120_bayes_discrete",
    "C120_bayes_continuous"
   ],
   "note": "False for k-nearest neighbours if different labels tie for the last place. Arithmetic is exact: rounding may depend on the order of a sum."
  },
  {
   "property": "C121",
   "status": "proved",
   "theorems": [
    "C121_knn",
    "C121_kmeans",
    "C121_one_unit_refuted",
    "C121_lda",
    "C121_qda",
    "C121_bayes",
    "C121_mahalanobis"
   ],
   "note": "Arithmetic is exact: rounding of the converted numbers is not modelled. The logarithm of the quadratic discriminant is assumed to turn products into sums."
  },
  {
   "property": "C122",
   "status": "partial",
   "theorems": [
    "C122_info",
    "C122_info_faithful",
    "C122_empty_refuted",
    "C122_labels_refuted",
    "C122_text_refuted"
   ],
   "note": "REFUTED for empty data sets, for labels that contain ';' and for to_string; proved for info on data sets with instances."
  },
  {
   "property": "C123",
   "status": "partial",
   "theorems": [
    "C123_neighbour",
    "C123_distance_refuted"
   ],
   "note": "REFUTED: the distance is converted to one character. Proved: which character, and where the conversion is undefined."
  },
  {
   "property": "C124",
   "status": "partial",
   "theorems": [
    "C124_fixed_texts",
    "C124_reason_refuted"
   ],
   "note": "REFUTED for StatisticalTestNotApplicable: what() returns a dangling pointer."
  },
  {
   "property": "C125",
   "status": "proved",
   "theorems": [
    "C125_knn_dummy",
    "C125_knn_recalls",
    "C125_kmeans_knn",
    "C125_tie_refuted",
    "C125_lda_kmeans",
    "C125_qda_lda",
    "C125_bayes_lda",
    "C125_forest_bagging",
    "C125_ensemble_one",
    "C125_one_class"
   ],
   "note": "Proved under the conditions in the statement; without the condition on ties k-means and the nearest neighbour differ (C125_tie_refuted)."
  },
  {
   "property": "C126",
   "status": "partial",
   "theorems": [
    "C126_train_partial",
    "C126_tanh_refuted"
   ],
   "note": "REFUTED for tanh with more than one hidden unit; proved for sigmoid and relu."
  },
  {
   "property": "C127",
   "status": "proved",
   "theorems": [
    "C127_fits",
    "C127_forest",
    "C127_gini"
   ],
   "note": "Composite instances are not covered: their answer is restricted to their own labels."
  },
  {
   "property": "C128",
   "status": "proved",
   "theorems": [
    "C128_answers",
    "C128_scores",
    "C128_experiments",
    "C128_figures",
    "C128_orderless",
    "C128_order_refuted",
    "C128_empty_refuted"
   ],
   "note": "Contracts: entropy, getMaxItem, standard deviation, random(), the Sampling library and the distance metric do not look at names (label_blind, sampling_blind, param_blind); C128_env_case, C128_sampling_case and C128_metric_case meet them."
  },
  {
   "property": "C129",
   "status": "proved",
   "theorems": [
    "C129_roundings",
    "C129_same_code",
    "C129_one_rounding",
    "C129_exists",
    "C129_bounds",
    "C129_order",
    "C129_pruning",
    "C129_mean",
    "C129_mean_error",
    "C129_f_measure",
    "C129_better_refuted",
    "C129_repeated_refuted",
    "C129_error_rate_refuted"
   ],
   "note": "Refuted: isBetter between experiments depends on the order of the rounds (C129_better_refuted) and on repeating them (C129_repeated_refuted); the error rate is not the rounded share of wrong answers (C129_error_rate_refuted). Platform assumptions are in the header of RoundModel.v."
  },
  {
   "property": "C130",
   "status": "proved",
   "theorems": [
    "C130_symmetric",
    "C130_nonnegative",
    "C130_monotone",
    "C130_error",
    "C130_whole",
    "C130_nearest",
    "C130_same_answer",
    "C130_same_answer_whole",
    "C130_separation_refuted",
    "C130_order_refuted",
    "C130_feature_order_refuted"
   ],
   "note": "Refuted: different finite instances can be at distance 0 or infinity; without the gap the 1-nearest neighbour can be a farther instance (C130_order_refuted)."
  },
  {
   "property": "C131",
   "status": "partial",
   "theorems": [
    "C131_same_code",
    "C131_same_paired",
    "C131_same_5x2",
    "C131_same_combined",
    "C131_swap",
    "C131_decision",
    "C131_kept",
    "C131_equal",
    "C131_constant",
    "C131_constant_refuted",
    "C131_sign_exact",
    "C131_root",
    "C131_f_decision"
   ],
   "note": "Missing: refusal of a constant difference by the paired t test, which is false (C131_constant_refuted). Contract on the t distribution for C131_decision: fair (C131_fair_case meets it)."
  },
  {
   "property": "C132",
   "status": "partial",
   "theorems": [
    "C132_same_code",
    "C132_terminates",
    "C132_midpoint",
    "C132_doubles",
    "C132_whole",
    "C132_unsteady_diverges",
    "C132_indexed_refuted"
   ],
   "note": "Missing: termination with indexed columns without the hypothesis steady, which is false (C132_indexed_refuted), and with neighbouring doubles in a column, which is false (C60_rounding_refuted). Pruning is not repeated here (C129)."
  },
  {
   "property": "C133",
   "status": "partial",
   "theorems": [
    "C133_nothing_refuted",
    "C133_network_refuted",
    "C133_labels_refuted",
    "C133_half_label_refuted",
    "C133_short_row",
    "C133_rows",
    "C133_open_row_refuted",
    "C133_trees_refuted"
   ],
   "note": "False for every loader at an end of file, and for labels and rows cut off: the error state of the stream is never looked at. True for k-NN rows that lack cells, in the sense that no model is returned; the code then indexes out of bounds."
  },
  {
   "property": "C134",
   "status": "partial",
   "theorems": [
    "C134_distance",
    "C134_knn",
    "C134_kmeans",
    "C134_bayes_discrete",
    "C134_bayes_continuous",
    "C134_lda",
    "C134_qda",
    "C134_tree_refuted"
   ],
   "note": "False for decision trees when two features split equally well. Exact arithmetic; networks (random initial weights per column) are not covered; for support vector machines see C136_feature_order."
  },
  {
   "property": "C135",
   "status": "partial",
   "theorems": [
    "C135_train",
    "C135_new",
    "C135_svm",
    "C135_test",
    "C135_experiment",
    "C135_prune_refuted",
    "C135_auto_refuted"
   ],
   "note": "The statement is false for the autoencoder, and for the pruned tree and the soft tree when the validation share takes the only instance of a class (the latter excluded by `suits`). Experiments: not for support vector machines and deep networks."
  },
  {
   "property": "C136",
   "status": "proved",
   "theorems": [
    "C136_kernel_view",
    "C136_products",
    "C136_distances",
    "C136_feature_order",
    "C136_shift",
    "C136_constant_feature",
    "C136_shift_polynomial_refuted"
   ],
   "note": "Exact arithmetic; a newly created model. C136_shift_polynomial_refuted shows the last part of the statement."
  },
  {
   "property": "C137",
   "status": "partial",
   "theorems": [
    "C137_solution",
    "C137_separable_partial",
    "C137_planes_partial",
    "C137_refuted"
   ],
   "note": "False for the trained machine when the run shrinks (C137_refuted); proved for the solver's final state, and for the trained machine when no two-class run reaches its first shrinking. Exact arithmetic."
  },
  {
   "property": "C138",
   "status": "partial",
   "theorems": [
    "C138_tree",
    "C138_bagging",
    "C138_knn",
    "C138_kmeans",
    "C138_bayes_texts",
    "C138_bayes_numbers",
    "C138_deviation",
    "C138_nan_refuted",
    "C138_knn_infinite_refuted",
    "C138_bayes_texts_refuted"
   ],
   "note": "False for naive Bayes (C138_bayes_texts_refuted, C138_bayes_numbers), NaN features of trees and infinite features of k nearest neighbours; proved for trees, stumps, bagging, k nearest neighbours and k-means. Random forests, LDA and QDA are left out. C138_deviation uses the Reals axioms."
  },
  {
   "property": "C139",
   "status": "partial",
   "theorems": [
    "C139_sign",
    "C139_sign_monotone",
    "C139_paired_t",
    "C139_combined",
    "C139_paired_5x2_t",
    "C139_first_fold_refuted",
    "C139_repetitions_refuted"
   ],
   "note": "Proved for the sign test and the paired t test. False for the 5x2 tests under arbitrary reorderings; proved for those that keep repetitions together (and, for the 5x2 t test, the first result first). Exact arithmetic; the t and F tests use the Reals axioms."
  },
  {
   "property": "C140",
   "status": "partial",
   "theorems": [
    "C140_order",
    "C140_two_parts",
    "C140_two_summaries",
    "C140_repeated",
    "C140_recall",
    "C140_two_summaries_refuted"
   ],
   "note": "False that the two summaries of an experiment agree when test sets differ in size (C140_two_summaries_refuted); proved for equal sizes. The rest is proved, in exact arithmetic, for prediction functions without state."
  },
  {
   "property": "C141",
   "status": "partial",
   "theorems": [
    "C141_tree",
    "C141_stump",
    "C141_dummy_and_random",
    "C141_knn",
    "C141_one_neighbour",
    "C141_knn_refuted",
    "C141_kmeans",
    "C141_bayes_refuted"
   ],
   "note": "False for the nearest neighbour classifier with the same number of neighbours and for naive Bayes on discrete features (counterexamples proved). Proved, in exact arithmetic, for unpruned trees, stumps, dummy, random, k-means, and neighbours multiplied like the data. Pruned trees, ensembles, discriminants, networks and support vector machines are not covered."
  },
  {
   "property": "C142",
   "status": "proved",
   "theorems": [
    "C142_rounds",
    "C142_execute",
    "C142_single",
    "C142_feature_selection",
    "C142_all_features",
    "C142_knn_order",
    "C142_dummy"
   ],
   "note": "The Sampling library enters as an explicit contract (positional). A feature subset drops the candidate labels of composite instances (Instance::getSubSetOfFeatures), so C142_all_features is stated for plain instances."
  },
  {
   "property": "C143",
   "status": "partial",
   "theorems": [
    "C143_forget",
    "C143_far",
    "C143_tie_refuted",
    "C143_knn_support",
    "C143_dummy_support",
    "C143_vote_support",
    "C143_tree_refuted",
    "C143_kmeans_refuted"
   ],
   "note": "Proved for k-NN, the dummy classifier and votes. Refuted for decision trees (the new instance moves the split) and for k-means (it pulls the centre away). Adding an instance exactly as far away as a neighbour may change the answer (C143_tie_refuted), so C143_far asks for strictly farther."
  },
  {
   "property": "C144",
   "status": "proved",
   "theorems": [
    "C144_path",
    "C144_unused",
    "C144_bagging",
    "C144_pruned_refuted",
    "C144_forest_refuted"
   ],
   "note": "C144_pruned_refuted: the pruned tree may be a leaf although the feature decided how the tree was grown. C144_forest_refuted: a random forest draws other features when there is one fewer. Contracts: entropy of a counter is a finite number, the midpoint is exact, RandomArray is a permutation."
  },
  {
   "property": "C145",
   "status": "proved",
   "theorems": [
    "C145_tree",
    "C145_bagging",
    "C145_pruned",
    "C145_twice",
    "C145_forest_refuted",
    "C145_knn_refuted",
    "C145_kmeans_refuted",
    "C145_bayes_texts",
    "C145_bayes_refuted",
    "C145_discriminants"
   ],
   "note": "For pruned trees it is not proved that training without the feature gives the same answers. Contracts: entropy of a counter is a finite number, the midpoint is exact, RandomArray is a permutation; for naive Bayes a logarithm that is finite on positive numbers."
  },
  {
   "property": "C146",
   "status": "proved",
   "theorems": [
    "C146_few",
    "C146_pooled",
    "C146_takes_over",
    "C146_one_answer",
    "C146_repeated"
   ],
   "note": "Exact arithmetic: with rounding the determinant computed for a degenerate class may be a tiny number instead of zero (math library, not modelled). Classes of one instance are excluded (their covariance is not a number, C101, C102)."
  },
  {
   "property": "C147",
   "status": "proved",
   "theorems": [
    "C147_scores",
    "C147_metrics",
    "C147_bayes",
    "C147_networks",
    "C147_knn",
    "C147_knn_one",
    "C147_knn_refuted",
    "C147_dummy",
    "C147_tree",
    "C147_ensemble",
    "C147_ensemble_refuted",
    "C147_ignored",
    "C147_set_knn",
    "C147_set_networks",
    "C147_set_scores"
   ],
   "note": "Contract: getMaxItem(list) returns a listed item with the largest count. Random answers (RandomModel) are not compared."
  },
  {
   "property": "C148",
   "status": "proved",
   "theorems": [
    "C148_list",
    "C148_sequence",
    "C148_svm",
    "C148_tree",
    "C148_dummy_random",
    "C148_kmeans",
    "C148_knn",
    "C148_knn_refuted",
    "C148_ensemble_refuted"
   ],
   "note": "What a call that throws leaves behind is not covered. Exact arithmetic for trees and k-means; contracts on entropy, midpoint and random arrays as in C118. For the discriminants and naive Bayes see C120."
  },
  {
   "property": "C149",
   "status": "proved",
   "theorems": [
    "C149_distance",
    "C149_knn",
    "C149_query",
    "C149_not_seen",
    "C149_mixed_refuted",
    "C149_kmeans_refuted"
   ],
   "note": "Exact arithmetic (the numbers are counts). The value ',' is excluded (C42). Access control is not modelled: DiscreteToContinuous inherits privately, so convert() can only be reached from a subclass or friend."
  },
  {
   "property": "C150",
   "status": "proved",
   "theorems": [
    "C150_sign",
    "C150_sign_monotone",
    "C150_t",
    "C150_t_monotone_refuted"
   ],
   "note": "Exact arithmetic. The sign test overflows from 13 untied folds on (C51), so its statements stop at 12. tDistribution is Math's: its contract (upper_tail, falling) is a hypothesis. The F test never decides (C54)."
  },
  {
   "property": "C151",
   "status": "partial",
   "theorems": [
    "C151_works",
    "C151_new",
    "C151_refuses",
    "C151_soft",
    "C151_mixed",
    "C151_distance",
    "C151_mixed_bayes_refuted",
    "C151_bayes_again_refuted"
   ],
   "note": "Partial because two parts fail: naive Bayes on mixed columns, and naive Bayes that saw words before numbers, are shown to be undefined behaviour. Soft trees with no epochs and an empty validation part are left out."
  },
  {
   "property": "C152",
   "status": "proved",
   "theorems": [
    "C152_label",
    "C152_probability",
    "C152_distances",
    "C152_test",
    "C152_bound",
    "C152_pairs",
    "C152_one_nearest",
    "C152_perfect",
    "C152_three_refuted"
   ],
   "note": "A distance of one's own and the random source are asked not to look at the label (blind_parts); the library's distances are shown not to. The accuracy statements leave out the auto encoder, whose test compares features."
  },
  {
   "property": "C153",
   "status": "partial",
   "theorems": [
    "C153_rescales",
    "C153_units",
    "C153_idempotent",
    "C153_tree",
    "C153_forest",
    "C153_lda",
    "C153_knn_refuted",
    "C153_separately_refuted"
   ],
   "note": "C153_units speaks about the real numbers normalize computes. The others ask that the normalised numbers can be stored as exact numbers (the standard deviation is a square root; doubles would round it). Neighbours and separate normalisation are refuted."
  },
  {
   "property": "C154",
   "status": "partial",
   "theorems": [
    "C154_lda",
    "C154_kmeans",
    "C154_linear",
    "C154_svm",
    "C154_svm_trained",
    "C154_stump",
    "C154_stump_convex",
    "C154_tree",
    "C154_crossing",
    "C154_xor",
    "C154_knn_refuted",
    "C154_tree_refuted",
    "C154_qda_refuted"
   ],
   "note": "The linear discriminant, k-means and (for composite queries) the perceptron ask that no score of the two ends is below -DBL_MAX, where the search starts. Exact numbers. Refuted for neighbours, trees and quadratic discriminants."
  },
  {
   "property": "C155",
   "status": "partial",
   "theorems": [
    "C155_tree",
    "C155_stump",
    "C155_ensemble",
    "C155_clamp",
    "C155_knn_refuted",
    "C155_qda_refuted"
   ],
   "note": "Proved for all four kinds of tree model; refuted for nearest neighbours and quadratic discriminants. The midpoint is exact."
  },
  {
   "property": "C156",
   "status": "partial",
   "theorems": [
    "C156_tree",
    "C156_stump",
    "C156_accuracy",
    "C156_ensemble",
    "C156_increasing",
    "C156_query_refuted",
    "C156_bagging_refuted",
    "C156_pruned_refuted"
   ],
   "note": "Proved for what was used to grow the tree; refuted for new queries, for bagging on the whole training data and for pruned trees. Exact numbers and midpoints."
  },
  {
   "property": "C157",
   "status": "partial",
   "theorems": [
    "C157_rounds",
    "C157_balanced",
    "C157_ahead",
    "C157_one_ahead_refuted"
   ],
   "note": "Proved for equal classes and for a lead of two; refuted for a lead of one. Composite instances are not covered (plain instances only)."
  },
  {
   "property": "C158",
   "status": "partial",
   "theorems": [
    "C158_plain",
    "C158_composite_partial",
    "C158_reported",
    "C158_composite_refuted",
    "C158_random_refuted",
    "C158_soft_refuted",
    "C158_nothing"
   ],
   "note": "Proved for plain queries and, among the possible labels, for composite ones. Refuted among all labels for composite queries (the reported probabilities ignore the restriction), for the random classifier with a possible label it has not seen, and soft trees report nothing or fail. Network outputs must be ordinary numbers above -DBL_MAX."
  },
  {
   "property": "C159",
   "status": "partial",
   "theorems": [
    "C159_same_code",
    "C159_root",
    "C159_between",
    "C159_deviation",
    "C159_order",
    "C159_constant",
    "C159_error",
    "C159_constant_refuted",
    "C159_order_of_data_refuted"
   ],
   "note": "Proved as stated. Refuted for bounds and constants that are not whole: three times the double next to 0.1 have an average above all of them, a deviation above 0, and normalise to three times a number near -0.8165 instead of NaN. The average depends on the order of the instances. No error bound for the deviation and the normalised values; list.size() - 1 with one instance and discrete indexed features are covered without rounding only."
  },
  {
   "property": "C160",
   "status": "partial",
   "theorems": [
    "C160_tree",
    "C160_forest",
    "C160_network",
    "C160_trained",
    "C160_enough_partial",
    "C160_rounded_refuted",
    "C160_indexed_refuted",
    "C160_comma_refuted",
    "C160_index"
   ],
   "note": "The layouts are proved for all trees whose texts hold no newline. That the file decides the answers is proved for words other than the comma and numbers that are printed differently; refuted for numbers equal in the printed digits, for indexed features (the index is not written: two stumps trained on different data have the same file and different answers) and for the word ',' that is written as 'comma'. That reading a written tree fails is C65."
  },
  {
   "property": "C161",
   "status": "proved",
   "theorems": [
    "C161_subset",
    "C161_order",
    "C161_parts",
    "C161_statistics",
    "C161_normalise",
    "C161_normalise_refuted",
    "C161_distance",
    "C161_distance_refuted",
    "C161_covariance",
    "C161_possible",
    "C161_possible_refuted"
   ],
   "note": "Refuted: choosing a feature twice can increase a distance; normalising the full list can fail where normalising the reduced one does not; Normalising is for features chosen at most once, because a feature chosen twice is one shared object; the possible labels of composite instances are lost. Averages and covariances are exact, not rounded; covariance is for instances whose features are all finite numbers."
  },
  {
   "property": "C162",
   "status": "proved",
   "theorems": [
    "C162_texts",
    "C162_numbers",
    "C162_kmeans",
    "C162_unanimous_texts",
    "C162_unanimous_numbers",
    "C162_unanimous_kmeans",
    "C162_knn_refuted",
    "C162_tree_refuted",
    "C162_lda_refuted"
   ],
   "note": "Exact arithmetic. Naive Bayes on numbers takes the deviations that std_vec returns, none of them zero; that those of a chosen feature are those of the full list is C161_statistics. Unanimity is refuted for nearest neighbours, decision trees and the linear discriminant."
  },
  {
   "property": "C163",
   "status": "proved",
   "theorems": [
    "C163_order",
    "C163_agree",
    "C163_shares",
    "C163_times",
    "C163_retrained",
    "C163_larger",
    "C163_lead",
    "C163_lead_refuted",
    "C163_third_refuted",
    "C163_dummy"
   ],
   "note": "Speaks of queries that every tree answers. That a lead of exactly as many votes can be lost, and that a third label can win, is shown by examples. C163_dummy speaks of queries without a set of possible labels."
  },
  {
   "property": "C164",
   "status": "proved",
   "theorems": [
    "C164_neighbours",
    "C164_fewer",
    "C164_unanimous",
    "C164_counts",
    "C164_knn_refuted",
    "C164_kmeans_refuted",
    "C164_tree_refuted"
   ],
   "note": "Asks that the distances are numbers (no NaN). Agreement without unanimity is refuted for nearest neighbours, k-means and decision trees; for the most frequent class it is C163_dummy."
  },
  {
   "property": "C165",
   "status": "proved",
   "theorems": [
    "C165_runs",
    "C165_stratified_runs",
    "C165_mean",
    "C165_deviation",
    "C165_paired_t",
    "C165_decision",
    "C165_sign"
   ],
   "note": "The t distribution of the Math library is a parameter; C165_decision asks only that its two tails add to one. Arithmetic with square roots is over the reals."
  },
  {
   "property": "C166",
   "status": "partial",
   "theorems": [
    "C166_by_class",
    "C166_true_name",
    "C166_cast",
    "C166_others_nameless",
    "C166_others_fail",
    "C166_again",
    "C166_name_stays",
    "C166_false_name_refuted"
   ],
   "note": "Proved for the lists as the division makes them. REFUTED once an instance has been added by hand (C166_false_name_refuted)."
  },
  {
   "property": "C167",
   "status": "proved",
   "theorems": [
    "C167_read_write",
    "C167_outside",
    "C167_signs",
    "C167_solve_single"
   ],
   "note": ""
  },
  {
   "property": "C168",
   "status": "partial",
   "theorems": [
    "C168_best_score",
    "C168_kmeans",
    "C168_added",
    "C168_several",
    "C168_dummy",
    "C168_shifted",
    "C168_bayes_texts",
    "C168_bayes_numbers",
    "C168_qda",
    "C168_svm_pairs",
    "C168_svm_champion",
    "C168_svm_without",
    "C168_svm_refuted",
    "C168_knn_refuted",
    "C168_tree_refuted",
    "C168_lda_refuted"
   ],
   "note": "Proved for k-means, the dummy classifier, naive Bayes and QDA. Of support vector machines: the two-class problems of the other pairs stay, and a class that beats every other class stays the answer; an answer that does not win every pair may change. Refuted for support vector machines in general, nearest neighbours and decision trees. Naive Bayes: for finite scores above the smallest double and a logarithm that turns products into sums exactly. QDA likewise, with two or more instances per class and invertible covariances. Refuted for LDA (whose covariance is pooled over all classes), with a function that turns products into sums in place of the logarithm."
  }
 ]
}
