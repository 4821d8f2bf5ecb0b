{
 "claims": [
  {
   "property": "C01",
   "status": "proved",
   "theorems": [
    "bloom_no_false_negatives"
   ],
   "note": "All bit sizes below 2^31, at least one hash function (the constructor asserts it), all histories including set with one byte per bit."
  },
  {
   "property": "C02",
   "status": "proved",
   "theorems": [
    "bloom_lookup_exact",
    "bloom_clear_forgets"
   ],
   "note": "Exact answer of every lookup in every history."
  },
  {
   "property": "C03",
   "status": "proved",
   "theorems": [
    "bloom_order_irrelevant",
    "bloom_monotone"
   ],
   "note": ""
  },
  {
   "property": "C04",
   "status": "proved",
   "theorems": [
    "bloom_memory_safe",
    "bloom_add_aborts_iff",
    "bloom_lookup_exact"
   ],
   "note": "Arbitrary hash functions: never undefined behaviour; add aborts exactly on an out-of-range hash. bloom_lookup_exact shows no abort when hashes are in range."
  },
  {
   "property": "C05",
   "status": "proved",
   "theorems": [
    "bloom_set_packed_refuted",
    "bloom_set_short_array_ub",
    "bloom_lookup_exact"
   ],
   "note": "The property is false and refuted: BYTE_SIZE is sizeof(unsigned char)=1, so set reads bit_size bytes. bloom_lookup_exact gives the exact meaning of set with one byte per bit."
  },
  {
   "property": "C06",
   "status": "proved",
   "theorems": [
    "cuckoo_no_false_negatives",
    "cuckoo_refines"
   ],
   "note": "All parameters with bucket_count*bucket_size*entry_size < 2^31 and entry_size 1..31, draws anywhere in [0,1]."
  },
  {
   "property": "C07",
   "status": "proved",
   "theorems": [
    "cuckoo_lookup_exact",
    "cuckoo_remove_effect",
    "cuckoo_refines"
   ],
   "note": ""
  },
  {
   "property": "C08",
   "status": "proved",
   "theorems": [
    "cuckoo_add_effect",
    "cuckoo_failed_add_keeps_refuted"
   ],
   "note": "Exact effect on any content; the negative half is a witness with draws strictly between 0 and 1."
  },
  {
   "property": "C09",
   "status": "proved",
   "theorems": [
    "cuckoo_entry_round_trip"
   ],
   "note": ""
  },
  {
   "property": "C10",
   "status": "proved",
   "theorems": [
    "cuckoo_empty_value_refuted",
    "cuckoo_empty_value_adds_fail"
   ],
   "note": "The property is false and refuted: the array is zero-initialised whatever empty_value is. The second theorem shows it fails for every non-zero empty_value."
  },
  {
   "property": "C100",
   "status": "proved",
   "theorems": [
    "coarse_barycenter_refuted"
   ],
   "note": "The property is false: witnesses for a pool without trees, for a node with two parents and for a read out of bounds."
  },
  {
   "property": "C101",
   "status": "proved",
   "theorems": [
    "coarse_fading_refuted"
   ],
   "note": "The property is false: the scores do not follow the points of the leaf, a leaf with one new point is removed instead of one with two points seen 197 points ago."
  },
  {
   "property": "C102",
   "status": "proved",
   "theorems": [
    "forest_same_trees",
    "forest_same_predictions",
    "forest_same_enough"
   ],
   "note": "Binary64. tree_count * (2 * points - 1) nodes are enough."
  },
  {
   "property": "C103",
   "status": "proved",
   "theorems": [
    "coarse_same_trees",
    "coarse_same_report",
    "coarse_same_predictions",
    "coarse_same_enough"
   ],
   "note": "Binary64, EXTEND_ORIGINAL, PHOENIX_MANAGEMENT, TRIM_NONE, without UNBOUND_OPTIMIZE; tree_to_use negative (all trees)."
  },
  {
   "property": "C104",
   "status": "proved",
   "theorems": [
    "coarse_train_total_exact",
    "coarse_train_outcome",
    "coarse_deep_refuted"
   ],
   "note": "The property is false: with a size limit above 101 a tree of height 102 overflows the stack. For limits up to 101 (and for the managements without limit) training always ends, and in exact arithmetic it always ends well; in binary64 rounding of the split probabilities can still be undefined behaviour (as in C86). All kinds of trimming, with and without UNBOUND_OPTIMIZE (then with a node for every tree, see C114)."
  },
  {
   "property": "C105",
   "status": "proved",
   "theorems": [
    "exp_reservoir_sets_law",
    "exp_reservoir_decay"
   ],
   "note": "Exact arithmetic, draws from the N equally likely values i/N with N divisible by 1, ..., sample_size."
  },
  {
   "property": "C106",
   "status": "proved",
   "theorems": [
    "coarse_predict_defined"
   ],
   "note": "binary64, any exp and log. Every history is one whose training calls returned (see C104 for when they do). Asking for more trees than there are reads out of bounds, see coarse_tree_to_use_refuted (C98)."
  },
  {
   "property": "C107",
   "status": "proved",
   "theorems": [
    "coarse_predict_again",
    "coarse_predict_effect"
   ],
   "note": "binary64. With UNBOUND_OPTIMIZE or the ghost extension a prediction changes nothing at all."
  },
  {
   "property": "C108",
   "status": "proved",
   "theorems": [
    "coarse_predict_unasked",
    "coarse_train_unasked",
    "coarse_trees_unasked"
   ],
   "note": "binary64, any exp and log, any draws (below 1 with random trimming)."
  },
  {
   "property": "C109",
   "status": "proved",
   "theorems": [
    "mondrian_predict_unasked",
    "mondrian_train_unasked",
    "mondrian_trees_unasked"
   ],
   "note": "binary64, any exp and log, draws in (0,1), finite features of moderate size as in C50."
  },
  {
   "property": "C11",
   "status": "proved",
   "theorems": [
    "cuckoo_refines",
    "cuckoo_bucket_count_refuted"
   ],
   "note": "cuckoo_refines: no abort or undefined behaviour with a power of two; the other theorem covers every other bucket count."
  },
  {
   "property": "C110",
   "status": "proved",
   "theorems": [
    "coarse_check_accepts",
    "coarse_debug_train",
    "coarse_debug_deep_refuted"
   ],
   "note": "binary64. Histories are those whose training calls returned (see C104). coarse_debug_deep_refuted: a tree of height 102 without size limit, learned by the normal build, makes the debug build read outside of the stack."
  },
  {
   "property": "C111",
   "status": "proved",
   "theorems": [
    "coarse_print_lists",
    "coarse_print_missing",
    "coarse_print_one_refuted"
   ],
   "note": "binary64. The line is modelled by its leading columns and the node that is printed; number formatting is not. coarse_print_one_refuted: two trees in one node."
  },
  {
   "property": "C112",
   "status": "proved",
   "theorems": [
    "coarse_print_train",
    "coarse_print_innocent",
    "coarse_scores_lines",
    "coarse_print_ghost_refuted",
    "coarse_scores_forest_refuted",
    "coarse_scores_empty_refuted"
   ],
   "note": "binary64, any exp and log; UNBOUND_OPTIMIZE not defined. The refuted theorems are the exceptions named in the statement."
  },
  {
   "property": "C113",
   "status": "proved",
   "theorems": [
    "coarse_scores_clean",
    "coarse_fade_leaves",
    "coarse_train_scores",
    "coarse_train_trims_lowest"
   ],
   "note": "binary64, any exp, log and draws. Histories are those whose training calls returned (see C104). coarse_scores_clean needs no bound on the height. The scores of a tree are added in the order of the walk (right to left)."
  },
  {
   "property": "C114",
   "status": "proved",
   "theorems": [
    "coarse_enough_nodes",
    "coarse_few_nodes"
   ],
   "note": "coarse_enough_nodes: exact arithmetic, both directions. coarse_few_nodes: binary64, the first training is undefined whatever its point (so no training ever returns), also after predictions. Size limits up to 101 for the cobble managements, as in C104."
  },
  {
   "property": "C115",
   "status": "proved",
   "theorems": [
    "coarse_center_pool"
   ],
   "note": "binary64, any exp and log, draws strictly between 0 and 1. Histories are those whose training calls returned; UNBOUND_OPTIMIZE not defined."
  },
  {
   "property": "C116",
   "status": "proved",
   "theorems": [
    "coarse_center_counts"
   ],
   "note": "binary64, any exp and log, draws strictly between 0 and 1. About training calls that return."
  },
  {
   "property": "C117",
   "status": "proved",
   "theorems": [
    "coarse_center_whole"
   ],
   "note": "binary64, any exp and log, draws strictly between 0 and 1. About training calls that return. The example next to it shows a split of a leaf with 99 points that keeps them all on one side."
  },
  {
   "property": "C118",
   "status": "proved",
   "theorems": [
    "coarse_barycenter_mean"
   ],
   "note": "exact reals; rounding in binary64 is not covered. A statement about every state that holds the tree, also unreachable ones. If the leaves hold no points the division is by zero, which binary64 makes NaN; the reals of Coq give 0."
  },
  {
   "property": "C119",
   "status": "proved",
   "theorems": [
    "coarse_count_sides",
    "coarse_count_sides_refuted"
   ],
   "note": "coarse_count_sides: exact reals, counters not negative and fewer than 2^31 points. The refuted theorem (binary64, one point) is the exchanged side named in the statement."
  },
  {
   "property": "C12",
   "status": "proved",
   "theorems": [
    "cuckoo_add_with_room",
    "cuckoo_clear_empties"
   ],
   "note": ""
  },
  {
   "property": "C120",
   "status": "proved",
   "theorems": [
    "coarse_adjust_counters_refuted",
    "coarse_split_points_refuted"
   ],
   "note": "binary64 witnesses in reachable states; the second one trains 101 points with the trigger SPLIT_TRIGGER_POSITIVE, draws strictly between 0 and 1. The log of the witness is not the real one (x - 1), exp is not used."
  },
  {
   "property": "C121",
   "status": "proved",
   "theorems": [
    "coarse_barycenter_place"
   ],
   "note": "binary64, any log, draws strictly between 0 and 1. The order of the values is stated for finite values whose difference does not overflow, the order of the times for finite times (the time of the parent not after the time of the leaf). The place and the time use the same draw, as in the code. About splits that return; the leaf has no negative counters. Free nodes are blank, which holds in every state of C115."
  },
  {
   "property": "C122",
   "status": "proved",
   "theorems": [
    "coarse_center_predict_defined",
    "coarse_center_predict_again",
    "coarse_center_predict_effect",
    "coarse_predict_beyond_refuted"
   ],
   "note": "binary64, any exp and log, draws strictly between 0 and 1; states reached by any mixture of trainings that return and predictions, without the split trigger (for the trigger see C120). That trainings with this extension are defined is not claimed. The refuted theorem is the last sentence of the statement."
  },
  {
   "property": "C123",
   "status": "proved",
   "theorems": [
    "coarse_barycenter_boxes"
   ],
   "note": "binary64, any log, draws strictly between 0 and 1. Box and point finite, the sides of the box do not overflow; the leaf has no negative counters; free nodes are blank (holds in every state of C115). Bounds are compared as real numbers (the sign of a zero is not told). About splits that return."
  },
  {
   "property": "C124",
   "status": "proved",
   "theorems": [
    "coarse_stretch_exact",
    "coarse_stretch_refuted"
   ],
   "note": "coarse_stretch_exact is about exact real arithmetic (the loop over the dimensions is the one shared by all arithmetics). coarse_stretch_refuted gives binary64 runs of two trainings, for fe_parameter 1/2 and 1, where the only leaf counts both points and the second point is outside its box; it is the last sentence of the statement."
  },
  {
   "property": "C125",
   "status": "proved",
   "theorems": [
    "coarse_average_exact"
   ],
   "note": "exact real arithmetic, any exp, log and draws, no other hypothesis than that the calls returned. That no other function touches the sums is shown function by function for all arithmetics. Only for an object in static storage: the array of the sums is not initialised otherwise. How the average is used by a split is C121."
  },
  {
   "property": "C13",
   "status": "proved",
   "theorems": [
    "reservoir_index_range"
   ],
   "note": "IEEE binary64, all sizes below 2^31, any state. Only the second draw needs to be in [0,1)."
  },
  {
   "property": "C14",
   "status": "proved",
   "theorems": [
    "reservoir_random_one_refuted",
    "exp_reservoir_random_one_refuted"
   ],
   "note": "The property is false and refuted, for every sample size (plain reservoir) and by a witness (exponential one)."
  },
  {
   "property": "C15",
   "status": "proved",
   "theorems": [
    "reservoir_distinct_positions"
   ],
   "note": ""
  },
  {
   "property": "C16",
   "status": "proved",
   "theorems": [
    "reservoir_inclusion_uniform"
   ],
   "note": "Exact counting over all outcomes of the draws; a draw is one of N equally likely rationals i/N. Exact arithmetic instead of binary64 rounding."
  },
  {
   "property": "C17",
   "status": "proved",
   "theorems": [
    "reservoir_count_mod",
    "reservoir_wrap_forced",
    "reservoir_wrap_accepts"
   ],
   "note": "Histories of any length."
  },
  {
   "property": "C18",
   "status": "proved",
   "theorems": [
    "exp_reservoir_invariant",
    "exp_reservoir_step"
   ],
   "note": ""
  },
  {
   "property": "C19",
   "status": "proved",
   "theorems": [
    "chained_safe",
    "chained_fill_order"
   ],
   "note": "Heap model with pointers. funct::malloc is taken to succeed; fewer than 2^32 - sample_size adds."
  },
  {
   "property": "C20",
   "status": "proved",
   "theorems": [
    "chained_window_refuted",
    "chained_window_clean",
    "chained_window_live"
   ],
   "note": "False in general (refuted); proved when no replaced element had successors, and for every slot without available cells."
  },
  {
   "property": "C21",
   "status": "proved",
   "theorems": [
    "chained_discards_refuted",
    "chained_obsolete_keeps"
   ],
   "note": "The property is false; refuted, and the general behaviour proved."
  },
  {
   "property": "C22",
   "status": "proved",
   "theorems": [
    "chained_promotes_refuted",
    "chained_obsolete_effect",
    "chained_promoted_stamp_lost"
   ],
   "note": "The property is false; refuted, and the exact effect of obsolete on every chain proved."
  },
  {
   "property": "C23",
   "status": "proved",
   "theorems": [
    "chained_equal_probability_refuted",
    "chained_next_always_kept",
    "chained_first_slot_rare"
   ],
   "note": "The property is false; refuted for all random streams at once."
  },
  {
   "property": "C24",
   "status": "proved",
   "theorems": [
    "ltc_error_bound",
    "ltc_slack_zero_at_end"
   ],
   "note": "IEEE slopes, int values and times, streams of any length. Includes the samples after the last transmitted point."
  },
  {
   "property": "C25",
   "status": "proved",
   "theorems": [
    "ltc_transmits_only_if_needed",
    "ltc_linear_silent",
    "ltc_needless_transmission_refuted",
    "ltc_error_unbounded_refuted"
   ],
   "note": "The exact equivalence is false and refuted in both directions; true up to the truncation slack, and for linear signals."
  },
  {
   "property": "C26",
   "status": "proved",
   "theorems": [
    "ltc_error_unbounded_refuted",
    "ltc_gap_refuted",
    "ltc_time_unit_refuted"
   ],
   "note": "The property is false and refuted in all three parts; for int samples for every epsilon and arbitrarily large errors."
  },
  {
   "property": "C27",
   "status": "proved",
   "theorems": [
    "ltc_protocol"
   ],
   "note": "Any increasing non-negative timestamps, time_unit_difference 1."
  },
  {
   "property": "C28",
   "status": "proved",
   "theorems": [
    "mcnn_predict_labels",
    "mcnn_fresh_empty",
    "mcnn_first_point"
   ],
   "note": "Double features, up to 2^26 train calls, any function in place of sqrt. The arithmetic is IEEE binary64 with all its special values."
  },
  {
   "property": "C29",
   "status": "proved",
   "theorems": [
    "mcnn_predict_nearest",
    "mcnn_predict_nearest_mean",
    "mcnn_far_query_refuted"
   ],
   "note": "In binary64 with the centres as computed, and over the reals with the centres as means of the incorporated points. The last theorem is a witness of the empty answer."
  },
  {
   "property": "C30",
   "status": "proved",
   "theorems": [
    "mcnn_count_refuted",
    "mcnn_count_relation"
   ],
   "note": "The property is false and refuted (splits on a full table, cleaning). mcnn_count_relation gives what holds for each method."
  },
  {
   "property": "C31",
   "status": "proved",
   "theorems": [
    "mcnn_trains_safe",
    "mcnn_train_answer",
    "mcnn_predict_labels"
   ],
   "note": "Up to 2^26 train calls with double features."
  },
  {
   "property": "C32",
   "status": "proved",
   "theorems": [
    "mcnn_cluster_sums",
    "mcnn_predict_nearest_mean"
   ],
   "note": "In binary64 as sums in order of arrival; over the reals mean and variance. A cluster made by a split counts its centre as its first point."
  },
  {
   "property": "C33",
   "status": "proved",
   "theorems": [
    "error_score_exact",
    "error_score_ieee"
   ],
   "note": "Histories with resets and increase_error included."
  },
  {
   "property": "C34",
   "status": "proved",
   "theorems": [
    "kappa_is_cohen",
    "kappa_ieee",
    "kappa_order_irrelevant"
   ],
   "note": "Exact arithmetic for all histories; binary64 up to 94906265 observations (beyond that the square of the total is not exact)."
  },
  {
   "property": "C35",
   "status": "proved",
   "theorems": [
    "kappa_one_label_refuted",
    "kappa_defined_refuted",
    "kappa_nan_iff"
   ],
   "note": "The property is false and refuted; kappa_nan_iff gives the exact histories with NaN."
  },
  {
   "property": "C36",
   "status": "proved",
   "theorems": [
    "reservoir_metric_distribution",
    "reservoir_metric_assign_refuted"
   ],
   "note": "Holds for constructions and resets in any order; assignment between objects breaks it."
  },
  {
   "property": "C37",
   "status": "proved",
   "theorems": [
    "shuffle_permutes",
    "shuffle_moves_everything",
    "shuffle_distribution",
    "shuffle_never_identity",
    "shuffle_uniform_refuted"
   ],
   "note": "Uniformity is false and refuted (swap index below i, never i); the exact distribution is given: every reachable arrangement has probability 1/(n-1)!. Probabilities in exact arithmetic."
  },
  {
   "property": "C38",
   "status": "proved",
   "theorems": [
    "pick_is_inverse_cdf",
    "pick_positive_weight",
    "pick_zero_weight_refuted",
    "pick_in_range_refuted"
   ],
   "note": "True in exact arithmetic for positive draws; refuted for the draw 0 and, by rounding, for the upper end."
  },
  {
   "property": "C39",
   "status": "proved",
   "theorems": [
    "index_max_first_maximum",
    "index_max_first_maximum_int"
   ],
   "note": ""
  },
  {
   "property": "C40",
   "status": "proved",
   "theorems": [
    "bayes_statistics_exact",
    "bayes_order_irrelevant"
   ],
   "note": "Weights not negative."
  },
  {
   "property": "C41",
   "status": "proved",
   "theorems": [
    "bayes_scores",
    "bayes_predict_first_best",
    "bayes_rule_exact",
    "bayes_training_local"
   ],
   "note": "Scores for any arithmetic and library functions; first best in binary64 without NaN scores; the Gaussian Bayes rule in exact arithmetic."
  },
  {
   "property": "C42",
   "status": "proved",
   "theorems": [
    "bayes_smoothing_ignored"
   ],
   "note": "The property is false: no smoothing value ever changes a prediction."
  },
  {
   "property": "C43",
   "status": "proved",
   "theorems": [
    "perceptron_feed_forward",
    "perceptron_set_then_feed"
   ],
   "note": "Any arithmetic, activation and layer structure that fits."
  },
  {
   "property": "C44",
   "status": "proved",
   "theorems": [
    "perceptron_backpropagate_undefined",
    "perceptron_backpropagate_defined_refuted",
    "perceptron_backpropagate_step",
    "perceptron_backpropagate_gradient",
    "perceptron_descent"
   ],
   "note": "The absence of undefined behaviour is false: refuted for every network with two or more layers (layer_size[-1] is read). The other theorems show that whatever this read gives, the result is the gradient step."
  },
  {
   "property": "C45",
   "status": "proved",
   "theorems": [
    "perceptron_set_neuron",
    "perceptron_set_layer",
    "perceptron_set_then_feed",
    "perceptron_feed_forward",
    "perceptron_backpropagate_step",
    "perceptron_misfit_undefined"
   ],
   "note": "backpropagate stays within weights and neuron_output but reads layer_size[-1] (C44). A network that does not fit is accepted and then undefined."
  },
  {
   "property": "C46",
   "status": "proved",
   "theorems": [
    "hoeffding_predict_same",
    "hoeffding_leaves_separate_refuted"
   ],
   "note": "The property is false: all leaves share one block of counters, so after any history every point gets the same prediction."
  },
  {
   "property": "C47",
   "status": "proved",
   "theorems": [
    "hoeffding_split_feature",
    "hoeffding_split_feature_refuted"
   ],
   "note": "The property is false and refuted; the exact condition under which the right feature is returned is proved."
  },
  {
   "property": "C48",
   "status": "proved",
   "theorems": [
    "hoeffding_boxes",
    "hoeffding_boxes_refuted"
   ],
   "note": "The property is false: the boxes start at (-inf, inf) and never change, and the limits after the split are all NaN."
  },
  {
   "property": "C49",
   "status": "proved",
   "theorems": [
    "hoeffding_train_outcomes",
    "hoeffding_train_safe",
    "hoeffding_new",
    "hoeffding_full_buffer_refuted"
   ],
   "note": "The property is false and refuted; training is safe when three nodes fit (in binary64)."
  },
  {
   "property": "C50",
   "status": "proved",
   "theorems": [
    "mondrian_counts",
    "mondrian_trees",
    "mondrian_nan_refuted"
   ],
   "note": "Binary64. Features must be finite: a point that is not a number is lost, which is refuted. At least one node per tree and a lifetime that is not negative."
  },
  {
   "property": "C51",
   "status": "proved",
   "theorems": [
    "mondrian_trees",
    "mondrian_trees_exact",
    "mondrian_negative_lifetime_refuted"
   ],
   "note": "Binary64 and exact arithmetic; at most one node is lost, and only when the pool is exhausted. With a negative lifetime the trees share their root."
  },
  {
   "property": "C52",
   "status": "proved",
   "theorems": [
    "mondrian_routing",
    "mondrian_trees_exact",
    "mondrian_routing_ieee_refuted"
   ],
   "note": "Exact arithmetic; in binary64 the property is false, since a split can be rounded to the value of a point."
  },
  {
   "property": "C53",
   "status": "proved",
   "theorems": [
    "mondrian_results_refuted"
   ],
   "note": "The property is false: the returned bool is never written and the scores are never filled."
  },
  {
   "property": "C54",
   "status": "proved",
   "theorems": [
    "mondrian_train_total_exact",
    "mondrian_train_total",
    "mondrian_zero_draw_refuted",
    "mondrian_rounding_refuted",
    "mondrian_small_pool_refuted",
    "mondrian_leak_refuted"
   ],
   "note": "The property is false: a draw of 0, rounding of probabilities, a pool smaller than the number of trees, and a pool with one free node each refute it. In exact arithmetic with draws in (0,1), and in binary64 with one feature, training never fails; in binary64 the only failure is the read of an uninitialised bound."
  },
  {
   "property": "C55",
   "status": "proved",
   "theorems": [
    "unbound_trees",
    "unbound_counts",
    "unbound_trees_exact"
   ],
   "note": "Binary64 (finite features, lifetime that is not negative, draws in (0,1), memory never exhausted, at most 2^63-1 points), and reals. Training that fails is C86."
  },
  {
   "property": "C56",
   "status": "proved",
   "theorems": [
    "coarse_no_extend",
    "coarse_default_learns_refuted"
   ],
   "note": "The property is false: with the default extend type no point after the first changes the trees or any prediction. Binary64, no trimming, at least one node per tree."
  },
  {
   "property": "C57",
   "status": "proved",
   "theorems": [
    "coarse_pool"
   ],
   "note": "Binary64. The histories include predictions in between; random trimming needs draws below 1."
  },
  {
   "property": "C58",
   "status": "proved",
   "theorems": [
    "coarse_reset",
    "coarse_reset_report_refuted"
   ],
   "note": "The nodes freed are exactly those of the subtree, for every subtree of height at most 100 of a forest reached by training; the report is always a failure, which is refuted."
  },
  {
   "property": "C59",
   "status": "proved",
   "theorems": [
    "cuckoo_last_slot_never_moved"
   ],
   "note": ""
  },
  {
   "property": "C60",
   "status": "proved",
   "theorems": [
    "reservoir_sets_uniform"
   ],
   "note": "As C16, for any set of positions."
  },
  {
   "property": "C61",
   "status": "proved",
   "theorems": [
    "round_nearest",
    "round_nearest_refuted"
   ],
   "note": "True in exact arithmetic, refuted in binary64."
  },
  {
   "property": "C62",
   "status": "proved",
   "theorems": [
    "rand_exponential_inverse_cdf"
   ],
   "note": "Exact arithmetic with the natural logarithm."
  },
  {
   "property": "C63",
   "status": "proved",
   "theorems": [
    "div_int_truncates"
   ],
   "note": ""
  },
  {
   "property": "C64",
   "status": "proved",
   "theorems": [
    "chained_abort_refuted",
    "chained_long_stream_aborts"
   ],
   "note": "The property is false; refuted."
  },
  {
   "property": "C65",
   "status": "proved",
   "theorems": [
    "bayes_untrained_label_refuted"
   ],
   "note": "The property is false; refuted."
  },
  {
   "property": "C66",
   "status": "proved",
   "theorems": [
    "bayes_ieee_bounds",
    "bayes_weighted_bounds_refuted"
   ],
   "note": "Proved for the default weight; refuted for other weights."
  },
  {
   "property": "C67",
   "status": "proved",
   "theorems": [
    "perceptron_max_size_refuted",
    "perceptron_max_size_bound"
   ],
   "note": "The property is false; refuted, with the exact bound max_size + 8."
  },
  {
   "property": "C68",
   "status": "proved",
   "theorems": [
    "mcnn_split"
   ],
   "note": "The slot of least participation can be the cluster itself; then only the upper half remains."
  },
  {
   "property": "C69",
   "status": "proved",
   "theorems": [
    "mcnn_int_split_refuted"
   ],
   "note": "The property is false and refuted: the int sum is divided by an unsigned count."
  },
  {
   "property": "C70",
   "status": "proved",
   "theorems": [
    "mcnn_train_step",
    "mcnn_split"
   ],
   "note": "The splits that may follow are C68."
  },
  {
   "property": "C71",
   "status": "proved",
   "theorems": [
    "mcnn_class_represented",
    "mcnn_class_lost_refuted"
   ],
   "note": "Proved for the methods that do not evict, refuted for method 0."
  },
  {
   "property": "C72",
   "status": "proved",
   "theorems": [
    "hoeffding_histogram"
   ],
   "note": "Any arithmetic. At least two candidate limits."
  },
  {
   "property": "C73",
   "status": "proved",
   "theorems": [
    "hoeffding_set_limits"
   ],
   "note": "The property is false: it holds before the first split, and after it the call is always out of bounds."
  },
  {
   "property": "C74",
   "status": "proved",
   "theorems": [
    "hoeffding_predict_frequencies"
   ],
   "note": "Binary64. Without points the frequencies are 0/0 (NaN) and the label is 0."
  },
  {
   "property": "C75",
   "status": "proved",
   "theorems": [
    "hoeffding_one_split"
   ],
   "note": "Binary64, buffers smaller than 2^31 bytes, any functions in place of log and log2."
  },
  {
   "property": "C76",
   "status": "proved",
   "theorems": [
    "hoeffding_gain_sums"
   ],
   "note": "Exact arithmetic."
  },
  {
   "property": "C77",
   "status": "proved",
   "theorems": [
    "hoeffding_split_rule"
   ],
   "note": "Exact arithmetic; the infinite bounds of the code are replaced by an arbitrary number. The bound is the one of the code, 4 log(1/delta)/(2n)."
  },
  {
   "property": "C78",
   "status": "proved",
   "theorems": [
    "hoeffding_single_candidate_refuted"
   ],
   "note": "The property is false and refuted."
  },
  {
   "property": "C79",
   "status": "proved",
   "theorems": [
    "hoeffding_routing",
    "hoeffding_half_spaces"
   ],
   "note": "Routing for any arithmetic, boxes in binary64."
  },
  {
   "property": "C80",
   "status": "proved",
   "theorems": [
    "mondrian_predict_total"
   ],
   "note": "Binary64, any functions in place of exp and log."
  },
  {
   "property": "C81",
   "status": "proved",
   "theorems": [
    "mondrian_predict_trained"
   ],
   "note": "Exact arithmetic with the real exponential."
  },
  {
   "property": "C82",
   "status": "proved",
   "theorems": [
    "mondrian_single_point",
    "mondrian_single_point_refuted"
   ],
   "note": "The property is false for a positive discount factor, and for discount 0 the label is always 0; it holds exactly for negative ones (exact arithmetic, base measure below 1)."
  },
  {
   "property": "C83",
   "status": "proved",
   "theorems": [
    "mondrian_node_use"
   ],
   "note": "Binary64."
  },
  {
   "property": "C84",
   "status": "proved",
   "theorems": [
    "mondrian_predict_exact"
   ],
   "note": "Exact arithmetic (real numbers for double, the real exponential for exp). Where the code divides by zero (eta + g = 0) the model's quotient is 0."
  },
  {
   "property": "C85",
   "status": "proved",
   "theorems": [
    "mondrian_one_label_refuted"
   ],
   "note": "The property is false and refuted for all parameters with at least two labels, a positive lifetime and a base measure below 1: a positive discount factor fails at the trained point, a negative one far away from it, zero always predicts label 0. Exact arithmetic."
  },
  {
   "property": "C86",
   "status": "proved",
   "theorems": [
    "unbound_train_total_exact",
    "unbound_train_outcome",
    "unbound_rounding_refuted",
    "unbound_zero_draw_refuted",
    "unbound_overflow_refuted"
   ],
   "note": "False in binary64: rounding (7 features) and overflow (one feature) read past the last feature, a draw of 0 reads an uninitialised bound. In exact arithmetic with draws in (0,1) training never fails; in binary64 the first point is always trained, and later trainings end, either trained or undefined."
  },
  {
   "property": "C87",
   "status": "proved",
   "theorems": [
    "unbound_routing",
    "unbound_trees_exact",
    "unbound_routing_ieee_refuted"
   ],
   "note": "Exact arithmetic; refuted in binary64, where a split can be rounded to the upper value."
  },
  {
   "property": "C88",
   "status": "proved",
   "theorems": [
    "unbound_predict_total",
    "unbound_predict_exact",
    "unbound_predict_trained"
   ],
   "note": "Total in binary64 for any functions in place of exp and log; the formulas in exact arithmetic. Where the code divides by zero the model's quotient is 0."
  },
  {
   "property": "C89",
   "status": "proved",
   "theorems": [
    "unbound_memory"
   ],
   "note": "Binary64. Nodes are never freed by the code except by the destructor, which is not modelled."
  },
  {
   "property": "C90",
   "status": "proved",
   "theorems": [
    "unbound_results_refuted"
   ],
   "note": "The property is false: the returned bool is never written, the scores are never written."
  },
  {
   "property": "C91",
   "status": "proved",
   "theorems": [
    "coarse_height",
    "coarse_robur_limit_refuted"
   ],
   "note": "Proved for the two cobble managements. False for the others: the number of nodes of a tree is never updated."
  },
  {
   "property": "C92",
   "status": "proved",
   "theorems": [
    "coarse_default_limit",
    "coarse_default_limit_refuted"
   ],
   "note": "The property is false: with the default limit every tree is a single leaf after any history."
  },
  {
   "property": "C93",
   "status": "proved",
   "theorems": [
    "coarse_counts",
    "coarse_data_points"
   ],
   "note": "Binary64, finite features, at least one node per tree."
  },
  {
   "property": "C94",
   "status": "proved",
   "theorems": [
    "coarse_partial_update_refuted",
    "coarse_counter_no_update_refuted"
   ],
   "note": "The property is false; refuted for both extend types."
  },
  {
   "property": "C95",
   "status": "proved",
   "theorems": [
    "coarse_ghost_root"
   ],
   "note": "Binary64, without UNBOUND_OPTIMIZE."
  },
  {
   "property": "C96",
   "status": "proved",
   "theorems": [
    "coarse_automatic_undefined",
    "coarse_automatic_refuted"
   ],
   "note": "The property is false: without static storage the first train reads sum_features, which is never initialised."
  },
  {
   "property": "C97",
   "status": "proved",
   "theorems": [
    "coarse_eval_margin",
    "coarse_eval_first",
    "coarse_eval_margin_refuted"
   ],
   "note": "False when label 0 has the best score (the result is then the score minus itself); proved in all other cases."
  },
  {
   "property": "C98",
   "status": "proved",
   "theorems": [
    "coarse_tree_to_use_refuted",
    "coarse_scores_refuted"
   ],
   "note": "The property is false; refuted."
  },
  {
   "property": "C99",
   "status": "proved",
   "theorems": [
    "coarse_trim_smallest"
   ],
   "note": "Binary64, any reached forest with TRIM_COUNT; EXTEND_COUNTER_NO_UPDATE is left out since its leaves do not count their points."
  }
 ]
}