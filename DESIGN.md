# Verification design: OrpailleCC in Coq 8.16.1

## 1. Approach

OrpailleCC is a header-only C++ library of stream summaries and classifiers.
Each header gets

* `X_Model.v`  - the code, function by function, as total computable Gallina
  functions. Every definition cites file and lines of /repo and lists its simplifications. No proofs.
* `X_Spec.v`   - a small specification written without the model's helpers
  (multisets as counting functions over the list of calls, exact rationals, sets of lines ...).
* `X_Proofs.v` - lemmas and invariants.
* `X_Props.v`  - the property theorems (`exact lemma`), `Print Assumptions`, and next to each one an
  `Example` exhibiting a non-trivial instance that meets its hypotheses.

Shared files: `CppBase.v` (outcome monad, arrays, machine integers), `Dbl.v` (IEEE binary64 from Flocq).

### Outcomes
`res A := Ok a | UB reason | Abort`. Undefined behaviour (out-of-bounds access, read of an
indeterminate value, null dereference, signed overflow, double->int conversion out of range) is a
distinct outcome, as is a failed `assert` (the Makefile does not define NDEBUG). Loops without an
obvious measure take fuel and return a distinct outcome when it runs out.

### Numbers
* `int`/`unsigned` counters whose wrap-around matters are written with explicit `mod 2^32`.
* `double`: where rounding matters (index computations, comparisons, NaN/infinity) the model uses
  IEEE-754 binary64 from Flocq (`binary_float 53 1024`, round to nearest even). Where the property
  is algebraic (means, kappa, cones, gradients) the model is generic in a record of operations and
  is instantiated with the exact reals `R` or rationals `Q`; this is said in the theorem's comment and in the MANIFEST note.
  Where only the structure matters the theorem quantifies over *all* operation records, so it also covers IEEE doubles.
* `log`, `exp`, `sqrt`, hash functions, fingerprints and user callbacks are parameters (oracles).

### Randomness
Each call takes the draws it may consume (`nat -> double` or explicit arguments); theorems
quantify over all of them, so over every random source, also adversarial ones. Probabilistic statements use an
explicit finite distribution with exact rational weights and an ideal uniform source.

### Memory
Arrays are lists with checked accesses; cells that the code does not initialise are `None` and
reading one is UB. Linked structures (chained reservoir, Mondrian trees) use an explicit heap / node
pool indexed by addresses.

## 2. Properties: what is modelled and how it is proved

| id | model | proof |
|----|-------|-------|
| C01-C04 | Bloom filter: byte array, `add`, `lookup`, `clear`, `set`, asserts | invariant: byte i non-zero iff hit since last clear; induction over the list of operations |
| C05 | `set` with caller's array as a list with checked reads | expected false: one byte per bit is read; refutation with a packed array, and the exact positive statement with bit_size bytes |
| C06, C07 | Cuckoo filter at bit level with hash/fingerprint oracles and draws | representation lemma bit array <-> table of entries; multiset of classes (fp, unordered bucket pair) is preserved by relocation; refinement by induction over the history |
| C08 | same | exact theorem on the multiset after a failed add, plus refutation witness for "older elements remain" |
| C09 | same | bit-level round trip and frame |
| C10 | same | expected false, witness with empty_value <> 0 |
| C11 | same | absence of Abort/UB under power of two; witness otherwise |
| C12 | same | direct, on the table view |
| C13, C14 | reservoir index in binary64 | Flocq: trunc(r*n) < n for r < 1; witness for r = 1 |
| C15, C17, C18 | reservoir and exponential reservoir states | invariants over histories |
| C105 | exponential reservoir with exact arithmetic | number of outcomes of the draws on a grid; one add removes each element in exactly 1/sample_size of the outcomes |
| C16 | finite distributions over Q | induction on n; exact inclusion probability |
| C19-C22 | chained reservoir with heap of nodes | heap predicate `chain h a l`; exact effect of push/shift/clear; window invariant; witnesses for the false ones |
| C23 | distribution over Q of one add | expected false, witness |
| C24, C25, C27 | LTC over R (element and timestamp exact) | cone invariant: the cone is the set of slopes admissible for all samples since the segment start |
| C26 | LTC over Z with the int conversions of the code | expected false, witnesses |
| C28-C32, C68-C71 | MC-NN generic in the operations and in the feature type | invariants for all operation records, instantiated to binary64 and reals; C30, C69 false, C71 false with eviction |
| C33-C36 | metrics on Z with exact rational score | batch specification over the list of updates |
| C37-C39 | Utils: shuffle, pick, turn_into_probability, index_max | permutation/cycle proof; witnesses for zero probability and non-uniformity |
| C40-C42 | Gaussian estimator over R, Naive Bayes generic | algebra over R, argmax specification |
| C43-C45 | perceptron generic in the operations, flat arrays with checked access | refinement flat arrays -> mathematical network; chain rule over R with the standard library's derivatives; C44 undefined because of `layer_size[-1]`, so a second theorem lets that read give any value |
| C46-C49, C72-C79 | Hoeffding tree generic in the operations: the byte buffer as its two uses (nodes, blocks of counters), checked access; alignment not modelled; `sizeof(Node)`, `log`, `log2` are parameters | representation invariant (every leaf uses block 0, which holds the histogram of the points since the last split) for all operation records; binary64: infinite boxes, NaN limits, at most one split; reals: textbook information gain and split rule; C46-C49, C73, C78 false |
| C50-C54, C80-C85 | Mondrian forest generic in the operations: node pool with checked access, draws as a sequence, `exp` and `log` as parameters, never written bounds and splits as a distinct value | representation predicate pool -> inductive tree, kept by every training for all operation records satisfying a few laws; binary64 and reals shown to satisfy them; separation and means over R; C53, C54, C82 false, C52 false in binary64 |
| C55, C86-C90 | unbounded Mondrian forest: heap of nodes that only grows, pointers as positions in it | same representation predicate with the counters of internal nodes kept up to date, and the heap as a permutation of the nodes of the trees; C86 and C87 false in binary64, C90 false |
| C56-C58, C91-C101, C104 | coarse Mondrian forest: the node pool of the bounded forest with two more fields per node, the counter of free nodes and the static position; all extend, trim and management types | representation predicate pool -> optional trees, kept by every training, trimming and prediction for all operation records with a few laws on times; walks with an explicit stack related to the inductive tree; C56, C92, C94, C96, C98, C100, C101, C104 false; C104 holds for size limits up to 101 with all kinds of trimming |
| C106 | coarse forest, any operations with the order laws | invariant over histories: both boxes of every node are complete; then predict by induction on the stored tree |
| C107 | same | recounting reaches a fixed point: after it every internal counter is the count of its children, and a second recount writes what is there |
| C108, C109 | coarse and bounded forest | simulation: two forests that differ at most in the counters of internal nodes stay so under every training step and agree after a recount |
| C110-C112 | coarse forest with `DEBUG` and with `print_nodes` (Coarse_Print_Model): printed lines as records | the walk around a tree with a stack of 100 entries, by induction on the tree; a forest that prints is one that was asked for a prediction with no tree, so C108 applies; exceptions by witness |
| C113 | fading scores (Coarse_Fade_Spec): what one training call makes of the scores of all leaves, as a relation on trees and score arrays | the walk visits each leaf once (induction on the tree); training and trimming preserve: only leaves have a score, no score is negative; loop lemma over the trees with a frame condition on the scores of the other trees |
| C114 | when training with UNBOUND_OPTIMIZE is defined: exactly when there is a node for every tree | invariant per tree (counters below the number of points, height below the limit) kept by fading, trimming, training and recounting; the trees all exist after the first point; with too few nodes the loop reaches a tree without root |
| C115-C117 | barycenter extension without split trigger: extend_block, split at the barycenter, the helpers that move boxes and counters | invariant per tree (shape, pool, no negative leaf counter) kept by each step; laws on the list of leaves and their counters; the box is cut before the shares are computed, hence shares 0 or 1 |
| C118, C119 | find_barycenter, count_sides as walks around a subtree | exact law of the walk that stops where it began (visits every leaf once); sums over the leaves; floor of the two shares |
| C120 | adjust_counters, split_node with the split trigger | expected true, false: reachable binary64 witnesses found by searching runs |
| C121 | split_barycenter on a leaf, binary64 | law: the weight zero is never picked; a rounded share of the way stays between the ends (Flocq) |
| C122 | predict after trainings with the barycenter extension | invariant: every node has a complete box, kept by the split, the clipping walk and the way down; then as C106, C107 |
| C123 | split_at on a leaf: hull_box, clip, pass_data_point_down | law: the three nodes are followed through the split; a hull with a point inside changes nothing, a clip at a value inside cuts one side |
| C124 | stretch_box: the box update of the barycenter extension | law in exact reals, through an invariant of the loop over the dimensions; two binary64 runs as refutations |
| C125 | train and everything it calls: sum_features, count_points | invariant: every function but train keeps the sums; closed form with powers of the fading in exact reals |
| C102, C103 | the three forests side by side, fed the same points and draws | a relation between the subtrees of two forests (same splits, times, boxes and leaf counters, other node numbers) kept by every training step as long as the pool has nodes left; predictions follow from it |

The plan may be extended; the MANIFEST says which statements are proved, partial or not applicable.

### Out of scope (cannot be expressed, one line each)
* Quality of hash functions or of `rand()`: an empirical property of callbacks, not of this code.
* Run time, energy and memory footprint figures: not semantic.
* Compiler warnings and template instantiation errors: not a run-time behaviour.
* The accuracy of the classifiers on data sets: statistical, depends on unknown data.

## 3. Trusted base

* The Coq 8.16.1 kernel (including `vm_compute`), and the reading of the C++ code into the model.
* Axioms: none of our own. `Print Assumptions` is printed under each theorem in `*_Props.v`; the
  expected lists are "Closed under the global context" or, for theorems using `R` or Flocq, the standard library's axioms of the
  classical reals (`ClassicalDedekindReals.sig_forall_dec`, `ClassicalDedekindReals.sig_not_dec`,
  `FunctionalExtensionality.functional_extensionality_dep`, and `Classical_Prop.classic`). The exact list is maintained in section 4.
* C++ semantics assumed: 32-bit `int`/`unsigned`, IEEE binary64 `double` in round-to-nearest without extended precision, asserts enabled.
* Modelled: the headers in `src/` listed above. Not modelled: tests, examples, the print/dump helpers (except those of the coarse forest, C110-C112), iostream output, and the
  functions of `mondrian_coarse.hpp` that nothing calls (listed at the top of `Coarse_Model.v`).

## 4. Axioms per theorem

Generated from `Print Assumptions` of every theorem named in MANIFEST.json.

- No axioms (closed under the global context): `bloom_no_false_negatives`, `bloom_lookup_exact`, `bloom_clear_forgets`, `bloom_order_irrelevant`, `bloom_monotone`, `bloom_memory_safe`, `bloom_add_aborts_iff`, `bloom_set_packed_refuted`, `bloom_set_short_array_ub`, `cuckoo_entry_round_trip`, `exp_reservoir_sets_law`, `exp_reservoir_decay`, `reservoir_inclusion_uniform`, `kappa_order_irrelevant`, `kappa_one_label_refuted`, `shuffle_distribution`, `shuffle_never_identity`, `shuffle_uniform_refuted`, `bayes_scores`, `bayes_training_local`, `bayes_smoothing_ignored`, `perceptron_feed_forward`, `perceptron_set_then_feed`, `perceptron_backpropagate_undefined`, `perceptron_backpropagate_defined_refuted`, `perceptron_backpropagate_step`, `perceptron_set_neuron`, `perceptron_set_layer`, `perceptron_misfit_undefined`, `hoeffding_predict_same`, `hoeffding_split_feature`, `hoeffding_train_outcomes`, `hoeffding_new`, `reservoir_sets_uniform`, `div_int_truncates`, `perceptron_max_size_refuted`, `perceptron_max_size_bound`, `hoeffding_histogram`, `hoeffding_set_limits`, `hoeffding_routing`.

- Standard-library axioms `ClassicalDedekindReals.sig_forall_dec`, `ClassicalDedekindReals.sig_not_dec`, `Classical_Prop.classic`, `FunctionalExtensionality.functional_extensionality_dep`: `cuckoo_no_false_negatives`, `cuckoo_refines`, `cuckoo_lookup_exact`, `cuckoo_remove_effect`, `cuckoo_add_effect`, `cuckoo_failed_add_keeps_refuted`, `cuckoo_empty_value_refuted`, `cuckoo_empty_value_adds_fail`, `coarse_barycenter_refuted`, `coarse_fading_refuted`, `forest_same_trees`, `forest_same_predictions`, `forest_same_enough`, `coarse_same_trees`, `coarse_same_report`, `coarse_same_predictions`, `coarse_same_enough`, `coarse_train_outcome`, `coarse_deep_refuted`, `coarse_predict_defined`, `coarse_predict_again`, `coarse_predict_effect`, `coarse_predict_unasked`, `coarse_train_unasked`, `coarse_trees_unasked`, `mondrian_predict_unasked`, `mondrian_train_unasked`, `mondrian_trees_unasked`, `cuckoo_bucket_count_refuted`, `coarse_check_accepts`, `coarse_debug_train`, `coarse_debug_deep_refuted`, `coarse_print_lists`, `coarse_print_missing`, `coarse_print_one_refuted`, `coarse_print_train`, `coarse_print_innocent`, `coarse_scores_lines`, `coarse_print_ghost_refuted`, `coarse_scores_forest_refuted`, `coarse_scores_empty_refuted`, `coarse_scores_clean`, `coarse_fade_leaves`, `coarse_train_scores`, `coarse_train_trims_lowest`, `coarse_few_nodes`, `coarse_center_pool`, `coarse_center_counts`, `coarse_center_whole`, `coarse_count_sides_refuted`, `cuckoo_add_with_room`, `cuckoo_clear_empties`, `coarse_adjust_counters_refuted`, `coarse_split_points_refuted`, `coarse_barycenter_place`, `coarse_center_predict_defined`, `coarse_center_predict_again`, `coarse_center_predict_effect`, `coarse_predict_beyond_refuted`, `coarse_barycenter_boxes`, `coarse_stretch_refuted`, `reservoir_index_range`, `reservoir_random_one_refuted`, `exp_reservoir_random_one_refuted`, `reservoir_distinct_positions`, `reservoir_count_mod`, `reservoir_wrap_forced`, `reservoir_wrap_accepts`, `exp_reservoir_invariant`, `exp_reservoir_step`, `chained_safe`, `chained_fill_order`, `chained_window_refuted`, `chained_window_clean`, `chained_window_live`, `chained_discards_refuted`, `chained_obsolete_keeps`, `chained_promotes_refuted`, `chained_obsolete_effect`, `chained_promoted_stamp_lost`, `chained_equal_probability_refuted`, `chained_next_always_kept`, `chained_first_slot_rare`, `ltc_error_bound`, `ltc_transmits_only_if_needed`, `ltc_linear_silent`, `ltc_needless_transmission_refuted`, `ltc_error_unbounded_refuted`, `ltc_gap_refuted`, `ltc_time_unit_refuted`, `ltc_protocol`, `mcnn_predict_labels`, `mcnn_fresh_empty`, `mcnn_first_point`, `mcnn_predict_nearest`, `mcnn_far_query_refuted`, `mcnn_count_refuted`, `mcnn_count_relation`, `mcnn_trains_safe`, `mcnn_train_answer`, `mcnn_cluster_sums`, `error_score_ieee`, `kappa_ieee`, `kappa_defined_refuted`, `kappa_nan_iff`, `shuffle_permutes`, `shuffle_moves_everything`, `pick_positive_weight`, `pick_zero_weight_refuted`, `pick_in_range_refuted`, `index_max_first_maximum`, `bayes_predict_first_best`, `bayes_rule_exact`, `hoeffding_leaves_separate_refuted`, `hoeffding_split_feature_refuted`, `hoeffding_boxes`, `hoeffding_boxes_refuted`, `hoeffding_train_safe`, `hoeffding_full_buffer_refuted`, `mondrian_counts`, `mondrian_trees`, `mondrian_nan_refuted`, `mondrian_negative_lifetime_refuted`, `mondrian_routing_ieee_refuted`, `mondrian_results_refuted`, `mondrian_train_total`, `mondrian_zero_draw_refuted`, `mondrian_rounding_refuted`, `mondrian_small_pool_refuted`, `mondrian_leak_refuted`, `unbound_trees`, `unbound_counts`, `coarse_no_extend`, `coarse_default_learns_refuted`, `coarse_pool`, `coarse_reset`, `coarse_reset_report_refuted`, `cuckoo_last_slot_never_moved`, `round_nearest_refuted`, `rand_exponential_inverse_cdf`, `chained_abort_refuted`, `chained_long_stream_aborts`, `bayes_untrained_label_refuted`, `bayes_ieee_bounds`, `bayes_weighted_bounds_refuted`, `mcnn_split`, `mcnn_int_split_refuted`, `mcnn_train_step`, `mcnn_class_represented`, `mcnn_class_lost_refuted`, `hoeffding_predict_frequencies`, `hoeffding_one_split`, `hoeffding_gain_sums`, `hoeffding_split_rule`, `hoeffding_single_candidate_refuted`, `hoeffding_half_spaces`, `mondrian_predict_total`, `mondrian_single_point`, `mondrian_single_point_refuted`, `mondrian_node_use`, `mondrian_predict_exact`, `mondrian_one_label_refuted`, `unbound_train_outcome`, `unbound_rounding_refuted`, `unbound_zero_draw_refuted`, `unbound_overflow_refuted`, `unbound_routing_ieee_refuted`, `unbound_predict_total`, `unbound_predict_exact`, `unbound_predict_trained`, `unbound_memory`, `unbound_results_refuted`, `coarse_height`, `coarse_robur_limit_refuted`, `coarse_default_limit`, `coarse_default_limit_refuted`, `coarse_counts`, `coarse_data_points`, `coarse_partial_update_refuted`, `coarse_counter_no_update_refuted`, `coarse_ghost_root`, `coarse_automatic_undefined`, `coarse_automatic_refuted`, `coarse_eval_margin`, `coarse_eval_first`, `coarse_eval_margin_refuted`, `coarse_tree_to_use_refuted`, `coarse_scores_refuted`, `coarse_trim_smallest`.

- Standard-library axioms `ClassicalDedekindReals.sig_forall_dec`, `ClassicalDedekindReals.sig_not_dec`, `FunctionalExtensionality.functional_extensionality_dep`: `mondrian_trees_exact`, `mondrian_routing`, `mondrian_train_total_exact`, `mondrian_predict_trained`.

- Standard-library axioms `ClassicalDedekindReals.sig_forall_dec`, `FunctionalExtensionality.functional_extensionality_dep`: `coarse_train_total_exact`, `coarse_enough_nodes`, `coarse_barycenter_mean`, `coarse_count_sides`, `coarse_stretch_exact`, `coarse_average_exact`, `ltc_slack_zero_at_end`, `mcnn_predict_nearest_mean`, `error_score_exact`, `kappa_is_cohen`, `reservoir_metric_distribution`, `reservoir_metric_assign_refuted`, `pick_is_inverse_cdf`, `index_max_first_maximum_int`, `bayes_statistics_exact`, `bayes_order_irrelevant`, `perceptron_backpropagate_gradient`, `perceptron_descent`, `unbound_trees_exact`, `round_nearest`, `unbound_train_total_exact`, `unbound_routing`.

## 5. Reading seeded/LOG.jsonl

Each mutation edits one definition of a model in a copy outside /verif and
rebuilds everything (the last batches: the files of the claims and all they need).

- `failed` lists the statements whose proof scripts stopped compiling. Often this
  is a lemma about the edited definition, not the property theorem itself.
- `blocked` lists the theorems that depend on a failed file. They were not
  rechecked against the mutant, so they are not evidence that their statements
  became false. The list is computed from the imports of the committed files.
- An edit must match inside the definition it names. One early `shift_disable`
  entry did not: it had edited `clear_chain`. It was removed and the mutation
  was rerun on `shift_disable`.
- An edit must typecheck in the model and specification files. Two early MC-NN
  entries did not, so they showed nothing about the theorems. They were removed
  and the mutations were rerun as well-typed edits.
- An entry with an empty `failed` list survived. `note` says why where this was
  worked out (an edit without effect, or outside of what the claim states). The
  other survivors say in `edit` what is not claimed, or are open.
