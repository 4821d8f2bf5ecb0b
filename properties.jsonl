{"id": "C01", "title": "Bloom filter: no false negatives", "statement": "After any history of add/lookup/clear calls, lookup(e) returns true for every element e that was added since the last clear, whatever was added before, between or after.", "quantifier": "every number of hash functions >= 1, every family of hash functions with values in [0, bit_size), every history of calls, every element added since the last clear", "why_tests_cant": "A test adds a handful of elements with one family of hash functions; the claim is over every history and every hash family.", "anchors": ["src/bloom_filter.hpp: BloomFilter::add, lookup, clear"]}
{"id": "C02", "title": "Bloom filter: exact false-positive set", "statement": "lookup(e) returns true if and only if every hash slot of e was hit by some hash of some element added since the last clear (or had its low bit set in the byte of the last array given to set). Nothing else can turn lookup true.", "quantifier": "every history, every element, every hash family with values in range", "why_tests_cant": "A test can only observe individual answers; the if-and-only-if is over all possible collision patterns.", "anchors": ["src/bloom_filter.hpp: BloomFilter::add, lookup, clear, set"]}
{"id": "C03", "title": "Bloom filter: content depends only on the set of added elements", "statement": "Two histories since the last clear that add the same set of elements, in any order and with any repetitions, give the same answer to every later lookup; answers never go from true to false without clear or set.", "quantifier": "every pair of add sequences with the same set of elements, every later lookup", "why_tests_cant": "The number of orders and repetitions is unbounded.", "anchors": ["src/bloom_filter.hpp: BloomFilter::add, lookup"]}
{"id": "C04", "title": "Bloom filter: memory safety and the hash-range contract", "statement": "No call touches memory outside the filter. If every hash value is below bit_size no call aborts; a hash value outside [0, bit_size) makes add abort on its assertion before any out-of-range access.", "quantifier": "every hash family (also with out-of-range values), every history", "why_tests_cant": "Out-of-range accesses depend on the hash values of unseen elements.", "anchors": ["src/bloom_filter.hpp: BloomFilter::set_bit_to_one, get_bit, add, lookup"]}
{"id": "C05", "title": "Bloom filter: set() restores a bit array", "statement": "set(bits) makes lookup answer from the given bit array of bit_size bits, reading no more memory than such an array occupies.", "quantifier": "every array of ceil(bit_size/8) bytes", "why_tests_cant": "The over-read past a packed array is silent in a test run.", "anchors": ["src/bloom_filter.hpp: BloomFilter::set, BYTE_SIZE"]}
{"id": "C06", "title": "Cuckoo filter: no false negatives while adds succeed", "statement": "As long as every add has returned true, and remove was only called on elements with a positive net count, lookup(e) is true for every e added more times than removed, regardless of the relocations made in between.", "quantifier": "every power-of-two bucket count, bucket size, fingerprint width 1..8, every hash/fingerprint pair in range, every random stream in [0,1], every history", "why_tests_cant": "Relocation chains depend on the random stream and can be up to 500 steps long; a test covers one stream.", "anchors": ["src/cuckoo_filter.hpp: CuckooFilter::add, lookup, remove"]}
{"id": "C07", "title": "Cuckoo filter: exact refinement to a counting set", "statement": "Under the same conditions lookup(e) is true exactly when the number of adds minus successful removes of elements with the same fingerprint and the same pair of candidate buckets is positive; remove(e) lowers that count by one in that case, does nothing otherwise, and never changes the answer for any other class.", "quantifier": "every history, every random stream, every parameter set as above", "why_tests_cant": "The refinement quantifies over all histories and collisions.", "anchors": ["src/cuckoo_filter.hpp: CuckooFilter::add, lookup, remove"]}
{"id": "C08", "title": "Cuckoo filter: a failed add loses exactly one stored entry", "statement": "When add returns false the filter keeps the same number of occupied entries: the new entry and the old ones remain except for exactly one, which is dropped. In particular it may drop an older element, so 'a failed add leaves previous elements findable' is false.", "quantifier": "every full configuration reached, every random stream", "why_tests_cant": "The failing path needs 500 relocations; which element is lost depends on the stream.", "anchors": ["src/cuckoo_filter.hpp: CuckooFilter::add"]}
{"id": "C09", "title": "Cuckoo filter: entry storage round trip", "statement": "Writing an entry and reading it back yields the written fingerprint and no other entry changes, for every entry index of the filter, without touching memory outside the filter.", "quantifier": "every bucket, slot, fingerprint below 2^entry_size, every filter content", "why_tests_cant": "Bit-level addressing must hold for all indices and contents, not only sampled ones.", "anchors": ["src/cuckoo_filter.hpp: CuckooFilter::get_entry, set_entry, get_bit, set_bit"]}
{"id": "C10", "title": "Cuckoo filter: the empty value is configurable", "statement": "A filter constructed with any empty_value is empty: lookup is false for every element whose fingerprint is not the empty value, and the first add succeeds.", "quantifier": "every empty_value below 2^entry_size", "why_tests_cant": "Tests only use the default empty value.", "anchors": ["src/cuckoo_filter.hpp: CuckooFilter::CuckooFilter, clear, space_in_bucket"]}
{"id": "C11", "title": "Cuckoo filter: bucket count contract and absence of aborts", "statement": "With a power-of-two bucket count no call aborts or goes out of bounds; with another bucket count there are hash functions in range for which add aborts.", "quantifier": "every bucket count, every hash pair in range, every history", "why_tests_cant": "Whether the xor leaves the range depends on the elements seen.", "anchors": ["src/cuckoo_filter.hpp: CuckooFilter::add, lookup, remove, get_entry"]}
{"id": "C12", "title": "Cuckoo filter: add succeeds without moving anything when a candidate bucket has room", "statement": "If one of the two candidate buckets of e has a free slot then add(e) returns true, writes only one previously free slot and leaves every other entry in place; clear empties the filter.", "quantifier": "every reachable filter content, every element, every random stream", "why_tests_cant": "All contents and random draws.", "anchors": ["src/cuckoo_filter.hpp: CuckooFilter::add, space_in_bucket, clear"]}
{"id": "C13", "title": "Reservoir sampling: every returned index is in range", "statement": "For a random source with values in [0,1), in IEEE double arithmetic, every add returns -1 and leaves the sample as it was, or returns an index in [0, sample_size) and stores the element exactly there, all other slots unchanged.", "quantifier": "every sample size from 1 to 2^31-1, every counter value, every pair of doubles in [0,1)", "why_tests_cant": "Boundary rounding of random*size only shows up for particular doubles.", "anchors": ["src/reservoir_sampling.hpp: ReservoirSampling::add, sample_index"]}
{"id": "C14", "title": "Reservoir sampling: contract holds for random sources that include 1.0", "statement": "The documentation asks for a random number 'between 0 and 1'; with a source that may return exactly 1.0 (such as rand()/RAND_MAX used in README and tests) the returned index still is in range.", "quantifier": "every sequence of doubles in [0,1]", "why_tests_cant": "1.0 comes up once in 2^31 draws.", "anchors": ["src/reservoir_sampling.hpp: ReservoirSampling::sample_index, ExponentialReservoirSampling::sample_index"]}
{"id": "C15", "title": "Reservoir sampling: the sample holds distinct stream positions", "statement": "After any n < 2^32 adds the sample holds min(n, sample_size) elements taken from pairwise distinct positions of the stream; for n <= sample_size they are the first n elements in order.", "quantifier": "every stream, every random stream in [0,1)", "why_tests_cant": "A duplicate would depend on the replacement pattern; the patterns are exponentially many.", "anchors": ["src/reservoir_sampling.hpp: ReservoirSampling::add"]}
{"id": "C16", "title": "Reservoir sampling: equal inclusion probability", "statement": "With an ideal uniform random source, after n elements (n >= sample_size) each of the n elements is in the sample with probability exactly sample_size/n.", "quantifier": "every n, every sample size, every position", "why_tests_cant": "A probability is not observable from one run; statistical tests only bound it.", "anchors": ["src/reservoir_sampling.hpp: ReservoirSampling::sample_index"]}
{"id": "C17", "title": "Reservoir sampling: the element counter", "statement": "count() is the number of elements added modulo 2^32; when it wraps, the reservoir starts to overwrite its slots from 0 again whatever the random source says, so uniformity is lost after 2^32 elements.", "quantifier": "every history, including ones longer than 2^32", "why_tests_cant": "No test adds 4 billion elements.", "anchors": ["src/reservoir_sampling.hpp: ReservoirSampling::count, sample_index"]}
{"id": "C18", "title": "Exponential reservoir: newest element always sampled, size bounded", "statement": "For a random source in [0,1): every add stores the new element at an index in [0, sample_size), count() never exceeds sample_size, never decreases, and the occupied slots are exactly [0, count()), each holding an element of the stream, from distinct positions.", "quantifier": "every stream, every random stream in [0,1)", "why_tests_cant": "All histories and random streams.", "anchors": ["src/reservoir_sampling.hpp: ExponentialReservoirSampling::add, sample_index, count"]}
{"id": "C19", "title": "Chained reservoir: visible elements come from the stream, in range", "statement": "Every history of add and obsolete runs without out-of-range access or null dereference, the first sample_size elements fill the slots in order, and operator[] of a filled slot returns an element of the stream; no assertion fails in the first 5001 adds.", "quantifier": "every history of add/obsolete with non-zero timestamps, every random stream in [0,1]", "why_tests_cant": "Linked-list corruption shows only for particular add/obsolete interleavings.", "anchors": ["src/chained_reservoir.hpp: ChainedReservoirSampling::add, operator[], obsolete, push_on_chain, shift_chain, clear_chain"]}
{"id": "C20", "title": "Chained reservoir: every slot has a recent successor", "statement": "After obsolete(t) issued when the last sample_size elements added have timestamps >= t, every visible element has a timestamp >= t.", "quantifier": "every history with increasing timestamps, every random stream", "why_tests_cant": "The window guarantee depends on all successor choices.", "anchors": ["src/chained_reservoir.hpp: ChainedReservoirSampling::add, obsolete"]}
{"id": "C21", "title": "Chained reservoir: obsolete(t) discards every older element", "statement": "After obsolete(t) no visible element has a timestamp before t (documentation: 'All elements with obsolete timestamp will be discarded').", "quantifier": "every history, every t", "why_tests_cant": "Depends on whether a successor has arrived; the test uses a configuration where it always has.", "anchors": ["src/chained_reservoir.hpp: ChainedReservoirSampling::obsolete"]}
{"id": "C22", "title": "Chained reservoir: obsolete promotes the oldest valid successor", "statement": "When the visible element of a slot is obsolete and its chain has valid successors, the oldest valid successor becomes visible with its own timestamp and the later ones remain in the chain.", "quantifier": "every chain, every t", "why_tests_cant": "Only observable with chains of length >= 3 and later pushes.", "anchors": ["src/chained_reservoir.hpp: ChainedReservoirSampling::shift_chain, obsolete"]}
{"id": "C23", "title": "Chained reservoir: equal inclusion probability", "statement": "With an ideal uniform random source each element of the stream is in the sample with the same probability.", "quantifier": "every stream length, every position", "why_tests_cant": "Probabilities are not observable in unit tests.", "anchors": ["src/chained_reservoir.hpp: ChainedReservoirSampling::add, round"]}
{"id": "C24", "title": "LTC: reconstruction error bound", "statement": "With int samples at unit time steps and values within the clamping range, every sample lies within epsilon + j (1/(j+1) + ... + 1/n) of the straight line between the two transmitted points around it, j being its distance from the first of them and n the distance of the two; the second term is the effect of truncation and vanishes at the end of a segment.", "quantifier": "every stream of samples of every length, every epsilon >= 0, clamping range within +-2^19", "why_tests_cant": "The error bound is over all signals; tests check a few.", "anchors": ["src/ltc.hpp: LTC::add, need_transmit, update, get_value_to_transmit"]}
{"id": "C25", "title": "LTC: transmits only when necessary", "statement": "add returns true exactly when no straight line through the last segment start stays within epsilon of all samples since then including the new one; in particular a linear signal never transmits.", "quantifier": "every stream", "why_tests_cant": "Optimality is a statement about all lines and all signals.", "anchors": ["src/ltc.hpp: LTC::need_transmit"]}
{"id": "C26", "title": "LTC: error bound for integer samples and irregular time stamps", "statement": "Every sample lies within epsilon of the straight line between the two transmitted points around it: for int samples (as in the tests), for time stamps with gaps, and for time_unit_difference other than 1.", "quantifier": "every integer stream with increasing timestamps", "why_tests_cant": "The failing signals are specific; tests use unit steps.", "anchors": ["src/ltc.hpp: LTC::need_transmit, LTC::add"]}
{"id": "C27", "title": "LTC: transmission protocol", "statement": "The first two adds return false; a true result makes get_value_to_transmit well defined; successive transmitted timestamps are strictly increasing, the first one is the first sample, and each add transmits at most one point.", "quantifier": "every stream with increasing timestamps", "why_tests_cant": "All histories.", "anchors": ["src/ltc.hpp: LTC::add, get_value_to_transmit"]}
{"id": "C28", "title": "MC-NN: predict only answers trained labels or the empty class", "statement": "predict returns the empty class or a label given to train before; on a fresh classifier it returns the empty class, and after one train with finite features it returns that label for the same point.", "quantifier": "every history of train calls, every query point, any floating point arithmetic", "why_tests_cant": "Histories with splits, evictions and cleaning are unbounded.", "anchors": ["src/mc_nn.hpp: MCNN::predict, train, split"]}
{"id": "C29", "title": "MC-NN: predict is the nearest centroid", "statement": "predict returns the label of an active cluster that minimises the squared distance (the first such one), provided this distance is below 1000000; otherwise it returns the empty class although clusters exist.", "quantifier": "every reachable set of clusters, every query", "why_tests_cant": "Far-away queries depend on scale; tests use small features.", "anchors": ["src/mc_nn.hpp: MCNN::find_nearest_clusters, predict"]}
{"id": "C30", "title": "MC-NN: count_clusters equals the number of clusters in use", "statement": "count_clusters() is the number of active clusters and never exceeds max_cluster.", "quantifier": "every history, every cleaning method", "why_tests_cant": "The drift needs a split on a full table or a cleaning pass.", "anchors": ["src/mc_nn.hpp: MCNN::count_clusters, split, clean_low_performance_clusters, train"]}
{"id": "C31", "title": "MC-NN: train is memory safe and never loses the table", "statement": "train never indexes outside the cluster table, and for the cleaning methods that evict it always returns true; with the other method it returns false only when the table is full and then no cluster changes.", "quantifier": "every history, every cleaning method, every max_cluster >= 1", "why_tests_cant": "All table contents.", "anchors": ["src/mc_nn.hpp: MCNN::train, split, get_lowest_participation"]}
{"id": "C32", "title": "MC-NN: cluster statistics are sums of the incorporated points", "statement": "A cluster's count, feature sums and square sums are those of the points incorporated since its initialisation.", "quantifier": "every sequence of points", "why_tests_cant": "All sequences.", "anchors": ["src/mc_nn.hpp: MCNN::cluster::add, initialize, centroid, variance"]}
{"id": "C33", "title": "Error metric: score is the error rate", "statement": "After any non-empty sequence of updates since the last reset the score is (number of errors)/(number of updates), lies in [0,1], and the inverted score is its complement.", "quantifier": "every sequence of (prediction, label) pairs shorter than 2^31", "why_tests_cant": "All sequences.", "anchors": ["src/metrics.hpp: ErrorMetrics"]}
{"id": "C34", "title": "Kappa metric: score is Cohen's kappa", "statement": "After any sequence of updates the score equals Cohen's kappa of the sequence, does not depend on the order, lies in [-1,1], and equals 1 exactly when there is no disagreement (when the expected agreement is not 1).", "quantifier": "every sequence of label pairs, every number of labels", "why_tests_cant": "Algebraic identity over all confusion matrices.", "anchors": ["src/metrics.hpp: KappaMetrics"]}
{"id": "C35", "title": "Kappa metric: defined for every history and label count", "statement": "The score is a number for every non-empty history and increase_error stays in bounds for every label_count >= 1.", "quantifier": "every history, every label count", "why_tests_cant": "NaN and out-of-bounds only occur in degenerate histories.", "anchors": ["src/metrics.hpp: KappaMetrics::score, increase_error"]}
{"id": "C36", "title": "Reservoir-sampling metric: scores form a distribution", "statement": "The scores of sample_size established trees and the newest one sum to 1, each is in [0,1].", "quantifier": "every number of resets, every sample size", "why_tests_cant": "All counter values.", "anchors": ["src/metrics.hpp: ReservoirSamplingMetrics"]}
{"id": "C37", "title": "shuffle is an unbiased random permutation", "statement": "shuffle permutes the array (no element lost or duplicated), and with an ideal random source each permutation is equally likely.", "quantifier": "every array, every random stream in [0,1)", "why_tests_cant": "Distribution over permutations is not observable; only 2 of n! outcomes are looked at by a test.", "anchors": ["src/utils.hpp: Utils::shuffle"]}
{"id": "C38", "title": "Picking from a distribution", "statement": "turn_array_into_probability followed by pick_from_distribution returns the index whose cumulative interval contains the draw, always a valid index, and never an index of zero probability.", "quantifier": "every array of non-negative weights with positive sum, every draw in [0,1)", "why_tests_cant": "The failing draws (0, and rounding at the upper end) are rare.", "anchors": ["src/utils.hpp: Utils::turn_array_into_probability, pick_from_distribution"]}
{"id": "C39", "title": "index_max returns the first maximum", "statement": "index_max returns the smallest index holding the largest value of the array.", "quantifier": "every non-empty array without NaN", "why_tests_cant": "All arrays.", "anchors": ["src/utils.hpp: Utils::index_max"]}
{"id": "C40", "title": "Naive Bayes: running statistics equal batch statistics", "statement": "In exact arithmetic the estimator of each label and feature holds the weight, weighted mean and weighted sum of squared deviations of the values trained for that label, and predict does not depend on the order of training.", "quantifier": "every sequence of values with positive weights", "why_tests_cant": "Identity over all sequences.", "anchors": ["src/naive_bayes.hpp: GaussianEstimator::train"]}
{"id": "C41", "title": "Naive Bayes: predict is the first best label and training is local to a label", "statement": "predict returns a label in range maximising log prior plus log densities, ties to the smallest label; training a label leaves the estimators of all other labels unchanged.", "quantifier": "every history, every query", "why_tests_cant": "All histories.", "anchors": ["src/naive_bayes.hpp: NaiveBayes::predict, train"]}
{"id": "C42", "title": "Naive Bayes: the smoothing parameter matters", "statement": "The smoothing value given by the user influences predict.", "quantifier": "every model, every pair of smoothing values", "why_tests_cant": "A test cannot show that no model distinguishes two smoothing values.", "anchors": ["src/naive_bayes.hpp: NaiveBayes::smoothing, predict"]}
{"id": "C43", "title": "Perceptron: feed_forward computes the layered network", "statement": "The output is that of the mathematical network: each neuron applies the activation to bias plus weighted sum of the previous layer, with the weights given by set_weights, for every layer structure whose weights fit.", "quantifier": "every number of layers, layer sizes, weights, inputs, activation", "why_tests_cant": "Flat index arithmetic must agree for all shapes.", "anchors": ["src/perceptron.hpp: MultiLayerPerceptron::feed_forward, set_weights, get_weight_base, get_output_base"]}
{"id": "C44", "title": "Perceptron: backpropagate performs one gradient-descent step", "statement": "After feed_forward, backpropagate replaces each weight w by w - learning_rate*delta*input, with delta from the chain rule on the old weights, and returns the mean squared error, with no undefined behaviour.", "quantifier": "every network shape, weights, inputs, targets", "why_tests_cant": "All shapes; the out-of-bounds read cancels numerically and is invisible to tests.", "anchors": ["src/perceptron.hpp: MultiLayerPerceptron::backpropagate"]}
{"id": "C45", "title": "Perceptron: weights stay within the reserved memory", "statement": "set_weights, feed_forward and backpropagate stay within the arrays whenever the network's weights fit; a set_weights for one neuron or layer changes only that block.", "quantifier": "every shape", "why_tests_cant": "All shapes.", "anchors": ["src/perceptron.hpp: MultiLayerPerceptron::set_weights, total_weight_count"]}
{"id": "C46", "title": "Hoeffding tree: prediction depends on the leaf a point falls into", "statement": "Different leaves hold separate statistics, so that training points that fall in one leaf do not change the prediction for points that fall in another.", "quantifier": "every history of train calls, every pair of query points", "why_tests_cant": "Shared counters show only after a split on particular data.", "anchors": ["src/hoeffding_tree.hpp: Node::Node, operator new, get_counters, predict, train"]}
{"id": "C47", "title": "Hoeffding tree: the selected split is the evaluated one", "statement": "The feature returned for the best candidate is the feature whose limit produced this information gain.", "quantifier": "every array of feature sizes, every candidate index", "why_tests_cant": "Needs unequal positions among several features.", "anchors": ["src/hoeffding_tree.hpp: Node::train (best split recovery)"]}
{"id": "C48", "title": "Hoeffding tree: bounding boxes follow the data", "statement": "The per-feature lower and upper bounds of a leaf are those of the points trained in it, and split limits of a new leaf are finite.", "quantifier": "every history", "why_tests_cant": "All histories.", "anchors": ["src/hoeffding_tree.hpp: Node::Node, train, select_split_values"]}
{"id": "C49", "title": "Hoeffding tree: memory exhaustion", "statement": "When the node buffer is full, train keeps working without undefined behaviour.", "quantifier": "every buffer size, every history", "why_tests_cant": "Needs exactly the exhausting history.", "anchors": ["src/hoeffding_tree.hpp: HoeffdingTree::operator new, split"]}
{"id": "C50", "title": "Mondrian forest: no training point is lost or counted twice", "statement": "In every tree the leaf counters sum, per label, to the number of training points with that label, also after the node pool is exhausted.", "quantifier": "every history of finite points (at most 2^31-1) and predictions, every random stream in (0,1), every pool with a node per tree, every lifetime >= 0", "why_tests_cant": "All tree shapes.", "anchors": ["src/mondrian.hpp: MondrianForest::train, extend_block, sample_block"]}
{"id": "C51", "title": "Mondrian forest: trees stay well formed and boxes tight", "statement": "Every tree is a proper binary tree with consistent parent links; trees share no node; each node's box is the exact bounding box of the points trained below it; node times do not decrease from parent to child.", "quantifier": "every history of finite points (at most 2^31-1) and predictions, every random stream in (0,1), every pool with a node per tree, every lifetime >= 0", "why_tests_cant": "All tree shapes.", "anchors": ["src/mondrian.hpp: MondrianForest::extend_block, Node"]}
{"id": "C52", "title": "Mondrian forest: trained points are routed to the leaf that counted them", "statement": "In exact arithmetic, following the splits for a trained point reaches a leaf whose box contains the point and whose counter for its label is positive.", "quantifier": "every history", "why_tests_cant": "Routing must hold after all later restructurings.", "anchors": ["src/mondrian.hpp: MondrianForest::extend_block, predict_tree"]}
{"id": "C53", "title": "Mondrian forest: train reports success and predict reports scores", "statement": "train returns true when the point was learned, and predict fills the scores array given by the caller.", "quantifier": "every call", "why_tests_cant": "An uninitialised bool looks right in most runs.", "anchors": ["src/mondrian.hpp: MondrianForest::train, predict"]}
{"id": "C54", "title": "Mondrian forest: no undefined behaviour for any random source in [0,1) and any pool size", "statement": "train never reads uninitialised values or indexes outside the node pool, and does not leak pool nodes.", "quantifier": "every pool size, every random stream in [0,1)", "why_tests_cant": "Needs draws of exactly 0 or an almost full pool.", "anchors": ["src/mondrian.hpp: MondrianForest::extend_block, train_tree, available_node"]}
{"id": "C55", "title": "Unbounded Mondrian forest: incremental counters equal recomputed counters", "statement": "After every train, each internal node's counter per label equals min(1,left)+min(1,right), and the leaves count every training point exactly once; every node is owned by exactly one parent.", "quantifier": "every history of finite points (at most 2^63-1), every random stream in (0,1), every lifetime >= 0", "why_tests_cant": "All tree shapes.", "anchors": ["src/mondrian_unbound.hpp: Node::update_counters, extend_block, sample_block"]}
{"id": "C56", "title": "Coarse Mondrian forest: default configuration learns", "statement": "With the default extend type, training points after the first influence the forest.", "quantifier": "every history", "why_tests_cant": "A test cannot show the absence of any effect over all histories.", "anchors": ["src/mondrian_coarse.hpp: CoarseMondrianForest::train_tree"]}
{"id": "C57", "title": "Coarse Mondrian forest: node accounting", "statement": "The nodes in use are exactly those of the trees, each in one place, and the number of available nodes kept by the forest equals the number of free nodes in the pool.", "quantifier": "every history, every extend type except barycenter, every trim type", "why_tests_cant": "All histories.", "anchors": ["src/mondrian_coarse.hpp: CoarseMondrianForest::available_node, extend_block0, node_reset, cut_block"]}
{"id": "C58", "title": "Coarse Mondrian forest: resetting a subtree", "statement": "node_reset frees exactly the nodes of the subtree and reports success.", "quantifier": "every tree of depth at most the stack bound", "why_tests_cant": "All tree shapes.", "anchors": ["src/mondrian_coarse.hpp: CoarseMondrianForest::node_reset, tree_reset"]}
{"id": "C59", "title": "Cuckoo filter: the last slot of a bucket is never relocated", "statement": "With at least two slots per bucket and a random source in [0,1), an entry stored in the last slot of its bucket stays there through every later add, successful or not, so add can fail although moving it would make room.", "quantifier": "every filter content, every element, every random stream in [0,1)", "why_tests_cant": "Absence of an effect over all random streams and all 500-step relocation chains.", "anchors": ["src/cuckoo_filter.hpp: CuckooFilter::add"]}
{"id": "C60", "title": "Reservoir sampling: all subsets are equally likely", "statement": "With an ideal uniform random source, after n >= sample_size elements, any r distinct positions are together in the sample with probability exactly k(k-1)...(k-r+1)/(n(n-1)...(n-r+1)), k = sample_size; for r = k every k-subset of the stream is equally likely.", "quantifier": "every n below 2^32, every sample size, every set of positions", "why_tests_cant": "A joint probability over all subsets is not observable from runs.", "anchors": ["src/reservoir_sampling.hpp: ReservoirSampling::sample_index, add"]}
{"id": "C61", "title": "round returns a nearest integer", "statement": "Utils::round returns an integer at distance at most one half from its argument.", "quantifier": "every double whose nearest integers fit in an int", "why_tests_cant": "The failing double is one in 2^64.", "anchors": ["src/utils.hpp: Utils::round"]}
{"id": "C62", "title": "rand_exponential is the inverse of the exponential distribution function", "statement": "rand_exponential(rate) maps a uniform draw u to the non-negative x with 1 - exp(-rate x) = u.", "quantifier": "every draw in [0,1), every positive rate", "why_tests_cant": "An identity over all reals.", "anchors": ["src/utils.hpp: Utils::rand_exponential"]}
{"id": "C63", "title": "div_int divides towards zero", "statement": "div_int(a,b) is the quotient of a by b rounded towards zero, with no overflow for b != 0 except INT_MIN / -1.", "quantifier": "every pair of ints", "why_tests_cant": "2^64 pairs.", "anchors": ["src/utils.hpp: Utils::div_int"]}
{"id": "C64", "title": "Chained reservoir: streams of any length", "statement": "add never fails an assertion, whatever the length of the stream.", "quantifier": "every sample size, every stream, every random stream in [0,1)", "why_tests_cant": "The limit is reached only after thousands of elements with unlucky draws.", "anchors": ["src/chained_reservoir.hpp: ChainedReservoirSampling::push_on_chain, add"]}
{"id": "C65", "title": "Naive Bayes: predict answers with a label seen in training", "statement": "The label returned by predict was given to at least one train call.", "quantifier": "every non-empty training history, every query", "why_tests_cant": "Needs all scores to be minus infinity at once.", "anchors": ["src/naive_bayes.hpp: NaiveBayes::predict, GaussianEstimator::probability_density"]}
{"id": "C66", "title": "Naive Bayes: floating point estimates stay meaningful", "statement": "In binary64 the running mean never leaves the range of the trained values and the running variance is never negative.", "quantifier": "every training history of bounded values, default and other positive weights", "why_tests_cant": "Depends on rounding of every step.", "anchors": ["src/naive_bayes.hpp: GaussianEstimator::train"]}
{"id": "C67", "title": "Perceptron: the arrays stay within max_size bytes", "statement": "The weights and the neuron outputs together take at most max_size bytes, as the template parameter says (the maximal size used by the object).", "quantifier": "every max_size", "why_tests_cant": "Depends on the remainder of max_size; tests use one or two sizes and never measure the object.", "anchors": ["src/perceptron.hpp: MultiLayerPerceptron::total_weight_count"]}
{"id": "C68", "title": "MC-NN: geometry of a split", "statement": "Splitting a cluster replaces it by one cluster one standard deviation above its centre along the feature of greatest variance, and puts the one below into a free slot or, with the evicting methods, into the slot of least participation; both keep the label and get a fresh error count; no other cluster changes.", "quantifier": "every reachable table of double features, every cluster in use", "why_tests_cant": "Splits need many misclassified points; tests only look at predictions.", "anchors": ["src/mc_nn.hpp: MCNN::split, get_lowest_participation, Cluster::variance, initialize"]}
{"id": "C69", "title": "MC-NN: integer features", "statement": "With feature_type int and small features, training has no undefined behaviour.", "quantifier": "every history of points with coordinates between -200 and 200", "why_tests_cant": "Only a split of a cluster with a negative feature sum goes wrong.", "anchors": ["src/mc_nn.hpp: MCNN::split"]}
{"id": "C70", "title": "MC-NN: one training step", "statement": "train gives the point to the nearest cluster of its class (error count up by one if no cluster is nearer; otherwise both this cluster and the nearest one lose one), and founds a cluster when no cluster of this class is within distance 1000000, in the first free slot or in the slot of least participation.", "quantifier": "every reachable table, every point and label, every cleaning method", "why_tests_cant": "Needs the internal statistics and distances, including ties and NaN.", "anchors": ["src/mc_nn.hpp: MCNN::train, find_nearest_clusters, clean_low_performance_clusters, Cluster::incorporate"]}
{"id": "C71", "title": "MC-NN: a class just trained is represented", "statement": "When train returns true, some cluster in use carries the label of the point.", "quantifier": "every reachable table, every cleaning method", "why_tests_cant": "Needs a split on a full table whose eviction hits the class itself.", "anchors": ["src/mc_nn.hpp: MCNN::train, split"]}
{"id": "C72", "title": "Hoeffding tree: histograms", "statement": "After any sequence of calls, the counter of a label, a feature and a bin is the number of points with this label since the last split whose value of the feature falls in the bin, bins being delimited by the limits in force when the point was trained.", "quantifier": "every history of train and set_limits calls, every label, feature and bin", "why_tests_cant": "All histories; the counters are packed in one byte buffer.", "anchors": ["src/hoeffding_tree.hpp: Node::train, get_counters"]}
{"id": "C73", "title": "Hoeffding tree: set_limits", "statement": "set_limits installs the given limits without undefined behaviour, whatever was trained before.", "quantifier": "every history", "why_tests_cant": "Needs a call after the first split.", "anchors": ["src/hoeffding_tree.hpp: set_limits, Node::set_limits"]}
{"id": "C74", "title": "Hoeffding tree: predicted label and scores", "statement": "The scores are the frequencies of the labels among the points since the last split, correctly rounded, and the label is the first one of highest frequency.", "quantifier": "every history, every query point", "why_tests_cant": "All histories; ties and rounding.", "anchors": ["src/hoeffding_tree.hpp: predict, Node::predict"]}
{"id": "C75", "title": "Hoeffding tree: number of splits", "statement": "The tree is split at most once in its life: it has one node or three nodes.", "quantifier": "every history, every pair of logarithm functions", "why_tests_cant": "All histories.", "anchors": ["src/hoeffding_tree.hpp: train, split, select_split_values"]}
{"id": "C76", "title": "Hoeffding tree: information gains", "statement": "In exact arithmetic the value accumulated for a candidate is the sum, over the points since the last split, of the information gain (entropy of the labels minus the weighted entropies of both sides) of the points seen so far.", "quantifier": "every history, every candidate", "why_tests_cant": "Real-valued equality over all histories.", "anchors": ["src/hoeffding_tree.hpp: compute_information_gain, compute_entropy, Node::train"]}
{"id": "C77", "title": "Hoeffding tree: split rule", "statement": "In exact arithmetic a leaf is split exactly when the mean gain of the best candidate is positive and the square of its advance over the second best exceeds 4 log(1/delta) / (2n); the limit used is that of a best candidate.", "quantifier": "every history, every point, every delta", "why_tests_cant": "Real-valued equivalence over all histories.", "anchors": ["src/hoeffding_tree.hpp: Node::train, train"]}
{"id": "C78", "title": "Hoeffding tree: few candidates", "statement": "Training has no undefined behaviour for any array of positive feature sizes, including a single candidate limit.", "quantifier": "every array of feature sizes", "why_tests_cant": "Needs the smallest configuration.", "anchors": ["src/hoeffding_tree.hpp: Node::train (two best)"]}
{"id": "C79", "title": "Hoeffding tree: routing", "statement": "A point ends in a leaf such that at every inner node passed it went to the left child exactly when its value of the node's feature was at most the node's limit; the boxes of the two leaves of a split are the half spaces of that split.", "quantifier": "every history, every point", "why_tests_cant": "All histories; values equal to the limit, NaN.", "anchors": ["src/hoeffding_tree.hpp: sort_in_leaf, split"]}
{"id": "C80", "title": "Mondrian forest: a prediction only recomputes the counters of internal nodes", "statement": "predict never fails, returns one of the labels, leaves roots, boxes, splits, times, leaf counters and the random stream as they are, and afterwards the counters of every internal node say for each label in how many of its two subtrees it was trained.", "quantifier": "every history, every point asked for (also not finite)", "why_tests_cant": "The counters of internal nodes are only observable through later predictions.", "anchors": ["src/mondrian.hpp: MondrianForest::predict, update_posterior_count, predict_tree"]}
{"id": "C81", "title": "Mondrian forest: the label predicted for a trained point", "statement": "In exact arithmetic, the label predicted for a trained point is the first one with the greatest mean over the trees, where the mean of a tree is passed from the root to the leaf of the point: a node with counters c gives a label it knows (c - D + D*S*m)/C, with m the mean of its parent, S the number of labels it knows, C the sum of its counters and D the discount of the time since its parent; other labels keep the mean of the parent.", "quantifier": "every history, every trained point, every draw sequence in (0,1)", "why_tests_cant": "A formula over all trees and all histories.", "anchors": ["src/mondrian.hpp: MondrianForest::predict, predict_tree, compute_posterior_mean"]}
{"id": "C82", "title": "Mondrian forest: a single training point is predicted with its own label", "statement": "A forest trained with one point predicts for this point the label it was trained with.", "quantifier": "every forest parameter, at least two labels", "why_tests_cant": "Depends on the sign of the discount factor; tests use one value.", "anchors": ["src/mondrian.hpp: MondrianForest::predict, compute_posterior_mean"]}
{"id": "C83", "title": "Mondrian forest: node use", "statement": "A tree has at most as many leaves as training points, and exactly one internal node less than leaves, so a tree uses at most 2n-1 nodes for n points.", "quantifier": "every history", "why_tests_cant": "All tree shapes.", "anchors": ["src/mondrian.hpp: MondrianForest::extend_block, available_node"]}
{"id": "C84", "title": "Mondrian forest: the label predicted for any point", "statement": "In exact arithmetic, the label predicted for any point is the first one with the greatest mean over the trees. In a tree the point is led down by the splits; at each node of time t whose box it misses by eta (sum over the features) it leaves the tree with probability 1 - exp(-t*eta) and then gets the means of a new leaf, (k - d*k + S*m)/S for a label, with k = 1 if the node knows the label and 0 otherwise, S the number of known labels, m the mean of the parent and d = eta/(eta+g) * (1-exp(-(eta+g)t))/(1-exp(-eta*t)) for the discount factor g; otherwise it goes on with the means of the node, and at the leaf it gets those.", "quantifier": "every history, every query point, every draw sequence in (0,1)", "why_tests_cant": "A formula over all trees, histories and points.", "anchors": ["src/mondrian.hpp: MondrianForest::predict, predict_tree, compute_posterior_mean"]}
{"id": "C85", "title": "Mondrian forest: one label only", "statement": "A forest trained with points of one label predicts this label for every point.", "quantifier": "every forest parameter, every query point", "why_tests_cant": "Depends on the sign of the discount factor and on the distance of the query point.", "anchors": ["src/mondrian.hpp: MondrianForest::predict, predict_tree"]}
{"id": "C86", "title": "Unbounded Mondrian forest: training is defined", "statement": "train never reads an uninitialised value, never indexes outside of an array and always terminates.", "quantifier": "every history of finite points, every random stream in (0,1) or [0,1)", "why_tests_cant": "Needs rare draws, rounding or overflow.", "anchors": ["src/mondrian_unbound.hpp: MondrianUnbound::extend_block, train_tree", "src/utils.hpp: Utils::pick_from_distribution"]}
{"id": "C87", "title": "Unbounded Mondrian forest: trained points are routed to the leaf that counted them", "statement": "In exact arithmetic, following the splits for a trained point reaches a leaf whose box contains the point and whose counter for its label is positive.", "quantifier": "every history (at most 2^63-1 points), every random stream in (0,1), every lifetime >= 0", "why_tests_cant": "Routing must hold after all later restructurings.", "anchors": ["src/mondrian_unbound.hpp: extend_block, predict_tree"]}
{"id": "C88", "title": "Unbounded Mondrian forest: predictions", "statement": "predict never fails, returns one of the labels and does not change the forest; in exact arithmetic the label is the first one with the greatest mean over the trees, where the mean of a tree is the one described for the bounded forest, with the counters kept by training.", "quantifier": "every history, every query point", "why_tests_cant": "A formula over all trees, histories and points.", "anchors": ["src/mondrian_unbound.hpp: predict, predict_tree, compute_posterior_mean"]}
{"id": "C89", "title": "Unbounded Mondrian forest: memory", "statement": "A tree has at most as many leaves as training points and one internal node less than leaves; with n points and T trees, between T and T*(2n-1) nodes were allocated, and each of them belongs to exactly one tree.", "quantifier": "every history", "why_tests_cant": "All tree shapes.", "anchors": ["src/mondrian_unbound.hpp: extend_block, train_tree"]}
{"id": "C90", "title": "Unbounded Mondrian forest: train reports success and predict reports scores", "statement": "train returns true when the point was learned, and predict fills the scores array given by the caller.", "quantifier": "every call", "why_tests_cant": "An uninitialised bool looks right in most runs.", "anchors": ["src/mondrian_unbound.hpp: train, predict"]}
{"id": "C91", "title": "Coarse Mondrian forest: size limit", "statement": "The height of a tree never exceeds the size limit (or one node, when the limit is smaller); under the other managements that take a limit, the number of nodes of a tree does not exceed it.", "quantifier": "every history", "why_tests_cant": "All histories and random streams.", "anchors": ["src/mondrian_coarse.hpp: pause, node_depth, unravel, is_paused"]}
{"id": "C92", "title": "Coarse Mondrian forest: default size limit", "statement": "With the default management and the default size limit the trees grow.", "quantifier": "every history", "why_tests_cant": "A test cannot show the absence of any growth over all histories.", "anchors": ["src/mondrian_coarse.hpp: CoarseMondrianForest constructor, pause"]}
{"id": "C93", "title": "Coarse Mondrian forest: every point is counted once", "statement": "With the original extend type and no trimming, the leaves of each tree count every training point exactly once under its label, and count_data_point_tree returns the number of training points (or -1 when its stack overflows).", "quantifier": "every history of finite points, every random stream in (0,1)", "why_tests_cant": "All histories, tree shapes and random streams.", "anchors": ["src/mondrian_coarse.hpp: extend_block0, train_tree, count_data_point_tree"]}
{"id": "C94", "title": "Coarse Mondrian forest: points of the other extend types", "statement": "With the partial-update and the counter-no-update extend types every tree counts each training point once.", "quantifier": "every history", "why_tests_cant": "Needs a full pool or a point outside of the boxes.", "anchors": ["src/mondrian_coarse.hpp: extend_block2, extend_block3"]}
{"id": "C95", "title": "Coarse Mondrian forest: ghost extension", "statement": "With the ghost extend type and no trimming, the counters of the root of each tree are the label counts of all training points, also when the pool is full.", "quantifier": "every history", "why_tests_cant": "All histories and random streams.", "anchors": ["src/mondrian_coarse.hpp: extend_block1, train_tree"]}
{"id": "C96", "title": "Coarse Mondrian forest: storage", "statement": "A forest can be trained after construction wherever it is stored.", "quantifier": "every configuration", "why_tests_cant": "Indeterminate values often are zero in a test.", "anchors": ["src/mondrian_coarse.hpp: CoarseMondrianForest constructor, train (sum_features)"]}
{"id": "C97", "title": "Coarse Mondrian forest: margin of a label", "statement": "eval_scores returns the score of the label minus the best score of the other labels.", "quantifier": "every array of scores that are numbers, every label", "why_tests_cant": "Wrong only when label 0 has the best score.", "anchors": ["src/mondrian_coarse.hpp: eval_scores"]}
{"id": "C98", "title": "Coarse Mondrian forest: trees asked and scores returned by predict", "statement": "predict with tree_to_use = k answers from the first k trees for every k, and fills the scores array given by the caller.", "quantifier": "every call", "why_tests_cant": "A sum over no tree and reads past the roots rarely crash.", "anchors": ["src/mondrian_coarse.hpp: predict"]}
{"id": "C99", "title": "Coarse Mondrian forest: which leaf is trimmed", "statement": "With trimming by counts, a trim removes from a tree at most one leaf, a leaf that counts no more points than any other leaf of that tree, and only if its share of the points of the tree is not above the limit that the configuration sets.", "quantifier": "every configuration without the barycenter extension and with up-to-date leaf counters, every history of at most 2^53 points", "why_tests_cant": "The leaf is found in a walk that compares doubles; a test sees a few trees.", "anchors": ["src/mondrian_coarse.hpp: tree_trim"]}
{"id": "C100", "title": "Coarse Mondrian forest: barycenter extension", "statement": "With the barycenter extension the pool always holds trees: no node is shared by two parents or reached twice, and training never leaves the arrays.", "quantifier": "every history", "why_tests_cant": "It takes some points before a tree is built wrongly, and nothing crashes then.", "anchors": ["src/mondrian_coarse.hpp: train_tree (EXTEND_BARYCENTER)"]}
{"id": "C101", "title": "Coarse Mondrian forest: trimming by fading scores", "statement": "With TRIM_FADING the leaf that is removed is the one whose points, discounted by age, weigh least.", "quantifier": "every history", "why_tests_cant": "The scores depend on all points of a long history.", "anchors": ["src/mondrian_coarse.hpp: tree_fade_counts, train, tree_trim"]}
{"id": "C102", "title": "Mondrian forests: bounded and unbounded forest agree", "statement": "As long as the pool of the bounded forest is large enough for the nodes of the unbounded one, both learn the same trees from the same points and the same draws and predict the same.", "quantifier": "every history, every query, any functions in place of exp and log, draws in (0,1)", "why_tests_cant": "The two classes are separate copies of the algorithm with different storage; tests compare at most a few predictions.", "anchors": ["src/mondrian.hpp: train, predict", "src/mondrian_unbound.hpp: train, predict"]}
{"id": "C103", "title": "Mondrian forests: coarse and unbounded forest agree", "statement": "Configured with the original extension, phoenix management and no trimming, the coarse forest learns the same trees as the unbounded one as long as its pool is large enough, reports that it learned every point, and predicts the same.", "quantifier": "every history, every query, any functions in place of exp and log, draws in (0,1)", "why_tests_cant": "The two classes are separate copies of the algorithm with different storage; tests compare at most a few predictions.", "anchors": ["src/mondrian_coarse.hpp: train, predict", "src/mondrian_unbound.hpp: train, predict"]}
{"id": "C104", "title": "Coarse Mondrian forest: training is defined", "statement": "Training with a valid point always ends and never reads or writes outside of an array, whatever the size limit.", "quantifier": "every history of fewer than 2^31-1 points, every configuration without the barycenter extension (with trimming, every draw is below 1)", "why_tests_cant": "The stack of the height search overflows only for trees that are more than 100 nodes high.", "anchors": ["src/mondrian_coarse.hpp: train, train_tree, extend_block0, extend_block1, extend_block2, extend_block3, node_depth, pause"]}
{"id": "C105", "title": "Exponential reservoir: decay of the inclusion probability", "statement": "With an ideal uniform random source, an element followed by a others is in the exponential reservoir with probability exactly (1 - 1/sample_size)^a, whatever the number of elements before it and whether or not the reservoir is full; for a set of elements the probability that all of them are present is the product, over the adds, of (1 - r/sample_size), where r is the number of members of the set added before.", "quantifier": "every sample size, every stream length, every element or set of elements", "why_tests_cant": "A probability is not observable from one run; statistical tests only bound it.", "anchors": ["src/reservoir_sampling.hpp: ExponentialReservoirSampling::sample_index, add"]}
{"id": "C106", "title": "Coarse Mondrian forest: predict is defined", "statement": "predict, asked in any state with a vector of feature_count values and at most as many trees as the forest has, returns a label of the forest and never reads outside of an array or an uninitialised value.", "quantifier": "every history, every vector (also with NaN and infinite values), every trim type, every extend type except barycenter, every tree_to_use up to the number of trees", "why_tests_cant": "the boxes of the nodes are copied, widened and moved between nodes by a dozen code paths; a node whose box is left unwritten would only be noticed when a prediction reads it", "anchors": ["src/mondrian_coarse.hpp:2108-2171", "src/mondrian_coarse.hpp:2216-2246", "src/mondrian_coarse.hpp:3264-3294"]}
{"id": "C107", "title": "Coarse Mondrian forest: predictions do not disturb each other", "statement": "A prediction changes nothing but the counters of internal nodes, which afterwards tell for each label how many of the two subtrees count it; the outcome of a prediction (label and state) does not depend on the predictions made before it.", "quantifier": "every history, every two points, every tree_to_use, every trim type, every extend type except barycenter", "why_tests_cant": "predict modifies the forest; a test that predicts each point once cannot see whether the order or the number of predictions matters", "anchors": ["src/mondrian_coarse.hpp:2108-2171", "src/mondrian_coarse.hpp:2216-2246", "src/mondrian_coarse.hpp:3264-3294"]}
{"id": "C108", "title": "Coarse Mondrian forest: asking does not change what is learned", "statement": "Two forests trained with the same points in the same order hold the same trees (node numbers, splits, leaf counters), have drawn the same random numbers, return the same for the next training call and give the same answer to every question, whatever predictions were requested from either of them in between.", "quantifier": "every history, any predictions at any moments, every question, every trim type, every extend type except barycenter", "why_tests_cant": "predict writes into nodes that training reads; interference would need a particular interleaving of predictions, trimming and splits to show", "anchors": ["src/mondrian_coarse.hpp: train, train_tree, extend_block0, extend_block1, extend_block2, extend_block3, tree_trim, fade_count, predict, update_posterior_count"]}
{"id": "C109", "title": "Mondrian forest: asking does not change what is learned", "statement": "Two forests trained with the same points in the same order hold the same trees, have drawn the same random numbers, return the same for the next training call and give the same answer to every question, whatever predictions were requested from either of them in between.", "quantifier": "every history of at most 2^31-1 points, any predictions at any moments, every question, every number of nodes from the number of trees up", "why_tests_cant": "predict writes into nodes that training reads; interference would need a particular interleaving of predictions and splits to show", "anchors": ["src/mondrian.hpp: train, train_tree, extend_block, sample_block, predict, update_posterior_count"]}
{"id": "C110", "title": "Coarse Mondrian forest: the self-check of the debug build never fires", "statement": "The self-check that the debug build runs on every tree after each training accepts, so that the debug build trains exactly like the normal one, as long as no tree is higher than 101 nodes (guaranteed by a size limit of at most 101 or by at most 202 nodes). For a tree of height 102 the check reads outside of its stack.", "quantifier": "every history, every point, every trim type, every extend type except barycenter", "why_tests_cant": "the check runs on the trees that a test happens to build; that it accepts all trees that can be built is a statement about all histories", "anchors": ["src/mondrian_coarse.hpp: tree_checker, train"]}
{"id": "C111", "title": "Coarse Mondrian forest: printing lists every node once", "statement": "After a training, printing the forest prints each node of each tree exactly once, a node before its children and the right child first, with its tree, its depth, whether it is a leaf and its present contents, when no tree is higher than 101 nodes and there are at least as many nodes as trees. If a tree could not be created for lack of nodes, printing reads in front of the nodes.", "quantifier": "every history, every configuration with a size limit of at most 101 or at most 202 nodes", "why_tests_cant": "printed output is not compared by tests, and the missing tree needs a memory smaller than one node per tree", "anchors": ["src/mondrian_coarse.hpp: printy, tree_printy, node_csv"]}
{"id": "C112", "title": "Coarse Mondrian forest: printing does not change the forest", "statement": "A forest that prints (print_nodes) returns the same from each training call, holds the same trees and gives the same answers as one that does not, except with the ghost extension, where printing recounts the counters that predictions use and changes their answers. The line printed for the whole forest repeats the scores of the last tree instead of those of the forest, and is made of uninitialised memory if there is no tree.", "quantifier": "every history, any predictions in between, every trim type, every extend type except barycenter and ghost", "why_tests_cant": "needs the comparison of two forests over all histories; the ghost difference shows only for some points after several trainings", "anchors": ["src/mondrian_coarse.hpp: scory, printy, train, predict"]}
{"id": "C113", "title": "Coarse Mondrian forest: fading scores", "statement": "With trimming by fading counts, only leaves have a score and no score is negative. A training call multiplies the score of every leaf by 0.995 once, then adds one to the score of the leaf that counts the point; a leaf made for the point starts at zero and all other scores only fade. When the memory is full and the number of trained points is a multiple of 100, each tree first loses a leaf whose faded score is the lowest of the tree, and the score of that leaf returns to zero; a tree keeps all of its leaves if it has only one or if the share of the lowest score in the sum of the scores is above the limit for trimming.", "quantifier": "every history, every point, every draw, every limit, trees of a height of at most 100 nodes, every extend type except barycenter, ghost and counter without update", "why_tests_cant": "the scores are not visible from outside and change with every training; which leaf goes depends on all of the history, and a score that survives its leaf shows only when the node is used again", "anchors": ["src/mondrian_coarse.hpp:1747-1890", "src/mondrian_coarse.hpp: train, train_tree, extend_block, tree_trim, tree_fade_counts, reset_node"]}
{"id": "C114", "title": "Coarse Mondrian forest: bringing the counters up to date needs a node for every tree", "statement": "When the counters are brought up to date after every point (UNBOUND_OPTIMIZE), training is defined for every history if and only if there are at least as many nodes as trees; with fewer nodes the very first training is undefined behaviour, because the tree without a node is updated as well.", "quantifier": "every configuration without the barycenter extension, every history of fewer than 2^31-1 points, every point", "why_tests_cant": "the read at index -1 usually returns some byte of the array before, so that a test does not fail; the other direction is about all histories", "anchors": ["src/mondrian_coarse.hpp: train, train_tree, update_posterior_count, get_leaf"]}
{"id": "C115", "title": "Coarse Mondrian forest: the barycenter extension keeps the trees", "statement": "With the barycenter extension and no split trigger, after every history the nodes in use form the trees of the forest, one root for each tree, no node in two places, the number of available nodes is the number of nodes that are in no tree, and no counter of a leaf is negative.", "quantifier": "every history, every point, every trim type (random trimming with draws below 1), every split helper and tree management", "why_tests_cant": "a barycenter split happens only when the memory was full and a trim freed two nodes, which needs more than a hundred points; a lost or shared node shows only much later", "anchors": ["src/mondrian_coarse.hpp:807-900", "src/mondrian_coarse.hpp:1095-1233", "src/mondrian_coarse.hpp: train, train_tree, tree_trim"]}
{"id": "C116", "title": "Coarse Mondrian forest: the barycenter extension counts every point once", "statement": "With the barycenter extension and no split trigger, a training call makes the leaves of each tree count the point exactly once under its label; all other counts stay, except that a tree may lose the points of one leaf, only when the forest trims and has at most one node left. A point is not counted by a tree if it meets a split value with which it cannot be compared (NaN). A tree that is created counts the one point, and a tree that is not created finds no node left.", "quantifier": "every reachable state, every point and label, every trim type, split helper and tree management", "why_tests_cant": "the counters are not visible from outside, and the splits at the barycenter move counters between nodes in rare states only", "anchors": ["src/mondrian_coarse.hpp:807-900", "src/mondrian_coarse.hpp:1095-1233", "src/mondrian_coarse.hpp: adjust_counters, count_sides"]}
{"id": "C117", "title": "Coarse Mondrian forest: a barycenter split does not divide the points of a leaf", "statement": "With the barycenter extension and no split trigger, each leaf after a training call has the counts of one leaf from before the call, or no counts, plus possibly the new point. So a leaf split at the barycenter gives all of its points to one side, although the code computes a share for each side: the box of the leaf is cut before the share is computed, which makes the share zero or one.", "quantifier": "every reachable state, every point and label, every trim type, split helper and tree management", "why_tests_cant": "that no state divides the points is a statement about all histories; a test of one split cannot tell the wrong share from a box that lies on one side", "anchors": ["src/mondrian_coarse.hpp:1095-1233", "src/mondrian_coarse.hpp: adjust_counters, adjust_boxes"]}
{"id": "C118", "title": "Coarse Mondrian forest: the barycenter is the weighted mean of the leaves", "statement": "find_barycenter returns, for each feature, the mean of the middles of the boxes of the leaves below the node, each weighted with the number of points of the leaf.", "quantifier": "every state with a tree or subtree of at most 100 levels, all boxes and counters, exact arithmetic", "why_tests_cant": "the walk keeps its place in a stack and stops at the node where it began; a wrong turn in some shape of tree shows only in that shape, and the mean has no visible effect until a split", "anchors": ["src/mondrian_coarse.hpp:1679-1746"]}
{"id": "C119", "title": "Coarse Mondrian forest: the two sides of a split", "statement": "count_sides distributes the points of the leaves over the two sides and the sum is the number of points below the node: a leaf whose box contains the split value is divided in proportion with an error of less than one point. A leaf whose box lies at or above the split value counts for the left side and one whose box lies below counts for the right side, so the sides of the undivided leaves are exchanged (a point below the split is counted on the right).", "quantifier": "every state with a tree or subtree of at most 100 levels, every split, boxes and counters; exact arithmetic, any draws", "why_tests_cant": "the rounding error goes to a random side, so a test cannot expect one result; that nothing is lost is about all boxes and splits", "anchors": ["src/mondrian_coarse.hpp:1235-1307"]}
{"id": "C120", "title": "Coarse Mondrian forest: splitting a node does not keep the points", "statement": "When a node is split at a value (adjust_counters, split trigger), the points of the node should be kept. This is false: adjust_counters rounds both halves of a counter up, so two points can become four, and a training call that splits a node can lose points that are not those of the one leaf that is trimmed.", "quantifier": "refutation by reachable states of a forest with the split trigger", "why_tests_cant": "a split by the trigger happens after more than a hundred points, in a full memory, and the counters are not visible from outside", "anchors": ["src/mondrian_coarse.hpp:1439-1505", "src/mondrian_coarse.hpp:980-1094", "src/mondrian_coarse.hpp:1309-1437"]}
{"id": "C121", "title": "Coarse Mondrian forest: place of a split at the barycenter", "statement": "When a leaf is split at the barycenter, the new node above the leaf splits in a dimension where the barycenter lies strictly inside the box of the leaf and where the barycenter and the training point differ. The split value lies between the barycenter and the point, and the time of the new node lies between the time of the parent and the time of the leaf, also after rounding.", "quantifier": "all binary64 forests whose nodes form trees (reached or in the middle of a training call), all leaves, points, draws strictly between 0 and 1 and both helpers", "why_tests_cant": "a rounding error that puts the split value beyond the point shows only for particular draws and values", "anchors": ["src/mondrian_coarse.hpp:1095-1233", "src/utils.hpp:13-42"]}
{"id": "C122", "title": "Coarse Mondrian forest: predictions with the barycenter extension", "statement": "Also after trainings with EXTEND_BARYCENTER (without the split trigger), predict with at most as many trees as the forest has returns a label of the forest without reading outside of an array or an uninitialised box; it keeps the nodes and leaves of every tree and changes at most the counters of internal nodes, which then tell in how many of the two subtrees a label occurs; and no prediction changes the outcome of another one. tree_to_use itself is not checked: a call that asks for more trees than there are reads behind the array of the roots.", "quantifier": "every history of trainings and predictions with the barycenter extension, every vector (also with NaN and infinite values), every split helper, every trim type covered by C115, every tree_to_use up to the number of trees; one witness for the last sentence", "why_tests_cant": "the barycenter split copies the box of a leaf, cuts it, clips every box below and may reset nodes; a box left unwritten in one of these paths would only be noticed by a later prediction that walks there", "anchors": ["src/mondrian_coarse.hpp:807-900", "src/mondrian_coarse.hpp:1095-1233", "src/mondrian_coarse.hpp:1309-1437", "src/mondrian_coarse.hpp:3264-3294"]}
{"id": "C123", "title": "Coarse Mondrian forest: boxes after a split at the barycenter", "statement": "When a leaf is split at the barycenter for a point inside its box, the split lies inside the box, the new node gets the box of the leaf, and the two children, both leaves below it, get the parts of this box below and above the split: in every dimension their boxes are those of the leaf, cut at the split value in the dimension of the split.", "quantifier": "every state with intact trees, every leaf, every point inside of the box of the leaf (finite box), every label, both helpers, every random draw strictly between 0 and 1", "why_tests_cant": "the boxes of the three nodes are written by five steps (hull, cut, clip, hull again on the way down); a wrong bound shows only in later draws of split times and in the probabilities of predictions", "anchors": ["src/mondrian_coarse.hpp:1138-1231", "src/mondrian_coarse.hpp:1309-1437", "src/mondrian_coarse.hpp:1506-1531"]}
{"id": "C124", "title": "Coarse Mondrian forest: how far the barycenter extension moves a box", "statement": "When a point reaches a node without splitting it, every bound of the box moves towards the point by the share fe_parameter of the distance (in exact arithmetic): the box grows, at most to the point, and the share 1 - fe_parameter of the distance in every dimension stays. So the box of a leaf need not hold the points that the leaf counts, with fe_parameter = 1/2, and in binary64 not even with fe_parameter = 1.", "quantifier": "every node with complete box, every point, every dimension, every fe_parameter from 0 to 1", "why_tests_cant": "a wrong side, sign or share gives boxes that look plausible; rounding shows only for bounds far from the point", "anchors": ["src/mondrian_coarse.hpp:807-900"]}
{"id": "C125", "title": "Coarse Mondrian forest: the average point is the faded mean of all points", "statement": "After any trainings and predictions, with any options, the sum of the features held by the forest is the sum of all points trained, each faded by fading_count to the power of its age, and the count held is the same sum of ones (in exact arithmetic). So the average point that the helper SPLIT_HELPER_AVG takes as barycenter lies between the smallest and the largest value trained in every dimension, and without fading (fading_count = 1) it is the mean of all points.", "quantifier": "every state reached by any mixture of trainings and predictions on an object in static storage, every number of trees, nodes, features and labels, every option, every random draw", "why_tests_cant": "the sums are private, and are used only when a full forest splits a leaf; splits, trims and predictions in between must not touch them", "anchors": ["src/mondrian_coarse.hpp:257-258", "src/mondrian_coarse.hpp:1103-1106", "src/mondrian_coarse.hpp:2922-2925"]}
