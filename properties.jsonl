{"id": "C01", "title": "Shared features are taken back out of every action", "statement": "Temporarily merging a shared context into an action's features and taking it out again leaves the action exactly as an observer sees it: same active namespaces, same features in the same order in each, same list of all features. (True whenever no active namespace of the action that the shared context also has is empty; false without that condition.)", "quantifier": "every pair of feature objects, every set of namespaces, any number of features, any prior recycling of the objects", "why_tests_cant": "depends on the interplay of arbitrary namespace sets (overlap, emptiness, inactive leftovers); a test fixes one overlap pattern", "anchors": ["reductionml-core/src/sparse_namespaced_features.rs: SparseFeatures::append, SparseFeatures::remove, SparseFeatures::get_namespace, SparseFeatures::all_features"]}
{"id": "C02", "title": "Predict and learn give the caller's features back unchanged", "statement": "After any workspace predict, learn or predict_then_learn call that returns, the feature object passed in is observably the same as before the call, for every reduction stack, provided that a namespace active in both the shared features and an action has features in both, and no namespace uses the raw-hash key of the element-wise reduction. Without either condition it fails.", "quantifier": "every model state of every reduction stack that can be configured, every well-formed feature object, every label", "why_tests_cant": "quantifies over all reduction stacks and all feature objects; the code itself only asserts it at run time in debug builds", "anchors": ["reductionml-core/src/reduction.rs: ReductionWrapper::predict, ReductionWrapper::learn, ReductionWrapper::predict_then_learn", "reductionml-core/src/reductions/cb_adf.rs: CBAdfReduction", "reductionml-core/src/reductions/elementwise_interaction.rs: ElementwiseInteraction", "reductionml-core/src/workspace.rs: Workspace::predict, Workspace::learn"]}
{"id": "C03", "title": "Recycled feature objects behave like fresh ones", "statement": "A feature object that went through any history of operations and was then cleared and handed out again by the pool gives the same results as a brand new object under every later sequence of feature-building and reading operations, and the same predictions and learned models. Only the raw listing namespaces() and the value returned by remove_namespace can still show leftovers.", "quantifier": "every history of operations before the recycling, every sequence of operations after it, every model", "why_tests_cant": "needs all histories: leftovers of one example only matter for a later example with a particular shape", "anchors": ["reductionml-core/src/sparse_namespaced_features.rs: SparseFeatures::clear, PoolReturnable", "reductionml-core/src/object_pool.rs: Pool", "reductionml-core/src/weights.rs: foreach_feature"]}
{"id": "C04", "title": "The object pool never hands the same object out twice", "statement": "Under every interleaving of get and return calls from any number of threads, an object handed out by the pool is not handed out again until it was returned, no returned object is lost or duplicated, and the pool holds exactly the returned objects not yet handed out again.", "quantifier": "every interleaving and every sequence of pool operations by any number of clients", "why_tests_cant": "schedules cannot be enumerated by tests", "anchors": ["reductionml-core/src/object_pool.rs: Pool::get_object, Pool::return_object, Pool::len"]}
{"id": "C05", "title": "Weights of different features never overlap", "statement": "For every table created with sizes that are accepted, the storage cells of two different (feature, model) pairs are disjoint and all cells lie inside the table, so writing the state of one pair never changes what is read for another pair, and reading a pair back gives what was written.", "quantifier": "all table sizes, all feature and model indices below the sizes, all written values, all sequences of writes", "why_tests_cant": "2^32 x 2^8 index pairs and all non-power-of-two sizes", "anchors": ["reductionml-core/src/dense_weights.rs: DenseWeights::new, DenseWeights::convert_index, DenseWeights::state_at, DenseWeights::state_at_mut"]}
{"id": "C06", "title": "Saving and loading a model keeps every weight", "statement": "Writing a weight table in the sparse form used in model files and reading it back gives a table of the same sizes with every weight equal; the only change possible is that a negative zero becomes a positive zero. NaN and infinite weights survive.", "quantifier": "all weight tables of all sizes with all 32-bit float contents", "why_tests_cant": "quantifies over all float contents of all positions", "anchors": ["reductionml-core/src/dense_weights.rs: SparseF32Vec::from_dense, SparseF32Vec::to_dense, serialize_sparse_f32_vec, deserialize_sparse_f32_vec"]}
{"id": "C07", "title": "Human readable export and import keep every weight", "statement": "Converting the weight table to the per-feature form used by the JSON export and back gives the same table (same sizes, all weights equal up to the sign of zero) for every table that learning can produce, including table sizes that are not powers of two.", "quantifier": "all tables reachable from a new table by any sequence of state writes", "why_tests_cant": "relies on padding cells never being written, an invariant over all histories", "anchors": ["reductionml-core/src/dense_weights.rs: DenseWeightsWithNDArray::from_dense_weights, DenseWeightsWithNDArray::to_dense_weights", "reductionml-core/src/workspace.rs: Workspace::serialize_to_json, Workspace::deserialize_from_json"]}
{"id": "C08", "title": "Masking early or late gives the same interaction index", "statement": "The index of an interaction of two, three or more features is the same whether the single feature hashes are masked to the configured number of bits first (as the learner does) or only the final hash is (as the inverse hash table does), so the inverse table names exactly the weight the learner uses.", "quantifier": "all feature hashes, all bit counts from 0 to 31, all interaction lengths of at least two", "why_tests_cant": "2^32 hashes per term and 32 masks", "anchors": ["reductionml-core/src/inverse_hash_table.rs: Feature::hash", "reductionml-core/src/sparse_namespaced_features.rs: quadratic_feature_hash, cubic_feature_hash", "reductionml-core/src/weights.rs: foreach_feature", "reductionml-core/src/types.rs: FeatureMask::mask"]}
{"id": "C09", "title": "Pair interactions visit every pair exactly once", "statement": "For an interaction of two different namespaces every pair (one feature of each) is used exactly once, and for a namespace with itself every unordered pair (including a feature with itself) is used exactly once; the value is the product of the two values and a missing or inactive namespace contributes nothing.", "quantifier": "all feature objects, all interaction lists", "why_tests_cant": "needs arbitrary numbers of features per namespace", "anchors": ["reductionml-core/src/weights.rs: foreach_feature, foreach_feature_with_state, foreach_feature_with_state_mut"]}
{"id": "C10", "title": "Triple interactions visit every triple exactly once", "statement": "For an interaction of three namespaces every combination is used exactly once: all triples when the namespaces differ, and each unordered combination exactly once when namespaces repeat. (True when all three namespaces differ, or when only the first two are equal; false when the second and third are equal.)", "quantifier": "all feature objects, all interaction lists", "why_tests_cant": "the failing cases need at least two features in the right repeated namespaces; tests with one feature per namespace pass", "anchors": ["reductionml-core/src/weights.rs: foreach_feature (cubic part)", "reductionml-core/src/sparse_namespaced_features.rs: SparseFeatures::cubic_features"]}
{"id": "C11", "title": "Every feature index used by the learner is inside the weight table", "statement": "For a feature object whose indices were produced with the workspace's number of bits, no prediction or learning step reads or writes outside the weight table, whatever interactions are configured, and the constant feature has its own fixed index in the middle of the table.", "quantifier": "all feature objects produced by the parsers, all interaction lists, all bit counts from 1 to 31", "why_tests_cant": "an out of range access needs a specific hash value", "anchors": ["reductionml-core/src/weights.rs: foreach_feature", "reductionml-core/src/sparse_namespaced_features.rs: constant_feature_index", "reductionml-core/src/types.rs: FeatureMask::from_num_bits", "reductionml-core/src/dense_weights.rs: DenseWeights::convert_index"]}
{"id": "C12", "title": "Enforcing a minimum probability gives a probability distribution", "statement": "In exact arithmetic, for a probability distribution and an exploration rate in [0, 0.999], the adjusted values are nonnegative and sum to 1; for a rate above 0.999 they are uniform over the support.", "quantifier": "all distributions of all lengths (sorted or not, with ties and zeros), all rates", "why_tests_cant": "the projection picks a cut index that depends on all values; tests check a handful of triples", "anchors": ["reductionml-core/src/explore.rs: enforce_min_prob"]}
{"id": "C13", "title": "Enforcing a minimum probability respects the floor and the order", "statement": "Every action that counts gets at least rate / (number of actions that count); actions with zero probability keep zero when they are not considered; an action with at least the probability of another one still has at least as much; action numbers and their positions never change; a distribution already above the floor is not changed when the rate is at most 0.999 (above that the result is uniform).", "quantifier": "all inputs for which the function succeeds", "why_tests_cant": "all lengths and all float values", "anchors": ["reductionml-core/src/explore.rs: enforce_min_prob"]}
{"id": "C14", "title": "Enforcing a minimum probability fails exactly on bad arguments", "statement": "The function returns an error exactly for an empty list or a rate outside [0,1] (for a nonempty list), leaves the list unchanged then and when the rate is zero, and never panics when no probability is NaN. With a NaN rate it does not return an error.", "quantifier": "all 32-bit float rates and all lists including NaN and infinities", "why_tests_cant": "all float values including special ones", "anchors": ["reductionml-core/src/explore.rs: enforce_min_prob"]}
{"id": "C15", "title": "Epsilon-greedy exploration", "statement": "In exact arithmetic, for n >= 1 actions and epsilon in [0,1], every action gets epsilon/n except the first action of minimal cost, which gets epsilon/n + 1 - epsilon; the result sums to 1 and lists the actions in the same order.", "quantifier": "all score lists, all epsilon", "why_tests_cant": "ties and arbitrary lengths", "anchors": ["reductionml-core/src/reductions/cb_explore_adf_greedy.rs: action_scores_to_probs"]}
{"id": "C16", "title": "SquareCB exploration", "statement": "In exact arithmetic, with nonnegative gamma, the predicted values form a probability distribution, no action has more probability than the cheapest one, and a cheaper action never has less probability than a more expensive one; with a positive uniform exploration rate each action keeps the floor. (With a negative gamma exponent the first prediction, at count 0, makes gamma infinite and the result contains NaN.)", "quantifier": "all score lists, all example counts, all configurations with nonnegative gamma scale", "why_tests_cant": "all real scores and all counts", "anchors": ["reductionml-core/src/reductions/cb_explore_adf_squarecb.rs: CBExploreAdfSquareCBReduction::predict", "reductionml-core/src/explore.rs: enforce_min_prob"]}
{"id": "C17", "title": "Softmax exploration", "statement": "In exact arithmetic the predicted values are positive, sum to 1, are decreasing in cost when lambda >= 0, and depend only on cost differences (adding the same amount to every cost changes nothing).", "quantifier": "all score lists and lambdas", "why_tests_cant": "all real scores", "anchors": ["reductionml-core/src/reductions/cb_explore_adf_softmax.rs: CBExploreAdfSoftmaxReduction::predict"]}
{"id": "C18", "title": "Regression predictions stay in the range of labels seen", "statement": "With the identity link, every prediction of the regressor lies between the smallest and the largest of 0 and all labels learned so far (or -50 and 50 with logistic loss configured), is never NaN, and computing it never panics; NaN labels never widen the range. This does not carry over to the scores of contextual bandit stacks, which are raw predictions: after learning nothing but examples of cost 1 a score can exceed 3 (refuted with a witness).", "quantifier": "every sequence of learn calls with any 32-bit float labels, weights and feature values, every predict input", "why_tests_cant": "over all histories and all float values including NaN and infinities", "anchors": ["reductionml-core/src/reductions/coin.rs: CoinRegressor::predict, CoinRegressor::learn, CoinRegressor::new"]}
{"id": "C19", "title": "Learning only changes weights of features in the example", "statement": "A learn call on the regressor changes the stored state only at indices of features, interactions or the constant feature occurring in that example; all other weights and hence predictions on examples sharing no index with it keep their raw value.", "quantifier": "all model states, all examples, all other examples", "why_tests_cant": "all pairs of examples", "anchors": ["reductionml-core/src/reductions/coin.rs: CoinRegressor::learn, coin_betting_predict, coin_betting_update_after_predict", "reductionml-core/src/weights.rs: foreach_feature_with_state_mut"]}
{"id": "C20", "title": "Optimizer accumulators stay consistent", "statement": "In every reachable regressor state each weight's gradient magnitude sum is nonnegative and at least the magnitude of its gradient sum (exact arithmetic), and the recorded maximum feature value and maximum gradient never decrease and bound everything seen that is not NaN, provided beta is not NaN.", "quantifier": "every sequence of learn calls", "why_tests_cant": "an invariant over all histories", "anchors": ["reductionml-core/src/reductions/coin.rs: coin_betting_update_after_predict"]}
{"id": "C21", "title": "A successfully configured stack is type correct", "statement": "If creating a reduction stack from a configuration succeeds, then predict with features of the declared input type never fails because of a type mismatch inside the stack and returns the declared prediction type, and learn with declared features and label types never fails because of a type mismatch.", "quantifier": "all configurations of arbitrary nesting depth", "why_tests_cant": "unbounded number of stacks", "anchors": ["reductionml-core/src/reduction.rs: ReductionTypeDescription::check_and_get_reason", "reductionml-core/src/reduction_factory.rs: parse_config, create_reduction", "reductionml-core/src/reductions/binary.rs: create, predict, learn", "reductionml-core/src/reductions/cb_adf.rs: create, predict, learn", "reductionml-core/src/reductions/cb_explore_adf_greedy.rs: create, predict, learn", "reductionml-core/src/reductions/cb_explore_adf_softmax.rs: create, predict, learn", "reductionml-core/src/reductions/cb_explore_adf_squarecb.rs: create, predict, learn", "reductionml-core/src/reductions/coin.rs: create, predict, learn", "reductionml-core/src/reductions/debug.rs: create, predict, learn", "reductionml-core/src/reductions/elementwise_interaction.rs: create, predict, learn"]}
{"id": "C22", "title": "Predicting while learning equals predicting then learning", "statement": "For every reduction stack predict_then_learn returns what predict returns on the same model and features, and leaves the same model as learn does.", "quantifier": "all stacks, model states, features and labels", "why_tests_cant": "several reductions override the combined call; equality must hold for all states", "anchors": ["reductionml-core/src/reduction.rs: ReductionImpl::predict_then_learn", "reductionml-core/src/reductions/binary.rs", "reductionml-core/src/reductions/elementwise_interaction.rs", "reductionml-core/src/reductions/debug.rs"]}
{"id": "C23", "title": "Contextual bandit scores: one per action, in order, independent of other actions", "statement": "Predicting on a contextual bandit example yields exactly one score per action numbered 0..n-1 in order, and the score of an action equals the regressor's raw prediction on that action's features combined with the shared features, regardless of which other actions are present.", "quantifier": "all examples with any number of actions, all models", "why_tests_cant": "any number of actions and orders", "anchors": ["reductionml-core/src/reductions/cb_adf.rs: CBAdfReduction::predict"]}
{"id": "C24", "title": "Learning a contextual bandit example never fails", "statement": "For every example of the declared type that lies inside the weight table, learn returns and restores the features, if with mtr there are shared features and the labelled action exists, and if in debug builds the probability is positive and no feature value is NaN. (Without these conditions it is false: the default mtr type panics when the example has no shared features, although shared features are optional; an action number out of range panics under mtr but is silently accepted under ips; a NaN feature value panics in debug builds.)", "quantifier": "all examples with optional shared features, all labels, both cost types", "why_tests_cant": "needs the unusual input shapes", "anchors": ["reductionml-core/src/reductions/cb_adf.rs: CBAdfReduction::learn"]}
{"id": "C25", "title": "Training and prediction of an action use the same weights", "statement": "An action's features are combined with the shared ones in one order for prediction and in the other for mtr training; both use the same weights (the same index and value pairs, in another order, and in exact arithmetic the same prediction), unless an interaction couples positions of a namespace that both fill. (False then: training touches weights prediction does not use, because the pair hash is not symmetric.)", "quantifier": "all shared and action features, all interactions", "why_tests_cant": "depends on which namespaces overlap and on hash asymmetry", "anchors": ["reductionml-core/src/reductions/cb_adf.rs: predict, learn", "reductionml-core/src/weights.rs: foreach_feature", "reductionml-core/src/sparse_namespaced_features.rs: append"]}
{"id": "C26", "title": "Text input is cut into examples without losing lines", "statement": "Reading a text stream chunk by chunk yields, for multi-line examples, exactly the maximal runs of non-blank lines, and for single-line examples exactly the non-blank lines, in order, each with trailing white space removed; nothing is lost, duplicated or reordered, and it ends after the last one.", "quantifier": "all byte streams of lines", "why_tests_cant": "all arrangements of blank lines, trailing spaces and missing final newline", "anchors": ["reductionml-core/src/parsers/vw_text_parser.rs: read_multi_lines, read_single_line, get_next_chunk"]}
{"id": "C27", "title": "Text parsing never crashes", "statement": "parse_chunk of the text parser returns a result or an error for every chunk. (False: several malformed or unusual lines panic.) What holds in release builds: it panics exactly if some line is not fine, where a line is fine if its label words are well formed, there are at most two of them for a simple label, every namespace value is a number and every namespace has a name or starts with a space.", "quantifier": "all strings", "why_tests_cant": "all strings", "anchors": ["reductionml-core/src/parsers/vw_text_parser.rs: parse_chunk, parse_label, parse_namespace_inline"]}
{"id": "C28", "title": "The label of a parsed multi-line example points at the labelled action", "statement": "When the text parser returns a contextual bandit example with a label, the label's action number is the position among the returned actions of the line that carried the label, with that line's cost and probability; if no line is labelled there is no label and if two lines are labelled the result is an error; there is one action per non-shared line, in order.", "quantifier": "all multi-line chunks that parse", "why_tests_cant": "all positions and shared/no shared combinations", "anchors": ["reductionml-core/src/parsers/vw_text_parser.rs: finalize_parsed_result_multiline, parse_label"]}
{"id": "C29", "title": "Parsed features are what the text says", "statement": "For every line built from namespaces, names and values in the documented format, the parsed feature object contains exactly those features in order: namespace hash of the name, feature hash chained from the namespace hash and masked to the number of bits, value times namespace value, anonymous features numbered from 0; a later namespace with the same name is merged into the same namespace.", "quantifier": "all lists of namespaces with any names without separators and any values", "why_tests_cant": "a round trip over all printable inputs", "anchors": ["reductionml-core/src/parsers/vw_text_parser.rs: parse_text_line_internal, parse_namespace_inline, parse_feature", "reductionml-core/src/parsers.rs: ParsedFeature::hash"]}
{"id": "C30", "title": "Running metrics equal their definitions", "statement": "After any sequence of points, the mean squared error metric is the mean of (label - prediction)^2 and the IPS metric the mean of -cost * p_pred(action)/p_logged in exact arithmetic; the feature count is the total number of features; the example number is the zero-based index of the last example. Asking the example number before any example panics, which happens at the end of a non-quiet training run on an empty data set.", "quantifier": "all sequences of examples", "why_tests_cant": "all lengths", "anchors": ["reductionml-core/src/metrics/mean_squared_error.rs", "reductionml-core/src/metrics/ips.rs", "reductionml-core/src/metrics/example_number.rs", "reductionml-core/src/metrics/parsed_features.rs", "reductionml-cli/src/train.rs: process_example"]}
{"id": "C31", "title": "Progress output schedule", "statement": "With an additive period p >= 1 output happens exactly at the examples whose index is a multiple of p; with multiplicative period 2 exactly at examples 0, 1, 2, 4, 8, ...", "quantifier": "all example counts (below the 32-bit limit) and all periods", "why_tests_cant": "unbounded runs", "anchors": ["reductionml-cli/src/train.rs: TrainResultManager::inc_iteration, OutputPeriod"]}
{"id": "C32", "title": "Multi-threaded training learns in file order", "statement": "For every schedule of the input, parser and learner threads, every number of parser threads, every queue size (0 included) and every content of the object pool, the learner's state (model, predictions, metrics, progress table) is at any time the one a single thread has after the first j chunks of the file for some j, and after the whole file once the learner has left its loop; so the command ends like the command with one thread.", "quantifier": "all schedules, thread counts, queue sizes and inputs", "why_tests_cant": "schedules cannot be enumerated by tests", "anchors": ["reductionml-cli/src/train.rs: TrainCommand::execute, ParseResult"]}
{"id": "C33", "title": "Multi-threaded training never deadlocks when parsing succeeds", "statement": "If a single thread gets through the data, then with at least one parser thread, for every schedule and queue size (0 included): no thread panics (no assertion or unwrap of the hand-over cell fails), in every reachable state some thread can take a step or all threads have ended with the learner in the state of the single thread, and no schedule goes on for ever.", "quantifier": "all schedules, thread counts, queue sizes and inputs", "why_tests_cant": "deadlock freedom over all schedules", "anchors": ["reductionml-cli/src/train.rs: TrainCommand::execute, ParseResult::await_result, ParseResult::set_result, ParseResult::get_input"]}
{"id": "C34", "title": "A bad data line stops multi-threaded training with an error", "statement": "If a chunk fails to parse, training terminates. (False. If the chunks before chunk i are fine and the parser panics on chunk i, no schedule ends the command. If chunk i gives a parse error or learning from it panics, the command never ends if more than queue_size chunks follow it, and ends with the learner's panic if at most queue_size chunks follow and the parser panics on none.)", "quantifier": "all schedules and inputs with a bad line", "why_tests_cant": "a hang only shows under particular schedules and file lengths", "anchors": ["reductionml-cli/src/train.rs: TrainCommand::execute, ParseResult::await_result"]}
{"id": "C35", "title": "Interactions in the configuration are all used, in order", "statement": "Every configured interaction of two or three namespaces is used by the learner exactly once, pairs before triples and each group in configuration order; creation panics exactly when some interaction has another length.", "quantifier": "all interaction lists", "why_tests_cant": "arbitrary lists", "anchors": ["reductionml-core/src/interactions.rs: compile_interactions, hash_interaction"]}
{"id": "C36", "title": "Element-wise interaction multiplies matching components", "statement": "For two namespaces whose features are vectors in increasing position laid out from their masked base index without wrap-around, the composite namespace holds exactly the products at positions present in both; the reduction below sees exactly that namespace, the other namespaces and, if configured, the originals; and the example's features are restored afterwards. Missing namespaces panic; an index below the base (wrap-around) panics with overflow checks and loses components without; a stack configured with one namespace twice and originals not kept (the default configuration) panics on every simple example in every state.", "quantifier": "all feature vectors, bases and bit counts; for the last part all created stacks, reachable states and simple examples", "why_tests_cant": "all merge patterns of two index lists", "anchors": ["reductionml-core/src/reductions/elementwise_interaction.rs: elementwise_multiply, predict, learn"]}
{"id": "C37", "title": "Predicting is read-only and repeatable", "statement": "Any number of predict calls with any features leaves every later prediction and the effect of every later learn call unchanged.", "quantifier": "all interleavings of predict and learn calls", "why_tests_cant": "over all call sequences", "anchors": ["reductionml-core/src/workspace.rs: Workspace::predict, Workspace::learn, Workspace::predict_then_learn"]}
{"id": "C38", "title": "Quiet training gives the same model", "statement": "Any two runs of the train command on the same data that both finish end with the same model, whatever the progress output, metrics, predictions file and pool objects. If a run with output finishes then the quiet run finishes too, with that model. The converse does not hold: computing metrics can panic where the quiet run finishes.", "quantifier": "all data sets (any text, no condition on it), all creatable stacks and reachable model states, all modes and metrics", "why_tests_cant": "the two paths call different entry points; equality must hold for all data", "anchors": ["reductionml-cli/src/train.rs: process_example", "reductionml-core/src/reduction.rs: predict_then_learn"]}
{"id": "C39", "title": "Loss functions and their derivatives agree", "statement": "In exact arithmetic both losses are nonnegative for labels in range and convex; the reported first derivative is the derivative of the loss at every prediction, the reported second derivative is the derivative of the first (for the squared loss except at the two ends of the label range, where the first derivative has a corner); the squared loss continues along its tangents outside the label range; the unchecked update is the step against the gradient and the reported squared gradient is the square of the derivative; the squared-loss update moves the prediction toward the label without passing it. (The checked updates are the subject of C64.)", "quantifier": "all predictions, labels and label ranges", "why_tests_cant": "all reals", "anchors": ["reductionml-core/src/loss_function/squared_loss.rs: SquaredLoss", "reductionml-core/src/loss_function/logistic_loss.rs: LogisticLoss"]}
{"id": "C40", "title": "Decision service JSON: underscore keys are ignored and namespaces nest properly", "statement": "Parsing a decision service JSON context adds features only for keys not starting with an underscore, each in the namespace of the innermost enclosing key, in document order, and the namespace stack is empty again afterwards; keys starting with an underscore never change the result.", "quantifier": "all JSON documents of any nesting depth the parser accepts", "why_tests_cant": "unbounded nesting", "anchors": ["reductionml-core/src/parsers/dsjson_parser.rs: DsJsonParser::handle_features, parse_chunk"]}
{"id": "C41", "title": "JSON features: one index per name, vectors are consecutive", "statement": "Features in the JSON format get the same index as the same namespace and name in the text format; a numeric array gives consecutive indices from the namespace hash; false booleans give no feature.", "quantifier": "all JSON feature objects the parser accepts", "why_tests_cant": "all names and lengths", "anchors": ["reductionml-core/src/parsers/json_parser.rs: to_features", "reductionml-core/src/parsers.rs: ParsedFeature::hash"]}
{"id": "C42", "title": "Parsing JSON with recycled objects works like with fresh objects", "statement": "Parsing the same JSON with an object from the pool gives the same outcome as with a new object. (False: a namespace holding a list of strings panics when the recycled namespace already has more capacity than the new list needs.)", "quantifier": "all histories of the recycled object, all allocators", "why_tests_cant": "depends on the capacity left from earlier examples", "anchors": ["reductionml-core/src/parsers/json_parser.rs: to_features", "reductionml-core/src/sparse_namespaced_features.rs: SparseFeaturesNamespace::reserve"]}
{"id": "C43", "title": "Model offset bookkeeping is balanced", "statement": "After every predict or learn call the model offset is what it was before, no offset computation overflows, and every reduction in the stack sees offset zero.", "quantifier": "all stacks and inputs", "why_tests_cant": "all nesting depths", "anchors": ["reductionml-core/src/reduction.rs: DepthInfo, ReductionWrapper"]}
{"id": "C44", "title": "Saved models predict the same", "statement": "A workspace saved to a model file and loaded again gives the same predictions for all features and the same results under all later training.", "quantifier": "all reachable workspaces, all later call sequences", "why_tests_cant": "all histories before and after the save", "anchors": ["reductionml-core/src/workspace.rs: Workspace::serialize_model, Workspace::create_from_model", "reductionml-core/src/dense_weights.rs"]}
{"id": "C45", "title": "The inverse hash table names the features that were parsed", "statement": "Take a text chunk in the documented form in which every namespace name is followed by a space. Extracting the feature names succeeds, and when the extracted names are inserted into the inverse hash table, the entry at the index the parser gives to a feature of a named namespace contains that feature's namespace and name, provided no later namespace of the chunk has the same name. The table gets nothing else. (False without these conditions: of several namespaces of the same name, such as the same namespace in several actions, only the last is kept; features of the default namespace are inserted elsewhere; a namespace followed by no space panics; a tab after the name is taken as part of the name. The command that would do the insertion is not implemented in the repository, so the insertion loop is the obvious one.)", "quantifier": "all hash functions, seeds and numbers of bits below 32, all text chunks of the documented form, all tables before the insertion", "why_tests_cant": "all inputs", "anchors": ["reductionml-core/src/inverse_hash_table.rs: InverseHashTable::insert, InverseHashTable::get, Feature::hash, Feature::from_parsed_feature", "reductionml-core/src/parsers/vw_text_parser.rs: extract_feature_names"]}
{"id": "C46", "title": "The configured loss function is used for learning", "statement": "A regressor configured with the logistic loss learns with the gradient of the logistic loss. (False: the update always uses the squared loss gradient.)", "quantifier": "all examples", "why_tests_cant": "needs comparing two update rules for all examples", "anchors": ["reductionml-core/src/reductions/coin.rs: CoinRegressor::new, coin_betting_update_after_predict"]}
{"id": "C47", "title": "Binary classification follows the sign of the regressor", "statement": "A binary stack answers true exactly when the underlying prediction is greater than zero, learns +1 for true and -1 for false, and with the logistic link every example is predicted true unless the link value underflows to zero.", "quantifier": "all models, features and labels", "why_tests_cant": "all model states", "anchors": ["reductionml-core/src/reductions/binary.rs: BinaryReduction", "reductionml-core/src/reductions/coin.rs: LinkFunction::link"]}
{"id": "C48", "title": "Inverse propensity learning labels", "statement": "Under ips every action is learned once per example in order, with cost/probability for the labelled action and 0 for the others; under mtr only the labelled action is learned once, with importance weight (events / actions seen) / probability.", "quantifier": "all examples and histories", "why_tests_cant": "all action counts and histories", "anchors": ["reductionml-core/src/reductions/cb_adf.rs: generate_ips_simple_label, CBAdfReduction::learn"]}
{"id": "C49", "title": "Predicting never fails", "statement": "For every example of the declared type that lies inside the weight table (in debug builds without NaN values), predict returns a prediction of the declared type and restores the features, for every stack made of the coin regressor, binary, contextual bandit, epsilon greedy and debug reductions in every state reached by training; epsilon greedy needs at least one action.", "quantifier": "all such stacks, states and examples", "why_tests_cant": "all states and inputs", "anchors": ["reductionml-core/src/reduction.rs: ReductionWrapper::predict", "reductionml-core/src/reductions/coin.rs: CoinRegressor::predict", "reductionml-core/src/reductions/cb_adf.rs: CBAdfReduction::predict"]}
{"id": "C50", "title": "Exploration layers hand training on unchanged", "statement": "Learning through an epsilon-greedy or softmax layer is exactly learning with its child and leaves the layer unchanged, so what is learned does not depend on the exploration settings. A SquareCb layer hands every label on with its probability replaced by 1 and counts the examples; after t training examples it predicts with gamma = scale * t^exponent.", "quantifier": "all stacks below the layer, all example sequences shorter than 2^64, debug and release builds", "why_tests_cant": "all models and all training histories", "anchors": ["reductionml-core/src/reductions/cb_explore_adf_greedy.rs: CBExploreAdfGreedyReduction::learn", "reductionml-core/src/reductions/cb_explore_adf_softmax.rs: CBExploreAdfSoftmaxReduction::learn", "reductionml-core/src/reductions/cb_explore_adf_squarecb.rs: CBExploreAdfSquareCBReduction::learn, predict"]}
{"id": "C51", "title": "Debug layers are transparent", "statement": "A workspace configured with Debug layers at any places answers every sequence of predict, learn, predict_then_learn and sensitivity calls exactly like the workspace configured without them, including panics, and creating it fails with the same error or panic. (Exception, shown by a witness: SquareCb refuses an ips contextual bandit learner directly below it but accepts it behind a Debug layer.)", "quantifier": "all configurations, all sequences of calls, debug and release builds", "why_tests_cant": "all configurations and call sequences", "anchors": ["reductionml-core/src/reductions/debug.rs: DebugReductionFactory::create, DebugReduction::predict, learn, predict_then_learn", "reductionml-core/src/reductions/cb_explore_adf_squarecb.rs: CBExploreAdfSquareCBReductionFactory::create"]}
{"id": "C52", "title": "Options left out of a configuration mean their documented defaults", "statement": "Writing the default of any omitted option into a configuration file (of any reduction, at any depth of nesting, an omitted or null \"config\", the global settings, or $schema) gives the same workspace, or the same error. A configuration written out in full gives the workspace with exactly the settings written.", "quantifier": "all configuration files as JSON trees, any depth; all settings with numBits < 256 and hashSeed < 2^32; debug and release builds", "why_tests_cant": "any nesting of any reductions with any subset of options", "anchors": ["reductionml-core/src/workspace.rs: Configuration, from_json_str, new", "reductionml-core/src/reduction_factory.rs: JsonReductionConfig, parse_config", "reductionml-core/src/global_config.rs: GlobalConfig", "reductionml-core/src/reductions/binary.rs: the Config structs", "reductionml-core/src/reductions/cb_adf.rs: the Config structs", "reductionml-core/src/reductions/cb_explore_adf_greedy.rs: the Config structs", "reductionml-core/src/reductions/cb_explore_adf_softmax.rs: the Config structs", "reductionml-core/src/reductions/cb_explore_adf_squarecb.rs: the Config structs", "reductionml-core/src/reductions/coin.rs: the Config structs", "reductionml-core/src/reductions/debug.rs: the Config structs", "reductionml-core/src/reductions/elementwise_interaction.rs: the Config structs"]}
{"id": "C53", "title": "Misspelled configuration keys are refused", "statement": "A configuration file with a key that is not an option, among the options of a reduction at any depth, among the global settings or at the top level, is refused with an error. (Exceptions, shown by witnesses: keys beside \"typename\" and \"config\" are silently ignored, e.g. \"Config\" for \"config\"; so are keys in loss function objects, whose names are in snake case, e.g. \"minLabel\" for \"min_label\".)", "quantifier": "all configuration files as JSON trees, all keys, any depth", "why_tests_cant": "any wrong key at any place", "anchors": ["reductionml-core/src/reductions/binary.rs: #[serde(deny_unknown_fields)]", "reductionml-core/src/reductions/cb_adf.rs: #[serde(deny_unknown_fields)]", "reductionml-core/src/reductions/cb_explore_adf_greedy.rs: #[serde(deny_unknown_fields)]", "reductionml-core/src/reductions/cb_explore_adf_softmax.rs: #[serde(deny_unknown_fields)]", "reductionml-core/src/reductions/cb_explore_adf_squarecb.rs: #[serde(deny_unknown_fields)]", "reductionml-core/src/reductions/coin.rs: #[serde(deny_unknown_fields)]", "reductionml-core/src/reductions/debug.rs: #[serde(deny_unknown_fields)]", "reductionml-core/src/reductions/elementwise_interaction.rs: #[serde(deny_unknown_fields)]", "reductionml-core/src/reduction_factory.rs: JsonReductionConfig", "reductionml-core/src/loss_function.rs: LossFunction"]}
{"id": "C54", "title": "`config new` produces a configuration that `config check` accepts", "statement": "For every registered reduction except Debug, the file printed by `config new` is accepted by `config check` and means the same as naming the reduction with no options. For unregistered names nothing is produced. (For Debug the printed file is refused, since its default for \"next\" names a reduction that does not exist.)", "quantifier": "all reduction names, all schema addresses, debug and release builds", "why_tests_cant": "the equality is between two workspaces, including behaviour of the resulting model; hash function arbitrary", "anchors": ["reductionml-cli/src/config.rs: ConfigCommand::execute", "reductionml-core/src/reduction_registry.rs", "reductionml-core/src/reductions/debug.rs: default_next"]}
{"id": "C55", "title": "Loading a configuration does not panic", "statement": "Loading any configuration file returns a workspace or an error, never a panic, as long as the global settings ask for fewer than 32 bits and for interactions of two or three namespaces. (Otherwise it panics, for every well-typed configuration: on an interaction of another length in all builds, and on numBits from 32 to 255 in builds with overflow checks.)", "quantifier": "all configuration files as JSON trees", "why_tests_cant": "any JSON tree", "anchors": ["reductionml-core/src/workspace.rs: from_json_str, new", "reductionml-core/src/reductions/coin.rs: CoinRegressor::new", "reductionml-core/src/interactions.rs: compile_interactions", "reductionml-core/src/utils.rs: bits_to_max_feature_index"]}
{"id": "C56", "title": "Export to JSON and back keeps the behaviour", "statement": "For every stack and every state reached by training in which all numbers are finite, exporting the model as JSON succeeds and importing that JSON succeeds, with the same global settings. The imported workspace answers every later sequence of calls exactly as the original does (binary32), exports to the same JSON, and is the workspace that saving and loading in the binary format gives; whatever the order in which the hash maps are visited.", "quantifier": "all configurations, hash functions, histories of training, hash map orders, later sequences of calls", "why_tests_cant": "quantifies over all trained states and all later calls", "anchors": ["reductionml-core/src/workspace.rs: serialize_to_json, deserialize_from_json, rewrite_json_sparse_to_ndarray, rewrite_json_ndarray_to_sparse", "reductionml-core/src/dense_weights.rs: DenseWeightsWithNDArray"]}
{"id": "C57", "title": "Which models cannot be exported and imported", "statement": "If a weight is not finite the export panics (unwrap of a serde error), and one training example with finite numbers can bring a model into that state. If all weights are finite and another number of the model is not (for example alpha given as 1e39), the export succeeds and the import of its result always fails with InvalidConfiguration. A model with finite numbers can also make the export panic: an accepted configuration below softmax or SquareCb that has the six keys of a weight table inside the options of the loss function.", "quantifier": "all configurations, hash functions, histories of training; witnesses for the existence claims", "why_tests_cant": "quantifies over all trained states", "anchors": ["reductionml-core/src/workspace.rs: serialize_to_json, deserialize_from_json, rewrite_json_sparse_to_ndarray", "reductionml-core/src/reductions/cb_explore_adf_softmax.rs: CBExploreAdfSoftmaxReduction", "reductionml-core/src/loss_function/squared_loss.rs: SquaredLoss"]}
{"id": "C58", "title": "Which text data the train command accepts", "statement": "Release build. A quiet run of the train command on text data with a stack without the element-wise reduction finishes if and only if every chunk is usable, and otherwise panics. Usable means for simple labels: the part before the first bar consists of one or two numbers (and an optional tag), every namespace starts with a space or has a name, and a namespace value is a number; for contextual bandits: every line has that form with no label, the word shared or action:cost:probability, exactly one action line has a label, and, if the mtr cost type is used, the first line is the shared one; there is no usable chunk for binary labels. With progress output or a predictions file the same holds for stacks without softmax and SquareCB and metrics that suit the labels and predictions, except that a run that is not quiet also panics if there is no example at all.", "quantifier": "all configurations without the element-wise reduction, hash functions, number parsers, states reached by training, files, pool contents, modes", "why_tests_cant": "quantifies over all files and trained states; the panics are spread over parser, reductions and metrics", "anchors": ["reductionml-cli/src/train.rs: TrainCommand::execute, process_example", "reductionml-core/src/parsers/vw_text_parser.rs: parse_chunk", "reductionml-core/src/reductions/cb_adf.rs: learn", "reductionml-core/src/metrics/example_number.rs: get_value"]}
{"id": "C59", "title": "The pool of the Python module cannot be observed", "statement": "Any program that uses the Python module gets the same results as one whose feature objects are always new. The only exception comes from JSON documents with a list of strings as a namespace: the first difference, if there is one, is a parse call that panics in one of the two runs with the capacity overflow of C42. Without such documents the results are identical.", "quantifier": "all sequences of calls (constructors, from_config, from_model, from_json_model, serialize, parse, predict, learn, predict_then_learn, getters, destructors), capacities, allocators, orders of hash maps, debug and release builds", "why_tests_cant": "quantifies over all programs and all interleavings of destructors with other calls; shared mutable global state", "anchors": ["reductionml-python/src/lib.rs: SPARSE_FEATURES_POOL", "reductionml-python/src/features.rs: Drop", "reductionml-python/src/parsers.rs: parse", "reductionml-core/src/object_pool.rs: Pool"]}
{"id": "C60", "title": "A workspace accepts what its own parser gives", "statement": "Release build. A program makes a workspace from a configuration, a parser from that workspace with create_parser, and parses an example with it, with any calls in between and afterwards and no workspace using the element-wise reduction. Then the parsed label has the label type of the workspace. Predict on that workspace and these features returns a prediction if the prediction type has a Python class, the stack has neither softmax nor SquareCB, and there is an action when probabilities are predicted. Learn returns normally for every label of the right type, for the mtr cost type if there are shared features and the action exists. Predict_then_learn returns a prediction under both conditions.", "quantifier": "all programs, configurations without the element-wise reduction, text formats, chunks and documents, hash functions, readers", "why_tests_cant": "quantifies over all programs and trained states; depends on the agreement of parser, pool and reductions", "anchors": ["reductionml-python/src/workspace.rs: create_parser, predict, learn, predict_then_learn", "reductionml-python/src/parsers.rs: parse", "reductionml-core/src/workspace.rs: predict, learn"]}
{"id": "C61", "title": "Binary workspaces cannot be used from Python", "statement": "For a workspace whose top reduction is Binary, perhaps below Debug layers, predict, learn and predict_then_learn raise an exception in every state a program can reach, and the workspace is as before if the program goes on: there is no Python class for binary labels and predictions, and no parser makes binary labels.", "quantifier": "all programs and states, debug and release builds", "why_tests_cant": "states that no call succeeds in any program", "anchors": ["reductionml-python/src/predictions.rs: WrappedPrediction::into_py", "reductionml-python/src/labels.rs: WrappedLabel", "reductionml-core/src/reductions/binary.rs"]}
{"id": "C62", "title": "The pool of the Python module does not grow beyond what was in use", "statement": "The number of feature objects in the pool and in use together is never larger than the largest number of feature objects the program held at one time.", "quantifier": "all programs, debug and release builds", "why_tests_cant": "bound on resources over all programs", "anchors": ["reductionml-python/src/features.rs: Drop", "reductionml-core/src/object_pool.rs: Pool", "reductionml-python/src/parsers.rs: parse"]}
{"id": "C63", "title": "Training is progressive validation", "statement": "Every run of the train command on text data that finishes: its examples are the chunks of the file, each parsed on its own without recycled objects; the final model has learned from them in order; the prediction for an example is the prediction of the model that has learned from exactly the examples before it; the predictions file holds these predictions in order; each row of the table holds the value of each metric over exactly the examples so far, at the positions chosen by the output period, and the last row covers all of them. Conversely, if every chunk parses to a labelled example, every example can be predicted and learned from in turn, the metrics accept the points and every row has values, then the run finishes.", "quantifier": "all configurations, reachable start models, data, hash functions, seeds, output periods, metrics, modes (quiet, predictions file), contents of the object pool, debug and release builds, arithmetics", "why_tests_cant": "quantifies over all data sets; connects pool recycling, interaction of predict_then_learn with predict and learn, metrics and output schedule", "anchors": ["reductionml-cli/src/train.rs: execute, process_example, TrainResultManager", "reductionml-core/src/reduction.rs: predict_then_learn", "reductionml-core/src/object_pool.rs: Pool", "reductionml-core/src/metrics/metric.rs"]}
{"id": "C64", "title": "The checked update of a loss follows its gradient flow", "statement": "In exact arithmetic: wexpmx(x) differs from W(exp x) - x, where W is the Lambert function, by at most 9e-5, for every x (the bound the source comment states). For a label at either end of the range, moving the prediction by the checked update of the logistic loss with scale s and prediction-per-update u leads, up to 9e-5, to the point that the gradient flow of the loss reaches from the prediction in the time s*u; for a label in between it leads to the weighted mean of the points reached by the flows of the two ends, which can lie beyond the minimum by any amount: \"the checked update does not increase the loss\" is false. For the squared loss it leads exactly to the point reached by the flow when s*u >= 1e-6 and up to 2e-12 times the distance to the label otherwise, and always stays between the prediction and the label. The flows exist for every start and time.", "quantifier": "all real predictions, labels, label ranges, scales >= 0, positive prediction-per-update; all real x", "why_tests_cant": "an error bound over all reals and a statement about solutions of a differential equation", "anchors": ["reductionml-core/src/loss_function/logistic_loss.rs: wexpmx, get_update_sub, get_update", "reductionml-core/src/loss_function/squared_loss.rs: get_update"]}
{"id": "C65", "title": "The published JSON schema agrees with the loader", "statement": "A configuration file that is valid under the schema printed by gen-schema, and in which no key occurs twice, every reduction with options has a type name, Debug has a reduction below it, integers are written as integers in range and \"$schema\" is a string, is understood by the loader: its reductions are known and its options parse, at any depth, so only creating the stack can fail. Conversely a file the loader does not refuse, with no key twice, no null, lists only for the interactions and nothing beside typename and config, is valid. For any registry with distinct names that are not also names of inner definitions, the schema accepts an object with a type name exactly if a reduction of that name is registered and its schema accepts the options. The conditions are needed: there are valid files the loader refuses (no type name; Debug alone; \"$schema\": 5; numBits 256), accepted files that are not valid (\"config\": null; a further key; a list), and a registry in which an inner definition replaces a reduction. What config new writes is valid for every reduction but Debug.", "quantifier": "all JSON documents of any size and depth; all registries", "why_tests_cant": "two recursive acceptance conditions compared on all documents", "anchors": ["reductionml-core/src/config_schema.rs: ConfigSchema::new, add_reduction, gen_json_reduction_config_schema", "reductionml-cli/src/gen_schema.rs", "schemas/config/latest/schema.json", "reductionml-core/src/workspace.rs: Configuration", "reductionml-core/src/reduction_factory.rs: JsonReductionConfig, parse_config"]}
{"id": "C66", "title": "The coin bettor stays solvent, and its wealth grows", "statement": "In exact arithmetic, after training on any sequence of examples with any labels and weights: for alpha > 0, alpha plus the earnings stored for a feature is positive. If also beta > 0 and every feature value is zero or at least xi in magnitude, then with s = max gradient * max value, z the gradient sum and g the sum of gradient magnitudes of a feature, alpha plus the earnings is at least alpha*beta*xi/(e*(s+g)) * exp(z^2/(2*s*g)), and for every fixed weight u the earnings fall short of u*z by at most alpha + |u|*sqrt(2*s*g*ln(1 + e*|u|*g*(s+g)/(alpha*beta*xi))). But predict reads the weight stored before the last gradient: a fresh regressor that has learned one example with distinct features still predicts 0 for all features, and \"predict after learn gives what learning the same example again starts from\" is false.", "quantifier": "all configurations with the stated signs, all examples, labels, weights and histories of any length; all feature indices; all real u", "why_tests_cant": "a growth bound for an unbounded adaptive process", "anchors": ["reductionml-core/src/reductions/coin.rs: coin_betting_predict, inner_predict, coin_betting_update_after_predict, inner_update, learn, predict"]}
{"id": "C67", "title": "The coin regressor has no regret", "statement": "In exact arithmetic, for every sequence of T examples with labels in [lo, hi], weights in (0, wmax], distinct feature indices among idx and values that are zero or of magnitude between xi and X, and a configuration with alpha > 0 and beta >= 2*(hi-lo)*wmax: the squared losses of the predictions made while learning, each times the importance weight and the current normaliser, exceed those of any fixed linear predictor u (divided by the same normaliser) by at most the sum over idx of alpha + |u_i|*beta*X*sqrt(2*T*ln(1 + e*|u_i|*T*(T+1)*beta*X^2/(alpha*xi))). Hence the average excess is eventually below any positive bound.", "quantifier": "all sequences of examples of any length, all comparison weights, all configurations with the stated bounds", "why_tests_cant": "a worst case over all sequences and all competitors", "anchors": ["reductionml-core/src/reductions/coin.rs: coin_betting_predict, inner_predict, coin_betting_update_after_predict, inner_update, learn, predict"]}
{"id": "C68", "title": "What the exploration policies can cost", "statement": "In exact arithmetic, for true costs f in [lo, hi], n actions and any one action a to compare with: (floor) enforcing a minimum probability eps <= 0.999 on any distribution raises its expected cost by at most eps*(hi-lo). (greedy) If every score is within delta of the cost, the expected cost is at most f(a) + eps*(hi-lo) + (1-eps)*2*delta. (softmax) With lambda > 0 it is at most f(a) + eps*(hi-lo) + ln(n)/lambda + 2*delta. (SquareCB) With gamma > 0 and no assumption on the scores, it is at most f(a) + eps*(hi-lo) + 2(n-1)/gamma + gamma/4 * E[(score - cost)^2], the expectation being under the policy before the floor. The last also holds for the prediction of a whole stack with SquareCB on top, in terms of the scores that its child predicts.", "quantifier": "all score lists with distinct actions, all cost functions, all comparison actions, all parameters with the stated signs; for stacks all states", "why_tests_cant": "a worst case over all true costs", "anchors": ["reductionml-core/src/reductions/cb_explore_adf_squarecb.rs: predict", "reductionml-core/src/reductions/cb_explore_adf_softmax.rs: predict", "reductionml-core/src/reductions/cb_explore_adf_greedy.rs: predict", "reductionml-core/src/explore.rs: enforce_min_prob"]}
{"id": "C69", "title": "Inverse propensity scoring is unbiased", "statement": "In exact arithmetic, for any interaction of n > 0 rounds in which the logging distribution is a positive distribution over exactly the actions of the evaluated policy, and both may depend on everything logged so far: the ips metric has a value for every log that can occur, and the expectation of this value over the logging draws is the expected reward per round of the evaluated policy. Without positive probability for each action this is false. The labels generated for ips training (cost/probability for the logged action, 0 otherwise) have, for each action, its true cost as expectation over the logged action.", "quantifier": "all interaction trees of any depth, all costs, all distributions", "why_tests_cant": "an expectation over all logs of an adaptive process", "anchors": ["reductionml-core/src/metrics/ips.rs: add_point, get_value", "reductionml-core/src/reductions/cb_adf.rs: generate_ips_simple_label"]}
{"id": "C70", "title": "Labels in JSON examples", "statement": "A JSON example is parsed exactly if its features are and its member \"label\" has one of the forms of the label type, and the learner gets that label: missing or null: no label; simple: a number (weight 1), an object with numbers \"value\" and \"weight\", or a list of these two; contextual bandit: an object with \"action\" (unsigned integer), \"cost\" and \"probability\", or a list of these three. With a binary label type no JSON example can be parsed.", "quantifier": "all documents, label types, feature types, pool objects; both build modes", "why_tests_cant": "two-sided statement over all JSON documents", "anchors": ["reductionml-core/src/parsers/json_parser.rs: parse_label, parse_chunk", "reductionml-core/src/types.rs: SimpleLabel, CBLabel"]}
{"id": "C71", "title": "A workspace does what its configuration says", "statement": "A stack created from a configuration consists, layer by layer, of the configured reductions with the configured settings, and stays so after any sequence of learn and predict_then_learn calls. It starts with all counters, weights and statistics 0. If an exploration policy is on top, then after any training history each prediction is this policy, with the configured settings (for SquareCB: gamma from the number of examples so far), applied to the scores that a workspace configured without the policy predicts after the same history (for SquareCB with all logged probabilities replaced by 1).", "quantifier": "all configurations, global configurations, histories and features; both build modes", "why_tests_cant": "unbounded histories, all configurations", "anchors": ["reductionml-core/src/reductions/binary.rs: create, Config", "reductionml-core/src/reductions/cb_adf.rs: create, Config", "reductionml-core/src/reductions/cb_explore_adf_greedy.rs: create, Config", "reductionml-core/src/reductions/cb_explore_adf_softmax.rs: create, Config", "reductionml-core/src/reductions/cb_explore_adf_squarecb.rs: create, Config", "reductionml-core/src/reductions/coin.rs: create, Config", "reductionml-core/src/reductions/debug.rs: create, Config", "reductionml-core/src/reductions/elementwise_interaction.rs: create, Config", "reductionml-core/src/workspace.rs: new"]}
{"id": "C72", "title": "Training can be resumed from a saved model", "statement": "Training with a saved model behaves exactly as training with the workspace the model was saved from. So training in any number of sessions, each starting from the model the one before has saved, gives the same predictions and the same final model as one session over all texts in a row, in each of the three input formats and whatever the metrics, table and output period of the sessions are. All texts but the last must end with a newline, and for contextual bandits in the text format with a blank line; without either the statement is false (refuted). Without table and predictions, the one session finishes exactly if the parts do.", "quantifier": "all configurations and saved models of reachable workspaces, all texts, any number of sessions, all options; all binary32 values; both build modes", "why_tests_cant": "unbounded number and length of sessions", "anchors": ["reductionml-cli/src/train.rs: execute", "reductionml-core/src/workspace.rs: create_from_model, serialize_model", "reductionml-cli/src/main.rs: get_parser"]}
{"id": "C73", "title": "The train command with each input format", "statement": "A finished run of the train command, in each of the three input formats (text, JSON, DSJSON), has cut the text into its examples as the format says (there is exactly one such way) and parsed each on its own; the saved model has learned from them in order, each prediction in the file is made by the model that has learned from the examples before it only, and each row of the table holds the metrics over the examples so far, the last row over all. Conversely, if all examples parse, the calls and metrics succeed and the rows are defined, the run finishes.", "quantifier": "all texts, reachable workspaces, options, readers of JSON and numbers; both build modes; any float type", "why_tests_cant": "unbounded input; both directions", "anchors": ["reductionml-cli/src/train.rs: execute", "reductionml-cli/src/main.rs: get_parser", "reductionml-core/src/parsers/json_parser.rs: get_next_chunk", "reductionml-core/src/parsers/dsjson_parser.rs: get_next_chunk"]}
{"id": "C74", "title": "Python objects behave like values", "statement": "A Python program gets the results it would get if its objects were values: features, labels, predictions and parsers are what they were made as, a workspace is what it was made as together with the examples it has learned from, in order, and every prediction, saved model and parse result is determined by these values alone. The Rust side changes features in place and puts them back, and recycles the objects that are dropped; no program sees either. JSON must not hold lists of strings (see C42), and in a release build either the features are tidy (see C02) or no workspace has an element-wise layer. Without the latter it is false: learning with an element-wise layer can take an empty shared namespace away, and a later prediction on the same features panics.", "quantifier": "all programs over the Python interface (any number of workspaces, parsers, features, labels, predictions; any order of calls and drops), all orders of the pool; any float type; both build modes", "why_tests_cant": "unbounded programs; aliasing between any of the objects", "anchors": ["reductionml-python/src/workspace.rs", "reductionml-python/src/features.rs", "reductionml-python/src/labels.rs", "reductionml-python/src/predictions.rs", "reductionml-python/src/parsers.rs", "reductionml-core/src/object_pool.rs"]}
{"id": "C75", "title": "Empty namespaces make no difference", "statement": "In a release build, a stack without element-wise reductions does not distinguish features that have a namespace without features from features that do not have the namespace: predict, learn and predict_then_learn have the same outcome, training gives the same model or fails in the same way, and the features a call leaves have the content of those it was given. Lines of text that differ in namespaces without features only are such features. In a debug build and for the element-wise reduction this is false, with witnesses.", "quantifier": "all stacks without element-wise layers, all features with the same content per namespace, all labels, all sequences of examples; all lines of text; any float type and hash function; release build", "why_tests_cant": "unbounded examples and stacks; an empty namespace can be left by any earlier call", "anchors": ["reductionml-core/src/sparse_namespaced_features.rs", "reductionml-core/src/weights.rs", "reductionml-core/src/reductions/cb_adf.rs", "reductionml-core/src/reductions/coin.rs", "reductionml-core/src/reductions/elementwise_interaction.rs", "reductionml-core/src/workspace.rs", "reductionml-core/src/parsers/vw_text_parser.rs"]}
{"id": "C76", "title": "The text the train command reads and writes", "statement": "The progress option accepts exactly a 32-bit decimal number, + and such a number, or * and a floating-point number. The predictions file has exactly one line per example, and it can be read again: two runs making the same kind of finite predictions and writing the same file made the same predictions (false if a number is not finite: all become null; and false if the kind is not known: scores and probabilities look the same). The command returns an error exactly if the workspace cannot be created or loaded; everything that goes wrong later is a panic. A quiet run shows no table exactly if there is no predictions file or no example; so the documented \"Silence all output\" is false.", "quantifier": "for all texts of the option; for all sources, options, data files and formats; for all printers of finite numbers that can be read again", "why_tests_cant": "The predictions file depends on every example and on the whole run; two different runs may collide in ways no fixed list of runs shows, and \"never returns an error\" is about all inputs.", "anchors": ["reductionml-cli/src/train.rs:79-113", "reductionml-cli/src/train.rs:218-435", "reductionml-cli/src/main.rs:31-33", "reductionml-core/src/types.rs:34-62"]}
{"id": "C77", "title": "Exporting and importing a model file gives the same model file", "statement": "For a saved model of any workspace in use, with all numbers finite, export-model followed by import-model gives exactly the saved model again, whatever the order in which hash maps are visited. If a weight is not finite, export-model panics; if another number is not finite, import-model panics.", "quantifier": "for all configurations, training histories, orders of hash maps, and build modes of the two commands", "why_tests_cant": "The export drops and renames parts of the model depending on its weights and on hash-map order; which weights occur depends on the whole training history.", "anchors": ["reductionml-cli/src/export_model.rs:21-31", "reductionml-cli/src/import_model.rs:22-35", "reductionml-core/src/workspace.rs:108-168"]}
{"id": "C78", "title": "The exploration policies predict distributions in single precision", "statement": "In binary32 arithmetic: epsilon greedy, SquareCB (up to 3000 actions) and softmax (with any exponential function that is 1 at zero and within [0,1] below) turn any finite scores into finite, nonnegative probabilities of the same actions that sum to 1 up to n * 2^-18 (epsilon greedy: 2^-21, for any scores at all); enforcing a minimum probability keeps this and gives rate/n up to rounding to who counts. The same for the prediction of a whole stack in release builds. Not kept by rounding: with 8283 actions of equal score SquareCB gives one of them a negative probability; an action whose weight is rounded to zero stays at zero whatever the rate of uniform exploration; with scale zero and differences that overflow there are NaN probabilities or a panic.", "quantifier": "for all lists of up to 2^20 (SquareCB: 3000) floats in any order, all rates in [0,1], all finite nonnegative scales, both build modes", "why_tests_cant": "Rounding errors depend on every score and on their order; a distribution of thousands of actions that is slightly negative or off is seen only at particular sizes (8283), never in small tests.", "anchors": ["reductionml-core/src/explore.rs: enforce_min_prob", "reductionml-core/src/reductions/cb_explore_adf_greedy.rs: action_scores_to_probs", "reductionml-core/src/reductions/cb_explore_adf_squarecb.rs: CBExploreAdfSquareCBReduction::predict", "reductionml-core/src/reductions/cb_explore_adf_softmax.rs: CBExploreAdfSoftmaxReduction::predict"]}
{"id": "C79", "title": "Sensitivity", "statement": "After any training the sensitivity of an example is the sum over its features of the sign of the value over ((beta + sqrt(sum of absolute gradients)) / alpha + l2); it is bounded by the number of features over (beta / alpha + l2), depends on the values only through their signs, and does not grow with further training if no value is negative. A feature of value zero, which changes no prediction, changes it. A stack passes the question to its regressor with the features as given: interaction reductions have no effect, and for contextual bandit features it always panics.", "quantifier": "for all configurations with positive alpha and beta, all training histories and continuations, all examples with indices in range; signs and stacks: in any arithmetic", "why_tests_cant": "The sums of gradients are a function of the whole training history; monotonicity under all continuations cannot be sampled.", "anchors": ["reductionml-core/src/reductions/coin.rs:247-276", "reductionml-core/src/reduction.rs:117-128", "reductionml-core/src/reduction.rs:320-332"]}
{"id": "C80", "title": "Exploration over the lifetime of a model in single precision", "statement": "For every configuration that explores (epsilon greedy, softmax or SquareCB, possibly under debug reductions, without the element-wise reduction), after any history of training, a release build predicts as follows for examples with indices inside the table and up to 3000 actions: the exploration still has its configured parameters; the reduction below it returns one score per action in order, never NaN; and if the parameters are in range and (softmax, SquareCB) no score is infinite, the result is a distribution over the actions up to n * 2^-18. The condition on infinite scores is needed: SquareCB trained on seven ordinary examples panics on an example with finite but huge values.", "quantifier": "for all configurations, hash functions, training histories, examples in range with 1 to 3000 actions, and all exp/ln/powf (for softmax: exp is 1 at zero and within [0,1] below)", "why_tests_cant": "Training histories and single precision weights are unbounded; that no history leads to NaN scores or to probabilities off by more than rounding cannot be sampled.", "anchors": ["reductionml-core/src/reductions/cb_explore_adf_greedy.rs:121-163", "reductionml-core/src/reductions/cb_explore_adf_softmax.rs:117-147", "reductionml-core/src/reductions/cb_explore_adf_squarecb.rs:136-189", "reductionml-core/src/reductions/cb_adf.rs:138-163", "reductionml-core/src/reductions/coin.rs:187-219", "reductionml-core/src/explore.rs:3-78"]}
{"id": "C81", "title": "When calls return on stacks with element-wise interactions", "statement": "For every configuration (for predict: without softmax and SquareCB), including those with element-wise reductions anywhere in the stack, and after any training, a release build behaves as follows on examples whose two interacted namespaces hold vectors laid out from their base and whose composite namespace is free. The bottom regressor is shown the content given by a separate specification (the products of matching positions at base + position, the originals kept or dropped, shared features joined for contextual bandits). Predict and learn return, with the announced prediction type, if all those indices are inside the weight table; otherwise they panic. With one element-wise reduction over the regressor this means: they return exactly when hash(one)*hash(two) mod 2^bits + p < 2^bits for every position p in both vectors. That the features themselves are inside the table is not enough.", "quantifier": "for all configurations, hash functions, training histories, feature objects that satisfy the layout, and labels of the right type", "why_tests_cant": "Whether a product index leaves the table depends on the hash of two namespaces, the table size and the positions; a test sees the panic only for namespaces that hash near the end of the table.", "anchors": ["reductionml-core/src/reductions/elementwise_interaction.rs:126-280", "reductionml-core/src/dense_weights.rs:191-256", "reductionml-core/src/reductions/cb_adf.rs:138-216", "reductionml-core/src/sparse_namespaced_features.rs:321-438"]}
{"id": "C82", "title": "The regressor fits its examples as well as the best linear predictor", "statement": "Exact arithmetic. Train a new coin regressor (identity link, squared loss) on any sequence of examples with labels in a range, weights between two bounds, the same number k of features per example and every feature always with the same magnitude (for instance indicator features). Predict each example right after learning it. The sum of the weighted squared errors exceeds that of any fixed linear predictor by at most an explicit gap that grows like the square root of the number of examples times a logarithm. So, in a workspace through learn and predict, the average excess vanishes; for data that some linear predictor gets right the average error tends to zero.", "quantifier": "for all configurations with beta >= 2 * range * weight bound, hash functions, example sequences of any length as described, and all linear predictors", "why_tests_cant": "A guarantee over all sequences and in the limit; tests train on a few fixed sequences.", "anchors": ["reductionml-core/src/reductions/coin.rs:187-240", "reductionml-core/src/reductions/coin.rs:302-418", "reductionml-core/src/workspace.rs:170-186"]}
{"id": "C83", "title": "What contextual bandit learning fits on average", "statement": "Exact arithmetic, any number of rounds in which later rounds, costs and probabilities may depend on the actions drawn so far; every action can be drawn. Under mtr the child is trained on the drawn actions only, and for every predictor the expected weighted squared loss on those examples equals its loss on all actions of all rounds, drawn or not, each round scaled by events/actions. Under ips the child is trained on all actions with made up costs, and the expected training loss differs between two predictors by exactly what their losses on the true costs differ by. The greedy and softmax explorers and the Debug layer hand the log down unchanged. SquareCB drops the probabilities: over mtr each action counts with the probability that it is drawn; over ips (accepted behind a Debug layer, see C51) the child is trained towards each cost times the probability that its action is drawn, so that a wrong predictor can have smaller expected training loss than the one that gets every cost right (refuted with a witness).", "quantifier": "for all stacks below the bandit reduction, all adaptive logging policies with full support, all costs, all predictors, any number of rounds", "why_tests_cant": "An identity between expectations over all logs; a test sees single logs.", "anchors": ["reductionml-core/src/reductions/cb_adf.rs:127-134", "reductionml-core/src/reductions/cb_adf.rs:165-222", "reductionml-core/src/reductions/cb_explore_adf_squarecb.rs:175-189", "reductionml-core/src/reductions/cb_explore_adf_greedy.rs:165-173", "reductionml-core/src/reductions/cb_explore_adf_softmax.rs:149-157"]}
{"id": "C84", "title": "Consistently cheap actions get the lower scores and at least the same probability", "statement": "Exact arithmetic. After any training, a feature that occurred only in examples with the highest label (with nonnegative values) has no negative weight and one that occurred only with the lowest label has no positive weight, whatever the other features do; the weight is not zero if the first example with a label other than 0 has the feature and a later example has it again. So of two feature vectors that differ only in such features the one with the lowest labels never gets the higher raw prediction, and gets a lower one if one of these features was noticed in that sense. The same holds for the scores of actions of a contextual bandit stack trained with mtr on any log, and with a greedy, softmax or SquareCB explorer on top the better action is at least as probable. In particular, with two actions that have features of their own, one always costing lo and the other always costing hi > lo, the first has the lower score as soon as both have been drawn twice, in any order and with any probabilities.", "quantifier": "for all configurations with alpha > 0, all training sequences, all feature vectors, all logs of any length", "why_tests_cant": "The end-to-end tests train on one fixed sequence and check one probability.", "anchors": ["reductionml-core/src/reductions/coin.rs:302-422", "reductionml-core/src/reductions/cb_adf.rs:136-222", "reductionml-core/src/reductions/cb_explore_adf_greedy.rs:154-163", "reductionml-core/tests/cb.rs:187-297"]}
{"id": "C85", "title": "The same example in every format trains the same model", "statement": "An example is namespaces with names, each holding named features (number, string or only the name) or a vector of numbers; a simple example has a value and a weight, a contextual bandit example an optional shared part, actions and the position, cost and probability of the action taken. If two chunks write the same example, be it in VW text, JSON or decision service JSON, both are accepted by their parsers with whatever recycled objects, and give the same features and the label of the example. Two train commands that differ only in the format, on texts whose chunks write the same sequence of examples, have the same outcome: predictions, table of metrics and saved model are equal, or both fail with the same failure. Not covered: JSON lists of strings (see C42), empty namespaces in decision service JSON (which leave no trace there, while the other formats create an empty namespace), vector indices that reach 2^32.", "quantifier": "for all examples, formats, configurations and saved models, hash seeds, bit counts below 32, number readers, builds and recycled objects", "why_tests_cant": "The tests parse single lines of each format and count features; nothing compares the formats or trains with two of them.", "anchors": ["reductionml-core/src/parsers/vw_text_parser.rs:49-494", "reductionml-core/src/parsers/json_parser.rs:15-204", "reductionml-core/src/parsers/dsjson_parser.rs:56-211", "reductionml-cli/src/main.rs:44-81", "reductionml-cli/src/train.rs:218-397"]}
{"id": "C86", "title": "Which JSON data the train command accepts", "statement": "Release build; JSON and decision service data in which no namespace is a list of strings. A quiet run of the train command with a stack without the element-wise reduction finishes if the format suits the labels of the stack (decision service data: contextual bandits) and one can train on every line, and otherwise panics. One can train on a line if it is a document with a label and features for the label type of the stack: the feature objects hold only what the format allows and their vector indices fit; contextual bandits need a list of actions, and, if the mtr cost type is used, shared features and an action with the number the label names. There is no such line for binary labels. With progress output or a predictions file the same holds for stacks without softmax and SquareCB and metrics that suit the labels and predictions, except that probabilities need at least one action, the metric ips needs the action named by the label to exist, and a run that is not quiet panics if there is no line at all.", "quantifier": "all configurations without the element-wise reduction, hash functions, readers of JSON text, states reached by training, files, modes", "why_tests_cant": "quantifies over all files and trained states; the panics are spread over the two parsers, the cost types, the metrics and the table of results", "anchors": ["reductionml-core/src/parsers/json_parser.rs:15-204", "reductionml-core/src/parsers/dsjson_parser.rs:55-215", "reductionml-cli/src/main.rs:44-81", "reductionml-cli/src/train.rs:218-397", "reductionml-core/src/reductions/cb_adf.rs: learn"]}
{"id": "C87", "title": "Without interactions the policy does not depend on the context", "statement": "Exact arithmetic, stacks without the element-wise reduction. As the documentation says, relating action features to shared features needs interactions: if every configured interaction stays on one side (its namespaces hold no features of the context, or they hold no features of any action), then for the same actions the scores in two contexts differ by the same number for every action, and the probabilities of greedy, softmax and SquareCB are the same in both contexts, whatever was learned before. With an interaction between a namespace of the context and a namespace of the actions the preferred action can depend on the context (binary32 example).", "quantifier": "all configurations without the element-wise reduction, hash functions, states reached by training, pairs of contexts (also absent ones), lists of actions", "why_tests_cant": "quantifies over all trained states and all pairs of contexts; the invariance is a property of sums of weights that no finite set of examples shows", "anchors": ["docs/source/reductions/cb_adf.md:6-15", "reductionml-core/src/reductions/cb_adf.rs:138-190", "reductionml-core/src/reductions/coin.rs:187-219", "reductionml-core/src/weights.rs:33-91", "reductionml-core/src/interactions.rs", "reductionml-core/src/reductions/cb_explore_adf_greedy.rs:154", "reductionml-core/src/reductions/cb_explore_adf_softmax.rs:117", "reductionml-core/src/reductions/cb_explore_adf_squarecb.rs:136"]}
{"id": "C88", "title": "The order of the features does not matter", "statement": "Exact arithmetic, release build, stacks without the element-wise reduction, no interaction that names the same namespace twice in a row. If two examples have the same features in every namespace, in any order, the model gives the same prediction for both. If moreover the regressor meets no index twice in the example (features, interactions and constant), learning from either leads to exactly the same model, and so does training on a whole data set whose examples have their features in another order. Both conditions are needed: with an interaction of a namespace with itself, or with two features of the same index, binary32 examples show that the order changes predictions.", "quantifier": "all configurations without the element-wise reduction, hash functions, states reached by training, examples, orders, data sets", "why_tests_cant": "quantifies over all permutations of the features of all examples of all data sets and over all trained states", "anchors": ["reductionml-core/src/sparse_namespaced_features.rs", "reductionml-core/src/weights.rs:33-91", "reductionml-core/src/interactions.rs", "reductionml-core/src/utils.rs", "reductionml-core/src/reductions/coin.rs:187-420", "reductionml-core/src/reductions/cb_adf.rs:138-222"]}
{"id": "C89", "title": "The order of the actions does not matter", "statement": "Take a contextual bandit example and the same example with its actions in another order. In any arithmetic, for every state of every stack: each action gets the same score, at its new position; and if no reduction learns with inverse propensity scores (mtr, the default), learning from the second example, with the label naming the action at its new position, leads to exactly the same model, and so does training on a whole data set with the actions of each example in another order. In exact arithmetic the probabilities move with the actions too: always for softmax, and for greedy and SquareCB when one action has the lowest score. Inverse propensity scores learn the actions one after the other, and equal lowest scores favour the first action: examples show that the order matters there.", "quantifier": "all stacks, states, contexts, lists of actions, permutations, labels, data sets", "why_tests_cant": "quantifies over all permutations of the actions of every example and all states of the model", "anchors": ["reductionml-core/src/reductions/cb_adf.rs:138-222", "reductionml-core/src/reductions/cb_explore_adf_greedy.rs:121-173", "reductionml-core/src/reductions/cb_explore_adf_softmax.rs:117-157", "reductionml-core/src/reductions/cb_explore_adf_squarecb.rs:136-189", "reductionml-core/src/explore.rs:3-78"]}
{"id": "C90", "title": "An exported model has weights only for the features it was trained on", "statement": "For every configuration (any stack of reductions, including element-wise interactions) and every training run that returns: exporting the model returns a table with at most one entry per index, and the index of every entry is one that the regressor uses on a feature object that one of the training examples showed it. For the stack of the documentation of the element-wise interaction (mtr over an element-wise reduction that drops the original features, no constant feature, no interactions): training on any number of examples whose context and labelled action hold one vector of at most d positions each returns, and the model has at most d weights, at the d indices from the masked hash of the pair on; the example of the documentation gives exactly the 3 weights it promises.", "quantifier": "all configurations, feature objects, labels, data sets, hash functions, transcendental functions; all d", "why_tests_cant": "quantifies over whole training runs and over every index of the table", "anchors": ["reductionml-core/src/dense_weights.rs:76-107", "docs/source/reductions/elementwise_interaction.md:17-56", "reductionml-core/src/reductions/coin.rs:221-424", "reductionml-core/src/reductions/elementwise_interaction.rs:126-280", "reductionml-core/src/reductions/cb_adf.rs:138-222"]}
{"id": "C91", "title": "The units of the features do not matter", "statement": "In exact arithmetic, for every configuration without interactions and without the element-wise reduction and every sequence of predict, learn and predict-then-learn calls on a new workspace: multiplying, in every call, the values of the feature with index i by a nonzero number u(i) (1 for the constant feature) gives the same predictions, the same errors and panics in the same places, and leaves behind the same features in the new units. So measuring a feature in grams or in tons, or with the opposite sign, changes nothing; it does change the sensitivity.", "quantifier": "all configurations, call sequences, feature objects, labels, hash functions and unit changes u", "why_tests_cant": "quantifies over whole training histories and over all unit changes; floating point would only allow comparing roughly", "anchors": ["reductionml-core/src/reductions/coin.rs:187-240", "reductionml-core/src/reductions/coin.rs:302-418", "reductionml-core/src/reductions/cb_adf.rs:138-222"]}
{"id": "C92", "title": "The indices of the features do not matter", "statement": "In every arithmetic (so exactly in binary32), for every configuration without interactions and without the element-wise reduction and every sequence of predict, learn, predict-then-learn and sensitivity calls on a new workspace: giving, in every call, the feature with index i the index ix(i), for an injective ix that keeps the indices inside the table inside and those outside outside and fixes the index of the constant feature, gives the same answers, errors and panics. So only which features share an index matters, not which index it is. Merging two indices does change the predictions.", "quantifier": "all arithmetics, configurations, call sequences, feature objects, labels, hash functions and injective renamings", "why_tests_cant": "quantifies over whole training histories and over all renamings of the weight table", "anchors": ["reductionml-core/src/dense_weights.rs:191-256", "reductionml-core/src/weights.rs:33-91", "reductionml-core/src/reductions/coin.rs:187-424"]}
{"id": "C93", "title": "Examples of weight zero and features of value zero", "statement": "In exact arithmetic, on every trained regressor: (1) learning from an example of weight zero leaves the gradient sums, the sums of magnitudes, the wealth, the largest update of every index and the totals of the regressor unchanged, but (refuted at binary32) it can change predictions, as it recomputes the weights used for predicting and records values and labels; (2) a prediction does not depend on features, including interactions, of value zero; (3) indices that have the value zero wherever they occur can be left out of all training and prediction calls without changing a prediction, but (refuted at binary32) a feature of value zero in one training example is not the same as leaving it out: it records the size of the update for this index, which makes later learning about the feature slower.", "quantifier": "all configurations, interactions, training histories, examples, feature objects and index sets; both build modes", "why_tests_cant": "quantifies over training histories, feature objects and index sets; the expectation that zero means nothing fails only in the hidden state", "anchors": ["reductionml-core/src/reductions/coin.rs:187-240", "reductionml-core/src/reductions/coin.rs:302-418"]}
{"id": "C94", "title": "The unit of the labels", "statement": "In exact arithmetic and with the squared loss: multiplying all labels of a training history by a factor s other than zero, alpha by the square of s and beta by its absolute value multiplies every prediction (before the link function) by s. Changing the sign of all labels changes the sign of all predictions, with every loss and an unchanged configuration. For contextual bandits, with ips and with mtr: multiplying all costs of a log by s and changing the configuration of the regressor alike multiplies all scores by s; for positive s, with the lambda of softmax and the gamma scale of SquareCB divided by s, greedy, softmax and SquareCB exploration predict exactly the same probabilities. With the same alpha and beta this is false (refuted at binary32): twice the labels do not give twice the predictions.", "quantifier": "all factors, configurations, interactions, training histories or logs, and feature objects; both build modes", "why_tests_cant": "quantifies over factors, configurations and training histories; a test compares two runs on one data set", "anchors": ["reductionml-core/src/reductions/coin.rs:187-240", "reductionml-core/src/reductions/coin.rs:302-418", "reductionml-core/src/reductions/cb_adf.rs:136-222", "reductionml-core/src/reductions/cb_explore_adf_squarecb.rs:136-189", "reductionml-core/src/reductions/cb_explore_adf_softmax.rs:115-163"]}
{"id": "C95", "title": "Debug and release builds agree unless the debug build panics", "statement": "For every input on which a debug build returns (a result or an error) a release build returns the same: making a workspace, predict, learn, predict_then_learn and the sensitivity; the text, JSON and DsJson parsers and the extraction of feature names; loading a configuration; the export and import commands; the train command as a whole, with the same predictions, table and saved model; every state the threaded train command can reach without a panicked thread; and every program using the Python module in which no call panics. The converse is false (refuted): on an action whose namespace has no features, and on two unnamed features in a namespace with a large hash, the release build trains a model and the debug build panics.", "quantifier": "all workspaces, configurations, data, options, hash functions, thread schedules and Python programs; any arithmetic", "why_tests_cant": "tests are run in one build mode, usually the debug one, and users get the other; a test compares the two at single inputs only", "anchors": ["reductionml-core/src/reduction.rs:33-110", "reductionml-core/src/dense_weights.rs:190-215", "reductionml-core/src/loss_function/logistic_loss.rs:20-30", "reductionml-core/src/loss_function/logistic_loss.rs:85-92", "reductionml-core/src/reductions/cb_adf.rs:125-131", "reductionml-core/src/hash.rs:60-100"]}
{"id": "C96", "title": "A prediction depends only on the total value of each feature", "statement": "In exact arithmetic, a trained stack without elementwise interactions predicts the same for two examples whose namespaces have the same feature indices with the same sum of values per index: a feature that occurs several times counts like one feature with the sum, also inside interactions of different namespaces (release builds: if one call returns so does the other; debug builds: when both return). Without interactions the raw prediction of the regressor is linear: if the totals of one example are al times those of a second plus be times those of a third then so are the raw predictions (with the constant feature, for al + be = 1). Training is different (refuted at binary32): learning from a feature given twice leads to other predictions than learning from it given once with the sum.", "quantifier": "all configurations, reachable models, examples and mixtures; exact arithmetic (refutation: binary32)", "why_tests_cant": "repeated features come from hash collisions and repeated words; tests use a handful of distinct features, so the rule for collisions is not visible in them", "anchors": ["reductionml-core/src/reductions/coin.rs:187-219", "reductionml-core/src/weights.rs:33-91", "reductionml-core/src/sparse_namespaced_features.rs", "reductionml-core/src/interactions.rs"]}
{"id": "C97", "title": "The laws about features hold in debug builds that do not panic", "statement": "A sequence of calls that the debug build answers without a panic has the same answers in the release build, and every model a debug build can reach a release build can reach. So what is shown for release builds holds for debug builds whenever the calls in question return: the order of features (C88: the same predictions and models, one call or a whole data set), empty namespaces (C75: the same predictions and models), the units of the features (C91) and their indices (C92: the same answers to whole sequences of calls).", "quantifier": "all stacks, models, calls and sequences of calls; any arithmetic (C75, C92) or exact arithmetic (C88, C91)", "why_tests_cant": "a test in the debug build does not say what users of the release build get, nor the other way round; the two laws needed for it are about all calls", "anchors": ["reductionml-core/src/reduction.rs:33-110", "reductionml-core/src/workspace.rs", "reductionml-core/src/sparse_namespaced_features.rs", "reductionml-core/src/dense_weights.rs:190-215"]}
{"id": "C98", "title": "The order and repetition of words in a data file do not matter", "statement": "In exact arithmetic: if two chunks of data, in the same or in different formats (text, JSON, DsJson), write examples with the same words (a namespace with a name, a name and a string, or a position in a vector) and the same values in another order - also with a namespace split into several or several joined - then both are accepted, they give the same predictions, and without hash collisions they lead to the same model. A whole run of the train command then leaves the same predictions file, table and model; in a debug build, two runs that both return do. If a word is given several times, or once with the sum of the values, the predictions are still the same.", "quantifier": "all examples, formats, numbers of examples, configurations without elementwise interactions and without an interaction of a namespace with itself, recycled feature objects, and models reached by training", "why_tests_cant": "tests have a few lines in one order; that parsing, hashing, recycling, interactions and the update never look at the order is a statement about all files", "anchors": ["reductionml-core/src/parsers/vw_text_parser.rs:49-494", "reductionml-core/src/parsers/json_parser.rs:15-204", "reductionml-core/src/parsers/dsjson_parser.rs:56-211", "reductionml-core/src/sparse_namespaced_features.rs", "reductionml-core/src/utils.rs", "reductionml-cli/src/train.rs:218-397"]}
{"id": "C99", "title": "Features that were never seen in training do not count in a prediction", "statement": "After any training run of a stack without elementwise interactions, in exact arithmetic: if two examples have the same total value at every index that some feature, interaction or constant of the training examples had, then the predictions are the same, whatever else the examples contain. Without interactions it is enough that the values at the seen indices agree in every namespace, so new features and new namespaces can be added. In debug builds the same holds when training and both predictions return. In single precision, leaving out features with finite values and unseen indices does not change the number the regressor computes before clamping.", "quantifier": "all training runs, configurations, examples, and numbers and values of new features", "why_tests_cant": "a test tries a few new features on one model; that no unseen feature has an effect needs the state of every untouched weight after every training run", "anchors": ["reductionml-core/src/reductions/coin.rs:187-219", "reductionml-core/src/dense_weights.rs", "reductionml-core/src/utils.rs", "reductionml-core/src/reductions/cb_adf.rs"]}
{"id": "C100", "title": "Actions the model has no reason to tell apart are treated alike", "statement": "An action that is listed twice gets the same score twice, in any arithmetic and any stack. After any training run of a stack without elementwise interactions, in exact arithmetic: two actions that, together with the context, have the same total value at every index seen in training get the same score, and with softmax on top the same probability. If this holds for all actions of an example, softmax and SquareCB give each of the n actions the probability 1/n, and greedy gives eps/n to each plus 1-eps to the first. An untrained workspace always answers like that, whatever the features. Both builds, for calls that return.", "quantifier": "all training runs, configurations, contexts, numbers and contents of actions", "why_tests_cant": "a test shows one untrained model or one pair of actions; that no pair of indistinguishable actions is ever separated concerns all training histories, positions and features", "anchors": ["reductionml-core/src/reductions/cb_adf.rs", "reductionml-core/src/reductions/coin.rs:187-219", "reductionml-core/src/reductions/cb_explore_adf_softmax.rs", "reductionml-core/src/reductions/cb_explore_adf_squarecb.rs", "reductionml-core/src/reductions/cb_explore_adf_greedy.rs", "reductionml-core/src/utils.rs"]}
{"id": "C101", "title": "A workspace that has not learned anything scores everything zero in single precision", "statement": "In single precision, whatever the stack, the build and the features (values may be infinite or not a number): every raw prediction and every action score of a new workspace is exactly +0. With the identity link the prediction is +0 too and a binary classifier answers false; with the logistic link the prediction is 1/2 and a binary classifier answers true (if the exponential of -0 is 1). Greedy on top gives each of the n actions eps/n and 1-eps more to the first; softmax gives all actions the same probability bit for bit; SquareCB gives all actions but the first the same probability (the first gets the rest to 1, which may differ by rounding). Softmax never separates actions with equal scores, in any arithmetic and after any training. For calls that return.", "quantifier": "all configurations, builds, contexts, numbers and contents of actions, all binary32 feature values", "why_tests_cant": "a test tries a new model on some ordinary features; that infinities, NaN and signed zeros never leak into any score or probability concerns all feature values and stacks", "anchors": ["reductionml-core/src/reductions/coin.rs:187-219", "reductionml-core/src/reductions/cb_adf.rs", "reductionml-core/src/reductions/cb_explore_adf_softmax.rs", "reductionml-core/src/reductions/cb_explore_adf_squarecb.rs", "reductionml-core/src/reductions/cb_explore_adf_greedy.rs", "reductionml-core/src/utils.rs"]}
