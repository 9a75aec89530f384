{
 "claims": [
  {
   "property": "C01",
   "status": "proved",
   "theorems": [
    "C01_append_remove_restores",
    "C01_unconditional_refuted"
   ],
   "note": "Holds when no active namespace common to both is empty in the action; witness shows it fails without that condition."
  },
  {
   "property": "C02",
   "status": "proved",
   "theorems": [
    "C02_features_restored",
    "C02_unconditional_refuted",
    "C02_debug_panics",
    "C02_composite_refuted"
   ],
   "note": "All stacks that can be created, all reachable states, plain features (namespaces common to shared and action are not active-and-empty; no RawHash namespace); the refutations show both conditions are needed."
  },
  {
   "property": "C03",
   "status": "proved",
   "theorems": [
    "C03_recycled_like_new",
    "C03_same_models",
    "C03_parsing",
    "C03_train_pool",
    "C03_namespaces_refuted"
   ],
   "note": "Every later program of feature operations and predict/learn calls on any stack. The raw namespaces() listing and the result of remove_namespace show stale entries and are excluded, with a refutation."
  },
  {
   "property": "C04",
   "status": "proved",
   "theorems": [
    "C04_never_handed_out_twice",
    "C04_pool_contents",
    "C04_exclusive",
    "C04_progress"
   ],
   "note": "All interleavings of lock, read, write and unlock steps of any number of clients; sequentially consistent memory; objects by identity."
  },
  {
   "property": "C05",
   "status": "proved",
   "theorems": [
    "C05_cells_disjoint",
    "C05_table_is_a_map"
   ],
   "note": "All sizes, all write sequences."
  },
  {
   "property": "C06",
   "status": "proved",
   "theorems": [
    "C06_sparse_roundtrip",
    "C06_zero_same_binary32"
   ],
   "note": "Any float record; the second theorem says what can change at binary32."
  },
  {
   "property": "C07",
   "status": "proved",
   "theorems": [
    "C07_ndarray_roundtrip"
   ],
   "note": "All tables reachable by state writes. The JSON text layer is not modelled."
  },
  {
   "property": "C08",
   "status": "proved",
   "theorems": [
    "C08_masking_early_or_late"
   ],
   "note": ""
  },
  {
   "property": "C09",
   "status": "proved",
   "theorems": [
    "C09_pairs_once",
    "C09_unordered_pairs_once"
   ],
   "note": ""
  },
  {
   "property": "C10",
   "status": "proved",
   "theorems": [
    "C10_triples_visited",
    "C10_missing_refuted",
    "C10_repeated_refuted"
   ],
   "note": "The exact set of triples is characterised; the unrestricted claim is refuted for repeated namespaces."
  },
  {
   "property": "C11",
   "status": "proved",
   "theorems": [
    "C11_indices_in_table"
   ],
   "note": ""
  },
  {
   "property": "C12",
   "status": "proved",
   "theorems": [
    "C12_distribution",
    "C12_any_input",
    "C12_uniform"
   ],
   "note": "Exact (real) arithmetic."
  },
  {
   "property": "C13",
   "status": "proved",
   "theorems": [
    "C13_floor_and_order",
    "C13_unchanged",
    "C13_unchanged_refuted"
   ],
   "note": "Exact arithmetic; the unchanged part needs rate at most 0.999, shown by the refutation."
  },
  {
   "property": "C14",
   "status": "proved",
   "theorems": [
    "C14_error_iff",
    "C14_no_panic",
    "C14_zero_rate_unchanged",
    "C14_nan_rate_accepted"
   ],
   "note": "Any float record; NaN witness at binary32."
  },
  {
   "property": "C15",
   "status": "proved",
   "theorems": [
    "C15_greedy",
    "C15_prediction_is_policy"
   ],
   "note": "Exact arithmetic for the policy; the link to stack predictions holds for any float record."
  },
  {
   "property": "C16",
   "status": "proved",
   "theorems": [
    "C16_squarecb",
    "C16_negative_exponent_refuted",
    "C15_prediction_is_policy"
   ],
   "note": "Exact arithmetic; needs counter > 0 or a nonnegative exponent, shown necessary at binary32."
  },
  {
   "property": "C17",
   "status": "proved",
   "theorems": [
    "C17_softmax",
    "C17_shift_invariant",
    "C15_prediction_is_policy"
   ],
   "note": "Exact arithmetic."
  },
  {
   "property": "C18",
   "status": "proved",
   "theorems": [
    "C18_range",
    "C18_identity_link",
    "C18_scores_refuted"
   ],
   "note": "binary32, all training runs on features inside the table; includes absence of panics. C18_scores_refuted: bandit scores are raw predictions and leave the range."
  },
  {
   "property": "C19",
   "status": "proved",
   "theorems": [
    "C19_only_used_weights"
   ],
   "note": "binary32, all reachable regressors."
  },
  {
   "property": "C20",
   "status": "proved",
   "theorems": [
    "C20_accumulators",
    "C20_maxima",
    "C20_gradient"
   ],
   "note": "Sums in exact arithmetic; maxima at binary32 for a beta that is not NaN and values that are not NaN."
  },
  {
   "property": "C21",
   "status": "proved",
   "theorems": [
    "C21_type_correct",
    "C21_accepted_iff_typed"
   ],
   "note": "All creatable stacks and reachable states; acceptance is characterised by an independent typing judgement."
  },
  {
   "property": "C22",
   "status": "proved",
   "theorems": [
    "C22_predict_then_learn",
    "C22_predict_then_learn_loose"
   ],
   "note": "Both directions, all creatable stacks, reachable states. Plain features: the features afterwards agree too. Loose features (no condition on empty namespaces): prediction and model agree."
  },
  {
   "property": "C23",
   "status": "proved",
   "theorems": [
    "C23_scores",
    "C23_independent"
   ],
   "note": "Any float record; the score is the raw prediction of the child."
  },
  {
   "property": "C24",
   "status": "proved",
   "theorems": [
    "C24_learn_returns",
    "C24_no_shared_refuted",
    "C24_action_out_of_range",
    "C24_nan_value_debug"
   ],
   "note": "binary32, all creatable stacks without the element-wise reduction, all reachable states, with the conditions spelled out; each condition is shown necessary by a witness."
  },
  {
   "property": "C25",
   "status": "proved",
   "theorems": [
    "C25_same_features",
    "C25_same_prediction",
    "C25_pair_refuted",
    "C25_triple_refuted"
   ],
   "note": "Any float record for the index/value pairs, exact arithmetic for the prediction; false for same-namespace interactions over namespaces present in both, with witnesses."
  },
  {
   "property": "C26",
   "status": "proved",
   "theorems": [
    "C26_multi_line",
    "C26_single_line"
   ],
   "note": "The lines, blank lines and runs of lines are described by inductive relations independent of the reader; the theorems also show that they exist for every text."
  },
  {
   "property": "C27",
   "status": "proved",
   "theorems": [
    "C27_total_refuted",
    "C27_simple_lines",
    "C27_multi_lines"
   ],
   "note": "The claim as titled is false and refuted with witnesses; the exact condition for returning a result is proved for release builds."
  },
  {
   "property": "C28",
   "status": "proved",
   "theorems": [
    "C28_label",
    "C28_two_labels"
   ],
   "note": "Every chunk, hash function, number parser, pool content and build profile."
  },
  {
   "property": "C29",
   "status": "proved",
   "theorems": [
    "C29_simple",
    "C29_contextual_bandit"
   ],
   "note": "The hash function and the float parser are parameters."
  },
  {
   "property": "C30",
   "status": "proved",
   "theorems": [
    "C30_mse",
    "C30_ips",
    "C30_parsed_features",
    "C30_example_number",
    "C30_empty_run"
   ],
   "note": "Mean squared error and IPS in exact real arithmetic; the counters in any arithmetic. The u64 counters are unbounded in the model."
  },
  {
   "property": "C31",
   "status": "proved",
   "theorems": [
    "C31_additive",
    "C31_doubling"
   ],
   "note": "Additive: any build profile while the 32-bit sum of the example index and the period does not overflow. Period 2: binary32 arithmetic, up to the 32-bit limit."
  },
  {
   "property": "C32",
   "status": "proved",
   "theorems": [
    "C32_file_order",
    "C32_same_as_one_thread",
    "C32_command",
    "C32_json_formats"
   ],
   "note": "Transition system of the input, parser and learner threads with the two bounded queues, the hand-over cells and the pool (Model_Pipeline), all schedules; text format, and the JSON formats with pool objects without capacities (see C42). Memory is taken to be sequentially consistent."
  },
  {
   "property": "C33",
   "status": "proved",
   "theorems": [
    "C33_no_panic",
    "C33_progress",
    "C33_no_endless_run",
    "C33_finishes",
    "C33_json_formats"
   ],
   "note": "All schedules, thread counts and queue sizes including 0; the hypothesis is that a single thread gets through the data."
  },
  {
   "property": "C34",
   "status": "proved",
   "theorems": [
    "C34_bad_line_refuted",
    "C34_parser_panic_hangs",
    "C34_error_hangs",
    "C34_error_ends",
    "C34_json_formats"
   ],
   "note": "Proved false, with a witness, together with the exact conditions under which the command hangs or ends."
  },
  {
   "property": "C35",
   "status": "proved",
   "theorems": [
    "C35_sorted",
    "C35_used"
   ],
   "note": "All configurations; all created stacks and reachable states."
  },
  {
   "property": "C36",
   "status": "proved",
   "theorems": [
    "C36_products",
    "C36_child_input",
    "C36_missing_panics",
    "C36_same_twice_panics",
    "C36_below_base_panics",
    "C36_wrap_around_refuted"
   ],
   "note": "Any float record. Positions need not be contiguous."
  },
  {
   "property": "C37",
   "status": "proved",
   "theorems": [
    "C37_predicts_erasable",
    "C37_predict_repeatable"
   ],
   "note": "All programs of feature operations and calls; predict calls on tidy features."
  },
  {
   "property": "C38",
   "status": "proved",
   "theorems": [
    "C38_quiet_same_model",
    "C38_all_modes_same_model",
    "C38_converse_refuted"
   ],
   "note": "Text data, single thread; no condition on the data. The converse direction (quiet finishes, so the other finishes) is refuted."
  },
  {
   "property": "C39",
   "status": "proved",
   "theorems": [
    "C39_first_derivative",
    "C39_second_derivative",
    "C39_convex",
    "C39_linear_outside",
    "C39_step",
    "C39_step_moves",
    "C39_gradient_step",
    "C39_corner_refuted"
   ],
   "note": "Exact arithmetic. The logistic checked update (Lambert approximation) is modelled but nothing is proved about it."
  },
  {
   "property": "C40",
   "status": "proved",
   "theorems": [
    "C40_features",
    "C40_accepts",
    "C40_underscore",
    "C40_whole_example"
   ],
   "note": "Induction over JSON trees; exact contents, exact set of accepted documents, underscore keys irrelevant even for refused documents. Reading JSON text is an argument."
  },
  {
   "property": "C41",
   "status": "proved",
   "theorems": [
    "C41_features",
    "C41_accepts",
    "C41_same_as_text"
   ],
   "note": "Exact contents of every accepted feature object and index agreement with the text format."
  },
  {
   "property": "C42",
   "status": "proved",
   "theorems": [
    "C42_recycled_refuted",
    "C42_same_or_capacity",
    "C42_no_lists"
   ],
   "note": "Proved false for every hash and every lawful allocator; true when there are no lists of strings; otherwise the only difference is the panic in reserve."
  },
  {
   "property": "C43",
   "status": "proved",
   "theorems": [
    "C43_offset_balanced"
   ],
   "note": "All stacks, any starting offset a u8 can hold."
  },
  {
   "property": "C44",
   "status": "proved",
   "theorems": [
    "C44_same_answers",
    "C44_identical_refuted"
   ],
   "note": "binary32. serde/flexbuffers taken to be the identity on every field except the weights, whose hand-written sparse form is modelled. The states need not be bit-identical: witness."
  },
  {
   "property": "C45",
   "status": "proved",
   "theorems": [
    "C45_named",
    "C45_table",
    "C45_repeated_refuted",
    "C45_actions_refuted",
    "C45_default_refuted",
    "C45_alone_refuted",
    "C45_tab_refuted"
   ],
   "note": "Exact contents of the table under the stated conditions; each condition shown necessary by a witness valid for every hash function. The insertion loop is not written in the repository (create_inv_hash_table.rs reports \"Not implemented\")."
  },
  {
   "property": "C46",
   "status": "proved",
   "theorems": [
    "C46_squared_always",
    "C46_configured_loss_refuted"
   ],
   "note": "The claim is false; what is used instead is proved for all reachable regressors."
  },
  {
   "property": "C47",
   "status": "proved",
   "theorems": [
    "C47_sign",
    "C47_labels",
    "C47_logistic_always_true",
    "C47_link_underflow"
   ],
   "note": "Logistic part in exact arithmetic; binary32 exception for overflowing exp."
  },
  {
   "property": "C48",
   "status": "proved",
   "theorems": [
    "C48_ips",
    "C48_mtr"
   ],
   "note": "Any float record, any training history with sums below 2^64."
  },
  {
   "property": "C49",
   "status": "proved",
   "theorems": [
    "C49_predict_returns"
   ],
   "note": "binary32, stacks without element-wise, softmax and SquareCB reductions."
  },
  {
   "property": "C50",
   "status": "proved",
   "theorems": [
    "C50_learn",
    "C50_policy_irrelevant",
    "C50_squarecb",
    "C50_gamma",
    "C50_both"
   ],
   "note": "Equalities of outcomes (values, errors and panics), then induction over the training history."
  },
  {
   "property": "C51",
   "status": "proved",
   "theorems": [
    "C51_transparent",
    "C51_never_refuses",
    "C51_same_refusal",
    "C51_bypass_refuted"
   ],
   "note": "Simulation between a stack and the stack without its Debug layers, and between the two configurations; printing to the terminal is not modelled."
  },
  {
   "property": "C52",
   "status": "proved",
   "theorems": [
    "C52_defaults",
    "C52_written"
   ],
   "note": "Independence of the parsing depth, then congruence of every parse function; the written form is parsed back by induction over the configuration. Reading JSON text is not modelled."
  },
  {
   "property": "C53",
   "status": "proved",
   "theorems": [
    "C53_refused",
    "C53_beside_refuted",
    "C53_loss_refuted"
   ],
   "note": "Induction over the place of the key; the two exceptions by witnesses valid for every hash function."
  },
  {
   "property": "C54",
   "status": "proved",
   "theorems": [
    "C54_new",
    "C54_unknown",
    "C54_debug_refuted"
   ],
   "note": "Case analysis over the registry with the acceptance theorem of C21."
  },
  {
   "property": "C55",
   "status": "proved",
   "theorems": [
    "C55_no_panic",
    "C55_always_refuted"
   ],
   "note": "Induction over the configuration; the condition is exact for written-out configurations. Running out of memory is not modelled."
  },
  {
   "property": "C56",
   "status": "proved",
   "theorems": [
    "C56_same_answers"
   ],
   "note": "Writing and reading JSON trees as derived by serde, the two rewriting functions, invariants of reachable states (table shape, zero padding, numbers within their types); the text of the JSON is left out."
  },
  {
   "property": "C57",
   "status": "proved",
   "theorems": [
    "C57_not_finite",
    "C57_trained_refuted",
    "C57_keys_refuted"
   ],
   "note": "Exact conditions for failure; the reachability claims by computed witnesses."
  },
  {
   "property": "C58",
   "status": "proved",
   "theorems": [
    "C58_quiet_run",
    "C58_run_with_output"
   ],
   "note": "Exact characterisation of the accepted data, by totality of predict and learn in release builds (no separability of namespaces needed), indices of parsed features below the table size, and invariants of the training loop. parsed_features is excluded from the metrics in the second theorem because its total must stay below 2^31."
  },
  {
   "property": "C59",
   "status": "proved",
   "theorems": [
    "C59_pool_invisible",
    "C59_pool_invisible_without_lists"
   ],
   "note": "A run with the pool and a run with new objects are related call by call; objects in the pool look new, objects in use are equal up to inactive namespaces."
  },
  {
   "property": "C60",
   "status": "proved",
   "theorems": [
    "C60_parsed_examples_are_accepted"
   ],
   "note": "Invariants of objects over all calls: features keep shape and index range, workspaces stay reachable from their creation; totality of predict, learn and predict_then_learn in release builds. State after a panic inside a reduction is not modelled: the run ends there."
  },
  {
   "property": "C61",
   "status": "proved",
   "theorems": [
    "C61_binary_unusable"
   ],
   "note": "No label object is ever binary, and a binary prediction has no Python class."
  },
  {
   "property": "C62",
   "status": "proved",
   "theorems": [
    "C62_pool_bounded"
   ],
   "note": "Every object that leaves the pool is held until it is given back; the number of parts of an example is kept by every call."
  },
  {
   "property": "C63",
   "status": "proved",
   "theorems": [
    "C63_train_progressive",
    "C63_train_complete"
   ],
   "note": "Invariant of the training loop: the metrics hold exactly the points so far, pool objects look new; predict_then_learn agrees with predict and learn on every parsed example and leaves the number of features unchanged."
  },
  {
   "property": "C64",
   "status": "proved",
   "theorems": [
    "C64_wexpmx_accuracy",
    "C64_lambert_exists",
    "C64_logistic_update_is_flow",
    "C64_logistic_flow_exists",
    "C64_logistic_update_between",
    "C64_logistic_update_unbounded",
    "C64_update_decreases_loss_refuted",
    "C64_squared_update_is_flow",
    "C64_squared_flow_exists",
    "C64_squared_update_between"
   ],
   "note": "Exact arithmetic (reals). The error of one step of the iteration is bounded from the residual of the initial guess, in three ranges of x; the gradient flow is characterised by its conserved quantity. For a label strictly inside the range the update is the mean of two flows and can increase the loss (refuted)."
  },
  {
   "property": "C65",
   "status": "proved",
   "theorems": [
    "C65_valid_loads",
    "C65_loaded_valid",
    "C65_registry",
    "C65_registry_clash_refuted",
    "C65_no_typename_refuted",
    "C65_debug_alone_refuted",
    "C65_schema_number_refuted",
    "C65_many_bits_refuted",
    "C65_null_refuted",
    "C65_beside_refuted",
    "C65_list_refuted",
    "C65_new_valid",
    "C65_new_debug_refuted"
   ],
   "note": "The JSON schema semantics (draft 7, the keywords that occur) is written down separately; validity is evaluation with enough steps. What number counts as an integer, what is not negative and the regular expression engine are arguments. The option schemas are those in the checked-in schema.json (schemars itself is not modelled); how they are put together is the code. Both directions need a condition on the document, and every condition is shown to be needed by a refutation or is about duplicate keys."
  },
  {
   "property": "C66",
   "status": "proved",
   "theorems": [
    "C66_solvent",
    "C66_growth",
    "C66_coordinate",
    "C66_first_example_ignored",
    "C66_predict_current_refuted"
   ],
   "note": "Exact arithmetic (reals), except the refutation, which is in binary32."
  },
  {
   "property": "C67",
   "status": "proved",
   "theorems": [
    "C67_regret",
    "C67_no_regret"
   ],
   "note": "Exact arithmetic (reals). The hypotheses bound the update by beta, so the scale of a feature is fixed from its first use; without that the weight used in the prediction differs from the bet."
  },
  {
   "property": "C68",
   "status": "proved",
   "theorems": [
    "C68_floor_cost",
    "C68_greedy",
    "C68_softmax",
    "C68_squarecb",
    "C68_squarecb_stack"
   ],
   "note": "Exact arithmetic (reals). The floor bound is for eps up to 0.999, above which the code returns the uniform distribution."
  },
  {
   "property": "C69",
   "status": "proved",
   "theorems": [
    "C69_ips_unbiased",
    "C69_unseen_action_refuted",
    "C69_ips_labels"
   ],
   "note": "Exact arithmetic (reals); expectation is defined by recursion over the tree of possible interactions, not by measure theory."
  },
  {
   "property": "C70",
   "status": "proved",
   "theorems": [
    "C70_json_label",
    "C70_no_binary"
   ],
   "note": "The reader of JSON text is an argument. An object is a list of members; the first of several equal keys counts for the label member itself and the last for members inside it, which makes no difference for what serde_json produces (equal keys do not occur)."
  },
  {
   "property": "C71",
   "status": "proved",
   "theorems": [
    "C71_configured",
    "C71_untrained",
    "C71_policy"
   ],
   "note": "Induction over configurations; what calls can change is bounded by an invariant of reachable stacks."
  },
  {
   "property": "C72",
   "status": "proved",
   "theorems": [
    "C72_reload",
    "C72_known",
    "C72_sessions",
    "C72_quiet",
    "C72_newline_refuted",
    "C72_blank_line_refuted"
   ],
   "note": "binary32. Loading gives back the stack up to what its calls and the saved form can tell apart (C44). File access and the bytes of the model file are not modelled. Objects of the pool are taken to have no capacity for the JSON parser; for what capacity can do see C42."
  },
  {
   "property": "C73",
   "status": "proved",
   "theorems": [
    "C73_pieces",
    "C73_progressive",
    "C73_complete"
   ],
   "note": "Extends C63 from the text format with a given stack to the whole command. One parse thread; for more see C32. Objects of the pool are taken to have no capacity for the JSON parser; for what capacity can do see C42."
  },
  {
   "property": "C74",
   "status": "proved",
   "theorems": [
    "C74_objects_are_values",
    "C74_untidy_refuted"
   ],
   "note": "Simulation over all programs, from restored features (C02, and in debug builds the check after each call), predict_then_learn (C22), the congruence for empty namespaces (C75) and the invisible pool (C59). C74_untidy_refuted shows a release-mode program with an element-wise layer and an empty shared namespace for which learning changes what a later prediction on the same features does. After a call that panics in the middle of learning the workspace may be half changed; the program is taken to end there."
  },
  {
   "property": "C75",
   "status": "proved",
   "theorems": [
    "C75_empty_namespaces",
    "C75_training",
    "C75_restored",
    "C75_text",
    "C75_debug_refuted",
    "C75_elementwise_refuted"
   ],
   "note": "Congruence of all reductions for features with the same content per namespace. The two refuted theorems show that the restriction to release builds and to stacks without element-wise layers is needed."
  },
  {
   "property": "C76",
   "status": "proved",
   "theorems": [
    "C76_progress",
    "C76_lines",
    "C76_readable",
    "C76_finite_refuted",
    "C76_kind_refuted",
    "C76_errors",
    "C76_quiet",
    "C76_quiet_refuted"
   ],
   "note": "The printing of f32 by serde_json and its lower-casing are arguments; of the printer it is used that finite numbers are printed with the characters of JSON numbers and differently from each other. Opening files is not modelled, so errors of the file system are not counted in C76_errors."
  },
  {
   "property": "C77",
   "status": "proved",
   "theorems": [
    "C77_roundtrip",
    "C77_not_finite"
   ],
   "note": "binary32; from C56/C57 and the reload relation of C72. The JSON text between the two commands is the tree (serde_json printing and reading is not modelled)."
  },
  {
   "property": "C78",
   "status": "proved",
   "theorems": [
    "C78_min_prob",
    "C78_greedy",
    "C78_squarecb",
    "C78_squarecb_sum",
    "C78_squarecb_many_actions_refuted",
    "C78_softmax",
    "C78_stack",
    "C78_softmax_floor_refuted",
    "C78_squarecb_floor_refuted",
    "C78_overflow_refuted"
   ],
   "note": "binary32 (SpecFloat) against the reals; exp, ln and powf are arguments. C78_stack assumes the child predicts; it is for release builds."
  },
  {
   "property": "C79",
   "status": "proved",
   "theorems": [
    "C79_training",
    "C79_signs",
    "C79_zero_value_refuted",
    "C79_stack"
   ],
   "note": "C79_training at the reals, the others in any arithmetic or binary32. No caller of sensitivity exists in the repository besides the reductions themselves."
  },
  {
   "property": "C80",
   "status": "proved",
   "theorems": [
    "C80_lifetime",
    "C80_overflow_refuted"
   ],
   "note": "Exactly the binary32 floats (FloatV32: SpecFloat values that are valid). Release builds; the element-wise reduction is excluded; combines C49-style totality with C78."
  },
  {
   "property": "C81",
   "status": "proved",
   "theorems": [
    "C81_predict",
    "C81_learn",
    "C81_vectors",
    "C81_inside_is_enough_refuted"
   ],
   "note": "Release builds, binary32 with any exp, ln and powf. The layout (vectors from the base of their namespace, composite namespace free) is a hypothesis; C36 has witnesses for what happens without it."
  },
  {
   "property": "C82",
   "status": "proved",
   "theorems": [
    "C82_fit",
    "C82_limit"
   ],
   "note": "At the reals. The predictions are those made right after learning an example (the stored weights lag by one example, see C66). The clamped prediction is meant; contextual bandit scores are not clamped and not covered."
  },
  {
   "property": "C83",
   "status": "proved",
   "theorems": [
    "C83_mtr",
    "C83_ips",
    "C83_explorers",
    "C83_squarecb_mtr",
    "C83_squarecb_ips",
    "C83_squarecb_ips_fits_costs_refuted"
   ],
   "note": "At the reals. The examples the child learns are given explicitly (mtr_examples, ips_examples) and proved to be what the child learns for every log that can be learned; the expectations are over all logs of an adaptive game."
  },
  {
   "property": "C84",
   "status": "proved",
   "theorems": [
    "C84_weights",
    "C84_order",
    "C84_scores",
    "C84_probabilities",
    "C84_two_actions",
    "C84_two_actions_explored"
   ],
   "note": "At the reals. That an action is drawn twice is needed because stored weights lag by one example (see C66). Stacks with mtr; under ips labels are made up and the statement does not apply."
  },
  {
   "property": "C85",
   "status": "proved",
   "theorems": [
    "C85_same_example",
    "C85_training"
   ],
   "note": "Reading digits as numbers (str::parse and serde_json) is a parameter; a number in one format is the same as a number in another if these give the same float. One parse thread; for more threads see C32."
  },
  {
   "property": "C86",
   "status": "proved",
   "theorems": [
    "C86_quiet_run",
    "C86_run_with_output"
   ],
   "note": "serde_json (text to document) is a parameter, as is the allocator. Lists of strings are left out because a recycled namespace with enough capacity makes them panic (see C42). One parse thread; for more threads see C32."
  },
  {
   "property": "C87",
   "status": "proved",
   "theorems": [
    "C87_scores",
    "C87_probabilities"
   ],
   "note": "Exact arithmetic (real numbers): in binary32 adding the features of the context rounds, so the differences of scores need not be exactly equal. Both predictions are assumed to return; when they do is C49."
  },
  {
   "property": "C88",
   "status": "proved",
   "theorems": [
    "C88_predict",
    "C88_learn",
    "C88_training"
   ],
   "note": "Exact arithmetic (real numbers): in binary32 sums depend on the order by rounding. If the run on the first order returns, so does the run on the second. Release build; the element-wise reduction is left out."
  },
  {
   "property": "C89",
   "status": "proved",
   "theorems": [
    "C89_scores",
    "C89_learn",
    "C89_training",
    "C89_probabilities"
   ],
   "note": "Scores and learning: any arithmetic, debug and release builds, any state. Probabilities: exact arithmetic, because softmax and SquareCB sum over the actions. If the call on the first order returns, so does the one on the second."
  },
  {
   "property": "C90",
   "status": "proved",
   "theorems": [
    "C90_entries",
    "C90_vectors"
   ],
   "note": "binary32, release build. The training run of C90_entries is assumed to return; when learning returns is C81 (used in C90_vectors, which does not assume it). The labelled action must exist, as without it mtr learning panics."
  },
  {
   "property": "C91",
   "status": "proved",
   "theorems": [
    "C91_units"
   ],
   "note": "Exact arithmetic (real numbers), release build; no interactions (the value of an interaction is a product, so its unit would be a product) and no element-wise reduction. Features hold as many values as indices (C92_built: always so when made through the interface)."
  },
  {
   "property": "C92",
   "status": "proved",
   "theorems": [
    "C92_indices",
    "C92_built"
   ],
   "note": "Any arithmetic, release build; no interactions (their indices are computed from the indices) and no element-wise reduction. num_bits below 32."
  },
  {
   "property": "C93",
   "status": "proved",
   "theorems": [
    "C93_weight_zero",
    "C93_weight_zero_refuted",
    "C93_zero_value_predict",
    "C93_always_zero",
    "C93_zero_value_refuted"
   ],
   "note": "Positive parts in exact arithmetic (a weight that overflowed to infinity would turn a value zero into NaN); refutations at binary32. Regressor level: the reductions above hand weight and values on. What is left out is described by what the regressor reads (features, interactions, constant): with an interaction A B B, leaving a feature out of A also moves the window over B (C10)."
  },
  {
   "property": "C94",
   "status": "proved",
   "theorems": [
    "C94_label_unit",
    "C94_mirror",
    "C94_costs",
    "C94_policy",
    "C94_same_configuration_refuted"
   ],
   "note": "Positive parts in exact arithmetic, the refutation at binary32. For s other than 1 and -1 the loss must be the squared loss (the others have labels or margins fixed at 1 or -1). Bandits: regressor directly below the bandit reduction, the events and actions counted do not wrap around."
  },
  {
   "property": "C95",
   "status": "proved",
   "theorems": [
    "C95_workspace",
    "C95_data",
    "C95_train_command",
    "C95_threads",
    "C95_models",
    "C95_python",
    "C95_converse_refuted"
   ],
   "note": "Any arithmetic. Build modes differ by overflow checks and debug assertions only; floating point arithmetic itself is taken to be the same in both."
  },
  {
   "property": "C96",
   "status": "proved",
   "theorems": [
    "C96_predict",
    "C96_debug",
    "C96_linear",
    "C96_learn_refuted"
   ],
   "note": "Positive parts in exact arithmetic, the refutation at binary32. No elementwise interaction reduction in the stack; no interaction names the same namespace twice in a row (no_repeat). Linearity is for the raw scalar, before clamping and link."
  },
  {
   "property": "C97",
   "status": "proved",
   "theorems": [
    "C97_answers",
    "C97_reach",
    "C97_order",
    "C97_order_training",
    "C97_empty",
    "C97_empty_training",
    "C97_units",
    "C97_indices"
   ],
   "note": "Hypotheses as in C75, C88, C91 and C92; in place of the build mode: both calls (or sequences of calls) return without a panic."
  },
  {
   "property": "C98",
   "status": "proved",
   "theorems": [
    "C98_order",
    "C98_totals",
    "C98_training",
    "C98_training_debug"
   ],
   "note": "Exact arithmetic, release build; C98_training_debug: two debug runs that return. What the chunks write is stated by the format-independent examples of C85. No elementwise interaction reduction; no interaction names the same namespace twice in a row. The same model, and the train command, also need that no two features of an example share an index (clash_free); the run starts from a configuration."
  },
  {
   "property": "C99",
   "status": "proved",
   "theorems": [
    "C99_predict",
    "C99_debug",
    "C99_namespaces",
    "C99_single"
   ],
   "note": "C99_predict, C99_debug and C99_namespaces in exact arithmetic; no elementwise interaction reduction; no interaction names the same namespace twice in a row; all indices below the table size. C99_single at binary32 for the regressor alone, where numbers are compared with f32 equality (the sign of a zero may differ)."
  },
  {
   "property": "C100",
   "status": "proved",
   "theorems": [
    "C100_twice",
    "C100_scores",
    "C100_softmax",
    "C100_even",
    "C100_untrained"
   ],
   "note": "C100_twice in any arithmetic, including binary32; the others in exact arithmetic, without elementwise interaction reduction, with no interaction that names the same namespace twice in a row, and all indices below the table size. Parameters in the usual ranges (sane): uniform_epsilon in [0,1], lambda, gamma_scale and gamma_exponent not negative; any epsilon for greedy. Predictions that return are described; when they do is the subject of C49 and C80."
  },
  {
   "property": "C101",
   "status": "proved",
   "theorems": [
    "C101_scalar",
    "C101_identity",
    "C101_logistic",
    "C101_scores",
    "C101_greedy",
    "C101_softmax",
    "C101_squarecb",
    "C101_softmax_ties"
   ],
   "note": "Binary32 with any exp, ln and pow; C101_softmax_ties in any arithmetic. C101_scalar describes the raw prediction, before the link and the clipping. Predictions that return are described. Example C101_squarecb_first shows that the first action of SquareCB may differ by rounding."
  }
 ]
}