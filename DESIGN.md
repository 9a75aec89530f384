# Design

Subject: `jackgerrits/reductionml` (Rust), read from `/repo`. All line numbers
below and in the Coq comments refer to that tree.

## Layout of the Coq development (`rocq/theories`, logical name `Verif`)

| files | role |
|---|---|
| `Base.v` | outcome type (value / error / panic), list helpers |
| `FloatOps.v` | an ordinary record of the f32 operations the code uses; no laws |
| `FloatR.v` | that record at the real numbers of the standard library |
| `FloatB32.v` | that record at IEEE binary32 (`SpecFloat`, prec 24, emax 128) |
| `FloatV32.v` | that record at exactly the valid binary32 values (a subset of `FloatB32`), used by C80 |
| `Model_*.v` | the code, function by function, each definition citing file and lines |
| `Spec_*.v` | small independent specifications used in the statements |
| `Proof_*.v` | lemmas |
| `Prop_*.v` | only the property theorems, each `exact lemma.` + `Print Assumptions`, next to a satisfiability `Example` |
| `Test_*.v` | `Example`s evaluating the model on the inputs of the repository's unit tests |

## Modelling decisions

* **Outcome.** Rust functions become total functions into
  `out A := Ok a | Er e | Pn p`: a value, a returned `Err`, or a panic with a
  reason. A type-mismatch panic (`as_inner().unwrap()` on the wrong variant) has
  its own reason so it can be singled out. `todo!()`, `unwrap` on `None`, index
  out of bounds and `assert!` are panics too.
* **Build profile.** Debug assertions and overflow checks are on or off together
  (a `bool` argument) where they matter: index debug assertions, wrapping
  arithmetic, the "features were put back" check of the wrapper.
* **Floats.** Model functions take a record `FOps` of operations. Structural
  theorems hold for every record. Claims about real arithmetic (sums to one,
  derivative) are proved at the reals: rounding is not modelled there, and the
  claim says "exact arithmetic". C78 and C80 are the exceptions: they bound the rounding
  errors of the exploration policies at binary32. Claims about NaN, infinities, -0.0, clamping and
  comparisons are proved at binary32. `exp`, `ln`, `powf` at binary32 are
  arbitrary functions (arguments), and the sign chosen by `min`/`max` for two
  zeros of opposite sign is fixed although Rust leaves it open.
* **Hashing.** `hash_bytes` (xxh3 from a third party crate) is an arbitrary
  function argument `bytes -> u32 -> u32`. FNV mixing and masking are exact,
  modulo 2^32.
* **Maps.** `BTreeMap` is a sorted association list, `HashMap` a list searched by
  key; iteration over a `HashMap` is an arbitrary permutation where its order
  could matter.
* **Strings.** Lists of characters given by their code point (`N`).
  Float parsing of text (`fast_float::parse`) is an arbitrary function argument
  `string -> option F`. Reading lines from a stream is modelled on lists of lines.
* **JSON.** The JSON reader itself (serde_json) is not modelled; parsers start
  from a JSON value tree. Binary model files: serde derive code is represented by
  the hand-written conversions it calls (`SparseF32Vec`), the flexbuffers encoding
  is assumed to be lossless. Configuration files and models as JSON: the derived
  serialisers and deserialisers are written out (`Model_Config`, `Model_Export`); a
  number carries its f32 value and its integer value if it has one, a number that
  is not finite is written as null.
* **Threads.** The training pipeline is a transition system: one input thread,
  n parser threads, one learner, two bounded queues, one hand-over cell per
  chunk; any enabled thread may step. Atomics are sequentially consistent; the
  futex wait/wake pair is modelled as "blocked until ready".

* **Python.** A program is a sequence of calls on numbered objects, each atomic;
  destructors are calls. Conversion of Python dictionaries, printing and the
  constructors of prediction objects are left out. A panic inside predict or
  learn ends the run.

Not modelled: CLI argument parsing (except the progress option) and table rendering, memory allocation (except capacities in C42), wall-clock, the
unimplemented CLI commands, `wexpmx`'s f64 rounding (C64 bounds its error at the reals),
running out of memory, and the state an object is left in after a panic.

## Trusted base

* The Coq 8.16.1 kernel and the standard library.
* Axioms: none are added. `Prop_*.v` files print the assumptions of each theorem.
  Theorems over the reals use the standard library's axioms for `R`
  (`ClassicalDedekindReals.sig_forall_dec`, `ClassicalDedekindReals.sig_not_dec`,
  `FunctionalExtensionality.functional_extensionality_dep`, and
  `Classical_Prop.classic` where the standard real analysis uses it). All other
  theorems are closed under the global context. The list at the end of this file is kept current.
* The correspondence between the Rust text and the Coq definitions (by reading).

## Properties

Per property: what is modelled and how it is proved.

| id | model | method |
|---|---|---|
| C01 | `append`, `remove` on sorted association lists | induction over the shared map; equality of the visible part; refutation witness for an empty active namespace |
| C02 | all eight reductions as one inductive stack | induction over the stack, C01 for the bandit layers; refutations showing that each condition on the features is needed |
| C03 | operation sequences over a feature object and a recycled one; the text parser and the training loop with a pool | simulation: equal visible parts is a bisimulation for every operation, and a congruence for predict/learn and for parsing; refutation for the raw namespace listing |
| C04 | `Model_Pool`: any number of clients taking the lock, reading, writing and releasing it step by step; objects by identity | invariant over all interleavings: never handed out twice, contents are what was returned; some client can move or all are finished |
| C05 | `convert_index`, `state_at`, `state_at_mut` | arithmetic on shifts, injectivity, then read-over-write lemmas on lists |
| C06 | `SparseF32Vec` | induction on the vector, any float record; binary32 corollary about zero signs, NaN and infinities |
| C07 | ND array form | reachable-table invariant (padding is zero) + index arithmetic |
| C08 | `Feature::hash`, quadratic/cubic hash, mask | `N.land`/`lxor` and multiplication modulo 2^k |
| C09, C10 | `foreach_feature` enumeration | permutation with the independent list of pairs/triples; refutations for the repeated namespaces |
| C11 | enumeration + table | every enumerated index < 2^bits |
| C12, C13 | `enforce_min_prob` at the reals | analysis of the cut index on the sorted list |
| C14 | `enforce_min_prob` at binary32 | case analysis, NaN-freeness of sorting |
| C15, C16, C17 | exploration reductions at the reals | real algebra, min_by lemma, reuse C12/C13 |
| C18 | coin regressor at binary32 | invariant min <= max, not NaN over all learn sequences; bandit scores are not clamped (witness, `Proof_Scores`) |
| C19 | coin regressor, any float record | frame lemma for updates |
| C20 | coin regressor at the reals (magnitude sums) and any order (maxima) | invariant by induction |
| C21 | configuration trees, `create`, `check_and_get_reason` | induction over the configuration |
| C22 | stack, reachable states | induction over the stack; a second version without the condition on empty namespaces, about prediction and model only |
| C23, C48 | `CBAdfReduction` over an arbitrary regressor | induction over the actions and over the training history |
| C24, C49 | whole stacks at binary32 | progress: table and count invariants for all reachable states, every panic of the code excluded; each condition shown necessary by a witness |
| C25 | features enumerated by the regressor | permutations of index/value pairs, then sums at the reals; refutations for same-namespace interactions |
| C26 | line reader loops on lists of lines | equality with inductive relations describing lines, blank lines and runs of lines |
| C27, C28, C29 | text parser for both label kinds, any float parser | exact condition for a result (release builds) with refutations of the unconditional claim; line-level descriptions of labels; round trip print/parse |
| C30 | metrics, training loop | running sums by induction; counters in any arithmetic |
| C31 | `inc_iteration` | invariant on (iteration, next); binary32 doubling up to the 32-bit limit |
| C32, C33, C34 | `Model_Pipeline`: transition system of the input, parser and learner threads, the two bounded queues (bound 0: rendezvous), the hand-over cells and the pool; generic in parser and learner, then instantiated with the text parser and `process_example` | one invariant for all reachable states (`Proof_Pipeline`), a well-founded measure, analysis of the blocked states; C34 is false, with the exact conditions for hanging |
| C35 | `compile_interactions`, regressor of every created stack | list reasoning, preserved over training |
| C36 | `elementwise_multiply` and the reduction around it | merge loop invariant; each panic and the index wrap-around by witnesses |
| C37 | workspace call sequences | predict does not change the model, and C02 |
| C38 | the training loop with text data (`Model_Train`) | lockstep simulation of the two runs; predict_then_learn against learn needs no separability condition (`Proof_Loose`); converse refuted |
| C39 | losses and the one-step update at the reals | derivatives and mean value theorem of the standard library; refutation at the corners of the squared loss with range |
| C40, C41 | JSON and decision service feature extraction and labels; reading JSON text is an argument | exact contents against a list of leaves with their paths (C40) or a relation (C41), induction over JSON trees; index agreement with the text format |
| C42 | capacities of the vectors of a namespace | arbitrary allocator with capacity >= length; refutation for every allocator; simulation up to the panic in `reserve` |
| C43 | `DepthInfo` | induction over the stack |
| C44 | save/load of the stack | congruence of predict/learn for tables equal up to zero sign; refutation of bit identity |
| C45 | `extract_feature_names`, `InverseHashTable`, and the insertion loop the unimplemented command would run | exact contents of the table by induction over the namespaces; refutations for every hash function |
| C46, C47 | coin, binary | refutation by a witness example; case analysis |
| C50 | stacks with an exploration layer on top | equation for one learn call, induction over the training history |
| C51 | stacks and configurations with Debug layers (what they print is not modelled) | simulation with the stack and configuration without them; refutation for SquareCb over a hidden ips learner |
| C52, C53 | `Model_Config`: the derived deserialisers on JSON trees, `parse_config`, `load` | independence of the parsing depth, congruence of every parse function, induction over the nesting; written form parsed back; refutations for the two places that accept unknown keys |
| C54 | registry, defaults as serialised, `config new` / `config check` | case analysis over the registry and C21 |
| C55 | `load` | induction over the configuration; exact condition on the global settings |
| C56, C57 | `Model_Export`: derived serialisers and deserialisers of a workspace, the recursive replacement of the weights, both conversions | replacement commutes with writing, reading inverts writing exactly when the numbers are finite, invariants of reachable states (power-of-two table, zero padding, counters below 2^64), equality with save and load |
| C58 | `Model_Train`, `Model_Text`, `Model_Stack` together; `Spec_Release` says which chunks are usable | release totality of learn and predict over the stack, parsed indices below the table size, decidability of usable chunks from the parse result, invariants of the loop (types, bottom regressor, metrics, columns) |
| C63 | `Spec_Progress`: learning from and predicting examples in turn, metric values over a prefix | invariant of the training loop; the features left by predict_then_learn have as many features as before; the converse by running the loop forwards |
| C64 | `Spec_Flow`: gradient flow of a function, Lambert's function | error of the iteration step from the residual of the guess, by monotonicity of explicit functions in three ranges; the flow of the logistic loss conserves m + exp m - t, that of the squared loss (y - l) exp 2t; existence by the intermediate value theorem and the derivative of the inverse |
| C65 | `Model_Schema`: assembly of the schema from the registry, the option schemas of the checked-in file (schemars is not modelled); `Spec_Schema`: JSON schema semantics and two conditions on documents | induction over the nesting of the document in both directions; validity of a oneOf by the type name; refutations by computation |
| C66 | wealth = alpha + stored earnings; the statements name only the six stored numbers | per-feature invariant; potential xlnx(a) + xlnx(b) + (a+b) ln 2 - xlnx(a+b+1) with a, b = (g +- z)/2s (a continuous Krichevsky-Trofimov wealth), one-step inequality by Jensen for the logarithm, change of scale by tangents |
| C67 | `Spec_Regret`: excess loss over a fixed linear predictor, the conditions on examples | sum over features of u z - earnings as potential; convexity of the square; the clamp only helps; bound of C66 per feature; ln y <= 2 sqrt y for the limit |
| C68 | `Spec_Decide`: expected cost under a distribution, expected squared error of the scores | the threshold of the projection is not negative, so no entry grows by more than eps/n; entropy at most ln n by tangents of the logarithm; SquareCB: sum split at the compared action, a square completed per action |
| C69 | `Spec_OffPolicy`: tree of possible interactions, expectation by recursion | the metric's value on a log by induction; linearity of the expectation; reordering of a sum over actions |
| C70 | `Spec_JsonLabel`: the forms of a label by the entries of an object | lookup of keys characterised by splitting the list; case analysis |
| C71 | `Spec_Built`: a relation between configurations and stacks | induction over the configuration; reachable stacks keep their shape; lifelong policies by C50 |
| C72 | `Spec_Command`: sessions, closed texts | loading a saved model gives back the stack; learning a list in two parts; cutting commutes with appending closed texts |
| C73 | `Spec_Command`: how texts are cut; `Spec_Progress` | invariant of the training loop for any parser; the cut is unique |
| C74 | `Spec_Values`: programs over a memory of values; a workspace is its origin and the examples it learned from | simulation of the Python layer, generic in how an object stands for a value; instances: tidy features (C02), debug builds, no element-wise layers (C75); the pool is invisible (C59); refuted with an element-wise layer and an empty shared namespace in release builds |
| C75 | `Spec_Empty`: the features of each namespace; what two outcomes have in common | simulation: every reduction is a congruence for features with the same content (release, no element-wise layers); refuted otherwise |
| C76 | `Spec_Cli`: decimal numbers, texts of the progress option, finite predictions, printers that can be read again | induction over texts and prediction lists; predictions have the type of the stack (typed stacks, C21); no call of the stack returns an error; refuted: numbers not finite, unknown kind, "silence all output" |
| C77 | `Spec_Export`, `Spec_Command` | C56/C57 through `ws_load`/`ws_save`: the reloaded stack exports the same and saves the same |
| C78 | `Spec_FloatReal`: the number of a float, sums of numbers without rounding, distributions up to an error, conditions on the exponential function | rounding lemmas for SpecFloat's add, sub, mul, div (relative error 2^-24, absolute 2^-150, exact for small integers); error induction over the rounded sums; `fold_sum`; refuted: 8283 equal scores, weights rounded to zero, overflow with scale zero |
| C79 | `Spec_Sensitivity`: contribution of a feature | invariant along training: the stored sums of gradients only grow; monotonicity of the contribution; refuted: features of value zero count |
| C80 | `Spec_Lifetime`: the exploration a configuration asks for, topmost reduction of a stack, parameters in range | operations stay within the floats (sqrt included), so `FloatV32` is a float record of exactly the binary32 values; a map of float records commutes with the policies; release-build totality of the stack below; raw predictions are never NaN; refuted without the condition on infinite scores (vm_compute on a trained stack) |
| C81 | `Spec_ElemStack`: the feature objects the bottom regressor is shown, given by lookups (`vectors`, `joined`, `finds`, `meets`) | the frame of the reduction is replaced by the specified content in both directions (returning implies inside, inside implies returning); one reduction over the regressor worked out to a condition on positions; refuted that features inside the table suffice |
| C82 | `Spec_Fit`: predict after each learn call, sum of weighted squared errors; the same of a linear predictor | regret potential of C67 for the weights times k; the stored weight is the bet divided by the normaliser; the normaliser is k plus a vanishing term, whose cost telescopes in a logarithm |
| C83 | `Spec_Unbiased`: the regression examples made of a log; their expected weighted loss; the loss on all actions | induction over the log for the examples; the expectation of an additive quantity over an adaptive game is a sum of one-round terms; 1/probability cancels |
| C84 | `Spec_Learn`: features that only occur with the lowest or the highest label; when such a feature is noticed; logs with constant costs | invariant per weight: the signs of the stored weight and of the gradient sum follow from predictions being clamped to the range of the labels; strictness from the first non-zero gradient; sums over permuted feature lists; then C83's examples and the monotone policies of C15–C17 |
| C85 | `Spec_Formats`: an example apart from its format, and for each format when a chunk writes it | each parser leaves exactly the namespaces of the example in the objects (by the content theorems for the three parsers), so the parsed features look the same; then the training loop with two parsers step by step, equal states and pools of unused objects |
| C86 | `Spec_JsonAccept`: when a document is a labelled example, and what the cost type, the predictions and the metric ips ask of it in addition | both parsers accept exactly the documents with a grammar (by C40, C41 and C70), also with recycled objects; then the loop over lines with the learners total on what was parsed, as for C58 |
| C87 | `Spec_Context`: an interaction stays on one side if its namespaces hold no features of the context, or none of any action | the features an action is scored with are those of the context plus those of the action, and an interaction on one side yields terms of that side only, so the dot product is a sum of a number for the context and a number for the action; the policies look at differences of scores only |
| C88 | `Spec_Shuffle`: the same features in every namespace up to a permutation; no interaction names a namespace twice in a row; no index occurs twice | the list of indexed values the regressor walks over is permuted; its sums commute in exact arithmetic, and updates at different indices write different cells and so commute; a simulation carries both through the reductions |
| C89 | `Spec_ActOrder`: a list with its elements moved to new positions; predictions and labels that move with them | the loop over actions is a map of a function of one action, so it commutes with moving; mtr learning looks at the named action only; the policies are maps over the scores whose totals, sorted values and minimum do not depend on the order |
| C90 | `Spec_Trained`: feature objects an example shows the regressor (`meets` of `Spec_ElemStack`), indices with an entry in the export, objects with one vector | learning leaves the state of an index alone unless one of the shown objects uses it (induction on the stack, then on the run); a fresh table is zero and the export keeps non-zero rows; for the documented stack the only namespace shown is the products |
| C91 | `Spec_Units`: the same calls with every feature told with another index and value (`retell`), answers told in the same way | two stacks with related regressors given related features give the same answers (`Proof_StackTwo`, induction on the stack); per feature the six numbers of the state scale by 1/u, u, \|u\|, \|u\|, 1, 1, which the prediction and the update respect |
| C92 | `Spec_Units`: renamings of indices | the same simulation with the rows of the table permuted; different rows do not overlap |
| C93 | `Spec_Zero`: lists without some entries of value zero; regressors trained without the indices of a set | weight zero: no gradient in any row; value zero: no summand; always zero: two runs whose regressors agree outside the rows of the set; the two refutations are runs computed at binary32 |
| C94 | `Spec_Scale`: configuration, example, logged decision and exploration for labels multiplied by a factor | two runs whose rows stay in a fixed relation (gradients times s, wealth times s squared, weights times s); bandits through the regression examples of C83; exploration: the first minimum stays the first minimum |
| C95 | `Spec_Builds`: unless the debug outcome is a panic, the release outcome is the same | a relation between outcomes that is closed under sequencing, loops and maps, shown for every function with a build mode, bottom up; for threads: a step of the debug system that leaves no thread dead is a step of the release system |
| C96 | `Spec_Merge`: the same indices in every namespace with the same sum of values per index; mixtures of totals | the walk of the regressor is a linear functional of the list of features, and a linear functional depends only on the totals per index; products of lists are bilinear, so this survives interactions; the simulation of C88 carries it through the reductions |
| C97 | `Spec_DebugToo`: answers without a panic | C95 along a sequence of calls and along the ways to reach a model; then the release theorem |
| C98 | `Spec_Words`: the words of an example with their values, permuted or with the same totals | the content of a parsed object is a map over its words (C85); the laws of C88 and C96 restated for objects that are clean instead of built, extended to `predict_then_learn` and the training loop; for debug builds by C95 |
| C99 | `Spec_Unseen`: the indices the regressor was shown in training, and examples that agree there | untouched weights stay zero (C90); a sum of values times weights depends on the totals at the seen indices only; the stack by the relation of C88; in single precision adding a zero changes at most the sign of a zero |
| C100 | `Spec_Alike`: actions that agree, with the context, at all indices seen in training; what an even distribution is | replacing one action by the other changes no score (C99); exchanging the two, then equal, actions changes nothing either (C89); the policies on equal scores from their equations (C15–C17) |
| C101 | `Spec_Fresh`: zero scores, the configured link, and the greedy distribution they lead to | all weights are +0, so every product is a zero or NaN and the sum stays +0 or NaN, which the regressor replaces by 0; induction over the stack; the policies computed on equal scores; softmax treats each score by value only |
| C59, C62 | `Model_Python`: the calls of the module with the global pool; `Spec_Python` has the module without a pool | simulation call by call (C59); counting objects in the pool and in use over all runs (C62) |
| C60, C61 | the same, with the stack and the parsers | how objects evolve over all calls (shape, index range, reachability of workspaces), release totality of predict, learn and predict_then_learn (C60); no label object is binary (C61) |

## Axioms per theorem

Closed under the global context (no axioms), 246 theorems:
`C01_append_remove_restores`, `C01_unconditional_refuted`, `C02_composite_refuted`,
`C02_debug_panics`, `C02_features_restored`, `C02_unconditional_refuted`,
`C03_namespaces_refuted`, `C03_parsing`, `C03_recycled_like_new`, `C03_same_models`,
`C03_train_pool`, `C04_exclusive`, `C04_never_handed_out_twice`, `C04_pool_contents`,
`C04_progress`, `C05_cells_disjoint`, `C05_table_is_a_map`, `C06_sparse_roundtrip`,
`C06_zero_same_binary32`, `C07_ndarray_roundtrip`, `C08_masking_early_or_late`,
`C09_pairs_once`, `C09_unordered_pairs_once`, `C100_twice`, `C101_greedy`, `C101_identity`,
`C101_logistic`, `C101_scalar`, `C101_scores`, `C101_softmax`, `C101_softmax_ties`,
`C101_squarecb`, `C10_missing_refuted`, `C10_repeated_refuted`, `C10_triples_visited`,
`C11_indices_in_table`, `C14_error_iff`, `C14_nan_rate_accepted`, `C14_no_panic`,
`C14_zero_rate_unchanged`, `C15_prediction_is_policy`, `C15_prediction_is_policy`,
`C15_prediction_is_policy`, `C16_negative_exponent_refuted`, `C18_identity_link`, `C18_range`,
`C18_scores_refuted`, `C19_only_used_weights`, `C20_gradient`, `C20_maxima`,
`C21_accepted_iff_typed`, `C21_type_correct`, `C22_predict_then_learn`,
`C22_predict_then_learn_loose`, `C23_independent`, `C23_scores`, `C24_action_out_of_range`,
`C24_learn_returns`, `C24_nan_value_debug`, `C24_no_shared_refuted`, `C25_pair_refuted`,
`C25_same_features`, `C25_triple_refuted`, `C26_multi_line`, `C26_single_line`,
`C27_multi_lines`, `C27_simple_lines`, `C27_total_refuted`, `C28_label`, `C28_two_labels`,
`C29_contextual_bandit`, `C29_simple`, `C30_empty_run`, `C30_example_number`,
`C30_parsed_features`, `C31_additive`, `C31_doubling`, `C32_command`, `C32_file_order`,
`C32_json_formats`, `C32_same_as_one_thread`, `C33_finishes`, `C33_json_formats`,
`C33_no_endless_run`, `C33_no_panic`, `C33_progress`, `C34_bad_line_refuted`, `C34_error_ends`,
`C34_error_hangs`, `C34_json_formats`, `C34_parser_panic_hangs`, `C35_sorted`, `C35_used`,
`C36_below_base_panics`, `C36_child_input`, `C36_missing_panics`, `C36_products`,
`C36_same_twice_panics`, `C36_wrap_around_refuted`, `C37_predict_repeatable`,
`C37_predicts_erasable`, `C38_all_modes_same_model`, `C38_converse_refuted`,
`C38_quiet_same_model`, `C40_accepts`, `C40_features`, `C40_underscore`, `C40_whole_example`,
`C41_accepts`, `C41_features`, `C41_same_as_text`, `C42_no_lists`, `C42_recycled_refuted`,
`C42_same_or_capacity`, `C43_offset_balanced`, `C44_identical_refuted`, `C44_same_answers`,
`C45_actions_refuted`, `C45_alone_refuted`, `C45_default_refuted`, `C45_named`,
`C45_repeated_refuted`, `C45_tab_refuted`, `C45_table`, `C46_configured_loss_refuted`,
`C46_squared_always`, `C47_labels`, `C47_link_underflow`, `C47_sign`, `C48_ips`, `C48_mtr`,
`C49_predict_returns`, `C50_both`, `C50_gamma`, `C50_learn`, `C50_policy_irrelevant`,
`C50_squarecb`, `C51_bypass_refuted`, `C51_never_refuses`, `C51_same_refusal`,
`C51_transparent`, `C52_defaults`, `C52_written`, `C53_beside_refuted`, `C53_loss_refuted`,
`C53_refused`, `C54_debug_refuted`, `C54_new`, `C54_unknown`, `C55_always_refuted`,
`C55_no_panic`, `C56_same_answers`, `C57_keys_refuted`, `C57_not_finite`, `C57_trained_refuted`,
`C58_quiet_run`, `C58_run_with_output`, `C59_pool_invisible`,
`C59_pool_invisible_without_lists`, `C60_parsed_examples_are_accepted`, `C61_binary_unusable`,
`C62_pool_bounded`, `C63_train_complete`, `C63_train_progressive`, `C65_beside_refuted`,
`C65_debug_alone_refuted`, `C65_list_refuted`, `C65_loaded_valid`, `C65_many_bits_refuted`,
`C65_new_debug_refuted`, `C65_new_valid`, `C65_no_typename_refuted`, `C65_null_refuted`,
`C65_registry`, `C65_registry_clash_refuted`, `C65_schema_number_refuted`, `C65_valid_loads`,
`C66_predict_current_refuted`, `C70_json_label`, `C70_no_binary`, `C71_configured`,
`C71_policy`, `C71_untrained`, `C72_blank_line_refuted`, `C72_known`, `C72_newline_refuted`,
`C72_quiet`, `C72_reload`, `C72_sessions`, `C73_complete`, `C73_pieces`, `C73_progressive`,
`C74_objects_are_values`, `C74_untidy_refuted`, `C75_debug_refuted`, `C75_elementwise_refuted`,
`C75_empty_namespaces`, `C75_restored`, `C75_text`, `C75_training`, `C76_errors`,
`C76_finite_refuted`, `C76_kind_refuted`, `C76_lines`, `C76_progress`, `C76_quiet`,
`C76_quiet_refuted`, `C76_readable`, `C77_not_finite`, `C77_roundtrip`, `C78_overflow_refuted`,
`C78_softmax_floor_refuted`, `C78_squarecb_floor_refuted`, `C79_signs`, `C79_stack`,
`C79_zero_value_refuted`, `C81_inside_is_enough_refuted`, `C81_learn`, `C81_predict`,
`C81_vectors`, `C85_same_example`, `C85_training`, `C89_learn`, `C89_scores`, `C89_training`,
`C90_entries`, `C90_vectors`, `C92_built`, `C92_indices`, `C93_weight_zero_refuted`,
`C93_zero_value_refuted`, `C94_same_configuration_refuted`, `C95_converse_refuted`, `C95_data`,
`C95_models`, `C95_python`, `C95_threads`, `C95_train_command`, `C95_workspace`,
`C96_learn_refuted`, `C97_answers`, `C97_empty`, `C97_empty_training`, `C97_indices`,
`C97_reach`, `C99_single`.

Using `Classical_Prop.classic`, 2 theorems:
`C86_quiet_run`, `C86_run_with_output`.

Using `ClassicalDedekindReals.sig_forall_dec`, `FunctionalExtensionality.functional_extensionality_dep`, 7 theorems:
`C78_greedy`, `C78_min_prob`, `C78_softmax`, `C78_squarecb`,
`C78_squarecb_many_actions_refuted`, `C78_squarecb_sum`, `C78_stack`.

Using `ClassicalDedekindReals.sig_forall_dec`, `ClassicalDedekindReals.sig_not_dec`, `FunctionalExtensionality.functional_extensionality_dep`, 3 theorems:
`C64_squared_flow_exists`, `C80_lifetime`, `C80_overflow_refuted`.

Using `ClassicalDedekindReals.sig_forall_dec`, `ClassicalDedekindReals.sig_not_dec`, `Classical_Prop.classic`, `FunctionalExtensionality.functional_extensionality_dep`, 92 theorems:
`C100_even`, `C100_scores`, `C100_softmax`, `C100_untrained`, `C12_any_input`,
`C12_distribution`, `C12_uniform`, `C13_floor_and_order`, `C13_unchanged`,
`C13_unchanged_refuted`, `C15_greedy`, `C16_squarecb`, `C17_shift_invariant`, `C17_softmax`,
`C20_accumulators`, `C25_same_prediction`, `C30_ips`, `C30_mse`, `C39_convex`,
`C39_corner_refuted`, `C39_first_derivative`, `C39_gradient_step`, `C39_linear_outside`,
`C39_second_derivative`, `C39_step`, `C39_step_moves`, `C47_logistic_always_true`,
`C64_lambert_exists`, `C64_logistic_flow_exists`, `C64_logistic_update_between`,
`C64_logistic_update_is_flow`, `C64_logistic_update_unbounded`, `C64_squared_update_between`,
`C64_squared_update_is_flow`, `C64_update_decreases_loss_refuted`, `C64_wexpmx_accuracy`,
`C66_coordinate`, `C66_first_example_ignored`, `C66_growth`, `C66_solvent`, `C67_no_regret`,
`C67_regret`, `C68_floor_cost`, `C68_greedy`, `C68_softmax`, `C68_squarecb`,
`C68_squarecb_stack`, `C69_ips_labels`, `C69_ips_unbiased`, `C69_unseen_action_refuted`,
`C79_training`, `C82_fit`, `C82_limit`, `C83_explorers`, `C83_ips`, `C83_mtr`,
`C83_squarecb_ips`, `C83_squarecb_ips_fits_costs_refuted`, `C83_squarecb_mtr`, `C84_order`,
`C84_probabilities`, `C84_scores`, `C84_two_actions`, `C84_two_actions_explored`, `C84_weights`,
`C87_probabilities`, `C87_scores`, `C88_learn`, `C88_predict`, `C88_training`,
`C89_probabilities`, `C91_units`, `C93_always_zero`, `C93_weight_zero`,
`C93_zero_value_predict`, `C94_costs`, `C94_label_unit`, `C94_mirror`, `C94_policy`,
`C96_debug`, `C96_linear`, `C96_predict`, `C97_order`, `C97_order_training`, `C97_units`,
`C98_order`, `C98_totals`, `C98_training`, `C98_training_debug`, `C99_debug`, `C99_namespaces`,
`C99_predict`.
