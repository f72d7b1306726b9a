{
 "claims": [
  {
   "property": "C01",
   "status": "proved",
   "theorems": [
    "C01_invertible_dict_consistent"
   ],
   "note": ""
  },
  {
   "property": "C02",
   "status": "partial",
   "theorems": [
    "C02_refuted",
    "C02_partial"
   ],
   "note": "Claim is false of the code (shallow copy shares the sets): refuted by a witness; independence proved for keys without a shared set object."
  },
  {
   "property": "C03",
   "status": "proved",
   "theorems": [
    "C03_treap_is_set"
   ],
   "note": ""
  },
  {
   "property": "C04",
   "status": "partial",
   "theorems": [
    "C04_refuted",
    "C04_diverges_on_every_nonempty_array"
   ],
   "note": "Claim is false of the code: the loop variable is never incremented, the loop never ends on a non-empty array."
  },
  {
   "property": "C05",
   "status": "proved",
   "theorems": [
    "C05_neighbours_mirror_matrix",
    "C05_graph_builds"
   ],
   "note": "Probabilities are reported rounded to single precision (f32 in the statement)."
  },
  {
   "property": "C06",
   "status": "proved",
   "theorems": [
    "C06_reachable_exact",
    "C06_reachable_terminates",
    "C06_bad_arguments_rejected"
   ],
   "note": ""
  },
  {
   "property": "C07",
   "status": "proved",
   "theorems": [
    "C07_scc_exact"
   ],
   "note": "Internal routine of Graph (cdef); not reachable from the python API, used by maximal_end_components."
  },
  {
   "property": "C08",
   "status": "proved",
   "theorems": [
    "C08_mec_exact",
    "C08_mec_terminates"
   ],
   "note": ""
  },
  {
   "property": "C09",
   "status": "proved",
   "theorems": [
    "C09_proper_flag",
    "C09_ec_free_exact",
    "C09_in_proper_ec_exact"
   ],
   "note": ""
  },
  {
   "property": "C10",
   "status": "proved",
   "theorems": [
    "C10_mdp_constructor",
    "C10_mdp_contents",
    "C10_dtmc_constructor"
   ],
   "note": "Rounding to nine decimals is stated as |sum - 1| <= 5e-10 in exact arithmetic."
  },
  {
   "property": "C11",
   "status": "proved",
   "theorems": [
    "C11_consistency_exact",
    "C11_form_built",
    "C11_form_contents"
   ],
   "note": ""
  },
  {
   "property": "C12",
   "status": "proved",
   "theorems": [
    "C12_reduce_form"
   ],
   "note": "Visualisation styles are not modelled. Every state is assumed to have an action; the target label marks states of the system."
  },
  {
   "property": "C13",
   "status": "proved",
   "theorems": [
    "C13_reduce_values"
   ],
   "note": "Exact arithmetic, rows summing exactly to one, every state has an action."
  },
  {
   "property": "C14",
   "status": "proved",
   "theorems": [
    "C14_reduce_maps"
   ],
   "note": ""
  },
  {
   "property": "C15",
   "status": "proved",
   "theorems": [
    "C15_reduce_raises"
   ],
   "note": ""
  },
  {
   "property": "C16",
   "status": "proved",
   "theorems": [
    "C16_z_constraints_meaning",
    "C16_y_constraints_meaning",
    "C16_constraints_defined"
   ],
   "note": ""
  },
  {
   "property": "C17",
   "status": "proved",
   "theorems": [
    "C17_history_independent"
   ],
   "note": ""
  },
  {
   "property": "C18",
   "status": "partial",
   "theorems": [
    "C18_rhs_stays_valid_refuted",
    "C18_rhs_stays_valid_partial"
   ],
   "note": "Claim is false of the code (the cached array is overwritten in place): refuted by a witness; what remains true is proved."
  },
  {
   "property": "C19",
   "status": "proved",
   "theorems": [
    "C19_min_ge_sound",
    "C19_min_gt_sound"
   ],
   "note": "Zero tolerance, exact arithmetic, rows summing exactly to one."
  },
  {
   "property": "C20",
   "status": "proved",
   "theorems": [
    "C20_max_le_sound",
    "C20_max_lt_sound"
   ],
   "note": "Zero tolerance, exact arithmetic, rows summing exactly to one."
  },
  {
   "property": "C21",
   "status": "partial",
   "theorems": [
    "C21_max_ge_sound_refuted",
    "C21_max_ge_sound_partial",
    "C21_max_gt_sound_partial"
   ],
   "note": "Claim is false of the code (negative entries are accepted): refuted by a witness; proved for vectors without negative entries."
  },
  {
   "property": "C22",
   "status": "partial",
   "theorems": [
    "C22_min_le_sound_refuted",
    "C22_min_le_sound_partial",
    "C22_min_lt_sound_partial"
   ],
   "note": "Claim is false of the code (negative entries are accepted): refuted by a witness; proved for vectors without negative entries."
  },
  {
   "property": "C23",
   "status": "partial",
   "theorems": [
    "C23_strict_refuted",
    "C23_strict_partial"
   ],
   "note": "Claim is false of the code at the default tolerance: refuted; proved for tolerance zero."
  },
  {
   "property": "C24",
   "status": "partial",
   "theorems": [
    "C24_complete_refuted",
    "C24_complete_partial"
   ],
   "note": "Claim is false for Pr-min <= t with end components: refuted; proved for the other three claims and for forms without end components."
  },
  {
   "property": "C25",
   "status": "proved",
   "theorems": [
    "C25_generated_checked"
   ],
   "note": ""
  },
  {
   "property": "C26",
   "status": "partial",
   "theorems": [
    "C26_pinned_refuted",
    "C26_pinned_partial",
    "C26_lp_built"
   ],
   "note": "Claim is false for the y-form (line 165 appends the state): refuted; proved for the z-form."
  },
  {
   "property": "C27",
   "status": "proved",
   "theorems": [
    "C27_pr_min"
   ],
   "note": "Rows summing exactly to one; the initial state is not the target state."
  },
  {
   "property": "C28",
   "status": "proved",
   "theorems": [
    "C28_pr_max"
   ],
   "note": "Rows summing exactly to one; the initial state is not the target state."
  },
  {
   "property": "C29",
   "status": "partial",
   "theorems": [
    "C29_max_y_state_refuted",
    "C29_max_y_state_partial"
   ],
   "note": "Claim is false of the code (the entry of the initial state starts at one): refuted by a witness; proved for all other states, and the initial entry is exactly one too large."
  },
  {
   "property": "C30",
   "status": "proved",
   "theorems": [
    "C30_subsystem_induced",
    "C30_subsystem_values"
   ],
   "note": "The record induced (SpecSub) spells out states, rows, probabilities, labels and numbering of the materialised subsystem; also proved: it passes the constructor, the initial state corresponds, and its optimal probabilities are those of the restricted process."
  },
  {
   "property": "C31",
   "status": "proved",
   "theorems": [
    "C31_subsystem_below"
   ],
   "note": "For every materialised subsystem and each of its states; exact row sums assumed."
  },
  {
   "property": "C32",
   "status": "proved",
   "theorems": [
    "C32_min_support",
    "C32_max_support",
    "C32_support"
   ],
   "note": "Both modes; materialised (any flag) and for the abstract restricted process. Exact row sums assumed; sign and end-component conditions as in the solved LP."
  },
  {
   "property": "C33",
   "status": "partial",
   "theorems": [
    "C33_min_materialise_refuted",
    "C33_max_materialise_refuted",
    "C33_inexact_rows_refuted",
    "C33_materialise_partial",
    "C33_materialise_check_partial"
   ],
   "note": "False as stated: with the default ignore_consistency_checks=False the support of a point may contain states unreachable in, or unable to reach target in, the subsystem (AssertionError), both modes; rows summing to slightly more than one give a negative probability. Proved instead: without the check always succeeds; with the check succeeds iff all chosen states are reachable and reach target inside."
  },
  {
   "property": "C34",
   "status": "partial",
   "theorems": [
    "C34_action_labels_refuted",
    "C34_action_labels_partial"
   ],
   "note": "False: subsys builds a dictionary from pairs to labels and passes it as one from labels to pairs, so action labels are lost. Proved: it holds for a label iff no kept pair carries it."
  },
  {
   "property": "C35",
   "status": "proved",
   "theorems": [
    "C35_feasible_set",
    "C35_defined"
   ],
   "note": ""
  },
  {
   "property": "C36",
   "status": "partial",
   "theorems": [
    "C36_objective_replaced_refuted",
    "C36_objective_replaced_partial"
   ],
   "note": "Claim is false of the code (coefficients of variables missing from the new expression stay from the old objective): refuted by a witness; proved for expressions naming every variable."
  },
  {
   "property": "C37",
   "status": "partial",
   "theorems": [
    "C37_removable_refuted",
    "C37_number_never_removable",
    "C37_removable_partial"
   ],
   "note": "Claim is false of the code (an unnamed constraint is stored under its generated name but handed out as a number): refuted; proved for named constraints."
  },
  {
   "property": "C38",
   "status": "proved",
   "theorems": [
    "C38_indicators"
   ],
   "note": "Stated for every successful construction of the model (labels covering target or fail can raise IndexError); the solver of the upper bounds only has to return vectors of the right length."
  },
  {
   "property": "C39",
   "status": "proved",
   "theorems": [
    "C39_exact_min"
   ],
   "note": "All thresholds; exact row sums and an exact answer of the solver to the one model solved are assumed; existence of that answer is proved."
  },
  {
   "property": "C40",
   "status": "proved",
   "theorems": [
    "C40_exact_max"
   ],
   "note": "End-component free forms; exact answers to the bound LP and the model; their existence is proved."
  },
  {
   "property": "C41",
   "status": "proved",
   "theorems": [
    "C41_upper_bounds"
   ],
   "note": "End-component free forms; exact answer to the bound LP, whose existence is proved."
  },
  {
   "property": "C42",
   "status": "partial",
   "theorems": [
    "C42_success_partial",
    "C42_zero_iterations_refuted",
    "C42_answers_exist"
   ],
   "note": "Proved for every initializer, updater, label selection and solver with sound answers, with at most max(1, iterations) results; for zero iterations the statement is refuted (an infeasible bound LP yields one failure result)."
  },
  {
   "property": "C43",
   "status": "proved",
   "theorems": [
    "C43_shrinks",
    "C43_never_fails"
   ],
   "note": "Indicator sets shrink and the next LP keeps the previous answer feasible; with exact answers the iteration never fails on a feasible problem."
  },
  {
   "property": "C44",
   "status": "partial",
   "theorems": [
    "C44_result_updater",
    "C44_reachability_initializer",
    "C44_frequency_initializer_partial",
    "C44_frequency_initializer_refuted"
   ],
   "note": "Inverse-result updater and inverse-reachability initializer proved; the frequency initializer gives a zero-frequency group a smaller weight than a positive one (refuted), order among positive sums proved."
  },
  {
   "property": "C45",
   "status": "proved",
   "theorems": [
    "C45_solve_last",
    "C45_solve_rejects",
    "C45_solve_has_result"
   ],
   "note": "Characterises solve for any problem formulation and shows a result exists for the exact and heuristic formulations when no exception is raised."
  },
  {
   "property": "C46",
   "status": "partial",
   "theorems": [
    "C46_success_partial",
    "C46_timeout_refuted",
    "C46_infeasible_raises"
   ],
   "note": "Refuted: after a timeout solve returns success with value -1, and if the bound heuristic finds nothing solve raises TypeError. Proved: otherwise the single result is the number the decomposition computed with the stated upper bound."
  },
  {
   "property": "C47",
   "status": "partial",
   "theorems": [
    "C47_counter_partial",
    "C47_counter_refuted"
   ],
   "note": "Refuted for two successors with two points each; the exact condition under which the claim holds is proved (equivalence)."
  },
  {
   "property": "C48",
   "status": "partial",
   "theorems": [
    "C48_roundtrip_partial",
    "C48_rounded_partial",
    "C48_lossless_refuted",
    "C48_probabilities_refuted",
    "C48_labels_refuted"
   ],
   "note": "Proved for probabilities with at most six decimals and label names without quotes and line ends; in general the probabilities are rounded to six decimals or loading fails. Refuted in general: row 1/3,1/3,1/3 cannot be loaded, row 1/3,2/3 changes, a label with a quote is cut off."
  },
  {
   "property": "C49",
   "status": "partial",
   "theorems": [
    "C49_kept_partial",
    "C49_kept_refuted"
   ],
   "note": "Refuted: action labels and rewards are not saved; proved: they are kept exactly if there are none."
  },
  {
   "property": "C50",
   "status": "partial",
   "theorems": [
    "C50_choice_model_partial",
    "C50_choice_labels_refuted"
   ],
   "note": "Proved: states, transitions and labels of original states. Refuted: the labels of choice k are put on state N+k+1 instead of N+k."
  },
  {
   "property": "C51",
   "status": "partial",
   "theorems": [
    "C51_entries_partial",
    "C51_methods",
    "C51_range_refuted"
   ],
   "note": "Proved with the range end min(1, to_thr + step) used by the code, in exact arithmetic; refuted for to_thr itself. Positive steps."
  },
  {
   "property": "C52",
   "status": "proved",
   "theorems": [
    "C52_rew_min",
    "C52_rew_max"
   ],
   "note": "Holds even if the fail state is reachable (no rewards are collected there); exact answers to the LPs and rows summing exactly to one are assumed, existence of exact answers is proved."
  },
  {
   "property": "C53",
   "status": "proved",
   "theorems": [
    "C53_quotient"
   ],
   "note": "Also characterises labeling and interface, and absence of duplicate edges."
  },
  {
   "property": "C54",
   "status": "partial",
   "theorems": [
    "C54_subsys_row_partial",
    "C54_lossy_row_partial",
    "C54_reduce_row_partial",
    "C54_reduce_fail_partial",
    "C54_subsystem_refuted",
    "C54_reduce_refuted"
   ],
   "note": "Proved for all rows of doubles: when a materialised row is accepted, that reducing keeps accepted rows accepted, when it adds a transition to fail and how far its probability is from the one lost. Refuted: a row with exact sum one is rejected when materialised, and one gets a transition to fail."
  },
  {
   "property": "C55",
   "status": "proved",
   "theorems": [
    "C55_max_z_state_action",
    "C55_max_y_state_action"
   ],
   "note": ""
  },
  {
   "property": "C56",
   "status": "partial",
   "theorems": [
    "C56_single_part_partial",
    "C56_timeout_partial",
    "C56_too_large_refuted",
    "C56_too_small_refuted",
    "C56_error_refuted",
    "C56_rounding_refuted"
   ],
   "note": "Proved for partitions with one part: the least number for the threshold rounded to single precision, and the exact condition for KeyError (states outside the support of the formula). Refuted for two parts: result too large, too small, or ValueError; refuted for one part because of single precision."
  },
  {
   "property": "C57",
   "status": "proved",
   "theorems": [
    "C57_label_views",
    "C57_add_label",
    "C57_actions_by_state"
   ],
   "note": "For all systems reachable by constructors and add_label."
  },
  {
   "property": "C58",
   "status": "proved",
   "theorems": [
    "C58_reduce_succeeds",
    "C58_reduce_contents"
   ],
   "note": "Every state has an action, rows sum exactly to one."
  },
  {
   "property": "C59",
   "status": "partial",
   "theorems": [
    "C59_rewards_kept_partial",
    "C59_rewards_kept_refuted"
   ],
   "note": "Proved for systems whose target states carry no reward; refuted otherwise: the form collects the reward of the target state."
  },
  {
   "property": "C60",
   "status": "partial",
   "theorems": [
    "C60_read_mdp",
    "C60_read_dtmc_refuted",
    "C60_rows_dtmc_partial"
   ],
   "note": "Proved for MDPs. Refuted for DTMCs: from_stormpy raises TypeError; building the chain from from_stormpy_model directly gives the right rows without labels."
  },
  {
   "property": "C61",
   "status": "proved",
   "theorems": [
    "C61_exact_min_labels",
    "C61_exact_max_labels",
    "C61_outer_labels"
   ],
   "note": ""
  },
  {
   "property": "C62",
   "status": "proved",
   "theorems": [
    "C62_exact_min_states",
    "C62_exact_min_labels"
   ],
   "note": ""
  },
  {
   "property": "C63",
   "status": "partial",
   "theorems": [
    "C63_exact_max_labels_partial",
    "C63_exact_max_states_partial",
    "C63_exact_max_states_refuted"
   ],
   "note": "Proved with labels. Refuted without: formulations.py 87 reads index_by_state_action, which reward forms do not have, so every reachable threshold ends in AttributeError (infeasible ones are reported as such)."
  },
  {
   "property": "C64",
   "status": "partial",
   "theorems": [
    "C64_bounds_valid_partial",
    "C64_undetermined_partial",
    "C64_undetermined_refuted"
   ],
   "note": "Proved: bounds of a solved LP are valid in both modes. Refuted: if the LP of the bounds ends undetermined, the exact model in mode min bounds rewards by 1, so every threshold above 1 is reported infeasible."
  },
  {
   "property": "C65",
   "status": "proved",
   "theorems": [
    "C65_heuristic_success"
   ],
   "note": ""
  },
  {
   "property": "C66",
   "status": "partial",
   "theorems": [
    "C66_subsystem_partial",
    "C66_subsystem_refuted"
   ],
   "note": "Refuted: subsys reads fail_label, which reward forms do not have; it raises AttributeError for every subsystem of every reward form."
  },
  {
   "property": "C67",
   "status": "partial",
   "theorems": [
    "C67_max_z_state_action_partial",
    "C67_max_y_state_action_partial",
    "C67_max_y_state_partial",
    "C67_max_y_state_refuted"
   ],
   "note": "Proved for max_z_state_action and max_y_state_action. Refuted for max_y_state: the entry of the initial state is one too large, all others are right."
  },
  {
   "property": "C68",
   "status": "proved",
   "theorems": [
    "C68_heuristic_decides",
    "C68_answers_exist"
   ],
   "note": ""
  },
  {
   "property": "C69",
   "status": "proved",
   "theorems": [
    "C69_heuristic_decides",
    "C69_answers_exist",
    "C69_shrink"
   ],
   "note": ""
  },
  {
   "property": "C70",
   "status": "partial",
   "theorems": [
    "C70_weights_partial",
    "C70_reward_weights_partial",
    "C70_empty_label_refuted"
   ],
   "note": "Proved for all initializers, for InverseReachabilityInitializer if every label belongs to some state. Refuted otherwise: a label that no state has makes it divide by zero."
  },
  {
   "property": "C71",
   "status": "proved",
   "theorems": [
    "C71_reward_solve",
    "C71_reward_solve_rejects"
   ],
   "note": ""
  },
  {
   "property": "C72",
   "status": "partial",
   "theorems": [
    "C72_same_results_partial",
    "C72_runs_partial",
    "C72_exact_partial",
    "C72_minimal_partial",
    "C72_minimal_max",
    "C72_decides_partial",
    "C72_answers_exist",
    "C72_unit_loop_partial",
    "C72_unit_loop_refuted"
   ],
   "note": "Proved in mode max, and in mode min if no pair stays in its state with probability one: same models, no exceptions, exact and heuristic guarantees. Refuted otherwise: such a pair gives an empty row, whose constraint is a truth value, and every call raises, although the PuLP back end finds a witness."
  },
  {
   "property": "C73",
   "status": "partial",
   "theorems": [
    "C73_same_results_partial",
    "C73_runs_partial",
    "C73_exact_partial",
    "C73_decides_partial",
    "C73_no_rewards_partial",
    "C73_no_rewards_refuted"
   ],
   "note": "Proved in mode min, and in mode max if some reward is not zero. Refuted otherwise: if all rewards are zero the threshold row is empty and every call raises."
  },
  {
   "property": "C74",
   "status": "partial",
   "theorems": [
    "C74_end_components_partial",
    "C74_end_components_refuted"
   ],
   "note": "Refuted: formulations.py 136 calls model.isinstance, which does not exist; every call raises AttributeError (the PuLP back end: an assertion error)."
  },
  {
   "property": "C75",
   "status": "partial",
   "theorems": [
    "C75_feasible_set_partial",
    "C75_feasible_set_refuted",
    "C75_defined",
    "C75_constraint_added",
    "C75_objective_replaced"
   ],
   "note": "Proved: from_coefficients is defined exactly if the PuLP one is and no row is zero, add_constraint and set_objective_function do what they say. Refuted: variables without a lower bound are restricted to be non-negative; the partial theorem characterises the feasible points exactly."
  },
  {
   "property": "C76",
   "status": "partial",
   "theorems": [
    "C76_constants_partial",
    "C76_dictionary_partial",
    "C76_dictionary_refuted"
   ],
   "note": "Proved for constants given as pairs. Refuted for dictionaries, which is what the documentation asks for: iterating gives the names only, and the call raises ValueError unless every name has two letters; then the values never reach prism."
  },
  {
   "property": "C77",
   "status": "partial",
   "theorems": [
    "C77_labels_partial",
    "C77_labels_refuted",
    "C77_dictionary_partial",
    "C77_prism_model_partial"
   ],
   "note": "Proved for labels given as pairs and models that end with a line end. Refuted otherwise: the declaration continues the last line, for example a comment; dictionaries are refuted as in C76."
  },
  {
   "property": "C78",
   "status": "proved",
   "theorems": [
    "C78_mdp",
    "C78_overflow",
    "C78_dtmc"
   ],
   "note": ""
  },
  {
   "property": "C79",
   "status": "proved",
   "theorems": [
    "C79_draw_mdp",
    "C79_draw_dtmc",
    "C79_draw_standard",
    "C79_drawn_states"
   ],
   "note": "A state without actions that no transition leads to is not drawn; the statement says which states are (C79_drawn_states)."
  },
  {
   "property": "C80",
   "status": "proved",
   "theorems": [
    "C80_reduced_mdp",
    "C80_reduced_dtmc",
    "C80_styles"
   ],
   "note": "For decision processes and Markov chains, all total styles; C80_styles: styles of the right class can be set and the default ones never raise."
  },
  {
   "property": "C81",
   "status": "partial",
   "theorems": [
    "C81_subsystem_mdp_partial",
    "C81_subsystem_dtmc_partial",
    "C81_reward_mdp_partial",
    "C81_reward_dtmc_partial",
    "C81_raises_partial",
    "C81_subsystem_refuted"
   ],
   "note": "Proved for decision processes if the subsystem can be built (only needed in form max with weights), and for Markov chains in form min, or in form max if the row of a state has its number (so for all reduced ones). Refuted for chains with permuted rows: a state shows the entry of another. In form max with weights the drawing raises when the subsystem cannot be built, and always for reward forms."
  },
  {
   "property": "C82",
   "status": "partial",
   "theorems": [
    "C82_direct_partial",
    "C82_styles_refuted"
   ],
   "note": "True after a reduction (C80). Refuted for forms built directly: the drawing does not depend on the styles set."
  },
  {
   "property": "C83",
   "status": "proved",
   "theorems": [
    "C83_treap_sessions",
    "C83_stack_sessions",
    "C83_empty_stack"
   ],
   "note": "Separation logic with adequacy; natural keys, malloc never fails."
  },
  {
   "property": "C84",
   "status": "partial",
   "theorems": [
    "C84_treap_released_refuted",
    "C84_treap_released_partial"
   ],
   "note": "Refuted: adding a key that is there loses the node that was allocated for it. Proved: exactly one block is lost per such addition, none otherwise."
  },
  {
   "property": "C85",
   "status": "proved",
   "theorems": [
    "C85_graph_sessions",
    "C85_assertions_first"
   ],
   "note": "Legal arguments: indices of states, entries of the matrix inside. malloc never fails."
  },
  {
   "property": "C86",
   "status": "partial",
   "theorems": [
    "C86_graph_released_refuted",
    "C86_graph_released_partial"
   ],
   "note": "Refuted: maximal_end_components frees only the last of its arrays. Proved: with k >= 2 components at least k blocks are lost per call, with one component of two or more states and for all other calls none."
  },
  {
   "property": "C87",
   "status": "partial",
   "theorems": [
    "C87_calls_defined_refuted",
    "C87_calls_defined_partial"
   ],
   "note": "Refuted: every index that is no state leads outside of an array, and the end components of an empty system read through NULL. Legal arguments are C85."
  },
  {
   "property": "C88",
   "status": "partial",
   "theorems": [
    "C88_rf_command_partial",
    "C88_rf_command_refuted"
   ],
   "note": "Proved for models whose probabilities have at most six decimals. Refuted without: save writes six decimals, a model that reaches its target with probability 1e-7 is written as a form that no later command accepts."
  },
  {
   "property": "C89",
   "status": "partial",
   "theorems": [
    "C89_mapping_file_partial",
    "C89_mapping_file_refuted"
   ],
   "note": "Proved for models whose probabilities have at most six decimals; refuted without: a probability below half of one millionth is written as zero, so no reading of the two files is a copy."
  },
  {
   "property": "C90",
   "status": "partial",
   "theorems": [
    "C90_minimize_stores_nothing",
    "C90_minimize_refuted"
   ],
   "note": "Refuted for all arguments: whenever minimize ends without exception, the stored list of instances is empty, because results are checked with the mode of the method arguments, which no method accepts."
  },
  {
   "property": "C91",
   "status": "proved",
   "theorems": [
    "C91_certify_verdicts"
   ],
   "note": "For thresholds in [0,1] and vectors of the right length; other inputs raise an assertion."
  },
  {
   "property": "C92",
   "status": "partial",
   "theorems": [
    "C92_subsystem_files_partial",
    "C92_subsystem_files_refuted"
   ],
   "note": "Proved when systems can be copied with copy.deepcopy and probabilities have at most six decimals. Refuted with the class Graph as it is: deepcopy raises TypeError at the first instance."
  },
  {
   "property": "C93",
   "status": "partial",
   "theorems": [
    "C93_rf_certify_sound_partial",
    "C93_rf_certify_complete_partial",
    "C93_default_tolerance_refuted",
    "C93_negative_entries_refuted",
    "C93_rf_certify_tolerance_partial"
   ],
   "note": "Soundness proved for tolerance zero and, in mode max, for files without negative entries; refuted for the default tolerance and for negative entries; with a tolerance, VALID is off by at most K times the tolerance, K depending on the model only. Completeness proved. Both for probabilities with at most six decimals."
  },
  {
   "property": "C94",
   "status": "proved",
   "theorems": [
    "C94_tolerance_bounded"
   ],
   "note": ""
  },
  {
   "property": "C95",
   "status": "partial",
   "theorems": [
    "C95_flow_factor_partial",
    "C95_state_factor_refuted"
   ],
   "note": "Proved with K = number of states + 1 for certificates over rows (lower bounds of the maximal, upper bounds of the minimal probability, non-negative entries). Refuted for certificates over states: a chain with one state and probability 1/2 has accepted certificates for \"at least 1\" and for \"at most 0\" with the default tolerance of the command line."
  },
  {
   "property": "C96",
   "status": "proved",
   "theorems": [
    "C96_rounded_probabilities",
    "C96_every_form_is_near"
   ],
   "note": "Row certificates must be non-negative; the upper bound of the minimal probability needs an initial state other than goal and fail."
  },
  {
   "property": "C97",
   "status": "proved",
   "theorems": [
    "C97_float_check_is_a_tolerance"
   ],
   "note": "For finite vectors of at most 2^24 entries and values up to 2^500; no fused multiply-add."
  },
  {
   "property": "C98",
   "status": "proved",
   "theorems": [
    "C98_float_certificate_bound"
   ],
   "note": "Row certificates must be non-negative; the upper bound of the minimal probability needs an initial state other than goal and fail."
  },
  {
   "property": "C99",
   "status": "partial",
   "theorems": [
    "C99_order_partial",
    "C99_rounding_refuted",
    "C99_order_refuted"
   ],
   "note": "Refuted: with tolerance zero the check in doubles accepts a vector that is not a certificate, rejects one that is, and decides differently for two orders of the entries. Proved: verdicts for two orders agree if the second tolerance is larger by twice the rounding error of C97."
  },
  {
   "property": "C100",
   "status": "partial",
   "theorems": [
    "C100_states_finite_partial",
    "C100_finite_refuted"
   ],
   "note": "Proved for certificates over states if no row has an entry one beside another entry. Refuted for certificates over rows (NaN for a row that stays; minus infinity for a row to fail, with a wrong bound) and for rows that sum to more than one."
  },
  {
   "property": "C101",
   "status": "proved",
   "theorems": [
    "C101_solver_tolerance"
   ],
   "note": "The statement is about the restriction of the form to the chosen states; C30 relates it to the materialised subsystem. The solver is only assumed to be correct up to eps on the models it is given, and the bounds solver only to return vectors of the right length."
  },
  {
   "property": "C102",
   "status": "partial",
   "theorems": [
    "C102_minimal_labels_partial",
    "C102_minimal_max_labels_partial",
    "C102_minimal_max_partial",
    "C102_reported_number_refuted",
    "C102_counted_partial",
    "C102_minimal_partial"
   ],
   "note": "Refuted for every positive tolerance: a state with a positive entry below the tolerance is in the subsystem but not in the value. Proved: the value is within (groups + 1) * eps of a number that bounds the groups with an entry above eps * (1 + bound); no exact witness has fewer states (or labels) than have such an entry, for Pr^min with and without labels and, with exact bounds and without proper end components, for Pr^max with and without labels."
  },
  {
   "property": "C103",
   "status": "partial",
   "theorems": [
    "C103_times",
    "C103_files",
    "C103_many_partial",
    "C103_overwritten_refuted"
   ],
   "note": "Times and files of one run in full. For several methods the files are proved to hold the data if the printed forms of the methods differ; refuted otherwise (two TreeAlgo with different partitions print the same). Encoding as json is not modelled."
  },
  {
   "property": "C104",
   "status": "partial",
   "theorems": [
    "C104_states_partial",
    "C104_times_partial",
    "C104_exact_partial",
    "C104_qs_partial",
    "C104_empty_refuted",
    "C104_short_refuted"
   ],
   "note": "Proved for runs with equally many values per threshold, hence for every non-empty run of MILPExact and every non-empty run of QSHeur without failures. Refuted for empty runs (first threshold infeasible) and for runs of QSHeur that end in a timeout: IndexError."
  },
  {
   "property": "C105",
   "status": "partial",
   "theorems": [
    "C105_forms_partial",
    "C105_domains",
    "C105_lp_partial",
    "C105_lp_rows_refuted",
    "C105_no_objective_refuted",
    "C105_hand_partial",
    "C105_hand_refuted",
    "C105_lp_hand_refuted",
    "C105_twice_refuted"
   ],
   "note": "From coefficients in full for MILP, for LP unless the matrix is a list of lists (AttributeError); by hand with one list of domains and without repeated variables. Refuted: the documented calls add_variables(\"integer\", \"real\") and LP.add_variables(n) raise, the latter for every n; opt=None raises; of a repeated variable only the last coefficient counts."
  },
  {
   "property": "C106",
   "status": "partial",
   "theorems": [
    "C106_total_partial",
    "C106_decides_partial",
    "C106_sound_partial",
    "C106_found_partial",
    "C106_off_partial",
    "C106_pins_refuted",
    "C106_strict_refuted",
    "C106_false_refuted"
   ],
   "note": "In full for >= and <= with tolerance 0, except \"Pr-min <= t\" in forms with end components; the program is always feasible and bounded and nothing is raised; with a tolerance every true claim is certified by a vector without negative entries, and what is certified is off by at most K * tol. Refuted: \"Pr-min <= t\" with end components (line 165 fixes the wrong variables, so no correct solver yields the existing certificate), strict claims with tolerance 0 (a true one gets none), strict claims with the default tolerance (a false one gets one)."
  },
  {
   "property": "C107",
   "status": "partial",
   "theorems": [
    "C107_consistency_exact_partial",
    "C107_reducible_partial",
    "C107_fromsystem_refuted"
   ],
   "note": "In full for the check (exact, for every system); systems that pass can be reduced with every state kept, and their expected rewards exist. Refuted for fromsystem: system.P.N raises AttributeError, with and without the check, so no form is ever returned."
  },
  {
   "property": "C108",
   "status": "partial",
   "theorems": [
    "C108_sound_partial",
    "C108_complete_partial",
    "C108_near_partial",
    "C108_total_partial",
    "C108_decides_partial",
    "C108_found_partial",
    "C108_off_partial",
    "C108_threshold_refuted",
    "C108_min_upper_refuted",
    "C108_negative_refuted"
   ],
   "note": "In full for thresholds in [0,1], lower bounds on the minimum and all bounds on the maximum: sound (state-action vectors without negative entries), complete, decided by generation for <= and >=, off by at most K * tol with a tolerance. Refuted: thresholds above 1 (the assertion of line 93 rejects true claims about rewards), upper bounds on the minimum (AttributeError for every form: no index_by_state_action), vectors with negative entries (a false claim is accepted)."
  },
  {
   "property": "C109",
   "status": "partial",
   "theorems": [
    "C109_render_partial",
    "C109_same_colour",
    "C109_keeps_model",
    "C109_render_refuted",
    "C109_colours_refuted"
   ],
   "note": "Proved: no exception, the picture shows the model (as C79), states with the same selected labels have the same colour, files other than the picture and the one with its name without extension are kept. Refuted: the latter is overwritten and removed, and may be the model (output m.tra); 144 label sets share 143 colours."
  },
  {
   "property": "C110",
   "status": "proved",
   "theorems": [
    "C110_reward_tolerance"
   ],
   "note": "The statement is about the restriction of the form to the chosen states, with the rewards of their rows. The solver is only assumed to be correct up to eps on the models it is given, and the bounds solver only to return vectors of the right length."
  },
  {
   "property": "C111",
   "status": "partial",
   "theorems": [
    "C111_minimal_labels_partial",
    "C111_reported_number_refuted",
    "C111_counted_partial",
    "C111_minimal_partial"
   ],
   "note": "Refuted for every positive eps, even with exact bounds: an entry below the tolerance belongs to the subsystem but its indicator is zero. Proved: the value counts the groups with an entry above eps*(1+bound); with exact bounds no exact witness has fewer states (minimal rewards) or labels (both modes) than have such an entry. Maximal rewards without labels raise AttributeError, see C63."
  },
  {
   "property": "C112",
   "status": "partial",
   "theorems": [
    "C112_edits_partial",
    "C112_adds_refuted",
    "C112_adds_partial"
   ],
   "note": "Refuted: add_to_constraint replaces the coefficient (chgCoeff) instead of adding to it; it adds if the constraint did not have the variable. Everything else is proved for all sequences of calls. Assumed of gurobipy: see GurEdit.v."
  }
 ]
}