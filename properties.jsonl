{"id": "C01", "title": "Invertible dictionary: both directions always describe the same relation", "statement": "After any history of add/remove calls, made on the dictionary or on its inverse, in any interleaving with reads of the inverse, v is in d[k] exactly when k is in d.inv[v]; an add makes exactly one pair true, a successful remove makes exactly one pair false, and a remove that raises changes nothing.", "quantifier": "for every initial dictionary, every finite sequence of operations on either view and every key and value", "why_tests_cant": "the inverse is built lazily and then maintained incrementally, so the claim depends on when in a history of arbitrary length the inverse is first read", "anchors": ["switss/utils/invertible_dict.py: InvertibleDict.add, remove, inv, __getitem__, __contains__"]}
{"id": "C02", "title": "Invertible dictionaries built from the same input are independent", "statement": "Changing one invertible dictionary (through its own add/remove) never changes what another one built earlier from the same input dictionary answers, nor the consistency of that other one with its own inverse.", "quantifier": "for all input dictionaries, all pairs of invertible dictionaries built from them and all later changes to one of them", "why_tests_cant": "the sharing of mutable sets only shows up when two live objects and a particular order of reads and writes are combined", "anchors": ["switss/utils/invertible_dict.py: InvertibleDict.__init__ (d.copy()), add", "switss/model/amdp.py: AbstractMDP.__init__, add_label"]}
{"id": "C03", "title": "Treaps are sets, for every sequence of random priorities", "statement": "A treap built by any sequence of insertions contains exactly the inserted keys, is a binary search tree, is ordered by priority, reports the number of distinct inserted keys as its size, and its conversion to an array lists every key exactly once in an array of exactly that size.", "quantifier": "for every sequence of keys (with repetitions) and every sequence of values returned by rand()", "why_tests_cant": "the shape depends on random priorities, so tests see only a few of the possible trees, and array overruns need not be visible", "anchors": ["switss/utils/treaps.pyx: add_to_treap, insert, split_treap, in_treap, update_size, treap_to_arr, fill_array"]}
{"id": "C04", "title": "Building a treap from an array terminates with that array's elements", "statement": "Calling the array-to-treap conversion on any array returns a treap that contains exactly the elements of the array.", "quantifier": "for every array length and contents", "why_tests_cant": "non-termination cannot be established by running, and the helper is not exercised by any test", "anchors": ["switss/utils/treaps.pyx: treap_from_arr"]}
{"id": "C05", "title": "Neighbour queries mirror the transition matrix", "statement": "The successors of a state are exactly the (destination, action) pairs with a stored entry in the matrix for a row belonging to that state, the predecessors are exactly the reverse, every stored entry is reported once, and an action filter returns exactly the pairs with that action.", "quantifier": "for every transition matrix, every row indexing, every state and every action", "why_tests_cant": "quantifies over all matrices and over the insertion order of the sparse matrix", "anchors": ["switss/utils/graph.pyx: Graph.__cinit__, add_successor, successors, predecessors", "switss/model/amdp.py: successors, predecessors"]}
{"id": "C06", "title": "reachable_mask is exact and terminates", "statement": "For a non-empty set of start states the returned mask marks a state if and only if there is a path (in the chosen direction) from some start state to it none of whose earlier states is blocked; a blocked state itself can be marked; an empty start set or a bad direction name is rejected; the search always terminates.", "quantifier": "for every system, start set, direction and block list", "why_tests_cant": "exactness over all graphs, cyclic ones included, cannot be sampled", "anchors": ["switss/utils/graph.pyx: Graph.reachable", "switss/model/amdp.py: reachable_mask"]}
{"id": "C07", "title": "Strongly connected components inside a state set are exact", "statement": "Restricted to a set of states and to the state-action pairs that cannot leave it, two states receive the same component number if and only if each can reach the other, the numbers of the states in the set are exactly 1..k, where k is the returned count, and states outside of the set keep 0.", "quantifier": "for every system, every subset of its states and every sequence of random treap priorities", "why_tests_cant": "correctness of a depth-first low-link algorithm for all graphs is a theorem; wrong low-link updates survive most hand-made graphs", "anchors": ["switss/utils/graph.pyx: strongconnect, strongly_connected_components"]}
{"id": "C08", "title": "Maximal end components are exact", "statement": "Two different states get the same component number if and only if some end component contains both of them; the numbers are 0..k-1, each is used, k is the reported number of components; the computation terminates.", "quantifier": "for every system with at least one state and every sequence of random treap priorities", "why_tests_cant": "maximality and completeness speak about all sub-systems of all systems", "anchors": ["switss/utils/graph.pyx: Graph.maximal_end_components", "switss/model/amdp.py: maximal_end_components"]}
{"id": "C09", "title": "The proper flag of a component means that it is an end component", "statement": "For a system in which every state has an action, a component is flagged proper if and only if some state of it lies in an end component (a non-empty closed strongly connected set of states with at least one action each); a reachability form reports to be free of end components if and only if no state other than target and fail lies in one.", "quantifier": "for every system in which every state has an action", "why_tests_cant": "quantifies over all possible end components of all systems", "anchors": ["switss/utils/graph.pyx: Graph.maximal_end_components", "switss/model/reachability_form.py: is_ec_free, in_proper_ec, nr_of_proper_mecs"]}
{"id": "C10", "title": "A constructed system satisfies the documented matrix conditions", "statement": "Constructing a system succeeds only if every stored entry lies in [0,1], every row sums to one up to nine decimals, rewards (if any) are non-negative and every row with an entry belongs to a state-action pair; whenever the index covers the rows and these conditions hold the construction succeeds.", "quantifier": "for every matrix, index, label and reward input", "why_tests_cant": "acceptance and rejection must be right for all inputs, in particular at the rounding boundary", "anchors": ["switss/model/amdp.py: AbstractMDP.__init__, __check_correctness", "switss/model/mdp.py", "switss/model/dtmc.py"]}
{"id": "C11", "title": "The reachability-form consistency check is sound and complete", "statement": "The consistency check accepts a system exactly when: the three labels differ, each labels exactly one state, target and fail are the last two states and their only transition is a self-loop in the last two rows, every state other than fail is reachable from the initial state, and target is reachable from every state other than fail.", "quantifier": "for every system and every triple of labels", "why_tests_cant": "an equivalence over all systems, half of which are rejections", "anchors": ["switss/model/reachability_form.py: ReachabilityForm.assert_consistency"]}
{"id": "C12", "title": "reduce returns a system that is in reachability form", "statement": "If a system is exactly stochastic, every state has an action, the initial label marks one state and that state can reach a target state, then reduce returns (without raising) a form whose system passes the consistency check (which reduce itself skips), with rows summing to one and exactly the original states that are reachable and can reach a target, plus target and fail.", "quantifier": "for every such system and every choice of fresh distinct labels", "why_tests_cant": "reduce disables the check on its own output, so no test observes a violation; the claim is over all systems", "anchors": ["switss/model/reachability_form.py: ReachabilityForm.reduce, __initialize_system, assert_consistency"]}
{"id": "C13", "title": "reduce preserves minimal and maximal reachability probabilities", "statement": "For every state kept by reduce, the minimal (maximal) probability over all schedulers of eventually reaching the target label in the original system equals the minimal (maximal) probability of eventually reaching the target state of the returned form from the corresponding state.", "quantifier": "for every system, every kept state and all history-dependent randomised schedulers", "why_tests_cant": "the quantity is an infimum/supremum over infinitely many schedulers of a limit", "anchors": ["switss/model/reachability_form.py: ReachabilityForm.reduce, __initialize_system"]}
{"id": "C14", "title": "The maps returned by reduce transport states, actions, labels and rewards", "statement": "The state map and the state-action map returned by reduce are bijections between the kept part of the original and the states and rows of the form other than target and fail; a kept state carries the same labels, a kept state-action pair the same action labels and the same reward, and a transition between two kept states (from a non-target state) has the same probability.", "quantifier": "for every system accepted by reduce and every kept state, pair, label and transition", "why_tests_cant": "renumbering errors need the right shape of system to show", "anchors": ["switss/model/reachability_form.py: ReachabilityForm.reduce"]}
{"id": "C15", "title": "reduce never silently returns a form for an unreachable target", "statement": "If the initial state cannot reach any target state, or the initial label does not mark exactly one state, or no state has the target label, or a new label already exists, reduce raises instead of returning a form.", "quantifier": "for every system and label choice meeting one of these conditions", "why_tests_cant": "error behaviour for all inputs; only the success path is tested", "anchors": ["switss/model/reachability_form.py: ReachabilityForm.reduce, __init__"]}
{"id": "C16", "title": "Farkas constraints mean what the documentation says", "statement": "The z-constraints for threshold t, applied to a state vector z, hold if and only if for every state-action pair z(s) <= sum of P(s,a,s')z(s') + P(s,a,target) and z(initial) >= t; the y-constraints, applied to a state-action vector y, hold if and only if for every state the outflow of y minus its inflow is at most 1 for the initial state and at most 0 otherwise and the y-weighted target probability is at least t.", "quantifier": "for every reachability form, every threshold and every vector", "why_tests_cant": "sign and transposition errors in sparse matrix assembly are invisible on symmetric examples", "anchors": ["switss/model/reachability_form.py: fark_z_constraints, fark_y_constraints, A, to_target"]}
{"id": "C17", "title": "Farkas constraints do not depend on the call history", "statement": "Asking for the constraints for a threshold returns the same matrix and right-hand side whatever calls were made before.", "quantifier": "for every reachability form and every sequence of earlier calls and thresholds", "why_tests_cant": "the implementation caches and mutates; a test would have to guess the right sequence", "anchors": ["switss/model/reachability_form.py: fark_z_constraints, fark_y_constraints"]}
{"id": "C18", "title": "A right-hand side obtained earlier stays valid", "statement": "A right-hand side vector returned for one threshold keeps its value when constraints for another threshold are requested later.", "quantifier": "for every reachability form and every pair of thresholds", "why_tests_cant": "depends on aliasing between two calls", "anchors": ["switss/model/reachability_form.py: fark_z_constraints, fark_y_constraints"]}
{"id": "C19", "title": "Accepted certificates for Pr-min >= t are sound", "statement": "If the certificate check accepts a vector for mode min, sense >= and threshold t with zero tolerance then under every scheduler the probability of reaching the target from the initial state is at least t (and for sense > more than t).", "quantifier": "for every reachability form (with or without end components), every vector, every threshold and all schedulers", "why_tests_cant": "soundness over all vectors and all schedulers; end components matter", "anchors": ["switss/certification/certificates.py: check_farkas_certificate"]}
{"id": "C20", "title": "Accepted certificates for Pr-max <= t are sound", "statement": "If the certificate check accepts a vector for mode max, sense <= and threshold t with zero tolerance then under every scheduler the probability of reaching the target from the initial state is at most t (and for sense < less than t).", "quantifier": "for every reachability form, every vector (of any sign), every threshold and all schedulers", "why_tests_cant": "soundness over all vectors and all schedulers", "anchors": ["switss/certification/certificates.py: check_farkas_certificate"]}
{"id": "C21", "title": "Accepted certificates for Pr-max >= t are sound", "statement": "If the certificate check accepts a vector for mode max, sense >= and threshold t with zero tolerance then the maximal probability of reaching the target from the initial state is at least t.", "quantifier": "for every reachability form, every vector, every threshold", "why_tests_cant": "a certificate supplied by a user is arbitrary; no finite set of vectors settles it", "anchors": ["switss/certification/certificates.py: check_farkas_certificate"]}
{"id": "C22", "title": "Accepted certificates for Pr-min <= t are sound", "statement": "If the certificate check accepts a vector for mode min, sense <= and threshold t with zero tolerance then the minimal probability of reaching the target from the initial state is at most t.", "quantifier": "for every reachability form, every vector, every threshold", "why_tests_cant": "a certificate supplied by a user is arbitrary; no finite set of vectors settles it", "anchors": ["switss/certification/certificates.py: check_farkas_certificate"]}
{"id": "C23", "title": "Strict certificates establish strict inequalities", "statement": "If the certificate check accepts a vector for a strict sense (< or >) with its default tolerance then the strict inequality on the probability holds.", "quantifier": "for every reachability form, vector and threshold", "why_tests_cant": "the failing cases lie exactly on the boundary", "anchors": ["switss/certification/certificates.py: check_farkas_certificate"]}
{"id": "C24", "title": "True threshold claims have an accepted certificate", "statement": "If Pr-min >= t, Pr-max <= t, Pr-max >= t or Pr-min <= t holds for the initial state of a reachability form then some vector is accepted by the certificate check for that claim.", "quantifier": "for every reachability form, threshold and each of the four claims", "why_tests_cant": "completeness needs a vector for every system", "anchors": ["switss/certification/certificates.py: check_farkas_certificate"]}
{"id": "C25", "title": "Generated certificates are accepted by the check", "statement": "Whatever the LP solver returns, certificate generation returns either nothing or a vector that the check accepts for the same form, mode, sense, threshold and tolerance.", "quantifier": "for every solver behaviour, form, mode, sense and threshold", "why_tests_cant": "quantifies over arbitrary solver outputs", "anchors": ["switss/certification/certificates.py: generate_farkas_certificate, find_interior_point"]}
{"id": "C26", "title": "Certificate generation pins exactly the end-component entries to zero", "statement": "In mode min the LP solved by certificate generation fixes to zero exactly the variables that the certificate check requires to be zero: the states in proper end components for the z-form and the state-action pairs of such states for the y-form.", "quantifier": "for every reachability form and both forms of certificates", "why_tests_cant": "needs a system whose state and state-action numbering differ and which has end components", "anchors": ["switss/certification/certificates.py: generate_farkas_certificate"]}
{"id": "C27", "title": "pr_min is the minimal reachability probability of every state", "statement": "The vector returned by pr_min, for an LP solver that returns an optimal solution, is for every state the infimum over all schedulers of the probability of reaching the target; the LP always has an optimal solution.", "quantifier": "for every reachability form (with or without end components), every state and every optimal solver", "why_tests_cant": "infimum over all schedulers, any optimal vertex", "anchors": ["switss/model/reachability_form.py: pr_min, max_z_state"]}
{"id": "C28", "title": "pr_max is the maximal reachability probability of every state", "statement": "The vector returned by pr_max, for an LP solver that returns an optimal solution, is for every state the supremum over all schedulers of the probability of reaching the target; the LP always has an optimal solution.", "quantifier": "for every reachability form (with or without end components), every state and every optimal solver", "why_tests_cant": "supremum over all schedulers, any optimal vertex", "anchors": ["switss/model/reachability_form.py: pr_max"]}
{"id": "C29", "title": "max_y_state sums the state-action values of each state", "statement": "max_y_state returns for every state s the sum over its actions a of the entry for (s,a) of max_y_state_action, as documented.", "quantifier": "for every reachability form and every solver result", "why_tests_cant": "tests do not compare with the documentation", "anchors": ["switss/model/reachability_form.py: max_y_state", "switss/model/reward_reachability_form.py: max_y_state"]}
{"id": "C30", "title": "A subsystem is the system induced by the chosen states", "statement": "The materialised subsystem has exactly the chosen states plus target and fail; transitions between chosen states and to target keep their probability, all remaining probability goes to fail, rows sum to one, and every chosen state keeps all its actions and its state labels.", "quantifier": "for every reachability form and every certificate vector for which the subsystem is built", "why_tests_cant": "renumbering and redirection must be right for all supports", "anchors": ["switss/problem/subsystem.py: Subsystem.subsys, subsystem_mask"]}
{"id": "C31", "title": "A subsystem never overestimates the reachability probability", "statement": "The minimal (maximal) probability of reaching target in the materialised subsystem, from any of its states, is at most the minimal (maximal) probability of reaching target in the full system from the corresponding state.", "quantifier": "for every reachability form, certificate vector, state and all schedulers", "why_tests_cant": "an inequality between infima/suprema over schedulers of two systems", "anchors": ["switss/problem/subsystem.py: Subsystem.subsys"]}
{"id": "C32", "title": "The support of a certificate is a witnessing subsystem", "statement": "If a vector satisfies the z- (y-) constraints for threshold t (with the sign and end-component conditions of the solver's LP) then in the subsystem induced by its positive entries the minimal (maximal) probability of reaching target from the initial state is at least t.", "quantifier": "for every reachability form, every point of the polytope and every threshold", "why_tests_cant": "this is the central theorem behind the tool; it is about all points of a polytope and all schedulers", "anchors": ["switss/problem/subsystem.py: Subsystem.subsys, subsystem_mask", "switss/model/reachability_form.py: fark_constraints"]}
{"id": "C33", "title": "A certificate's subsystem can always be materialised", "statement": "For every vector satisfying the constraints for a positive threshold, asking for the subsystem returns a system (it does not raise).", "quantifier": "for every reachability form, threshold and point of the polytope", "why_tests_cant": "depends on supports with unreachable parts, which solvers rarely return", "anchors": ["switss/problem/subsystem.py: Subsystem.subsys", "switss/model/reachability_form.py: assert_consistency"]}
{"id": "C34", "title": "A subsystem keeps the action labels of the kept pairs", "statement": "In the materialised subsystem a state-action pair carries a label if and only if the corresponding pair of the full system does.", "quantifier": "for every reachability form with action labels and every certificate", "why_tests_cant": "no test looks at action labels of subsystems", "anchors": ["switss/problem/subsystem.py: Subsystem.subsys"]}
{"id": "C35", "title": "LPs and MILPs built from coefficients have the intended feasible set", "statement": "An LP or MILP built from a matrix, a right-hand side, a sense, domains and bounds is satisfied by exactly those assignments that satisfy every row inequality, every bound and every integrality condition, and its objective is the given linear form.", "quantifier": "for every matrix, right-hand side, sense, objective, bounds, domains and assignment", "why_tests_cant": "equality of feasible sets", "anchors": ["switss/solver/milp.py: MILP.from_coefficients, add_constraint, add_variables_w_bounds, set_objective_function"]}
{"id": "C36", "title": "Setting an objective replaces the previous one", "statement": "After set_objective_function the objective of the model is exactly the given linear form, whatever was set before.", "quantifier": "for every model, every earlier sequence of objectives and every new objective", "why_tests_cant": "stale coefficients appear only for particular sequences", "anchors": ["switss/solver/milp.py: MILP.set_objective_function, GurobiMILP.set_objective_function"]}
{"id": "C37", "title": "A constraint that was added can be removed", "statement": "Removing the constraint whose index was returned when it was added succeeds and leaves the other constraints unchanged.", "quantifier": "for every model and every sequence of additions and removals", "why_tests_cant": "never exercised", "anchors": ["switss/solver/milp.py: MILP.add_constraint, remove_constraint"]}
{"id": "C38", "title": "MILP indicators count the groups touched by the certificate", "statement": "In every solution of the (non-relaxed) model built for a threshold, each certificate entry that is positive lies only in groups whose indicator is one; conversely every certificate within the bounds together with the indicators of the groups it touches is a solution; the objective value is the number of indicators that are one.", "quantifier": "for every reachability form, threshold, mode, label selection and assignment", "why_tests_cant": "quantifies over all points of the MILP", "anchors": ["switss/problem/formulations.py: construct_MILP, add_indicator_constraints, groups_from_labels", "switss/problem/qsheurparams.py: AllOnesInitializer"]}
{"id": "C39", "title": "Exact minimisation for Pr-min returns a minimum witness", "statement": "With an exact MILP solver, the value reported in mode min without labels is the least number of states of any subsystem whose minimal reachability probability is at least the threshold; the returned subsystem attains it; infeasible is reported exactly if Pr-min is below the threshold.", "quantifier": "for every reachability form and threshold in [0,1]", "why_tests_cant": "optimality over all subsets of states of all systems", "anchors": ["switss/problem/milpexact.py: MILPExact._solveiter", "switss/problem/formulations.py: construct_MILP"]}
{"id": "C40", "title": "Exact minimisation for Pr-max returns a minimum witness", "statement": "With an exact MILP solver, for forms without end components, the value reported in mode max without labels is the least number of states of any subsystem whose maximal reachability probability is at least the threshold; the returned subsystem attains it; infeasible is reported exactly if Pr-max is below the threshold.", "quantifier": "for every reachability form without end components and every threshold in [0,1]", "why_tests_cant": "optimality over all subsets of states; also the computed upper bounds must never cut off a witness", "anchors": ["switss/problem/milpexact.py: MILPExact._solveiter", "switss/problem/formulations.py: construct_MILP, compute_upper_bounds"]}
{"id": "C41", "title": "The upper bounds used by the MILP never cut off a certificate", "statement": "For forms without end components the bounds computed for mode max dominate every point of the polytope, entry by entry.", "quantifier": "for every reachability form without end components, every threshold, every point of the polytope", "why_tests_cant": "a too small bound silently yields too large witnesses", "anchors": ["switss/problem/formulations.py: compute_upper_bounds"]}
{"id": "C42", "title": "Every success of the QS heuristic is a witness", "statement": "Every result with status success produced by the heuristic, at any iteration and for any initializer, updater and labels, carries a vector satisfying the constraints for the requested threshold, hence a subsystem reaching the threshold; the reported value is at least the number of groups the subsystem touches; at most the requested number of results is produced and nothing follows a failure.", "quantifier": "for every form, threshold, mode, number of iterations, objective update and every solver returning feasible points", "why_tests_cant": "the objective is changed between iterations by arbitrary updaters", "anchors": ["switss/problem/qsheur.py: QSHeur._solveiter"]}
{"id": "C43", "title": "The fixed-zeros updater only ever shrinks the witness", "statement": "With the updater that pins zero groups, the set of groups with positive indicator in each iteration is contained in that of the previous one, and the LP of the next iteration is still feasible.", "quantifier": "for every form, threshold, solver choice and number of iterations", "why_tests_cant": "a statement about all iteration sequences", "anchors": ["switss/problem/qsheurparams.py: InverseResultFixedZerosUpdater", "switss/problem/qsheur.py: QSHeur._solveiter"]}
{"id": "C44", "title": "Heuristic weights prefer groups that were zero or rare", "statement": "The result-based updater gives every group a positive weight of at most 1e9, larger (or equal) weight for smaller values, and a group with value zero gets a weight at least as large as any other; the same ordering holds for the reachability- and frequency-based initializers.", "quantifier": "for every result vector", "why_tests_cant": "the caps 1e8 and 1e9 only matter for extreme values", "anchors": ["switss/problem/qsheurparams.py: InverseResultUpdater.update, InverseReachabilityInitializer, InverseFrequencyInitializer"]}
{"id": "C45", "title": "solve returns the final result", "statement": "solve returns the last result of the iteration, and rejects thresholds outside the admissible range and unknown modes; for one or more heuristic iterations it never raises for lack of a result.", "quantifier": "for every problem formulation, form, threshold and mode", "why_tests_cant": "includes degenerate iteration counts and failing solvers", "anchors": ["switss/problem/problemform.py: solve, solveiter", "switss/problem/qsheur.py", "switss/problem/milpexact.py"]}
{"id": "C46", "title": "Tree-based minimisation reports failures as failures", "statement": "The result of the tree algorithm has status success only if a minimum was computed; a timeout or an infeasible threshold is reported with a non-success status.", "quantifier": "for every outcome of the tree decomposition and of the upper-bound heuristic", "why_tests_cant": "timeouts are not reproducible in tests", "anchors": ["switss/problem/tree_algo.py: TreeAlgo._solveiter", "switss/problem/problemform.py: solve"]}
{"id": "C47", "title": "The tree decomposition visits every combination of successor points exactly once", "statement": "Over its loop, the combination counter takes each combination of one point per successor exactly once and never leaves the range of available points.", "quantifier": "for every number of successors and every number of points per successor", "why_tests_cant": "an out-of-range read is silent", "anchors": ["switss/utils/tree_decomp.pyx: increase_iterator, handle_subsys"]}
{"id": "C48", "title": "Saving and loading a system is lossless", "statement": "Saving an MDP or DTMC and loading it again gives a system with the same states, the same probabilities for every state-action pair and destination, and the same state labels.", "quantifier": "for every system accepted by the constructor", "why_tests_cant": "depends on decimal formatting of all probabilities", "anchors": ["switss/model/mdp.py: save, _load_transition_matrix", "switss/model/dtmc.py: save, _load_transition_matrix", "switss/prism/prism.py: parse_label_file", "switss/model/amdp.py: from_file"]}
{"id": "C49", "title": "Saving and loading keeps action labels and rewards", "statement": "Saving an MDP and loading it again gives a system with the same action labels and the same rewards.", "quantifier": "for every system accepted by the constructor", "why_tests_cant": "no test round-trips action labels or rewards", "anchors": ["switss/model/mdp.py: save, _load_transition_matrix"]}
{"id": "C50", "title": "Converting a storm choice model labels every choice state", "statement": "The choice model built from a sparse storm model labels with 'choice' exactly the states that stand for an original state-action pair (and the original labels are kept on the original states), and every state has exactly the transitions documented.", "quantifier": "for every sparse model", "why_tests_cant": "needs a storm installation to test", "anchors": ["switss/model/mdp.py: choice_model_from_stormpy, from_stormpy_model"]}
{"id": "C51", "title": "Benchmark runs record one entry per threshold until stopped", "statement": "A benchmark run records for every method one entry per processed threshold, in threshold order, stops at the first infeasible threshold, and never processes a threshold at or above the end of the requested range.", "quantifier": "for every list of methods, every threshold range and every behaviour of the methods", "why_tests_cant": "depends on the pattern of failures", "anchors": ["switss/benchmarks/benchmarks.py: run"]}
{"id": "C52", "title": "Expected-reward forms: rew_min and rew_max are optimal expected rewards", "statement": "For a form whose fail state is unreachable and which has no end components, the vectors returned by rew_min and rew_max with an optimal LP solver are the minimal and maximal expected accumulated rewards before reaching the target, over all schedulers.", "quantifier": "for every such form, reward vector, state and all schedulers", "why_tests_cant": "infimum/supremum over all schedulers of a limit of expected sums", "anchors": ["switss/model/reward_reachability_form.py: rew_min, rew_max, fark_z_constraints, assert_system_consistency"]}
{"id": "C53", "title": "Quotient graphs have exactly the edges between different parts", "statement": "The quotient of a graph by a partition has an edge from part i to part j if and only if i and j differ and some edge leads from a state of part i to a state of part j.", "quantifier": "for every graph and every partition", "why_tests_cant": "all graphs and partitions", "anchors": ["switss/utils/graph_utils.py: quotient, underlying_graph, interface"]}
{"id": "C54", "title": "Floating-point subsystems are accepted by the system constructor", "statement": "In IEEE double arithmetic, materialising a subsystem that keeps all successors of a row accepted by the constructor again gives a row accepted by the constructor, and reduce adds a transition to fail only if probability is lost.", "quantifier": "for every row of doubles accepted by the constructor", "why_tests_cant": "rounding of a sum of doubles to above or below one depends on the exact entries", "anchors": ["switss/problem/subsystem.py: Subsystem.subsys", "switss/model/reachability_form.py: __initialize_system", "switss/model/amdp.py: __check_correctness"]}
{"id": "C55", "title": "The state-action LPs compute one-step values and attain Pr-max", "statement": "max_z_state_action returns for every state-action pair the probability of reaching the target when this action is taken first and the probability is minimised afterwards; max_y_state_action returns a non-negative vector whose inflow into the target equals the maximal reachability probability of the initial state, and its LP has an optimum even if the form has end components.", "quantifier": "for every reachability form, every state-action pair and every optimal solver", "why_tests_cant": "the optimum is compared with a supremum over all schedulers", "anchors": ["switss/model/reachability_form.py: max_z_state_action, max_y_state_action"]}
{"id": "C56", "title": "The tree decomposition returns the least number of states of a witnessing subsystem", "statement": "For a chain in reachability form, a partition of its states whose quotient is a tree rooted at the part of the initial state, an exact linear solver and no timeout, min_witnesses returns the least number of states of a subsystem whose probability of reaching the target is at least the threshold.", "quantifier": "for every chain in reachability form, every tree partition and every threshold", "why_tests_cant": "quantifies over all subsystems; errors show only for particular partitions and interface states", "anchors": ["switss/utils/tree_decomp.pyx: min_witnesses, handle_partition, handle_subsys, partition_subsys_formula"]}
{"id": "C57", "title": "Label and action queries of a system agree with each other and with what was added", "statement": "states_by_label and labels_by_state describe the same relation; add_label adds exactly one pair and changes nothing else of the system; actions_by_state lists exactly the actions that have a row in the transition matrix.", "quantifier": "for every system built by a constructor followed by any number of add_label calls, every state and label", "why_tests_cant": "all label assignments and sequences of additions", "anchors": ["switss/model/amdp.py: states_by_label, labels_by_state, add_label, actions_by_state"]}
{"id": "C58", "title": "A reward form is made exactly when the target is reached almost surely by every scheduler", "statement": "RewardReachabilityForm.reduce succeeds if and only if the reduction to reachability form succeeds, the system has rewards, every state met before a target can reach a target and no end component consists of such non-target states; the form then has an unreachable fail state, no end components and for every kept state-action pair the reward of the original pair.", "quantifier": "for every system, all labels and all random seeds of the end-component computation", "why_tests_cant": "quantifies over all end components and reachable states of all systems", "anchors": ["switss/model/reward_reachability_form.py: reduce, assert_reachform_consistency, __init__"]}
{"id": "C59", "title": "The reduction to a reward form preserves expected rewards", "statement": "For every state kept by RewardReachabilityForm.reduce, the minimal and the maximal expected reward accumulated before reaching the target set equal those of the corresponding state of the reward form.", "quantifier": "for every system, state and all schedulers", "why_tests_cant": "infimum/supremum over all schedulers of both systems", "anchors": ["switss/model/reward_reachability_form.py: reduce, assert_reachform_consistency"]}
{"id": "C60", "title": "Reading a storm model gives the system it describes", "statement": "from_stormpy without choice_model, called on the MDP or the DTMC class, gives a system with the states, choices, transition probabilities, state labels and (for MDPs) action labels of the storm model.", "quantifier": "for every sparse storm model whose rows are distributions (DTMC: with one action per state)", "why_tests_cant": "needs a storm installation to test", "anchors": ["switss/model/amdp.py: from_stormpy", "switss/model/mdp.py: from_stormpy_model", "switss/model/dtmc.py: from_stormpy_model"]}
{"id": "C61", "title": "With labels, exact minimisation touches as few labels as possible", "statement": "MILPExact with a list of labels, none of which belongs to target or fail, returns a witnessing subsystem whose states carry the least possible number of the given labels (states without labels are free), and the value is that number; if no subsystem is a witness the result is infeasible. A label of target or fail makes the call raise an exception.", "quantifier": "for every reachability form (mode max: without proper end components), threshold, list of labels and exact solver", "why_tests_cant": "optimality is against all subsystems and all label assignments", "anchors": ["switss/problem/formulations.py: groups_from_labels, add_indicator_constraints, construct_MILP", "switss/problem/milpexact.py: _solveiter"]}
{"id": "C62", "title": "Exact minimisation of states and labels for minimal expected rewards", "statement": "On a reward form, MILPExact in mode min returns a certificate whose support is a subsystem with minimal expected reward at least the threshold, with the least number of states (or of the given labels) among all such subsystems; it reports infeasible exactly if the minimal expected reward of the form is below the threshold.", "quantifier": "for every reward form without end components and with non-negative rewards, every threshold (also above one), every list of labels of inner states and every exact solver", "why_tests_cant": "optimality is against all subsystems, the value is an infimum over all schedulers", "anchors": ["switss/problem/formulations.py: construct_MILP, compute_upper_bounds", "switss/problem/milpexact.py: _solveiter", "switss/model/reward_reachability_form.py: fark_z_constraints"]}
{"id": "C63", "title": "Exact minimisation of states and labels for maximal expected rewards", "statement": "On a reward form, MILPExact in mode max returns a certificate whose support is a subsystem with maximal expected reward at least the threshold, with the least number of states (or of the given labels) among all such subsystems; it reports infeasible exactly if the maximal expected reward of the form is below the threshold.", "quantifier": "for every reward form without end components and with non-negative rewards, every threshold, every list of labels of inner states and every exact solver", "why_tests_cant": "optimality is against all subsystems, the value is a supremum over all schedulers", "anchors": ["switss/problem/formulations.py: groups_from_labels, construct_MILP", "switss/problem/milpexact.py: _solveiter", "switss/model/reward_reachability_form.py: fark_y_constraints"]}
{"id": "C64", "title": "Bounds of certificates for rewards never cut off a certificate", "statement": "The bounds compute_upper_bounds finds for a reward form are at least every certificate, and infeasible is returned exactly if there is none; if the linear program of the bounds is not solved in time, the exact problem still has the same answer.", "quantifier": "for every reward form, threshold and mode, and every status of the solver", "why_tests_cant": "quantifies over all points of a polytope and over solver failures, which tests do not produce", "anchors": ["switss/problem/formulations.py: compute_upper_bounds, construct_MILP, construct_indicator, add_indicator_constraints"]}
{"id": "C65", "title": "Every success of the heuristic on a reward form is a witness", "statement": "Every successful result of QSHeur on a reward form, in both modes, consists of a certificate for the threshold whose support is a subsystem with optimal expected reward at least the threshold, and the reported value is at least the number of groups the certificate touches; there are at most max(1, iterations) results and only the last can be a failure.", "quantifier": "for every reward form, threshold, mode, labels, initializer, updater, number of iterations and every sound solver", "why_tests_cant": "all solver answers and all updaters", "anchors": ["switss/problem/qsheur.py: _solveiter", "switss/problem/formulations.py: construct_MILP"]}
{"id": "C66", "title": "Subsystems of reward forms can be materialised", "statement": "Subsystem.subsys of a certificate of a reward form returns the form of the subsystem induced by the certificate.", "quantifier": "for every reward form and every certificate", "why_tests_cant": "all certificates of all forms", "anchors": ["switss/problem/subsystem.py: Subsystem.subsys", "switss/model/reward_reachability_form.py: RewardReachabilityForm"]}
{"id": "C67", "title": "Solution vectors of reward forms", "statement": "max_z_state_action returns for every state-action pair its reward plus the expected minimal reward of the successor, max_y_state_action returns frequencies that collect the maximal expected reward of the initial state, and max_y_state sums them over the actions of each state.", "quantifier": "for every reward form and every exact solver", "why_tests_cant": "the values are compared with an infimum and a supremum over all schedulers", "anchors": ["switss/model/reward_reachability_form.py: max_z_state_action, max_y_state_action, max_y_state"]}
{"id": "C68", "title": "The heuristic decides whether a witness exists", "statement": "QSHeur on a reachability form, with the updaters of the library and non-negative initial weights, raises no exception; if the optimal probability of the initial state is at least the threshold it returns exactly the requested number of results, all successful, otherwise one result with status infeasible. This also holds if the linear program of the bounds ends undetermined.", "quantifier": "for every reachability form (also with end components), threshold, mode, labels of inner states, number of iterations, weighting, both updaters and every exact solver of the rounds", "why_tests_cant": "the threshold is compared with an optimum over all schedulers; undetermined solver answers do not occur in tests", "anchors": ["switss/problem/qsheur.py: _solveiter", "switss/problem/qsheurparams.py: InverseResultUpdater, InverseResultFixedZerosUpdater", "switss/problem/formulations.py: construct_MILP, construct_indicator"]}
{"id": "C69", "title": "The heuristic decides whether a witness exists for expected rewards", "statement": "QSHeur on a reward form raises no exception; if the optimal expected reward is at least the threshold all results are successful, otherwise there is one result with status infeasible. With the updater that fixes zeros, indicators that are zero stay zero and reported values never grow.", "quantifier": "for every reward form, threshold, mode, labels of inner states, number of iterations, weighting and every exact solver of the rounds", "why_tests_cant": "the threshold is compared with an optimum over all schedulers", "anchors": ["switss/problem/qsheur.py: _solveiter", "switss/problem/qsheurparams.py: InverseResultUpdater, InverseResultFixedZerosUpdater", "switss/problem/formulations.py: construct_MILP"]}
{"id": "C70", "title": "Initializers give every group one positive weight", "statement": "Every initializer, applied to the relaxed model of a form or a reward form, returns one weight for every indicator, and all weights are positive and at most 1e9.", "quantifier": "for every form and reward form, mode, threshold, labels of inner states and every exact solver", "why_tests_cant": "all forms and label sets, including labels no state has", "anchors": ["switss/problem/qsheurparams.py: AllOnesInitializer, InverseReachabilityInitializer, InverseFrequencyInitializer, InverseCombinedInitializer"]}
{"id": "C71", "title": "solve on reward forms", "statement": "solve on a reward form returns the last result of the iteration for every non-negative threshold (also above one) if the iteration raises nothing, and raises an assertion error for negative thresholds and unknown modes.", "quantifier": "for every problem formulation, reward form, threshold, mode and labels", "why_tests_cant": "all iterations, all thresholds", "anchors": ["switss/problem/problemform.py: solve, solveiter"]}
{"id": "C72", "title": "Both solver back ends give the same results", "statement": "On a reachability form the Gurobi back end gives the same results as the PuLP back end: construct_MILP, the exact method and the heuristic return models with the same solutions and objective, raise no exception, and the exact method and the heuristic have the guarantees proved for the PuLP back end.", "quantifier": "for every reachability form, threshold, mode, labels of inner states, number of iterations, updater and every solver", "why_tests_cant": "needs a licence for Gurobi; quantifies over all forms and all solver answers", "anchors": ["switss/solver/milp.py: GurobiMILP", "switss/problem/formulations.py: construct_MILP, add_indicator_constraints", "switss/problem/milpexact.py", "switss/problem/qsheur.py"]}
{"id": "C73", "title": "Both solver back ends give the same results on reward forms", "statement": "On a reward form the Gurobi back end gives the same results as the PuLP back end, raises no exception, and the heuristic decides whether a witness exists.", "quantifier": "for every reward form, threshold, mode, labels of inner states, number of iterations, updater and every solver", "why_tests_cant": "needs a licence for Gurobi; quantifies over all reward forms, including those whose rewards are all zero", "anchors": ["switss/solver/milp.py: GurobiMILP", "switss/problem/formulations.py: construct_MILP"]}
{"id": "C74", "title": "Indicator constraints make exact minimisation possible with end components", "statement": "If the maximal probability form has end components, so that no bounds exist, the exact method with the Gurobi back end uses indicator constraints and finds a minimal witness.", "quantifier": "for every reachability form with end components, threshold and labels", "why_tests_cant": "needs a licence for Gurobi; all forms", "anchors": ["switss/problem/formulations.py: add_indicator_constraints (line 136), construct_MILP (215-218)", "switss/solver/milp.py: add_indicator_constraint"]}
{"id": "C75", "title": "GurobiMILP builds the documented problem", "statement": "GurobiMILP.from_coefficients builds the problem whose feasible points are exactly those of the inequalities, bounds and domains passed; add_constraint adds exactly the given constraint; set_objective_function replaces the objective.", "quantifier": "for all matrices, right-hand sides, domains, bounds and objectives, and all sequences of calls", "why_tests_cant": "all matrices, including empty rows and repeated variables; needs a licence for Gurobi", "anchors": ["switss/solver/milp.py: GurobiMILP.from_coefficients, add_constraint, set_objective_function, add_variables"]}
{"id": "C76", "title": "Constants reach prism", "statement": "prism_to_tra calls prism on the model with every given constant assigned its value in the -const argument, and with the path to export to; if there are no constants there is no -const argument.", "quantifier": "for every collection of constants (documented as a dictionary), all names without separators, all integer values, paths and models", "why_tests_cant": "the code is never run on dictionaries by the tests, which need prism; all collections of constants", "anchors": ["switss/prism/prism.py: prism_to_tra (65-85)"]}
{"id": "C77", "title": "Extra labels are declared in the model prism reads", "statement": "The file prism reads is the model followed by a declaration of every extra label on a line of its own, and from_prism_model loads what prism exports, or raises if prism fails.", "quantifier": "for every model text, collection of labels, and every behaviour of prism", "why_tests_cant": "needs prism; all model texts, including those without a final line end", "anchors": ["switss/prism/prism.py: prism_to_tra (68-80)", "switss/model/amdp.py: from_prism_model (218-241)"]}
{"id": "C78", "title": "Loading explicit files gives the described system", "statement": "from_file on a label file and a transition file in prism's format returns the system they describe: its states, state-action pairs, probabilities, action names and state labels. It raises an assertion error if the number of choices, a probability or a sum is wrong, and an index error if there are more choices than announced.", "quantifier": "for all files in the format: any decimal notation of the numbers, any numbering and any names of labels, any order of lines", "why_tests_cant": "all files; tests load a few examples written by the same program", "anchors": ["switss/model/amdp.py: from_file (202-216)", "switss/model/mdp.py: _load_transition_matrix (142-182)", "switss/model/dtmc.py: _load_transition_matrix (123-141)", "switss/prism/prism.py: parse_label_file (7-39)"]}
{"id": "C79", "title": "Drawings show the system", "statement": "MDP.digraph and DTMC.digraph never raise with styles that do not, and the graph has exactly one node per state that occurs in a transition and one per enabled pair, one edge from a state to each of its pairs and one edge per transition, with names that tell states and pairs apart and with the attributes the styles give.", "quantifier": "for every system built by the constructors and all style functions", "why_tests_cant": "the tests only look at whether drawing raises; quantifies over all systems and styles", "anchors": ["switss/model/mdp.py: digraph (36-116)", "switss/model/dtmc.py: digraph (42-98)", "switss/utils/graphviz_utils.py (41-111)"]}
{"id": "C80", "title": "Drawings of reduced forms show the original system", "statement": "In the drawing of a form returned by reduce, every copy of a state, pair or transition looks as the original one does in the original system, and target and fail, and what leads to them, look as set by the target and fail styles.", "quantifier": "for every system, all labels with which reduce returns, all styles", "why_tests_cant": "quantifies over all systems; the maps between old and new states and pairs matter, which examples with identity maps do not show", "anchors": ["switss/model/reachability_form.py: reduce (367), __adapt_style (433-473), set_target_visualization_style (86-98), set_fail_visualization_style (100-112)"]}
{"id": "C81", "title": "Drawings of subsystems show the certificate", "statement": "In Subsystem.digraph the states that are not in the subsystem are grey and all others look as in the system; with weights, the entry of the certificate for the state (form min, and Markov chains) or for the pair (form max) is shown below the label.", "quantifier": "for every form, certificate of either form, styles, with and without weights", "why_tests_cant": "quantifies over all systems; permuted rows and reward forms do not occur in tests", "anchors": ["switss/problem/subsystem.py: digraph (176-223)"]}
{"id": "C82", "title": "Target and fail styles are used", "statement": "The styles set for target and fail are used in drawings of the form.", "quantifier": "for every form, whether built directly or by a reduction, and all styles", "why_tests_cant": "no test compares drawings", "anchors": ["switss/model/reachability_form.py: __init__ (60-63), set_target_visualization_style (86-98), set_fail_visualization_style (100-112)"]}
{"id": "C83", "title": "Treaps and stacks are memory safe and right", "statement": "Any sequence of additions, membership tests and listings on a treap of utils/treaps.pyx, followed by freeing it, never accesses NULL, freed or foreign memory, never leaves an array, never uses uninitialised memory and never frees twice; the answers are those of a finite set and no other block changes. The same holds for stacks, which pop in reverse order of pushing and give all memory back, unless an empty stack is popped (access through NULL).", "quantifier": "all sequences of calls, all keys and random numbers, all initial memories", "why_tests_cant": "undefined behaviour need not show; the structures cannot be called from python", "anchors": ["switss/utils/treaps.pyx: add_to_treap, in_treap, treap_to_arr, free_treap", "switss/utils/stack.pyx: push, pop, freestack, ts_push, ts_pop"]}
{"id": "C84", "title": "Freeing a treap gives back its memory", "statement": "After free_treap as many blocks are allocated as before the treap was built.", "quantifier": "all sequences of calls, all keys and random numbers, all initial memories", "why_tests_cant": "leaks are not observable in results", "anchors": ["switss/utils/treaps.pyx: add_to_treap, insert, free_treap"]}
{"id": "C85", "title": "Graphs are memory safe and right", "statement": "A Graph built from a matrix and an index, then asked for successors, predecessors, reachable states and maximal end components in any order with legal arguments and finally deallocated, has no undefined behaviour, touches no foreign memory and answers what the matrix determines (edges, paths, end components). If a row has no index the constructor raises KeyError and the deallocation gives back everything; violated assertions of reachable raise before memory is touched.", "quantifier": "all matrices, indices, sequences of legal calls, random numbers, initial memories", "why_tests_cant": "pointer errors depend on the allocator and need not show", "anchors": ["switss/utils/graph.pyx: __cinit__, __dealloc__, successors, predecessors, strongconnect, strongly_connected_components, maximal_end_components, reachable"]}
{"id": "C86", "title": "Graphs give back their memory", "statement": "When a Graph is gone, as many blocks are allocated as before it was built.", "quantifier": "all matrices, indices, sequences of legal calls, random numbers, initial memories", "why_tests_cant": "leaks are not observable in results", "anchors": ["switss/utils/graph.pyx: maximal_end_components (211, 257), __dealloc__"]}
{"id": "C87", "title": "Graph calls are defined for all arguments", "statement": "Calls of successors, predecessors, reachable and maximal_end_components never lead to undefined behaviour, whatever natural numbers they are given.", "quantifier": "all matrices, indices, sequences of calls", "why_tests_cant": "reads outside of an array usually go unnoticed", "anchors": ["switss/utils/graph.pyx: successors, predecessors, maximal_end_components, reachable"]}
{"id": "C88", "title": "The rf command writes a form with the same probabilities", "statement": "switss rf ends without exception on every model with one reachable target set, changes exactly the .tra, .lab and .mapping.json file of its output, and every later command that loads the output builds a reachability form of the relevant part of the model with the same minimal and maximal probabilities of reaching the target from every state.", "quantifier": "all model files, labels, arguments, worlds", "why_tests_cant": "the tests never run the command line tool and do not compare probabilities after writing", "anchors": ["bin/switss: gen_rf (21-29), load_model (31-36), rfargs (38-61)", "switss/model/amdp.py: save, from_file", "switss/model/reachability_form.py: reduce"]}
{"id": "C89", "title": "The mapping file describes the reduction", "statement": "The four columns of the .mapping.json file that switss rf writes form a bijection between the state-action pairs of the relevant states of the model and the state-action pairs of the written form before the last two; actions and labels are kept, and so are probabilities of states that are no target.", "quantifier": "all model files, labels, arguments, worlds", "why_tests_cant": "the tests never run the command line tool", "anchors": ["bin/switss: rfargs (38-61)"]}
{"id": "C90", "title": "The minimize command stores its results", "statement": "When switss minimize ends without exception it has stored an instance with a certificate for every result of the method.", "quantifier": "all models, methods, parameters, solvers", "why_tests_cant": "the tests never run the command line tool", "anchors": ["bin/switss: minargs (63-119)"]}
{"id": "C91", "title": "The certify command judges every instance rightly", "statement": "switss certify prints one line per instance of the certificate file, in the order of the file, and VALID exactly if the certificate satisfies the Farkas constraints of the form up to the tolerance (in mode min with zero in end components); it changes no file.", "quantifier": "all forms, certificate files, thresholds in [0,1], tolerances", "why_tests_cant": "the tests never run the command line tool", "anchors": ["bin/switss: unpack_results (121-129), certargs (131-137)", "switss/certification/certificates.py: check_farkas_certificate"]}
{"id": "C92", "title": "The subsystem command labels the selected states", "statement": "switss subsystem writes, for every instance of the certificate file, the model with the subsystem label on exactly those states that the certificate selects (positive entry of the state in mode min, of one of its actions in mode max); nothing else changes.", "quantifier": "all forms, certificate files, labels, worlds", "why_tests_cant": "the tests never run the command line tool", "anchors": ["bin/switss: subsysargs (139-153)", "switss/problem/subsystem.py: subsystem_mask"]}
{"id": "C93", "title": "VALID means a bound in the original model, and every bound can be validated", "statement": "If a model is reduced with switss rf and a certificate file is then checked with switss certify, a threshold reported as VALID is a lower bound of the minimal (mode min) or maximal (mode max) probability of reaching the target in the original model; and for every such bound some certificate is reported as VALID.", "quantifier": "all models, certificate files of any content, worlds", "why_tests_cant": "this is about sequences of commands and about probabilities", "anchors": ["bin/switss: rfargs, certargs", "switss/certification/certificates.py: check_farkas_certificate"]}
{"id": "C94", "title": "An accepted certificate is off by at most a multiple of the tolerance", "statement": "For every reachability form there is a number K such that every certificate which check_farkas_certificate accepts with tolerance tol gives a bound that is off by at most K times tol: lower and upper bounds, minimal and maximal probabilities, certificates over states and (non-negative ones) over rows. The number serves all thresholds, vectors and tolerances.", "quantifier": "all forms with rows that sum to one, thresholds, vectors, tolerances", "why_tests_cant": "the tests run the check with fixed tolerances on a few vectors that solvers return; the effect of the tolerance on the bound is not measured", "anchors": ["switss/certification/certificates.py: check_farkas_certificate (70-138)"]}
{"id": "C95", "title": "The effect of the tolerance does not depend on the probabilities", "statement": "The number K of C94 depends on the number of states of the form only.", "quantifier": "all forms with rows that sum to one, thresholds, vectors, tolerances", "why_tests_cant": "the models of the tests have no rare transitions", "anchors": ["switss/certification/certificates.py: check_farkas_certificate (70-138)"]}
{"id": "C96", "title": "Rounded probabilities and the tolerance move a certified bound by a bounded amount", "statement": "A system was meant, but the form stores its probabilities with an error of at most delta (rows need not sum to one). Then a certificate with entries up to B that is accepted with tolerance tol gives a bound for the system that was meant, off by at most K times (tol + n*delta*B), where K depends on that system only and n is its number of states and rows. Every form that the constructor accepts is that close to some system.", "quantifier": "all systems, forms close to them, thresholds, vectors, tolerances", "why_tests_cant": "the tests use models with exactly written probabilities; nobody measures what rounding the numbers of a model does to certified bounds", "anchors": ["switss/certification/certificates.py: check_farkas_certificate (70-124)", "switss/model/amdp.py: __check_correctness (70-76)"]}
{"id": "C97", "title": "The check in double precision is the exact check with a slightly different tolerance", "statement": "check_farkas_certificate computes with doubles. For forms with n states and rows (n at most 2^24) and vectors with entries up to B (between 1 and 2^500), it accepts only what exact arithmetic would accept with the tolerance raised by n^2*B*2^-50, accepts all that exact arithmetic would accept with the tolerance lowered by that amount, and raises the same exceptions; in whatever order scipy stores the entries of the matrix.", "quantifier": "all forms of doubles, modes, senses, thresholds, finite vectors, tolerances, orders of the stored entries", "why_tests_cant": "rounding errors add up with the size of the model; the tests use small models and solver output far from the limit", "anchors": ["switss/certification/certificates.py: check_farkas_certificate (70-124)", "switss/model/reachability_form.py: A (52), fark_z_constraints, fark_y_constraints (495-560)"]}
{"id": "C98", "title": "A certificate accepted in double precision is off by a bounded amount", "statement": "A system was meant; a form stores its probabilities as doubles with an error of at most delta. A finite certificate with entries up to B that check_farkas_certificate (computing with doubles) accepts with tolerance tol gives a bound for the system, off by at most K*(tol + n^2*B*2^-50 + n*delta*B), where K depends on the system only.", "quantifier": "all systems, forms of doubles close to them, thresholds, vectors, tolerances, orders of the stored entries", "why_tests_cant": "it is about all inputs and about exact probabilities, which tests cannot compute", "anchors": ["switss/certification/certificates.py: check_farkas_certificate (70-124)"]}
{"id": "C99", "title": "The verdict of the check does not depend on rounding or on the order of stored entries", "statement": "check_farkas_certificate decides as exact arithmetic would with the same tolerance, and its verdict does not depend on the order in which the sparse matrix stores the entries of a row.", "quantifier": "all forms of doubles, thresholds, finite vectors, tolerances", "why_tests_cant": "needs vectors at the limit of the precision", "anchors": ["switss/certification/certificates.py: check_farkas_certificate (70-124)"]}
{"id": "C100", "title": "Vectors with infinite or undefined entries are not accepted", "statement": "check_farkas_certificate does not accept a vector with an entry that is infinite or NaN.", "quantifier": "all forms of doubles, modes, senses, thresholds, vectors, finite tolerances", "why_tests_cant": "the tests only check vectors that solvers return", "anchors": ["switss/certification/certificates.py: check_farkas_certificate (70-124)"]}
{"id": "C101", "title": "Subsystems found with an inexact solver nearly reach the threshold", "statement": "If every answer of the solver satisfies bounds, integrality and constraints of its model up to eps, then every subsystem that MILPExact or QSHeur returns has probability at least the threshold minus K*eps, where K depends on the reachability form only (not on the threshold, the labels, the number of iterations or the weights).", "quantifier": "all built forms with exact rows, thresholds, modes, label groups, tolerances, initialisers, updaters, iteration counts, solvers", "why_tests_cant": "real solvers violate constraints by amounts that tests neither control nor see", "anchors": ["switss/problem/milpexact.py: _solveiter (56-75)", "switss/problem/qsheur.py: _solveiter (80-122)", "switss/problem/formulations.py: construct_MILP (162-255)", "switss/solver/milp.py: from_coefficients"]}
{"id": "C102", "title": "The value of exact minimisation with an inexact solver", "statement": "The value that MILPExact reports is the number of groups of the returned subsystem, and no subsystem that reaches the threshold has fewer, also if the solver is correct only up to a tolerance.", "quantifier": "all built forms, thresholds, modes, label groups, tolerances, solvers", "why_tests_cant": "needs an answer with a positive entry below the tolerance whose indicator is zero", "anchors": ["switss/problem/milpexact.py: _solveiter (56-75)", "switss/problem/formulations.py: add_indicator_constraints (108-160), construct_MILP (162-255)", "switss/model/subsystem.py"]}
{"id": "C103", "title": "Benchmark data: times and files", "statement": "Every entry of a benchmark run has one wall time and one process time per value, those of the arrival of the result; with json_dir the file of each pair of method and mode contains the data that are returned, other files are untouched, and a run that raises writes no file.", "quantifier": "all forms, methods, modes, thresholds, clocks, folders", "why_tests_cant": "the tests do not cover benchmarks", "anchors": ["switss/benchmarks/benchmarks.py: run (14-138)", "switss/problem/problemform.py: __repr__ (106-108)", "switss/problem/tree_algo.py: details (16-22)"]}
{"id": "C104", "title": "Every benchmark run can be drawn", "statement": "render draws every run that run returns: for each index of a result (or the last one) the points are the thresholds and the values of the run, in units of 1000 if normalized; in the time modes the last times.", "quantifier": "all runs, plot modes, plot numbers, timeout values", "why_tests_cant": "plots are not tested; needs runs with failures", "anchors": ["switss/benchmarks/benchmarks.py: render (140-240)"]}
{"id": "C105", "title": "The documented ways to build linear models work", "statement": "A MILP or LP built from coefficients given as lists, arrays or sparse matrices, or by hand with add_variables, add_constraint and set_objective_function called as in the documentation, has exactly the intended feasible points and objective; without an objective (opt=None) a model without objective is built.", "quantifier": "all matrices, vectors, domains, bounds, constraints and objectives, passed in every documented form", "why_tests_cant": "the tests build models only from sparse matrices through the library", "anchors": ["switss/solver/milp.py: MILP.add_variables (175-183), MILP.from_coefficients (208-266), LP.from_coefficients (304-330), LP.add_variables (332-340)", "switss/utils/casting.py: cast_dok_matrix"]}
{"id": "C106", "title": "Certificate generation decides threshold claims", "statement": "generate_farkas_certificate returns a certificate if and only if the claim 'Pr-min/Pr-max is <=, <, >=, > t' is true of the reachability form (with a correct LP solver), and it never raises; with a tolerance, claims that are certified are off by at most a multiple of the tolerance.", "quantifier": "all built reachability forms, modes, senses, thresholds in [0,1], tolerances and correct solvers", "why_tests_cant": "needs the linear program of find_interior_point with its slack variable, optimality for every solver and the connection to extremal probabilities", "anchors": ["switss/certification/certificates.py: find_interior_point, generate_farkas_certificate, check_farkas_certificate"]}
{"id": "C107", "title": "Reward reachability forms made directly of systems", "statement": "RewardReachabilityForm.assert_system_consistency passes exactly for systems with rewards that are in reward reachability form (one initial and one target state, the target last and with only a loop, everything reachable from the initial state and reaching the target, no other state in an end component); for such systems fromsystem returns the form with these rewards.", "quantifier": "all built systems with rewards, label pairs and random priorities", "why_tests_cant": "needs graph reachability and end components of every system; fromsystem has no test", "anchors": ["switss/model/reward_reachability_form.py: fromsystem, assert_system_consistency"]}
{"id": "C108", "title": "Certificates of reward forms", "statement": "For reward reachability forms, check_farkas_certificate accepts only right certificates for 'minimal/maximal expected reward is <=, <, >=, > t', every true claim has an accepted one, and generate_farkas_certificate (with a correct LP solver) finds one if and only if the claim is true and never raises; with a tolerance the claims accepted are off by at most a multiple of it.", "quantifier": "all reward forms made by reduce, modes, senses, thresholds, vectors, tolerances and correct solvers", "why_tests_cant": "needs Farkas-type duality for expected rewards over all schedulers and optimality for every solver; certificates of reward forms have no test", "anchors": ["switss/certification/certificates.py: check_farkas_certificate, generate_farkas_certificate", "switss/model/reward_reachability_form.py: fark_z_constraints, fark_y_constraints, in_proper_ec"]}
{"id": "C109", "title": "The render command draws the model", "statement": "switss render ends without exception on every model that can be loaded and writes a picture that shows exactly the states, actions, probabilities and labels of the model; two states have the same colour if and only if they have the same labels (of those given by --coloring, if any); no other file is changed.", "quantifier": "all stored models of both kinds, outputs, colourings and contents of the file system", "why_tests_cant": "the drawing has no test; label sets, colourings and file systems cannot be enumerated, and the collision of colours needs more labels than there are colours", "anchors": ["bin/switss: renderargs", "switss/utils/graphviz_utils.py: color_from_hash, std_state_map", "switss/model/mdp.py: digraph", "switss/model/dtmc.py: digraph"]}
{"id": "C110", "title": "Solvers correct up to a tolerance, on reward forms", "statement": "For every reward form there is a factor K such that, if the solver's answers satisfy bounds, integrality and constraints up to eps, every subsystem that MILPExact or QSHeur returns on the form has an expected reward of at least the threshold minus K*eps.", "quantifier": "all reward forms, thresholds, modes, labels, tolerances, answers, initializers, updaters and iteration counts", "why_tests_cant": "the distance between a point that satisfies the rows up to eps and an expected reward depends on how long the form can be travelled; no finite set of answers bounds it", "anchors": ["switss/problem/milpexact.py: _solveiter", "switss/problem/qsheur.py: _solveiter", "switss/problem/formulations.py: construct_MILP", "switss/model/reward_reachability_form.py: fark_z_constraints, fark_y_constraints"]}
{"id": "C111", "title": "The value of exact minimisation with an inexact solver, on reward forms", "statement": "If the solver's answers satisfy bounds, integrality and constraints up to eps, the value that MILPExact reports on a reward form is the number of groups that the returned certificate touches, and no subsystem whose expected reward reaches the threshold touches fewer.", "quantifier": "all reward forms, thresholds, modes, labels, tolerances and answers", "why_tests_cant": "tests use one solver with its default tolerance; the difference only shows for entries below the tolerance", "anchors": ["switss/problem/milpexact.py: _solveiter", "switss/problem/formulations.py: construct_MILP, compute_upper_bounds", "switss/model/reward_reachability_form.py: fark_z_constraints, fark_y_constraints"]}
{"id": "C112", "title": "Editing the constraints of Gurobi models", "statement": "A number returned by GurobiMILP.add_constraint stands for that constraint until it is removed: remove_constraint removes exactly it, numbers are not given out twice, removed or unknown constraints cannot be edited, and add_to_constraint adds coeff times the variable to its left hand side.", "quantifier": "all sequences of calls that add variables, constraints and objectives, change and remove constraints, and all points", "why_tests_cant": "nothing in the library or its tests calls these methods, and gurobipy needs a licence; sequences of calls are unbounded", "anchors": ["switss/solver/milp.py: GurobiMILP.add_constraint, GurobiMILP.add_to_constraint, GurobiMILP.remove_constraint"]}
