# Formal model of switss: design

Subject: `/repo` (simonjantsch/switss at the pinned commit), read as text.
The model is in `rocq/theories` (logical name `Verif`, Coq 8.16.1).

## 1. Modelling decisions

* **Shallow model.** Each modelled python/cython function is a total Gallina
  function that follows the source branch by branch. Exceptions are values
  (`Err AssertionError`, `Err KeyError`, `Err StopIteration`, ...). An out of
  bounds access of a C array is the value `Err OutOfBounds`. Loops whose
  termination is not structural take fuel; running out of fuel is a separate
  value and termination is a theorem (enough fuel is always enough).
* **Numbers.** Probabilities, rewards, certificates, thresholds are exact
  rationals (`Q`). Floating point rounding is *not* modelled except for C54
  (two row computations) and C97 to C100 (the certificate check), which use the
  binary64 numbers of Flocq. `np.round(x,9)` and `"%f"` are modelled as exact half-to-even
  rounding of the rational.
* **Sparse matrices** (`dok_matrix`) are insertion ordered association lists
  from (row, column) to `Q` with a shape; assigning 0 deletes. Derived dense
  data (`A`, constraint matrices) are lists of rows.
* **Sets / dicts.** python dicts are insertion ordered association lists,
  sets are duplicate free lists; where iteration order is observable the
  theorem quantifies over the order or says so.
* **rand()** in treaps is an arbitrary function `nat -> Z` (the k-th call
  returns `rnd k`); theorems quantify over it.
* **LP/MILP solvers** are arbitrary functions from models to results.
  Theorems that need it assume `exact_solver` / `sound_solver`
  (optimal means optimal over the reals, infeasible means no real solution).
  This is a hypothesis of the theorem, never an axiom.
* **Semantics of probabilities** (the specification) is in `Spec*.v` and does
  not use the model: an MDP over the reals, history dependent randomised
  schedulers, n-step reachability probability by recursion on n, the
  probability of reaching as least upper bound over n, Pr-min and Pr-max as
  greatest lower/least upper bound over all schedulers; paths, end components,
  subsystems as predicates on sets of states.
* Model files contain no proofs; proof files contain the lemmas; files named
  `P_*.v` contain only property theorems closed by `exact`, each followed by
  `Print Assumptions` and accompanied by an `Example` showing that its
  hypotheses are met by a concrete non-trivial case.

## 2. Properties and approach

Status words: *prove* = full statement; *prove/refute* = the English claim is
false of the code: a witness theorem `..._refuted` is proved, together with
the strongest corrected statement (`..._partial`).

| id | what is modelled | how it is proved |
|---|---|---|
| C01 | `InvertibleDict` as pair (dict, optional inverse dict), operation language on both views | invariant over operation lists |
| C02 | heap model with shared set cells | refute by a two-object witness; prove independence when the cells are fresh |
| C03 | treap insert/split/size/array functions | invariants by induction on the tree, quantified over priorities |
| C04 | loop of `treap_from_arr` with fuel | refute: for every fuel the loop does not finish on a non-empty array |
| C05 | `Graph.__cinit__`, `add_successor`, neighbour queries | induction on the item list |
| C06 | worklist search with fuel | loop invariant, fuel bound N + number of starts |
| C07 | Tarjan with treap based bad-action sets | invariant proof on the recursion (white/grey/black, stack, low links) |
| C08 | worklist of node sets | invariant: every end component stays inside one set; termination measure |
| C09 | properness loop, `is_ec_free`, `in_proper_ec` | from C08 plus self-loop analysis |
| C10 | constructors and `__check_correctness` | case analysis; rounding lemma |
| C11 | `assert_consistency` | equivalence with an independent predicate, uses C05, C06 |
| C12 | `reduce`, `__initialize_system` | induction over the building loops, uses C06, C10, C11 |
| C13 | same | scheduler-free value iteration on both sides, relation of Bellman operators |
| C14 | same | lookup lemmas on the built lists |
| C15 | same | case analysis of the error branches |
| C16 | `fark_*_constraints` | matrix algebra on lists |
| C17, C18 | heap model of the cached vectors | invariant over call sequences; refute C18 by witness |
| C19 | `check_farkas_certificate` | maximal-difference argument and end components (C08, C09) |
| C20 | same | z >= 0 follows from reachability of target; induction on n |
| C21, C22 | same | refute (missing sign check); prove for non-negative vectors by weak duality |
| C23 | same | refute with default tolerance; prove for zero tolerance |
| C24 | same | value vectors for z; Farkas lemma (proved here) for y; refute the Pr-min <= t case if it fails because of end components |
| C25 | `generate_farkas_certificate`, `find_interior_point` with a solver oracle | case analysis |
| C26 | same | prove z case; refute y case |
| C27, C28 | LP built by `max_z_state`, `pr_max` | LP optimum equals Bellman value (C19/C20 arguments) |
| C29 | `max_y_state` | refute (initial entry is one too large) |
| C30 | `Subsystem.subsys` | lookup lemmas |
| C31 | same | comparison of value iterations |
| C32 | same | restriction of the certificate, weak duality / C19 |
| C33, C34 | same | refute by witness; partial positive results |
| C35-C37 | `MILP` as list based model | feasible set equality; refute C36, C37 for the pulp back end |
| C38 | `construct_MILP`, `add_indicator_constraints`, `groups_from_labels`, `AllOnesInitializer` | constraint by constraint |
| C39 | `MILPExact` min | C32 plus: Pr-min vector of a subsystem is feasible |
| C40, C41 | `MILPExact` max, `compute_upper_bounds` | Farkas lemma on the subsystem, bounds from the LP optimum |
| C42, C43 | `QSHeur._solveiter` with arbitrary solver / updater | induction over iterations |
| C44 | updaters / initializers | arithmetic; refute the frequency initializer |
| C45, C46 | `solve`, `TreeAlgo` as generators (lists of results) | case analysis; refute C46 |
| C47 | `increase_iterator` | prove for at most one successor; refute for two |
| C48, C49 | `save`, `_load_transition_matrix` of both classes, `parse_label_file`, `from_file` on files as character sequences (Files.v) | printing and reading of numbers are inverse up to six decimals; lines split at the written separators; loader loop invariant; refute exactness because of `%f` and of quotes in labels, and C49 |
| C50 | `choice_model_from_stormpy` on an abstract sparse storm model (Storm.v) | loop invariant over all actions; refute the choice labels (off by one) for every model |
| C51 | `benchmarks.run` | induction over thresholds |
| C52 | `RewardReachabilityForm`: `fark_z_constraints`, `max_z_state`, `rew_min`, `rew_max` (RewardForm.v); expected rewards in SpecReward.v | optimality equations have one solution on end-component-free forms (RewTheory.v); the LP optimum solves them |
| C53 | `quotient` | induction on edges |
| C54 | row computations in IEEE doubles (FloatRow.v) | no overflow; the fail entry is the rounded difference, non-zero iff the sum is not one; sum with the fail entry is within 1e-12 of one, so rounding to nine decimals gives one; error bound by induction over the additions; refuted by two rows |
| C55 | `max_z_state_action`, `max_y_state_action` | as C27/C28 plus existence of the optimum |
| C56 | whole of `tree_decomp.pyx` with oracles for dgesv, topological sort, convex hull, clock; models of the formula as all satisfying sets | one part: equivalence of the models with plausible sets, uniqueness of the linear system, shrinking a witness to a plausible one; two parts: refute by computation, minimum by a verified brute force; timeouts: induction over the loops |
| C57 | label dictionaries and `index_by_state_action` | invariant of C01 |
| C58 | `RewardReachabilityForm.reduce`, `assert_reachform_consistency` | the check is equivalent to the conditions on the form; transported along the reduction of C12-C14 |
| C59 | as C58 | partial: the optimality equations are transported along the reduction; refuted for target states with rewards by a two-state chain |
| C60 | `from_stormpy`, `from_stormpy_model` of both classes (Storm.v) | same loop invariant; refute for DTMCs (wrong number of arguments) |
| C61 | as C38-C41 with `labels` given | one generic minimality lemma for models with binary indicators of groups (GenMin.v), groups by label; labels of target and fail run outside the vector of bounds |
| C62, C63 | `construct_MILP`, `MILPExact` on reward forms (RewProblems.v) | certificates of rewards: a witness gives a point of the polytope supported on it (mode max by Farkas' lemma) and conversely; then the generic minimality lemma; refute mode max without labels (missing attribute) |
| C64 | `compute_upper_bounds` on reward forms | boundedness by a ranking function, closure of the z-polytope under maxima; refute for undetermined answers (rewards bounded by 1) |
| C65 | `QSHeur` on reward forms | loop invariant of C42 with the polytope of rewards |
| C66 | `Subsystem.subsys` up to line 127 on reward forms | total up to the missing attribute |
| C67 | `max_z_state_action`, `max_y_state_action`, `max_y_state` of reward forms (RewardForm.v) | from C52 and the duality used for C62; refute the initial entry |
| C68 | `qs_run` with `fixed_zeros`, `inverse_result` (Problems.v) | a solution of one round stays feasible, the objective is bounded below, so every round has an optimum; a point of the polytope extends to a solution of the relaxed model, also without bounds |
| C69 | `rr_qs_run` (RewProblems.v) | as C68 and C43, over the polytope of C62 |
| C70 | initializers (Problems.v, RewProblems.v) | from C27, C55, C52, C67 the vectors have the length of the certificate; refute empty labels |
| C71 | `rr_solve`, `rr_solveiter` (RewProblems.v) | by cases |
| C72 | Gurobi.v: GurobiMILP, `g_construct_milp`, `g_milp_exact`, `g_qs_run` | simulation: every model built through Gurobi has the same rows, bounds and objective as the one built through PuLP, so a run can be replayed with the other back end; refuted for unit loops in mode min (a row of `I - P` is empty, `sum([]) <= b` is a truth value) |
| C73 | Gurobi.v: `g_rr_construct_milp`, `g_rr_milp_exact`, `g_rr_qs_run` | the same simulation; refuted in mode max if all rewards are zero |
| C74 | `g_add_indicator_constraints` (Gurobi.v) | refuted: `model.isinstance` is an AttributeError on the only path without bounds |
| C75 | `g_from_coefficients`, `g_add_constraint`, `g_set_objective` (Gurobi.v) | feasible points characterised by the semantics of SpecMilp; refuted without lower bounds (gurobipy's default is 0) |
| C76 | `prism_call` (Prism.v) | the `-const` argument read by an independent grammar (SpecPrism); refuted for dictionaries, whose iteration gives names |
| C77 | `prism_call`, `prism_to_tra`, `from_prism_model` (Prism.v), prism an oracle | the file read as lines by SpecPrism; refuted for models without a final line end |
| C78 | `from_file`, `load_mdp`, `load_dtmc`, `parse_label_file`, `read_float` (Files.v) | the texts are described by an independent grammar (SpecTra: numbers with exponents, words, rows); the loader is shown to invert it |
| C79 | `digraph`, `draw_mdp`, `draw_dtmc`, standard styles (Draw.v) | a graph is the list of its statements; invariant of the loop over transitions (nodes, edges and their names so far), injectivity of decimal names and of `s-a` |
| C80 | `reduce_styled`, `adapt_style`, `set_target_style`, `set_fail_style` (Draw.v) | C79 on the reduced system, and the inverse maps of C14 |
| C81 | `sub_digraph`, `rr_sub_digraph` (Draw.v) | C79 with the maps of subsystem.py, the mask of C29; refuted for chains with permuted rows |
| C82 | `style_form` (Draw.v) | refuted: the visualisation of a system given to the constructor does not refer to the form |
| C83 | `c_add`, `c_in_treap`, `c_treap_to_arr`, `c_free_treap`, `c_push`, `c_pop` (HeapTreap.v); programs that call them (HeapClient.v) | memory is a list of typed blocks with faults (Heap.v); a linear separation logic over it (HeapLogic.v, an instance of Iris' `bi`) with weakest preconditions, then adequacy; the values are those of Treap.v |
| C84 | the same | the logic counts lost blocks (`junk`), so the number of live blocks is exact; refuted by adding a key twice |
| C85 | `c_graph`, `c_dealloc`, `c_neighbours`, `c_reachable`, `c_scc`, `c_mec` (HeapGraph.v) | representation predicates of the node array; each function refines its model in Graph.v, Scc.v, Mec.v; answers by C05 to C09 |
| C86 | the same | lost blocks counted as in C84; refuted by the arrays of each round of the loop of end components |
| C87 | the same | the first access outside is reached after the legal part of the session; refuted by any index that is no state |
| C88 | Cli.v (bin/switss: load_model, gen_rf, rf, info, minimize, certify, subsystem) over a file system | what from_file returns is a built system; reduce (C12, C13) and the round trip of files (C48) composed; refuted by a chain with a probability of 1e-7 |
| C89 | the same | the mapping of reduce written column by column; pairs and probabilities of the reloaded form; refuted for probabilities that six decimals do not hold, by the run of C88 |
| C90 | the same, with Problems.v and Gurobi.v | no method accepts the keyword mode, so the first result raises; refuted for all arguments |
| C91 | the same, with Certificates.v | the loop over the instances; check_farkas characterised by its constraints |
| C92 | the same, with Subsystem.v | the label added to a copy, files of each instance as in C88; refuted by deepcopy of the graph |
| C93 | the same | C88 with C19, C21, C24 on the reloaded form; refuted by a threshold within the tolerance and by a negative entry; with a tolerance the bound is off by K·tol (C94) |
| C94 | the same `check_farkas` with any tolerance | TolTheory.v: a potential that drops by one in every step outside a set that meets all end components; for lower bounds of Pr-min it is subtracted from the vector, for upper bounds of Pr-max it is built on the chain of an optimal policy that reaches the target; weak duality for the flow certificates |
| C95 | the same | weak duality gives factor n + 1 for flow certificates; refuted for certificates over states by a chain that leaves its state with probability 1/100000 |
| C96 | the same, with `near` (SpecNear.v) relating the numbers of the form to a system that was meant | the rows of the check are compared with those of the system (error at most n·delta·B each), then C94 on the system; existence: rows divided by their sums |
| C97 | `fcheck` (FloatCheck.v): the matrices I - P, the product with the vector (stored entries in any order) and the comparisons in IEEE doubles | relative error of every operation (Flocq), at most n operations per row: 6n²·B·2^-53 for the product, the rest for A and the tolerance; both checks take the same branches |
| C98 | the same with `near` | C97 and C96 |
| C99 | the same | refuted by vectors that differ from the limit by one unit in the last place; partial from C97 twice and monotonicity in the tolerance |
| C100 | the same | a non-finite entry of an inner state makes the line of the state, of a predecessor or of the initial state infinite with the wrong sign or NaN; refuted by a loop (coefficient zero is not stored), a row to fail, and a row 1 + 2^-40 |
| C101 | MILPExact, QSHeur; SpecSlack.v states feasibility up to eps | the built models contain every Farkas row, bound and indicator row (SlackProofs.v); a point that violates the rows of the restricted form by eps is off by at most K*eps from a value (SlackTheory.v) |
| C102 | the same | indicators are rounded to integers, an entry above eps*(1+bound) forces its indicator to one; minimality by comparison with the exact answers of C39, C40 and C61 (SlackProofs3.v, NumLabels.v); refuted by a chain with an entry of size eps |
| C103 | `run` with clock and folder (BenchRun.v) | the run without times is that of C51; induction over thresholds and pairs; distinct names from distinct printed forms; refuted by two tree algorithms |
| C104 | `render` (BenchRun.v) up to the calls of `ax.plot` | entries of MILPExact and QSHeur have equally many values; refuted by an empty run and a timeout |
| C105 | arguments of the solver classes and `cast_dok_matrix` (SolverApi.v) | casting gives the dense matrix, then C35; by hand from the lemmas of C35; refuted by the calls of the documentation |
| C106 | the linear program of `find_interior_point` (Certificates.v) | its points are the vectors with slack (GenFark.v); optimal slack is at most the tolerance by scaling; extremal values are points with slack 0; then C19-C24, C94; refuted by a form with pinned rows and by strict claims |
| C107 | `assert_system_consistency`, `fromsystem` (RewardSys.v) | each assertion read off as a condition of the specification (reachability and components from C05-C09); reduction keeps all states; refuted for `fromsystem` (AttributeError) |
| C108 | `certificates.py` on reward forms (RewCert.v) | rows as real inequalities (RewCertProofs.v); sub- and supersolutions bound the extremal reward, with slack by a ranking function; rational points by Farkas; generation as in C106 (RewCertGen.v); refuted for thresholds above 1, upper bounds on the minimum, negative entries |
| C109 | `renderargs` of `bin/switss` (RenderCmd.v); the library graphviz, dot and md5 are arbitrary functions | drawings by C79; sorted lists of strings are unique; splitting at commas inverts joining; refuted by an output that names the model and by 144 labels (pigeonhole) |
| C110 | MILPExact, QSHeur on reward forms (RewProblems.v); SpecRewSlack.v | the built models contain every row and bound (RewSlackProofs.v); lowering a point by eps times a ranking function gives an exact sub-solution (z); flow balance against the least super-solution, itself below a multiple of the ranking function (y) (RewSlackTheory.v) |
| C111 | MILPExact on reward forms | refuted by a form with two states whose second entry is tolerated; near-integral indicators are counted by rounding (SlackProofs3.v, RewNum.v); minimality by comparison with the exact answers of C62 and C63, for labels in both modes in NumLabels.v |
| C112 | GurobiMILP.add_to_constraint, remove_constraint (GurEdit.v) | a ledger of demands is kept beside the model (SpecGurEdit.v), invariant over all sequences of calls; refuted by one variable with coefficient one |

## 3. Trusted base

* Coq 8.16.1 kernel (and `coqchk`), `vm_compute`.
* Axioms: those reported by `Print Assumptions` beneath each theorem, listed in
  section 5 (only standard library).
* The hand translation from python/cython to Gallina; each definition cites
  file and lines and says where it simplifies.
* The specifications in `Spec*.v`.
* Behaviour of numpy, scipy, bidict, PuLP, graph_tool, dd as described in the
  comments; not verified.
* Hypotheses about external programs, which appear in the theorems that use
  them: exact or sound answers of LP/MILP solvers (`exact_answer`,
  `sound_answer`, `sized`), the oracles of the tree decomposition (linear
  systems, topological sort, convex hull, clock).  Existence of exact answers
  is proved (LpExists.v, BinExists.v), so the hypotheses can be met.
* The behaviour of gurobipy that Gurobi.v assumes, listed in its header:
  `addVar` has lower bound 0 by default, binary variables are in 0..1, `sum`
  adds coefficients of repeated variables, `addConstr` rejects truth values,
  `setObjective` replaces the objective.
* The program prism is an oracle from its arguments and input file to the
  exported files or a failure (`outcome` in Prism.v); that it is in the path and
  that temporary files can be written is assumed.
* A drawing is the list of statements given to graphviz.Digraph; its layout is
  graphviz's.  Colours (from md5) and the formatting of numbers (`formats` in
  Draw.v) are arbitrary functions; styles are functions that return new
  dictionaries.
* The C memory of Heap.v: malloc never fails and never reuses an address, blocks
  are accessed with the type they were allocated with, C integers do not
  overflow, indices are not negative.  Its separation logic is a definition
  (an instance of Iris' interface), not an assumption.
* The world of Cli.v: a file system from names to texts or json values (json.dump
  and json.load are inverse to each other), verdicts printed in order.  int(),
  float(), str.format, the solvers and copy.deepcopy are the oracles of the
  record `env`; `cython_deepcopy` is what Cython generates for classes with
  pointers.
* Probability statements assume rows that sum exactly to one (`exact_rows`).
  The constructor only checks the sum rounded to nine decimals.

## 4. What is modelled and what is not

| source (below `switss/`) | modelled in | not modelled |
|---|---|---|
| `utils/invertible_dict.py` | InvDict.v, AliasDict.v (sharing of sets) | `__repr__` |
| `utils/treaps.pyx` | Treap.v; with memory: Heap.v, HeapTreap.v | `printf`; `treap_from_arr` and the test functions with memory |
| `utils/graph.pyx` | Graph.v, Scc.v, Mec.v; with memory: HeapGraph.v | reference counts of python objects; `strongly_connected_components` alone cannot be called from python (cdef) |
| `utils/stack.pyx` | lists, in Scc.v; with memory: HeapTreap.v | |
| `model/amdp.py`, `mdp.py`, `dtmc.py` | Amdp.v, Files.v, Storm.v, Prism.v, Draw.v (`digraph`) | `__repr__` |
| `model/reachability_form.py` | ReachForm.v, Reduce.v, FarkCache.v (cached vectors), RfLps.v, Draw.v (styles) | printing |
| `model/reward_reachability_form.py` | RewardForm.v, RewardSys.v | printing |
| `certification/certificates.py` | Certificates.v (exact numbers), RewCert.v (reward forms), FloatCheck.v (the check in doubles) | printing; the generation of certificates in doubles |
| `problem/subsystem.py` | Subsystem.v, RewProblems.v (reward forms), Draw.v (`digraph`) | `__repr__` |
| `solver/milp.py`, `solverresult.py` | Milp.v, SolverApi.v (kinds of arguments), Gurobi.v and GurEdit.v (GurobiMILP) | negative numbers of constraints, Gurobi's delayed updates, logging, the solver process |
| `problem/formulations.py` | Formulations.v, RewProblems.v (reward forms), Gurobi.v (the Gurobi back end) | - |
| `problem/problemform.py`, `problemresult.py`, `milpexact.py`, `qsheur.py`, `qsheurparams.py` | Problems.v, RewProblems.v (reward forms), Gurobi.v (the Gurobi back end) | visualisation, timeouts (they only change the answers of the solver) |
| `problem/tree_algo.py`, `utils/graph_utils.py`, `utils/tree_decomp.pyx` | Tree.v, TreeDecomp.v | BDD internals: a formula is the set of its satisfying assignments, `pick_iter` enumerates all of them in an arbitrary order; oracles for dgesv, topological sort, convex hull, clock |
| `benchmarks/benchmarks.py` | Benchmarks.v, BenchRun.v (times, files, curves) | console, json encoding, markers, axes and titles of plots |
| `prism/prism.py` | Files.v, Prism.v | the program prism (an oracle), temporary files and their deletion |
| `utils/graphviz_utils.py` | Draw.v, RenderCmd.v (sorting of labels) | colours (an oracle) |
| `bin/switss` | Cli.v, RenderCmd.v (`render`) | the text in graphviz's language and the picture (oracles), `--view`, parsing of the command line (the arguments are a record), texts that are printed, paths of files other than names |
| `utils/casting.py` | SolverApi.v | empty lists, more than two dimensions, types of numbers |

Simplifications that matter for reading a theorem:

* numbers are exact rationals, so no theorem (except C54, C97 to C100 and the
  single precision threshold of C56) speaks about rounding; 32-bit overflow is not
  modelled;
* `next(iter(s))` on a one-element set is its element; on other sets the order
  is that of insertion;
* calls of the solver made by the QS heuristic are recorded in the result
  (`qs_run`), a ghost component that no code reads;
* a file is the list of its characters, with codes below 256; opening, closing
  and encodings are not modelled.

## 5. Axioms per theorem

As printed by `Print Assumptions` beneath each theorem. No axiom is added by
this development; all come from Coq's standard library.

**None (closed under the global context)**

`C10_mdp_constructor`, `C10_mdp_contents`, `C10_dtmc_constructor`, `C57_label_views`, `C57_add_label`, `C57_actions_by_state`, `C105_domains`, `C105_lp_partial`, `C105_lp_rows_refuted`, `C105_no_objective_refuted`, `C105_hand_refuted`, `C105_lp_hand_refuted`, `C51_entries_partial`, `C51_methods`, `C51_range_refuted`, `C25_generated_checked`, `C26_pinned_refuted`, `C26_pinned_partial`, `C88_rf_command_refuted`, `C89_mapping_file_refuted`, `C90_minimize_stores_nothing`, `C90_minimize_refuted`, `C91_certify_verdicts`, `C92_subsystem_files_partial`, `C92_subsystem_files_refuted`, `C01_invertible_dict_consistent`, `C02_refuted`, `C02_partial`, `C03_treap_is_set`, `C04_refuted`, `C04_diverges_on_every_nonempty_array`, `C71_reward_solve`, `C71_reward_solve_rejects`, `C79_draw_mdp`, `C79_draw_dtmc`, `C79_draw_standard`, `C79_drawn_states`, `C81_subsystem_mdp_partial`, `C81_subsystem_dtmc_partial`, `C81_subsystem_refuted`, `C82_direct_partial`, `C82_styles_refuted`, `C07_scc_exact`, `C08_mec_exact`, `C08_mec_terminates`, `C09_proper_flag`, `C48_roundtrip_partial`, `C48_rounded_partial`, `C48_lossless_refuted`, `C48_probabilities_refuted`, `C48_labels_refuted`, `C49_kept_partial`, `C49_kept_refuted`, `C05_neighbours_mirror_matrix`, `C05_graph_builds`, `C06_reachable_exact`, `C06_reachable_terminates`, `C06_bad_arguments_rejected`, `C83_treap_sessions`, `C83_stack_sessions`, `C83_empty_stack`, `C84_treap_released_refuted`, `C84_treap_released_partial`, `C85_graph_sessions`, `C85_assertions_first`, `C86_graph_released_refuted`, `C86_graph_released_partial`, `C87_calls_defined_refuted`, `C87_calls_defined_partial`, `C44_result_updater`, `C44_reachability_initializer`, `C44_frequency_initializer_partial`, `C45_solve_last`, `C45_solve_rejects`, `C45_solve_has_result`, `C29_max_y_state_partial`, `C37_removable_refuted`, `C37_number_never_removable`, `C37_removable_partial`, `C76_constants_partial`, `C76_dictionary_partial`, `C76_dictionary_refuted`, `C77_labels_partial`, `C77_labels_refuted`, `C77_dictionary_partial`, `C11_consistency_exact`, `C11_form_built`, `C11_form_contents`, `C09_ec_free_exact`, `C09_in_proper_ec_exact`, `C16_z_constraints_meaning`, `C16_y_constraints_meaning`, `C16_constraints_defined`, `C17_history_independent`, `C18_rhs_stays_valid_refuted`, `C18_rhs_stays_valid_partial`, `C103_times`, `C103_files`, `C103_many_partial`, `C103_overwritten_refuted`, `C104_states_partial`, `C104_times_partial`, `C104_exact_partial`, `C104_qs_partial`, `C104_short_refuted`, `C109_render_partial`, `C109_same_colour`, `C109_keeps_model`, `C109_render_refuted`, `C109_colours_refuted`, `C107_consistency_exact_partial`, `C107_fromsystem_refuted`, `C50_choice_model_partial`, `C50_choice_labels_refuted`, `C60_read_mdp`, `C60_read_dtmc_refuted`, `C60_rows_dtmc_partial`, `C30_subsystem_induced`, `C33_max_materialise_refuted`, `C33_inexact_rows_refuted`, `C34_action_labels_refuted`, `C34_action_labels_partial`, `C78_mdp`, `C78_overflow`, `C78_dtmc`, `C77_prism_model_partial`, `C46_success_partial`, `C46_timeout_refuted`, `C46_infeasible_raises`, `C47_counter_partial`, `C47_counter_refuted`, `C53_quotient`, `C56_timeout_partial`.

**`ClassicalDedekindReals.sig_forall_dec`, `FunctionalExtensionality.functional_extensionality_dep`**

`C105_forms_partial`, `C105_hand_partial`, `C105_twice_refuted`, `C26_lp_built`, `C89_mapping_file_partial`, `C69_shrink`, `C80_reduced_mdp`, `C80_reduced_dtmc`, `C80_styles`, `C81_reward_mdp_partial`, `C81_reward_dtmc_partial`, `C81_raises_partial`, `C112_edits_partial`, `C112_adds_refuted`, `C112_adds_partial`, `C72_same_results_partial`, `C72_runs_partial`, `C72_exact_partial`, `C73_same_results_partial`, `C73_runs_partial`, `C73_exact_partial`, `C73_no_rewards_partial`, `C74_end_components_partial`, `C75_feasible_set_partial`, `C75_feasible_set_refuted`, `C75_defined`, `C75_constraint_added`, `C75_objective_replaced`, `C42_zero_iterations_refuted`, `C43_shrinks`, `C44_frequency_initializer_refuted`, `C35_feasible_set`, `C35_defined`, `C36_objective_replaced_refuted`, `C36_objective_replaced_partial`, `C96_every_form_is_near`, `C12_reduce_form`, `C14_reduce_maps`, `C15_reduce_raises`, `C104_empty_refuted`, `C111_reported_number_refuted`, `C111_counted_partial`, `C66_subsystem_partial`, `C67_max_y_state_partial`, `C58_reduce_succeeds`, `C58_reduce_contents`, `C102_reported_number_refuted`, `C102_counted_partial`, `C33_min_materialise_refuted`, `C33_materialise_check_partial`.

**`ClassicalDedekindReals.sig_forall_dec`, `ClassicalDedekindReals.sig_not_dec`, `FunctionalExtensionality.functional_extensionality_dep`**

`C20_max_le_sound`, `C20_max_lt_sound`.

**`ClassicalDedekindReals.sig_forall_dec`, `Classical_Prop.classic`, `FunctionalExtensionality.functional_extensionality_dep`**

`C72_unit_loop_partial`, `C42_answers_exist`, `C43_never_fails`, `C61_outer_labels`, `C38_indicators`, `C108_total_partial`.

**`ClassicalDedekindReals.sig_forall_dec`, `ClassicalDedekindReals.sig_not_dec`, `Classical_Prop.classic`, `FunctionalExtensionality.functional_extensionality_dep`**

`C19_min_ge_sound`, `C19_min_gt_sound`, `C21_max_ge_sound_refuted`, `C21_max_ge_sound_partial`, `C21_max_gt_sound_partial`, `C22_min_le_sound_refuted`, `C22_min_le_sound_partial`, `C22_min_lt_sound_partial`, `C23_strict_refuted`, `C23_strict_partial`, `C24_complete_refuted`, `C24_complete_partial`, `C88_rf_command_partial`, `C93_rf_certify_sound_partial`, `C93_rf_certify_complete_partial`, `C93_default_tolerance_refuted`, `C93_negative_entries_refuted`, `C70_weights_partial`, `C70_empty_label_refuted`, `C54_subsys_row_partial`, `C54_lossy_row_partial`, `C54_reduce_row_partial`, `C54_reduce_fail_partial`, `C54_subsystem_refuted`, `C54_reduce_refuted`, `C97_float_check_is_a_tolerance`, `C98_float_certificate_bound`, `C99_order_partial`, `C99_rounding_refuted`, `C99_order_refuted`, `C100_states_finite_partial`, `C100_finite_refuted`, `C106_total_partial`, `C106_decides_partial`, `C106_sound_partial`, `C106_found_partial`, `C106_off_partial`, `C106_pins_refuted`, `C106_strict_refuted`, `C106_false_refuted`, `C72_minimal_partial`, `C72_unit_loop_refuted`, `C74_end_components_refuted`, `C42_success_partial`, `C61_exact_min_labels`, `C27_pr_min`, `C28_pr_max`, `C29_max_y_state_refuted`, `C55_max_z_state_action`, `C55_max_y_state_action`, `C96_rounded_probabilities`, `C102_minimal_labels_partial`, `C39_exact_min`, `C13_reduce_values`, `C101_solver_tolerance`, `C102_minimal_partial`, `C30_subsystem_values`, `C31_subsystem_below`, `C32_min_support`, `C32_max_support`, `C32_support`, `C33_materialise_partial`, `C94_tolerance_bounded`, `C93_rf_certify_tolerance_partial`, `C95_flow_factor_partial`, `C95_state_factor_refuted`, `C56_single_part_partial`, `C56_too_large_refuted`, `C56_too_small_refuted`, `C56_error_refuted`, `C56_rounding_refuted`.

**`ClassicalDedekindReals.sig_forall_dec`, `ClassicalUniqueChoice.dependent_unique_choice`, `Classical_Prop.classic`, `FunctionalExtensionality.functional_extensionality_dep`, `RelationalChoice.relational_choice`**

`C68_answers_exist`, `C69_answers_exist`, `C72_answers_exist`, `C41_upper_bounds`.

**`ClassicalDedekindReals.sig_forall_dec`, `ClassicalDedekindReals.sig_not_dec`, `ClassicalUniqueChoice.dependent_unique_choice`, `Classical_Prop.classic`, `FunctionalExtensionality.functional_extensionality_dep`, `RelationalChoice.relational_choice`**

`C68_heuristic_decides`, `C69_heuristic_decides`, `C70_reward_weights_partial`, `C72_minimal_max`, `C72_decides_partial`, `C73_decides_partial`, `C73_no_rewards_refuted`, `C61_exact_max_labels`, `C102_minimal_max_labels_partial`, `C102_minimal_max_partial`, `C111_minimal_labels_partial`, `C40_exact_max`, `C108_sound_partial`, `C108_complete_partial`, `C108_near_partial`, `C108_decides_partial`, `C108_found_partial`, `C108_off_partial`, `C108_threshold_refuted`, `C108_min_upper_refuted`, `C108_negative_refuted`, `C111_minimal_partial`, `C62_exact_min_states`, `C62_exact_min_labels`, `C63_exact_max_labels_partial`, `C63_exact_max_states_partial`, `C63_exact_max_states_refuted`, `C64_bounds_valid_partial`, `C64_undetermined_partial`, `C64_undetermined_refuted`, `C65_heuristic_success`, `C66_subsystem_refuted`, `C67_max_z_state_action_partial`, `C67_max_y_state_action_partial`, `C67_max_y_state_refuted`, `C110_reward_tolerance`, `C107_reducible_partial`, `C52_rew_min`, `C52_rew_max`, `C59_rewards_kept_partial`, `C59_rewards_kept_refuted`.
