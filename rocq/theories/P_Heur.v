(** Properties C42-C45: the QS heuristic and solve.
    [qs_run] returns the generator [qs_heur] of the code and the list of all
    models given to the solver, with its answers.  Hypotheses about the solver
    concern these answers only. *)
From Coq Require Import String List Arith ZArith QArith Qreals Reals Bool Lia.
From Verif Require Import Base Num Matrix InvDict SccSpec SpecMdp SpecEc SpecSystem SpecForm SpecBuilt SpecProb SpecSub SpecLp SpecMilp
  Amdp ReachForm Milp RfLps Subsystem Formulations Problems QsProofs QsFixed QsWeights HeurFinal MilpFinal Examples ExProofs2 ExProofs5.
Import ListNotations.
Local Open Scope nat_scope.
Local Open Scope string_scope.

(** C42.  Everything except that for zero iterations one failure can be
    produced. *)
Theorem C42_success_partial : forall rf SB S iterations ini up t md labels g calls,
  built_form rf -> exact_rows (a_P (rf_sys rf)) -> rf_init rf < a_N (rf_sys rf) - 2 -> sized SB ->
  qs_run SB S iterations ini up rf t md labels = (g, calls) -> (forall m r, In (m, r) calls -> sound_answer m r) ->
  qs_heur SB S iterations ini up rf t md labels = g /\
  length (g_items g) <= Nat.max 1 iterations /\
  (forall j r, nth_error (g_items g) j = Some r -> pr_status r <> Success -> Datatypes.S j = length (g_items g) /\ g_exn g = None /\ exists s, s <> Optimal /\ r = failure s) /\
  forall r, In r (g_items g) -> pr_status r = Success -> exists sub cert k gs, r = MkPRes Success (Some sub) (Some (inject_Z (Z.of_nat k))) (Some cert) /\
    mk_subsystem rf cert md false = Ok sub /\ cert_point rf md t cert /\ witness rf md t (chosen (rf_sys rf) md cert) /\
    grouping rf md labels false gs /\ length (filter (touches cert) gs) <= k.
Proof. exact C42_final. Qed.
Print Assumptions C42_success_partial.

Theorem C42_zero_iterations_refuted : exists rf SB S ini up t md labels, built_form rf /\ exact_rows (a_P (rf_sys rf)) /\ sound_solver SB /\
  length (g_items (qs_heur SB S 0 ini up rf t md labels)) = 1.
Proof. exact C42_zero_lemma. Qed.
Print Assumptions C42_zero_iterations_refuted.

(** Every model the heuristic solves has a correct answer. *)
Theorem C42_answers_exist : forall SB S iterations ini up rf t md labels m r, In (m, r) (snd (qs_run SB S iterations ini up rf t md labels)) -> exists r', exact_answer m r'.
Proof. exact qs_answers. Qed.
Print Assumptions C42_answers_exist.

Example C42_nonvacuous : built_form ch3rf /\ exact_rows (a_P (rf_sys ch3rf)) /\ rf_init ch3rf < a_N (rf_sys ch3rf) - 2 /\ sized sized_ex /\
  let run := qs_run sized_ex heur_S 3 all_ones_init inverse_result ch3rf (1#2) Min None in
  (forall m r, In (m, r) (snd run) -> sound_answer m r) /\ map pr_status (g_items (fst run)) = [Success; Success; Success] /\
  map pr_value (g_items (fst run)) = [Some 3%Q; Some 1%Q; Some 1%Q].
Proof.
  split; [apply ch3rf_built|]. split; [apply exact_ch3|]. split; [vm_compute; lia|]. split; [intros lp _; apply repeat_length|]. cbv zeta.
  split; [apply chk_calls_ok; vm_compute; reflexivity|]. split; vm_compute; reflexivity.
Qed.

(** C43.  Indicators are the variables from [cert_dim rf md] on. *)
Theorem C43_shrinks : forall rf SB S iterations ini t md labels g calls, built_form rf -> rf_init rf < a_N (rf_sys rf) - 2 -> sized SB ->
  qs_run SB S iterations ini fixed_zeros rf t md labels = (g, calls) -> (forall m r, In (m, r) calls -> sound_answer m r) ->
  (forall j mj rj mj' rj', nth_error calls j = Some (mj, rj) -> nth_error calls (Datatypes.S j) = Some (mj', rj') ->
    sr_status rj = Optimal /\ feasible mj' (vec (sr_vec rj)) /\
    (sr_status rj' = Optimal -> forall s, cert_dim rf md <= s -> (0 < vec (sr_vec rj') s)%R -> (0 < vec (sr_vec rj) s)%R)) /\
  (forall j r r' v v', nth_error (g_items g) j = Some r -> nth_error (g_items g) (Datatypes.S j) = Some r' -> pr_value r = Some v -> pr_value r' = Some v' -> (v' <= v)%Q).
Proof. exact C43_final. Qed.
Print Assumptions C43_shrinks.

(** With correct answers the heuristic with this updater never fails, unless
    the constraints have no solution at all. *)
Theorem C43_never_fails : forall rf SB S iterations ini t md labels g calls mm ind obj, built_form rf -> rf_init rf < a_N (rf_sys rf) - 2 -> sized SB ->
  construct_milp SB rf t md labels true None = Ok (Some (mm, ind)) ->
  ini rf md ind = Ok obj -> map fst obj = map fst ind -> (forall s w, In (s, w) obj -> (0 <= w)%Q) ->
  qs_run SB S iterations ini fixed_zeros rf t md labels = (g, calls) -> (forall m r, In (m, r) calls -> exact_answer m r) ->
  g_exn g = None /\
  ((exists x, feasible mm x) -> length (g_items g) = iterations /\ forall r, In r (g_items g) -> pr_status r = Success) /\
  ((forall x, ~ feasible mm x) -> iterations <> 0 -> g_items g = [failure Infeasible]).
Proof. exact C43_never_fails_final. Qed.
Print Assumptions C43_never_fails.

Example C43_nonvacuous : built_form ch3rf /\ rf_init ch3rf < a_N (rf_sys ch3rf) - 2 /\ sized sized_ex /\
  (let run := qs_run sized_ex heur_S 3 all_ones_init fixed_zeros ch3rf (1#2) Min None in
   (forall m r, In (m, r) (snd run) -> sound_answer m r) /\ length (snd run) = 3 /\ map pr_value (g_items (fst run)) = [Some 3%Q; Some 1%Q; Some 1%Q]) /\
  exists S mm, construct_milp sized_ex ch3rf (1#2) Min None true None = Ok (Some (mm, [(3, [0]); (4, [1]); (5, [2])])) /\ feasible mm (vec [1#2; 0; 0; 1; 1; 1]%Q) /\
    all_ones_init ch3rf Min [(3, [0]); (4, [1]); (5, [2])] = Ok [(3, 1%Q); (4, 1%Q); (5, 1%Q)] /\
    forall m r, In (m, r) (snd (qs_run sized_ex S 3 all_ones_init fixed_zeros ch3rf (1#2) Min None)) -> exact_answer m r.
Proof.
  split; [apply ch3rf_built|]. split; [vm_compute; lia|]. split; [intros lp _; apply repeat_length|]. split.
  - cbv zeta. split; [apply chk_calls_ok; vm_compute; reflexivity|]. split; vm_compute; reflexivity.
  - exact C43_exact_example.
Qed.

(** C44. *)
Theorem C44_result_updater : forall rf md (ind : dict nat (list nat)) last, (forall s, In s (map fst ind) -> s < length last) ->
  exists obj, inverse_result rf md ind last = Ok (obj, []) /\ map fst obj = map fst ind /\
    forall s w, In (s, w) obj -> (0 < w <= 1000000000#1)%Q /\ forall s' w', In (s', w') obj ->
      ((nth s last 0 <= nth s' last 0)%Q -> (w' <= w)%Q) /\ ((nth s last 0 == 0)%Q -> (w' <= w)%Q).
Proof. exact C44_result_lemma. Qed.
Print Assumptions C44_result_updater.

Theorem C44_reachability_initializer : forall S rf md (ind : dict nat (list nat)) obj, inverse_reachability S rf md ind = Ok obj ->
  exists pr, match md with Min => max_z_state S rf | _ => max_z_state_action S rf end = Ok pr /\ map fst obj = map fst ind /\
    forall i s G, nth_error ind i = Some (s, G) -> exists w, nth_error obj i = Some (s, w) /\ (0 < w <= 1000000000#1)%Q /\ ((avg pr G <= 0)%Q -> (w == 1000000000#1)%Q) /\
      forall j s' G', nth_error ind j = Some (s', G') -> exists w', nth_error obj j = Some (s', w') /\ ((avg pr G <= avg pr G')%Q -> (w' <= w)%Q).
Proof. exact C44_reach_lemma. Qed.
Print Assumptions C44_reachability_initializer.

(** Frequencies: the order holds among groups of positive frequency, and a
    group of frequency zero comes before those of frequency at least 1e-8. *)
Theorem C44_frequency_initializer_partial : forall S rf md (ind : dict nat (list nat)) obj, inverse_frequency S rf md ind = Ok obj ->
  exists e, match md with Min => max_y_state S rf | _ => max_y_state_action S rf end = Ok e /\ map fst obj = map fst ind /\
    forall i s G, nth_error ind i = Some (s, G) -> exists w, nth_error obj i = Some (s, w) /\ (0 < w <= 1000000000#1)%Q /\
      forall j s' G', nth_error ind j = Some (s', G') -> exists w', nth_error obj j = Some (s', w') /\
        ((0 < tot e G)%Q -> (tot e G <= tot e G')%Q -> (w' <= w)%Q) /\ ((tot e G <= 0)%Q -> (1#100000000 <= tot e G')%Q -> (w' <= w)%Q).
Proof. exact C44_freq_lemma. Qed.
Print Assumptions C44_frequency_initializer_partial.

(** In general it does not hold: a group of frequency zero gets weight 1e8, one
    of small positive frequency 1e9. *)
Theorem C44_frequency_initializer_refuted : exists rf lp S SB t mm ind e obj v v' s s' w w', built_form rf /\ exact_rows (a_P (rf_sys rf)) /\
  construct_milp SB rf t Max None true None = Ok (Some (mm, ind)) /\ max_y_lp rf = Ok lp /\ exact_answer lp (S lp) /\ max_y_state_action S rf = Ok e /\ inverse_frequency S rf Max ind = Ok obj /\
  In (s, [v]) ind /\ In (s', [v']) ind /\ In (s, w) obj /\ In (s', w') obj /\ (nth v e 0 == 0)%Q /\ (0 < nth v' e 0)%Q /\ (w < w')%Q.
Proof. exact C44_freq_refuted_lemma. Qed.
Print Assumptions C44_frequency_initializer_refuted.

Example C44_nonvacuous : inverse_result ch3rf Min [(3, [0]); (4, [1]); (5, [2])] [1#2; 0; 0; 1#2; 1#4; 0]%Q = Ok ([(3, 2%Q); (4, 4%Q); (5, 100000000%Q)], []) /\
  inverse_reachability (fun _ => MkRes Optimal [3#4; 1#2; 1#2]%Q (7#4)) ch3rf Min [(3, [0]); (4, [1; 2])] = Ok [(3, (4#3)%Q); (4, (8#4)%Q)] /\
  inverse_frequency (fun _ => MkRes Optimal [1; 1#2; 1#2]%Q (3#4)) ch3rf Max [(3, [0]); (4, [1; 2])] = Ok [(3, 1%Q); (4, (4#4)%Q)].
Proof. split; [|split]; vm_compute; reflexivity. Qed.

(** C45. *)
Theorem C45_solve_last : forall it rf t md labels r, solve it rf t md labels = Ok r <->
  (0 <= t <= 1)%Q /\ md <> OtherMode /\ g_exn (it rf t md labels) = None /\ exists l, g_items (it rf t md labels) = (l ++ [r])%list.
Proof. exact C45_solve_lemma. Qed.
Print Assumptions C45_solve_last.

Theorem C45_solve_rejects : forall it rf t md labels, (t < 0 \/ 1 < t)%Q \/ md = OtherMode -> solve it rf t md labels = Err AssertionError.
Proof. exact C45_reject_lemma. Qed.
Print Assumptions C45_solve_rejects.

Theorem C45_solve_has_result : forall rf t md labels, (0 <= t <= 1)%Q -> md <> OtherMode ->
  (forall SB S iterations ini up, iterations <> 0 -> g_exn (qs_heur SB S iterations ini up rf t md labels) = None -> exists r, solve (qs_heur SB S iterations ini up) rf t md labels = Ok r) /\
  (forall SB S, g_exn (milp_exact SB S rf t md labels) = None -> exists r, solve (milp_exact SB S) rf t md labels = Ok r).
Proof. exact C45_result_lemma. Qed.
Print Assumptions C45_solve_has_result.

Example C45_nonvacuous : g_exn (qs_heur sized_ex heur_S 3 all_ones_init fixed_zeros ch3rf (1#2) Min None) = None /\
  (exists sub cert, solve (qs_heur sized_ex heur_S 3 all_ones_init fixed_zeros) ch3rf (1#2) Min None = Ok (MkPRes Success (Some sub) (Some 1%Q) (Some cert))) /\
  solve (qs_heur sized_ex heur_S 3 all_ones_init fixed_zeros) ch3rf (3#2) Min None = Err AssertionError.
Proof. split; [vm_compute; reflexivity|]. split; [eexists; eexists; vm_compute; reflexivity|vm_compute; reflexivity]. Qed.
