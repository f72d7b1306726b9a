(** Properties C72-C75: the Gurobi back end.  [same_model], [same_result],
    [no_unit_loop], [some_reward] and [g_made] are in SpecGurobi. *)
From Coq Require Import String List Arith ZArith QArith Qreals Reals Bool Lia Lra.
From Verif Require Import Base Num Matrix InvDict SccSpec SpecMdp SpecEc SpecSystem SpecForm SpecBuilt SpecProb SpecSub SpecLp SpecMilp SpecLabel SpecDecide SpecReward SpecRewSub SpecGurobi
  Amdp ReachForm Milp Subsystem Formulations Problems MilpFinal RewardForm RewProblems Gurobi Examples ExProofs2 ExReward RewFinal DecideFinal GurFinal GurFinal2 GurFrom.
Import ListNotations.
Local Open Scope string_scope.
Local Open Scope nat_scope.

(** C72.  construct_MILP builds interchangeable models with both back ends,
    unless a pair stays in its state in mode min. *)
Theorem C72_same_results_partial : forall rf SB t md labels relaxed, built_form rf -> exact_rows (a_P (rf_sys rf)) -> rf_init rf < a_N (rf_sys rf) - 2 -> sized SB -> (md = Min -> no_unit_loop rf) ->
  same_result (match md with Max => negb relaxed | _ => false end) (construct_milp SB rf t md labels relaxed None) (g_construct_milp SB rf t md labels relaxed None).
Proof. exact C72_same_lemma. Qed.
Print Assumptions C72_same_results_partial.

(** Runs of the heuristic: what Gurobi answers, PuLP could have answered, with
    the same results. *)
Theorem C72_runs_partial : forall rf SB S iterations ini up t md labels g gc, built_form rf -> exact_rows (a_P (rf_sys rf)) -> rf_init rf < a_N (rf_sys rf) - 2 -> sized SB -> (md = Min -> no_unit_loop rf) ->
  up = fixed_zeros \/ up = inverse_result -> (forall mm ind obj, g_construct_milp SB rf t md labels true None = Ok (Some (mm, ind)) -> ini rf md ind = Ok obj -> map fst obj = dkeys ind) ->
  g_qs_run SB S iterations ini up rf t md labels = (g, gc) ->
  exists S' pc, qs_run SB S' iterations ini up rf t md labels = (g, pc) /\ Forall2 (fun c c' => same_model (fst c) (fst c') /\ snd c = snd c') pc gc.
Proof. exact C72_runs_lemma. Qed.
Print Assumptions C72_runs_partial.

(** The exact method, for any labels. *)
Theorem C72_exact_partial : forall rf SB S t md labels, built_form rf -> exact_rows (a_P (rf_sys rf)) -> rf_init rf < a_N (rf_sys rf) - 2 -> sized SB -> (md = Min -> no_unit_loop rf) ->
  exists S', (forall m ind gm ind', construct_milp SB rf t md labels false None = Ok (Some (m, ind)) -> g_construct_milp SB rf t md labels false None = Ok (Some (gm, ind')) ->
      (exact_answer m (S' m) <-> exact_answer gm (S gm)) /\ (sound_answer m (S' m) <-> sound_answer gm (S gm))) /\
    (g_milp_exact SB S rf t md labels = milp_exact SB S' rf t md labels \/
     md = Max /\ milp_exact SB S' rf t md labels = MkGen [] (Some AssertionError) /\ exists e, g_milp_exact SB S rf t md labels = MkGen [] (Some e)).
Proof. exact C72_transfer_lemma. Qed.
Print Assumptions C72_exact_partial.

(** Minimality. *)
Theorem C72_minimal_partial : forall rf t SB, built_form rf -> exact_rows (a_P (rf_sys rf)) -> rf_init rf < a_N (rf_sys rf) - 2 -> sized SB -> no_unit_loop rf ->
  exists pr mm ind, PrMinForm rf (rf_init rf) pr /\ g_construct_milp SB rf t Min None false None = Ok (Some (mm, ind)) /\ (exists r, exact_answer mm r) /\
    forall S, exact_answer mm (S mm) ->
      g_exn (g_milp_exact SB S rf t Min None) = None /\
      ((pr < Q2R t)%R -> g_items (g_milp_exact SB S rf t Min None) = [failure Infeasible]) /\
      ((Q2R t <= pr)%R -> exists sub v cert j, g_items (g_milp_exact SB S rf t Min None) = [MkPRes Success (Some sub) (Some v) (Some cert)] /\
        mk_subsystem rf cert Min false = Ok sub /\ cert_point rf Min t cert /\ Q2R v = INR j /\
        witness rf Min t (chosen (rf_sys rf) Min cert) /\ count (chosen (rf_sys rf) Min cert) (a_N (rf_sys rf) - 2) = j /\
        forall keep, witness rf Min t keep -> j <= count keep (a_N (rf_sys rf) - 2)).
Proof. exact C72_exact_lemma. Qed.
Print Assumptions C72_minimal_partial.

Theorem C72_minimal_max : forall rf t, built_form rf -> exact_rows (a_P (rf_sys rf)) -> rf_init rf < a_N (rf_sys rf) - 2 ->
  (forall s, s < a_N (rf_sys rf) - 2 -> ~ in_some_ec (a_P (rf_sys rf)) (a_inv (rf_sys rf)) s) ->
  exists pr A b lp, PrMaxForm rf (rf_init rf) pr /\ fark_constraints rf t Max = Ok (A, b) /\ upper_bound_lp A (a_C (rf_sys rf) - 2) b = Ok lp /\ (exists r, exact_answer lp r) /\
    forall SB, sized SB -> exact_answer lp (SB lp) ->
      ((pr < Q2R t)%R -> forall S, g_milp_exact SB S rf t Max None = MkGen [failure Infeasible] None) /\
      ((Q2R t <= pr)%R -> exists mm ind, g_construct_milp SB rf t Max None false None = Ok (Some (mm, ind)) /\ (exists r, exact_answer mm r) /\
        forall S, exact_answer mm (S mm) -> g_exn (g_milp_exact SB S rf t Max None) = None /\
        exists sub v cert j, g_items (g_milp_exact SB S rf t Max None) = [MkPRes Success (Some sub) (Some v) (Some cert)] /\
          mk_subsystem rf cert Max false = Ok sub /\ cert_point rf Max t cert /\ Q2R v = INR j /\
          witness rf Max t (chosen (rf_sys rf) Max cert) /\ count (chosen (rf_sys rf) Max cert) (a_N (rf_sys rf) - 2) = j /\
          forall keep, witness rf Max t keep -> j <= count keep (a_N (rf_sys rf) - 2)).
Proof. exact C72_max_lemma. Qed.
Print Assumptions C72_minimal_max.

(** The heuristic decides whether a witness exists. *)
Theorem C72_decides_partial : forall rf t md labels, built_form rf -> exact_rows (a_P (rf_sys rf)) -> rf_init rf < a_N (rf_sys rf) - 2 -> md <> OtherMode -> inner_opt (rf_sys rf) labels -> (md = Min -> no_unit_loop rf) ->
  exists p A b lp, match md with Max => PrMaxForm | _ => PrMinForm end rf (rf_init rf) p /\ fark_constraints rf t md = Ok (A, b) /\ upper_bound_lp A (cert_dim rf md) b = Ok lp /\ (exists r, exact_answer lp r) /\
  forall SB S iterations ini up g calls, sized SB -> bound_answer lp (SB lp) -> up = fixed_zeros \/ up = inverse_result -> iterations <> 0 ->
    (forall mm ind, g_construct_milp SB rf t md labels true None = Ok (Some (mm, ind)) -> exists obj, ini rf md ind = Ok obj /\ weighting ind obj) ->
    g_qs_run SB S iterations ini up rf t md labels = (g, calls) -> (forall m r, In (m, r) calls -> exact_answer m r) ->
    g_exn g = None /\
    ((Q2R t <= p)%R -> length (g_items g) = iterations /\ forall r, In r (g_items g) -> pr_status r = Success) /\
    ((p < Q2R t)%R -> g_items g = [failure Infeasible]).
Proof. exact C72_decides_lemma. Qed.
Print Assumptions C72_decides_partial.

(** Correct answers exist for every run. *)
Theorem C72_answers_exist : exists f : solver,
  (forall rf SB iterations ini up t md labels, built_form rf -> exact_rows (a_P (rf_sys rf)) -> rf_init rf < a_N (rf_sys rf) - 2 -> sized SB -> (md = Min -> no_unit_loop rf) ->
    up = fixed_zeros \/ up = inverse_result -> (forall mm ind obj, g_construct_milp SB rf t md labels true None = Ok (Some (mm, ind)) -> ini rf md ind = Ok obj -> map fst obj = dkeys ind) ->
    forall m r, In (m, r) (snd (g_qs_run SB (fun _ => f) iterations ini up rf t md labels)) -> exact_answer m r) /\
  (forall rr SB iterations ini up t md labels, reward_form rr -> sized SB -> (md = Max -> some_reward rr) ->
    up = rr_fixed_zeros \/ up = rr_inverse_result -> (forall mm ind obj, g_rr_construct_milp SB rr t md labels true None = Ok (Some (mm, ind)) -> ini rr md ind = Ok obj -> map fst obj = dkeys ind) ->
    forall m r, In (m, r) (snd (g_rr_qs_run SB (fun _ => f) iterations ini up rr t md labels)) -> exact_answer m r).
Proof. exact g_runs_exact. Qed.
Print Assumptions C72_answers_exist.

(** With such a pair every call raises. *)
Theorem C72_unit_loop_partial : forall rf SB t labels relaxed, built_form rf -> exact_rows (a_P (rf_sys rf)) -> rf_init rf < a_N (rf_sys rf) - 2 -> ~ no_unit_loop rf -> g_construct_milp SB rf t Min labels relaxed None = Err TypeError.
Proof. exact C72_loop_lemma. Qed.
Print Assumptions C72_unit_loop_partial.

Theorem C72_unit_loop_refuted : exists rf t SB S pr, built_form rf /\ exact_rows (a_P (rf_sys rf)) /\ rf_init rf < a_N (rf_sys rf) - 2 /\ sized SB /\ PrMinForm rf (rf_init rf) pr /\ (Q2R t <= pr)%R /\
  (exists sub v cert, milp_exact SB S rf t Min None = MkGen [MkPRes Success (Some sub) (Some v) (Some cert)] None) /\
  g_milp_exact SB S rf t Min None = MkGen [] (Some TypeError) /\ forall Sh iterations ini up, g_qs_run SB Sh iterations ini up rf t Min None = (MkGen [] (Some TypeError), []).
Proof. exact C72_refuted_lemma. Qed.
Print Assumptions C72_unit_loop_refuted.

(** A form with a proper end component meets the hypotheses. *)
Example C72_nonvacuous : built_form ec1rf /\ exact_rows (a_P (rf_sys ec1rf)) /\ rf_init ec1rf < a_N (rf_sys ec1rf) - 2 /\ no_unit_loop ec1rf /\ ~ no_unit_loop ec2rf /\ sized timeout_S /\ sized sized_ex /\
  (exists mm ind, g_construct_milp sized_ex ec1rf (1#2) Min None false None = Ok (Some (mm, ind)) /\ length ind = 2) /\
  (exists mm, g_construct_milp timeout_S ec1rf (1#2) Max None true None = Ok (Some (mm, [(4, [0]); (5, [1]); (6, [2]); (7, [3])]))) /\
  exists f : solver, (forall m r, In (m, r) (snd (g_qs_run timeout_S (fun _ => f) 3 all_ones_init fixed_zeros ec1rf (1#2) Min None)) -> exact_answer m r) /\
    (forall m r, In (m, r) (snd (g_qs_run timeout_S (fun _ => f) 2 all_ones_init inverse_result ec1rf (1#2) Max None)) -> exact_answer m r).
Proof.
  split; [exact ec1rf_built|]. split; [exact exact_ec1|]. split; [vm_compute; lia|]. split; [exact ec1_no_loop|]. split; [exact ec2_loop|]. split; [exact timeout_sized|]. split; [intros lp _; apply repeat_length|].
  split; [eexists; eexists; split; vm_compute; reflexivity|]. split; [eexists; vm_compute; reflexivity|].
  assert (HW : forall mm ind obj, g_construct_milp timeout_S ec1rf (1#2) Min None true None = Ok (Some (mm, ind)) -> all_ones_init ec1rf Min ind = Ok obj -> map fst obj = dkeys ind).
  { intros mm ind obj _ E. destruct (ones_ok ec1rf Min _ mm ind eq_refl) as (obj' & E' & (K & _)). rewrite E in E'. injection E' as <-. exact K. }
  assert (HW' : forall mm ind obj, g_construct_milp timeout_S ec1rf (1#2) Max None true None = Ok (Some (mm, ind)) -> all_ones_init ec1rf Max ind = Ok obj -> map fst obj = dkeys ind).
  { intros mm ind obj _ E. destruct (ones_ok ec1rf Max _ mm ind eq_refl) as (obj' & E' & (K & _)). rewrite E in E'. injection E' as <-. exact K. }
  assert (HI : rf_init ec1rf < a_N (rf_sys ec1rf) - 2) by (vm_compute; lia).
  destruct C72_answers_exist as (f & Hf & _). exists f. split.
  - exact (Hf ec1rf timeout_S 3 all_ones_init fixed_zeros (1#2)%Q Min None ec1rf_built exact_ec1 HI timeout_sized (fun _ => ec1_no_loop) (or_introl eq_refl) HW).
  - exact (Hf ec1rf timeout_S 2 all_ones_init inverse_result (1#2)%Q Max None ec1rf_built exact_ec1 HI timeout_sized (fun _ => ec1_no_loop) (or_intror eq_refl) HW').
Qed.

(** C73.  The same for reward forms; in mode max some reward must not be zero. *)
Theorem C73_same_results_partial : forall rr SB t md labels relaxed, reward_form rr -> sized SB -> (md = Max -> some_reward rr) ->
  same_result (match md with Max => negb relaxed | _ => false end) (rr_construct_milp SB rr t md labels relaxed None) (g_rr_construct_milp SB rr t md labels relaxed None).
Proof. exact C73_same_lemma. Qed.
Print Assumptions C73_same_results_partial.

Theorem C73_runs_partial : forall rr SB S iterations ini up t md labels g gc, reward_form rr -> sized SB -> (md = Max -> some_reward rr) ->
  up = rr_fixed_zeros \/ up = rr_inverse_result -> (forall mm ind obj, g_rr_construct_milp SB rr t md labels true None = Ok (Some (mm, ind)) -> ini rr md ind = Ok obj -> map fst obj = dkeys ind) ->
  g_rr_qs_run SB S iterations ini up rr t md labels = (g, gc) ->
  exists S' pc, rr_qs_run SB S' iterations ini up rr t md labels = (g, pc) /\ Forall2 (fun c c' => same_model (fst c) (fst c') /\ snd c = snd c') pc gc.
Proof. exact C73_runs_lemma. Qed.
Print Assumptions C73_runs_partial.

Theorem C73_exact_partial : forall rr SB S t md labels, reward_form rr -> sized SB -> (md = Max -> some_reward rr) ->
  exists S', (forall m ind gm ind', rr_construct_milp SB rr t md labels false None = Ok (Some (m, ind)) -> g_rr_construct_milp SB rr t md labels false None = Ok (Some (gm, ind')) ->
      (exact_answer m (S' m) <-> exact_answer gm (S gm)) /\ (sound_answer m (S' m) <-> sound_answer gm (S gm))) /\
    (g_rr_milp_exact SB S rr t md labels = rr_milp_exact SB S' rr t md labels \/
     md = Max /\ rr_milp_exact SB S' rr t md labels = MkGen [] (Some AssertionError) /\ exists e, g_rr_milp_exact SB S rr t md labels = MkGen [] (Some e)).
Proof. exact C73_transfer_lemma. Qed.
Print Assumptions C73_exact_partial.

Theorem C73_decides_partial : forall rr t md labels, reward_form rr -> md <> OtherMode -> inner_opt (rf_sys (rr_rf rr)) labels -> (md = Max -> some_reward rr) ->
  exists v A b lp, rew_opt rr md v /\ rr_fark_constraints rr t md = Ok (A, b) /\ upper_bound_lp A (cert_dim (rr_rf rr) md) b = Ok lp /\ (exists r, exact_answer lp r) /\
  forall SB S iterations ini up g calls, sized SB -> bound_answer lp (SB lp) -> up = rr_fixed_zeros \/ up = rr_inverse_result -> iterations <> 0 ->
    (forall mm ind, g_rr_construct_milp SB rr t md labels true None = Ok (Some (mm, ind)) -> exists obj, ini rr md ind = Ok obj /\ weighting ind obj) ->
    g_rr_qs_run SB S iterations ini up rr t md labels = (g, calls) -> (forall m r, In (m, r) calls -> exact_answer m r) ->
    g_exn g = None /\
    ((Q2R t <= v)%R -> length (g_items g) = iterations /\ forall r, In r (g_items g) -> pr_status r = Success) /\
    ((v < Q2R t)%R -> g_items g = [failure Infeasible]).
Proof. exact C73_decides_lemma. Qed.
Print Assumptions C73_decides_partial.

(** Otherwise every call that needs a model raises. *)
Theorem C73_no_rewards_partial : forall rr SB t labels relaxed m ind, reward_form rr -> ~ some_reward rr ->
  rr_construct_milp SB rr t Max labels relaxed None = Ok (Some (m, ind)) -> g_rr_construct_milp SB rr t Max labels relaxed None = Err TypeError.
Proof. exact C73_zero_lemma. Qed.
Print Assumptions C73_no_rewards_partial.

Theorem C73_no_rewards_refuted : exists rr t SB S, reward_form rr /\ sized SB /\ rew_opt rr Max (Q2R t) /\
  (exists r, g_exn (fst (rr_qs_run SB S 1 rr_all_ones_init rr_fixed_zeros rr t Max None)) = None /\ g_items (fst (rr_qs_run SB S 1 rr_all_ones_init rr_fixed_zeros rr t Max None)) = [r] /\ pr_status r = Success) /\
  forall Sh iterations ini up, g_rr_qs_run SB Sh iterations ini up rr t Max None = (MkGen [] (Some TypeError), []).
Proof. exact C73_refuted_lemma. Qed.
Print Assumptions C73_no_rewards_refuted.

Example C73_nonvacuous : reward_form rw1rr /\ some_reward rw1rr /\ sized timeout_S /\ (forall lp, bound_answer lp (timeout_S lp)) /\ reward_form rw0rr /\ ~ some_reward rw0rr /\
  (exists mm ind, g_rr_construct_milp timeout_S rw1rr 2 Min None true None = Ok (Some (mm, ind)) /\ length ind = 3) /\
  (exists mm ind, g_rr_construct_milp timeout_S rw1rr 2 Max None true None = Ok (Some (mm, ind)) /\ length ind = 4) /\
  (exists mm ind, rr_construct_milp timeout_S rw0rr 0 Max None true None = Ok (Some (mm, ind))) /\
  exists f : solver, forall m r, In (m, r) (snd (g_rr_qs_run timeout_S (fun _ => f) 3 rr_all_ones_init rr_fixed_zeros rw1rr 2 Max None)) -> exact_answer m r.
Proof.
  assert (SR : some_reward rw1rr) by (exists 1%Q; split; [vm_compute; auto|discriminate]).
  split; [exact rw1rr_ok|]. split; [exact SR|]. split; [exact timeout_sized|]. split; [right; left; reflexivity|]. split; [exact rw0rr_ok|]. split; [exact rw0_none|].
  split; [eexists; eexists; split; vm_compute; reflexivity|]. split; [eexists; eexists; split; vm_compute; reflexivity|]. split; [eexists; eexists; vm_compute; reflexivity|].
  assert (HW : forall mm ind obj, g_rr_construct_milp timeout_S rw1rr 2 Max None true None = Ok (Some (mm, ind)) -> rr_all_ones_init rw1rr Max ind = Ok obj -> map fst obj = dkeys ind).
  { intros mm ind obj _ E. destruct (ones_ok ec1rf Max _ mm ind eq_refl) as (obj' & E' & (K & _)). change (all_ones_init ec1rf Max ind = Ok obj) in E. rewrite E in E'. injection E' as <-. exact K. }
  destruct C72_answers_exist as (f & _ & Hf). exists f.
  exact (Hf rw1rr timeout_S 3 rr_all_ones_init rr_fixed_zeros 2%Q Max None rw1rr_ok timeout_sized (fun _ => SR) (or_introl eq_refl) HW).
Qed.

(** C74 is false: neither back end minimises for Pr-max with end components. *)
Theorem C74_end_components_partial : forall rf SB S t, built_form rf -> exact_rows (a_P (rf_sys rf)) -> rf_init rf < a_N (rf_sys rf) - 2 ->
  (exists s, s < a_N (rf_sys rf) - 2 /\ in_some_ec (a_P (rf_sys rf)) (a_inv (rf_sys rf)) s) ->
  milp_exact SB S rf t Max None = MkGen [] (Some AssertionError) /\ g_milp_exact SB S rf t Max None = MkGen [] (Some AttributeError) /\
  forall ls, milp_exact SB S rf t Max (Some ls) = MkGen [] (Some AssertionError) /\ exists e, g_milp_exact SB S rf t Max (Some ls) = MkGen [] (Some e).
Proof. exact C74_lemma. Qed.
Print Assumptions C74_end_components_partial.

Theorem C74_end_components_refuted : exists rf pr t, built_form rf /\ exact_rows (a_P (rf_sys rf)) /\ rf_init rf < a_N (rf_sys rf) - 2 /\ PrMaxForm rf (rf_init rf) pr /\ (Q2R t <= pr)%R /\
  forall SB S, g_milp_exact SB S rf t Max None = MkGen [] (Some AttributeError).
Proof. exact C74_refuted_lemma. Qed.
Print Assumptions C74_end_components_refuted.

Example C74_nonvacuous : built_form ec1rf /\ exact_rows (a_P (rf_sys ec1rf)) /\ rf_init ec1rf < a_N (rf_sys ec1rf) - 2 /\
  exists s, s < a_N (rf_sys ec1rf) - 2 /\ in_some_ec (a_P (rf_sys ec1rf)) (a_inv (rf_sys ec1rf)) s.
Proof. split; [exact ec1rf_built|]. split; [exact exact_ec1|]. split; [vm_compute; lia|exact ec1_has_ec]. Qed.

(** C75.  What GurobiMILP.from_coefficients builds: without a lower bound a
    variable is not negative. *)
Theorem C75_feasible_set_partial : forall A n b opt domains s o bounds m, s <> OtherSense -> (forall row, In row A -> length row = n) ->
  g_from_coefficients A n b opt domains s o bounds = Ok m ->
  length (mi_vars m) = n /\ mi_dir m = o /\
  (forall x, objective m x = sumn n (fun j => Q2R (nth j opt 0%Q) * x j)%R) /\
  forall x, feasible m x <->
      (forall i, i < length A -> rel s (sumn n (fun j => Q2R (nth j (nth i A []) 0%Q) * x j)%R) (Q2R (nth i b 0%Q))) /\
      (forall j, j < n -> sat_dom (nth j domains OtherDomain) (fst (bound_at bounds j)) (snd (bound_at bounds j)) (x j) /\
         (fst (bound_at bounds j) = None -> (0 <= x j)%R) /\
         (nth j domains OtherDomain = DBinary -> above (fst (bound_at bounds j)) (x j) /\ below (snd (bound_at bounds j)) (x j))).
Proof. exact C75_lemma. Qed.
Print Assumptions C75_feasible_set_partial.

Theorem C75_feasible_set_refuted : exists A n b opt domains s o m x, from_coefficients A n b opt domains s o None = Ok m /\ feasible m x /\
  exists gm, g_from_coefficients A n b opt domains s o None = Ok gm /\ ~ feasible gm x /\ (exists y, feasible gm y).
Proof. exact C75_refuted_lemma. Qed.
Print Assumptions C75_feasible_set_refuted.

(** When it builds a model. *)
Theorem C75_defined : forall A n b opt domains s o bounds, s <> OtherSense -> (forall row, In row A -> length row = n) ->
  ((exists m, g_from_coefficients A n b opt domains s o bounds = Ok m) <->
   (exists m, from_coefficients A n b opt domains s o bounds = Ok m) /\ forall row, In row A -> exists q, In q row /\ ~ (q == 0)%Q).
Proof. exact C75_built_lemma. Qed.
Print Assumptions C75_defined.

Theorem C75_constraint_added : forall m l s r m' i, g_made m -> g_add_constraint m l s r = Ok (m', i) ->
  mi_vars m' = mi_vars m /\ (forall x, objective m' x = objective m x) /\ forall x, feasible m' x <-> feasible m x /\ rel s (lin l x) (Q2R r).
Proof. exact C75_constraint_lemma. Qed.
Print Assumptions C75_constraint_added.

Theorem C75_objective_replaced : forall m e m', g_set_objective m e = Ok m' -> mi_dir m' = mi_dir m /\ (forall x, feasible m' x <-> feasible m x) /\ forall x, objective m' x = lin e x.
Proof. exact C75_objective_lemma. Qed.
Print Assumptions C75_objective_replaced.

Example C75_nonvacuous : (exists m,
  g_from_coefficients [[2; 1]; [4; -1]; [0; 3]]%Q 2 [10; 8; 2]%Q [1; 1]%Q [DInteger; DReal] SLe Maximise (Some [(Some (-3), None); (None, Some 5)]%Q) = Ok m) /\
  g_from_coefficients [[2; 1]; [0; 0]]%Q 2 [10; 8]%Q [1; 1]%Q [DInteger; DReal] SLe Maximise None = Err TypeError /\
  exists m m1 m2 m3 i, g_made m /\ g_set_objective m [(0, 2%Q); (0, 3%Q); (1, 1%Q)] = Ok m1 /\ g_set_objective m1 [(1, 1%Q)] = Ok m2 /\ g_add_constraint m2 [(0, 1%Q); (1, 2%Q); (0, 1%Q)] SGe 4%Q = Ok (m3, i) /\
    objective m1 (fun _ => 1%R) = 6%R /\ objective m2 (fun _ => 1%R) = 1%R.
Proof.
  split; [eexists; vm_compute; reflexivity|]. split; [vm_compute; reflexivity|].
  exists (push_var (push_var (MkMilp Minimise [] [] 0 None) (MkVar false (Some 0%Q) None)) (MkVar true (Some 0%Q) (Some 1%Q))). do 4 eexists.
  split. { eapply g_var with (d := DBinary) (lb := None) (ub := None); [|reflexivity]. eapply g_var with (d := DReal) (lb := None) (ub := None); [|reflexivity]. eapply g_new with (o := Minimise). reflexivity. }
  split; [reflexivity|]. split; [reflexivity|]. split; [reflexivity|]. split; unfold objective; cbn; unfold Q2R; cbn; lra.
Qed.
