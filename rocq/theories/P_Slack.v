(** Properties C101 and C102: solvers that are correct up to a tolerance. *)
From Coq Require Import String List Arith ZArith QArith Qreals Reals Bool Lia Lra.
From Verif Require Import Base Num Matrix SpecMdp SpecSystem SpecEc SpecForm SpecBuilt SpecProb SpecSub SpecLp SpecMilp SpecSlack Amdp ReachForm Milp Subsystem Formulations Problems
  MilpFinal SlackProofs2 SlackProofs3 Examples ExProofs2 ExProofs5 ExSlack.
Import ListNotations.
Local Open Scope nat_scope.

(** C101: every answer may violate bounds, integrality and constraints by
    [eps].  The subsystems that exact minimisation and the quotient sum
    heuristic return reach the threshold up to [K] times [eps]; [K] depends on
    the form only.  Nothing is assumed of answers to other models. *)
Theorem C101_solver_tolerance : forall rf, built_form rf -> exact_rows (a_P (rf_sys rf)) -> rf_init rf < a_N (rf_sys rf) - 2 -> exists K, (0 <= K)%R /\
  forall eps SB t md labels, (0 <= eps)%R -> sized SB ->
  (forall S, (forall mm ind, construct_milp SB rf t md labels false None = Ok (Some (mm, ind)) -> answer_within eps mm (S mm)) ->
     forall r, In r (g_items (milp_exact SB S rf t md labels)) -> pr_status r = Success ->
     exists sub v cert, r = MkPRes Success (Some sub) (Some v) (Some cert) /\ mk_subsystem rf cert md false = Ok sub /\
       witness_within rf md t (K * eps) (chosen (rf_sys rf) md cert)) /\
  (forall S iterations ini up g calls, qs_run SB S iterations ini up rf t md labels = (g, calls) -> (forall m r, In (m, r) calls -> answer_within eps m r) ->
     forall r, In r (g_items g) -> pr_status r = Success ->
     exists sub v cert, r = MkPRes Success (Some sub) (Some v) (Some cert) /\ mk_subsystem rf cert md false = Ok sub /\
       witness_within rf md t (K * eps) (chosen (rf_sys rf) md cert)).
Proof. exact C101_lemma. Qed.
Print Assumptions C101_solver_tolerance.

(** The threshold 76/100 is above the probability 3/4, so no exact answer
    exists; with tolerance 1/100 both procedures return a subsystem. *)
Example C101_nonvacuous : built_form ch3rf /\ exact_rows (a_P (rf_sys ch3rf)) /\ rf_init ch3rf < a_N (rf_sys ch3rf) - 2 /\ sized sized_ex /\
  (forall md mm ind, md <> OtherMode -> construct_milp sized_ex ch3rf (76 # 100) md None false None = Ok (Some (mm, ind)) ->
     answer_within (Q2R (1 # 100)) mm (fixedS (match md with Min => slack_z | _ => slack_y end) mm)) /\
  map pr_status (g_items (milp_exact sized_ex (fixedS slack_z) ch3rf (76 # 100) Min None)) = [Success] /\
  map pr_status (g_items (milp_exact sized_ex (fixedS slack_y) ch3rf (76 # 100) Max None)) = [Success] /\
  (forall m r, In (m, r) (snd (qs_run sized_ex (fun _ => fixedS slack_z) 2 all_ones_init inverse_result ch3rf (76 # 100) Min None)) -> answer_within (Q2R (1 # 100)) m r) /\
  map pr_status (g_items (fst (qs_run sized_ex (fun _ => fixedS slack_z) 2 all_ones_init inverse_result ch3rf (76 # 100) Min None))) = [Success; Success].
Proof.
  split; [exact ch3rf_built|]. split; [exact exact_ch3|]. split; [vm_compute; lia|]. split; [intros lp _; apply repeat_length|]. split.
  - intros md mm ind Hm EC. rewrite (slack_mm_ok md Hm) in EC. injection EC as EC. replace mm with (fst (slack_mm md)) by (rewrite EC; reflexivity). apply chkw_ok. destruct md; [vm_compute; reflexivity|vm_compute; reflexivity|congruence].
  - split; [vm_compute; reflexivity|]. split; [vm_compute; reflexivity|]. split; [apply chkw_calls_ok; vm_compute; reflexivity|vm_compute; reflexivity].
Qed.

(** C102, the claim: the value that exact minimisation reports is the number of
    groups of the subsystem, and no subsystem that reaches the threshold has
    fewer.  With a tolerance this is false, however small it is. *)
Theorem C102_reported_number_refuted : exists rf SB t, built_form rf /\ exact_rows (a_P (rf_sys rf)) /\ rf_init rf < a_N (rf_sys rf) - 2 /\ sized SB /\
  forall eps, (0 < eps)%Q -> exists S mm ind sub v cert, construct_milp SB rf t Min None false None = Ok (Some (mm, ind)) /\ answer_within (Q2R eps) mm (S mm) /\
    In (MkPRes Success (Some sub) (Some v) (Some cert)) (g_items (milp_exact SB S rf t Min None)) /\
    (v < inject_Z (Z.of_nat (count (chosen (rf_sys rf) Min cert) (a_N (rf_sys rf) - 2))))%Q.
Proof. exact C102_refuted_lemma. Qed.
Print Assumptions C102_reported_number_refuted.

(** What remains of the first half: the value is close to a number that is at
    least the number of groups with an entry above [eps * (1 + bound)], where
    the bound of a variable is one or, for Pr^max, the one the code computes. *)
Theorem C102_counted_partial : forall rf SB S t md labels mm ind eps sub v cert, built_form rf -> rf_init rf < a_N (rf_sys rf) - 2 -> sized SB ->
  (0 <= eps)%R -> (eps < 1 / 2)%R -> construct_milp SB rf t md labels false None = Ok (Some (mm, ind)) -> answer_within eps mm (S mm) ->
  In (MkPRes Success (Some sub) (Some v) (Some cert)) (g_items (milp_exact SB S rf t md labels)) ->
  exists u j, length u = cert_dim rf md /\ (md = Min -> u = repeat 1%Q (cert_dim rf md)) /\
    (md = Max -> exists A b, fark_constraints rf t Max = Ok (A, b) /\ compute_upper_bounds SB A (cert_dim rf md) b = Ok (Optimal, u)) /\
    grouping rf md labels true (map snd ind) /\
    (INR j - (INR (length ind) + 1) * eps <= Q2R v <= INR j + (INR (length ind) + 1) * eps)%R /\
    forall T, (forall G, In G (map snd ind) -> T G = true -> touches_above (fun i => eps * (1 + Rabs (vec u i)))%R cert G) -> length (filter T (map snd ind)) <= j.
Proof. exact C102_counted_lemma. Qed.
Print Assumptions C102_counted_partial.

(** What remains of the second half, for Pr^min without labels: no exact
    witness has fewer states than the entries above [2 * eps]. *)
Theorem C102_minimal_partial : forall rf SB S t eps gap sub v cert, built_form rf -> exact_rows (a_P (rf_sys rf)) -> rf_init rf < a_N (rf_sys rf) - 2 -> sized SB ->
  (0 <= eps)%R -> (0 <= gap)%R -> ((INR (a_N (rf_sys rf) - 2) + 1) * eps + gap < 1)%R ->
  (forall mm ind, construct_milp SB rf t Min None false None = Ok (Some (mm, ind)) -> answer_within eps mm (S mm) /\
     (sr_status (S mm) = Optimal -> forall x, feasible mm x -> (Q2R (sr_val (S mm)) <= objective mm x + gap)%R)) ->
  In (MkPRes Success (Some sub) (Some v) (Some cert)) (g_items (milp_exact SB S rf t Min None)) ->
  forall keep, witness rf Min t keep -> (Q2R v <= INR (count keep (a_N (rf_sys rf) - 2)) + gap)%R /\
    forall T, (forall s, T s = true -> (2 * eps < vec cert s)%R) -> count T (a_N (rf_sys rf) - 2) <= count keep (a_N (rf_sys rf) - 2).
Proof. exact C102_minimal_lemma. Qed.
Print Assumptions C102_minimal_partial.

(** The same chain with threshold one half and a certificate whose last entry
    is tolerated: the subsystem has two states, the value is one, and one entry
    is above twice the tolerance. *)
Example C102_nonvacuous : construct_milp sized_ex ch3rf (1 # 2) Min None false None = Ok (Some tiny_mm) /\
  answer_within (Q2R (1 # 100)) (fst tiny_mm) (tinyS (1 # 100) (fst tiny_mm)) /\
  (forall x, feasible (fst tiny_mm) x -> (1 <= objective (fst tiny_mm) x + 0)%R) /\
  (exists sub, g_items (milp_exact sized_ex (tinyS (1 # 100)) ch3rf (1 # 2) Min None) = [MkPRes Success (Some sub) (Some 1%Q) (Some [1 # 2; 0; 1 # 100]%Q)]) /\
  ((INR 3 + 1) * Q2R (1 # 100) + 0 < 1)%R /\ witness ch3rf Min (1 # 2) (chosen (rf_sys ch3rf) Min [1 # 2; 0; 0]%Q).
Proof.
  split; [exact tiny_mm_ok|]. split; [apply tiny_within; reflexivity|]. split; [exact tiny_optimal|]. split; [eexists; vm_compute; reflexivity|]. split; [unfold Q2R; cbn; lra|exact tiny_witness].
Qed.
