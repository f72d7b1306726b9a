(** Properties C102 and C111, comparison with exact witnesses for labels and for
    maximal values when the solver is correct up to a tolerance.  The claims
    themselves are refuted in P_Slack.v and P_RewNum.v.  [gap] is the distance of
    the reported value from the optimum. *)
From Coq Require Import String List Arith ZArith QArith Qreals Reals Bool Lia Lra.
From Verif Require Import Base Num Matrix InvDict SccSpec SpecMdp SpecSystem SpecEc SpecForm SpecBuilt SpecProb SpecSub SpecLp SpecMilp SpecLabel SpecSlack SpecReward SpecRewSub SpecRewSlack Amdp ReachForm Milp Subsystem Formulations Problems
  MilpFinal RewardForm RewProblems RewFinal NumLabels Examples ExProofs2 ExProofs5 ExReward ExSlack ExNumLabels.
Import ListNotations.
Local Open Scope string_scope.
Local Open Scope nat_scope.

(** C102, labels and Pr^min: no exact witness has fewer labels than there are
    labels with an entry above [2 * eps]. *)
Theorem C102_minimal_labels_partial : forall rf SB S t ls eps gap sub v cert, built_form rf -> exact_rows (a_P (rf_sys rf)) -> rf_init rf < a_N (rf_sys rf) - 2 -> inner_labels (rf_sys rf) ls -> sized SB ->
  (0 <= eps)%R -> (eps < 1 / 2)%R -> (0 <= gap)%R -> ((INR (length ls) + 1) * eps + gap < 1)%R ->
  (forall mm ind, construct_milp SB rf t Min (Some ls) false None = Ok (Some (mm, ind)) -> answer_within eps mm (S mm) /\
     (sr_status (S mm) = Optimal -> forall x, feasible mm x -> (Q2R (sr_val (S mm)) <= objective mm x + gap)%R)) ->
  In (MkPRes Success (Some sub) (Some v) (Some cert)) (g_items (milp_exact SB S rf t Min (Some ls))) ->
  forall keep i, witness rf Min t keep -> label_count (rf_sys rf) ls keep i -> (Q2R v <= INR i + gap)%R /\
    forall L, NoDup L -> (forall l, In l L -> In l ls /\ exists s, has_label (rf_sys rf) l s /\ (2 * eps < vec cert s)%R) -> length L <= i.
Proof. exact C102_labels_min_lemma. Qed.
Print Assumptions C102_minimal_labels_partial.

(** The chain with threshold one half. *)
Example C102_labels_nonvacuous : built_form ch3rf /\ exact_rows (a_P (rf_sys ch3rf)) /\ rf_init ch3rf < a_N (rf_sys ch3rf) - 2 /\ inner_labels (rf_sys ch3rf) ["grey"; "init"] /\ sized sized_ex /\
  ((INR 2 + 1) * Q2R (1 # 100) + 0 < 1)%R /\
  exists S sub v cert j, (forall mm ind, construct_milp sized_ex ch3rf (1 # 2) Min (Some ["grey"; "init"]) false None = Ok (Some (mm, ind)) -> answer_within (Q2R (1 # 100)) mm (S mm) /\
     (sr_status (S mm) = Optimal -> forall x, feasible mm x -> (Q2R (sr_val (S mm)) <= objective mm x + 0)%R)) /\
  In (MkPRes Success (Some sub) (Some v) (Some cert)) (g_items (milp_exact sized_ex S ch3rf (1 # 2) Min (Some ["grey"; "init"]))) /\
  witness ch3rf Min (1 # 2) (chosen (rf_sys ch3rf) Min cert) /\ label_count (rf_sys ch3rf) ["grey"; "init"] (chosen (rf_sys ch3rf) Min cert) j.
Proof.
  split; [exact ch3rf_built|]. split; [exact exact_ch3|]. split; [vm_compute; lia|]. split; [exact ch3_labels|]. split; [intros lp _; apply repeat_length|]. split; [unfold Q2R; cbn; lra|exact ch3_min_case].
Qed.

(** C102, labels and Pr^max without proper end components and with exact
    bounds. *)
Theorem C102_minimal_max_labels_partial : forall rf t ls, built_form rf -> exact_rows (a_P (rf_sys rf)) -> rf_init rf < a_N (rf_sys rf) - 2 -> inner_labels (rf_sys rf) ls ->
  (forall s, s < a_N (rf_sys rf) - 2 -> ~ in_some_ec (a_P (rf_sys rf)) (a_inv (rf_sys rf)) s) ->
  exists A b lp, fark_constraints rf t Max = Ok (A, b) /\ upper_bound_lp A (a_C (rf_sys rf) - 2) b = Ok lp /\ (exists r, exact_answer lp r) /\
  forall SB S eps gap sub v cert, sized SB -> exact_answer lp (SB lp) ->
  (0 <= eps)%R -> (eps < 1 / 2)%R -> (0 <= gap)%R -> ((INR (length ls) + 1) * eps + gap < 1)%R ->
  (forall mm ind, construct_milp SB rf t Max (Some ls) false None = Ok (Some (mm, ind)) -> answer_within eps mm (S mm) /\
     (sr_status (S mm) = Optimal -> forall x, feasible mm x -> (Q2R (sr_val (S mm)) <= objective mm x + gap)%R)) ->
  In (MkPRes Success (Some sub) (Some v) (Some cert)) (g_items (milp_exact SB S rf t Max (Some ls))) ->
  forall keep i, witness rf Max t keep -> label_count (rf_sys rf) ls keep i -> (Q2R v <= INR i + gap)%R /\
    exists u, compute_upper_bounds SB A (a_C (rf_sys rf) - 2) b = Ok (Optimal, u) /\
    forall L, NoDup L -> (forall l, In l L -> In l ls /\ exists q, labelled_var (rf_sys rf) Max l q /\ (eps * (1 + Rabs (vec u q)) < vec cert q)%R) -> length L <= i.
Proof. exact C102_labels_max_lemma. Qed.
Print Assumptions C102_minimal_max_labels_partial.

Example C102_max_labels_nonvacuous : (forall s, s < a_N (rf_sys ch3rf) - 2 -> ~ in_some_ec (a_P (rf_sys ch3rf)) (a_inv (rf_sys ch3rf)) s) /\
  exists A b lp SB S sub v cert j, fark_constraints ch3rf (1 # 2) Max = Ok (A, b) /\ upper_bound_lp A (a_C (rf_sys ch3rf) - 2) b = Ok lp /\ sized SB /\ exact_answer lp (SB lp) /\
  (forall mm ind, construct_milp SB ch3rf (1 # 2) Max (Some ["grey"; "init"]) false None = Ok (Some (mm, ind)) -> answer_within (Q2R (1 # 100)) mm (S mm) /\
     (sr_status (S mm) = Optimal -> forall x, feasible mm x -> (Q2R (sr_val (S mm)) <= objective mm x + 0)%R)) /\
  In (MkPRes Success (Some sub) (Some v) (Some cert)) (g_items (milp_exact SB S ch3rf (1 # 2) Max (Some ["grey"; "init"]))) /\
  witness ch3rf Max (1 # 2) (chosen (rf_sys ch3rf) Max cert) /\ label_count (rf_sys ch3rf) ["grey"; "init"] (chosen (rf_sys ch3rf) Max cert) j.
Proof. split; [exact ch3_noec|exact ch3_max_case]. Qed.

(** C102, states and Pr^max without proper end components and with exact
    bounds: no exact witness has fewer states than there are states with an
    entry above [eps * (1 + bound)]. *)
Theorem C102_minimal_max_partial : forall rf t, built_form rf -> exact_rows (a_P (rf_sys rf)) -> rf_init rf < a_N (rf_sys rf) - 2 ->
  (forall s, s < a_N (rf_sys rf) - 2 -> ~ in_some_ec (a_P (rf_sys rf)) (a_inv (rf_sys rf)) s) ->
  exists A b lp, fark_constraints rf t Max = Ok (A, b) /\ upper_bound_lp A (a_C (rf_sys rf) - 2) b = Ok lp /\ (exists r, exact_answer lp r) /\
  forall SB S eps gap sub v cert, sized SB -> exact_answer lp (SB lp) ->
  (0 <= eps)%R -> (0 <= gap)%R -> ((INR (a_N (rf_sys rf) - 2) + 1) * eps + gap < 1)%R ->
  (forall mm ind, construct_milp SB rf t Max None false None = Ok (Some (mm, ind)) -> answer_within eps mm (S mm) /\
     (sr_status (S mm) = Optimal -> forall x, feasible mm x -> (Q2R (sr_val (S mm)) <= objective mm x + gap)%R)) ->
  In (MkPRes Success (Some sub) (Some v) (Some cert)) (g_items (milp_exact SB S rf t Max None)) ->
  forall keep, witness rf Max t keep -> (Q2R v <= INR (count keep (a_N (rf_sys rf) - 2)) + gap)%R /\
    exists u, compute_upper_bounds SB A (a_C (rf_sys rf) - 2) b = Ok (Optimal, u) /\
    forall T, (forall s, T s = true -> exists q, q < a_C (rf_sys rf) - 2 /\ belongs (a_inv (rf_sys rf)) q s = true /\ (eps * (1 + Rabs (vec u q)) < vec cert q)%R) ->
      count T (a_N (rf_sys rf) - 2) <= count keep (a_N (rf_sys rf) - 2).
Proof. exact C102_max_lemma. Qed.
Print Assumptions C102_minimal_max_partial.

Example C102_max_nonvacuous : ((INR 3 + 1) * Q2R (1 # 100) + 0 < 1)%R /\ a_N (rf_sys ch3rf) - 2 = 3 /\
  exists A b lp SB S sub v cert, fark_constraints ch3rf (1 # 2) Max = Ok (A, b) /\ upper_bound_lp A (a_C (rf_sys ch3rf) - 2) b = Ok lp /\ sized SB /\ exact_answer lp (SB lp) /\
  (forall mm ind, construct_milp SB ch3rf (1 # 2) Max None false None = Ok (Some (mm, ind)) -> answer_within (Q2R (1 # 100)) mm (S mm) /\
     (sr_status (S mm) = Optimal -> forall x, feasible mm x -> (Q2R (sr_val (S mm)) <= objective mm x + 0)%R)) /\
  In (MkPRes Success (Some sub) (Some v) (Some cert)) (g_items (milp_exact SB S ch3rf (1 # 2) Max None)) /\ witness ch3rf Max (1 # 2) (chosen (rf_sys ch3rf) Max cert).
Proof. split; [unfold Q2R; cbn; lra|]. split; [reflexivity|exact ch3_states_case]. Qed.

(** C111, labels in both modes, with exact bounds. *)
Theorem C111_minimal_labels_partial : forall rr md t ls, reward_form rr -> md <> OtherMode -> inner_labels (rf_sys (rr_rf rr)) ls ->
  exists A b lp, rr_fark_constraints rr t md = Ok (A, b) /\ upper_bound_lp A (cert_dim (rr_rf rr) md) b = Ok lp /\ (exists r, exact_answer lp r) /\
  forall SB S eps gap sub v cert, sized SB -> exact_answer lp (SB lp) ->
  (0 <= eps)%R -> (eps < 1 / 2)%R -> (0 <= gap)%R -> ((INR (length ls) + 1) * eps + gap < 1)%R ->
  (forall mm ind, rr_construct_milp SB rr t md (Some ls) false None = Ok (Some (mm, ind)) -> answer_within eps mm (S mm) /\
     (sr_status (S mm) = Optimal -> forall x, feasible mm x -> (Q2R (sr_val (S mm)) <= objective mm x + gap)%R)) ->
  In (MkPRes Success (Some sub) (Some v) (Some cert)) (g_items (rr_milp_exact SB S rr t md (Some ls))) ->
  forall keep i, rew_witness rr md t keep -> label_count (rf_sys (rr_rf rr)) ls keep i -> (Q2R v <= INR i + gap)%R /\
    exists u, compute_upper_bounds SB A (cert_dim (rr_rf rr) md) b = Ok (Optimal, u) /\
    forall L, NoDup L -> (forall l, In l L -> In l ls /\ exists q, labelled_var (rf_sys (rr_rf rr)) md l q /\ (eps * (1 + Rabs (vec u q)) < vec cert q)%R) -> length L <= i.
Proof. exact C111_labels_lemma. Qed.
Print Assumptions C111_minimal_labels_partial.

(** Minimal reward 3 and maximal reward 7: thresholds 3 and 7. *)
Example C111_labels_nonvacuous : reward_form rw1rr /\ inner_labels (rf_sys (rr_rf rw1rr)) ["init"] /\ ((INR 1 + 1) * Q2R (1 # 100) + 0 < 1)%R /\
  forall md t, md = Min /\ t = 3%Q \/ md = Max /\ t = 7%Q -> exists A b lp SB S sub val cert j, rr_fark_constraints rw1rr t md = Ok (A, b) /\ upper_bound_lp A (cert_dim (rr_rf rw1rr) md) b = Ok lp /\ sized SB /\ exact_answer lp (SB lp) /\
  (forall mm ind, rr_construct_milp SB rw1rr t md (Some ["init"]) false None = Ok (Some (mm, ind)) -> answer_within (Q2R (1 # 100)) mm (S mm) /\
     (sr_status (S mm) = Optimal -> forall x, feasible mm x -> (Q2R (sr_val (S mm)) <= objective mm x + 0)%R)) /\
  In (MkPRes Success (Some sub) (Some val) (Some cert)) (g_items (rr_milp_exact SB S rw1rr t md (Some ["init"]))) /\
  rew_witness rw1rr md t (chosen (rf_sys (rr_rf rw1rr)) md cert) /\ label_count (rf_sys (rr_rf rw1rr)) ["init"] (chosen (rf_sys (rr_rf rw1rr)) md cert) j.
Proof.
  split; [exact rw1rr_ok|]. split; [exact rw1_inner|]. split; [unfold Q2R; cbn; lra|]. intros md t [(-> & ->)|(-> & ->)].
  - apply (rw1_case Min 3); [discriminate|exact rw1_min|unfold Q2R; cbn; lra].
  - apply (rw1_case Max 7); [discriminate|exact rw1_max|unfold Q2R; cbn; lra].
Qed.
