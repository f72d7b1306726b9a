(** Properties C62-C67: minimal witnesses for expected rewards.
    [reward_form], [rew_witness], [rew_opt] and [rew_polytope] are in
    SpecRewSub; [count] and [chosen] in SpecSub, [label_count] in SpecLabel. *)
From Coq Require Import String List Arith ZArith QArith Qreals Reals Bool Lia Lra.
From Verif Require Import Base Num Matrix InvDict SccSpec SpecMdp SpecEc SpecSystem SpecForm SpecBuilt SpecProb SpecSub SpecLp SpecMilp SpecLabel SpecReward SpecRewSub
  Amdp ReachForm Milp Subsystem RfLps Formulations Problems MilpFinal RewardForm RewProblems ExReward ExProofs5 QsWeights RewFinal.
Import ListNotations.
Local Open Scope string_scope.
Local Open Scope nat_scope.

(** C62, states: the bounds are computed by the LP [lp], then the model [mm] is
    solved; both have correct answers. *)
Theorem C62_exact_min_states : forall rr t, reward_form rr -> exists v A b lp, rew_opt rr Min v /\ rr_fark_constraints rr t Min = Ok (A, b) /\ upper_bound_lp A (a_N (rf_sys (rr_rf rr)) - 2) b = Ok lp /\ (exists r, exact_answer lp r) /\
  forall SB, exact_answer lp (SB lp) ->
    ((v < Q2R t)%R -> forall S, rr_milp_exact SB S rr t Min None = MkGen [failure Infeasible] None) /\
    ((Q2R t <= v)%R -> exists mm ind, rr_construct_milp SB rr t Min None false None = Ok (Some (mm, ind)) /\ (exists r, exact_answer mm r) /\
      forall S, exact_answer mm (S mm) -> g_exn (rr_milp_exact SB S rr t Min None) = None /\
      exists sub val cert j, g_items (rr_milp_exact SB S rr t Min None) = [MkPRes Success (Some sub) (Some val) (Some cert)] /\
        mk_subsystem (rr_rf rr) cert Min false = Ok sub /\ length cert = a_N (rf_sys (rr_rf rr)) - 2 /\ rew_polytope rr Min t (vec cert) /\ Q2R val = INR j /\
        rew_witness rr Min t (chosen (rf_sys (rr_rf rr)) Min cert) /\ count (chosen (rf_sys (rr_rf rr)) Min cert) (a_N (rf_sys (rr_rf rr)) - 2) = j /\
        forall keep, rew_witness rr Min t keep -> j <= count keep (a_N (rf_sys (rr_rf rr)) - 2)).
Proof. exact C62_states_final. Qed.
Print Assumptions C62_exact_min_states.

(** The minimal expected reward of rw1rr is 3: threshold 1 is reached by one
    state, threshold 4 by none. *)
Example C62_nonvacuous : reward_form rw1rr /\ rew_opt rw1rr Min 3 /\ (Q2R 1 <= 3)%R /\ (3 < Q2R 4)%R /\ rf_init (rr_rf rw1rr) < a_N (rf_sys (rr_rf rw1rr)) - 2.
Proof.
  split; [exact rw1rr_ok|]. split; [exact rw1_min|]. split; [unfold Q2R; simpl; lra|]. split; [unfold Q2R; simpl; lra|]. apply rw1rr_ok.
Qed.

(** C62, labels. *)
Theorem C62_exact_min_labels : forall rr t ls, reward_form rr -> inner_labels (rf_sys (rr_rf rr)) ls -> exists v A b lp, rew_opt rr Min v /\ rr_fark_constraints rr t Min = Ok (A, b) /\ upper_bound_lp A (cert_dim (rr_rf rr) Min) b = Ok lp /\ (exists r, exact_answer lp r) /\
  forall SB, exact_answer lp (SB lp) ->
    ((v < Q2R t)%R -> forall S, rr_milp_exact SB S rr t Min (Some ls) = MkGen [failure Infeasible] None) /\
    ((Q2R t <= v)%R -> exists mm ind, rr_construct_milp SB rr t Min (Some ls) false None = Ok (Some (mm, ind)) /\ (exists r, exact_answer mm r) /\
      forall S, exact_answer mm (S mm) -> g_exn (rr_milp_exact SB S rr t Min (Some ls)) = None /\
      exists sub val cert j, g_items (rr_milp_exact SB S rr t Min (Some ls)) = [MkPRes Success (Some sub) (Some val) (Some cert)] /\
        mk_subsystem (rr_rf rr) cert Min false = Ok sub /\ length cert = cert_dim (rr_rf rr) Min /\ rew_polytope rr Min t (vec cert) /\ Q2R val = INR j /\
        rew_witness rr Min t (chosen (rf_sys (rr_rf rr)) Min cert) /\ label_count (rf_sys (rr_rf rr)) ls (chosen (rf_sys (rr_rf rr)) Min cert) j /\
        forall keep i, rew_witness rr Min t keep -> label_count (rf_sys (rr_rf rr)) ls keep i -> j <= i).
Proof. exact (fun rr t ls H => rr_labels_final rr Min t ls H ltac:(discriminate)). Qed.
Print Assumptions C62_exact_min_labels.

Example C62_labels_nonvacuous : reward_form rw1rr /\ inner_labels (rf_sys (rr_rf rw1rr)) ["init"] /\ has_label (rf_sys (rr_rf rw1rr)) "init" 0.
Proof. split; [exact rw1rr_ok|]. split; [exact rw1_inner|vm_compute; auto]. Qed.

(** C63 with labels.  Without labels it is false, see below. *)
Theorem C63_exact_max_labels_partial : forall rr t ls, reward_form rr -> inner_labels (rf_sys (rr_rf rr)) ls -> exists v A b lp, rew_opt rr Max v /\ rr_fark_constraints rr t Max = Ok (A, b) /\ upper_bound_lp A (cert_dim (rr_rf rr) Max) b = Ok lp /\ (exists r, exact_answer lp r) /\
  forall SB, exact_answer lp (SB lp) ->
    ((v < Q2R t)%R -> forall S, rr_milp_exact SB S rr t Max (Some ls) = MkGen [failure Infeasible] None) /\
    ((Q2R t <= v)%R -> exists mm ind, rr_construct_milp SB rr t Max (Some ls) false None = Ok (Some (mm, ind)) /\ (exists r, exact_answer mm r) /\
      forall S, exact_answer mm (S mm) -> g_exn (rr_milp_exact SB S rr t Max (Some ls)) = None /\
      exists sub val cert j, g_items (rr_milp_exact SB S rr t Max (Some ls)) = [MkPRes Success (Some sub) (Some val) (Some cert)] /\
        mk_subsystem (rr_rf rr) cert Max false = Ok sub /\ length cert = cert_dim (rr_rf rr) Max /\ rew_polytope rr Max t (vec cert) /\ Q2R val = INR j /\
        rew_witness rr Max t (chosen (rf_sys (rr_rf rr)) Max cert) /\ label_count (rf_sys (rr_rf rr)) ls (chosen (rf_sys (rr_rf rr)) Max cert) j /\
        forall keep i, rew_witness rr Max t keep -> label_count (rf_sys (rr_rf rr)) ls keep i -> j <= i).
Proof. exact (fun rr t ls H => rr_labels_final rr Max t ls H ltac:(discriminate)). Qed.
Print Assumptions C63_exact_max_labels_partial.

(** C63 without labels: thresholds above the value are reported as infeasible,
    all others end in an exception. *)
Theorem C63_exact_max_states_partial : forall rr t, reward_form rr -> exists v A b lp, rew_opt rr Max v /\ rr_fark_constraints rr t Max = Ok (A, b) /\ upper_bound_lp A (a_C (rf_sys (rr_rf rr)) - 2) b = Ok lp /\ (exists r, exact_answer lp r) /\
  forall SB S, exact_answer lp (SB lp) ->
    ((v < Q2R t)%R -> rr_milp_exact SB S rr t Max None = MkGen [failure Infeasible] None) /\
    ((Q2R t <= v)%R -> rr_milp_exact SB S rr t Max None = MkGen [] (Some AttributeError)).
Proof. exact C63_states_final. Qed.
Print Assumptions C63_exact_max_states_partial.

Example C63_nonvacuous : reward_form rw1rr /\ rew_opt rw1rr Max 7 /\ (Q2R 7 <= 7)%R /\ (7 < Q2R 8)%R /\ inner_labels (rf_sys (rr_rf rw1rr)) ["init"].
Proof.
  split; [exact rw1rr_ok|]. split; [exact rw1_max|]. split; [unfold Q2R; simpl; lra|]. split; [unfold Q2R; simpl; lra|]. exact rw1_inner.
Qed.

Theorem C63_exact_max_states_refuted : exists rr t v lp, reward_form rr /\ rew_opt rr Max v /\ (Q2R t <= v)%R /\
  (exists A b, rr_fark_constraints rr t Max = Ok (A, b) /\ upper_bound_lp A (a_C (rf_sys (rr_rf rr)) - 2) b = Ok lp /\ exists r, exact_answer lp r) /\
  forall SB S, exact_answer lp (SB lp) -> rr_milp_exact SB S rr t Max None = MkGen [] (Some AttributeError).
Proof. exact C63_refuted_lemma. Qed.
Print Assumptions C63_exact_max_states_refuted.

(** C64: bounds from a solved LP are valid, in both modes. *)
Theorem C64_bounds_valid_partial : forall rr md t, reward_form rr -> md <> OtherMode -> exists A b lp, rr_fark_constraints rr t md = Ok (A, b) /\ upper_bound_lp A (cert_dim (rr_rf rr) md) b = Ok lp /\ (exists r, exact_answer lp r) /\
  forall S, exact_answer lp (S lp) -> exists st u, compute_upper_bounds S A (cert_dim (rr_rf rr) md) b = Ok (st, u) /\
    ((st = Infeasible /\ forall x, ~ rew_polytope rr md t x) \/
     (st = Optimal /\ (exists x, rew_polytope rr md t x) /\ length u = cert_dim (rr_rf rr) md /\
      forall x, rew_polytope rr md t x -> forall i, i < cert_dim (rr_rf rr) md -> (x i <= vec u i)%R)).
Proof. exact C64_bounds_final. Qed.
Print Assumptions C64_bounds_valid_partial.

Example C64_nonvacuous : reward_form rw1rr /\ rew_polytope rw1rr Min 2 (vec [2; 2; 0]%Q).
Proof.
  split; [exact rw1rr_ok|]. split.
  - intros i s a Hi E. change (i < 4) in Hi. assert (i = 0 \/ i = 1 \/ i = 2 \/ i = 3) as [-> | [-> | [-> | ->]]] by lia; vm_compute in E; injection E as <- <-.
    all: change (a_N (rf_sys (rr_rf rw1rr)) - 2) with 3; cbn [sumn]; unfold row_reward, vec; cbn [nth].
    all: match goal with |- (_ <= Q2R ?r + (0 + Q2R ?p * _ + Q2R ?q * _ + Q2R ?o * _))%R => let r' := eval vm_compute in r in let p' := eval vm_compute in p in let q' := eval vm_compute in q in let o' := eval vm_compute in o in change r with r'; change p with p'; change q with q'; change o with o' end; unfold Q2R; simpl; lra.
  - split; [change (rf_init (rr_rf rw1rr)) with 0; unfold vec, Q2R; simpl; lra|]. intros s _. destruct s as [|[|[|[|s]]]]; unfold vec, Q2R; simpl; lra.
Qed.

(** C64: if the LP of the bounds ends undetermined (for instance after the 600
    seconds of formulations.py 140), the model has no solution for any threshold
    above 1, because the binary indicators then bound rewards by 1. *)
Theorem C64_undetermined_partial : forall rr t, reward_form rr -> (1 < t)%Q -> exists A b lp, rr_fark_constraints rr t Min = Ok (A, b) /\ upper_bound_lp A (a_N (rf_sys (rr_rf rr)) - 2) b = Ok lp /\
  forall SB, sr_status (SB lp) = NotSolved \/ sr_status (SB lp) = Undefined -> exists mm ind, rr_construct_milp SB rr t Min None false None = Ok (Some (mm, ind)) /\
    (forall x, ~ feasible mm x) /\ (exists r, exact_answer mm r) /\
    forall S, exact_answer mm (S mm) -> rr_milp_exact SB S rr t Min None = MkGen [failure Infeasible] None.
Proof. exact C64_undetermined_final. Qed.
Print Assumptions C64_undetermined_partial.

(** So a reachable threshold is reported as infeasible. *)
Theorem C64_undetermined_refuted : exists rr t v SB S mm ind, reward_form rr /\ rew_opt rr Min v /\ (Q2R t <= v)%R /\ (exists keep, rew_witness rr Min t keep) /\
  (forall lp, sr_status (SB lp) = NotSolved) /\ rr_construct_milp SB rr t Min None false None = Ok (Some (mm, ind)) /\ exact_answer mm (S mm) /\
  rr_milp_exact SB S rr t Min None = MkGen [failure Infeasible] None.
Proof. exact C64_refuted_lemma. Qed.
Print Assumptions C64_undetermined_refuted.

(** C65. *)
Theorem C65_heuristic_success : forall rr SB S iterations ini up t md labels g calls, reward_form rr -> sized SB ->
  rr_qs_run SB S iterations ini up rr t md labels = (g, calls) -> (forall m r, In (m, r) calls -> sound_answer m r) ->
  rr_qs_heur SB S iterations ini up rr t md labels = g /\
  length (g_items g) <= Nat.max 1 iterations /\ length calls <= iterations /\
  (forall j r, nth_error (g_items g) j = Some r -> pr_status r <> Success -> Datatypes.S j = length (g_items g) /\ g_exn g = None /\ exists s, s <> Optimal /\ r = failure s) /\
  forall r, In r (g_items g) -> pr_status r = Success -> exists sub cert k gs, r = MkPRes Success (Some sub) (Some (inject_Z (Z.of_nat k))) (Some cert) /\
    mk_subsystem (rr_rf rr) cert md false = Ok sub /\ length cert = cert_dim (rr_rf rr) md /\ rew_polytope rr md t (vec cert) /\ rew_witness rr md t (chosen (rf_sys (rr_rf rr)) md cert) /\
    grouping (rr_rf rr) md labels false gs /\ length (filter (touches cert) gs) <= k.
Proof. exact C65_final. Qed.
Print Assumptions C65_heuristic_success.

Example C65_nonvacuous : reward_form rw1rr /\ sized sized_ex /\
  let run := rr_qs_run sized_ex rw_S 3 rr_all_ones_init rr_inverse_result rw1rr 2 Min None in
  (forall m r, In (m, r) (snd run) -> sound_answer m r) /\ map pr_status (g_items (fst run)) = [Success; Success; Success].
Proof.
  split; [exact rw1rr_ok|]. split; [intros lp _; apply repeat_length|]. cbv zeta.
  split; [apply chk_calls_ok; vm_compute; reflexivity|vm_compute; reflexivity].
Qed.

(** C66: what happens instead. *)
Theorem C66_subsystem_partial : forall rr cert md ign sub, reward_form rr -> mk_subsystem (rr_rf rr) cert md ign = Ok sub -> rr_subsys sub = Err AttributeError.
Proof. exact C66_final. Qed.
Print Assumptions C66_subsystem_partial.

Theorem C66_subsystem_refuted : exists rr t cert sub, reward_form rr /\ length cert = a_N (rf_sys (rr_rf rr)) - 2 /\ rew_polytope rr Min t (vec cert) /\ rew_witness rr Min t (chosen (rf_sys (rr_rf rr)) Min cert) /\
  mk_subsystem (rr_rf rr) cert Min false = Ok sub /\ rr_subsys sub = Err AttributeError.
Proof. exact C66_refuted_lemma. Qed.
Print Assumptions C66_subsystem_refuted.

Example C66_nonvacuous : reward_form rw1rr /\ exists sub, mk_subsystem (rr_rf rw1rr) [2; 2; 0]%Q Min false = Ok sub.
Proof. split; [exact rw1rr_ok|]. eexists. vm_compute. reflexivity. Qed.

(** C67: values of rows, from minimal expected rewards. *)
Theorem C67_max_z_state_action_partial : forall rr, reward_form rr -> exists lp, rr_max_z_lp rr = Ok lp /\ (exists r, exact_answer lp r) /\
  forall S, exact_answer lp (S lp) -> exists w, rr_max_z_state_action S rr = Ok w /\ length w = a_C (rf_sys (rr_rf rr)) - 2 /\
    forall i, i < a_C (rf_sys (rr_rf rr)) - 2 -> exists z, (forall d, d < a_N (rf_sys (rr_rf rr)) - 2 -> RewMinForm (rr_rf rr) (rr_rew rr) d (z d)) /\
      Q2R (nth i w 0%Q) = (row_reward (rr_rew rr) i + sumn (a_N (rf_sys (rr_rf rr)) - 2) (fun d => prob (form_mdp (rr_rf rr)) i d * z d))%R.
Proof. exact C67_z_final. Qed.
Print Assumptions C67_max_z_state_action_partial.

(** C67: the frequencies collect the maximal expected reward. *)
Theorem C67_max_y_state_action_partial : forall rr, reward_form rr -> exists lp, rr_max_y_lp rr = Ok lp /\ (exists r, exact_answer lp r) /\
  forall S, exact_answer lp (S lp) -> exists y, rr_max_y_state_action S rr = Ok y /\ sr_status (S lp) = Optimal /\ length y = a_C (rf_sys (rr_rf rr)) - 2 /\ rew_polytope rr Max 0 (vec y) /\
    RewMaxForm (rr_rf rr) (rr_rew rr) (rf_init (rr_rf rr)) (sumn (a_C (rf_sys (rr_rf rr)) - 2) (fun i => row_reward (rr_rew rr) i * Q2R (nth i y 0%Q)))%R.
Proof. exact C67_y_final. Qed.
Print Assumptions C67_max_y_state_action_partial.

(** C67: the entry of the initial state is one too large. *)
Theorem C67_max_y_state_partial : forall rr S y, reward_form rr -> rr_max_y_state_action S rr = Ok y -> length y = a_C (rf_sys (rr_rf rr)) - 2 ->
  exists v, rr_max_y_state S rr = Ok v /\ length v = a_N (rf_sys (rr_rf rr)) - 2 /\
    forall s, s < a_N (rf_sys (rr_rf rr)) - 2 ->
      (nth s v 0 == (if (s =? rf_init (rr_rf rr))%nat then 1 else 0) + sum_to (a_C (rf_sys (rr_rf rr)) - 2) (fun i => if belongs (a_inv (rf_sys (rr_rf rr))) i s then nth i y 0 else 0))%Q.
Proof. exact C67_state_final. Qed.
Print Assumptions C67_max_y_state_partial.

Example C67_nonvacuous : reward_form rw1rr /\ (exists lp r, rr_max_z_lp rw1rr = Ok lp /\ exact_answer lp r) /\ (exists lp r, rr_max_y_lp rw1rr = Ok lp /\ exact_answer lp r) /\
  rr_max_y_state_action (fun _ => MkRes Optimal [0; 1; 2; 1]%Q 7%Q) rw1rr = Ok [0; 1; 2; 1]%Q /\ rr_max_y_state (fun _ => MkRes Optimal [0; 1; 2; 1]%Q 7%Q) rw1rr = Ok [2; 2; 1]%Q.
Proof.
  split; [exact rw1rr_ok|]. split; [destruct (C67_max_z_state_action_partial rw1rr rw1rr_ok) as (lp & E & (r & H) & _); eauto|]. split; [destruct (C67_max_y_state_action_partial rw1rr rw1rr_ok) as (lp & E & (r & H) & _); eauto|].
  split; vm_compute; reflexivity.
Qed.

Theorem C67_max_y_state_refuted : exists rr lp S y v s, reward_form rr /\ rr_max_y_lp rr = Ok lp /\ exact_answer lp (S lp) /\ rr_max_y_state_action S rr = Ok y /\ rr_max_y_state S rr = Ok v /\ s < a_N (rf_sys (rr_rf rr)) - 2 /\
  ~ (nth s v 0 == sum_to (a_C (rf_sys (rr_rf rr)) - 2) (fun i => if belongs (a_inv (rf_sys (rr_rf rr))) i s then nth i y 0 else 0))%Q.
Proof. exact C67_refuted_lemma. Qed.
Print Assumptions C67_max_y_state_refuted.
