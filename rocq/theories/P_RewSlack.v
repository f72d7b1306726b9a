(** Property C110: solvers that are correct up to a tolerance, on reward forms. *)
From Coq Require Import String List Arith ZArith QArith Qreals Reals Bool Lia Lra.
From Verif Require Import Base Num Matrix SpecMdp SpecSystem SpecEc SpecForm SpecBuilt SpecProb SpecSub SpecLp SpecMilp SpecSlack SpecReward SpecRewSub SpecRewSlack Amdp ReachForm Milp Subsystem Formulations Problems
  MilpFinal RewardForm RewProblems RewSlackProofs Examples ExProofs2 ExProofs5 ExReward ExRewCert ExSlack ExRewSlack.
Import ListNotations.
Local Open Scope nat_scope.

(** C110: every answer may violate bounds, integrality and constraints by
    [eps].  The expected rewards of the subsystems that exact minimisation and
    the quotient sum heuristic return reach the threshold up to [K] times
    [eps]; [K] depends on the form only.  Nothing is assumed of answers to other
    models. *)
Theorem C110_reward_tolerance : forall rr, reward_form rr -> exists K, (0 <= K)%R /\
  forall eps SB t md labels, (0 <= eps)%R -> sized SB ->
  (forall S, (forall mm ind, rr_construct_milp SB rr t md labels false None = Ok (Some (mm, ind)) -> answer_within eps mm (S mm)) ->
     forall r, In r (g_items (rr_milp_exact SB S rr t md labels)) -> pr_status r = Success ->
     exists sub v cert, r = MkPRes Success (Some sub) (Some v) (Some cert) /\ mk_subsystem (rr_rf rr) cert md false = Ok sub /\
       rew_witness_within rr md t (K * eps) (chosen (rf_sys (rr_rf rr)) md cert)) /\
  (forall S iterations ini up g calls, rr_qs_run SB S iterations ini up rr t md labels = (g, calls) -> (forall m r, In (m, r) calls -> answer_within eps m r) ->
     forall r, In r (g_items g) -> pr_status r = Success ->
     exists sub v cert, r = MkPRes Success (Some sub) (Some v) (Some cert) /\ mk_subsystem (rr_rf rr) cert md false = Ok sub /\
       rew_witness_within rr md t (K * eps) (chosen (rf_sys (rr_rf rr)) md cert)).
Proof. exact C110_lemma. Qed.
Print Assumptions C110_reward_tolerance.

(** The thresholds 1/5 and 9/20 are above the expected rewards 3/16 and 7/16, so
    no exact answer exists; with tolerance 1/50 subsystems are returned. *)
Example C110_nonvacuous : reward_form rwqrr /\ rew_opt rwqrr Min (Q2R (3#16)) /\ rew_opt rwqrr Max (Q2R (7#16)) /\ sized sized_ex /\
  (forall mm ind, rr_construct_milp sized_ex rwqrr (1 # 5) Min None false None = Ok (Some (mm, ind)) -> answer_within (Q2R (1 # 50)) mm (fixedS rslack_z mm)) /\
  map pr_status (g_items (rr_milp_exact sized_ex (fixedS rslack_z) rwqrr (1 # 5) Min None)) = [Success] /\
  (forall m r, In (m, r) (snd (rr_qs_run sized_ex (fun _ => fixedS rslack_z) 2 rr_all_ones_init rr_inverse_result rwqrr (1 # 5) Min None)) -> answer_within (Q2R (1 # 50)) m r) /\
  map pr_status (g_items (fst (rr_qs_run sized_ex (fun _ => fixedS rslack_z) 2 rr_all_ones_init rr_inverse_result rwqrr (1 # 5) Min None))) = [Success; Success] /\
  (forall m r, In (m, r) (snd (rr_qs_run sized_ex (fun _ => fixedS rslack_y) 2 rr_all_ones_init rr_inverse_result rwqrr (9 # 20) Max None)) -> answer_within (Q2R (1 # 50)) m r) /\
  map pr_status (g_items (fst (rr_qs_run sized_ex (fun _ => fixedS rslack_y) 2 rr_all_ones_init rr_inverse_result rwqrr (9 # 20) Max None))) = [Success; Success].
Proof.
  split; [exact rwqrr_ok|]. split; [exact rwq_min|]. split; [exact rwq_max|]. split; [intros lp _; apply repeat_length|]. split.
  - intros mm ind EC. rewrite rslack_mm_ok in EC. injection EC as EC1 EC2. rewrite <- EC1. apply chkw_ok. vm_compute. reflexivity.
  - split; [vm_compute; reflexivity|]. split; [apply chkw_calls_ok; vm_compute; reflexivity|]. split; [vm_compute; reflexivity|]. split; [apply chkw_calls_ok; vm_compute; reflexivity|vm_compute; reflexivity].
Qed.
