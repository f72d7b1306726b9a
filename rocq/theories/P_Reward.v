(** Properties C52, C58, C59: expected rewards of reward reachability forms. *)
From Coq Require Import String List Arith ZArith QArith Qreals Reals Bool Lia.
From Verif Require Import Base Num Matrix InvDict GraphSpec SccSpec SpecMdp SpecEc SpecSystem SpecForm SpecBuilt SpecProb SpecReduce SpecLp SpecReward
  Amdp ReachForm BuiltFacts Reduce Examples Milp RewardForm RewardProofs RewardReduce ExReward.
Import ListNotations.
Local Open Scope string_scope.
Local Open Scope nat_scope.

(** C52.  Values are those of the specification SpecReward: the least upper
    bound of the rewards accumulated in the first steps before the target, over
    all history-dependent randomised schedulers. *)
Theorem C52_rew_min : forall rr, let rf := rr_rf rr in built_form rf -> exact_rows (a_P (rf_sys rf)) -> rf_init rf < a_N (rf_sys rf) - 2 ->
  ec_free (form_mdp rf) -> length (rr_rew rr) = a_C (rf_sys rf) - 2 -> (forall q, In q (rr_rew rr) -> (0 <= q)%Q) ->
  exists lp, rr_max_z_lp rr = Ok lp /\ (exists r, exact_answer lp r) /\
  forall S, exact_answer lp (S lp) -> exists v, rew_min S rr = Ok v /\ sr_status (S lp) = Optimal /\ length v = a_N (rf_sys rf) - 2 /\
    forall s, s < a_N (rf_sys rf) - 2 -> RewMinForm rf (rr_rew rr) s (Q2R (nth s v 0%Q)).
Proof. exact C52_min_lemma. Qed.
Print Assumptions C52_rew_min.

Theorem C52_rew_max : forall rr, let rf := rr_rf rr in built_form rf -> exact_rows (a_P (rf_sys rf)) -> rf_init rf < a_N (rf_sys rf) - 2 ->
  ec_free (form_mdp rf) -> length (rr_rew rr) = a_C (rf_sys rf) - 2 -> (forall q, In q (rr_rew rr) -> (0 <= q)%Q) ->
  exists lp, rew_max_lp rr = Ok lp /\ (exists r, exact_answer lp r) /\
  forall S, exact_answer lp (S lp) -> exists v, rew_max S rr = Ok v /\ sr_status (S lp) = Optimal /\ length v = a_N (rf_sys rf) - 2 /\
    forall s, s < a_N (rf_sys rf) - 2 -> RewMaxForm rf (rr_rew rr) s (Q2R (nth s v 0%Q)).
Proof. exact C52_max_lemma. Qed.
Print Assumptions C52_rew_max.

(** A form with a choice in the initial state: the expected rewards are 3 and 7. *)
Example C52_nonvacuous : let rf := rr_rf rw1rr in built_form rf /\ exact_rows (a_P (rf_sys rf)) /\ rf_init rf < a_N (rf_sys rf) - 2 /\
  ec_free (form_mdp rf) /\ length (rr_rew rw1rr) = a_C (rf_sys rf) - 2 /\ (forall q, In q (rr_rew rw1rr) -> (0 <= q)%Q) /\
  RewMinForm rf (rr_rew rw1rr) 0 3 /\ RewMaxForm rf (rr_rew rw1rr) 0 7.
Proof.
  cbv zeta. destruct rw1rr_ok as (A & B & C & D & E & F). split; [exact A|]. split; [exact B|]. split; [exact C|]. split; [exact D|]. split; [exact E|]. split; [exact F|].
  split; [exact rw1_min|exact rw1_max].
Qed.

(** C58.  The conditions are on the given system; [met], [never_lost] and
    [no_resting] are in SpecReward. *)
Theorem C58_reduce_succeeds : forall rnd rnd' m il tl, built m -> every_state_acts m -> exact_rows (a_P m) ->
  ((exists x, rr_reduce rnd rnd' m il tl = Ok x) <->
   (exists x, reduce rnd m il tl "rf_target" "rf_fail" = Ok x) /\ a_rew m <> None /\
   exists init, only_state m il init /\ never_lost m init tl /\ no_resting m init tl).
Proof. exact C58_succeeds_lemma. Qed.
Print Assumptions C58_reduce_succeeds.

Theorem C58_reduce_contents : forall rnd rnd' m il tl rr cols rows, built m -> every_state_acts m -> exact_rows (a_P m) ->
  rr_reduce rnd rnd' m il tl = Ok (rr, cols, rows) ->
  let rf := rr_rf rr in let m' := rf_sys rf in
  reduce rnd m il tl "rf_target" "rf_fail" = Ok (rf, cols, rows) /\
  built_form rf /\ exact_rows (a_P m') /\ rf_init rf < a_N m' - 2 /\ ec_free (form_mdp rf) /\
  (forall s, rtc (sys_edge m') s (a_N m' - 1) -> s = a_N m' - 1) /\
  length (rr_rew rr) = a_C m' - 2 /\ (forall q, In q (rr_rew rr) -> (0 <= q)%Q) /\
  exists r, a_rew m = Some r /\ forall s a s' i i', In ((s, a), (s', a)) rows -> a_row m (s, a) = Some i -> a_row m' (s', a) = Some i' ->
    nth_error (rr_rew rr) i' = nth_error r i.
Proof. exact C58_contents_lemma. Qed.
Print Assumptions C58_reduce_contents.

Example C58_nonvacuous : built rw1 /\ every_state_acts rw1 /\ exact_rows (a_P rw1) /\ rr_reduce exrnd exrnd rw1 "init" "goal" = Ok (rw1rr, rw1cols, rw1rows) /\
  (* a state from which the target is not reached *)
  built rw3 /\ every_state_acts rw3 /\ exact_rows (a_P rw3) /\ rr_reduce exrnd exrnd rw3 "init" "goal" = Err AssertionError.
Proof.
  split; [exact rw1_built|]. split; [exact rw1_acts|]. split; [exact rw1_exact|]. split; [exact rw1_reduce|].
  split; [exact rw3_built|]. split; [exact rw3_acts|]. split; [exact rw3_exact|vm_compute; reflexivity].
Qed.

(** C59, for systems without rewards in target states; in general it is false. *)
Theorem C59_rewards_kept_partial : forall rnd rnd' m il tl rr cols rows, built m -> every_state_acts m -> exact_rows (a_P m) -> targets_free m tl ->
  rr_reduce rnd rnd' m il tl = Ok (rr, cols, rows) -> forall s s', dget Nat.eqb cols s = Some s' ->
  (forall v, IsRewMin (mdp_of m) (label_set m tl) (sys_reward m) s v <-> RewMinForm (rr_rf rr) (rr_rew rr) s' v) /\
  (forall v, IsRewMax (mdp_of m) (label_set m tl) (sys_reward m) s v <-> RewMaxForm (rr_rf rr) (rr_rew rr) s' v).
Proof. exact C59_lemma. Qed.
Print Assumptions C59_rewards_kept_partial.

Example C59_nonvacuous : built rw1 /\ every_state_acts rw1 /\ exact_rows (a_P rw1) /\ targets_free rw1 "goal" /\
  rr_reduce exrnd exrnd rw1 "init" "goal" = Ok (rw1rr, rw1cols, rw1rows) /\ dget Nat.eqb rw1cols 0 = Some 0.
Proof. split; [exact rw1_built|]. split; [exact rw1_acts|]. split; [exact rw1_exact|]. split; [exact rw1_free|]. split; [exact rw1_reduce|reflexivity]. Qed.

(** One step to a target state with reward 5: the form collects it. *)
Theorem C59_rewards_kept_refuted : exists rnd rnd' m il tl rr cols rows s s' v w,
  built m /\ every_state_acts m /\ exact_rows (a_P m) /\ rr_reduce rnd rnd' m il tl = Ok (rr, cols, rows) /\ dget Nat.eqb cols s = Some s' /\
  IsRewMin (mdp_of m) (label_set m tl) (sys_reward m) s v /\ RewMinForm (rr_rf rr) (rr_rew rr) s' w /\ v <> w.
Proof. exact C59_refuted_lemma. Qed.
Print Assumptions C59_rewards_kept_refuted.
