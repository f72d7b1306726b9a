(** Property C107: reward reachability forms made directly of systems. *)
From Coq Require Import String List Arith ZArith QArith Qreals Reals Bool Lia.
From Verif Require Import Base Num Matrix InvDict GraphSpec SccSpec SpecMdp SpecSystem SpecForm SpecBuilt SpecProb SpecReduce SpecReward SpecRewSys
  Amdp ReachForm BuiltFacts Reduce Examples Milp RewardForm RewardSys RewardSysProofs ExReward ExRewSys.
Import ListNotations.
Local Open Scope string_scope.
Local Open Scope nat_scope.

(** C107, the check: it passes exactly for systems with rewards that are in the
    form described in SpecRewSys, whatever the random priorities. *)
Theorem C107_consistency_exact_partial : forall rnd m il tl, built m ->
  (assert_system_consistency rnd m il tl = Ok tt <-> a_rew m <> None /\ exists init, in_reward_form (a_P m) (a_inv m) (has_label m) init il tl).
Proof. exact C107_consistency_lemma. Qed.
Print Assumptions C107_consistency_exact_partial.

(** C107, the value of such systems: the reduction succeeds and keeps every
    state; without rewards in the target, the minimal and maximal expected
    reward exist in every state. *)
Theorem C107_reducible_partial : forall rnd rnd' m init il tl, built m -> exact_rows (a_P m) -> a_rew m <> None -> unused m "rf_target" -> unused m "rf_fail" ->
  in_reward_form (a_P m) (a_inv m) (has_label m) init il tl ->
  exists rr cols rows, rr_reduce rnd rnd' m il tl = Ok (rr, cols, rows) /\ (forall s, s < a_N m -> exists s', dget Nat.eqb cols s = Some s') /\
    (targets_free m tl -> forall s, s < a_N m ->
       exists v w, IsRewMin (mdp_of m) (label_set m tl) (sys_reward m) s v /\ IsRewMax (mdp_of m) (label_set m tl) (sys_reward m) s w).
Proof. exact C107_reduce_lemma. Qed.
Print Assumptions C107_reducible_partial.

(** C107, the form: it is never returned.  Systems in the required form give
    AttributeError, with and without the check. *)
Theorem C107_fromsystem_refuted :
  (exists rnd m init il tl, built m /\ exact_rows (a_P m) /\ a_rew m <> None /\ in_reward_form (a_P m) (a_inv m) (has_label m) init il tl /\ unused m "rf_fail" /\
     fromsystem rnd m il tl false = Err AttributeError) /\
  (forall rnd m il tl ign, exists e, fromsystem rnd m il tl ign = Err e) /\
  (forall rnd m init il tl, built m -> a_rew m <> None -> in_reward_form (a_P m) (a_inv m) (has_label m) init il tl ->
     fromsystem rnd m il tl false = Err AttributeError /\ fromsystem rnd m il tl true = Err AttributeError).
Proof. exact C107_refuted_lemma. Qed.
Print Assumptions C107_fromsystem_refuted.

(** A system in the form (with a choice in state 0 and waiting in state 1); the
    same system with a state that rests, and without rewards, are rejected. *)
Example C107_nonvacuous : built rw1 /\ exact_rows (a_P rw1) /\ a_rew rw1 <> None /\ unused rw1 "rf_target" /\ unused rw1 "rf_fail" /\
  in_reward_form (a_P rw1) (a_inv rw1) (has_label rw1) 0 "init" "goal" /\ targets_free rw1 "goal" /\
  assert_system_consistency exrnd rw1 "init" "goal" = Ok tt /\
  built rwrest /\ assert_system_consistency exrnd rwrest "init" "goal" = Err AssertionError /\
  built rwnone /\ assert_system_consistency exrnd rwnone "init" "goal" = Err AssertionError.
Proof. exact C107_ex. Qed.
