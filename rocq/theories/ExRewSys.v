(** Examples for the systems of reward forms. *)
From Coq Require Import String List Arith ZArith QArith Qreals Reals Bool Lia.
From Verif Require Import Base Num Matrix InvDict GraphSpec SccSpec SpecMdp SpecSystem SpecForm SpecBuilt SpecReduce SpecReward SpecRewSys
  Amdp ReachForm BuiltFacts Reduce Examples Milp RewardForm RewardSys RewardSysProofs RewardReduce ExReward.
Import ListNotations.
Local Open Scope string_scope.
Local Open Scope nat_scope.

Lemma rw1_form : in_reward_form (a_P rw1) (a_inv rw1) (has_label rw1) 0 "init" "goal".
Proof.
  destruct (proj1 (C107_consistency_lemma exrnd rw1 "init" "goal" rw1_built)) as (_ & init & H); [vm_compute; reflexivity|].
  assert (init = 0). { destruct H as (_ & _ & _ & _ & LI & _). assert (L0 : has_label rw1 "init" 0) by (vm_compute; auto). pose proof (proj1 (LI 0) L0) as E. congruence. }
  subst init. exact H.
Qed.

(** State 1 may rest. *)
Definition rwrestP : mat := mat_of_rows 3 [[0; 1#2; 1#2]; [0; 1; 0]; [0; 1#2; 1#2]; [0; 1; 0]; [0; 0; 1]]%Q.
Definition rwrestI : dict (nat * nat) nat := [((0, 0), 0); ((0, 1), 1); ((1, 0), 2); ((1, 1), 3); ((2, 0), 4)].
Definition rwrest : amdp := get dummy_amdp (mk_mdp rwrestP rwrestI [] rw1L (Some [1; 3; 2; 0; 0]%Q)).
Lemma rwrest_built : built rwrest.
Proof. apply built_new. exists rwrestP, rwrestI, [], rw1L, (Some [1; 3; 2; 0; 0]%Q). split; [apply good_args_ok; vm_compute; reflexivity|]. left. vm_compute. reflexivity. Qed.

Definition rwnone : amdp := get dummy_amdp (mk_mdp rw1P rw1I [] rw1L None).
Lemma rwnone_built : built rwnone.
Proof. apply built_new. exists rw1P, rw1I, [], rw1L, None. split; [apply good_args_ok; vm_compute; reflexivity|]. left. vm_compute. reflexivity. Qed.

Lemma C107_refuted_lemma :
  (exists rnd m init il tl, built m /\ exact_rows (a_P m) /\ a_rew m <> None /\ in_reward_form (a_P m) (a_inv m) (has_label m) init il tl /\ unused m "rf_fail" /\
     fromsystem rnd m il tl false = Err AttributeError) /\
  (forall rnd m il tl ign, exists e, fromsystem rnd m il tl ign = Err e) /\
  (forall rnd m init il tl, built m -> a_rew m <> None -> in_reward_form (a_P m) (a_inv m) (has_label m) init il tl ->
     fromsystem rnd m il tl false = Err AttributeError /\ fromsystem rnd m il tl true = Err AttributeError).
Proof.
  assert (K : forall rnd m init il tl, built m -> a_rew m <> None -> in_reward_form (a_P m) (a_inv m) (has_label m) init il tl ->
     fromsystem rnd m il tl false = Err AttributeError /\ fromsystem rnd m il tl true = Err AttributeError).
  { intros rnd m init il tl B RW H. split; [|reflexivity]. rewrite C107_fromsystem_lemma. cbv iota.
    rewrite (proj2 (C107_consistency_lemma rnd m il tl B)); eauto. }
  split; [|split; [|exact K]].
  - exists exrnd, rw1, 0, "init", "goal". split; [exact rw1_built|]. split; [exact rw1_exact|]. split; [discriminate|]. split; [exact rw1_form|]. split; [vm_compute; intuition discriminate|].
    apply (K exrnd rw1 0 "init" "goal" rw1_built); [discriminate|exact rw1_form].
  - intros. rewrite C107_fromsystem_lemma. destruct (if ign then Ok tt else assert_system_consistency rnd m il tl); eauto.
Qed.

Lemma C107_ex : built rw1 /\ exact_rows (a_P rw1) /\ a_rew rw1 <> None /\ unused rw1 "rf_target" /\ unused rw1 "rf_fail" /\
  in_reward_form (a_P rw1) (a_inv rw1) (has_label rw1) 0 "init" "goal" /\ targets_free rw1 "goal" /\
  assert_system_consistency exrnd rw1 "init" "goal" = Ok tt /\
  built rwrest /\ assert_system_consistency exrnd rwrest "init" "goal" = Err AssertionError /\
  built rwnone /\ assert_system_consistency exrnd rwnone "init" "goal" = Err AssertionError.
Proof.
  split; [exact rw1_built|]. split; [exact rw1_exact|]. split; [discriminate|]. split; [vm_compute; intuition discriminate|]. split; [vm_compute; intuition discriminate|].
  split; [exact rw1_form|]. split; [exact rw1_free|]. split; [vm_compute; reflexivity|].
  split; [exact rwrest_built|]. split; [vm_compute; reflexivity|]. split; [exact rwnone_built|vm_compute; reflexivity].
Qed.
