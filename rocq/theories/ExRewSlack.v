(** Examples: answers on a reward form that satisfy the models up to a tolerance
    only. *)
From Coq Require Import String List Arith ZArith QArith Qreals Reals Bool Lia Lra.
From Verif Require Import Base BaseFacts Num Matrix SpecMdp SpecLp SpecReward SpecRewSub SpecSlack Amdp ReachForm Milp Subsystem Formulations Problems MilpFinal QsWeights Examples ExProofs2 ExProofs5
  RewardForm RewProblems ExReward ExRewCert ExSlack.
Import ListNotations.
Local Open Scope nat_scope.

(** The values are 3/16 and 7/16, the thresholds 1/5 and 9/20, the tolerance
    1/50. *)
Definition rslack_z : list Q := [1 # 5; 1 # 4; 0; 1; 1; 0]%Q.
Definition rslack_y : list Q := [0; 1; 2; 1; 1; 1; 1; 1]%Q.
Definition rslack_mm : milp * dict nat (list nat) := Eval vm_compute in some_milp (rr_construct_milp sized_ex rwqrr (1 # 5) Min None false None).
Lemma rslack_mm_ok : rr_construct_milp sized_ex rwqrr (1 # 5) Min None false None = Ok (Some rslack_mm).
Proof. vm_compute. reflexivity. Qed.
