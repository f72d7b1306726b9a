(** Specification: witnesses for expected rewards up to a tolerance. *)
From Coq Require Import String List Arith ZArith QArith Qreals Reals Bool.
From Verif Require Import Base Num SpecMdp SpecEc SpecProb SpecSub SpecLp SpecReward SpecRewSub ReachForm RewardForm.
Import ListNotations.
Local Open Scope R_scope.

(** The subsystem of the states [keep] reaches the threshold up to [d]: see
    [rew_witness]. *)
Definition rew_witness_within (rr : rrform) (md : mode) (t : Q) (d : R) (keep : nat -> bool) : Prop :=
  let rf := rr_rf rr in
  let R := restrict (form_mdp rf) keep in
  exists x, match md with Max => IsRewMax | _ => IsRewMin end R (is_goal R) (kept_reward rf (rr_rew rr) keep) (rf_init rf) x /\ Q2R t - d <= x.
