(** Specification: certificates and witnesses for expected rewards. *)
From Coq Require Import String List Arith ZArith QArith Qreals Reals Bool.
From Verif Require Import Base Num Matrix SccSpec SpecMdp SpecEc SpecSystem SpecForm SpecBuilt SpecProb SpecSub SpecLp SpecReward Amdp ReachForm RewardForm.
Import ListNotations.
Local Open Scope nat_scope.

(** Rewards of a subsystem: the rows of kept states keep theirs, the others
    give nothing. *)
Definition kept_reward (rf : rform) (v : list Q) (keep : nat -> bool) (r : nat) : R :=
  if keep (src (form_mdp rf) r) then row_reward v r else 0%R.

(** The subsystem of the states [keep] reaches the threshold: minimal (maximal)
    expected reward, everything that leaves [keep] going to fail, where no
    reward is collected. *)
Definition rew_witness (rr : rrform) (md : mode) (t : Q) (keep : nat -> bool) : Prop :=
  let rf := rr_rf rr in
  let R := restrict (form_mdp rf) keep in
  exists x, match md with Max => IsRewMax | _ => IsRewMin end R (is_goal R) (kept_reward rf (rr_rew rr) keep) (rf_init rf) x /\ (Q2R t <= x)%R.

(** What RewardReachabilityForm.reduce guarantees (C58): a reachability form
    without proper end components, one non-negative reward per row. *)
Definition reward_form (rr : rrform) : Prop :=
  let rf := rr_rf rr in
  built_form rf /\ exact_rows (a_P (rf_sys rf)) /\ rf_init rf < a_N (rf_sys rf) - 2 /\ ec_free (form_mdp rf) /\
  length (rr_rew rr) = a_C (rf_sys rf) - 2 /\ forall q, In q (rr_rew rr) -> (0 <= q)%Q.

(** Optimal expected reward from the initial state. *)
Definition rew_opt (rr : rrform) (md : mode) (v : R) : Prop :=
  match md with Max => RewMaxForm | _ => RewMinForm end (rr_rf rr) (rr_rew rr) (rf_init (rr_rf rr)) v.

(** Real points of the polytopes of certificates for rewards, z and y. *)
Definition rew_polytope (rr : rrform) (md : mode) (t : Q) (x : nat -> R) : Prop :=
  let rf := rr_rf rr in let m := rf_sys rf in let P := a_P m in let N := a_N m - 2 in let C := a_C m - 2 in
  match md with
  | Min =>
      (forall i s a, i < C -> a_inv m i = Some (s, a) ->
         (x s <= row_reward (rr_rew rr) i + sumn N (fun d => Q2R (mget P i d) * x d))%R) /\
      (Q2R t <= x (rf_init rf))%R /\ forall s, s < N -> (0 <= x s)%R
  | Max =>
      (forall s, s < N ->
         (sumn C (fun i => if belongs (a_inv m) i s then x i else 0) - sumn C (fun i => Q2R (mget P i s) * x i)
            <= if s =? rf_init rf then 1 else 0)%R) /\
      (Q2R t <= sumn C (fun i => row_reward (rr_rew rr) i * x i))%R /\ forall i, i < C -> (0 <= x i)%R
  | OtherMode => False
  end.
