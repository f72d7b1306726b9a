(** Specification: expected accumulated rewards of Markov decision
    processes.  Independent of the model of the code. *)
From Coq Require Import String List Arith QArith Qreals Reals.
From Verif Require Import SccSpec GraphSpec SpecMdp SpecEc SpecProb SpecBuilt SpecReduce Amdp ReachForm.
Import ListNotations.
Local Open Scope R_scope.

(** Expected sum of the rewards of the first [n] rows taken from [s], with
    history [h], before a state of [T] is visited. *)
Fixpoint rew_upto (M : mdp) (T : nat -> bool) (rew : nat -> R) (sigma : scheduler) (n : nat) (h : list (nat * nat)) (s : nat) : R :=
  if T s then 0 else
  match n with
  | O => 0
  | S m => sumn (nA M) (fun r => sigma h s r *
             (rew r + sumn (nS M) (fun d => prob M r d * rew_upto M T rew sigma m ((s, r) :: h) d)))
  end.

(** [v] is the expected reward accumulated before visiting [T] from [s]
    (rewards are not negative). *)
Definition ExpRew (M : mdp) (T : nat -> bool) (rew : nat -> R) (sigma : scheduler) (s : nat) (v : R) : Prop :=
  is_lub (fun x => exists n, x = rew_upto M T rew sigma n [] s) v.

(** Minimal and maximal expected reward over all schedulers; the value exists
    for every scheduler. *)
Definition IsRewMin (M : mdp) (T : nat -> bool) (rew : nat -> R) (s : nat) (v : R) : Prop :=
  (forall sigma, valid_scheduler M sigma -> exists x, ExpRew M T rew sigma s x) /\
  is_glb (fun x => exists sigma, valid_scheduler M sigma /\ ExpRew M T rew sigma s x) v.
Definition IsRewMax (M : mdp) (T : nat -> bool) (rew : nat -> R) (s : nat) (v : R) : Prop :=
  (forall sigma, valid_scheduler M sigma -> exists x, ExpRew M T rew sigma s x) /\
  is_lub (fun x => exists sigma, valid_scheduler M sigma /\ ExpRew M T rew sigma s x) v.

(** Rewards of the rows of a form: the vector for the rows other than those of
    target and fail, zero for these two. *)
Definition row_reward (v : list Q) (r : nat) : R := Q2R (nth r v 0%Q).

(** Rewards are accumulated before the target, the state [N-2], is visited. *)
Definition RewMinForm (rf : rform) (v : list Q) (s : nat) (x : R) : Prop :=
  IsRewMin (form_mdp rf) (is_goal (form_mdp rf)) (row_reward v) s x.
Definition RewMaxForm (rf : rform) (v : list Q) (s : nat) (x : R) : Prop :=
  IsRewMax (form_mdp rf) (is_goal (form_mdp rf)) (row_reward v) s x.

(** Conditions on a system under which a reward form can be made of it.  The
    states met before the first target: *)
Definition met (m : amdp) (init : nat) (tl : string) (s : nat) : Prop :=
  reach_avoid (sys_edge m) (fun x => x = init) (has_label m tl) s.

(** ... each can reach a target, ... *)
Definition never_lost (m : amdp) (init : nat) (tl : string) : Prop :=
  forall s, met m init tl s -> can_reach m tl s.

(** ... and no end component consists of such states, none of them a target. *)
Definition no_resting (m : amdp) (init : nat) (tl : string) : Prop :=
  forall X B, end_component (a_P m) (a_inv m) X B -> ~ (forall s, X s -> met m init tl s /\ ~ has_label m tl s).

(** Rewards of the rows of a system. *)
Definition sys_reward (m : amdp) (r : nat) : R := match a_rew m with Some v => Q2R (nth r v 0%Q) | None => 0 end.

(** No reward is given in target states. *)
Definition targets_free (m : amdp) (tl : string) : Prop :=
  forall s a i, has_label m tl s -> (i < a_C m)%nat -> a_inv m i = Some (s, a) -> sys_reward m i = 0.
