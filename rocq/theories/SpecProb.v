(** Specification: reachability probabilities of a reachability form.  The
    target is the state [N-2]. *)
From Coq Require Import List Arith ZArith QArith Qreals Reals Bool.
From Verif Require Import Base Num Matrix SpecMdp SpecEc SpecSystem Amdp ReachForm.
Import ListNotations.
Local Open Scope nat_scope.

(** The Markov decision process of a system. *)
Definition mdp_of (m : amdp) : mdp := sys_mdp (a_P m) (a_inv m).
Definition form_mdp (rf : rform) : mdp := mdp_of (rf_sys rf).

(** [p] is the probability of reaching the target from [s] under [sigma]. *)
Definition PrForm (rf : rform) (sigma : scheduler) (s : nat) (p : R) : Prop :=
  Pr (form_mdp rf) (is_goal (form_mdp rf)) sigma s p.

Definition PrMinForm (rf : rform) (s : nat) (p : R) : Prop := IsPrMin (form_mdp rf) (is_goal (form_mdp rf)) s p.
Definition PrMaxForm (rf : rform) (s : nat) (p : R) : Prop := IsPrMax (form_mdp rf) (is_goal (form_mdp rf)) s p.
