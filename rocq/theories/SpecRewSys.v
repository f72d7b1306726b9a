(** Specification of the systems a reward reachability form is to be made of. *)
From Coq Require Import String List Arith QArith.
From Verif Require Import Base Num Matrix GraphSpec SccSpec SpecForm.
Import ListNotations.
Local Open Scope nat_scope.

(** [lab l s]: state [s] has label [l].  There is one initial state and one
    target; the target is the last state, owns only the last row and stays
    there; every state is met and can reach the target; no other state is in an
    end component. *)
Definition in_reward_form (P : mat) (inv : nat -> option (nat * nat)) (lab : string -> nat -> Prop) (init : nat) (il tl : string) : Prop :=
  let N := mcols P in let C := mrows P in
  il <> tl /\ 1 <= N /\ 1 <= C /\ init < N /\
  (forall s, lab il s <-> s = init) /\ (forall s, lab tl s <-> s = N - 1) /\
  only_loop P inv (N - 1) (C - 1) /\
  (forall s, s < N -> rtc (edge P inv) init s) /\
  (forall s, s < N -> rtc (edge P inv) s (N - 1)) /\
  (forall s, s < N - 1 -> ~ in_some_ec P inv s).
