(** Specification: when a labelled system is in reachability form, and what
    the Farkas constraints say. *)
From Coq Require Import String List Arith ZArith QArith Bool.
From Verif Require Import Base Num Matrix GraphSpec SccSpec.
Import ListNotations.
Local Open Scope nat_scope.

(** State [s] has exactly one transition: a self-loop in row [i]. *)
Definition only_loop (P : mat) (inv : nat -> option (nat * nat)) (s i : nat) : Prop :=
  (exists a p, inv i = Some (s, a) /\ In ((i, s), p) (mitems P)) /\
  (forall i' d a p, inv i' = Some (s, a) -> In ((i', d), p) (mitems P) -> i' = i /\ d = s).

(** [lab l s]: state [s] has label [l]. *)
Definition in_reach_form (P : mat) (inv : nat -> option (nat * nat)) (lab : string -> nat -> Prop)
    (init : nat) (il tl fl : string) : Prop :=
  let N := mcols P in let C := mrows P in
  (il <> tl /\ il <> fl /\ tl <> fl) /\ 2 <= N /\ 2 <= C /\ init < N /\
  (forall s, lab il s <-> s = init) /\ (forall s, lab tl s <-> s = N - 2) /\ (forall s, lab fl s <-> s = N - 1) /\
  only_loop P inv (N - 2) (C - 2) /\ only_loop P inv (N - 1) (C - 1) /\
  (forall s, s < N -> s <> N - 1 -> rtc (edge P inv) init s) /\
  (forall s, s < N -> s <> N - 1 -> rtc (edge P inv) s (N - 2)).

Definition entry (v : list Q) (i : nat) : Q := nth i v 0%Q.
Definition sum_to (n : nat) (f : nat -> Q) : Q := sumQ (map f (seq 0 n)).

(** Documented meaning of the z-constraints "(A z <= b, z(init) >= t)". *)
Definition z_constraints (P : mat) (inv : nat -> option (nat * nat)) (init : nat) (t : Q) (z : list Q) : Prop :=
  let N := mcols P - 2 in
  (forall i s a, i < mrows P - 2 -> inv i = Some (s, a) ->
     (entry z s <= sum_to N (fun d => mget P i d * entry z d) + mget P i N)%Q) /\
  (t <= entry z init)%Q.

(** Documented meaning of the y-constraints "(y A <= delta, y b >= t)":
    outflow minus inflow is at most one for the initial state and at most
    zero for the others. *)
Definition belongs (inv : nat -> option (nat * nat)) (i s : nat) : bool :=
  match inv i with Some (s', _) => s' =? s | None => false end.

Definition y_constraints (P : mat) (inv : nat -> option (nat * nat)) (init : nat) (t : Q) (y : list Q) : Prop :=
  let N := mcols P - 2 in let C := mrows P - 2 in
  (forall s, s < N ->
     (sum_to C (fun i => if belongs inv i s then entry y i else 0) - sum_to C (fun i => mget P i s * entry y i)
        <= if s =? init then 1 else 0)%Q) /\
  (t <= sum_to C (fun i => mget P i N * entry y i))%Q.
