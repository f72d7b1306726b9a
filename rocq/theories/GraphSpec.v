(** Specification of the graph of a system: edges read off the stored matrix
    entries, paths that do not continue through blocked states. *)
From Coq Require Import List Arith QArith.
From Verif Require Import Base Num Matrix Graph.
Import ListNotations.
Local Open Scope nat_scope.

(** The (destination, action, probability) triples of state [s]: one for each
    stored entry of a row of [s], in storage order. *)
Definition out_triples (P : mat) (inv : nat -> option (nat * nat)) (s : nat) : list (nat * nat * Q) :=
  flat_map (fun e => let '((i, d), p) := e in
     match inv i with
     | Some (s', a) => if s' =? s then [(d, a, p)] else []
     | None => []
     end) (mitems P).

(** The (source, action, probability) triples of entries leading to [d]. *)
Definition in_triples (P : mat) (inv : nat -> option (nat * nat)) (d : nat) : list (nat * nat * Q) :=
  flat_map (fun e => let '((i, d'), p) := e in
     match inv i with
     | Some (s, a) => if d' =? d then [(s, a, p)] else []
     | None => []
     end) (mitems P).

(** Successor relation of the system. *)
Definition edge (P : mat) (inv : nat -> option (nat * nat)) (s d : nat) : Prop :=
  exists i a p, In ((i, d), p) (mitems P) /\ inv i = Some (s, a).

(** [reach_avoid E from blocked t]: there is a path from a start state to [t]
    none of whose states before [t] is blocked. *)
Inductive reach_avoid (E : nat -> nat -> Prop) (from blocked : nat -> Prop) : nat -> Prop :=
| ra_start : forall s, from s -> reach_avoid E from blocked s
| ra_step : forall s t, reach_avoid E from blocked s -> ~ blocked s -> E s t ->
            reach_avoid E from blocked t.
