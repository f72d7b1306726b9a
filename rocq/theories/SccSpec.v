(** Specification for strongly connected components and end components:
    reachability inside a set of states using only state-action pairs that
    cannot leave the set. *)
From Coq Require Import List Arith QArith.
From Verif Require Import Base Num Matrix Graph.
Import ListNotations.
Local Open Scope nat_scope.

(** Reflexive transitive closure. *)
Inductive rtc {A} (R : A -> A -> Prop) : A -> A -> Prop :=
| rtc_refl : forall x, rtc R x x
| rtc_step : forall x y z, R x y -> rtc R y z -> rtc R x z.

(** [s] has an action leading to [d] (with a stored entry) all of whose
    successors are in [X]. *)
Definition stay_edge (P : mat) (inv : nat -> option (nat * nat)) (X : nat -> Prop) (s d : nat) : Prop :=
  exists i a p, In ((i, d), p) (mitems P) /\ inv i = Some (s, a) /\
    forall i' d' p', In ((i', d'), p') (mitems P) -> inv i' = Some (s, a) -> X d'.

Definition mutual {A} (R : A -> A -> Prop) (x y : A) : Prop := rtc R x y /\ rtc R y x.

(** End components of a system given by its edges ([pe s a d]: the pair (s,a)
    has [d] as possible successor): a set of states [X] and a set [B] of
    state-action pairs such that [X] is not empty, every state of [X] has a
    pair in [B], pairs in [B] belong to states of [X], exist and lead only to
    states of [X], and [X] is strongly connected by [B]. *)
Definition ec_of (pe : nat -> nat -> nat -> Prop) (X : nat -> Prop) (B : nat -> nat -> Prop) : Prop :=
  (exists s, X s) /\
  (forall s, X s -> exists a, B s a) /\
  (forall s a, B s a -> X s /\ (exists d, pe s a d) /\ forall d, pe s a d -> X d) /\
  (forall s t, X s -> X t -> rtc (fun u v => exists a, B u a /\ pe u a v) s t).

Definition pair_edge (P : mat) (inv : nat -> option (nat * nat)) (s a d : nat) : Prop :=
  exists i p, In ((i, d), p) (mitems P) /\ inv i = Some (s, a).

Definition end_component (P : mat) (inv : nat -> option (nat * nat)) : (nat -> Prop) -> (nat -> nat -> Prop) -> Prop :=
  ec_of (pair_edge P inv).

Definition in_some_ec (P : mat) (inv : nat -> option (nat * nat)) (s : nat) : Prop :=
  exists X B, end_component P inv X B /\ X s.
