(** Specification: edges and end components of a Markov decision process
    (rows play the role of actions), and reachability forms. *)
From Coq Require Import List Arith Reals.
From Verif Require Import SpecMdp SccSpec.
Local Open Scope nat_scope.

Definition row_edge (M : mdp) (s r d : nat) : Prop :=
  r < nA M /\ src M r = s /\ d < nS M /\ (0 < prob M r d)%R.

Definition medge (M : mdp) (s d : nat) : Prop := exists r, row_edge M s r d.

(** [X] with the rows [B] is an end component; [s] lies in one. *)
Definition mdp_ec (M : mdp) : (nat -> Prop) -> (nat -> nat -> Prop) -> Prop := ec_of (row_edge M).
Definition in_ec (M : mdp) (s : nat) : Prop := exists X B, mdp_ec M X B /\ X s.

Definition goal (M : mdp) : nat := nS M - 2.
Definition fail (M : mdp) : nat := nS M - 1.
Definition is_goal (M : mdp) (s : nat) : bool := s =? goal M.

(** Goal and fail are the last two states, each with one row (the last two)
    leading to itself only. *)
Definition shape_mdp (M : mdp) : Prop :=
  wf_mdp M /\ 2 <= nS M /\ 2 <= nA M /\
  (forall r, r < nA M - 2 -> src M r < nS M - 2) /\
  (src M (nA M - 2) = goal M /\ prob M (nA M - 2) (goal M) = 1%R) /\
  (src M (nA M - 1) = fail M /\ prob M (nA M - 1) (fail M) = 1%R).

(** Reachability form: moreover every state other than fail is reachable from
    [init] and reaches goal. *)
Definition rf_mdp (M : mdp) (init : nat) : Prop :=
  shape_mdp M /\
  (forall s, s < nS M -> s <> fail M -> rtc (medge M) init s) /\
  (forall s, s < nS M -> s <> fail M -> rtc (medge M) s (goal M)).

(** No state except goal and fail lies in an end component. *)
Definition ec_free (M : mdp) : Prop := forall s, s < nS M - 2 -> ~ in_ec M s.
