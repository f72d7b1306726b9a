(** Specification: what one threshold of a benchmark run contributes. *)
From Coq Require Import List ZArith QArith.
From Verif Require Import Base Milp Problems.
Import ListNotations.

(** The results of one threshold contain an infeasible one, before (if the run
    stops at timeouts) any other failure. *)
Definition infeasible_at (stop : bool) (g : gen) : Prop :=
  exists l1 r l2, g_items g = l1 ++ r :: l2 /\ pr_status r = Failed Infeasible /\
    forall x, In x l1 -> pr_status x <> Failed Infeasible /\ (stop = true -> pr_status x = Success).

(** The run stops at this threshold because of another failure; recorded are
    the values so far and -1. *)
Definition timeout_at (stop : bool) (g : gen) (vals : list (option Q)) : Prop :=
  stop = true /\ exists l1 r l2 s, g_items g = l1 ++ r :: l2 /\ pr_status r = Failed s /\ s <> Infeasible /\
    (forall x, In x l1 -> pr_status x = Success) /\ vals = map pr_value l1 ++ [Some (-1)%Q].

(** All results of this threshold are recorded: the value of a success, -1 for
    a failure. *)
Definition recorded (r : presult) (v : option Q) : Prop :=
  (pr_status r = Success /\ v = pr_value r) \/ (exists s, pr_status r = Failed s /\ v = Some (-1)%Q).
Definition complete_at (stop : bool) (g : gen) (vals : list (option Q)) : Prop :=
  g_exn g = None /\ Forall2 recorded (g_items g) vals /\
  forall x, In x (g_items g) -> pr_status x <> Failed Infeasible /\ (stop = true -> pr_status x = Success).
