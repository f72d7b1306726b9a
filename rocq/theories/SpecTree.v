(** Specification: partitions of a set of states. *)
From Coq Require Import List Arith.
Import ListNotations.

(** Every number below [n] is in exactly one part. *)
Definition partition_of (n : nat) (ps : list (list nat)) : Prop :=
  (forall i p v, nth_error ps i = Some p -> In v p -> v < n) /\
  forall v, v < n -> exists i p, nth_error ps i = Some p /\ In v p /\ forall j p', nth_error ps j = Some p' -> In v p' -> j = i.
