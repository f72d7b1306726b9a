(** Specification: number of labels of a set of states. *)
From Coq Require Import String List Arith Bool.
From Verif Require Import Base SpecBuilt Amdp.
Import ListNotations.
Local Open Scope nat_scope.

(** [j] of the labels [ls] (each counted once) belong to a state in [keep]
    other than target and fail. *)
Definition label_count (m : amdp) (ls : list string) (keep : nat -> bool) (j : nat) : Prop :=
  exists ks, NoDup ks /\ length ks = j /\
    forall l, In l ks <-> In l ls /\ exists s, s < a_N m - 2 /\ keep s = true /\ has_label m l s.

(** No label of [ls] belongs to target, fail or a number that is no state. *)
Definition inner_labels (m : amdp) (ls : list string) : Prop := forall l s, In l ls -> has_label m l s -> s < a_N m - 2.
