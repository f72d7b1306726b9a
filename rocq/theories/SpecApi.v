(** Specification for C105: which matrix or vector a Python object stands for. *)
From Coq Require Import String List Arith QArith.
From Verif Require Import Base SolverApi.
Import ListNotations.
Local Open Scope nat_scope.

(** What an argument denotes: a matrix with [n] columns. *)
Definition is_matrix (o : pyobj) (n : nat) (M : list (list Q)) : Prop :=
  (forall row, In row M -> length row = n) /\
  match o with
  | ORows l => l = M /\ M <> []
  | OArr2 k l | OSparse k l => k = n /\ l = M
  | _ => False
  end.
(** ... a vector: a list, or the first column of a matrix *)
Definition first_of (row : list Q) (q : Q) : Prop := nth_error row 0 = Some q.
Definition is_vector (o : pyobj) (v : list Q) : Prop :=
  match o with
  | OList l | OArr1 l => l = v /\ v <> []
  | ORows l => (exists k, forall row, In row l -> length row = k) /\ Forall2 first_of l v /\ v <> []
  | OArr2 k l | OSparse k l => (forall row, In row l -> length row = k) /\ Forall2 first_of l v
  | ONone => False
  end.
