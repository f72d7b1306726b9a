(** Exact reading of rows of doubles. *)
From Coq Require Import List Reals.
From Flocq Require Import Core BinarySingleNaN.
From Verif Require Import FloatRow.
Import ListNotations.
Local Open Scope R_scope.

(** The real number that a finite double stands for. *)
Definition dval (p : double) : R := B2R p.
(** The sum of a row without rounding. *)
Fixpoint exact_sum (row : list double) : R :=
  match row with [] => 0 | p :: r => dval p + exact_sum r end.
