(** Exact reading of forms and vectors of doubles. *)
From Coq Require Import List Arith ZArith QArith Qreals Reals Permutation.
From Flocq Require Import Core BinarySingleNaN.
From Verif Require Import Base Num Matrix Amdp ReachForm FloatRow SpecFloatRow.
Import ListNotations.
Local Open Scope nat_scope.

(** The rational number that a finite double stands for: m * 2^e. *)
Definition dq (p : double) : Q :=
  match p with
  | B754_finite s m e _ =>
      let z := if s then Z.neg m else Z.pos m in
      match e with Z.neg k => (z # (2 ^ k))%Q | Z0 => inject_Z z | Z.pos k => inject_Z (z * 2 ^ Z.pos k) end
  | _ => 0%Q
  end.
(** Neither infinite nor NaN. *)
Definition finite (p : double) : Prop := is_finite p = true.

(** The doubles [pd] are exactly the numbers of the form. *)
Definition double_form (rf : rform) (pd : nat -> nat -> double) : Prop :=
  forall i d, i < a_C (rf_sys rf) - 2 -> d < a_N (rf_sys rf) - 1 ->
  finite (pd i d) /\ dval (pd i d) = Q2R (mget (a_P (rf_sys rf)) i d).

(** A way to order the entries of the rows. *)
Definition arrangement (arr : nat -> list (nat * double) -> list (nat * double)) : Prop := forall k l, Permutation (arr k l) l.

(** The rounding error of one line of a check: [n] states and rows, vectors
    with entries up to [B]. *)
Definition round_err (n : nat) (B : Q) : Q := (inject_Z (Z.of_nat (n * n)) * B * (1 # (2 ^ 50)))%Q.

(** A row with an entry one has no other entry (rows may sum to a little more
    than one). *)
Definition sole_one (rf : rform) : Prop :=
  forall i d d', (mget (a_P (rf_sys rf)) i d == 1)%Q -> (0 < mget (a_P (rf_sys rf)) i d')%Q -> d' = d.
