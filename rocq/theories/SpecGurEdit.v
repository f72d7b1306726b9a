(** Specification: what calls of a model's methods demand of its variables. *)
From Coq Require Import List Arith ZArith QArith Qreals Reals Bool.
From Verif Require Import Base Milp SpecLp GurEdit.
Import ListNotations.
Local Open Scope nat_scope.

(** Coefficients of all variables, sense and right hand side. *)
Record demand := MkDemand { d_coef : nat -> Q; d_sense : csense; d_rhs : Q }.

Fixpoint dot (n : nat) (c : nat -> Q) (x : nat -> R) : R :=
  match n with 0 => 0%R | S k => (dot k c x + Q2R (c k) * x k)%R end.
Definition meets (n : nat) (x : nat -> R) (d : demand) : Prop := rel (d_sense d) (dot n (d_coef d) x) (Q2R (d_rhs d)).

(** Coefficient of [v] in a sum, in which variables may be repeated. *)
Fixpoint total (l : list (nat * Q)) (v : nat) : Q :=
  match l with [] => 0%Q | (w, q) :: r => if w =? v then (q + total r v)%Q else total r v end.

(** Replace entry [i]. *)
Fixpoint put {A} (i : nat) (a : A) (l : list A) : list A :=
  match l, i with [], _ => [] | _ :: r, 0 => a :: r | b :: r, S j => b :: put j a r end.

(** Number of variables, and the demand that each number given out by
    add_constraint stands for (None: removed). *)
Definition ledger := (nat * list (option demand))%type.
Definition post (st : ledger) (o : edit) : ledger :=
  let '(n, ds) := st in
  match o with
  | EVar d _ _ => match d with OtherDomain => (n, ds) | _ => (S n, ds) end
  | EObj _ => (n, ds)
  | EAdd l s r =>
      if match s with OtherSense => false | _ => true end && negb (length l =? 0) && forallb (fun p => fst p <? n) l
      then (n, ds ++ [Some (MkDemand (total l) s r)]) else (n, ds)
  | ECoef i q v =>
      match nth_error ds i with
      | Some (Some d) => if v <? n then (n, put i (Some (MkDemand (fun w => if w =? v then q else d_coef d w) (d_sense d) (d_rhs d))) ds) else (n, ds)
      | _ => (n, ds)
      end
  | ERemove i => match nth_error ds i with Some (Some _) => (n, put i None ds) | _ => (n, ds) end
  end.
