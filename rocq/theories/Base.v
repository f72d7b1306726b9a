(** Common vocabulary of the model: exceptions as values, insertion ordered
    dictionaries and duplicate-free sets.  No code of /repo is modelled here;
    these are the python built-ins the model is written in. *)
From Coq Require Import List Arith Bool.
Import ListNotations.

(** Exceptions python code can raise.  [OutOfBounds] stands for an access
    outside a C array (undefined behaviour in the cython code), [OutOfFuel]
    for a loop that has not finished within the given number of steps. *)
Inductive exn :=
| AssertionError | KeyError | IndexError | StopIteration | TypeError
| NameError | AttributeError | ZeroDivisionError | ValueError
| ValueDuplicationError | OutOfBounds | OutOfFuel.

Inductive res (A : Type) :=
| Ok (a : A)
| Err (e : exn).
Arguments Ok {A} a.
Arguments Err {A} e.

Definition bind {A B} (r : res A) (f : A -> res B) : res B :=
  match r with Ok a => f a | Err e => Err e end.

Notation "'let*' x := r 'in' k" := (bind r (fun x => k))
  (at level 200, x pattern, r at level 100, k at level 200, right associativity).

Definition assert_ (b : bool) : res unit :=
  if b then Ok tt else Err AssertionError.

(** Fold with early exit, a python [for] loop whose body may raise. *)
Fixpoint foldM {A S} (f : S -> A -> res S) (l : list A) (s : S) : res S :=
  match l with
  | [] => Ok s
  | x :: r => let* s' := f s x in foldM f r s'
  end.

Fixpoint mapM {A B} (f : A -> res B) (l : list A) : res (list B) :=
  match l with
  | [] => Ok []
  | x :: r => let* y := f x in let* ys := mapM f r in Ok (y :: ys)
  end.

Definition of_opt {A} (e : exn) (o : option A) : res A :=
  match o with Some a => Ok a | None => Err e end.

(** Arrays as lists. *)
Fixpoint upd {A} (l : list A) (i : nat) (x : A) : list A :=
  match l, i with
  | [], _ => []
  | _ :: r, O => x :: r
  | y :: r, S j => y :: upd r j x
  end.

(** Python dictionaries: insertion ordered, assignment to an existing key
    keeps its position. *)
Section Dict.
  Context {K V : Type} (eqb : K -> K -> bool).

  Definition dict := list (K * V).

  Fixpoint dget (d : dict) (k : K) : option V :=
    match d with
    | [] => None
    | (k', v) :: r => if eqb k k' then Some v else dget r k
    end.

  Definition dmem (d : dict) (k : K) : bool :=
    match dget d k with Some _ => true | None => false end.

  Fixpoint dset (d : dict) (k : K) (v : V) : dict :=
    match d with
    | [] => [(k, v)]
    | (k', v') :: r => if eqb k k' then (k', v) :: r else (k', v') :: dset r k v
    end.

  Fixpoint ddel (d : dict) (k : K) : dict :=
    match d with
    | [] => []
    | (k', v') :: r => if eqb k k' then r else (k', v') :: ddel r k
    end.

  Definition dkeys (d : dict) : list K := map fst d.
  Definition dvals (d : dict) : list V := map snd d.
End Dict.
Arguments dict K V : clear implicits.

(** Python sets: duplicate-free lists. *)
Section PySet.
  Context {A : Type} (eqb : A -> A -> bool).

  Definition smem (x : A) (s : list A) : bool := existsb (eqb x) s.

  Definition sadd (s : list A) (x : A) : list A :=
    if smem x s then s else s ++ [x].

  Definition srem (s : list A) (x : A) : list A :=
    filter (fun y => negb (eqb x y)) s.
End PySet.

Definition pair_eqb (p q : nat * nat) : bool :=
  Nat.eqb (fst p) (fst q) && Nat.eqb (snd p) (snd q).
