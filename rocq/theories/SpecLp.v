(** Specification: which assignments satisfy a linear model, and what an
    optimal solution is.  Assignments are real valued. *)
From Coq Require Import List Arith ZArith QArith Qreals Reals.
From Verif Require Import Base SpecMdp Milp.
Import ListNotations.
Local Open Scope R_scope.

(** Value of a linear form given as variable/coefficient pairs. *)
Fixpoint lin (e : list (nat * Q)) (x : nat -> R) : R :=
  match e with [] => 0 | (v, q) :: r => Q2R q * x v + lin r x end.

Definition rel (s : csense) (a b : R) : Prop :=
  match s with SLe => a <= b | SEq => a = b | SGe => a >= b | OtherSense => False end.

Definition sat_constr (x : nat -> R) (c : constr) : Prop := rel (c_sense c) (lin (c_lhs c) x) (Q2R (c_rhs c)).

Definition above (lb : option Q) (r : R) : Prop := match lb with Some q => Q2R q <= r | None => True end.
Definition below (ub : option Q) (r : R) : Prop := match ub with Some q => r <= Q2R q | None => True end.
Definition is_int (r : R) : Prop := exists z : Z, r = IZR z.

Definition sat_var (v : lpvar) (r : R) : Prop := above (v_lb v) r /\ below (v_ub v) r /\ (v_int v = true -> is_int r).

Definition feasible (m : milp) (x : nat -> R) : Prop :=
  (forall j v, nth_error (mi_vars m) j = Some v -> sat_var v (x j)) /\
  (forall k c, In (k, c) (mi_constrs m) -> sat_constr x c).

Definition objective (m : milp) (x : nat -> R) : R :=
  match mi_obj m with Some e => lin e x | None => 0 end.

(** [a] is at least as good as [b]. *)
Definition better (d : direction) (a b : R) : Prop := match d with Maximise => b <= a | _ => a <= b end.

Definition vec (l : list Q) (j : nat) : R := Q2R (nth j l 0%Q).

Definition optimal (m : milp) (x : nat -> R) : Prop :=
  feasible m x /\ forall x', feasible m x' -> better (mi_dir m) (objective m x) (objective m x').

(** A correct answer: "optimal" comes with an optimal assignment and its
    value, "infeasible" and "unbounded" are true, nothing else is answered. *)
Definition exact_answer (m : milp) (r : sresult) : Prop :=
  match sr_status r with
  | Optimal => length (sr_vec r) = length (mi_vars m) /\ optimal m (vec (sr_vec r)) /\ Q2R (sr_val r) = objective m (vec (sr_vec r))
  | Infeasible => forall x, ~ feasible m x
  | Unbounded => (exists x, feasible m x) /\ forall B, exists x, feasible m x /\ ~ better (mi_dir m) B (objective m x)
  | Undefined | NotSolved => False
  end.

Definition exact_solver (S : solver) : Prop := forall m, exact_answer m (S m).

(** Weaker: an answer "optimal" comes with an assignment satisfying the
    model. *)
Definition sound_solver (S : solver) : Prop :=
  forall m, sr_status (S m) = Optimal -> length (sr_vec (S m)) = length (mi_vars m) /\ feasible m (vec (sr_vec (S m))).

(** Bounds and domain of a variable, as requested. *)
Definition sat_dom (d : domain) (lb ub : option Q) (r : R) : Prop :=
  match d with
  | DReal => above lb r /\ below ub r
  | DInteger => above lb r /\ below ub r /\ is_int r
  | DBinary => r = 0%R \/ r = 1%R
  | OtherDomain => False
  end.

Definition bound_at (bounds : option (list (option Q * option Q))) (j : nat) : option Q * option Q :=
  match bounds with None => (None, None) | Some bs => nth j bs (None, None) end.

(** The model contains a constraint; it contains "variable j equals zero". *)
Definition has_constr (m : milp) (c : constr) : Prop := exists k, In (k, c) (mi_constrs m).
Definition pinned (m : milp) (j : nat) : Prop := has_constr m (MkConstr [(j, 1%Q)] SEq 0%Q).
