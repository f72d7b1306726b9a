(** Model of switss/solver/milp.py 456-458 and 478-485: GurobiMILP.add_to_constraint
    and remove_constraint.  Nothing in the library calls them.

    Numbers of constraints and variables are naturals (python also accepts
    negative ones and counts from the end).  The list self.__constraints of the
    code is [mi_constrs] of Milp.v: entry [i] is the constraint with the key
    [CName i], and None if there is no such key and [i < mi_count].

    gurobipy behaviour used here: [chgCoeff] replaces the coefficient of the
    variable; [chgCoeff] and [remove] raise an exception for None (which one is
    not claimed; it is written TypeError here) and have no effect then.  The
    constraint is taken to be part of the model already, that is, Gurobi has
    processed its addition. *)
From Coq Require Import String List Arith ZArith QArith Bool.
From Verif Require Import Base Num Matrix InvDict Graph Amdp ReachForm Milp Gurobi.
Import ListNotations.
Local Open Scope nat_scope.

(** 457, 484: [self.__constraints[constridx]], used as a constraint. *)
Definition g_constraint (m : milp) (i : nat) : res constr :=
  if i <? mi_count m then of_opt TypeError (dget ckey_eqb (mi_constrs m) (CName i)) else Err IndexError.

(** 456-458 *)
Definition g_add_to_constraint (m : milp) (i : nat) (q : Q) (v : nat) : res milp :=
  let* _ := if i <? mi_count m then Ok tt else Err IndexError in
  let* _ := if v <? length (mi_vars m) then Ok tt else Err IndexError in
  let* c := g_constraint m i in
  Ok (MkMilp (mi_dir m) (mi_vars m) (dset ckey_eqb (mi_constrs m) (CName i) (MkConstr (dset Nat.eqb (c_lhs c) v q) (c_sense c) (c_rhs c))) (mi_count m) (mi_obj m)).

(** 478-485 *)
Definition g_remove_constraint (m : milp) (i : nat) : res milp :=
  let* _ := g_constraint m i in
  Ok (MkMilp (mi_dir m) (mi_vars m) (ddel ckey_eqb (mi_constrs m) (CName i)) (mi_count m) (mi_obj m)).

(** Calls of the methods of a model; a call that raises leaves it unchanged.
    [EVar] is add_variables_w_bounds with one variable. *)
Inductive edit :=
| EVar (d : domain) (lb ub : option Q)
| EObj (e : list (nat * Q))
| EAdd (l : list (nat * Q)) (s : csense) (r : Q)
| ECoef (i : nat) (q : Q) (v : nat)
| ERemove (i : nat).
Definition or_same (m : milp) (r : res milp) : milp := match r with Ok m' => m' | Err _ => m end.
Definition do_edit (m : milp) (o : edit) : milp :=
  or_same m match o with
  | EVar d lb ub => let* (m', _) := g_add_variables_w_bounds m [(d, lb, ub)] in Ok m'
  | EObj e => g_set_objective m e
  | EAdd l s r => let* (m', _) := g_add_constraint m l s r in Ok m'
  | ECoef i q v => g_add_to_constraint m i q v
  | ERemove i => g_remove_constraint m i
  end.
