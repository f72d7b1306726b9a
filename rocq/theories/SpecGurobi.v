(** Specification: when two models are interchangeable, and which forms give
    constraints without variables. *)
From Coq Require Import String List Arith ZArith QArith Qreals Reals Bool.
From Verif Require Import Base Num Matrix SpecLp Amdp ReachForm RewardForm Milp Gurobi.
Import ListNotations.
Local Open Scope nat_scope.

(** Same variables, same solutions, same objective. *)
Definition same_model (m m' : milp) : Prop :=
  mi_dir m = mi_dir m' /\ mi_vars m = mi_vars m' /\ (forall x, feasible m x <-> feasible m' x) /\ forall x, objective m x = objective m' x.

(** No pair of the form stays in its state with probability one. *)
Definition no_unit_loop (rf : rform) : Prop :=
  forall i s a, i < a_C (rf_sys rf) - 2 -> a_inv (rf_sys rf) i = Some (s, a) -> ~ (mget (a_P (rf_sys rf)) i s == 1)%Q.

(** Some reward is not zero. *)
Definition some_reward (rr : rrform) : Prop := exists q, In q (rr_rew rr) /\ ~ (q == 0)%Q.

(** Results of the two versions of construct_MILP: none, the same groups with
    interchangeable models, or both an exception ([asrt] allows the first to be
    a failed assertion). *)
Definition same_result (asrt : bool) (r r' : res (option (milp * dict nat (list nat)))) : Prop :=
  match r, r' with
  | Ok None, Ok None => True
  | Ok (Some (m, ind)), Ok (Some (m', ind')) => same_model m m' /\ ind = ind'
  | Err e, Err e' => e = e' \/ asrt = true /\ e = AssertionError
  | _, _ => False
  end.

(** Models made by GurobiMILP(objective) and any later calls of
    add_variables_w_bounds, set_objective_function and add_constraint. *)
Inductive g_made : milp -> Prop :=
| g_new : forall o m, milp_new o = Ok m -> g_made m
| g_var : forall m d lb ub v, g_made m -> g_mk_var d lb ub = Ok v -> g_made (push_var m v)
| g_obj : forall m e m', g_made m -> g_set_objective m e = Ok m' -> g_made m'
| g_con : forall m l s r m' i, g_made m -> g_add_constraint m l s r = Ok (m', i) -> g_made m'.
