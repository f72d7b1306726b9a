(** Specification: solvers that satisfy bounds, integrality and constraints
    only up to a tolerance, as floating point solvers do. *)
From Coq Require Import String List Arith ZArith QArith Qreals Reals Bool.
From Verif Require Import Base Num SpecMdp SpecEc SpecProb SpecSub SpecLp ReachForm Milp.
Import ListNotations.
Local Open Scope R_scope.

Definition rel_within (eps : R) (s : csense) (a b : R) : Prop :=
  match s with SLe => a <= b + eps | SEq => b - eps <= a <= b + eps | SGe => b - eps <= a | OtherSense => False end.

Definition near_int (eps r : R) : Prop := exists z : Z, IZR z - eps <= r <= IZR z + eps.

Definition var_within (eps : R) (v : lpvar) (r : R) : Prop :=
  above (v_lb v) (r + eps) /\ below (v_ub v) (r - eps) /\ (v_int v = true -> near_int eps r).

Definition feasible_within (eps : R) (m : milp) (x : nat -> R) : Prop :=
  (forall j v, nth_error (mi_vars m) j = Some v -> var_within eps v (x j)) /\
  (forall k c, In (k, c) (mi_constrs m) -> rel_within eps (c_sense c) (lin (c_lhs c) x) (Q2R (c_rhs c))).

(** An answer "optimal" has one entry per variable, satisfies the model up to
    the tolerance, and its value is that of the objective up to the
    tolerance. *)
Definition answer_within (eps : R) (m : milp) (r : sresult) : Prop :=
  sr_status r = Optimal -> length (sr_vec r) = length (mi_vars m) /\ feasible_within eps m (vec (sr_vec r)) /\
    objective m (vec (sr_vec r)) - eps <= Q2R (sr_val r) <= objective m (vec (sr_vec r)) + eps.

(** The subsystem of the states [keep] reaches the threshold up to [d]. *)
Definition witness_within (rf : rform) (md : mode) (t : Q) (d : R) (keep : nat -> bool) : Prop :=
  let R := restrict (form_mdp rf) keep in
  exists p, match md with Max => IsPrMax | _ => IsPrMin end R (is_goal R) (rf_init rf) p /\ Q2R t - d <= p.

(** Some variable of the group exceeds [b], which may depend on the variable. *)
Definition touches_above (b : nat -> R) (cert : list Q) (G : list nat) : Prop := exists v, In v G /\ b v < vec cert v.
