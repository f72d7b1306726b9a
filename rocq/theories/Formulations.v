(** Model of switss/problem/formulations.py for reachability forms (not reward
    forms) and the PuLP back end (modeltype_str = "pulp"; the Gurobi back end
    is in Gurobi.v).  Python sets are duplicate-free lists, so the order of
    iteration over a group is the order of the list. *)
From Coq Require Import String List Arith ZArith QArith Bool.
From Verif Require Import Base Num Matrix InvDict Graph Amdp ReachForm Milp.
Import ListNotations.
Local Open Scope nat_scope.

(** 11-26 *)
Definition certificate_size (rf : rform) (md : mode) : res nat :=
  match md with
  | Min => Ok (a_N (rf_sys rf) - 2)
  | Max => Ok (a_C (rf_sys rf) - 2)
  | OtherMode => Err AssertionError
  end.

(** 48-53: the linear program; [n] = matr.shape[1]. *)
Definition upper_bound_lp (A : list (list Q)) (n : nat) (b : list Q) : res milp :=
  let* lp := lp_from_coefficients A n b (repeat 1%Q n) SLe Maximise in
  add_constraints lp (map (fun j => ([(j, 1%Q)], SGe, 0%Q)) (seq 0 n)).

(** 28-63 *)
Definition compute_upper_bounds (S : solver) (A : list (list Q)) (n : nat) (b : list Q) : res (status * list Q) :=
  let* lp := upper_bound_lp A n b in
  let r := S lp in
  let* _ := assert_ (match sr_status r with Unbounded => false | _ => true end) in
  Ok (sr_status r, if n + 1 =? length A then sr_vec r else repeat (sr_val r) n).

(** 66-106: the values of the dictionary of groups, in insertion order.
    [labels] = None is python's None. *)
Definition groups_from_labels (rf : rform) (md : mode) (labels : option (list string)) (group_actions : bool)
  : res (list (list nat)) :=
  let* n := certificate_size rf md in
  match labels, md with
  | None, _ =>
      if match md with Max => group_actions | _ => false end then
        let* g := foldM (fun g i =>
            let* (s, _) := of_opt KeyError (rf_inv rf i) in
            Ok (add Nat.eqb Nat.eqb g s i)) (seq 0 n) (mk_idict [] false) in
        Ok (dvals (fwd g))
      else Ok (map (fun i => [i]) (seq 0 n))
  | Some ls, Min =>
      Ok (dvals (fold_left (fun g l => dset String.eqb g l (states_by_label (rf_sys rf) l)) ls []))
  | Some ls, _ =>
      let* g := foldM (fun g l =>
          foldM (fun g s =>
              let* acts := actions_by_state (rf_sys rf) in
              let* acts := get Nat.eqb acts s in
              foldM (fun g a =>
                  let* i := of_opt KeyError (a_row (rf_sys rf) (s, a)) in
                  Ok (add String.eqb Nat.eqb g l i)) acts g)
            (states_by_label (rf_sys rf) l) g) ls (mk_idict [] false) in
      Ok (dvals (fwd g))
  end.

(** 142-153, one group: the new variable, then one constraint per member.
    [upper_bounds[var]] raises IndexError outside the vector. *)
Definition add_group (dom : domain) (ub : option (list Q)) (st : milp * dict nat (list nat)) (group : list nat)
  : res (milp * dict nat (list nat)) :=
  let '(m, ind) := st in
  let* (m, vs) := add_variables_w_bounds m [(dom, Some 0%Q, match ub with Some _ => Some 1%Q | None => None end)] in
  let* sigma := of_opt IndexError (nth_error vs 0) in
  let ind := dset Nat.eqb ind sigma group in
  let* m := foldM (fun m v =>
      let* k := match ub with
                | Some u => of_opt IndexError (nth_error u v)
                | None => Ok 1%Q
                end in
      let* (m, _) := add_constraint m [(v, 1%Q); (sigma, (- k)%Q)] SLe 0%Q in
      Ok m) group m in
  Ok (m, ind).

(** 108-159 with use_real_indicator_constrs = False *)
Definition add_indicator_constraints (m : milp) (ub : option (list Q)) (groups : list (list nat)) (dom : domain)
  : res (milp * dict nat (list nat)) :=
  foldM (add_group dom ub) groups (m, []).

(** qsheurparams.py 9-33, 117-129: AllOnesInitializer with weights = None. *)
Definition all_ones (ind : dict nat (list nat)) : list (nat * Q) := map (fun p => (fst p, 1%Q)) ind.

(** 202-216: the bounds; None stands for the result (None, None). *)
Definition choose_bounds (S : solver) (rf : rform) (A : list (list Q)) (n : nat) (b : list Q) (md : mode)
    (known : option (list Q)) : res (option (option (list Q))) :=
  match md, known with
  | Min, None => Ok (Some (Some (repeat 1%Q n)))
  | _, _ =>
      if is_ec_free rf then
        let* (st, u) := compute_upper_bounds S A n b in
        Ok match st with
           | Infeasible => None
           | Optimal => Some (Some u)
           | _ => Some known
           end
      else Ok (Some known)
  end.

(** 231-241 *)
Definition variable_bounds (rf : rform) (md : mode) (ub : option (list Q)) (n : nat) : res (list (option Q * option Q)) :=
  mapM (fun v =>
      let* ec := match md with Min => in_proper_ec rf v | _ => Ok false end in
      let* u := if ec then Ok (Some 0%Q) else
                match ub with
                | Some u => let* q := of_opt IndexError (nth_error u v) in Ok (Some q)
                | None => Ok None
                end in
      Ok (Some 0%Q, u)) (seq 0 n).

(** 162-255; None is the result (None, None).  [n] is the number of columns of
    the constraint matrix, which is the size of the certificate. *)
Definition construct_milp (S : solver) (rf : rform) (t : Q) (md : mode) (labels : option (list string)) (relaxed : bool)
    (known : option (list Q)) : res (option (milp * dict nat (list nat))) :=
  let* (A, b) := fark_constraints rf t md in
  let* n := certificate_size rf md in
  let* c := choose_bounds S rf A n b md known in
  match c with
  | None => Ok None
  | Some ub =>
      let* _ := assert_ (negb (negb relaxed && match md, ub with Max, None => true | _, _ => false end)) in
      let* groups := groups_from_labels rf md labels (match md with Max => negb relaxed | _ => false end) in
      let* bounds := variable_bounds rf md ub n in
      let* m := from_coefficients A n b (repeat 0%Q n) (repeat DReal n) SLe Minimise (Some bounds) in
      let* (m, ind) := add_indicator_constraints m ub groups (if relaxed then DReal else DBinary) in
      let* m := set_objective m (all_ones ind) in
      Ok (Some (m, ind))
  end.
