(** Model of the Gurobi back end: switss/solver/milp.py 343-595 (class
    GurobiMILP), and formulations.py, milpexact.py and qsheur.py with
    modeltype_str = "gurobi", for reachability forms and reward reachability
    forms.  The models are those of Milp.v; only the operations differ.
    [add_to_constraint] and [remove_constraint] are in GurEdit.v.

    gurobipy behaviour used here: [addVar] has the default bounds 0 and
    infinity; a variable of type BINARY also has the bounds 0 and 1; [var *
    coefficient] is a linear expression and python's [sum] of such expressions
    adds the coefficients of a repeated variable; the [sum] of an empty list is
    the number 0, whose comparison with the right hand side is a truth value,
    which [addConstr] rejects with an exception (which one is not claimed; it
    is written TypeError here); [setObjective] replaces the objective, and
    accepts a number. *)
From Coq Require Import String List Arith ZArith QArith Bool.
From Verif Require Import Base Num Matrix InvDict Graph Amdp ReachForm Milp Subsystem Formulations Problems RewardForm RewProblems.
Import ListNotations.
Local Open Scope nat_scope.

(** 396-397: [sum([variables[var]*coeff ..])] for a list that is not empty. *)
Definition g_affine (e : list (nat * Q)) : dict nat Q :=
  fold_left (fun d p => dset Nat.eqb d (fst p) (match dget Nat.eqb d (fst p) with Some q => (q + snd p)%Q | None => snd p end)) e [].

(** 399-416: the objective is replaced. *)
Definition g_set_objective (m : milp) (e : list (nat * Q)) : res milp :=
  let* _ := assert_expression m e in
  Ok (MkMilp (mi_dir m) (mi_vars m) (mi_constrs m) (mi_count m) (Some (g_affine e))).

(** 418-458 *)
Definition g_add_constraint (m : milp) (lhs : list (nat * Q)) (s : csense) (rhs : Q) : res (milp * nat) :=
  let* _ := match s with OtherSense => Err AssertionError | _ => Ok tt end in
  let* _ := assert_expression m lhs in
  let i := mi_count m in
  match lhs with
  | [] => Err TypeError
  | _ => Ok (MkMilp (mi_dir m) (mi_vars m) (dset ckey_eqb (mi_constrs m) (CName i) (MkConstr (g_affine lhs) s rhs)) (S i) (mi_obj m), i)
  end.

(** 465-484: line 483 reads [newconstr], which is not defined. *)
Definition g_add_indicator_constraint (m : milp) (ind rhs : nat) : res (milp * nat) :=
  if (ind <? length (mi_vars m)) && (rhs <? length (mi_vars m)) then Err NameError else Err IndexError.

(** 504-519: one variable. *)
Definition g_mk_var (d : domain) (lb ub : option Q) : res lpvar :=
  let l := match lb with Some q => q | None => 0%Q end in
  match d with
  | DReal => Ok (MkVar false (Some l) ub)
  | DInteger => Ok (MkVar true (Some l) ub)
  | DBinary => Ok (MkVar true (Some (qmax 0 l)) (Some (match ub with Some q => qmin 1 q | None => 1%Q end)))
  | OtherDomain => Err AssertionError
  end.

(** 496-527: the value is the list of new indices (a bare index if there is
    exactly one). *)
Definition g_add_variables_w_bounds (m : milp) (ds : list (domain * option Q * option Q)) : res (milp * list nat) :=
  foldM (fun st d => let '(m, l) := st in
           let '(dom, lb, ub) := d in
           let* v := g_mk_var dom lb ub in
           Ok (push_var m v, l ++ [length (mi_vars m)])) ds (m, []).

(** 529-536 *)
Definition g_add_variables (m : milp) (ds : list domain) : res (milp * list nat) :=
  g_add_variables_w_bounds m (map (fun d => (d, None, None)) ds).

(** 539-592.  [n] = A.shape[1]. *)
Definition g_from_coefficients (A : list (list Q)) (n : nat) (b opt : list Q) (domains : list domain)
    (s : csense) (o : direction) (bounds : option (list (option Q * option Q))) : res milp :=
  let* m := milp_new o in
  let* descr := mapM (fun j =>
      let* d := of_opt IndexError (nth_error domains j) in
      match bounds with
      | None => Ok (d, None, None)
      | Some bs => let* lu := of_opt IndexError (nth_error bs j) in Ok (d, fst lu, snd lu)
      end) (seq 0 n) in
  let* (m, _) := g_add_variables_w_bounds m descr in
  let* obj := mapM (fun j => let* q := of_opt IndexError (nth_error opt j) in Ok (j, q)) (seq 0 n) in
  let* m := g_set_objective m obj in
  foldM (fun m i =>
      let* row := of_opt IndexError (nth_error A i) in
      let* rhs := of_opt IndexError (nth_error b i) in
      let* (m, _) := g_add_constraint m (row_items row) s rhs in
      Ok m) (seq 0 (length A)) m.

(** formulations.py 142-153, one group. *)
Definition g_add_group (dom : domain) (ub : option (list Q)) (st : milp * dict nat (list nat)) (group : list nat)
  : res (milp * dict nat (list nat)) :=
  let '(m, ind) := st in
  let* (m, vs) := g_add_variables_w_bounds m [(dom, Some 0%Q, match ub with Some _ => Some 1%Q | None => None end)] in
  let* sigma := of_opt IndexError (nth_error vs 0) in
  let ind := dset Nat.eqb ind sigma group in
  let* m := foldM (fun m v =>
      let* k := match ub with
                | Some u => of_opt IndexError (nth_error u v)
                | None => Ok 1%Q
                end in
      let* (m, _) := g_add_constraint m [(v, 1%Q); (sigma, (- k)%Q)] SLe 0%Q in
      Ok m) group m in
  Ok (m, ind).

(** formulations.py 108-159: with use_real_indicator_constrs, line 136 reads
    [model.isinstance], which no model has. *)
Definition g_add_indicator_constraints (m : milp) (ub : option (list Q)) (groups : list (list nat)) (dom : domain) (use_real : bool)
  : res (milp * dict nat (list nat)) :=
  if use_real then Err AttributeError else foldM (g_add_group dom ub) groups (m, []).

(** formulations.py 244-255: the model, given the bounds and groups. *)
Definition g_model (A : list (list Q)) (n : nat) (b : list Q) (bounds : list (option Q * option Q)) (ub : option (list Q))
    (groups : list (list nat)) (relaxed use_real : bool) : res (milp * dict nat (list nat)) :=
  let* m := g_from_coefficients A n b (repeat 0%Q n) (repeat DReal n) SLe Minimise (Some bounds) in
  let* (m, ind) := g_add_indicator_constraints m ub groups (if relaxed then DReal else DBinary) use_real in
  let* m := g_set_objective m (all_ones ind) in
  Ok (m, ind).

(** formulations.py 162-255.  The bounds are computed with PuLP (line 207,
    upper_bound_solver = "cbc"). *)
Definition g_construct_milp (SB : solver) (rf : rform) (t : Q) (md : mode) (labels : option (list string)) (relaxed : bool)
    (known : option (list Q)) : res (option (milp * dict nat (list nat))) :=
  let* (A, b) := fark_constraints rf t md in
  let* n := certificate_size rf md in
  let* c := choose_bounds SB rf A n b md known in
  match c with
  | None => Ok None
  | Some ub =>
      let use_real := negb relaxed && match md, ub with Max, None => true | _, _ => false end in
      let* groups := groups_from_labels rf md labels (match md with Max => negb relaxed | _ => false end) in
      let* bounds := variable_bounds rf md ub n in
      let* mi := g_model A n b bounds ub groups relaxed use_real in
      Ok (Some mi)
  end.

(** The same for reward forms. *)
Definition g_rr_construct_milp (SB : solver) (rr : rrform) (t : Q) (md : mode) (labels : option (list string)) (relaxed : bool)
    (known : option (list Q)) : res (option (milp * dict nat (list nat))) :=
  let* (A, b) := rr_fark_constraints rr t md in
  let* n := certificate_size (rr_rf rr) md in
  let* c := rr_choose_bounds SB rr A n b known in
  match c with
  | None => Ok None
  | Some ub =>
      let use_real := negb relaxed && match md, ub with Max, None => true | _, _ => false end in
      let* groups := rr_groups_from_labels rr md labels (match md with Max => negb relaxed | _ => false end) in
      let* bounds := rr_variable_bounds rr md ub n in
      let* mi := g_model A n b bounds ub groups relaxed use_real in
      Ok (Some mi)
  end.

(** milpexact.py 63-75, given the result of construct_MILP. *)
Definition g_exact_result (S : solver) (rf : rform) (md : mode) (c : res (option (milp * dict nat (list nat)))) : gen :=
  match
    (let* c := c in
     match c with
     | None => Ok (failure Infeasible)
     | Some (m, _) =>
         let r := S m in
         match sr_status r with
         | Optimal =>
             let* n := certificate_size rf md in
             let cert := firstn n (sr_vec r) in
             let* w := mk_subsystem rf cert md false in
             Ok (MkPRes Success (Some w) (Some (sr_val r)) (Some cert))
         | s => Ok (failure s)
         end
     end)
  with
  | Ok x => MkGen [x] None
  | Err e => MkGen [] (Some e)
  end.

(** milpexact.py 56-75 *)
Definition g_milp_exact (SB S : solver) (rf : rform) (t : Q) (md : mode) (labels : option (list string)) : gen :=
  g_exact_result S rf md (g_construct_milp SB rf t md labels false None).
Definition g_rr_milp_exact (SB S : solver) (rr : rrform) (t : Q) (md : mode) (labels : option (list string)) : gen :=
  g_exact_result S (rr_rf rr) md (g_rr_construct_milp SB rr t md labels false None).

(** [for constraint in new_constraints: model.add_constraint(..)] *)
Definition g_add_constraints (m : milp) (cs : list (list (nat * Q) * csense * Q)) : res milp :=
  foldM (fun m c => let '(l, s, r) := c in let* (m', _) := g_add_constraint m l s r in Ok m') cs m.

(** qsheur.py 101-122, the loop; as [qs_loop] in Problems.v. *)
Fixpoint g_qs_loop (S : nat -> solver) (up : list Q -> res (list (nat * Q) * list extra)) (rf : rform) (md : mode) (n : nat)
    (rounds : nat) (i : nat) (m : milp) (obj : list (nat * Q)) : gen * list (milp * sresult) :=
  match rounds with
  | O => (MkGen [] None, [])
  | Datatypes.S rounds' =>
      match g_set_objective m obj with
      | Err e => (MkGen [] (Some e), [])
      | Ok m =>
          let r := S i m in
          match sr_status r with
          | Optimal =>
              let cert := firstn n (sr_vec r) in
              match mk_subsystem rf cert md false with
              | Err e => (MkGen [] (Some e), [(m, r)])
              | Ok w =>
                  let k := length (filter (Qlt_bool 0) (skipn n (sr_vec r))) in
                  let rest := match (let* (obj, cs) := up (sr_vec r) in let* m := g_add_constraints m cs in Ok (obj, m)) with
                              | Err e => (MkGen [] (Some e), [])
                              | Ok (obj, m) => g_qs_loop S up rf md n rounds' (Datatypes.S i) m obj
                              end in
                  (gcons (MkPRes Success (Some w) (Some (inject_Z (Z.of_nat k))) (Some cert)) (fst rest), (m, r) :: snd rest)
              end
          | s => (MkGen [failure s] None, [(m, r)])
          end
      end
  end.

(** qsheur.py 80-122 *)
Definition g_qs_run (SB : solver) (S : nat -> solver) (iterations : nat) (ini : initializer) (up : updater)
    (rf : rform) (t : Q) (md : mode) (labels : option (list string)) : gen * list (milp * sresult) :=
  match g_construct_milp SB rf t md labels true None with
  | Err e => (MkGen [] (Some e), [])
  | Ok None => (MkGen [failure Infeasible] None, [])
  | Ok (Some (m, ind)) =>
      match (let* n := certificate_size rf md in let* obj := ini rf md ind in Ok (n, obj)) with
      | Err e => (MkGen [] (Some e), [])
      | Ok (n, obj) => g_qs_loop S (up rf md ind) rf md n iterations 0 m obj
      end
  end.
Definition g_rr_qs_run (SB : solver) (S : nat -> solver) (iterations : nat) (ini : rr_initializer) (up : rr_updater)
    (rr : rrform) (t : Q) (md : mode) (labels : option (list string)) : gen * list (milp * sresult) :=
  match g_rr_construct_milp SB rr t md labels true None with
  | Err e => (MkGen [] (Some e), [])
  | Ok None => (MkGen [failure Infeasible] None, [])
  | Ok (Some (m, ind)) =>
      match (let* n := certificate_size (rr_rf rr) md in let* obj := ini rr md ind in Ok (n, obj)) with
      | Err e => (MkGen [] (Some e), [])
      | Ok (n, obj) => g_qs_loop S (up rr md ind) (rr_rf rr) md n iterations 0 m obj
      end
  end.
