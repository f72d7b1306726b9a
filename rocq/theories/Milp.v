(** Model of switss/solver/milp.py (class MILP with the PuLP back end, class
    LP) and solverresult.py.  Matrices are dense lists of rows, numbers are
    rationals (so the assertions [x == float(x)] always hold).

    PuLP behaviour used here: [LpAffineExpression(pairs)] is a dictionary (a
    repeated variable keeps its last coefficient); [model += expression] sets
    the objective, [model += constraint] stores the constraint under its name;
    [LpBinary] is an integer variable with bounds 0 and 1; a bound [None] is
    absent. *)
From Coq Require Import List Arith ZArith QArith Bool.
From Verif Require Import Base Num.
Import ListNotations.
Local Open Scope nat_scope.

Inductive domain := DReal | DInteger | DBinary | OtherDomain.
Inductive csense := SLe | SEq | SGe | OtherSense.
Inductive direction := Minimise | Maximise | OtherObjective.

Record lpvar := MkVar { v_int : bool; v_lb : option Q; v_ub : option Q }.
Record constr := MkConstr { c_lhs : dict nat Q; c_sense : csense; c_rhs : Q }.

(** Keys of the constraint dictionary of the PuLP model: the name "c%d", or
    an integer passed by a caller. *)
Inductive ckey := CName (n : nat) | CInt (n : nat).
Definition ckey_eqb (a b : ckey) : bool :=
  match a, b with CName n, CName m => n =? m | CInt n, CInt m => n =? m | _, _ => false end.

(** 52-57.  [mi_obj] is the objective of the PuLP model, None until set
    (attribute __set_objective_function); [mi_count] is
    len(self.__constraints). *)
Record milp := MkMilp {
  mi_dir : direction;
  mi_vars : list lpvar;
  mi_constrs : dict ckey constr;
  mi_count : nat;
  mi_obj : option (dict nat Q) }.

(** 46-57 *)
Definition milp_new (o : direction) : res milp :=
  match o with OtherObjective => Err AssertionError | _ => Ok (MkMilp o [] [] 0 None) end.

(** PuLP: LpAffineExpression(pairs) *)
Definition affine (e : list (nat * Q)) : dict nat Q :=
  fold_left (fun d p => dset Nat.eqb d (fst p) (snd p)) e [].

(** 101-104; variable indices are naturals, so [var >= 0] holds. *)
Definition assert_expression (m : milp) (e : list (nat * Q)) : res unit :=
  assert_ (forallb (fun p => fst p <? length (mi_vars m)) e).

(** 110-129: the first call sets the objective, later calls overwrite single
    coefficients of it. *)
Definition set_objective (m : milp) (e : list (nat * Q)) : res milp :=
  let* _ := assert_expression m e in
  let o := match mi_obj m with
           | None => affine e
           | Some d => fold_left (fun d p => dset Nat.eqb d (fst p) (snd p)) e d
           end in
  Ok (MkMilp (mi_dir m) (mi_vars m) (mi_constrs m) (mi_count m) (Some o)).

(** 131-165: returns the number of the constraint. *)
Definition add_constraint (m : milp) (lhs : list (nat * Q)) (s : csense) (rhs : Q) : res (milp * nat) :=
  let* _ := match s with OtherSense => Err AssertionError | _ => Ok tt end in
  let* _ := assert_expression m lhs in
  let i := mi_count m in
  Ok (MkMilp (mi_dir m) (mi_vars m) (dset ckey_eqb (mi_constrs m) (CName i) (MkConstr (affine lhs) s rhs)) (S i) (mi_obj m), i).

(** 167-173: [constraints.pop(constridx)]. *)
Definition remove_constraint (m : milp) (k : ckey) : res milp :=
  if dmem ckey_eqb (mi_constrs m) k then
    Ok (MkMilp (mi_dir m) (mi_vars m) (ddel ckey_eqb (mi_constrs m) k) (mi_count m) (mi_obj m))
  else Err KeyError.

(** 196-200: one variable. *)
Definition mk_var (d : domain) (lb ub : option Q) : res lpvar :=
  match d with
  | DReal => Ok (MkVar false lb ub)
  | DInteger => Ok (MkVar true lb ub)
  | DBinary => Ok (MkVar true (Some 0%Q) (Some 1%Q))
  | OtherDomain => Err AssertionError
  end.

Definition push_var (m : milp) (v : lpvar) : milp :=
  MkMilp (mi_dir m) (mi_vars m ++ [v]) (mi_constrs m) (mi_count m) (mi_obj m).

(** 185-206: adds the variables; the value is the list of new indices (a bare
    index if there is exactly one). *)
Definition add_variables_w_bounds (m : milp) (ds : list (domain * option Q * option Q)) : res (milp * list nat) :=
  foldM (fun st d => let '(m, l) := st in
           let '(dom, lb, ub) := d in
           let* v := mk_var dom lb ub in
           Ok (push_var m v, l ++ [length (mi_vars m)])) ds (m, []).

(** 175-183 *)
Definition add_variables (m : milp) (ds : list domain) : res (milp * list nat) :=
  add_variables_w_bounds m (map (fun d => (d, None, None)) ds).

(** csr row: the non-zero entries. *)
Definition row_items (row : list Q) : list (nat * Q) :=
  filter (fun p => negb (Qeq_bool (snd p) 0)) (combine (seq 0 (length row)) row).

(** 208-266.  [n] = A.shape[1].  Always builds a PuLP MILP. *)
Definition from_coefficients (A : list (list Q)) (n : nat) (b opt : list Q) (domains : list domain)
    (s : csense) (o : direction) (bounds : option (list (option Q * option Q))) : res milp :=
  let* m := milp_new o in
  let* descr := mapM (fun j =>
      let* d := of_opt IndexError (nth_error domains j) in
      match bounds with
      | None => Ok (d, None, None)
      | Some bs => let* lu := of_opt IndexError (nth_error bs j) in Ok (d, fst lu, snd lu)
      end) (seq 0 n) in
  let* (m, _) := add_variables_w_bounds m descr in
  let* obj := mapM (fun j => let* q := of_opt IndexError (nth_error opt j) in Ok (j, q)) (seq 0 n) in
  let* m := set_objective m obj in
  foldM (fun m i =>
      let* row := of_opt IndexError (nth_error A i) in
      let* rhs := of_opt IndexError (nth_error b i) in
      let* (m, _) := add_constraint m (row_items row) s rhs in
      Ok m) (seq 0 (length A)) m.

(** 326 (class LP) *)
Definition lp_from_coefficients (A : list (list Q)) (n : nat) (b opt : list Q) (s : csense) (o : direction) : res milp :=
  from_coefficients A n b opt (repeat DReal n) s o None.

(** [for (l, s, r) in cs: model.add_constraint(l, s, r)] *)
Definition add_constraints (m : milp) (cs : list (list (nat * Q) * csense * Q)) : res milp :=
  foldM (fun m c => let '(l, s, r) := c in let* (m', _) := add_constraint m l s r in Ok m') cs m.

(** solverresult.py *)
Inductive status := Optimal | Infeasible | Unbounded | Undefined | NotSolved.
Record sresult := MkRes { sr_status : status; sr_vec : list Q; sr_val : Q }.

(** 59-99: the solver is an arbitrary function. *)
Definition solver := milp -> sresult.
