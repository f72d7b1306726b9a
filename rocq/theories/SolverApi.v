(** Model of the parts of switss/solver/milp.py that depend on how arguments
    are passed (MILP.add_variables 175-183, MILP.from_coefficients 235-239,
    LP.from_coefficients 330, LP.add_variables 332-340) and of
    switss/utils/casting.py. *)
From Coq Require Import String List Arith ZArith QArith Bool.
From Verif Require Import Base Num Milp.
Import ListNotations.
Local Open Scope nat_scope.

(** Domains are strings; any other string fails the assertion of line 194. *)
Definition dom_of (s : string) : domain :=
  if String.eqb s "real" then DReal else if String.eqb s "integer" then DInteger else if String.eqb s "binary" then DBinary else OtherDomain.

(** Iterating a string gives strings of length 1. *)
Fixpoint chars (s : string) : list string :=
  match s with EmptyString => [] | String c r => String c EmptyString :: chars r end.

(** A positional argument: a string or a list of strings. *)
Inductive pyarg := VStr (s : string) | VStrs (l : list string).

(** 189-206: a single new variable is returned as an index, not as a list. *)
Inductive indices := OneIndex (i : nat) | Indices (l : list nat).
Definition returned (l : list nat) : indices := match l with [i] => OneIndex i | _ => Indices l end.

(** 175-183, called with these arguments. *)
Definition call_add_variables (m : milp) (args : list pyarg) : res (milp * indices) :=
  match args with
  | [a] => let* (m, l) := add_variables m (map dom_of (match a with VStr s => chars s | VStrs l => l end)) in Ok (m, returned l)
  | _ => Err TypeError
  end.

(** 332-340 *)
Definition lp_add_variables (m : milp) (count : nat) : res (milp * indices) :=
  call_add_variables m (repeat (VStr "real") count).

(** Unpacking [var1, var2 = ...]. *)
Definition unpack2 (i : indices) : res (nat * nat) :=
  match i with
  | OneIndex _ => Err TypeError
  | Indices [a; b] => Ok (a, b)
  | Indices _ => Err ValueError
  end.

(** An argument that holds numbers: None, a list, a list of lists, an array of
    one or two dimensions, a sparse matrix.  The number of columns is kept
    with matrices. *)
Inductive pyobj :=
| ONone
| OList (l : list Q)
| ORows (l : list (list Q))
| OArr1 (l : list Q)
| OArr2 (n : nat) (l : list (list Q))
| OSparse (n : nat) (l : list (list Q)).

(** casting.py 4-18.  numpy refuses rows of different lengths, scipy arrays
    without dimension (those of None); empty lists are not modelled (refused
    here). *)
Definition column (l : list Q) : list (list Q) := map (fun q => [q]) l.
Definition cast_dok_matrix (o : pyobj) : res (nat * list (list Q)) :=
  match o with
  | ONone => Err TypeError
  | OList l | OArr1 l => match l with [] => Err ValueError | _ => Ok (1, column l) end
  | ORows l =>
      match l with
      | [] => Err ValueError
      | row :: r => if forallb (fun row' => length row' =? length row) r then Ok (length row, l) else Err ValueError
      end
  | OArr2 n l | OSparse n l => Ok (n, l)
  end.

(** [b[i,0]] for all i: the first column *)
Definition first_column (l : list (list Q)) : res (list Q) := mapM (fun row => of_opt IndexError (nth_error row 0)) l.

(** 208-266 with any kind of argument *)
Definition milp_from_objects (A b opt : pyobj) (domains : list string) (s : csense) (o : direction) (bounds : option (list (option Q * option Q))) : res milp :=
  let* (n, A) := cast_dok_matrix A in
  let* (_, b) := cast_dok_matrix b in
  let* (_, opt) := cast_dok_matrix opt in
  let* b := first_column b in
  let* opt := first_column opt in
  from_coefficients A n b opt (map dom_of domains) s o bounds.

(** 330: [A.shape[1]] *)
Definition shape1 (o : pyobj) : res nat :=
  match o with
  | ONone | OList _ | ORows _ => Err AttributeError
  | OArr1 _ => Err IndexError
  | OArr2 n _ | OSparse n _ => Ok n
  end.
Definition lp_from_objects (A b opt : pyobj) (s : csense) (o : direction) : res milp :=
  let* n := shape1 A in
  milp_from_objects A b opt (repeat "real"%string n) s o None.

(** A caller that builds a model by hand, in the order of the docstring of
    MILP (31-44): variables, constraints, objective.  [args] is what is passed
    to add_variables. *)
Definition by_hand (o : direction) (args : list pyarg) (cs : list (list (nat * Q) * csense * Q)) (obj : list (nat * Q)) : res (milp * indices) :=
  let* m := milp_new o in
  let* (m, i) := call_add_variables m args in
  let* m := add_constraints m cs in
  let* m := set_objective m obj in
  Ok (m, i).
