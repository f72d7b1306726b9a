(** Model of switss/certification/certificates.py.  Matrices are dense lists
    of rows; [D] is their number of columns. *)
From Coq Require Import List Arith ZArith QArith Bool.
From Verif Require Import Base Num Matrix Graph Amdp ReachForm Milp.
Import ListNotations.
Local Open Scope nat_scope.

Inductive fsense := FLe | FLt | FGe | FGt | FOther.

Definition is_upper (s : fsense) : bool := match s with FLe | FLt => true | _ => false end.

(** Is the certificate a state-action vector (y) or a state vector (z)? *)
Inductive cform := FormY | FormZ.

(** 51-68; the value is the constraint set with its number of columns. *)
Definition right_form (md : mode) (s : fsense) : res cform :=
  let* _ := match md with OtherMode => Err AssertionError | _ => Ok tt end in
  match s with
  | FOther => Err AssertionError
  | FLe | FLt => match md with Min => Ok FormY | _ => Ok FormZ end
  | FGe | FGt => match md with Max => Ok FormY | _ => Ok FormZ end
  end.

Definition right_constraint_set (rf : rform) (md : mode) (s : fsense) (t : Q) : res (list (list Q) * list Q * nat) :=
  let* f := right_form md s in
  match f with
  | FormY => let* (A, b) := fark_y rf t in Ok (A, b, rf_C rf)
  | FormZ => let* (A, b) := fark_z rf t in Ok (A, b, rf_N rf)
  end.

(** 102-111: does every entry belonging to a proper end component vanish? *)
Fixpoint ec_entries_zero (rf : rform) (upper : bool) (v : list Q) (l : list nat) : res bool :=
  match l with
  | [] => Ok true
  | idx :: r =>
      let* s := if upper then let* (s, _) := of_opt KeyError (rf_inv rf idx) in Ok s else Ok idx in
      let* e := in_proper_ec rf s in
      if e then
        let* q := of_opt IndexError (nth_error v idx) in
        if Qeq_bool q 0 then ec_entries_zero rf upper v r else Ok false
      else ec_entries_zero rf upper v r
  end.


(** 116: [(res_vec + tol >= rhs).all()]; 120: [(res_vec - tol <= rhs).all()] *)
Definition all_ge (tol : Q) (r b : list Q) : bool := forallb (fun p => Qle_bool (snd p) (fst p + tol)%Q) (combine r b).
Definition all_le (tol : Q) (r b : list Q) : bool := forallb (fun p => Qle_bool (fst p - tol)%Q (snd p)) (combine r b).

(** 70-124 *)
Definition check_farkas (rf : rform) (md : mode) (s : fsense) (t : Q) (v : list Q) (tol : Q) : res bool :=
  let* _ := assert_ (Qle_bool 0 t && Qle_bool t 1) in
  let* (A, b, D) := right_constraint_set rf md s t in
  let N := length A in
  let* _ := assert_ (length v =? D) in
  let* z := match md with Min => ec_entries_zero rf (is_upper s) v (seq 0 D) | _ => Ok true end in
  if z then
    let r := mat_vec A v in
    let last_r := nth (N - 1) r 0%Q in
    let last_b := nth (N - 1) b 0%Q in
    match s with
    | FLe => Ok (all_ge tol r b)
    | FLt => Ok (all_ge tol r b && Qlt_bool last_b (last_r + tol)%Q)
    | FGe => Ok (all_le tol r b)
    | FGt => Ok (all_le tol r b && Qlt_bool (last_r - tol)%Q last_b)
    | FOther => Err AssertionError
    end
  else Ok false.

(** Default tolerances, lines 70 and 126. *)
Definition default_check_tol : Q := 1 # 100000000.
Definition default_generate_tol : Q := 1 # 100000.

(** 30-44: the LP of find_interior_point. *)
Definition interior_lp (A : list (list Q)) (D : nat) (b : list Q) (xgeq0 : bool) (zero_vars : list nat) : res milp :=
  let A' := map (fun row => row ++ [(-1)%Q]) A in
  let* lp := lp_from_coefficients A' (S D) b (unit_vec (S D) D 1) SLe Minimise in
  let* lp := if xgeq0 then add_constraints lp (map (fun i => ([(i, 1%Q); (D, 1%Q)], SGe, 0%Q)) (seq 0 D)) else Ok lp in
  add_constraints lp (map (fun i => ([(i, 1%Q)], SEq, 0%Q)) zero_vars).

(** 46-49.  An answer without a last entry (no vector) raises. *)
Definition find_interior_point (S : solver) (A : list (list Q)) (D : nat) (b : list Q) (xgeq0 : bool) (zero_vars : list nat)
  : res (list Q * bool * bool) :=
  let* lp := interior_lp A D b xgeq0 zero_vars in
  let r := S lp in
  let* sres := of_opt IndexError (nth_error (sr_vec r) (length (sr_vec r) - 1)) in
  Ok (removelast (sr_vec r),
      match sr_status r with Optimal => Qle_bool sres 0 | _ => false end,
      Qlt_bool sres 0).

(** 153-165: line 165 appends the state, not the row index. *)
Definition zero_variables (rf : rform) (md : mode) (s : fsense) (D : nat) : res (list nat) :=
  match md with
  | Min =>
      foldM (fun acc idx =>
        if is_upper s then
          let* (st, _) := of_opt KeyError (rf_inv rf idx) in
          let* e := in_proper_ec rf st in
          Ok (if e then acc ++ [st] else acc)
        else
          let* e := in_proper_ec rf idx in
          Ok (if e then acc ++ [idx] else acc)) (seq 0 D) []
  | _ => Ok []
  end.

(** 145-167: what is handed to find_interior_point. *)
Definition generation_args (rf : rform) (md : mode) (s : fsense) (t : Q) : res (list (list Q) * nat * list Q * list nat) :=
  let* _ := assert_ (Qle_bool 0 t && Qle_bool t 1) in
  let* (A, b, D) := right_constraint_set rf md s t in
  let '(A, b) := if is_upper s then (map (map Qopp) A, map Qopp b) else (A, b) in
  let* zs := zero_variables rf md s D in
  Ok (A, D, b, zs).

(** 126-170 *)
Definition generate_farkas (S : solver) (rf : rform) (md : mode) (s : fsense) (t tol : Q) : res (option (list Q)) :=
  let* (A, D, b, zs) := generation_args rf md s t in
  let* (x, _, _) := find_interior_point S A D b true zs in
  let* ok := check_farkas rf md s t x tol in
  Ok (if ok then Some x else None).

(** The LP solved by a call of generate_farkas. *)
Definition generation_lp (rf : rform) (md : mode) (s : fsense) (t : Q) : res milp :=
  let* (A, D, b, zs) := generation_args rf md s t in
  interior_lp A D b true zs.
