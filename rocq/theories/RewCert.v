(** Model of switss/certification/certificates.py for reward reachability
    forms.  The functions call methods of the form they are given;
    RewardReachabilityForm offers fark_y_constraints, fark_z_constraints and
    in_proper_ec (always False), but no attribute index_by_state_action. *)
From Coq Require Import List Arith ZArith QArith Bool.
From Verif Require Import Base Num Matrix Graph Amdp ReachForm Milp Certificates RewardForm.
Import ListNotations.
Local Open Scope nat_scope.

(** 51-68; the value is the constraint set with its number of columns. *)
Definition rr_right_constraint_set (rr : rrform) (md : mode) (s : fsense) (t : Q) : res (list (list Q) * list Q * nat) :=
  let* f := right_form md s in
  match f with
  | FormY => let* (A, b) := rr_fark_y rr t in Ok (A, b, rf_C (rr_rf rr))
  | FormZ => let* (A, b) := rr_fark_z rr t in Ok (A, b, rf_N (rr_rf rr))
  end.

(** 102-111.  For upper bounds each round first reads index_by_state_action
    (109). *)
Fixpoint rr_ec_entries_zero (rr : rrform) (upper : bool) (v : list Q) (l : list nat) : res bool :=
  match l with
  | [] => Ok true
  | idx :: r =>
      if upper then Err AttributeError else
      if rr_in_proper_ec rr idx then
        let* q := of_opt IndexError (nth_error v idx) in
        if Qeq_bool q 0 then rr_ec_entries_zero rr upper v r else Ok false
      else rr_ec_entries_zero rr upper v r
  end.

(** 70-124 *)
Definition rr_check_farkas (rr : rrform) (md : mode) (s : fsense) (t : Q) (v : list Q) (tol : Q) : res bool :=
  let* _ := assert_ (Qle_bool 0 t && Qle_bool t 1) in
  let* (A, b, D) := rr_right_constraint_set rr md s t in
  let N := length A in
  let* _ := assert_ (length v =? D) in
  let* z := match md with Min => rr_ec_entries_zero rr (is_upper s) v (seq 0 D) | _ => Ok true end in
  if z then
    let r := mat_vec A v in
    let last_r := nth (N - 1) r 0%Q in
    let last_b := nth (N - 1) b 0%Q in
    match s with
    | FLe => Ok (all_ge tol r b)
    | FLt => Ok (all_ge tol r b && Qlt_bool last_b (last_r + tol)%Q)
    | FGe => Ok (all_le tol r b)
    | FGt => Ok (all_le tol r b && Qlt_bool (last_r - tol)%Q last_b)
    | FOther => Err AssertionError
    end
  else Ok false.

(** 153-165; line 163 reads index_by_state_action. *)
Definition rr_zero_variables (rr : rrform) (md : mode) (s : fsense) (D : nat) : res (list nat) :=
  match md with
  | Min =>
      foldM (fun acc idx =>
        if is_upper s then Err AttributeError
        else Ok (if rr_in_proper_ec rr idx then acc ++ [idx] else acc)) (seq 0 D) []
  | _ => Ok []
  end.

(** 145-167: what is handed to find_interior_point. *)
Definition rr_generation_args (rr : rrform) (md : mode) (s : fsense) (t : Q) : res (list (list Q) * nat * list Q * list nat) :=
  let* _ := assert_ (Qle_bool 0 t && Qle_bool t 1) in
  let* (A, b, D) := rr_right_constraint_set rr md s t in
  let '(A, b) := if is_upper s then (map (map Qopp) A, map Qopp b) else (A, b) in
  let* zs := rr_zero_variables rr md s D in
  Ok (A, D, b, zs).

(** 126-170 *)
Definition rr_generate_farkas (S : solver) (rr : rrform) (md : mode) (s : fsense) (t tol : Q) : res (option (list Q)) :=
  let* (A, D, b, zs) := rr_generation_args rr md s t in
  let* (x, _, _) := find_interior_point S A D b true zs in
  let* ok := rr_check_farkas rr md s t x tol in
  Ok (if ok then Some x else None).

(** The LP solved by a call of rr_generate_farkas. *)
Definition rr_generation_lp (rr : rrform) (md : mode) (s : fsense) (t : Q) : res milp :=
  let* (A, D, b, zs) := rr_generation_args rr md s t in
  interior_lp A D b true zs.
