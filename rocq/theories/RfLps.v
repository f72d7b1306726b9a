(** Model of switss/model/reachability_form.py, lines 573-707: the linear
    programs over the Farkas polytopes.  The solver is an arbitrary function. *)
From Coq Require Import List Arith ZArith QArith Bool.
From Verif Require Import Base Num Matrix Graph Amdp ReachForm Milp.
Import ListNotations.
Local Open Scope nat_scope.

(** 588-600 *)
Definition max_z_lp (rf : rform) : res milp :=
  let* (A, b) := fark_z rf 0 in
  let* lp := lp_from_coefficients A (rf_N rf) b (repeat 1%Q (rf_N rf)) SLe Maximise in
  foldM (fun lp s =>
      let* e := in_proper_ec rf s in
      if e then add_constraints lp [([(s, 1%Q)], SEq, 0%Q)]
      else add_constraints lp [([(s, 1%Q)], SGe, 0%Q); ([(s, 1%Q)], SLe, 1%Q)]) (seq 0 (rf_N rf)) lp.

(** 573-603 *)
Definition max_z_state (S : solver) (rf : rform) : res (list Q) :=
  let* lp := max_z_lp rf in Ok (sr_vec (S lp)).

(** 605-623: [P.dot(z) + to_target]; P is C x N. *)
Definition max_z_state_action (S : solver) (rf : rform) : res (list Q) :=
  let* z := max_z_state S rf in
  if length z =? rf_N rf then
    Ok (map (fun i => (dotQ (map (mget (a_P (rf_sys rf)) i) (seq 0 (rf_N rf))) z + nth i (rf_to_target rf) 0)%Q) (seq 0 (rf_C rf)))
  else Err ValueError.

(** 636-644 *)
Definition max_y_lp (rf : rform) : res milp :=
  let* (A, b) := fark_y rf 0 in
  let* lp := lp_from_coefficients A (rf_C rf) b (rf_to_target rf) SLe Maximise in
  add_constraints lp (map (fun i => ([(i, 1%Q)], SGe, 0%Q)) (seq 0 (rf_C rf))).

(** 625-648 *)
Definition max_y_state_action (S : solver) (rf : rform) : res (list Q) :=
  let* lp := max_y_lp rf in Ok (sr_vec (S lp)).

(** 650-673: the vector starts as the indicator of the initial state. *)
Definition max_y_state (S : solver) (rf : rform) : res (list Q) :=
  let* y := max_y_state_action S rf in
  if rf_init rf <? rf_N rf then
    foldM (fun v i =>
        let* (st, _) := of_opt KeyError (rf_inv rf i) in
        let* q := of_opt IndexError (nth_error y i) in
        let* o := of_opt IndexError (nth_error v st) in
        Ok (upd v st (o + q)%Q)) (seq 0 (rf_C rf)) (upd (repeat 0%Q (rf_N rf)) (rf_init rf) 1%Q)
  else Err IndexError.

(** 675-684 *)
Definition pr_min (S : solver) (rf : rform) : res (list Q) := max_z_state S rf.

(** 694-704 *)
Definition pr_max_lp (rf : rform) : res milp :=
  let* (A, b) := fark_z rf 1 in
  let* lp := lp_from_coefficients A (rf_N rf) b (repeat 1%Q (rf_N rf)) SGe Minimise in
  add_constraints lp (flat_map (fun s => [([(s, 1%Q)], SGe, 0%Q); ([(s, 1%Q)], SLe, 1%Q)]) (seq 0 (rf_N rf))).

(** 686-707 *)
Definition pr_max (S : solver) (rf : rform) : res (list Q) :=
  let* lp := pr_max_lp rf in Ok (sr_vec (S lp)).
