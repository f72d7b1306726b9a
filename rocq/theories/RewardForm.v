(** Model of switss/model/reward_reachability_form.py.  A reward vector is a
    numpy array of rationals.  [fromsystem] (45-59) and its check
    (97-142) are in RewardSys.v. *)
From Coq Require Import String List Arith ZArith QArith Bool.
From Verif Require Import Base Num Matrix InvDict Graph Mec Amdp ReachForm Reduce Milp.
Import ListNotations.
Local Open Scope nat_scope.

(** 12-28.  P, A, the labels and the initial state are those of the underlying
    form. *)
Record rrform := MkRrf { rr_rf : rform; rr_rew : list Q }.

(** 39-43 *)
Definition rr_is_ec_free (rr : rrform) : bool := true.
Definition rr_in_proper_ec (rr : rrform) (s : nat) : bool := false.

(** 71-95.  [fail_state_idx] is the last state (reachability_form.py 163-166);
    printing is left out. *)
Definition assert_reachform_consistency (rnd : nat -> Z) (rf : rform) : res unit :=
  let m := rf_sys rf in
  let* _ := assert_ (match a_rew m with Some _ => true | None => false end) in
  let fail := a_N m - 1 in
  let fail_mask := map (fun i => i =? fail) (seq 0 (a_N m)) in
  let* bwd_mask := reachable_mask m [fail] Backward [] in
  let* _ := assert_ (forallb (fun b => b) (zip_bool Bool.eqb bwd_mask fail_mask)) in
  let* (_, proper, _) := a_mecs m rnd in
  assert_ (Z.eqb (count_true proper) 2).

(** [v[:-2]] *)
Definition drop2 (v : list Q) : list Q := firstn (length v - 2) v.

(** 62-68: the labels of the new target and fail states are the defaults of
    ReachabilityForm.reduce; the parameters new_target_label, debug and
    ignore_consistency_checks are not used. *)
Definition rr_reduce (rnd rnd' : nat -> Z) (m : amdp) (il tl : string) : res (rrform * dict nat nat * dict (nat * nat) (nat * nat)) :=
  let* (rf, cols, rows) := reduce rnd m il tl "rf_target" "rf_fail" in
  let* _ := assert_reachform_consistency rnd' rf in
  let* rew := of_opt TypeError (a_rew (rf_sys rf)) in
  Ok (MkRrf rf (drop2 rew), cols, rows).

(** 177-188: [rhs.resize(C+1)] cuts off or appends zeros. *)
Definition resize (v : list Q) (n : nat) : list Q := map (fun i => nth i v 0%Q) (seq 0 n).
Definition rr_fark_z (rr : rrform) (t : Q) : res (list (list Q) * list Q) :=
  let rf := rr_rf rr in
  if rf_init rf <? rf_N rf then
    Ok (rf_A rf ++ [unit_vec (rf_N rf) (rf_init rf) (-1)], upd (resize (rr_rew rr) (S (rf_C rf))) (rf_C rf) (-t)%Q)
  else Err IndexError.

(** 209-218: a reward vector of another length cannot be stacked beside A. *)
Definition rr_fark_y (rr : rrform) (t : Q) : res (list (list Q) * list Q) :=
  let rf := rr_rf rr in
  if rf_init rf <? S (rf_N rf) then
    if length (rr_rew rr) =? rf_C rf then
      Ok (map (column (rf_A rf)) (seq 0 (rf_N rf)) ++ [map Qopp (rr_rew rr)],
          upd (unit_vec (S (rf_N rf)) (rf_init rf) 1) (rf_N rf) (-t)%Q)
    else Err ValueError
  else Err IndexError.

(** 144-161 *)
Definition rr_fark_constraints (rr : rrform) (t : Q) (md : mode) : res (list (list Q) * list Q) :=
  match md with Min => rr_fark_z rr t | Max => rr_fark_y rr t | OtherMode => Err AssertionError end.

(** 236-243 *)
Definition rr_max_z_lp (rr : rrform) : res milp :=
  let n := rf_N (rr_rf rr) in
  let* (A, b) := rr_fark_z rr 0 in
  let* lp := lp_from_coefficients A n b (repeat 1%Q n) SLe Maximise in
  add_constraints lp (map (fun s => ([(s, 1%Q)], SGe, 0%Q)) (seq 0 n)).

(** 220-246 *)
Definition rr_max_z_state (S : solver) (rr : rrform) : res (list Q) :=
  let* lp := rr_max_z_lp rr in Ok (sr_vec (S lp)).

(** 248-266 *)
Definition rr_max_z_state_action (S : solver) (rr : rrform) : res (list Q) :=
  let rf := rr_rf rr in
  let* z := rr_max_z_state S rr in
  if (length z =? rf_N rf) && (length (rr_rew rr) =? rf_C rf) then
    Ok (map (fun i => (dotQ (map (mget (a_P (rf_sys rf)) i) (seq 0 (rf_N rf))) z + nth i (rr_rew rr) 0)%Q) (seq 0 (rf_C rf)))
  else Err ValueError.

(** 281-288 *)
Definition rr_max_y_lp (rr : rrform) : res milp :=
  let c := rf_C (rr_rf rr) in
  let* (A, b) := rr_fark_y rr 0 in
  let* lp := lp_from_coefficients A c b (rr_rew rr) SLe Maximise in
  add_constraints lp (map (fun i => ([(i, 1%Q)], SGe, 0%Q)) (seq 0 c)).

(** 268-291 *)
Definition rr_max_y_state_action (S : solver) (rr : rrform) : res (list Q) :=
  let* lp := rr_max_y_lp rr in Ok (sr_vec (S lp)).

(** 293-316 *)
Definition rr_max_y_state (S : solver) (rr : rrform) : res (list Q) :=
  let rf := rr_rf rr in
  let* y := rr_max_y_state_action S rr in
  if rf_init rf <? rf_N rf then
    foldM (fun v i =>
        let* (st, _) := of_opt KeyError (rf_inv rf i) in
        let* q := of_opt IndexError (nth_error y i) in
        let* o := of_opt IndexError (nth_error v st) in
        Ok (upd v st (o + q)%Q)) (seq 0 (rf_C rf)) (upd (repeat 0%Q (rf_N rf)) (rf_init rf) 1%Q)
  else Err IndexError.

(** 318-327 *)
Definition rew_min (S : solver) (rr : rrform) : res (list Q) := rr_max_z_state S rr.

(** 338-345 *)
Definition rew_max_lp (rr : rrform) : res milp :=
  let n := rf_N (rr_rf rr) in
  let* lp := lp_from_coefficients (rf_A (rr_rf rr)) n (rr_rew rr) (repeat 1%Q n) SGe Minimise in
  add_constraints lp (map (fun s => ([(s, 1%Q)], SGe, 0%Q)) (seq 0 n)).

(** 329-348 *)
Definition rew_max (S : solver) (rr : rrform) : res (list Q) :=
  let* lp := rew_max_lp rr in Ok (sr_vec (S lp)).
