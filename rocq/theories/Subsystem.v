(** Model of switss/problem/subsystem.py, lines 17-174 ([digraph] is in
    Draw.v; the caching of [subsys] is left out: [subsys] returns what
    the first call returns).  The supersystem is a ReachabilityForm; a
    RewardReachabilityForm has no attribute [to_target] and raises. *)
From Coq Require Import String List Arith ZArith QArith Bool.
From Verif Require Import Base Num Matrix InvDict Graph Mec Amdp ReachForm Reduce.
Import ListNotations.
Local Open Scope nat_scope.

(** 40-46 *)
Record subsystem := MkSub {
  sub_super : rform;
  sub_cert : list Q;
  sub_form : mode;
  sub_ignore : bool }.

(** 17-46.  N-2 and C-2 are non-negative for forms. *)
Definition mk_subsystem (rf : rform) (cert : list Q) (form : mode) (ignore : bool) : res subsystem :=
  let* _ := assert_ (match form with Min | Max => true | OtherMode => false end) in
  let* _ := assert_ (match form with Max => length cert =? a_C (rf_sys rf) - 2 | _ => true end) in
  let* _ := assert_ (match form with Min => length cert =? a_N (rf_sys rf) - 2 | _ => true end) in
  Ok (MkSub rf cert form ignore).

(** 60-74; 0.0 and 1.0 in mode max, booleans in mode min. *)
Definition subsystem_mask (sub : subsystem) : res (list bool) :=
  let m := rf_sys (sub_super sub) in
  match sub_form sub with
  | Max =>
      foldM (fun mask i =>
          let* q := of_opt IndexError (nth_error (sub_cert sub) i) in
          if Qlt_bool 0 q then
            let* (s, _) := of_opt KeyError (a_inv m i) in
            if s <? length mask then Ok (upd mask s true) else Err IndexError
          else Ok mask)
        (seq 0 (a_C m - 2)) (repeat false (a_N m - 2))
  | _ => Ok (map (Qlt_bool 0) (sub_cert sub))
  end.

(** 102-107: new_to_old_states, new_label_to_states, new_N. *)
Definition number_states (m : amdp) (mask : list bool) : res (dict nat nat * dict string (list nat) * nat) :=
  foldM (fun st i =>
      let '(n2o, sl, nN) := st in
      let* b := of_opt IndexError (nth_error mask i) in
      if b then
        let* n2o := bput Nat.eqb Nat.eqb n2o nN i in
        Ok (n2o, fold_left (fun d l => lab_add Nat.eqb d l nN) (labels_by_state m i) sl, S nN)
      else Ok st)
    (seq 0 (a_N m - 2)) ([], [], 0).

(** 110-117: new_index_by_state_action, new_label_to_actions (a dictionary
    from state-action pairs to their sets of labels), new_C. *)
Definition number_rows (m : amdp) (mask : list bool) (n2o : dict nat nat)
  : res (dict (nat * nat) nat * dict (nat * nat) (list string) * nat) :=
  foldM (fun st i =>
      let '(index, al, nC) := st in
      let* (s, a) := of_opt KeyError (a_inv m i) in
      let* b := of_opt IndexError (nth_error mask s) in
      if b then
        let* ns := of_opt KeyError (binv Nat.eqb n2o s) in
        let* index := bput pair_eqb Nat.eqb index (ns, a) nC in
        Ok (index, dset pair_eqb al (ns, a) (labels_by_action m (s, a)), S nC)
      else Ok st)
    (seq 0 (a_C m - 2)) ([], [], 0).

(** 132-143: new_P and not_to_fail. *)
Definition copy_transitions (m : amdp) (mask : list bool) (n2o : dict nat nat) (index : dict (nat * nat) nat)
    (P : mat) (ntf : list Q) : res (mat * list Q) :=
  let n := a_N m - 2 in
  foldM (fun st (e : nat * nat * Q) =>
      let '(P, ntf) := st in
      let '((i, d), p) := e in
      let* (s, a) := of_opt KeyError (a_inv m i) in
      if (n <=? d) || (n <=? s) then Ok st else
      let* bs := of_opt IndexError (nth_error mask s) in
      let* bd := of_opt IndexError (nth_error mask d) in
      if bs && bd then
        let* ns := of_opt KeyError (binv Nat.eqb n2o s) in
        let* nd := of_opt KeyError (binv Nat.eqb n2o d) in
        let* ni := of_opt KeyError (dget pair_eqb index (ns, a)) in
        let* P := mset P ni nd p in
        let* o := of_opt IndexError (nth_error ntf ni) in
        Ok (P, upd ntf ni (o + p)%Q)
      else Ok st)
    (mitems (a_P m)) (P, ntf).

(** 147-153.  [p_target] is a 1x1 matrix in the code (to_target is a numpy
    matrix), modelled as its entry. *)
Definition add_exits (rf : rform) (mask : list bool) (n2o : dict nat nat) (index : dict (nat * nat) nat)
    (target fail : nat) (P : mat) (ntf : list Q) : res mat :=
  let m := rf_sys rf in
  foldM (fun P (e : nat * Q) =>
      let '(i, pt) := e in
      let* (s, a) := of_opt KeyError (a_inv m i) in
      let* b := of_opt IndexError (nth_error mask s) in
      if b then
        let* ns := of_opt KeyError (binv Nat.eqb n2o s) in
        let* ni := of_opt KeyError (dget pair_eqb index (ns, a)) in
        let* P := mset P ni target pt in
        let* o := of_opt IndexError (nth_error ntf ni) in
        mset P ni fail (1 - (pt + o))%Q
      else Ok P)
    (combine (seq 0 (length (rf_to_target rf))) (rf_to_target rf)) P.

(** The dictionary of lines 116 and 160 has state-action pairs as keys and
    sets of labels as values, although the constructor expects labels as keys
    and sets of pairs as values.  So no label is among its keys and no pair
    among the values: every query by label or by pair gives the empty set. *)
Definition used_as_label_dict (al : dict (nat * nat) (list string)) : dict string (list (nat * nat)) := [].

(** 82-174 *)
Definition subsys (rnd : nat -> Z) (sub : subsystem) : res rform :=
  let rf := sub_super sub in
  let m := rf_sys rf in
  let* mask := subsystem_mask sub in
  let* (n2o, sl, nN) := number_states m mask in
  let* (index, al, nC) := number_rows m mask n2o in
  let fail := S nN in
  let target := nN in
  let* index := bput pair_eqb Nat.eqb index (fail, 0) (S nC) in
  let* index := bput pair_eqb Nat.eqb index (target, 0) nC in
  let sl := dset String.eqb sl (rf_targetl rf) [target] in
  let sl := dset String.eqb sl (rf_faill rf) [fail] in
  let* P := mset (mzero (nC + 2) (nN + 2)) (S nC) fail 1%Q in
  let* P := mset P nC target 1%Q in
  let* (P, ntf) := copy_transitions m mask n2o index P (repeat 0%Q nC) in
  let* P := add_exits rf mask n2o index target fail P ntf in
  let* model := mk_kind (a_kind m) P index (used_as_label_dict al) sl None in
  mk_rf rnd model (rf_initl rf) (rf_targetl rf) (rf_faill rf) (sub_ignore sub).
