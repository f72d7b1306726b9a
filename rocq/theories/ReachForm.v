(** Model of switss/model/reachability_form.py: construction and consistency
    check of reachability forms, Farkas constraints.  Matrices derived from P
    ([A], constraint matrices) are dense lists of rows.  Visualisation styles
    are in Draw.v.  [rnd] are the random treap priorities used by the end
    component computation. *)
From Coq Require Import String List Arith ZArith QArith Bool.
From Verif Require Import Base Num Matrix InvDict Graph Mec Amdp.
Import ListNotations.
Local Open Scope nat_scope.

Record rform := MkRf {
  rf_sys : amdp;
  rf_init : nat;
  rf_initl : string;
  rf_targetl : string;
  rf_faill : string;
  rf_idx : dict (nat * nat) nat;
  rf_A : list (list Q);
  rf_to_target : list Q;
  rf_state_to_mec : list nat;
  rf_nmecs : Z;
  rf_proper : list bool }.

(** Shape (C,N) of self.__P, lines 42, 511. *)
Definition rf_C (rf : rform) : nat := a_C (rf_sys rf) - 2.
Definition rf_N (rf : rform) : nat := a_N (rf_sys rf) - 2.
Definition rf_inv (rf : rform) (i : nat) : option (nat * nat) := binv Nat.eqb (rf_idx rf) i.

(** 218-223: the single state with a label. *)
Definition single_state (m : amdp) (l : string) : res nat :=
  match states_by_label m l with
  | [s] => Ok s
  | _ => Err AssertionError
  end.

(** 227-233, one round: [state] has one successor entry, itself, in row
    [rowidx], and is column [colidx].  [rowidx], [colidx] are None if
    system.C-2 (system.N-2) is negative: the comparison fails. *)
Definition check_absorbing (m : amdp) (state : nat) (rowidx colidx : option nat) : res unit :=
  let* ss := successors (a_graph m) state None in
  match ss with
  | [x] =>
      let* _ := assert_ (sap_state x =? state) in
      let* i := of_opt KeyError (a_row m (sap_state x, sap_action x)) in
      let* _ := assert_ (match rowidx with Some r => i =? r | None => false end) in
      assert_ (match colidx with Some c => state =? c | None => false end)
  | _ => Err AssertionError
  end.

Definition minus (a b : nat) : option nat := if b <=? a then Some (a - b) else None.

Definition zip_bool (f : bool -> bool -> bool) (a b : list bool) : list bool :=
  map (fun p => f (fst p) (snd p)) (combine a b).

(** 201-247.  The isinstance assertion 213 is a typing matter. *)
Definition assert_consistency (m : amdp) (il tl fl : string) : res unit :=
  let* _ := assert_ (negb (String.eqb il tl) && negb (String.eqb il fl) && negb (String.eqb tl fl)) in
  let* init := single_state m il in
  let* target := single_state m tl in
  let* fail := single_state m fl in
  let* _ := check_absorbing m target (minus (a_C m) 2) (minus (a_N m) 2) in
  let* _ := check_absorbing m fail (minus (a_C m) 1) (minus (a_N m) 1) in
  let fail_mask := map (fun i => i =? fail) (seq 0 (a_N m)) in
  let* fwd_mask := reachable_mask m [init] Forward [] in
  let* _ := assert_ (forallb (fun b => b) (zip_bool orb fwd_mask fail_mask)) in
  let* bwd_mask := reachable_mask m [target] Backward [] in
  assert_ (forallb (fun b => b) (zip_bool xorb bwd_mask fail_mask)).

(** 52 and 562-571: A = identity - P; one row. *)
Definition A_row (P : mat) (n : nat) (inv : nat -> option (nat * nat)) (i : nat) : res (list Q) :=
  let* (s, _) := of_opt KeyError (inv i) in
  if s <? n then Ok (map (fun d => ((if s =? d then 1 else 0) - mget P i d)%Q) (seq 0 n))
  else Err IndexError.

(** 23-68.  For C < 2 the deletion in line 49 raises KeyError; N < 2 (with
    C >= 2) is not modelled and mapped to IndexError. *)
Definition mk_rf (rnd : nat -> Z) (m : amdp) (il tl fl : string) (ignore_checks : bool) : res rform :=
  let* _ := if ignore_checks then Ok tt else assert_consistency m il tl fl in
  match states_by_label m il with
  | [] => Err StopIteration
  | init :: _ =>
      if a_C m <? 2 then Err KeyError else
      if a_N m <? 2 then Err IndexError else
      let* idx := bdel_inv pair_eqb Nat.eqb (a_idx m) (a_C m - 2) in
      let* idx := bdel_inv pair_eqb Nat.eqb idx (a_C m - 1) in
      let* A := mapM (A_row (a_P m) (a_N m - 2) (binv Nat.eqb idx)) (seq 0 (a_C m - 2)) in
      let to_target := map (fun i => mget (a_P m) i (a_N m - 2)) (seq 0 (a_C m - 2)) in
      let* (mecs, proper, k) := a_mecs m rnd in
      Ok (MkRf m init il tl fl idx A to_target (firstn (a_N m - 2) mecs) (Z.of_nat k - 2) proper)
  end.

(** 173-198 *)
Definition count_true (l : list bool) : Z := Z.of_nat (length (filter (fun b => b) l)).
Definition nr_of_proper_mecs (rf : rform) : Z := count_true (rf_proper rf) - 2.
Definition is_ec_free (rf : rform) : bool := Z.eqb (nr_of_proper_mecs rf) 0.
Definition in_proper_ec (rf : rform) (s : nat) : res bool :=
  let* c := of_opt IndexError (nth_error (rf_state_to_mec rf) s) in
  of_opt IndexError (nth_error (rf_proper rf) c).

(** Vectors and dense matrices. *)
Definition dotQ (u v : list Q) : Q := sumQ (map (fun p => fst p * snd p)%Q (combine u v)).
Definition mat_vec (A : list (list Q)) (v : list Q) : list Q := map (fun row => dotQ row v) A.
Definition column (A : list (list Q)) (d : nat) : list Q := map (fun row => nth d row 0%Q) A.
Definition unit_vec (n k : nat) (c : Q) : list Q := map (fun i => if i =? k then c else 0%Q) (seq 0 n).

(** 495-526 (the cache is modelled in FarkCache.v).  Writing to
    delta[self.initial] raises IndexError if the initial state is goal or
    fail. *)
Definition fark_z (rf : rform) (t : Q) : res (list (list Q) * list Q) :=
  if rf_init rf <? rf_N rf then
    Ok (rf_A rf ++ [unit_vec (rf_N rf) (rf_init rf) (-1)], rf_to_target rf ++ [(-t)%Q])
  else Err IndexError.

(** 528-560: the transposed matrix.  The right-hand side has N+1 entries;
    its last one is overwritten by -threshold. *)
Definition fark_y (rf : rform) (t : Q) : res (list (list Q) * list Q) :=
  if rf_init rf <? S (rf_N rf) then
    Ok (map (column (rf_A rf)) (seq 0 (rf_N rf)) ++ [map Qopp (rf_to_target rf)],
        upd (unit_vec (S (rf_N rf)) (rf_init rf) 1) (rf_N rf) (-t)%Q)
  else Err IndexError.

Inductive mode := Min | Max | OtherMode.

(** 478-493 *)
Definition fark_constraints (rf : rform) (t : Q) (md : mode) : res (list (list Q) * list Q) :=
  match md with Min => fark_z rf t | Max => fark_y rf t | OtherMode => Err AssertionError end.
