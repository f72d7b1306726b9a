(** Model of the remaining class methods of
    switss/model/reward_reachability_form.py: assert_system_consistency and
    fromsystem. *)
From Coq Require Import String List Arith ZArith QArith Bool.
From Verif Require Import Base Num Matrix InvDict Graph Mec Amdp ReachForm RewardForm.
Import ListNotations.
Local Open Scope nat_scope.

(** 97-142.  The isinstance assertion 107 is a typing matter. *)
Definition assert_system_consistency (rnd : nat -> Z) (m : amdp) (il tl : string) : res unit :=
  let* _ := assert_ (match a_rew m with Some _ => true | None => false end) in
  let* _ := assert_ (negb (String.eqb il tl)) in
  let* init := single_state m il in
  let* target := single_state m tl in
  let* _ := check_absorbing m target (minus (a_C m) 1) (minus (a_N m) 1) in
  let* fwd_mask := reachable_mask m [init] Forward [] in
  let* _ := assert_ (forallb (fun b => b) fwd_mask) in
  let* bwd_mask := reachable_mask m [target] Backward [] in
  let* _ := assert_ (forallb (fun b => b) bwd_mask) in
  let* (mecs, proper, _) := a_mecs m rnd in
  let* _ := assert_ (Z.eqb (count_true proper) 1) in
  let* c := of_opt IndexError (nth_error mecs target) in
  let* p := of_opt IndexError (nth_error proper c) in
  assert_ p.

(** 45-59.  [system.P] is a dok_matrix, which has no attribute N (line 51);
    lines 52-59 are not reached. *)
Definition fromsystem (rnd : nat -> Z) (m : amdp) (il tl : string) (ignore_checks : bool) : res rrform :=
  let* _ := if ignore_checks then Ok tt else assert_system_consistency rnd m il tl in
  Err AttributeError.
