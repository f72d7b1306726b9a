(** Specification of the reduction to reachability form. *)
From Coq Require Import String List Arith QArith Bool.
From Verif Require Import Base Num Matrix GraphSpec SccSpec SpecSystem SpecBuilt Amdp ReachForm.
Import ListNotations.
Local Open Scope nat_scope.

(** Successor relation of a system. *)
Definition sys_edge (m : amdp) : nat -> nat -> Prop := edge (a_P m) (a_inv m).

(** [s] can reach a state labelled [tl]. *)
Definition can_reach (m : amdp) (tl : string) (s : nat) : Prop :=
  exists t, has_label m tl t /\ rtc (sys_edge m) s t.

(** The relevant states: on a path from [init] to a target, not beyond the
    first target. *)
Definition relevant (m : amdp) (init : nat) (tl : string) (s : nat) : Prop :=
  reach_avoid (sys_edge m) (fun x => x = init) (has_label m tl) s /\ can_reach m tl s.

(** Every state has an action. *)
Definition every_state_acts (m : amdp) : Prop := forall s, s < a_N m -> exists a i, i < a_C m /\ a_inv m i = Some (s, a).

(** A label marks states only. *)
Definition marks_states (m : amdp) (l : string) : Prop := forall s, has_label m l s -> s < a_N m.

(** The label is not in use. *)
Definition unused (m : amdp) (l : string) : Prop := ~ In l (map fst (InvDict.fwd (a_slab m))).

(** Exactly state [s] has the label. *)
Definition only_state (m : amdp) (l : string) (s : nat) : Prop := forall t, has_label m l t <-> t = s.

(** Characteristic function of a label. *)
Definition label_set (m : amdp) (l : string) (s : nat) : bool := smem Nat.eqb s (states_by_label m l).

(** What [reduce] is to return: a form that passes the consistency check, with
    the labels asked for, whose states other than target and fail are numbered
    copies of the relevant states. *)
Definition reduce_result (m : amdp) (init : nat) (il tl ntl nfl : string) (rf : rform) (cols : dict nat nat) : Prop :=
  built_form rf /\ (exact_rows (a_P m) -> exact_rows (a_P (rf_sys rf))) /\
  rf_initl rf = il /\ rf_targetl rf = ntl /\ rf_faill rf = nfl /\
  dget Nat.eqb cols init = Some (rf_init rf) /\
  (forall s, (exists x, dget Nat.eqb cols s = Some x) <-> relevant m init tl s) /\
  NoDup (map fst cols) /\ map snd cols = seq 0 (a_N (rf_sys rf) - 2).
