(** Specification: subsystems. *)
From Coq Require Import String List Arith ZArith QArith Reals Bool.
From Verif Require Import Base Num Matrix SccSpec SpecMdp SpecEc SpecSystem SpecForm SpecBuilt Amdp ReachForm.
Import ListNotations.
Local Open Scope nat_scope.

(** The subsystem of a Markov decision process given by a set of states (goal
    and fail always belong to it): transitions into removed states lead to
    fail, removed states lead to fail. *)
Definition kept_to (M : mdp) (keep : nat -> bool) (r : nat) : R :=
  (sumn (nS M - 2) (fun d => if keep d then prob M r d else 0) + prob M r (goal M))%R.

Definition restrict (M : mdp) (keep : nat -> bool) : mdp :=
  MkMdp (nS M) (nA M) (src M) (fun r d =>
    if r <? nA M - 2 then
      if keep (src M r) then
        if d <? nS M - 2 then (if keep d then prob M r d else 0%R)
        else if d =? goal M then prob M r (goal M) else (1 - kept_to M keep r)%R
      else if d =? fail M then 1%R else 0%R
    else prob M r d).

(** States chosen by a certificate: positive entry, or a state-action pair
    with positive entry. *)
Definition positive (q : Q) : bool := negb (Qle_bool q 0).
Definition chosen (m : amdp) (form : mode) (cert : list Q) (s : nat) : bool :=
  match form with
  | Max => existsb (fun i => belongs (a_inv m) i s && positive (entry cert i)) (seq 0 (a_C m - 2))
  | _ => positive (entry cert s)
  end.

(** Number of chosen states. *)
Definition count (keep : nat -> bool) (n : nat) : nat := length (filter keep (seq 0 n)).

(** [m'] is the system in reachability form induced by the states [keep] of
    [m]: the [x]-th state of [m'] is the [x]-th kept state, the [j]-th row the
    [j]-th row of a kept state, and target and fail come last. *)
Definition row_src (m : amdp) (i : nat) : nat := match a_inv m i with Some (s, _) => s | None => 0 end.
Definition kept_states (m : amdp) (keep : nat -> bool) : list nat := filter keep (seq 0 (a_N m - 2)).
Definition kept_rows (m : amdp) (keep : nat -> bool) : list nat := filter (fun i => keep (row_src m i)) (seq 0 (a_C m - 2)).

Record induced (m : amdp) (keep : nat -> bool) (m' : amdp) (tl fl : string) : Prop := {
  in_N : a_N m' = length (kept_states m keep) + 2;
  in_C : a_C m' = length (kept_rows m keep) + 2;
  in_kind : a_kind m' = a_kind m;
  in_row : forall j i s a, nth_error (kept_rows m keep) j = Some i -> a_inv m i = Some (s, a) ->
    exists x, nth_error (kept_states m keep) x = Some s /\ a_inv m' j = Some (x, a);
  in_target_row : a_inv m' (a_C m' - 2) = Some (a_N m' - 2, 0);
  in_fail_row : a_inv m' (a_C m' - 1) = Some (a_N m' - 1, 0);
  in_prob : forall j i x s, nth_error (kept_rows m keep) j = Some i -> nth_error (kept_states m keep) x = Some s ->
    mget (a_P m') j x = mget (a_P m) i s;
  in_target : forall j i, nth_error (kept_rows m keep) j = Some i -> (mget (a_P m') j (a_N m' - 2) == mget (a_P m) i (a_N m - 2))%Q;
  in_target_loop : (mget (a_P m') (a_C m' - 2) (a_N m' - 2) == 1)%Q;
  in_fail_loop : (mget (a_P m') (a_C m' - 1) (a_N m' - 1) == 1)%Q;
  in_exact : exact_rows (a_P m');
  in_labels : forall x s l, nth_error (kept_states m keep) x = Some s -> (has_label m' l x <-> has_label m l s);
  in_target_label : forall x, has_label m' tl x <-> x = a_N m' - 2;
  in_fail_label : forall x, has_label m' fl x <-> x = a_N m' - 1 }.

(** Points of the polytopes of certificates for the threshold [t], with the
    sign and end-component conditions of the programs that are solved. *)
Definition cert_point (rf : rform) (form : mode) (t : Q) (cert : list Q) : Prop :=
  let P := a_P (rf_sys rf) in let inv := a_inv (rf_sys rf) in
  match form with
  | Max => y_constraints P inv (rf_init rf) t cert /\ length cert = a_C (rf_sys rf) - 2 /\ forall i, i < a_C (rf_sys rf) - 2 -> (0 <= entry cert i)%Q
  | Min => z_constraints P inv (rf_init rf) t cert /\ length cert = a_N (rf_sys rf) - 2 /\ forall s, s < a_N (rf_sys rf) - 2 -> in_some_ec P inv s -> (entry cert s <= 0)%Q
  | OtherMode => False
  end.
