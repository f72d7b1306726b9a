(** Specification: the system a sparse storm model describes. *)
From Coq Require Import String List Arith ZArith QArith Bool.
From Verif Require Import Base Num Matrix InvDict SpecSystem SpecBuilt Amdp Storm.
Import ListNotations.
Local Open Scope nat_scope.

(** The choices of a model: state, number of the action, action. *)
Definition choices (sm : storm) : list (nat * nat * storm_action) :=
  flat_map (fun e : nat * storm_state => map (fun x : nat * storm_action => ((fst e, fst x), snd x)) (numbered (st_actions (snd e)))) (numbered sm).

(** Probability of going to [d]. *)
Definition prob_to (ac : storm_action) (d : nat) : Q := sumQ (map snd (filter (fun t : nat * Q => fst t =? d) (ac_trans ac))).

(** The transitions of an action are those of a row of a sparse stochastic
    matrix. *)
Definition good_action (N : nat) (ac : storm_action) : Prop :=
  NoDup (map fst (ac_trans ac)) /\ (forall d q, In (d, q) (ac_trans ac) -> d < N /\ (0 <= q)%Q /\ (q <= 1)%Q) /\ near_one (sumQ (map snd (ac_trans ac))).
Definition good_storm (sm : storm) : Prop := forall s ac, In s sm -> In ac (st_actions s) -> good_action (nr_states sm) ac.

(** The system [m] is the one described by [sm]. *)
Definition reads (sm : storm) (m : amdp) : Prop :=
  a_N m = nr_states sm /\ a_C m = nr_choices sm /\
  (forall k s a ac, nth_error (choices sm) k = Some ((s, a), ac) -> a_inv m k = Some (s, a) /\ forall d, (mget (a_P m) k d == prob_to ac d)%Q) /\
  (forall l s, has_label m l s <-> exists st, nth_error sm s = Some st /\ In l (st_labels st)) /\
  (forall l s a, In (s, a) (actions_by_label m l) <-> exists ac, In ((s, a), ac) (choices sm) /\ In l (ac_labels ac)).

(** The documented choice model without its labels: choice number [k] becomes
    state N + k. *)
Definition choice_system (sm : storm) (m : amdp) : Prop :=
  let N := nr_states sm in
  let C := nr_choices sm in
  a_N m = N + C /\ a_C m = C + C /\
  forall k s a ac, nth_error (choices sm) k = Some ((s, a), ac) ->
    a_inv m k = Some (s, a) /\ (forall d, (mget (a_P m) k d == if d =? N + k then 1 else 0)%Q) /\
    a_inv m (C + k) = Some (N + k, C + k) /\ (forall d, (mget (a_P m) (C + k) d == prob_to ac d)%Q).
