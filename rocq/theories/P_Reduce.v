(** Properties C12-C15: the reduction to reachability form. *)
From Coq Require Import String List Arith ZArith QArith Qreals Reals Bool Lia.
From Verif Require Import Base Num Matrix InvDict GraphSpec SccSpec SpecMdp SpecSystem SpecForm SpecBuilt SpecProb SpecReduce
  Amdp ReachForm BuiltFacts Reduce Examples ReduceProofs5 ReduceProofs6 ExProofs4.
Import ListNotations.
Local Open Scope nat_scope.
Local Open Scope string_scope.

(** C12.  [reduce_result] (SpecReduce) spells out the result: it passes the
    consistency check that reduce skips. *)
Theorem C12_reduce_form : forall rnd m il tl ntl nfl init, built m -> every_state_acts m -> marks_states m tl ->
  only_state m il init -> init < a_N m -> can_reach m tl init -> unused m ntl -> unused m nfl -> ntl <> nfl ->
  exists rf cols rows, reduce rnd m il tl ntl nfl = Ok (rf, cols, rows) /\ reduce_result m init il tl ntl nfl rf cols.
Proof. exact C12_lemma. Qed.
Print Assumptions C12_reduce_form.

(** State 3 is unreachable, state 2 cannot reach the target 4, the target has
    outgoing transitions. *)
Example C12_nonvacuous : built red1 /\ every_state_acts red1 /\ marks_states red1 "goal" /\ only_state red1 "init" 0 /\ 0 < a_N red1 /\
  can_reach red1 "goal" 0 /\ unused red1 "rf_target" /\ unused red1 "rf_fail" /\ "rf_target" <> "rf_fail" /\ exact_rows (a_P red1).
Proof.
  split; [exact red1_built|]. split; [exact red1_acts|]. split; [exact red1_marks|]. split; [exact red1_init|]. split; [vm_compute; lia|].
  split; [exact red1_reach|]. split; [vm_compute; intuition discriminate|]. split; [vm_compute; intuition discriminate|]. split; [discriminate|exact red1_exact].
Qed.

(** C13. *)
Theorem C13_reduce_values : forall rnd m il tl ntl nfl rf cols rows, built m -> every_state_acts m -> exact_rows (a_P m) -> ntl <> nfl ->
  reduce rnd m il tl ntl nfl = Ok (rf, cols, rows) -> forall s s', dget Nat.eqb cols s = Some s' ->
  (forall v, IsPrMin (mdp_of m) (label_set m tl) s v <-> PrMinForm rf s' v) /\
  (forall v, IsPrMax (mdp_of m) (label_set m tl) s v <-> PrMaxForm rf s' v).
Proof. exact C13_lemma. Qed.
Print Assumptions C13_reduce_values.

Example C13_nonvacuous : built red1 /\ every_state_acts red1 /\ exact_rows (a_P red1) /\ "rf_target" <> "rf_fail" /\
  reduce exrnd red1 "init" "goal" "rf_target" "rf_fail" = Ok (red1rf, red1cols, red1rows) /\ dget Nat.eqb red1cols 4 = Some 2.
Proof.
  split; [exact red1_built|]. split; [exact red1_acts|]. split; [exact red1_exact|]. split; [discriminate|]. split; [exact red1_reduce|reflexivity].
Qed.

(** C14. *)
Theorem C14_reduce_maps : forall rnd m il tl ntl nfl rf cols rows, built m -> reduce rnd m il tl ntl nfl = Ok (rf, cols, rows) ->
  let m' := rf_sys rf in
  (* states *)
  NoDup (map fst cols) /\ map snd cols = seq 0 (a_N m' - 2) /\
  (* state-action pairs *)
  NoDup (map fst rows) /\ NoDup (map snd rows) /\
  (forall s a s' a', In ((s, a), (s', a')) rows -> a' = a /\ dget Nat.eqb cols s = Some s' /\
     exists i i', a_row m (s, a) = Some i /\ i < a_C m /\ a_row m' (s', a) = Some i' /\ i' < a_C m' - 2) /\
  (forall s s' a i, dget Nat.eqb cols s = Some s' -> i < a_C m -> a_row m (s, a) = Some i -> In ((s, a), (s', a)) rows) /\
  (forall s' a' i', s' < a_N m' - 2 -> a_row m' (s', a') = Some i' -> exists s, In ((s, a'), (s', a')) rows) /\
  (* labels *)
  (forall s s' l, dget Nat.eqb cols s = Some s' -> (has_label m' l s' <-> has_label m l s)) /\
  (forall s a s' l, In ((s, a), (s', a)) rows -> (In (s', a) (actions_by_label m' l) <-> In (s, a) (actions_by_label m l))) /\
  (* rewards *)
  match a_rew m, a_rew m' with
  | None, None => True
  | Some r, Some r' => forall s a s' i i', In ((s, a), (s', a)) rows -> a_row m (s, a) = Some i -> a_row m' (s', a) = Some i' -> nth_error r' i' = nth_error r i
  | _, _ => False
  end /\
  (* probabilities *)
  (forall s a s' d d' i i', In ((s, a), (s', a)) rows -> ~ has_label m tl s -> dget Nat.eqb cols d = Some d' ->
     a_row m (s, a) = Some i -> a_row m' (s', a) = Some i' -> mget (a_P m') i' d' = mget (a_P m) i d).
Proof. exact C14_lemma. Qed.
Print Assumptions C14_reduce_maps.

Example C14_nonvacuous : built red1 /\ reduce exrnd red1 "init" "goal" "rf_target" "rf_fail" = Ok (red1rf, red1cols, red1rows) /\
  length red1cols = 3 /\ length red1rows = 5 /\ a_rew red1 <> None /\ actions_by_label red1 "go" = [(1, 1)].
Proof.
  split; [exact red1_built|]. split; [exact red1_reduce|]. split; [reflexivity|]. split; [reflexivity|]. split; [vm_compute; discriminate|vm_compute; reflexivity].
Qed.

(** C15. *)
Theorem C15_reduce_raises : forall rnd m il tl ntl nfl, built m ->
  (forall init, only_state m il init -> ~ can_reach m tl init) \/ (forall s, ~ only_state m il s) \/
  (forall s, ~ has_label m tl s) \/ ~ unused m ntl \/ ~ unused m nfl ->
  exists e, reduce rnd m il tl ntl nfl = Err e.
Proof. exact C15_raises_lemma. Qed.
Print Assumptions C15_reduce_raises.

Example C15_nonvacuous : built red1 /\ (forall init, only_state red1 "dead" init -> ~ can_reach red1 "goal" init) /\ only_state red1 "dead" 2.
Proof. split; [exact red1_built|]. split; [exact red1_dead|exact red1_dead_only]. Qed.
