(** Property C56: number of states returned by the tree decomposition. *)
From Coq Require Import String List Arith ZArith QArith Bool Lia.
From Verif Require Import Base Num Matrix SpecSystem SpecBuilt SpecSub SpecMilp SpecTree SpecTreeMin Amdp ReachForm Tree TreeDecomp LinSolve TreeMinFinal TreeMinWit TreeTimeout ExProofs5.
Import ListNotations.
Local Open Scope nat_scope.

(** One part, no timeout: the least number of states of a witnessing subsystem
    for the threshold rounded to single precision, ValueError if no subsystem
    within the bound is a witness; and KeyError if there is a state the
    plausibility of sets of states does not depend on. *)
Theorem C56_single_part_partial : forall LS TS HULL expired rf t kub, built_form rf -> exact_rows (a_P (rf_sys rf)) -> a_kind (rf_sys rf) = KDtmc -> row_is_state (rf_sys rf) ->
  rf_init rf < a_N (rf_sys rf) - 2 -> exact_linear LS -> TS 1 [] = Ok [0] -> (forall i, expired 0 i = false) -> (0 < f32 t)%Q ->
  let n := a_N (rf_sys rf) - 2 in let ub := match kub with Some u => u | None => n end in
  let r := min_witnesses LS TS HULL expired rf [seq 0 n] t kub in
  ((forall v, v < n -> matters rf v) ->
     (forall k, k <= ub -> min_witness rf (f32 t) k -> r = Ok (Z.of_nat k)) /\
     ((forall keep, witness rf Min (f32 t) keep -> ub < count keep n) -> r = Err ValueError)) /\
  ((exists v, v < n /\ ~ matters rf v) -> r = Err KeyError).
Proof. exact C56_lemma. Qed.
Print Assumptions C56_single_part_partial.

(** A timeout never changes a result: -1 is returned instead. *)
Theorem C56_timeout_partial : forall LS TS HULL expired rf ps t kub,
  min_witnesses LS TS HULL expired rf ps t kub = Ok (-1)%Z \/ min_witnesses LS TS HULL expired rf ps t kub = min_witnesses LS TS HULL never rf ps t kub.
Proof. exact C56_timeout_lemma. Qed.
Print Assumptions C56_timeout_partial.

Example C56_timeout_nonvacuous : min_witnesses gauss in_order no_hull (fun _ i => 1 <=? i) ch3rf [[0; 1; 2]] (1#2) None = Ok (-1)%Z /\
  min_witnesses gauss in_order no_hull never ch3rf [[0; 1; 2]] (1#2) None = Ok 1%Z.
Proof. split; vm_compute; reflexivity. Qed.

(** Two parts forming a tree: too large, because interface states are forced
    into every subsystem. *)
Theorem C56_too_large_refuted : exists LS TS HULL rf ps t k, tree_call LS TS rf ps t /\ (f32 t == t)%Q /\ min_witness rf t k /\
  exists k', min_witnesses LS TS HULL never rf ps t None = Ok (Z.of_nat k') /\ k < k'.
Proof. exact C56_too_large_lemma. Qed.
Print Assumptions C56_too_large_refuted.

(** Too small, because self-loops of interface states are counted twice. *)
Theorem C56_too_small_refuted : exists LS TS HULL rf ps t k, tree_call LS TS rf ps t /\ (f32 t == t)%Q /\ min_witness rf t k /\
  exists k', min_witnesses LS TS HULL never rf ps t None = Ok (Z.of_nat k') /\ k' < k.
Proof. exact C56_too_small_lemma. Qed.
Print Assumptions C56_too_small_refuted.

(** ValueError although there is a witnessing subsystem, because points below
    the threshold are dropped in parts below the root. *)
Theorem C56_error_refuted : exists LS TS HULL rf ps t k, tree_call LS TS rf ps t /\ (f32 t == t)%Q /\ min_witness rf t k /\ k <= a_N (rf_sys rf) - 2 /\
  min_witnesses LS TS HULL never rf ps t None = Err ValueError.
Proof. exact C56_error_lemma. Qed.
Print Assumptions C56_error_refuted.

(** One part: ValueError although there is a witnessing subsystem, because the
    threshold is rounded up to single precision. *)
Theorem C56_rounding_refuted : exists LS TS HULL rf ps t k, tree_call LS TS rf ps t /\ length ps = 1 /\ (forall v, v < a_N (rf_sys rf) - 2 -> matters rf v) /\ min_witness rf t k /\
  min_witnesses LS TS HULL never rf ps t None = Err ValueError.
Proof. exact C56_rounding_lemma. Qed.
Print Assumptions C56_rounding_refuted.

Example C56_nonvacuous : tree_call gauss in_order ch3rf [[0; 1; 2]] (1#2) /\ (forall v, v < 3 -> matters ch3rf v) /\ min_witness ch3rf (f32 (1#2)) 1 /\
  run_tree ch3rf [[0; 1; 2]] (1#2) = Ok 1%Z /\
  run_tree ch3rf [[0; 1; 2]] (7#8) = Err ValueError /\
  tree_call gauss in_order fanrf [[0; 1]] (1#2) /\ ~ matters fanrf 1 /\ run_tree fanrf [[0; 1]] (1#2) = Err KeyError.
Proof. exact C56_nonvacuous_lemma. Qed.
