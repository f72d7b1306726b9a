(** Properties C09 (second half), C11, C16, C17, C18: reachability forms and
    their Farkas constraints. *)
From Coq Require Import String List Arith ZArith QArith Bool Lia.
From Verif Require Import Base Num Matrix Amdp ReachForm SccSpec SpecSystem SpecForm SpecBuilt FarkCache BuiltFacts FarkProofs Examples ExProofs1.
Import ListNotations.
Local Open Scope nat_scope.

(** C11: the check is exact. *)
Theorem C11_consistency_exact : forall m il tl fl, built m ->
  (assert_consistency m il tl fl = Ok tt <-> exists init, in_reach_form (a_P m) (a_inv m) (has_label m) init il tl fl).
Proof. exact C11_lemma. Qed.
Print Assumptions C11_consistency_exact.

(** A form can be built exactly for the consistent systems, whatever the
    random numbers. *)
Theorem C11_form_built : forall rnd m il tl fl, built m ->
  ((exists rf, mk_rf rnd m il tl fl false = Ok rf) <-> exists init, in_reach_form (a_P m) (a_inv m) (has_label m) init il tl fl).
Proof. exact C11_built_lemma. Qed.
Print Assumptions C11_form_built.

Theorem C11_form_contents : forall rnd m il tl fl rf, built m -> mk_rf rnd m il tl fl false = Ok rf ->
  rf_sys rf = m /\ in_reach_form (a_P m) (a_inv m) (has_label m) (rf_init rf) il tl fl.
Proof. exact C11_contents_lemma. Qed.
Print Assumptions C11_form_contents.

Example C11_nonvacuous :
  (exists init, in_reach_form (a_P toy2) (a_inv toy2) (has_label toy2) init "init" "target" "fail") /\
  assert_consistency toy2 "init" "target" "brown" = Err AssertionError.
Proof.
  split; [|vm_compute; reflexivity].
  apply (C11_consistency_exact toy2 "init" "target" "fail" toy2_built). vm_compute. reflexivity.
Qed.

(** C09, second half. *)
Theorem C09_ec_free_exact : forall rf, built_form rf ->
  (is_ec_free rf = true <-> forall s, s < a_N (rf_sys rf) - 2 -> ~ in_some_ec (a_P (rf_sys rf)) (a_inv (rf_sys rf)) s).
Proof. exact C09_free_lemma. Qed.
Print Assumptions C09_ec_free_exact.

Theorem C09_in_proper_ec_exact : forall rf, built_form rf -> forall s, s < a_N (rf_sys rf) - 2 ->
  exists b, in_proper_ec rf s = Ok b /\ (b = true <-> in_some_ec (a_P (rf_sys rf)) (a_inv (rf_sys rf)) s).
Proof. exact C09_state_lemma. Qed.
Print Assumptions C09_in_proper_ec_exact.

Example C09_free_nonvacuous :
  built_form toy2rf /\ is_ec_free toy2rf = true /\ built_form ec1rf /\ is_ec_free ec1rf = false /\ in_proper_ec ec1rf 1 = Ok true.
Proof. split; [apply toy2rf_built|]. split; [vm_compute; reflexivity|]. split; [apply ec1rf_built|]. vm_compute. auto. Qed.

(** C16: meaning of the constraints, and when they can be asked for. *)
Theorem C16_z_constraints_meaning : forall rf t z A b, built_any rf -> fark_z rf t = Ok (A, b) -> length z = a_N (rf_sys rf) - 2 ->
  (Forall2 Qle (mat_vec A z) b <-> z_constraints (a_P (rf_sys rf)) (a_inv (rf_sys rf)) (rf_init rf) t z).
Proof. exact C16_z_lemma. Qed.
Print Assumptions C16_z_constraints_meaning.

Theorem C16_y_constraints_meaning : forall rf t y A b, built_any rf -> fark_y rf t = Ok (A, b) -> length y = a_C (rf_sys rf) - 2 ->
  (Forall2 Qle (mat_vec A y) b <-> y_constraints (a_P (rf_sys rf)) (a_inv (rf_sys rf)) (rf_init rf) t y).
Proof. exact C16_y_lemma. Qed.
Print Assumptions C16_y_constraints_meaning.

Theorem C16_constraints_defined : forall rf t, built_any rf ->
  ((exists Ab, fark_z rf t = Ok Ab) <-> rf_init rf < a_N (rf_sys rf) - 2) /\
  ((exists Ab, fark_y rf t = Ok Ab) <-> rf_init rf <= a_N (rf_sys rf) - 2).
Proof. exact C16_defined_lemma. Qed.
Print Assumptions C16_constraints_defined.

Example C16_nonvacuous : exists A b A' b',
  fark_z toy2rf (1#5) = Ok (A, b) /\ Forall2 Qle (mat_vec A [1#5; 1#5; 0; 0; 1#2; 1]%Q) b /\
  ~ Forall2 Qle (mat_vec A [1#2; 1#5; 0; 0; 1#2; 1]%Q) b /\
  fark_y toy2rf (1#2) = Ok (A', b') /\ Forall2 Qle (mat_vec A' [0; 1; 0; 0; 0; 1; 1#2]%Q) b'.
Proof.
  do 4 eexists. split; [vm_compute; reflexivity|]. split; [|split; [|split; [vm_compute; reflexivity|]]].
  - repeat constructor; vm_compute; discriminate.
  - intros H. inversion H as [|? ? ? ? H1 _]. apply Qle_bool_iff in H1. vm_compute in H1. discriminate.
  - repeat constructor; vm_compute; discriminate.
Qed.

(** C17: what is returned does not depend on earlier calls. *)
Theorem C17_history_independent : forall rf, built_any rf -> forall l t,
  let st := calls rf cinit l in
  (let '(st', r) := do_call rf st (CallZ t) in
     match r with Ok (M, a) => Ok (M, cell st' a) | Err e => Err e end = fark_z rf t) /\
  (let '(st', r) := do_call rf st (CallY t) in
     match r with Ok (M, a) => Ok (M, cell st' a) | Err e => Err e end = fark_y rf t).
Proof. exact C17_built. Qed.
Print Assumptions C17_history_independent.

Example C17_nonvacuous : exists st M a,
  do_call toy2rf (calls toy2rf cinit [CallZ (1#2); CallY (1#3); CallZ (2#3)]%Q) (CallZ (1#7)) = (st, Ok (M, a)) /\
  cell st a = [0; 0; 1#5; 0; 1; 0; 1; -1#7]%Q /\ a = 0.
Proof. do 3 eexists. split; [vm_compute; reflexivity|]. vm_compute. auto. Qed.

(** C18 is false: the array handed out is overwritten by the next call. *)
Theorem C18_rhs_stays_valid_refuted : exists rf t1 t2 st1 M a st2 r,
  built_form rf /\ do_call rf cinit (CallZ t1) = (st1, Ok (M, a)) /\ do_call rf st1 (CallZ t2) = (st2, r) /\
  exists i, ~ (nth i (cell st2 a) 0 == nth i (cell st1 a) 0)%Q.
Proof. exact C18_refuted_lemma. Qed.
Print Assumptions C18_rhs_stays_valid_refuted.

(** What does hold: it survives calls of the other kind and calls with the
    same threshold. *)
Theorem C18_rhs_stays_valid_partial : forall rf, built_any rf -> forall l1 t st M a,
  (do_call rf (calls rf cinit l1) (CallZ t) = (st, Ok (M, a)) ->
   forall l2, (forall t', In (CallZ t') l2 -> t' = t) -> cell (calls rf st l2) a = cell st a) /\
  (do_call rf (calls rf cinit l1) (CallY t) = (st, Ok (M, a)) ->
   forall l2, (forall t', In (CallY t') l2 -> t' = t) -> cell (calls rf st l2) a = cell st a).
Proof. exact C18_built. Qed.
Print Assumptions C18_rhs_stays_valid_partial.

Example C18_nonvacuous : exists st M a,
  do_call toy2rf (calls toy2rf cinit [CallY (1#3)]%Q) (CallY (1#2)) = (st, Ok (M, a)) /\
  cell (calls toy2rf st [CallZ (1#9); CallY (1#2)]%Q) a = [1; 0; 0; 0; 0; 0; -1#2]%Q.
Proof. do 3 eexists. split; [vm_compute; reflexivity|]. vm_compute. auto. Qed.
