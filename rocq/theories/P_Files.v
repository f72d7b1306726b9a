(** Properties of saving and loading systems. *)
From Coq Require Import String List Arith ZArith QArith Bool.
From Verif Require Import Base Num Matrix SpecSystem SpecBuilt SpecFiles Amdp Files FilesFinal ExFiles.
Import ListNotations.
Local Open Scope nat_scope.

(** C48: a system whose probabilities have at most six decimals and whose label
    names contain no quotes and no line ends is saved and loaded without loss.
    Missing from the full statement: all other systems, see below. *)
Theorem C48_roundtrip_partial : forall m, built m -> (forall l, In l (label_names m) -> plain l) -> six_decimals m ->
  exists m', save_and_load m = Ok m' /\ built m' /\ same_system m m'.
Proof. exact C48_roundtrip_lemma. Qed.
Print Assumptions C48_roundtrip_partial.

Example C48_roundtrip_case : exists m', save_and_load fi1 = Ok m' /\ built m' /\ same_system fi1 m'.
Proof. apply C48_roundtrip_partial; [exact fi1_built|apply plain_ok; vm_compute; reflexivity|apply six_ok; vm_compute; reflexivity]. Qed.

(** C48: for arbitrary probabilities the loaded system is the saved one with
    every probability rounded to six decimals; if the rounded probabilities of
    some row do not sum to one, loading fails. *)
Theorem C48_rounded_partial : forall m, built m -> (forall l, In l (label_names m) -> plain l) ->
  (exists m', save_and_load m = Ok m' /\ built m' /\ same_up_to rounded m m') \/
  (save_and_load m = Err AssertionError /\
   exists i r, i < a_C m /\ (forall d, rounded (mget (a_P m) i d) (r d)) /\ ~ (sumQ (map r (seq 0 (a_N m))) == 1)%Q).
Proof. exact C48_rounded_lemma. Qed.
Print Assumptions C48_rounded_partial.

Example C48_rounded_case : exists m', save_and_load fi3 = Ok m' /\ built m' /\ same_up_to rounded fi3 m'.
Proof.
  destruct (C48_rounded_partial fi3 fi3_built) as [H|[H _]]; [apply plain_ok; vm_compute; reflexivity|exact H|]. vm_compute in H. discriminate.
Qed.

(** C48, full statement, is false: a chain with a row 1/3, 1/3, 1/3 is accepted
    by the constructor and cannot be loaded after saving. *)
Theorem C48_lossless_refuted : exists m, built m /\ (forall l, In l (label_names m) -> plain l) /\ exact_rows (a_P m) /\ save_and_load m = Err AssertionError.
Proof. exact C48_lossless_lemma. Qed.
Print Assumptions C48_lossless_refuted.

(** C48: a chain with a row 1/3, 2/3 is loaded with other probabilities. *)
Theorem C48_probabilities_refuted : exists m m', built m /\ (forall l, In l (label_names m) -> plain l) /\ exact_rows (a_P m) /\ save_and_load m = Ok m' /\ ~ same_system m m'.
Proof. exact C48_probabilities_lemma. Qed.
Print Assumptions C48_probabilities_refuted.

(** C48: a label name with a quote in it is cut off at the quote. *)
Theorem C48_labels_refuted : exists m m' s, built m /\ six_decimals m /\ save_and_load m = Ok m' /\ has_label m "a""b" s /\ ~ has_label m' "a""b" s /\ has_label m' "a" s /\ ~ has_label m "a" s.
Proof. exact C48_labels_lemma. Qed.
Print Assumptions C48_labels_refuted.

(** C49: action labels and rewards are kept exactly if there are none. *)
Theorem C49_kept_partial : forall m m', built m -> (forall l, In l (label_names m) -> plain l) -> save_and_load m = Ok m' ->
  ((forall l p, In p (actions_by_label m' l) <-> In p (actions_by_label m l)) <-> forall l, actions_by_label m l = []) /\
  (a_rew m' = a_rew m <-> a_rew m = None).
Proof. exact C49_kept_lemma. Qed.
Print Assumptions C49_kept_partial.

(** C49, full statement, is false. *)
Theorem C49_kept_refuted : exists m m', built m /\ (forall l, In l (label_names m) -> plain l) /\ six_decimals m /\ save_and_load m = Ok m' /\
  In (0, 1) (actions_by_label m "go") /\ ~ In (0, 1) (actions_by_label m' "go") /\ a_rew m <> None /\ a_rew m' = None.
Proof. exact C49_refuted_lemma. Qed.
Print Assumptions C49_kept_refuted.

Example C49_kept_case : exists m', save_and_load fi1 = Ok m' /\ ~ (a_rew m' = a_rew fi1).
Proof.
  destruct C48_roundtrip_case as (m' & E & _). exists m'. split; [exact E|]. intros X. apply (C49_kept_partial fi1 m' fi1_built) in X; [discriminate|apply plain_ok; vm_compute; reflexivity|exact E].
Qed.
