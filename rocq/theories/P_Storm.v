(** Properties of reading systems from storm models. *)
From Coq Require Import String List Arith ZArith QArith Bool.
From Verif Require Import Base Num Matrix SpecSystem SpecBuilt Amdp Storm SpecStorm StormFinal StormFinal2 StormFinal3.
Import ListNotations.
Local Open Scope nat_scope.

(** C50: the choice model has the documented states and transitions, every
    original state carries its labels and "state" and nothing else, and the
    labels of choice number [k] are on state N + k + 1.  Missing from the full
    statement: the labels should be on state N + k, see below. *)
Theorem C50_choice_model_partial : forall sm, good_storm sm ->
  exists m, from_stormpy KMdp sm true = Ok m /\ built m /\ choice_system sm m /\
    (forall s st l, nth_error sm s = Some st -> (has_label m l s <-> l = "state"%string \/ In l (st_labels st))) /\
    (forall l s, nr_states sm <= s -> (has_label m l s <-> exists k p ac, nth_error (choices sm) k = Some (p, ac) /\ s = nr_states sm + k + 1 /\ (l = "choice"%string \/ In l (ac_labels ac)))).
Proof. exact C50_choice_model_lemma. Qed.
Print Assumptions C50_choice_model_partial.

Example C50_choice_model_case : exists m, from_stormpy KMdp sto1 true = Ok m /\ choice_system sto1 m.
Proof. destruct (C50_choice_model_partial sto1 sto1_good) as (m & E & _ & H & _). eauto. Qed.

(** C50, full statement, is false for every model with a choice: the state of
    the first choice is not labelled "choice", and a state that does not exist
    is. *)
Theorem C50_choice_labels_refuted : forall sm m, good_storm sm -> 0 < nr_choices sm -> from_stormpy KMdp sm true = Ok m ->
  has_label m "choice" (a_N m) /\ ~ has_label m "choice" (nr_states sm).
Proof. exact C50_choice_labels_lemma. Qed.
Print Assumptions C50_choice_labels_refuted.

Example C50_choice_labels_case : exists sm m, good_storm sm /\ 0 < nr_choices sm /\ from_stormpy KMdp sm true = Ok m /\ has_label m "choice" (a_N m) /\ ~ has_label m "choice" (nr_states sm).
Proof.
  exists sto1. destruct (C50_choice_model_partial sto1 sto1_good) as (m & E & _). exists m. split; [exact sto1_good|]. split; [vm_compute; auto|]. split; [exact E|]. apply (C50_choice_labels_refuted sto1 m sto1_good); [vm_compute; auto|exact E].
Qed.

(** C60, for decision processes. *)
Theorem C60_read_mdp : forall sm, good_storm sm -> exists m, from_stormpy KMdp sm false = Ok m /\ built m /\ reads sm m.
Proof. exact plain_lemma. Qed.
Print Assumptions C60_read_mdp.

Example C60_read_mdp_case : exists m, from_stormpy KMdp sto1 false = Ok m /\ reads sto1 m.
Proof. destruct (C60_read_mdp sto1 sto1_good) as (m & E & _ & H). eauto. Qed.

(** C60, for Markov chains, is false: no model can be read. *)
Theorem C60_read_dtmc_refuted : forall sm b, from_stormpy KDtmc sm b = Err TypeError.
Proof. exact C60_read_dtmc_lemma. Qed.
Print Assumptions C60_read_dtmc_refuted.

(** C60: building the chain from the transitions that
    DTMC.from_stormpy_model reads gives the right rows; all labels are lost. *)
Theorem C60_rows_dtmc_partial : forall sm, good_storm sm -> one_action sm -> exists m, dtmc_of_storm sm = Ok m /\ built m /\ a_N m = nr_states sm /\ a_C m = nr_states sm /\
  (forall s st ac, nth_error sm s = Some st -> st_actions st = [ac] -> a_inv m s = Some (s, 0) /\ forall d, (mget (a_P m) s d == prob_to ac d)%Q) /\
  forall l s, ~ has_label m l s.
Proof. exact dtmc_lemma. Qed.
Print Assumptions C60_rows_dtmc_partial.

Example C60_rows_dtmc_case : exists m, dtmc_of_storm sto2 = Ok m /\ a_N m = 2.
Proof. destruct (C60_rows_dtmc_partial sto2 sto2_good sto2_one) as (m & E & _ & H & _). eauto. Qed.
