(** The statements about reading storm models. *)
From Coq Require Import String List Arith ZArith QArith Bool Lia.
From Verif Require Import Base Num Matrix SpecSystem SpecBuilt Amdp Storm SpecStorm StormProofs StormFinal StormFinal2.
Import ListNotations.
Local Open Scope nat_scope.

Lemma C50_choice_model_lemma : forall sm, good_storm sm ->
  exists m, from_stormpy KMdp sm true = Ok m /\ built m /\ choice_system sm m /\
    (forall s st l, nth_error sm s = Some st -> (has_label m l s <-> l = "state"%string \/ In l (st_labels st))) /\
    (forall l s, nr_states sm <= s -> (has_label m l s <-> exists k p ac, nth_error (choices sm) k = Some (p, ac) /\ s = nr_states sm + k + 1 /\ (l = "choice"%string \/ In l (ac_labels ac)))).
Proof.
  intros sm G. destruct (choice_lemma sm G) as (m & E & B & CS & L & _). exists m. split; [exact E|]. split; [exact B|]. split; [exact CS|]. split.
  - intros s st l H. assert (s < nr_states sm) by (apply nth_error_Some; congruence). rewrite L. split.
    + intros [(st' & X & Y)|(k & p & ac & _ & X & _)]; [congruence|lia].
    + intros X. left. eauto.
  - intros l s H. rewrite L. split.
    + intros [(st' & X & Y)|(k & p & ac & X & Y & Z)]; [exfalso; assert (s < nr_states sm) by (apply nth_error_Some; congruence); lia|]. exists k, p, ac. split; [auto|]. split; [lia|auto].
    + intros (k & p & ac & X & Y & Z). right. exists k, p, ac. split; [auto|]. split; [lia|auto].
Qed.
Lemma C50_choice_labels_lemma : forall sm m, good_storm sm -> 0 < nr_choices sm -> from_stormpy KMdp sm true = Ok m ->
  has_label m "choice" (a_N m) /\ ~ has_label m "choice" (nr_states sm).
Proof.
  intros sm m G H E. destruct (choice_lemma sm G) as (m' & E' & _ & (N & _) & _). rewrite E in E'. inversion E'; subst m'. rewrite N. apply choice_labels_wrong; auto.
Qed.
Lemma C60_read_dtmc_lemma : forall sm b, from_stormpy KDtmc sm b = Err TypeError.
Proof. reflexivity. Qed.
