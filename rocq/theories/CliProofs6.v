(** Proofs about the command line: the mapping file of rf. *)
From Coq Require Import String List Arith ZArith QArith Qreals Reals Bool Lia.
From Verif Require Import Base BaseFacts Num Matrix MatFacts InvDict GraphSpec SccSpec SpecMdp SpecSystem SpecForm SpecBuilt SpecProb SpecReduce SpecFiles SpecSub
  Amdp AmdpProofs ReachForm ReachFormProofs RfFacts BuiltFacts Reduce ReduceProofs3 ReduceProofs4 ReduceProofs5 ReduceProofs6 Files FilesProofs3 FilesProofs4 FilesFinal Cli SpecCli
  CliProofs1 CliProofs2 CliProofs3 CliProofs4 CliProofs5.
Import ListNotations.
Local Open Scope nat_scope.
Local Open Scope string_scope.

Lemma copies_reduce : forall rnd m il tl ntl nfl rf cols rows init, built m -> only_state m il init -> reduce rnd m il tl ntl nfl = Ok (rf, cols, rows) ->
  copies m init tl (rf_sys rf) rows.
Proof.
  intros rnd m il tl ntl nfl rf cols rows init B ON RE. pose proof (C14_lemma _ _ _ _ _ _ _ _ _ B RE) as H. cbv zeta in H. destruct H as (A1 & A2 & A3 & A4 & A5 & A6 & A7 & A8 & _ & _ & A9).
  destruct (reduce_returns _ _ _ _ _ _ _ _ _ B RE) as (init' & tm & P & PRE & MD & _ & _ & MK).
  assert (EI : init' = init). { apply ON. apply (pr_il _ _ _ _ _ _ PRE). reflexivity. }
  subst init'. pose proof (md_rows _ _ _ _ _ _ _ _ _ _ MD) as MR. pose proof (built_ok m B) as OK.
  assert (BS : sys_ok (rf_sys rf)). { apply built_ok. exact (m'_built _ _ _ _ _ _ _ _ _ _ MD). }
  assert (INJ : forall s d x, dget Nat.eqb cols s = Some x -> dget Nat.eqb cols d = Some x -> s = d).
  { intros s d x X Y. pose proof (md_cb _ _ _ _ _ _ _ _ _ _ MD) as CB. apply (binv_dget Nat.eqb Nat.eqb Nat.eqb_spec Nat.eqb_spec) in X; [|exact CB]. apply (binv_dget Nat.eqb Nat.eqb Nat.eqb_spec Nat.eqb_spec) in Y; [|exact CB]. congruence. }
  split; [exact A3|]. split; [exact A4|]. split; [exact MR|]. split; [|split].
  - intros s a. split.
    + intros X. apply in_map_iff in X. destruct X as ([[s0 a0] [s1 a1]] & X1 & X2). cbn [snd] in X1. injection X1 as -> ->. destruct (A5 _ _ _ _ X2) as (-> & C & i & i' & I1 & I2 & I3 & I4).
      split; [|exists i'; split; [lia|apply (row_inv _ BS); auto]]. apply (dget_In Nat.eqb Nat.eqb_spec) in C. assert (X : In s (map snd cols)) by (apply in_map_iff; eexists; split; [|exact C]; reflexivity). rewrite A2 in X. apply in_seq in X. lia.
    + intros (L & i & Hi & Ei). destruct (A7 s a i L) as (s0 & X); [apply (row_inv _ BS); auto|]. apply in_map_iff. eexists. split; [|exact X]. reflexivity.
  - intros s a s' a' X. destruct (A5 _ _ _ _ X) as (-> & C & _). split; [auto|]. intros l. apply A8. auto.
  - intros s a s' a' d b d' b' X Y. destruct (A5 _ _ _ _ X) as (-> & C & i & i' & I1 & I2 & I3 & I4). destruct (A5 _ _ _ _ Y) as (-> & D & _). split.
    + split; intros EQ; [subst d; congruence|subst d'; eapply INJ; eauto].
    + intros NT q. assert (PQ : (mget (a_P (rf_sys rf)) i' d' = mget (a_P m) i d)%Q) by (exact (A9 s a s' d d' i i' X NT D I1 I3)). split.
      * intros (j & J1 & J2 & J3). apply (row_inv _ OK) in J2. rewrite I1 in J2. injection J2 as <-. exists i'. split; [lia|]. split; [apply (row_inv _ BS); auto|]. rewrite PQ. auto.
      * intros (j & J1 & J2 & J3). apply (row_inv _ BS) in J2. rewrite I3 in J2. injection J2 as <-. exists i. split; [lia|]. split; [apply (row_inv _ OK); auto|]. rewrite <- PQ. auto.
Qed.

Lemma same_pair : forall m m', same_system m m' -> forall s a, has_pair m s a <-> has_pair m' s a.
Proof. intros m m' SM s a. apply SM. Qed.
Lemma same_prob : forall m m', built m -> built m' -> same_system m m' -> forall s a d q, pair_prob m s a d q <-> pair_prob m' s a d q.
Proof.
  intros m m' B B' SM s a d q. split.
  - intros (i & Hi & E & Q). destruct (sm_row _ _ SM s a i Hi E) as (i' & Hi' & E'). exists i'. split; [auto|]. split; [auto|]. rewrite <- Q. symmetry. apply (sm_p _ _ SM s a); auto.
  - intros (i & Hi & E & Q). destruct (sm_row' _ _ SM s a i Hi E) as (i' & Hi' & E'). exists i'. split; [auto|]. split; [auto|]. rewrite <- Q. apply (sm_p _ _ SM s a); auto.
Qed.

Lemma copies_same : forall m init tl m1 m2 rows, built m1 -> built m2 -> same_system m1 m2 -> copies m init tl m1 rows -> copies m init tl m2 rows.
Proof.
  intros m init tl m1 m2 rows B1 B2 SM (A1 & A2 & A3 & A4 & A5 & A6). split; [auto|]. split; [auto|]. split; [auto|]. split; [|split].
  - intros s a. rewrite A4, (same_pair _ _ SM), (sm_N _ _ SM). tauto.
  - intros s a s' a' X. destruct (A5 _ _ _ _ X) as [-> L]. split; [auto|]. intros l. rewrite <- (L l). apply SM.
  - intros s a s' a' d b d' b' X Y. destruct (A6 _ _ _ _ _ _ _ _ X Y) as [H1 H2]. split; [auto|]. intros NT q. rewrite (H2 NT q). apply same_prob; auto.
Qed.

Lemma mapping_json_file : forall rows, mapping_file (mapping_json rows) rows.
Proof. intros rows. unfold mapping_file, column. cbn. rewrite !map_map. auto. Qed.

Section Map.
  Variables (E : env) (a : args) (w : world) (m : amdp) (init : nat).
  Hypothesis ST : stored w (modeltype a) (modelpath a) m.
  Hypothesis RD : reducible m (initial_label a) (target_label a) (target_label_rf a) (fail_label_rf a) init.
  Hypothesis P1 : plain (target_label_rf a).
  Hypothesis P2 : plain (fail_label_rf a).
  Hypothesis SD : six_decimals m.

  Lemma C89_lemma : exists w' m' j rows, switss E CRf a w = Exited w' /\ w_fs w' (rf_output a ++ ".mapping.json") = Some (FJson j) /\ mapping_file j rows /\
    stored w' (modeltype a) (rf_output a) m' /\ copies m init (target_label a) m' rows.
  Proof.
    destruct (rf_core E a w m init ST RD P1 P2 SD) as (rf & cols & rows & tra & lab & m' & RE & RR & FF & B' & SM & FO & CM). destruct (rf_world_files a w (mapping_json rows) tra lab) as (W1 & W2 & W3 & W4 & W5).
    exists (rf_world a w (mapping_json rows) tra lab), m', (mapping_json rows), rows. split; [unfold switss; rewrite CM; reflexivity|]. split; [exact W5|]. split; [apply mapping_json_file|].
    split; [exists lab, tra; auto|]. pose proof ST as (lab0 & tra0 & _ & _ & F). destruct (from_file_ok _ _ _ _ F) as (B & PL & K & _).
    apply (copies_same m init (target_label a) (rf_sys rf)); [apply built_form_of; apply RR|auto|auto|]. eapply copies_reduce; [exact B|apply RD|exact RE].
  Qed.
End Map.
