(** Proofs about the command line: the command rf. *)
From Coq Require Import String List Arith ZArith QArith Qreals Reals Bool Lia.
From Verif Require Import Base BaseFacts Num Matrix MatFacts InvDict GraphSpec SccSpec SpecMdp SpecSystem SpecForm SpecBuilt SpecProb SpecReduce SpecFiles SpecSub
  Amdp AmdpProofs ReachForm ReachFormProofs RfFacts FarkProofs BuiltFacts Reduce ReduceProofs3 ReduceProofs4 ReduceProofs5 ReduceProofs6 Files FilesProofs3 FilesProofs4 FilesFinal Cli SpecCli
  CliProofs1 CliProofs2 CliProofs3 CliProofs4.
Import ListNotations.
Local Open Scope nat_scope.
Local Open Scope string_scope.

Lemma app_inj : forall o x y : string, o ++ x = o ++ y -> x = y.
Proof. induction o as [|c o IH]; intros x y H; cbn in H; [exact H|]. injection H as H. auto. Qed.
Lemma app_neq : forall o x y : string, x <> y -> String.eqb (o ++ x) (o ++ y) = false.
Proof. intros o x y H. apply String.eqb_neq. intros E. apply H. eapply app_inj; eauto. Qed.

Lemma stored_load : forall a w m, stored w (modeltype a) (modelpath a) m -> load_model a w = Done m w.
Proof.
  intros a w m (lab & tra & L & T & E). unfold load_model, open_text. rewrite L. cbn [iobind]. pose proof E as E0. unfold from_file in E0. step E0 as sl Es.
  rewrite Es. cbn [lift iobind]. rewrite T. cbn [iobind]. rewrite E. reflexivity.
Qed.
Lemma load_stored : forall a w m w', load_model a w = Done m w' -> w' = w /\ stored w (modeltype a) (modelpath a) m.
Proof.
  intros a w m w'. unfold load_model, open_text. destruct (w_fs w (modelpath a ++ ".lab")) as [[lab|]|] eqn:L; cbn [iobind]; try discriminate.
  destruct (parse_label_file lab) eqn:P; cbn [lift iobind]; try discriminate. destruct (w_fs w (modelpath a ++ ".tra")) as [[tra|]|] eqn:T; cbn [iobind]; try discriminate.
  destruct (from_file (modeltype a) lab tra) eqn:F; cbn [lift]; try discriminate. intros H. injection H as <- <-. split; [auto|]. exists lab, tra. auto.
Qed.

Lemma built_form_of : forall rf, built_form rf ->
  built (rf_sys rf) /\ in_reach_form (a_P (rf_sys rf)) (a_inv (rf_sys rf)) (has_label (rf_sys rf)) (rf_init rf) (rf_initl rf) (rf_targetl rf) (rf_faill rf).
Proof.
  intros rf BF. destruct (built_form_ok rf BF) as [_ HR]. split; [|exact HR].
  destruct BF as (rnd & m & il & tl & fl & B & E). destruct (C11_contents_lemma _ _ _ _ _ _ B E) as [-> _]. exact B.
Qed.

Lemma reduce_kind : forall rnd m il tl ntl nfl rf cols rows, built m -> reduce rnd m il tl ntl nfl = Ok (rf, cols, rows) -> a_kind (rf_sys rf) = a_kind m.
Proof.
  intros rnd m il tl ntl nfl rf cols rows B E. destruct (reduce_returns _ _ _ _ _ _ _ _ _ B E) as (init & tm & P & _ & MD & _).
  exact (rd_kind _ _ _ _ _ _ _ _ (md_reduced _ _ _ _ _ _ _ _ _ _ MD)).
Qed.

Section Rf.
  Variables (E : env) (a : args) (w : world) (m : amdp) (init : nat).
  Hypothesis ST : stored w (modeltype a) (modelpath a) m.
  Hypothesis RD : reducible m (initial_label a) (target_label a) (target_label_rf a) (fail_label_rf a) init.
  Hypothesis P1 : plain (target_label_rf a).
  Hypothesis P2 : plain (fail_label_rf a).
  Hypothesis SD : six_decimals m.
  Let o := rf_output a.

  Definition rf_world (j : json) (tra lab : text) : world :=
    write (o ++ ".lab") (FText lab) (write (o ++ ".tra") (FText tra) (write (o ++ ".mapping.json") (FJson j) w)).

  Lemma rf_core : exists rf cols rows tra lab m',
    reduce (e_rnd E) m (initial_label a) (target_label a) (target_label_rf a) (fail_label_rf a) = Ok (rf, cols, rows) /\
    reduce_result m init (initial_label a) (target_label a) (target_label_rf a) (fail_label_rf a) rf cols /\
    from_file (modeltype a) lab tra = Ok m' /\ built m' /\ same_system (rf_sys rf) m' /\
    in_reach_form (a_P m') (a_inv m') (has_label m') (rf_init rf) (initial_label a) (target_label_rf a) (fail_label_rf a) /\
    rf_cmd E a w = Done tt (rf_world (mapping_json rows) tra lab).
  Proof.
    destruct RD as (R1 & R2 & R3 & R4 & R5 & R6 & R7 & R8). pose proof ST as (lab0 & tra0 & _ & _ & F). destruct (from_file_ok _ _ _ _ F) as (B & PL & K & _).
    destruct (C12_lemma (e_rnd E) m (initial_label a) (target_label a) (target_label_rf a) (fail_label_rf a) init B R1 R2 R3 R4 R5 R6 R7 R8) as (rf & cols & rows & RE & RR).
    destruct (reduce_facts _ _ _ _ _ _ _ _ _ B RE) as (F1 & F2 & F3). pose proof RR as (BF & _ & I1 & I2 & I3 & _). destruct (built_form_of rf BF) as [BS FO]. rewrite I1, I2, I3 in FO.
    assert (PL' : forall l, In l (label_names (rf_sys rf)) -> plain l). { intros l Hl. destruct (F1 l Hl) as [->|[->|X]]; auto. }
    destruct (reload_form (rf_sys rf) (rf_init rf) _ _ _ BS PL' (F3 SD) F2 FO) as (m' & SL & B' & SM & FO').
    unfold save_and_load in SL. step SL as tra Et. step SL as lab El. rewrite (reduce_kind _ _ _ _ _ _ _ _ _ B RE), K in SL.
    exists rf, cols, rows, tra, lab, m'. do 6 (split; [assumption|]).
    unfold rf_cmd. rewrite (stored_load a w m ST). cbn [iobind]. rewrite RE. cbn [lift iobind]. unfold save_system. rewrite Et. cbn [lift iobind]. rewrite El. cbn [lift iobind]. reflexivity.
  Qed.

  Lemma rf_world_files : forall j tra lab, let w' := rf_world j tra lab in
    w_out w' = w_out w /\ changes_only [o ++ ".tra"; o ++ ".lab"; o ++ ".mapping.json"] w w' /\
    w_fs w' (o ++ ".lab") = Some (FText lab) /\ w_fs w' (o ++ ".tra") = Some (FText tra) /\ w_fs w' (o ++ ".mapping.json") = Some (FJson j).
  Proof.
    intros j tra lab w'. split; [reflexivity|]. unfold w', rf_world, write, store, changes_only. cbn [w_fs w_out]. split; [|split; [|split]].
    - intros p Hp. cbn [In] in Hp. destruct (String.eqb_spec p (o ++ ".lab")); [exfalso; apply Hp; subst; auto|]. destruct (String.eqb_spec p (o ++ ".tra")); [exfalso; apply Hp; subst; auto|].
      destruct (String.eqb_spec p (o ++ ".mapping.json")); [exfalso; apply Hp; subst; auto|]. reflexivity.
    - rewrite String.eqb_refl. reflexivity.
    - rewrite app_neq, String.eqb_refl by discriminate. reflexivity.
    - rewrite app_neq, app_neq, String.eqb_refl by discriminate. reflexivity.
  Qed.

  (** The form that a later command builds from the files. *)
  Lemma reload_result : forall rf cols m' rnd, reduce_result m init (initial_label a) (target_label a) (target_label_rf a) (fail_label_rf a) rf cols ->
    built m' -> same_system (rf_sys rf) m' -> in_reach_form (a_P m') (a_inv m') (has_label m') (rf_init rf) (initial_label a) (target_label_rf a) (fail_label_rf a) ->
    exists rf', mk_rf rnd m' (initial_label a) (target_label_rf a) (fail_label_rf a) false = Ok rf' /\ rf_sys rf' = m' /\ rf_init rf' = rf_init rf /\
      reduce_result m init (initial_label a) (target_label a) (target_label_rf a) (fail_label_rf a) rf' cols.
  Proof.
    intros rf cols m' rnd RR B' SM FO. destruct (proj2 (C11_built_lemma rnd m' (initial_label a) (target_label_rf a) (fail_label_rf a) B') (ex_intro (fun i => in_reach_form (a_P m') (a_inv m') (has_label m') i (initial_label a) (target_label_rf a) (fail_label_rf a)) _ FO)) as (rf' & Erf).
    exists rf'. split; [auto|]. destruct (C11_contents_lemma _ _ _ _ _ _ B' Erf) as [Es FO']. split; [auto|].
    assert (EI : rf_init rf' = rf_init rf). { destruct FO as (_ & _ & _ & _ & L & _). destruct FO' as (_ & _ & _ & _ & L' & _). apply L. apply L'. reflexivity. }
    split; [auto|]. destruct RR as (BF & EX & I1 & I2 & I3 & C0 & C1 & C2 & C3). destruct (built_form_of rf BF) as [BS _].
    pose proof Erf as Erf0. apply mk_rf_ok in Erf0; [|apply built_ok; auto]. destruct Erf0 as (_ & _ & J1 & J2 & J3 & _). unfold reduce_result. rewrite J1, J2, J3.
    split; [exists rnd, m', (initial_label a), (target_label_rf a), (fail_label_rf a); auto|]. split; [intros X; rewrite Es; eapply same_exact; eauto|].
    split; [auto|]. split; [auto|]. split; [auto|]. split; [rewrite EI; auto|]. split; [auto|]. split; [auto|].
    rewrite Es. rewrite C3. unfold same_system in SM. destruct SM as (_ & -> & _). reflexivity.
  Qed.

  Lemma C88_lemma : exists w' m' cols, switss E CRf a w = Exited w' /\ w_out w' = w_out w /\
    changes_only [o ++ ".tra"; o ++ ".lab"; o ++ ".mapping.json"] w w' /\
    forall E' a', on_output a a' -> load_model a' w' = Done m' w' /\ exists rf, gen_rf E' m' a' = Ok rf /\
      reduce_result m init (initial_label a) (target_label a) (target_label_rf a) (fail_label_rf a) rf cols /\
      (exact_rows (a_P m) -> forall s s', dget Nat.eqb cols s = Some s' ->
        (forall v, IsPrMin (mdp_of m) (label_set m (target_label a)) s v <-> PrMinForm rf s' v) /\
        (forall v, IsPrMax (mdp_of m) (label_set m (target_label a)) s v <-> PrMaxForm rf s' v)).
  Proof.
    destruct rf_core as (rf & cols & rows & tra & lab & m' & RE & RR & FF & B' & SM & FO & CM). destruct (rf_world_files (mapping_json rows) tra lab) as (W1 & W2 & W3 & W4 & W5).
    exists (rf_world (mapping_json rows) tra lab), m', cols. split; [unfold switss; rewrite CM; reflexivity|]. split; [exact W1|]. split; [exact W2|].
    intros E' a' (A1 & A2 & A3 & A4 & A5). split; [apply stored_load; rewrite A1, A2; exists lab, tra; auto|].
    destruct (reload_result rf cols m' (e_rnd E') RR B' SM FO) as (rf' & Erf & Es & EI & RR'). exists rf'. split; [unfold gen_rf; rewrite A3, A4, A5; exact Erf|]. split; [exact RR'|].
    intros EX s s' Hs. destruct RD as (R1 & R2 & R3 & R4 & R5 & R6 & R7 & R8). pose proof ST as (lab0 & tra0 & _ & _ & F). destruct (from_file_ok _ _ _ _ F) as (B & PL & K & _).
    destruct (C13_lemma _ _ _ _ _ _ _ _ _ B R1 EX R8 RE s s' Hs) as [V1 V2].
    pose proof RR as (BF & EXR & _ & _ & _ & _ & _ & _ & CS). pose proof RR' as (BF' & _).
    assert (LS : s' < a_N (rf_sys rf)). { assert (X : In s' (map snd cols)) by (apply (dget_In Nat.eqb Nat.eqb_spec) in Hs; apply in_map_iff; exists (s, s'); auto). rewrite CS in X. apply in_seq in X. lia. }
    assert (SM' : same_system (rf_sys rf) (rf_sys rf')) by (rewrite Es; exact SM).
    destruct (same_form_values rf rf' BF BF' SM' (EXR EX) s' LS) as [V3 V4].
    split; intros v; [rewrite V1; apply V3|rewrite V2; apply V4].
  Qed.
End Rf.
