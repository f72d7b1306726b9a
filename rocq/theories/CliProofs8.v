(** Proofs about the command line: rf followed by certify. *)
From Coq Require Import String List Arith ZArith QArith Qreals Reals Bool Lia.
From Verif Require Import Base BaseFacts Num Matrix MatFacts InvDict GraphSpec SccSpec SpecMdp SpecEc SpecSystem SpecForm SpecBuilt SpecProb SpecReduce SpecFiles SpecSub
  Amdp AmdpProofs ReachForm ReachFormProofs RfFacts FarkProofs BuiltFacts RfBridge Milp Formulations Certificates CertProofs CertProofs2 ExProofs2 Files Subsystem Problems Cli SpecCli CliProofs1 CliProofs5 CliProofs7.
Import ListNotations.
Local Open Scope nat_scope.
Local Open Scope string_scope.

Definition iow {A} (x : io A) : world := match x with Done _ w | Raised _ w => w end.
Lemma switss_final : forall E c a w, final (switss E c a w) =
  iow ((match c with CRf => rf_cmd | CInfo => info_cmd | CMinimize => minimize_cmd | CCertify => certify_cmd | CSubsystem => subsystem_cmd end) E a w).
Proof.
  intros E c a w. unfold switss. destruct ((match c with CRf => rf_cmd | CInfo => info_cmd | CMinimize => minimize_cmd | CCertify => certify_cmd | CSubsystem => subsystem_cmd end) E a w) as [[] w1|e w1]; [reflexivity|].
  destruct e as [[]|]; reflexivity.
Qed.

(** Every verdict VALID stems from a check. *)
Definition backed (a : args) (rf : rform) (j : json) (l : list json) (new : list line) : Prop :=
  forall it th, In (Verdict it th true) new -> exists me md x c v t, getitem j "method" = Ok me /\ getitem me "mode" = Ok md /\ In x l /\ getitem x "certificate" = Ok c /\ as_vector c = Ok v /\
    as_number th = Ok t /\ check_farkas rf (as_mode md) FGe t v (tolerance a) = Ok true.

Lemma each_backed : forall a rf j l w, w_fs (iow (each (certify_one a rf j) l w)) = w_fs w /\
  exists new, w_out (iow (each (certify_one a rf j) l w)) = (w_out w ++ new)%list /\ backed a rf j l new.
Proof.
  intros a rf j l. induction l as [|x l IH]; intros w; cbn [each].
  - split; [reflexivity|]. exists []%list. split; [cbn; rewrite app_nil_r; auto|intros it th []].
  - assert (NIL : forall w0, w0 = w -> w_fs w0 = w_fs w /\ exists new, w_out w0 = (w_out w ++ new)%list /\ backed a rf j (x :: l) new).
    { intros w0 ->. split; [auto|]. exists []%list. split; [rewrite app_nil_r; auto|intros it th []]. }
    unfold certify_one at 1 3. destruct (unpack j x) as [i|e] eqn:U; cbn [lift iobind]; [|apply NIL; reflexivity].
    destruct (let* md := getitem (in_method i) "mode" in let* t := as_number (in_threshold i) in check_farkas rf (as_mode md) FGe t (in_cert i) (tolerance a)) as [b|e] eqn:C; cbn [lift iobind]; [|apply NIL; reflexivity].
    destruct (IH (say (Verdict (in_iteration i) (in_threshold i) b) w)) as (H1 & new & H2 & H3). split; [exact H1|]. exists (Verdict (in_iteration i) (in_threshold i) b :: new). split.
    + rewrite H2. unfold say. cbn [w_out]. rewrite <- app_assoc. reflexivity.
    + intros it th [HE|HI].
      * injection HE as H4 H5 H6. subst b it th. step C as md Em. step C as t Et. unfold unpack in U. step U as c Ec. step U as v Ev. step U as me Eme. step U as iti Eit. step U as thj Eth. injection U as <-. cbn [in_method in_iteration in_threshold in_cert] in *.
        exists me, md, x, c, v, t. split; [auto|]. split; [auto|]. split; [left; auto|]. auto.
      * destruct (H3 it th HI) as (me & md & x' & c & v & t & K1 & K2 & K3 & K4). exists me, md, x', c, v, t. split; [auto|]. split; [auto|]. split; [right; auto|]. auto.
Qed.

Lemma certify_backed : forall E a w m rf p j, stored w (modeltype a) (modelpath a) m -> gen_rf E m a = Ok rf -> certificate a = Some p -> w_fs w p = Some (FJson j) ->
  w_fs (final (switss E CCertify a w)) = w_fs w /\ exists new, w_out (final (switss E CCertify a w)) = (w_out w ++ new)%list /\
  forall it th, In (Verdict it th true) new -> exists me md v t, getitem j "method" = Ok me /\ getitem me "mode" = Ok md /\ file_certificate j v /\ as_number th = Ok t /\ check_farkas rf (as_mode md) FGe t v (tolerance a) = Ok true.
Proof.
  intros E a w m rf p j ST GF CP FJ. rewrite switss_final.
  destruct (let* i := getitem j "instances" in elements i) as [l|e] eqn:G.
  - pose proof G as G0. step G0 as i Ei. rewrite (certify_run E a w m rf p j ST GF CP FJ l i Ei G0). destruct (each_backed a rf j l w) as (H1 & new & H2 & H3). split; [exact H1|]. exists new. split; [exact H2|].
    intros it th HI. destruct (H3 it th HI) as (me & md & x & c & v & t & K1 & K2 & K3 & K4 & K5 & K6 & K7). exists me, md, v, t. split; [auto|]. split; [auto|]. split; [|auto]. exists i, l, x, c. auto.
  - assert (X : certify_cmd E a w = Raised (Py e) w). { unfold certify_cmd. rewrite (stored_load a w m ST). cbn [iobind]. rewrite GF. cbn [lift iobind]. unfold load_results, open_json. rewrite CP, FJ. cbn [iobind]. rewrite G. reflexivity. }
    rewrite X. split; [reflexivity|]. exists []%list. split; [cbn; rewrite app_nil_r; auto|intros it th []].
Qed.

Section Pipeline.
  Variables (E : env) (a : args) (w : world) (m : amdp) (init : nat).
  Hypothesis ST : stored w (modeltype a) (modelpath a) m.
  Hypothesis RD : reducible m (initial_label a) (target_label a) (target_label_rf a) (fail_label_rf a) init.
  Hypothesis P1 : plain (target_label_rf a).
  Hypothesis P2 : plain (fail_label_rf a).
  Hypothesis SD : six_decimals m.
  Hypothesis EX : exact_rows (a_P m).

  Let PMIN v := IsPrMin (mdp_of m) (label_set m (target_label a)) init v.
  Let PMAX v := IsPrMax (mdp_of m) (label_set m (target_label a)) init v.

  Lemma pipeline : exists w1 m' i', switss E CRf a w = Exited w1 /\ forall E' a' w2, on_output a a' -> keeps (rf_output a) w1 w2 ->
    stored w2 (modeltype a') (modelpath a') m' /\ exists rf, gen_rf E' m' a' = Ok rf /\ built_form rf /\ rf_sys rf = m' /\ exact_rows (a_P (rf_sys rf)) /\ rf_init rf = i' /\ rf_init rf < a_N (rf_sys rf) - 2 /\
      (forall v, PMIN v <-> PrMinForm rf (rf_init rf) v) /\ (forall v, PMAX v <-> PrMaxForm rf (rf_init rf) v).
  Proof.
    destruct (C88_lemma E a w m init ST RD P1 P2 SD) as (w1 & m' & cols & EX1 & _ & _ & H).
    assert (I0 : exists i', dget Nat.eqb cols init = Some i'). { destruct (H E (MkArgs (modeltype a) (rf_output a) (initial_label a) (target_label a) (target_label_rf a) (fail_label_rf a) None None [] [] [] 0 "")) as (_ & rf & _ & RR & _); [repeat split|]. exists (rf_init rf). apply RR. }
    destruct I0 as (i' & I0). exists w1, m', i'. split; [exact EX1|]. intros E' a' w2 OO (K1 & K2). destruct (H E' a' OO) as (LM & rf & GF & RR & V). apply load_stored in LM. destruct LM as [_ (lab & tra & L1 & L2 & L3)].
    pose proof OO as (A1 & A2 & _). split. { exists lab, tra. rewrite A2 in *. change (form_path a) with (rf_output a) in *. rewrite K1, K2. auto. }
    exists rf. destruct RR as (BF & EXR & _ & _ & _ & CI & _ & _ & CS). split; [auto|]. split; [auto|].
    assert (B' : built m') by (eapply from_file_ok; eauto). assert (ES : rf_sys rf = m') by (apply (C11_contents_lemma _ _ _ _ _ _ B' GF)).
    split; [auto|]. split; [auto|]. split; [congruence|].
    assert (LI : rf_init rf < a_N (rf_sys rf) - 2). { assert (X : In (rf_init rf) (map snd cols)) by (apply (dget_In Nat.eqb Nat.eqb_spec) in CI; apply in_map_iff; exists (init, rf_init rf); auto). rewrite CS in X. apply in_seq in X. lia. }
    split; [exact LI|]. apply (V EX). exact CI.
  Qed.

  Lemma C93_sound_lemma : exists w1, switss E CRf a w = Exited w1 /\ forall E' a' w2 p j, on_output a a' -> tolerance a' = 0%Q -> keeps (rf_output a) w1 w2 -> certificate a' = Some p -> w_fs w2 p = Some (FJson j) ->
    let w3 := final (switss E' CCertify a' w2) in w_fs w3 = w_fs w2 /\ exists new, w_out w3 = (w_out w2 ++ new)%list /\
    (file_mode j "min" -> forall it th, In (Verdict it th true) new -> exists t, as_number th = Ok t /\ forall v, PMIN v -> (Q2R t <= v)%R) /\
    (file_mode j "max" -> (forall v q, file_certificate j v -> In q v -> (0 <= q)%Q) -> forall it th, In (Verdict it th true) new -> exists t, as_number th = Ok t /\ forall v, PMAX v -> (Q2R t <= v)%R).
  Proof.
    destruct pipeline as (w1 & m' & i' & EX1 & H). exists w1. split; [exact EX1|]. intros E' a' w2 p j OO TO KE CP FJ. cbv zeta. destruct (H E' a' w2 OO KE) as (ST' & rf & GF & BF & ES & EXR & EI & LI & V1 & V2).
    destruct (certify_backed E' a' w2 m' rf p j ST' GF CP FJ) as (F1 & new & F2 & F3). split; [exact F1|]. exists new. split; [exact F2|]. rewrite TO in F3. split.
    - intros (me & M1 & M2) it th HI. destruct (F3 it th HI) as (me' & md & v & t & K1 & K2 & K3 & K4 & K5). rewrite M1 in K1. injection K1 as <-. rewrite M2 in K2. injection K2 as <-. exists t. split; [exact K4|].
      intros pv PV. apply V1 in PV. destruct PV as [_ PV]. apply PV. intros x (sigma & HV & HP). eapply (C19_lemma rf BF EXR t v K5); eauto.
    - intros (me & M1 & M2) NN it th HI. destruct (F3 it th HI) as (me' & md & v & t & K1 & K2 & K3 & K4 & K5). rewrite M1 in K1. injection K1 as <-. rewrite M2 in K2. injection K2 as <-. exists t. split; [exact K4|].
      intros pv PV. apply V2 in PV. apply (C21_partial_lemma rf BF EXR t v K5); [|exact PV]. intros i Hi. unfold entry. destruct (nth_in_or_default i v 0%Q) as [X| ->]; [eapply NN; eauto|Lqa.lra].
  Qed.

  Lemma accepted_mono : forall m0 i md t v tol, (0 <= tol)%Q -> accepted m0 i md t v 0 -> accepted m0 i md t v tol.
  Proof.
    intros m0 i md t v tol HT. unfold accepted. cbv zeta. destruct (String.eqb md "min").
    - intros (A1 & A2 & A3). split; [auto|]. split; [|Lqa.lra]. intros r s b Hr Er. specialize (A2 r s b Hr Er). Lqa.lra.
    - intros (A2 & A3). split; [|Lqa.lra]. intros s Hs. specialize (A2 s Hs). Lqa.lra.
  Qed.

  Lemma C93_complete_lemma : exists w1, switss E CRf a w = Exited w1 /\ forall md t, (0 <= t)%Q -> (t <= 1)%Q ->
    (md = "min" /\ forall v, PMIN v -> (Q2R t <= v)%R) \/ (md = "max" /\ forall v, PMAX v -> (Q2R t <= v)%R) ->
    exists c, (forall q, md = "max" -> In q c -> (0 <= q)%Q) /\ forall E' a' w2 p j it, on_output a a' -> (0 <= tolerance a')%Q -> keeps (rf_output a) w1 w2 -> certificate a' = Some p -> w_fs w2 p = Some (FJson j) ->
      certificates_file j md [MkCinst it t c] -> switss E' CCertify a' w2 = Exited (MkWorld (w_fs w2) (w_out w2 ++ [Verdict it (JNum t) true])).
  Proof.
    destruct pipeline as (w1 & m' & i' & EX1 & H). exists w1. split; [exact EX1|]. intros md t T0 T1 HV.
    set (a0 := MkArgs (modeltype a) (rf_output a) (initial_label a) (target_label a) (target_label_rf a) (fail_label_rf a) None None [] [] [] 0 "").
    destruct (H E a0 w1) as (_ & rf0 & _ & BF0 & ES0 & EXR0 & EI0 & LI0 & V1 & V2); [repeat split|split; reflexivity|].
    assert (HM : md = "min" \/ md = "max") by (destruct HV as [[-> _]|[-> _]]; auto).
    assert (X : exists c, accepted m' i' md t c 0 /\ length c = (if String.eqb md "min" then a_N m' - 2 else a_C m' - 2) /\ forall q, md = "max" -> In q c -> (0 <= q)%Q).
    { destruct (C24_partial_lemma rf0 BF0 EXR0 LI0 t 0 T0 T1 (Qle_refl 0)) as (C1 & _ & C3 & _). destruct HV as [[-> HV]|[-> HV]].
      - destruct C1 as (c & Ec); [intros pv PV; apply HV; apply V1; exact PV|]. exists c. pose proof Ec as Ec0. rewrite (check_z_min rf0 BF0 FGe t c 0 (or_introl eq_refl)) in Ec0. destruct Ec0 as (_ & _ & LN & _).
        rewrite <- ES0, <- EI0. split; [|split; [exact LN|discriminate]]. destruct (check_accepted rf0 "min" t c 0 BF0 (or_introl eq_refl) LI0 T0 T1 LN) as (b & Eb & Hb). apply Hb. change (as_mode (JStr "min")) with Min in Eb. rewrite Ec in Eb. injection Eb as <-. reflexivity.
      - destruct C3 as (c & Ec & NN); [intros pv PV; apply HV; apply V2; exact PV|]. exists c. pose proof Ec as Ec0. rewrite (check_y_max rf0 BF0 FGe t c 0 (or_introl eq_refl)) in Ec0. destruct Ec0 as (_ & _ & LN & _).
        rewrite <- ES0, <- EI0. split; [|split; [exact LN|]].
        + destruct (check_accepted rf0 "max" t c 0 BF0 (or_intror eq_refl) LI0 T0 T1 LN) as (b & Eb & Hb). apply Hb. change (as_mode (JStr "max")) with Max in Eb. rewrite Ec in Eb. injection Eb as <-. reflexivity.
        + intros q _ HQ. apply (In_nth _ _ 0%Q) in HQ. destruct HQ as (i & Hi & <-). apply NN. change (rf_C rf0) with (a_C (rf_sys rf0) - 2) in LN. lia. }
    destruct X as (c & AC & LN & NN). exists c. split; [exact NN|]. intros E' a' w2 p j it OO TO KE CP FJ CF. destruct (H E' a' w2 OO KE) as (ST' & rf & GF & BF & ES & EXR & EI & LI & _). rewrite ES in LI.
    destruct (C91_lemma E' a' w2 m' rf p j ST' GF CP FJ md _ LI CF HM) as (bs & R & FB). { intros e [<-|[]]. split; [exact T0|]. split; [exact T1|exact LN]. }
    inversion FB as [|e b es' bs' Hb FB' Q1 Q2]. subst e es' bs. inversion FB'. subst bs'. rewrite EI in Hb. cbn [en_threshold en_cert] in Hb. rewrite R. unfold verdicts. cbn [combine map fst snd en_iteration en_threshold]. rewrite (proj2 Hb); [reflexivity|]. apply accepted_mono; [exact TO|exact AC].
  Qed.
End Pipeline.
