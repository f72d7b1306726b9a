(** The tolerance in the command line: rf and then certify. *)
From Coq Require Import String List Arith ZArith QArith Qreals Reals Bool Lia Lra.
From Coq Require Lqa.
From Verif Require Import Base BaseFacts Num Matrix SpecMdp SpecSystem SpecForm SpecBuilt SpecProb SpecReduce SpecFiles RfTheory RfBridge
  Amdp ReachForm Reduce Milp SpecLp Certificates Files Cli SpecCli CliProofs5 CliProofs6 CliProofs7 CliProofs8 CertProofs TolProofs.
Import ListNotations.
Local Open Scope nat_scope.
Local Open Scope string_scope.

Lemma C93_tol_lemma : forall E a w m init, stored w (modeltype a) (modelpath a) m ->
  reducible m (initial_label a) (target_label a) (target_label_rf a) (fail_label_rf a) init ->
  plain (target_label_rf a) -> plain (fail_label_rf a) -> six_decimals m -> exact_rows (a_P m) ->
  exists w1 K, switss E CRf a w = Exited w1 /\ (0 <= K)%R /\
  forall E' a' w2 p j, on_output a a' -> (0 <= tolerance a')%Q -> keeps (rf_output a) w1 w2 -> certificate a' = Some p -> w_fs w2 p = Some (FJson j) ->
  let w3 := final (switss E' CCertify a' w2) in w_fs w3 = w_fs w2 /\ exists new, w_out w3 = (w_out w2 ++ new)%list /\
    (file_mode j "min" -> forall it th, In (Verdict it th true) new -> exists t, as_number th = Ok t /\
       forall v, IsPrMin (mdp_of m) (label_set m (target_label a)) init v -> (Q2R t - K * Q2R (tolerance a') <= v)%R) /\
    (file_mode j "max" -> (forall v q, file_certificate j v -> In q v -> (0 <= q)%Q) ->
       forall it th, In (Verdict it th true) new -> exists t, as_number th = Ok t /\
       forall v, IsPrMax (mdp_of m) (label_set m (target_label a)) init v -> (Q2R t - K * Q2R (tolerance a') <= v)%R).
Proof.
  intros E a w m init ST RD P1 P2 SD EX. destruct (pipeline E a w m init ST RD P1 P2 SD EX) as (w1 & m' & i' & EX1 & H).
  assert (FK : exists SH K, tol_factor (mdp_of m') SH K).
  { destruct (H E (MkArgs (modeltype a) (rf_output a) (initial_label a) (target_label a) (target_label_rf a) (fail_label_rf a) None None [] [] [] 0 "") w1) as (_ & rf & _ & BF & ES & EXR & _); [repeat split|split; reflexivity|].
    destruct (factor_ex (form_mdp rf) (rf_init rf) (br_rf rf BF EXR)) as (K & HK). subst m'. eexists _, K. exact HK. }
  destruct FK as (SH & K & FK). exists w1, (1 + K)%R. split; [exact EX1|]. split; [destruct FK; lra|].
  intros E' a' w2 p j OO TO KE CP FJ. cbv zeta. destruct (H E' a' w2 OO KE) as (ST' & rf & GF & BF & ES & EXR & EI & LI & V1 & V2). subst m'.
  pose proof (factor_sound rf BF EXR SH K FK) as TS.
  destruct (certify_backed E' a' w2 (rf_sys rf) rf p j ST' GF CP FJ) as (F1 & new & F2 & F3). split; [exact F1|]. exists new. split; [exact F2|]. split.
  - intros (me & M1 & M2) it th HI. destruct (F3 it th HI) as (me' & md & v & t & K1 & K2 & K3 & K4 & K5). rewrite M1 in K1. injection K1 as <-. rewrite M2 in K2. injection K2 as <-. exists t. split; [exact K4|].
    intros pv PV. apply V1 in PV. destruct (TS FGe t v (tolerance a') TO) as (S1 & _). apply S1; auto.
  - intros (me & M1 & M2) NN it th HI. destruct (F3 it th HI) as (me' & md & v & t & K1 & K2 & K3 & K4 & K5). rewrite M1 in K1. injection K1 as <-. rewrite M2 in K2. injection K2 as <-. exists t. split; [exact K4|].
    intros pv PV. apply V2 in PV. destruct (TS FGe t v (tolerance a') TO) as (_ & _ & S3 & _). apply S3; auto. intros i Hi. unfold entry. destruct (nth_in_or_default i v 0%Q) as [X| ->]; [eapply NN; eauto|Lqa.lra].
Qed.
