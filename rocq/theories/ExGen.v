(** Witnesses for certificate generation. *)
From Coq Require Import String List Arith ZArith QArith Qreals Reals Bool Lia Lra.
From Coq Require Lqa.
From Verif Require Import Base BaseFacts Num Matrix MatFacts SpecMdp SpecSystem SpecEc SpecForm SpecBuilt SpecProb SpecGen SumFacts MdpValue RfTheory SccSpec Amdp
  ReachForm ReachFormProofs RfFacts FarkProofs BuiltFacts RfBridge FarkReal Milp SpecLp MilpProofs Farkas Certificates CertProofs CertProofs2 TolProofs Examples ExProofs2 GenFark GenFark2 GenFark3.
Import ListNotations.
Local Open Scope nat_scope.

(** State 1 forms an end component; the minimal probability from state 0 is
    1/4, by the second action, whose row is 1. *)
Definition pinP : mat := mat_of_rows 4
  [[0; 1#2; 1#2; 0]; [0; 0; 1#4; 3#4]; [0; 1; 0; 0]; [0; 0; 1; 0]; [0; 0; 1; 0]; [0; 0; 0; 1]]%Q.
Definition pin0 : amdp := get dummy_amdp (mk_mdp pinP ec1I [] ec2L None).
Definition pinrf : rform := get dummy_rf (mk_rf exrnd pin0 "init" "target" "fail" false).
Lemma pinrf_built : built_form pinrf.
Proof.
  exists exrnd, pin0, "init"%string, "target"%string, "fail"%string. split; [|vm_compute; reflexivity].
  apply built_new. exists pinP, ec1I, [], ec2L, None. split; [apply good_args_ok; vm_compute; reflexivity|]. left. vm_compute. reflexivity.
Qed.
Lemma exact_pin : exact_rows (a_P (rf_sys pinrf)). Proof. apply exact_rows_ok. vm_compute. reflexivity. Qed.

Ltac q2r := unfold vec, Q2R in *; cbn in *.

Lemma pin_args : exists A b, generation_args pinrf Min FLe (1#4) = Ok (A, 4, b, [1; 1]) /\ wfargs A 4 b [1; 1] /\
  (forall x s, gsat A 4 b [1; 1] x s -> (1/4 <= s /\ x 1%nat = 0)%R) /\ gsat A 4 b [1; 1] (vec [3#4; 0; 0; 1#8]%Q) (1/4)%R.
Proof.
  do 2 eexists. split; [vm_compute; reflexivity|]. split; [|split].
  - split; [|split; [reflexivity|]].
    + intros row H. cbn in H. repeat (destruct H as [<-|H]; [reflexivity|]). destruct H.
    + intros z [<-|[<-|[]]]; lia.
  - intros x s (H1 & H2 & H3). pose proof (H1 0 ltac:(cbn; lia)) as R0. pose proof (H1 1 ltac:(cbn; lia)) as R1. pose proof (H1 2 ltac:(cbn; lia)) as R2.
    pose proof (H3 1 (or_introl eq_refl)) as Z. clear H1 H3. unfold rowR, Q2R in *. cbn in *. split; [|exact Z]. rewrite Z in *. lra.
  - split; [|split].
    + intros i Hc. cbn in Hc. destruct i as [|[|[|i]]]; [| | |lia]; unfold rowR, vec, Q2R; cbn; lra.
    + intros j Hj. destruct j as [|[|[|[|j]]]]; [| | | |lia]; unfold vec, Q2R; cbn; lra.
    + intros z [<-|[<-|[]]]; unfold vec, Q2R; cbn; lra.
Qed.

Definition pin_S : solver := fun _ => MkRes Optimal [3#4; 0; 0; 1#8; 1#4]%Q (1#4).

Lemma pin_min : exists p, PrMinForm pinrf (rf_init pinrf) p /\ (p <= Q2R (1#4))%R.
Proof.
  exists (Vmn _ pinrf_built exact_pin (rf_init pinrf)). split; [apply PrMin_Vmn|].
  apply (C22_partial_lemma _ pinrf_built exact_pin (1#4) [0; 1; 0; 0]%Q); [vm_compute; reflexivity| |vm_compute; auto|apply PrMin_Vmn].
  intros i Hc. destruct i as [|[|[|[|i]]]]; vm_compute; try discriminate. destruct i; discriminate.
Qed.

Lemma C106_pins_lemma : exists rf t v p lp, built_form rf /\ exact_rows (a_P (rf_sys rf)) /\ rf_init rf < a_N (rf_sys rf) - 2 /\ extremal rf Min p /\ claim FLe p (Q2R t) /\
  check_farkas rf Min FLe t v 0 = Ok true /\ (forall q, In q v -> (0 <= q)%Q) /\ generation_lp rf Min FLe t = Ok lp /\ (exists S, exact_answer lp (S lp)) /\
  forall S tol, exact_answer lp (S lp) -> (tol < 1 # 3)%Q -> generate_farkas S rf Min FLe t tol = Ok None.
Proof.
  destruct pin_args as (A & b & E & (W1 & W2 & W3) & HG & GP). destruct pin_min as (p & HP & HC).
  destruct (interior_spec A 4 b [1; 1] W1 W2 W3) as (lp & EL & V & Dr & O & FE).
  assert (EL' : generation_lp pinrf Min FLe (1#4) = Ok lp) by (unfold generation_lp; rewrite E; exact EL).
  exists pinrf, (1#4)%Q, [0; 1; 0; 0]%Q, p, lp. split; [apply pinrf_built|]. split; [apply exact_pin|]. split; [vm_compute; auto|]. split; [exact HP|]. split; [exact HC|].
  split; [vm_compute; reflexivity|]. split. { intros q Hq. repeat (destruct Hq as [<-|Hq]; [discriminate|]). destruct Hq. }
  split; [exact EL'|]. split.
  - exists pin_S. unfold exact_answer, pin_S. cbn [sr_status sr_vec sr_val]. split; [rewrite V; reflexivity|]. split; [|rewrite O; reflexivity].
    assert (E4 : vec [3#4; 0; 0; 1#8; 1#4]%Q 4 = (1/4)%R) by (unfold vec, Q2R; cbn; lra). split.
    + apply FE. rewrite E4. destruct GP as (G1 & G2 & G3). split; [|split].
      * intros i Hc. rewrite (rowR_ext A 4 i _ (vec [3#4; 0; 0; 1#8]%Q)); [apply G1; auto|]. intros j Hj. destruct j as [|[|[|[|j]]]]; [| | | |lia]; reflexivity.
      * intros j Hj. specialize (G2 j Hj). destruct j as [|[|[|[|j]]]]; [| | | |lia]; exact G2.
      * intros z Hz. specialize (G3 z Hz). destruct Hz as [<-|[<-|[]]]; exact G3.
    + intros x Hx. rewrite Dr. unfold better. rewrite !O, E4. apply FE in Hx. apply HG in Hx. apply Hx.
  - intros S tol XA HT. assert (PI : rf_init pinrf < rf_N pinrf) by (vm_compute; auto). destruct (interior_solved A 4 b [1; 1] W1 W2 W3 S lp EL XA) as (v & sg & o & q & EF & GO).
    { exists (1/4)%R. intros x s Hx. apply HG in Hx. apply Hx. }
    destruct GO as (HL & GV & _). apply HG in GV. destruct GV as (_ & V1).
    destruct (chk_total pinrf pinrf_built PI Min FLe (1#4) v tol A 4 b [1; 1] E HL) as (ok & EC). unfold generate_farkas. rewrite E. cbn [bind]. rewrite EF. cbn [bind]. rewrite EC. cbn [bind].
    destruct ok; [|reflexivity]. exfalso. apply check_y_min in EC; [|apply pinrf_built|left; auto]. destruct EC as (_ & _ & _ & HE & HF & _ & _).
    destruct v as [|v0 [|v1 [|v2 [|v3 [|v4 v]]]]]; try discriminate HL. unfold vec in V1. cbn in V1.
    assert (EC1 : in_some_ec (a_P (rf_sys pinrf)) (a_inv (rf_sys pinrf)) 1). { destruct (C09_state_lemma pinrf pinrf_built 1) as (e & Ee & He); [vm_compute; auto|]. apply He. vm_compute in Ee. congruence. }
    assert (V1' : (v1 == 0)%Q) by (apply eqR_Qeq; rewrite RMicromega.Q2R_0; exact V1).
    assert (V2 : (v2 == 0)%Q) by (apply (HE 2 1 0); [vm_compute; auto|vm_compute; reflexivity|exact EC1]). assert (V3 : (v3 == 0)%Q) by (apply (HE 3 1 1); [vm_compute; auto|vm_compute; reflexivity|exact EC1]).
    pose proof (HF 0 ltac:(vm_compute; auto)) as F0. pose proof (HF 1 ltac:(vm_compute; auto)) as F1.
    assert (E0 : (flow pinrf [v0; v1; v2; v3] 0 == v0 + v1)%Q).
    { assert (G : flow pinrf [v0; v1; v2; v3] 0 = (sum_to 4 (fun i => if belongs (a_inv (rf_sys pinrf)) i 0 then entry [v0; v1; v2; v3] i else 0) - sum_to 4 (fun i => mget (a_P (rf_sys pinrf)) i 0 * entry [v0; v1; v2; v3] i))%Q) by reflexivity.
      rewrite G. unfold sum_to. cbn [seq map].
      replace (belongs (a_inv (rf_sys pinrf)) 0 0) with true by (vm_compute; reflexivity). replace (belongs (a_inv (rf_sys pinrf)) 1 0) with true by (vm_compute; reflexivity).
      replace (belongs (a_inv (rf_sys pinrf)) 2 0) with false by (vm_compute; reflexivity). replace (belongs (a_inv (rf_sys pinrf)) 3 0) with false by (vm_compute; reflexivity).
      replace (mget (a_P (rf_sys pinrf)) 0 0) with 0%Q by (vm_compute; reflexivity). replace (mget (a_P (rf_sys pinrf)) 1 0) with 0%Q by (vm_compute; reflexivity).
      replace (mget (a_P (rf_sys pinrf)) 2 0) with 0%Q by (vm_compute; reflexivity). replace (mget (a_P (rf_sys pinrf)) 3 0) with 0%Q by (vm_compute; reflexivity).
      unfold sumQ, entry; cbn [fold_left fold_right nth]. ring. }
    assert (E1 : (flow pinrf [v0; v1; v2; v3] 1 == v2 + v3 - ((1#2) * v0 + v2))%Q).
    { assert (G : flow pinrf [v0; v1; v2; v3] 1 = (sum_to 4 (fun i => if belongs (a_inv (rf_sys pinrf)) i 1 then entry [v0; v1; v2; v3] i else 0) - sum_to 4 (fun i => mget (a_P (rf_sys pinrf)) i 1 * entry [v0; v1; v2; v3] i))%Q) by reflexivity.
      rewrite G. unfold sum_to. cbn [seq map].
      replace (belongs (a_inv (rf_sys pinrf)) 0 1) with false by (vm_compute; reflexivity). replace (belongs (a_inv (rf_sys pinrf)) 1 1) with false by (vm_compute; reflexivity).
      replace (belongs (a_inv (rf_sys pinrf)) 2 1) with true by (vm_compute; reflexivity). replace (belongs (a_inv (rf_sys pinrf)) 3 1) with true by (vm_compute; reflexivity).
      replace (mget (a_P (rf_sys pinrf)) 0 1) with (1#2)%Q by (vm_compute; reflexivity). replace (mget (a_P (rf_sys pinrf)) 1 1) with 0%Q by (vm_compute; reflexivity).
      replace (mget (a_P (rf_sys pinrf)) 2 1) with 1%Q by (vm_compute; reflexivity). replace (mget (a_P (rf_sys pinrf)) 3 1) with 0%Q by (vm_compute; reflexivity).
      unfold sumQ, entry; cbn [fold_left fold_right nth]. ring. }
    assert (A0 : at_init pinrf 0 = 1%Q) by reflexivity. assert (A1 : at_init pinrf 1 = 0%Q) by reflexivity. rewrite A0, E0 in F0. rewrite A1, E1 in F1. Lqa.lra.
Qed.

(** The minimal probability 1/2 is above 1/4, but the interior of the feasible
    points is empty. *)
Lemma ec2_args : exists A b, generation_args ec2rf Min FGt (1#4) = Ok (A, 2, b, [1]) /\ wfargs A 2 b [1] /\
  (forall x s, gsat A 2 b [1] x s -> (0 <= s)%R) /\ gsat A 2 b [1] (vec [1#4; 0]%Q) 0%R.
Proof.
  do 2 eexists. split; [vm_compute; reflexivity|]. split; [|split].
  - split; [|split; [reflexivity|]].
    + intros row H. cbn in H. repeat (destruct H as [<-|H]; [reflexivity|]). destruct H.
    + intros z [<-|[]]; lia.
  - intros x s (H1 & H2 & H3). pose proof (H3 1 (or_introl eq_refl)) as Z. pose proof (H2 1 ltac:(lia)) as Y. lra.
  - split; [|split].
    + intros i Hc. cbn in Hc. destruct i as [|[|[|[|[|i]]]]]; [| | | | |lia]; unfold rowR, vec, Q2R; cbn; lra.
    + intros j Hj. destruct j as [|[|j]]; [| |lia]; unfold vec, Q2R; cbn; lra.
    + intros z [<-|[]]; unfold vec, Q2R; cbn; lra.
Qed.

Lemma ec2_min : exists p, PrMinForm ec2rf (rf_init ec2rf) p /\ (Q2R (1#4) < p)%R.
Proof.
  destruct C24_example as (_ & _ & _ & p & HP & HQ). exists p. split; [exact HP|]. eapply Rlt_le_trans; [|exact HQ]. apply Qlt_Rlt. reflexivity.
Qed.

Definition low_S : solver := fun _ => MkRes Optimal [1#4; 0; 0]%Q 0.

Lemma ec2_exact : exists lp, generation_lp ec2rf Min FGt (1#4) = Ok lp /\ exact_answer lp (low_S lp).
Proof.
  destruct ec2_args as (A & b & E & (W1 & W2 & W3) & HG & GP).
  destruct (interior_spec A 2 b [1] W1 W2 W3) as (lp & EL & V & Dr & O & FE). exists lp. split; [unfold generation_lp; rewrite E; exact EL|].
  unfold exact_answer, low_S. cbn [sr_status sr_vec sr_val]. split; [rewrite V; reflexivity|]. split; [|rewrite O; reflexivity].
  assert (E4 : vec [1#4; 0; 0]%Q 2 = 0%R) by (unfold vec, Q2R; cbn; lra). split.
  - apply FE. rewrite E4. destruct GP as (G1 & G2 & G3). split; [|split].
    + intros i Hc. rewrite (rowR_ext A 2 i _ (vec [1#4; 0]%Q)); [apply G1; auto|]. intros j Hj. destruct j as [|[|j]]; [| |lia]; reflexivity.
    + intros j Hj. specialize (G2 j Hj). destruct j as [|[|j]]; [| |lia]; exact G2.
    + intros z Hz. specialize (G3 z Hz). destruct Hz as [<-|[]]; exact G3.
  - intros x Hx. rewrite Dr. unfold better. rewrite !O, E4. apply FE in Hx. apply (HG x). exact Hx.
Qed.

Lemma C106_strict_lemma : exists rf t p lp S, built_form rf /\ exact_rows (a_P (rf_sys rf)) /\ rf_init rf < a_N (rf_sys rf) - 2 /\ extremal rf Min p /\ claim FGt p (Q2R t) /\
  generation_lp rf Min FGt t = Ok lp /\ exact_answer lp (S lp) /\ generate_farkas S rf Min FGt t 0 = Ok None.
Proof.
  destruct ec2_min as (p & HP & HC). destruct ec2_exact as (lp & EL & XA). exists ec2rf, (1#4)%Q, p, lp, low_S. split; [apply ec2rf_built|]. split; [apply exact_ec2|]. split; [vm_compute; auto|].
  split; [exact HP|]. split; [exact HC|]. split; [exact EL|]. split; [exact XA|]. vm_compute. reflexivity.
Qed.

(** With the default tolerance, strict claims that are false are certified. *)
Lemma C106_false_lemma : exists rf t p lp, built_form rf /\ exact_rows (a_P (rf_sys rf)) /\ rf_init rf < a_N (rf_sys rf) - 2 /\ extremal rf Max p /\ ~ claim FGt p (Q2R t) /\
  generation_lp rf Max FGt t = Ok lp /\ forall S, exact_answer lp (S lp) -> exists v, generate_farkas S rf Max FGt t default_generate_tol = Ok (Some v).
Proof.
  pose (rf := tinyrf (1#2) 0). assert (HI : rf_init rf < a_N (rf_sys rf) - 2) by (vm_compute; auto).
  assert (HP : PrMaxForm rf (rf_init rf) (Vmx _ tiny1_built exact_tiny1 (rf_init rf))) by (apply PrMax_Vmx).
  assert (HG : (Q2R (1#2) <= Vmx _ tiny1_built exact_tiny1 (rf_init rf))%R).
  { apply (C21_partial_lemma _ tiny1_built exact_tiny1 (1#2) [1; 0]%Q); [vm_compute; reflexivity| |exact HP]. intros [|[|i]] Hc; [vm_compute; discriminate..|vm_compute in Hc; lia]. }
  assert (HL : (Vmx _ tiny1_built exact_tiny1 (rf_init rf) <= Q2R (1#2))%R).
  { destruct HP as [_ HM]. apply HM. intros x (sigma & HV & HP). apply (C20_lemma _ tiny1_built exact_tiny1 (1#2) [1#2]%Q) with (sigma := sigma); [vm_compute; reflexivity|exact HV|exact HP]. }
  assert (T0 : (0 <= 1#2)%Q) by discriminate. assert (T1 : (1#2 <= 1)%Q) by discriminate.
  destruct (gen_total rf tiny1_built exact_tiny1 HI Max FGt (1#2) T0 T1 I) as (lp & EL & _).
  exists rf, (1#2)%Q, (Vmx _ tiny1_built exact_tiny1 (rf_init rf)), lp. split; [apply tiny1_built|]. split; [apply exact_tiny1|]. split; [exact HI|]. split; [exact HP|].
  split; [cbn [claim]; lra|]. split; [exact EL|]. intros S XA.
  destruct (gen_found rf tiny1_built exact_tiny1 HI Max FGt (1#2) T0 T1 I default_generate_tol S lp ltac:(discriminate) ltac:(intros _; reflexivity) EL XA _ HP) as (v & EG & _); [cbn [claim_near]; lra|]. eauto.
Qed.

Lemma C106_decides_lemma : forall rf, built_form rf -> exact_rows (a_P (rf_sys rf)) -> rf_init rf < a_N (rf_sys rf) - 2 ->
  forall md s t, (0 <= t)%Q -> (t <= 1)%Q -> certifiable rf md s -> ~ strict_sense s -> forall S lp, generation_lp rf md s t = Ok lp -> exact_answer lp (S lp) ->
  forall p, extremal rf md p -> (claim s p (Q2R t) -> exists v, generate_farkas S rf md s t 0 = Ok (Some v) /\ forall q, In q v -> (0 <= q)%Q) /\
    (~ claim s p (Q2R t) -> generate_farkas S rf md s t 0 = Ok None).
Proof.
  intros rf BF EX HI md s t T0 T1 HC NS S lp EL XA p HP. split.
  - intros HCl. apply (gen_found rf BF EX HI md s t T0 T1 HC 0 S lp (Qle_refl 0)) with (p := p); auto; [tauto|]. destruct s; cbn [claim claim_near] in *; try lra; exfalso; apply NS; unfold strict_sense; auto.
  - intros HN. destruct (gen_total rf BF EX HI md s t T0 T1 HC) as (lp' & EL' & _ & _ & _ & _ & G). rewrite EL in EL'. injection EL' as <-. destruct (G 0%Q S XA) as (r & EG).
    destruct r as [v|]; [|exact EG]. exfalso. apply HN. eapply gen_sound; eauto.
Qed.

Lemma tiny2_free : certifiable (tinyrf (1#2) (9#10)) Min FLe.
Proof.
  unfold certifiable. apply (is_ec_free_iff _ (rf_init (tinyrf (1#2) (9#10))) (br_ro _ tiny2_built) (br_form _ tiny2_built)). vm_compute. reflexivity.
Qed.
