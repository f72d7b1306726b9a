(** Examples for certificates with a tolerance. *)
From Coq Require Import String List Arith ZArith QArith Qreals Reals Bool Lia Lra.
From Verif Require Import Base BaseFacts Num Matrix SpecMdp SpecSystem SpecForm SpecBuilt SpecProb Amdp ReachForm BuiltFacts
  RfBridge Milp SpecLp Certificates CertProofs Examples ExProofs2 Cli.
Import ListNotations.
Local Open Scope nat_scope.
Local Open Scope string_scope.

(** A chain that leaves its only state with probability 1/100000, to target
    and fail with the same probability. *)
Definition slowP : mat := mat_of_rows 3 [[99999 # 100000; 1 # 200000; 1 # 200000]; [0; 1; 0]; [0; 0; 1]]%Q.
Definition slow : amdp := get dummy_amdp (mk_dtmc slowP None tinyL None).
Definition slowrf : rform := get dummy_rf (mk_rf exrnd slow "init" "target" "fail" false).
Lemma slowrf_built : built_form slowrf.
Proof.
  exists exrnd, slow, "init", "target", "fail". split; [|vm_compute; reflexivity].
  apply built_new. exists slowP, [], [], tinyL, None. split; [apply good_args_ok; vm_compute; reflexivity|]. right; right. vm_compute. reflexivity.
Qed.
Lemma exact_slow : exact_rows (a_P (rf_sys slowrf)). Proof. apply exact_rows_ok. vm_compute. reflexivity. Qed.
Lemma slow_half : PrMinForm slowrf (rf_init slowrf) (Q2R (1 # 2)) /\ PrMaxForm slowrf (rf_init slowrf) (Q2R (1 # 2)).
Proof.
  pose proof (PrMin_Vmn slowrf slowrf_built exact_slow) as A. pose proof (PrMax_Vmx slowrf slowrf_built exact_slow) as B.
  assert (A1 : (Q2R (1 # 2) <= Vmn slowrf slowrf_built exact_slow (rf_init slowrf))%R).
  { apply min_ge_of. intros sigma p HV HP. apply (C19_lemma _ slowrf_built exact_slow (1 # 2) [1 # 2]%Q) with (sigma := sigma); [vm_compute; reflexivity|auto|auto]. }
  assert (A2 : (Vmn slowrf slowrf_built exact_slow (rf_init slowrf) <= Q2R (1 # 2))%R).
  { apply (C22_partial_lemma _ slowrf_built exact_slow (1 # 2) [100000]%Q); [vm_compute; reflexivity| |vm_compute; lia|exact A]. intros [|[|i]] Hi; vm_compute; discriminate. }
  assert (B1 : (Vmx slowrf slowrf_built exact_slow (rf_init slowrf) <= Q2R (1 # 2))%R).
  { apply max_le_of. intros sigma p HV HP. apply (C20_lemma _ slowrf_built exact_slow (1 # 2) [1 # 2]%Q) with (sigma := sigma); [vm_compute; reflexivity|auto|auto]. }
  assert (B2 : (Q2R (1 # 2) <= Vmx slowrf slowrf_built exact_slow (rf_init slowrf))%R).
  { apply (C21_partial_lemma _ slowrf_built exact_slow (1 # 2) [100000]%Q); [vm_compute; reflexivity| |exact B]. intros [|[|i]] Hi; vm_compute; discriminate. }
  split; [replace (Q2R (1 # 2)) with (Vmn slowrf slowrf_built exact_slow (rf_init slowrf)) by lra; exact A|
          replace (Q2R (1 # 2)) with (Vmx slowrf slowrf_built exact_slow (rf_init slowrf)) by lra; exact B].
Qed.

Lemma C95_lemma : exists rf p, built_form rf /\ exact_rows (a_P (rf_sys rf)) /\ PrMinForm rf (rf_init rf) p /\ PrMaxForm rf (rf_init rf) p /\
  p = (1 / 2)%R /\ check_farkas rf Min FGe 1 [1]%Q default_tolerance = Ok true /\ check_farkas rf Max FLe 0 [0]%Q default_tolerance = Ok true.
Proof.
  exists slowrf, (Q2R (1 # 2)). split; [apply slowrf_built|]. split; [apply exact_slow|]. split; [apply slow_half|]. split; [apply slow_half|].
  split; [unfold Q2R; cbn; lra|]. split; vm_compute; reflexivity.
Qed.
