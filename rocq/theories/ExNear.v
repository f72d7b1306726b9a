(** A form whose rows do not sum to one exactly. *)
From Coq Require Import String List Arith ZArith QArith Qreals Reals Bool Lia Lra.
From Verif Require Import Base BaseFacts Num Matrix SpecMdp SpecSystem SpecForm SpecBuilt SpecProb SpecNear Amdp ReachForm BuiltFacts
  RfBridge Milp SpecLp Certificates CertProofs Examples ExProofs2.
Import ListNotations.
Local Open Scope nat_scope.
Local Open Scope string_scope.

(** One third and two thirds with ten decimals. *)
Definition thirdP : mat := mat_of_rows 3 [[0; 3333333333 # 10000000000; 6666666666 # 10000000000]; [0; 1; 0]; [0; 0; 1]]%Q.
Definition third : amdp := get dummy_amdp (mk_dtmc thirdP None tinyL None).
Definition thirdrf : rform := get dummy_rf (mk_rf exrnd third "init" "target" "fail" false).
Lemma thirdrf_built : built_form thirdrf.
Proof.
  exists exrnd, third, "init", "target", "fail". split; [|vm_compute; reflexivity].
  apply built_new. exists thirdP, [], [], tinyL, None. split; [apply good_args_ok; vm_compute; reflexivity|]. right; right. vm_compute. reflexivity.
Qed.
Lemma third_inexact : ~ exact_rows (a_P (rf_sys thirdrf)).
Proof. intros H. specialize (H 0 ltac:(vm_compute; lia)). vm_compute in H. discriminate H. Qed.
(** The chain that was meant. *)
Definition thirdM : mdp := MkMdp 3 3 (fun r => r)
  (fun r d => match r, d with 0, 1 => 1 / 3 | 0, 2 => 2 / 3 | 1, 1 => 1 | 2, 2 => 1 | _, _ => 0 end)%R.
Lemma third_near : near thirdrf thirdM (1 / 10000000000).
Proof.
  split; [vm_compute; reflexivity|]. split; [vm_compute; reflexivity|]. split.
  - intros i Hi. cbn [thirdM nA] in Hi. exists 0. destruct i as [|[|[|i]]]; [vm_compute; reflexivity|vm_compute; reflexivity|vm_compute; reflexivity|lia].
  - intros i d Hi Hd. cbn [thirdM nA nS] in Hi, Hd. destruct i as [|[|[|i]]]; [| | |lia]; (destruct d as [|[|[|d]]]; [| | |lia]);
      match goal with |- context [mget ?P ?i ?d] => let x := eval vm_compute in (mget P i d) in change (mget P i d) with x end;
      cbn [thirdM prob]; unfold Q2R; cbn [Qnum Qden];
      (split; [apply Rabs_le; lra|split; intros H; try (exfalso; vm_compute in H; discriminate H); try (exfalso; lra); first [reflexivity|lra]]).
Qed.
