(** Examples about subsystems. *)
From Coq Require Import String List Arith ZArith QArith Qreals Reals Bool Lia Lra.
From Verif Require Import Base Num Matrix InvDict SccSpec SpecMdp SpecSystem SpecEc SpecForm SpecBuilt SpecProb SpecSub Amdp ReachForm BuiltFacts Examples ExProofs2 Subsystem.
Import ListNotations.
Local Open Scope nat_scope.
Local Open Scope string_scope.

Definition dummy_sub : subsystem := MkSub dummy_rf [] Min false.

(** 0 goes to target or to 1, 1 goes to 2, 2 to target or fail. *)
Definition ch3P : mat := mat_of_rows 5
  [[0; 1#2; 0; 1#2; 0]; [0; 0; 1; 0; 0]; [0; 0; 0; 1#2; 1#2]; [0; 0; 0; 1; 0]; [0; 0; 0; 0; 1]]%Q.
Definition ch3L : dict string (list nat) := [("init", [0]); ("target", [3]); ("fail", [4]); ("grey", [1; 2])].
Definition ch3 : amdp := get dummy_amdp (mk_dtmc ch3P None ch3L None).
Definition ch3rf : rform := get dummy_rf (mk_rf exrnd ch3 "init" "target" "fail" false).
Lemma ch3_built : built ch3.
Proof. apply built_new. exists ch3P, [], [], ch3L, None. split; [apply good_args_ok; vm_compute; reflexivity|]. right; right. vm_compute. reflexivity. Qed.
Lemma ch3rf_built : built_form ch3rf.
Proof. exists exrnd, ch3, "init", "target", "fail". split; [apply ch3_built|vm_compute; reflexivity]. Qed.
Lemma exact_ch3 : exact_rows (a_P (rf_sys ch3rf)).
Proof. apply exact_rows_ok. vm_compute. reflexivity. Qed.

Lemma ch3_z : z_constraints (a_P (rf_sys ch3rf)) (a_inv (rf_sys ch3rf)) (rf_init ch3rf) (1#2) [1#2; 0; 1#2]%Q.
Proof.
  split; [|vm_compute; discriminate]. intros i s a Hi E. change (i < 3) in Hi.
  destruct i as [|[|[|i]]]; [| | |lia]; vm_compute in E; inversion E; subst; vm_compute; discriminate.
Qed.
Lemma ch3_y : y_constraints (a_P (rf_sys ch3rf)) (a_inv (rf_sys ch3rf)) (rf_init ch3rf) (1#2) [1; 1#2; 0]%Q.
Proof.
  split; [|vm_compute; discriminate]. intros s Hs. change (s < 3) in Hs.
  destruct s as [|[|[|s]]]; [| | |lia]; vm_compute; discriminate.
Qed.
(** No end components among 0, 1, 2: every step increases the state. *)
Lemma ch3_noec : forall s, s < a_N (rf_sys ch3rf) - 2 -> in_some_ec (a_P (rf_sys ch3rf)) (a_inv (rf_sys ch3rf)) s -> False.
Proof.
  assert (ST : forall s r d, row_edge (form_mdp ch3rf) s r d -> s = 3 /\ d = 3 \/ s = 4 /\ d = 4 \/ s < d).
  { intros s r d (Hr & Es & Hd & Hp). change (r < 5) in Hr. change (d < 5) in Hd. 
    assert (Hq : Qlt_bool 0 (mget (a_P (rf_sys ch3rf)) r d) = true).
    { unfold Qlt_bool. apply negb_true_iff. destruct (Qle_bool (mget (a_P (rf_sys ch3rf)) r d) 0) eqn:E; auto. exfalso. apply Qle_bool_iff in E. apply Qle_Rle in E. rewrite RMicromega.Q2R_0 in E.
      change (0 < Q2R (mget (a_P (rf_sys ch3rf)) r d))%R in Hp. lra. }
    clear Hp. unfold form_mdp, mdp_of, sys_mdp in Es. cbn [src] in Es.
    destruct r as [|[|[|[|[|r]]]]]; [| | | | |lia]; vm_compute in Es; subst s;
    (destruct d as [|[|[|[|[|d]]]]]; [| | | | |lia]); try (right; right; lia); try (left; split; reflexivity); try (right; left; split; reflexivity); exfalso; vm_compute in Hq; discriminate. }
  intros s Hs HE. change (s < 3) in Hs. apply (RfBridge.br_ec ch3rf ch3rf_built exact_ch3) in HE. destruct HE as (X & B & (E1 & E2 & E3 & E4) & Xs).
  assert (UP : forall k s, X s -> s < 3 -> 3 - s <= k -> False); [|apply (UP 3 s); auto; lia].
  induction k as [|k IH]; intros x Hx Hl HK; [lia|]. 
  destruct (E2 x Hx) as (r & HB). destruct (E3 x r HB) as (_ & (d & HR) & HX). pose proof (HX d HR) as Hd.
  destruct (ST _ _ _ HR) as [[A1 A2]|[[A1 A2]|L]]; [lia|lia|]. destruct (Nat.lt_ge_cases d 3) as [L3|L3]; [apply (IH d); auto; lia|].
  (* d is absorbing, so x cannot be reached from it *)
  specialize (E4 d x Hd Hx). assert (NR : forall u v, (rtc (fun u v => exists a, B u a /\ row_edge (form_mdp ch3rf) u a v)) u v -> 3 <= u -> 3 <= v).
  { intros u v H. induction H; auto. intros Hu. apply IHrtc. destruct H as (a & _ & HR'). destruct (ST _ _ _ HR') as [[? ?]|[[? ?]|?]]; lia. }
  pose proof (NR d x E4 L3). lia.
Qed.

(** The support of this point is {0, 2}, and 2 is not reachable. *)
Definition ch3sub : subsystem := get dummy_sub (mk_subsystem ch3rf [1#2; 0; 1#2]%Q Min false).
Lemma ch3sub_raises : mk_subsystem ch3rf [1#2; 0; 1#2]%Q Min false = Ok ch3sub /\ subsys exrnd ch3sub = Err AssertionError.
Proof. split; vm_compute; reflexivity. Qed.
(** The support of this point is {0, 1}, and 1 cannot reach target. *)
Definition ch3suby : subsystem := get dummy_sub (mk_subsystem ch3rf [1; 1#2; 0]%Q Max false).
Lemma ch3suby_raises : mk_subsystem ch3rf [1; 1#2; 0]%Q Max false = Ok ch3suby /\ subsys exrnd ch3suby = Err AssertionError.
Proof. split; vm_compute; reflexivity. Qed.

(** Subsystems that are built. *)
Definition ch3sub_i : subsystem := get dummy_sub (mk_subsystem ch3rf [1#2; 0; 1#2]%Q Min true).
Definition ch3sub_rf : rform := get dummy_rf (subsys exrnd ch3sub_i).
Lemma ch3sub_ok : mk_subsystem ch3rf [1#2; 0; 1#2]%Q Min true = Ok ch3sub_i /\ subsys exrnd ch3sub_i = Ok ch3sub_rf.
Proof. split; vm_compute; reflexivity. Qed.

Definition ec1sub : subsystem := get dummy_sub (mk_subsystem ec1rf [1; 0; 0; 1#2]%Q Max false).
Definition ec1sub_rf : rform := get dummy_rf (subsys exrnd ec1sub).
Lemma ec1sub_ok : mk_subsystem ec1rf [1; 0; 0; 1#2]%Q Max false = Ok ec1sub /\ subsys exrnd ec1sub = Ok ec1sub_rf.
Proof. split; vm_compute; reflexivity. Qed.
Lemma ec1_y : y_constraints (a_P (rf_sys ec1rf)) (a_inv (rf_sys ec1rf)) (rf_init ec1rf) (5#8) [1; 0; 0; 1#2]%Q.
Proof.
  split; [|vm_compute; discriminate]. intros s Hs. change (s < 2) in Hs.
  destruct s as [|[|s]]; [| |lia]; vm_compute; discriminate.
Qed.

Definition toy2sub : subsystem := get dummy_sub (mk_subsystem toy2rf [1#2; 1#2; 0; 0; 1#2; 1]%Q Min false).
Definition ec2sub : subsystem := get dummy_sub (mk_subsystem ec2rf [1#2; 0]%Q Min false).
Definition ec2sub_rf : rform := get dummy_rf (subsys exrnd ec2sub).
Lemma ec2sub_ok : mk_subsystem ec2rf [1#2; 0]%Q Min false = Ok ec2sub /\ subsys exrnd ec2sub = Ok ec2sub_rf /\ a_N (rf_sys ec2sub_rf) = 3 /\
  kept_states (rf_sys ec2rf) (chosen (rf_sys ec2rf) Min [1#2; 0]%Q) = [0].
Proof. repeat split; vm_compute; reflexivity. Qed.

(** Rows summing to slightly more than one. *)
Definition over1 : Q := (10000000001 # 20000000000)%Q.
Definition ovP : mat := mat_of_rows 4 [[0; 1#2; over1; 0]; [0; 0; 1#2; 1#2]; [0; 0; 1; 0]; [0; 0; 0; 1]]%Q.
Definition ov : amdp := get dummy_amdp (mk_dtmc ovP None ec2L None).
Definition ovrf : rform := get dummy_rf (mk_rf exrnd ov "init" "target" "fail" false).
Lemma ovrf_built : built_form ovrf.
Proof.
  exists exrnd, ov, "init", "target", "fail". split; [|vm_compute; reflexivity].
  apply built_new. exists ovP, [], [], ec2L, None. split; [apply good_args_ok; vm_compute; reflexivity|]. right; right. vm_compute. reflexivity.
Qed.
Definition ovsub : subsystem := get dummy_sub (mk_subsystem ovrf [3#4; 1#2]%Q Min true).
Lemma ovsub_raises : mk_subsystem ovrf [3#4; 1#2]%Q Min true = Ok ovsub /\ subsys exrnd ovsub = Err AssertionError.
Proof. split; vm_compute; reflexivity. Qed.
Lemma ov_z : z_constraints (a_P (rf_sys ovrf)) (a_inv (rf_sys ovrf)) (rf_init ovrf) (3#4) [3#4; 1#2]%Q.
Proof.
  split; [|vm_compute; discriminate]. intros i s a Hi E. change (i < 2) in Hi.
  destruct i as [|[|i]]; [| |lia]; vm_compute in E; inversion E; subst; vm_compute; discriminate.
Qed.
