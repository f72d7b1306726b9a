(** Certificates of reward forms: examples and refutations. *)
From Coq Require Import String List Arith ZArith QArith Qreals Reals Bool Lia Lra.
From Coq Require Lqa.
From Verif Require Import Base BaseFacts Num Matrix SpecMdp SpecSystem SpecBuilt SpecEc SpecProb SpecGen SpecReward SpecRewSub SpecRewCert RfTheory Amdp ReachForm FarkProofs RfBridge BuiltFacts Milp SpecLp
  Certificates Examples RewardForm RewardProofs RewForms GenFark2 ExReward RewCert RewCertProofs RewCertGen.
Import ListNotations.
Local Open Scope nat_scope.

(** The form of [rw1] with small rewards; the values are 3/16 and 7/16. *)
Definition rwqrr : rrform := MkRrf (rr_rf rw1rr) [1#16; 3#16; 1#8; 0]%Q.
Lemma rwqrr_ok : reward_form rwqrr.
Proof.
  destruct rw1rr_ok as (BF & EX & Hi & FREE & LR & NR). split; [exact BF|]. split; [exact EX|]. split; [exact Hi|]. split; [exact FREE|]. split; [vm_compute; reflexivity|]. intros q Hq. cbn in Hq. destruct Hq as [<-|[<-|[<-|[<-|[]]]]]; Lqa.lra.
Qed.
Lemma rwq_max : rew_opt rwqrr Max (Q2R (7#16)).
Proof.
  pose proof rwqrr_ok as (BF & EX & Li & FR & LR & NR). assert (E : bellq (fun a b => Qle_bool b a) rwqrr [7#16; 1#4; 0]%Q = true) by (vm_compute; reflexivity).
  assert (BM : bellman_max rwqrr (vec [7#16; 1#4; 0]%Q)) by (exact (bellq_max _ _ BF EX E)). assert (H0 : 0 < rf_N (rr_rf rwqrr)) by (change (0 < 3); lia).
  exact (bellman_max_value rwqrr BF EX Li FR LR _ BM 0 H0).
Qed.
Lemma rwq_min : rew_opt rwqrr Min (Q2R (3#16)).
Proof.
  pose proof rwqrr_ok as (BF & EX & Li & FR & LR & NR). assert (E : bellq Qle_bool rwqrr [3#16; 1#4; 0]%Q = true) by (vm_compute; reflexivity).
  assert (BM : bellman_min rwqrr (vec [3#16; 1#4; 0]%Q)) by (exact (bellq_min _ _ BF EX E)). assert (H0 : 0 < rf_N (rr_rf rwqrr)) by (change (0 < 3); lia).
  exact (bellman_min_value rwqrr BF EX Li FR LR _ BM 0 H0).
Qed.

Lemma large_raises : forall rr md s t v tol S, (1 < t)%Q -> rr_check_farkas rr md s t v tol = Err AssertionError /\ rr_generate_farkas S rr md s t tol = Err AssertionError.
Proof.
  intros rr md s t v tol S H. assert (E : Qle_bool 0 t && Qle_bool t 1 = false).
  { apply andb_false_iff. right. apply not_true_iff_false. intros E. apply Qle_bool_iff in E. Lqa.lra. }
  unfold rr_check_farkas, rr_generate_farkas, rr_generation_args. rewrite E. split; reflexivity.
Qed.
Lemma C108_threshold_lemma : exists rr t pmin pmax, reward_form rr /\ rew_opt rr Min pmin /\ rew_opt rr Max pmax /\ claim FGt pmin (Q2R t) /\ claim FGt pmax (Q2R t) /\
  forall md s v tol S, rr_check_farkas rr md s t v tol = Err AssertionError /\ rr_generate_farkas S rr md s t tol = Err AssertionError.
Proof.
  exists rw1rr, 2%Q, 3%R, 7%R. split; [exact rw1rr_ok|]. split; [exact rw1_min|]. split; [exact rw1_max|]. split; [cbn [claim]; unfold Q2R; simpl; lra|]. split; [cbn [claim]; unfold Q2R; simpl; lra|].
  intros. apply large_raises. reflexivity.
Qed.

Lemma min_upper_raises : forall rr, reward_form rr -> forall s, (s = FLe \/ s = FLt) -> forall t, (0 <= t)%Q -> (t <= 1)%Q ->
  (forall v tol, exists e, rr_check_farkas rr Min s t v tol = Err e) /\ (forall v tol, length v = a_C (rf_sys (rr_rf rr)) - 2 -> rr_check_farkas rr Min s t v tol = Err AttributeError) /\
  forall S tol, rr_generate_farkas S rr Min s t tol = Err AttributeError.
Proof.
  intros rr GR s Hs t T0 T1. pose proof GR as (BF & EX & Hi & FREE & LR & NR). destruct (rr_fark_y_real rr BF Hi LR t) as (A & b & E & _).
  assert (IU : is_upper s = true) by (destruct Hs; subst; auto). assert (ER : rr_right_constraint_set rr Min s t = Ok (A, b, rf_C (rr_rf rr))).
  { unfold rr_right_constraint_set. destruct Hs; subst s; cbn [right_form bind]; rewrite E; reflexivity. }
  assert (C0 : exists k, rf_C (rr_rf rr) = S k).
  { pose proof (proj1 (br_rf (rr_rf rr) BF EX)) as SH. destruct (RFW _ SH) as (_ & _ & _ & W4). destruct (W4 (rf_init (rr_rf rr)) ltac:(change (nS (form_mdp (rr_rf rr))) with (a_N (rf_sys (rr_rf rr))); lia)) as (r & Hr & Es).
    assert (r < rf_C (rr_rf rr)) by (apply (rows_in _ SH (rf_init (rr_rf rr))); auto). destruct (rf_C (rr_rf rr)) as [|k]; [lia|eauto]. }
  destruct C0 as (k & Ek). assert (LE : forall v, rr_ec_entries_zero rr (is_upper s) v (seq 0 (rf_C (rr_rf rr))) = Err AttributeError) by (intros v; rewrite Ek, IU; reflexivity).
  assert (AU : assert_ (Qle_bool 0 t && Qle_bool t 1) = Ok tt) by (apply in_unit_assert; split; auto).
  assert (CH : forall v tol, length v = a_C (rf_sys (rr_rf rr)) - 2 -> rr_check_farkas rr Min s t v tol = Err AttributeError).
  { intros v tol HL. unfold rr_check_farkas. rewrite AU. cbn [bind]. rewrite ER. cbn [bind]. change (a_C (rf_sys (rr_rf rr)) - 2) with (rf_C (rr_rf rr)) in HL. rewrite HL, Nat.eqb_refl. cbn [assert_ bind]. rewrite LE. reflexivity. }
  split; [|split; [exact CH|]].
  - intros v tol. destruct (Nat.eq_dec (length v) (a_C (rf_sys (rr_rf rr)) - 2)) as [HL|HL]; [eauto|]. exists AssertionError. unfold rr_check_farkas. rewrite AU. cbn [bind]. rewrite ER. cbn [bind].
    change (a_C (rf_sys (rr_rf rr)) - 2) with (rf_C (rr_rf rr)) in HL. apply Nat.eqb_neq in HL. rewrite HL. reflexivity.
  - intros S tol. unfold rr_generate_farkas, rr_generation_args. rewrite AU. cbn [bind]. rewrite ER. cbn [bind]. rewrite IU. unfold rr_zero_variables. rewrite Ek, IU. reflexivity.
Qed.
Lemma C108_min_upper_lemma :
  (exists rr t p, reward_form rr /\ (0 <= t)%Q /\ (t <= 1)%Q /\ rew_opt rr Min p /\ claim FLt p (Q2R t)) /\
  forall rr, reward_form rr -> forall s, (s = FLe \/ s = FLt) -> forall t, (0 <= t)%Q -> (t <= 1)%Q ->
    (forall v tol, exists e, rr_check_farkas rr Min s t v tol = Err e) /\ (forall v tol, length v = a_C (rf_sys (rr_rf rr)) - 2 -> rr_check_farkas rr Min s t v tol = Err AttributeError) /\
    forall S tol, rr_generate_farkas S rr Min s t tol = Err AttributeError.
Proof.
  split; [|exact min_upper_raises]. exists rwqrr, (1#2)%Q, (Q2R (3#16)). split; [exact rwqrr_ok|]. split; [Lqa.lra|]. split; [Lqa.lra|]. split; [exact rwq_min|]. cbn [claim]. apply Qlt_Rlt. reflexivity.
Qed.

Lemma C108_negative_lemma : exists rr t v p, reward_form rr /\ rew_opt rr Max p /\ ~ claim FGt p (Q2R t) /\ ~ claim FGe p (Q2R t) /\
  rr_check_farkas rr Max FGe t v 0 = Ok true /\ rr_check_farkas rr Max FGt t v 0 = Ok true.
Proof.
  exists rwqrr, 1%Q, [-3; 4; 5; 0]%Q, (Q2R (7#16)). split; [exact rwqrr_ok|]. split; [exact rwq_max|]. assert (B : (Q2R (7#16) < Q2R 1)%R) by (apply Qlt_Rlt; reflexivity).
  split; [cbn [claim]; lra|]. split; [cbn [claim]; lra|]. split; vm_compute; reflexivity.
Qed.

Lemma C108_ex : reward_form rwqrr /\ rew_opt rwqrr Min (Q2R (3#16)) /\ rew_opt rwqrr Max (Q2R (7#16)) /\
  rr_check_farkas rwqrr Min FGt (1#8) [3#16; 1#4; 0]%Q 0 = Ok true /\ rr_check_farkas rwqrr Min FGe (3#16) [3#16; 1#4; 0]%Q 0 = Ok true /\
  rr_check_farkas rwqrr Max FLe (7#16) [7#16; 1#4; 0]%Q 0 = Ok true /\ rr_check_farkas rwqrr Max FLt (1#2) [7#16; 1#4; 0]%Q 0 = Ok true /\
  rr_check_farkas rwqrr Max FGe (7#16) [0; 1; 2; 1]%Q 0 = Ok true /\ rr_check_farkas rwqrr Max FGe (1#2) [0; 1; 2; 1]%Q 0 = Ok false /\
  (exists lp S, rr_generation_lp rwqrr Max FGe (7#16) = Ok lp /\ exact_answer lp (S lp) /\ exists v, rr_generate_farkas S rwqrr Max FGe (7#16) 0 = Ok (Some v)) /\
  (exists lp S, rr_generation_lp rwqrr Min FGe (1#4) = Ok lp /\ exact_answer lp (S lp) /\ rr_generate_farkas S rwqrr Min FGe (1#4) 0 = Ok None).
Proof.
  split; [exact rwqrr_ok|]. split; [exact rwq_min|]. split; [exact rwq_max|]. do 6 (split; [vm_compute; reflexivity|]). split.
  - destruct (rgen_total rwqrr rwqrr_ok Max FGe (7#16) I ltac:(Lqa.lra) ltac:(Lqa.lra)) as (lp & E & _ & _ & _ & (r & XA) & _). exists lp, (fun _ => r). split; [exact E|]. split; [exact XA|].
    destruct (proj1 (rgen_decides rwqrr rwqrr_ok Max FGe (7#16) I ltac:(Lqa.lra) ltac:(Lqa.lra) ltac:(intros [H|H]; discriminate) (fun _ => r) lp E XA _ rwq_max)) as (v & EV & _); [cbn [claim]; lra|eauto].
  - destruct (rgen_total rwqrr rwqrr_ok Min FGe (1#4) I ltac:(Lqa.lra) ltac:(Lqa.lra)) as (lp & E & _ & _ & _ & (r & XA) & _). exists lp, (fun _ => r). split; [exact E|]. split; [exact XA|].
    apply (proj2 (rgen_decides rwqrr rwqrr_ok Min FGe (1#4) I ltac:(Lqa.lra) ltac:(Lqa.lra) ltac:(intros [H|H]; discriminate) (fun _ => r) lp E XA _ rwq_min)). cbn [claim].
    assert (B : (Q2R (3#16) < Q2R (1#4))%R) by (apply Qlt_Rlt; reflexivity). lra.
Qed.
