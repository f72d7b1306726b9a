(** Witnesses for the certificate properties. *)
From Coq Require Import String List Arith ZArith QArith Qreals Reals Bool Lia Lra.
From Coq Require Lqa.
From Verif Require Import Base BaseFacts Num Matrix SpecMdp SpecSystem SpecEc SpecForm SpecBuilt SpecProb MdpValue Amdp ReachForm BuiltFacts
  RfFacts RfBridge Milp SpecLp Certificates CertProofs CertProofs2 Examples SccSpec.
Import ListNotations.
Local Open Scope nat_scope.

Lemma PrMax_Vmx : forall rf BF EX, PrMaxForm rf (rf_init rf) (Vmx rf BF EX (rf_init rf)).
Proof. intros rf BF EX. apply (Vmx_max rf BF EX); [apply br_init_lt; auto|reflexivity]. Qed.
Lemma PrMin_Vmn : forall rf BF EX, PrMinForm rf (rf_init rf) (Vmn rf BF EX (rf_init rf)).
Proof. intros rf BF EX. apply (Vmn_min rf BF EX); [apply br_init_lt; auto|reflexivity]. Qed.

(** An upper bound for all schedulers bounds Pr-max, a lower one Pr-min. *)
Lemma max_le_of : forall rf BF EX, forall b, (forall sigma p, valid_scheduler (form_mdp rf) sigma -> PrForm rf sigma (rf_init rf) p -> (p <= b)%R) ->
  (Vmx rf BF EX (rf_init rf) <= b)%R.
Proof.
  intros rf BF EX b H. assert (HM : PrMaxForm rf (rf_init rf) (Vmx rf BF EX (rf_init rf))) by (apply PrMax_Vmx).
  destruct HM as [_ HM]. apply HM. intros x (sigma & HV & HP). eapply H; eauto.
Qed.
Lemma min_ge_of : forall rf BF EX, forall b, (forall sigma p, valid_scheduler (form_mdp rf) sigma -> PrForm rf sigma (rf_init rf) p -> (b <= p)%R) ->
  (b <= Vmn rf BF EX (rf_init rf))%R.
Proof.
  intros rf BF EX b H. assert (HM : PrMinForm rf (rf_init rf) (Vmn rf BF EX (rf_init rf))) by (apply PrMin_Vmn).
  destruct HM as [_ HM]. apply HM. intros x (sigma & HV & HP). eapply H; eauto.
Qed.

Lemma exact_tiny1 : exact_rows (a_P (rf_sys (tinyrf (1#2) 0))). Proof. apply exact_rows_ok. vm_compute. reflexivity. Qed.
Lemma exact_tiny2 : exact_rows (a_P (rf_sys (tinyrf (1#2) (9#10)))). Proof. apply exact_rows_ok. vm_compute. reflexivity. Qed.
Lemma exact_stay : exact_rows (a_P (rf_sys stayrf)). Proof. apply exact_rows_ok. vm_compute. reflexivity. Qed.
Lemma exact_ec2 : exact_rows (a_P (rf_sys ec2rf)). Proof. apply exact_rows_ok. vm_compute. reflexivity. Qed.
Lemma exact_toy2 : exact_rows (a_P (rf_sys toy2rf)). Proof. apply exact_rows_ok. vm_compute. reflexivity. Qed.
Lemma exact_ec1 : exact_rows (a_P (rf_sys ec1rf)). Proof. apply exact_rows_ok. vm_compute. reflexivity. Qed.
Lemma exact_dt1 : exact_rows (a_P (rf_sys dt1rf)). Proof. apply exact_rows_ok. vm_compute. reflexivity. Qed.

Lemma C21_refuted_lemma : exists rf t v p, built_form rf /\ exact_rows (a_P (rf_sys rf)) /\ check_farkas rf Max FGe t v 0 = Ok true /\
  PrMaxForm rf (rf_init rf) p /\ (p < Q2R t)%R.
Proof.
  exists (tinyrf (1#2) 0), 1%Q, [11; -10]%Q, (Vmx _ tiny1_built exact_tiny1 (rf_init (tinyrf (1#2) 0))).
  split; [apply tiny1_built|]. split; [apply exact_tiny1|]. split; [vm_compute; reflexivity|]. split; [apply PrMax_Vmx|].
  assert (G : (Vmx _ tiny1_built exact_tiny1 (rf_init (tinyrf (1#2) 0)) <= Q2R (1#2))%R).
  { apply max_le_of. intros sigma p HV HP. apply (C20_lemma _ tiny1_built exact_tiny1 (1#2) [1#2]%Q) with (sigma := sigma); [vm_compute; reflexivity|auto|auto]. }
  eapply Rle_lt_trans; [exact G|]. apply Qlt_Rlt. reflexivity.
Qed.

Lemma C22_refuted_lemma : exists rf t v p, built_form rf /\ exact_rows (a_P (rf_sys rf)) /\ check_farkas rf Min FLe t v 0 = Ok true /\
  PrMinForm rf (rf_init rf) p /\ (Q2R t < p)%R.
Proof.
  exists (tinyrf (1#2) (9#10)), 0%Q, [10; -9]%Q, (Vmn _ tiny2_built exact_tiny2 (rf_init (tinyrf (1#2) (9#10)))).
  split; [apply tiny2_built|]. split; [apply exact_tiny2|]. split; [vm_compute; reflexivity|]. split; [apply PrMin_Vmn|].
  assert (G : (Q2R (1#2) <= Vmn _ tiny2_built exact_tiny2 (rf_init (tinyrf (1#2) (9#10))))%R).
  { apply min_ge_of. intros sigma p HV HP. apply (C19_lemma _ tiny2_built exact_tiny2 (1#2) [1#2]%Q) with (sigma := sigma); [vm_compute; reflexivity|auto|auto]. }
  eapply Rlt_le_trans; [|exact G]. apply Qlt_Rlt. reflexivity.
Qed.

(** Both strict senses, for Pr-min > 1/2 and Pr-max < 1/2. *)
Lemma C23_refuted_lemma : exists rf t v p v' rf' p', built_form rf /\ exact_rows (a_P (rf_sys rf)) /\
  check_farkas rf Min FGt t v default_check_tol = Ok true /\ PrMinForm rf (rf_init rf) p /\ ~ (Q2R t < p)%R /\
  built_form rf' /\ exact_rows (a_P (rf_sys rf')) /\
  check_farkas rf' Max FLt t v' default_check_tol = Ok true /\ PrMaxForm rf' (rf_init rf') p' /\ ~ (p' < Q2R t)%R.
Proof.
  exists (tinyrf (1#2) (9#10)), (1#2)%Q, [1#2]%Q, (Vmn _ tiny2_built exact_tiny2 (rf_init (tinyrf (1#2) (9#10)))).
  exists [1#2]%Q, (tinyrf (1#2) 0), (Vmx _ tiny1_built exact_tiny1 (rf_init (tinyrf (1#2) 0))).
  split; [apply tiny2_built|]. split; [apply exact_tiny2|]. split; [vm_compute; reflexivity|]. split; [apply PrMin_Vmn|].
  split.
  - apply Rle_not_lt. apply (C22_partial_lemma _ tiny2_built exact_tiny2 (1#2) [1; 0]%Q).
    + vm_compute. reflexivity.
    + intros [|[|i]] Hi; [vm_compute; discriminate..|vm_compute in Hi; lia].
    + vm_compute. auto.
    + apply PrMin_Vmn.
  - split; [apply tiny1_built|]. split; [apply exact_tiny1|]. split; [vm_compute; reflexivity|]. split; [apply PrMax_Vmx|].
    apply Rle_not_lt. apply (C21_partial_lemma _ tiny1_built exact_tiny1 (1#2) [1; 0]%Q).
    + vm_compute. reflexivity.
    + intros [|[|i]] Hi; [vm_compute; discriminate..|vm_compute in Hi; lia].
    + apply PrMax_Vmx.
Qed.

(** C24 for Pr-min <= t fails if there are end components. *)
Lemma C24_refuted_lemma : exists rf t p, built_form rf /\ exact_rows (a_P (rf_sys rf)) /\ rf_init rf < a_N (rf_sys rf) - 2 /\
  (0 <= t)%Q /\ (t <= 1)%Q /\ PrMinForm rf (rf_init rf) p /\ (p <= Q2R t)%R /\
  forall v tol, (tol < 1)%Q -> check_farkas rf Min FLe t v tol <> Ok true.
Proof.
  exists stayrf, 1%Q, (Vmn _ stayrf_built exact_stay (rf_init stayrf)).
  split; [apply stayrf_built|]. split; [apply exact_stay|]. split; [vm_compute; auto|].
  split; [vm_compute; discriminate|]. split; [vm_compute; discriminate|]. split; [apply PrMin_Vmn|].
  split. { rewrite RMicromega.Q2R_1. apply Vmin_bounds. }
  intros v tol Htol H. apply (check_y_min stayrf stayrf_built) in H; [|left; auto]. destruct H as (_ & _ & HL & HE & HF & _).
  assert (EC : in_some_ec (a_P (rf_sys stayrf)) (a_inv (rf_sys stayrf)) 0).
  { destruct (C09_state_lemma stayrf stayrf_built 0) as (b & E & Hb); [vm_compute; auto|]. apply Hb. vm_compute in E. congruence. }
  assert (E0 : (entry v 0 == 0)%Q) by (apply (HE 0 0 0); auto; vm_compute; auto).
  assert (E1 : (entry v 1 == 0)%Q) by (apply (HE 1 0 1); auto; vm_compute; auto).
  specialize (HF 0 ltac:(vm_compute; auto)).
  assert (A : at_init stayrf 0 = 1%Q) by reflexivity. rewrite A in HF.
  assert (F : (flow stayrf v 0 == 0)%Q).
  { assert (G : flow stayrf v 0 = (sum_to 2 (fun i => if belongs (a_inv (rf_sys stayrf)) i 0 then entry v i else 0) -
        sum_to 2 (fun i => mget (a_P (rf_sys stayrf)) i 0 * entry v i))%Q) by reflexivity.
    rewrite G. unfold sum_to. cbn [seq map fold_left fold_right].
    replace (belongs (a_inv (rf_sys stayrf)) 0 0) with true by (vm_compute; reflexivity).
    replace (belongs (a_inv (rf_sys stayrf)) 1 0) with true by (vm_compute; reflexivity). cbn [sumQ fold_right].
    unfold sumQ; cbn [fold_left]. rewrite E0, E1. ring. }
  rewrite F in HF. Lqa.lra.
Qed.

(** C26: the wrong variables are pinned. *)
Lemma C26_refuted_lemma : exists rf t lp i s a i' s' a', built_form rf /\ generation_lp rf Min FLe t = Ok lp /\
  a_inv (rf_sys rf) i = Some (s, a) /\ in_some_ec (a_P (rf_sys rf)) (a_inv (rf_sys rf)) s /\ ~ pinned lp i /\
  a_inv (rf_sys rf) i' = Some (s', a') /\ ~ in_some_ec (a_P (rf_sys rf)) (a_inv (rf_sys rf)) s' /\ pinned lp i'.
Proof.
  exists ec2rf, 1%Q. eexists. exists 2, 1, 0, 1, 0, 1. split; [apply ec2rf_built|]. split; [vm_compute; reflexivity|].
  split; [vm_compute; reflexivity|]. split.
  { destruct (C09_state_lemma ec2rf ec2rf_built 1) as (b & E & Hb); [vm_compute; auto|]. apply Hb. vm_compute in E. congruence. }
  split. { intros (k & Hk). vm_compute in Hk. repeat (destruct Hk as [Hk|Hk]; [discriminate|]). exact Hk. }
  split; [vm_compute; reflexivity|]. split.
  { destruct (C09_state_lemma ec2rf ec2rf_built 0) as (b & E & Hb); [vm_compute; auto|]. intros H. apply Hb in H. vm_compute in E. congruence. }
  eexists. vm_compute. repeat (try (left; reflexivity); right).
Qed.

Lemma C23_partial_lemma : forall rf, built_form rf -> exact_rows (a_P (rf_sys rf)) -> rf_init rf < a_N (rf_sys rf) - 2 ->
  forall t v,
  (check_farkas rf Min FGt t v 0 = Ok true ->
     forall sigma p, valid_scheduler (form_mdp rf) sigma -> PrForm rf sigma (rf_init rf) p -> (Q2R t < p)%R) /\
  (check_farkas rf Max FLt t v 0 = Ok true ->
     forall sigma p, valid_scheduler (form_mdp rf) sigma -> PrForm rf sigma (rf_init rf) p -> (p < Q2R t)%R) /\
  ((forall i, i < a_C (rf_sys rf) - 2 -> (0 <= entry v i)%Q) ->
     (check_farkas rf Max FGt t v 0 = Ok true -> forall p, PrMaxForm rf (rf_init rf) p -> (Q2R t < p)%R) /\
     (check_farkas rf Min FLt t v 0 = Ok true -> forall p, PrMinForm rf (rf_init rf) p -> (p < Q2R t)%R)).
Proof.
  intros rf BF EX Hi t v. split; [intros; eapply C19_strict_lemma; eauto|]. split; [intros; eapply C20_strict_lemma; eauto|].
  intros Hp. split; intros; [eapply C21_strict_lemma|eapply C22_strict_lemma]; eauto.
Qed.

Lemma C24_partial_lemma : forall rf, built_form rf -> exact_rows (a_P (rf_sys rf)) -> rf_init rf < a_N (rf_sys rf) - 2 ->
  forall t tol, (0 <= t)%Q -> (t <= 1)%Q -> (0 <= tol)%Q ->
  ((forall p, PrMinForm rf (rf_init rf) p -> (Q2R t <= p)%R) -> exists v, check_farkas rf Min FGe t v tol = Ok true) /\
  ((forall p, PrMaxForm rf (rf_init rf) p -> (p <= Q2R t)%R) -> exists v, check_farkas rf Max FLe t v tol = Ok true) /\
  ((forall p, PrMaxForm rf (rf_init rf) p -> (Q2R t <= p)%R) ->
      exists v, check_farkas rf Max FGe t v tol = Ok true /\ (forall i, i < a_C (rf_sys rf) - 2 -> (0 <= entry v i)%Q)) /\
  ((forall s, s < a_N (rf_sys rf) - 2 -> ~ in_some_ec (a_P (rf_sys rf)) (a_inv (rf_sys rf)) s) ->
   (forall p, PrMinForm rf (rf_init rf) p -> (p <= Q2R t)%R) ->
      exists v, check_farkas rf Min FLe t v tol = Ok true /\ (forall i, i < a_C (rf_sys rf) - 2 -> (0 <= entry v i)%Q)).
Proof.
  intros rf BF EX Hi t tol T0 T1 HT. assert (U : in_unit t) by (split; auto).
  split; [intros H; apply (complete_z_min rf BF EX); auto; apply H; apply PrMin_Vmn|].
  split; [intros H; apply (complete_z_max rf BF EX); auto; apply H; apply PrMax_Vmx|].
  split; [intros H; apply (complete_y_max rf BF EX); auto; apply H; apply PrMax_Vmx|].
  intros HE H. apply (complete_y_min rf BF EX); auto; [|apply H; apply PrMin_Vmn].
  apply (is_ec_free_iff rf (rf_init rf) (br_ro rf BF) (br_form rf BF)). exact HE.
Qed.

Lemma C24_example : built_form ec2rf /\ exact_rows (a_P (rf_sys ec2rf)) /\ rf_init ec2rf < a_N (rf_sys ec2rf) - 2 /\
  (exists p, PrMinForm ec2rf (rf_init ec2rf) p /\ (Q2R (1#2) <= p)%R).
Proof.
  split; [apply ec2rf_built|]. split; [apply exact_ec2|]. split; [vm_compute; auto|].
  exists (Vmn _ ec2rf_built exact_ec2 (rf_init ec2rf)). split; [apply PrMin_Vmn|].
  apply min_ge_of. intros sigma p HV HP. apply (C19_lemma _ ec2rf_built exact_ec2 (1#2) [1#2; 0]%Q) with (sigma := sigma); [vm_compute; reflexivity|auto|auto].
Qed.

Lemma C26_example : exists lp, built_form ec2rf /\ generation_lp ec2rf Min FGe (1#2) = Ok lp /\ pinned lp 1 /\ ~ pinned lp 0.
Proof.
  destruct (C26_lp_exists ec2rf FGe (1#2) ec2rf_built) as (lp & E); [left; auto|vm_compute; discriminate|vm_compute; discriminate|vm_compute; auto|].
  exists lp. split; [apply ec2rf_built|]. split; [exact E|].
  assert (Z := C26_z_lemma ec2rf FGe (1#2) lp ec2rf_built (or_introl eq_refl) E). split.
  - apply Z. split; [vm_compute; auto|]. destruct (C09_state_lemma ec2rf ec2rf_built 1) as (b & Eb & Hb); [vm_compute; auto|]. apply Hb. vm_compute in Eb. congruence.
  - intros H. apply Z in H. destruct H as [_ H]. destruct (C09_state_lemma ec2rf ec2rf_built 0) as (b & Eb & Hb); [vm_compute; auto|]. apply Hb in H. vm_compute in Eb. congruence.
Qed.
