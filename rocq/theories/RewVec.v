(** Solution vectors of reward forms, and materialising subsystems of them. *)
From Coq Require Import String List Arith ZArith QArith Qreals Reals Bool Lia Lra Classical.
From Coq Require Lqa.
From Verif Require Import Base BaseFacts Num Matrix MatFacts InvDict SccSpec SpecMdp SpecEc SpecSystem SpecForm SpecBuilt SpecProb SpecSub SpecLp SpecMilp SpecReward SpecRewSub SumFacts MdpValue RfTheory SubTheory RewTheory RewSub
  Amdp ReachForm ReachFormProofs RfFacts BuiltFacts RfBridge Farkas FarkReal Milp MilpProofs LpExists FarkProofs Subsystem SubProofs1 SubProofs2 RfLps RfLpProofs Formulations MilpBuild GroupProofs MilpMax RewardForm RewardProofs RewProblems RewForms RewMilp.
Import ListNotations.
Local Open Scope nat_scope.

Section RV.
  Variable rr : rrform.
  Let rf := rr_rf rr.
  Hypothesis BF : built_form rf.
  Hypothesis EX : exact_rows (a_P (rf_sys rf)).
  Hypothesis Hi : rf_init rf < a_N (rf_sys rf) - 2.
  Hypothesis FREE : ec_free (form_mdp rf).
  Hypothesis LR : length (rr_rew rr) = a_C (rf_sys rf) - 2.
  Hypothesis NR : forall q, In q (rr_rew rr) -> (0 <= q)%Q.
  Let m := rf_sys rf.
  Let n := rf_N rf.
  Let c := rf_C rf.
  Let M := form_mdp rf.

  (** ** Subsystems *)
  Lemma C66_lemma : forall cert md ign sub, mk_subsystem rf cert md ign = Ok sub -> rr_subsys sub = Err AttributeError.
  Proof.
    intros cert md ign sub H. destruct (mask_ok _ _ _ _ _ BF H) as (-> & mask & EM & HM). unfold rr_subsys. cbn [sub_super]. rewrite EM. cbn [bind].
    destruct (number_states_ok rf BF (chosen (rf_sys rf) md cert) mask HM) as (sl & E1 & _). rewrite E1. cbn [bind].
    destruct (number_rows_ok rf BF (chosen (rf_sys rf) md cert) mask HM) as (index & al & E2 & HB & HC). rewrite E2. cbn [bind]. cbv zeta.
    destruct (full_ok rf _ index HB HC) as [E3 _]. apply bind_ok in E3. destruct E3 as (i1 & E3 & E4). simpl Nat.add in E3. rewrite E3. cbn [bind]. rewrite E4. reflexivity.
  Qed.

  (** ** Vectors *)
  Lemma C67_z_lemma : exists lp, rr_max_z_lp rr = Ok lp /\ (exists r, exact_answer lp r) /\
    forall S, exact_answer lp (S lp) -> exists w, rr_max_z_state_action S rr = Ok w /\ length w = a_C m - 2 /\
      forall i, i < a_C m - 2 -> exists z, (forall d, d < a_N m - 2 -> RewMinForm rf (rr_rew rr) d (z d)) /\
        Q2R (nth i w 0%Q) = (row_reward (rr_rew rr) i + sumn (a_N m - 2) (fun d => prob M i d * z d))%R.
  Proof.
    destruct (C52_min_lemma rr BF EX Hi FREE LR NR) as (lp & E & XA & H). exists lp. split; [auto|]. split; [auto|]. intros S HS. destruct (H S HS) as (v & Ev & _ & Lv & HV).
    unfold rr_max_z_state_action. change (rr_max_z_state S rr) with (rew_min S rr). rewrite Ev. cbn [bind].
    rewrite Lv, Nat.eqb_refl. change (rf_C (rr_rf rr)) with c. rewrite (proj2 (Nat.eqb_eq _ _) (LR : length (rr_rew rr) = c)). cbn [andb]. eexists. split; [reflexivity|]. split; [rewrite map_length, seq_length; auto|].
    intros i Hic. exists (vec v). split; [intros; apply HV; auto|]. rewrite nth_map_seq by exact Hic. rewrite Q2R_plus, Rplus_comm. f_equal.
    rewrite dot_sum by exact Lv. apply sumn_ext. intros d Hd. reflexivity.
  Qed.

  Lemma rr_max_y_lp_spec : exists lp, rr_max_y_lp rr = Ok lp /\ lp_wf lp /\ length (mi_vars lp) = c /\ mi_dir lp = Maximise /\
    (forall x, objective lp x = sumn c (fun i => row_reward (rr_rew rr) i * x i)%R) /\
    forall x, feasible lp x <-> rpoint rr Max 0 x.
  Proof.
    destruct (rr_fark_y_real rr BF Hi LR 0) as (A & b & E & LA & LB & HW & R1 & B1 & R2 & B2). unfold rr_max_y_lp. rewrite E. cbn [bind]. change (rf_C (rr_rf rr)) with c in *. change (rf_N (rr_rf rr)) with n in *.
    destruct (lp_spec A c b (rr_rew rr) SLe Maximise) as (m0 & E0 & OK0 & VL0 & D0 & O0 & F0);
      [discriminate|discriminate|intros row Hr; rewrite (HW row Hr); auto|lia|apply Nat.eq_le_incl; symmetry; exact LR|].
    rewrite E0. cbn [bind]. pose proof (lp_from_coefficients_wf _ _ _ _ _ _ _ E0) as W0.
    match goal with |- context [add_constraints m0 ?l] => destruct (add_constraints_spec l m0 OK0) as (lp & E1 & OK1 & VL1 & O1 & D1 & F1) end.
    { intros cc H. apply in_map_iff in H. destruct H as (s & <- & Hs). apply in_seq in Hs. split; [discriminate|]. split; [|constructor; [intros []|constructor]].
      intros v r [Ev|[]]. inversion Ev; subst. lia. }
    exists lp. split; [exact E1|]. split; [eapply add_constraints_wf; eauto|]. split; [congruence|]. split; [congruence|]. split.
    { intros x. rewrite (objective_spec lp (fun j => nth j (rr_rew rr) 0%Q) c x); [reflexivity|]. rewrite O1. exact O0. }
    intros x. rewrite (ge0_cons rr Hi LR c m0 OK0 VL0 lp E1 x). rewrite F0. unfold rpoint. cbn [rpoly cert_dim]. change (a_C (rf_sys (rr_rf rr)) - 2) with c. change (rf_N (rr_rf rr)) with n. change (rf_C (rr_rf rr)) with c. split.
    - intros (A1 & A2). split; [split|exact A2].
      + intros s Hs. specialize (A1 s ltac:(lia)). change (SpecLp.rel SLe (rowR A c s x) (Q2R (nth s b 0%Q))) in A1. rewrite R1, B1 in A1 by exact Hs. exact A1.
      + specialize (A1 n ltac:(lia)). change (SpecLp.rel SLe (rowR A c n x) (Q2R (nth n b 0%Q))) in A1. rewrite R2, B2 in A1. cbn [SpecLp.rel] in A1. lra.
    - intros ((A1 & A2) & A3). split; [|exact A3]. intros i Hic. change (SpecLp.rel SLe (rowR A c i x) (Q2R (nth i b 0%Q))). assert (i < n \/ i = n) as [Hlt| ->] by lia.
      + rewrite R1, B1 by exact Hlt. apply A1; auto.
      + rewrite R2, B2. cbn [SpecLp.rel]. lra.
  Qed.

  Lemma C67_y_lemma : exists lp, rr_max_y_lp rr = Ok lp /\ (exists r, exact_answer lp r) /\
    forall S, exact_answer lp (S lp) -> exists y, rr_max_y_state_action S rr = Ok y /\ sr_status (S lp) = Optimal /\ length y = a_C m - 2 /\ rew_polytope rr Max 0 (vec y) /\
      RewMaxForm rf (rr_rew rr) (rf_init rf) (sumn (a_C m - 2) (fun i => row_reward (rr_rew rr) i * Q2R (nth i y 0%Q)))%R.
  Proof.
    destruct rr_max_y_lp_spec as (lp & E & W & VL & D & O & F). exists lp. split; [exact E|]. assert (Hm : Max <> OtherMode) by discriminate.
    destruct (C52_max_lemma rr BF EX Hi FREE LR NR) as (lp2 & _ & (r2 & X2) & H2). destruct (H2 (fun _ => r2) X2) as (v2 & _ & _ & _ & HV). specialize (HV (rf_init rf) Hi). set (q := nth (rf_init (rr_rf rr)) v2 0%Q) in *.
    change (nth (rf_init rf) v2 0%Q) with q in HV.
    assert (PV : forall t, (exists y, rpoint rr Max t y) <-> (Q2R t <= Q2R q)%R) by (intros t; apply (point_value rr BF EX Hi LR FREE NR Max t (Q2R q) Hm HV)).
    assert (MONO : forall t y, (0 <= t)%Q -> rpoint rr Max t y -> rpoint rr Max 0 y). { intros t y Ht ((A1 & A2) & A3). split; [split; [exact A1|]|exact A3]. apply Qle_Rle in Ht. lra. }
    assert (Q0 : (0 <= q)%Q).
    { apply Rle_Qle. rewrite RMicromega.Q2R_0. destruct (proj1 (PV 0%Q)) as [X|X]; [|rewrite RMicromega.Q2R_0 in X; lra|rewrite RMicromega.Q2R_0 in X; lra].
      exists (fun _ => 0%R). split; [split|intros; lra].
      - intros s Hs. unfold balance. rewrite !sumn_zero by (intros; try (destruct (_ =? _)); ring). destruct (_ =? _); lra.
      - rewrite RMicromega.Q2R_0. rewrite sumn_zero by (intros; ring). lra. }
    destruct (proj2 (PV q) ltac:(lra)) as (y0 & HY0).
    assert (FY0 : feasible lp y0) by (apply F, (MONO q); auto).
    assert (UP : exists B, forall x, feasible lp x -> better (mi_dir lp) B (objective lp x)).
    { destruct (rbounded rr BF EX Hi LR FREE NR Max 0%Q Hm) as (B & HB). exists (sumn c (fun i => row_reward (rr_rew rr) i * B))%R. intros x Hx. rewrite D, O. simpl. apply F in Hx. pose proof (HB x Hx) as HX. destruct Hx as (_ & X0).
      apply sumn_le. intros i Hic. apply Rmult_le_compat_l; [apply (rw_pos rr NR)|]. eapply Rle_trans; [|exact HX]. apply (sumn_term_le (cert_dim (rr_rf rr) Max) i x); [exact Hic|exact X0]. }
    split; [apply lp_answer_exists; eauto|]. intros S ES. assert (OS := exact_optimal lp (S lp) ES (ex_intro _ _ FY0) UP). exists (sr_vec (S lp)).
    unfold rr_max_y_state_action. rewrite E. split; [auto|]. split; [auto|]. unfold exact_answer in ES. rewrite OS in ES. destruct ES as (L & (FY & OY) & VO).
    split; [rewrite L; exact VL|]. pose proof (proj1 (F _) FY) as RP. split; [apply (rpoly_iff rr BF Max 0 _ Hm); exact RP|].
    assert (EQ : sumn (a_C m - 2) (fun i => row_reward (rr_rew rr) i * Q2R (nth i (sr_vec (S lp)) 0%Q))%R = Q2R q); [|rewrite EQ; exact HV].
    change (sumn c (fun i => row_reward (rr_rew rr) i * vec (sr_vec (S lp)) i)%R = Q2R q). rewrite <- O. apply Rle_antisym.
    - rewrite <- VO. apply (PV (sr_val (S lp))). exists (vec (sr_vec (S lp))). destruct RP as ((A1 & A2) & A3). split; [split; [exact A1|]|exact A3]. rewrite VO, O. apply Rle_refl.
    - specialize (OY y0 FY0). rewrite D in OY. simpl in OY. eapply Rle_trans; [|exact OY]. rewrite O. apply HY0.
  Qed.

  Lemma C67_state_lemma : forall S y, rr_max_y_state_action S rr = Ok y -> length y = a_C m - 2 ->
    exists v, rr_max_y_state S rr = Ok v /\ length v = a_N m - 2 /\
      forall s, s < a_N m - 2 -> (nth s v 0 == (if (s =? rf_init rf)%nat then 1 else 0) + sum_to (a_C m - 2) (fun i => if belongs (a_inv m) i s then nth i y 0 else 0))%Q.
  Proof.
    intros S y Ey Ly. destruct (max_y_lp_spec rf BF Hi) as (lp & EL & _).
    assert (E' : max_y_state_action (fun _ => MkRes Optimal y 0) rf = Ok y) by (unfold max_y_state_action; rewrite EL; reflexivity).
    destruct (C29_sum_lemma rf BF Hi _ y E' Ly) as (v & Ev & Lv & HV). exists v. split; [|split; [exact Lv|exact HV]].
    unfold max_y_state in Ev. rewrite E' in Ev. cbn [bind] in Ev. unfold rr_max_y_state. rewrite Ey. cbn [bind]. exact Ev.
  Qed.
End RV.
