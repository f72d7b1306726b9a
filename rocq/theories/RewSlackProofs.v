(** Subsystems of reward forms from answers within a tolerance. *)
From Coq Require Import String List Arith ZArith QArith Qreals Reals Bool Lia Lra.
From Verif Require Import Base BaseFacts Num Matrix MatFacts InvDict SccSpec SpecMdp SpecEc SpecSystem SpecForm SpecBuilt SpecProb SpecSub SpecLp SpecMilp SpecSlack SpecReward SpecRewSub SpecRewSlack SumFacts MdpValue RfTheory SubTheory RewTheory RewSub RewSlackTheory
  Amdp ReachForm ReachFormProofs RfFacts BuiltFacts RfBridge FarkReal Milp MilpProofs LpExists RfLpProofs Subsystem Formulations MilpBuild GroupProofs MilpForm MilpExact MilpMin Problems QsProofs MilpFinal SlackProofs SlackProofs2
  RewardForm RewardProofs RewProblems GenBuild RewForms RewMilp RewQs.
Import ListNotations.
Local Open Scope nat_scope.

Section RS.
  Variable rr : rrform.
  Let rf := rr_rf rr.
  Hypothesis BF : built_form rf.
  Hypothesis EX : exact_rows (a_P (rf_sys rf)).
  Hypothesis Hi : rf_init rf < a_N (rf_sys rf) - 2.
  Hypothesis FREE : ec_free (form_mdp rf).
  Hypothesis LR : length (rr_rew rr) = a_C (rf_sys rf) - 2.
  Hypothesis NR : forall q, In q (rr_rew rr) -> (0 <= q)%Q.
  Let init := rf_init rf.
  Let n := rf_N rf.
  Let c := rf_C rf.
  Let M := form_mdp rf.
  Let SH : shape_mdp M := proj1 (br_rf rf BF EX).
  Let rw := row_reward (rr_rew rr).

  Lemma rbounds_has : forall md ub bs, rr_variable_bounds rr md ub (cert_dim rf md) = Ok bs ->
    forall v, v < cert_dim rf md -> exists u, nth v bs (None, None) = (Some 0%Q, u).
  Proof.
    intros md ub bs E v Hv. unfold rr_variable_bounds in E. destruct (mapM_seq _ _ _ _ _ E) as (L & HN). specialize (HN v (None, None) Hv). cbn [Nat.add] in HN.
    apply bind_ok in HN. destruct HN as (u & Eu & HN). injection HN as HN. exists u. congruence.
  Qed.

  Definition rcon_has (md : mode) (t : Q) (mm : milp) : Prop :=
    exists A b, rr_fark_constraints rr t md = Ok (A, b) /\
    (forall i, i < length A -> exists k, has_constr mm k /\ c_sense k = SLe /\ c_rhs k = nth i b 0%Q /\ forall x, lin (c_lhs k) x = rowR A (cert_dim rf md) i x) /\
    (forall v, v < cert_dim rf md -> exists u, nth_error (mi_vars mm) v = Some (MkVar false (Some 0%Q) u)).

  Lemma rcon_has_keeps : forall md t mm mm', keeps mm mm' -> rcon_has md t mm -> rcon_has md t mm'.
  Proof.
    intros md t mm mm' K (A & b & E & H1 & H2). exists A, b. split; [exact E|]. split.
    - intros i Hil. destruct (H1 i Hil) as (k & X1 & X2). exists k. split; [apply K; auto|auto].
    - intros v Hv. destruct (H2 v Hv) as (u & X1). exists u. apply K; auto.
  Qed.

  Lemma rconstruct_has : forall SB t md labels relaxed mm ind, sized SB -> rr_construct_milp SB rr t md labels relaxed None = Ok (Some (mm, ind)) ->
    md <> OtherMode /\ mi_ok mm /\ rcon_has md t mm.
  Proof.
    intros SB t md labels relaxed mm ind HS E. assert (Hm : md <> OtherMode). { intros ->. discriminate E. }
    destruct (rr_fark_real rr BF Hi LR md t Hm) as (A & b & EA & LB & LA & HW & HR). unfold rr_construct_milp in E. rewrite EA in E. cbn [bind] in E. fold rf in E, HW, HR. rewrite (size_ok rf md Hm) in E. cbn [bind] in E.
    set (k := cert_dim rf md) in *. apply bind_ok in E. destruct E as (ch & EU & E). destruct ch as [ub|]; [|discriminate E].
    apply bind_ok in E. destruct E as (u0 & _ & E). apply bind_ok in E. destruct E as (gs & EG & E).
    assert (HUB : forall u, ub = Some u -> length u = k).
    { intros u ->. unfold rr_choose_bounds in EU. cbn [rr_is_ec_free] in EU. apply bind_ok in EU. destruct EU as ((st & u') & EU & EC). destruct st; injection EC as EC; try discriminate EC. subst u'.
      unfold compute_upper_bounds in EU. apply bind_ok in EU. destruct EU as (lp & EL & EU). apply bind_ok in EU. destruct EU as (? & _ & EU). injection EU as ES Eu. rewrite <- Eu. clear Eu.
      destruct (k + 1 =? length A) eqn:EK; [|apply repeat_length]. destruct (gbound_lp A k b (rpoly rr md t) LB HW HR) as (lp' & EL' & _ & VL & _). assert (lp' = lp) by congruence. subst lp'. rewrite (HS lp ES). exact VL. }
    apply bind_ok in E. destruct E as (bs & Eb & E). apply bind_ok in E. destruct E as (m0 & E0 & E). apply bind_ok in E. destruct E as ((m1 & i1) & E1 & E). apply bind_ok in E. destruct E as (m2 & E2 & E). injection E as <- <-.
    destruct (gbase A k b (rpoly rr md t) LB HW HR rr md ub HUB) as (bs' & m0' & Eb' & E0' & X1 & X2 & X3 & _). assert (bs' = bs) by congruence. subst bs'. assert (m0' = m0) by congruence. subst m0'.
    assert (NS : SLe <> OtherSense) by discriminate. destruct (from_coefficients_has _ _ _ _ _ _ _ _ _ NS HW E0) as (F1 & F2).
    unfold add_indicator_constraints in E1. destruct (indicators_has _ _ _ _ _ _ _ X1 X2 (fun s (H : In s (dkeys (V := list nat) [])) => match H return _ with end) E1) as (K1 & _).
    destruct (indicators_inv _ _ _ _ _ _ _ X1 X2 (fun s (H : In s (dkeys (V := list nat) [])) => match H return _ with end) E1) as (OK1 & _).
    destruct (set_objective_keeps _ _ _ E2) as (K2 & OK2). split; [exact Hm|]. split; [auto|]. exists A, b. split; [exact EA|]. split.
    - intros i Hil. destruct (F2 i Hil) as (q & Y1 & Y2). exists q. split; [apply K2, K1; auto|auto].
    - intros v Hv. fold k in Hv. destruct (F1 v Hv) as (x & Y1 & Y2). destruct (rbounds_has md ub bs Eb v Hv) as (u & Eu). cbn [bound_at] in Y2. rewrite Eu in Y2. cbn [fst snd] in Y2.
      rewrite (nth_indep _ _ DReal) in Y2 by (rewrite repeat_length; auto). rewrite nth_repeat in Y2. cbn [mk_var] in Y2. injection Y2 as <-. exists u. apply K2, K1; auto.
  Qed.

  Lemma rwithin_rows : forall md t mm eps x, md <> OtherMode -> rcon_has md t mm -> feasible_within eps mm x ->
    (forall v, v < cert_dim rf md -> (- eps <= x v)%R) /\
    match md with
    | Max => (forall s, s < n -> (balance M x s <= (if s =? init then 1 else 0) + eps)%R) /\ (Q2R t - eps <= sumn c (fun r => rw r * x r))%R
    | _ => (forall r, r < c -> (x (src M r) <= rstep M rw r x + eps)%R) /\ (Q2R t - eps <= x init)%R
    end.
  Proof.
    intros md t mm eps x Hm (A & b & EA & H1 & H2) (F1 & F2). split.
    - intros v Hv. destruct (H2 v Hv) as (u & Hu). destruct (F1 _ _ Hu) as (B1 & _). cbn [v_lb above] in B1. rewrite RMicromega.Q2R_0 in B1. lra.
    - assert (RW : forall i, i < length A -> (rowR A (cert_dim rf md) i x <= Q2R (nth i b 0%Q) + eps)%R).
      { intros i Hil. destruct (H1 i Hil) as (k & (kk & Hk) & Es & Er & El). specialize (F2 _ _ Hk). rewrite Es, Er, El in F2. exact F2. }
      destruct md; [| |congruence]; cbn [rr_fark_constraints] in EA.
      + destruct (rr_fark_z_real rr BF Hi LR t) as (A' & b' & E & LA & LB & HW & R1 & B1 & R2 & B2). rewrite EA in E. injection E as <- <-. change (cert_dim rf Min) with n in RW.
        change (rf_N (rr_rf rr)) with n in *. change (rf_C (rr_rf rr)) with c in *. change (form_mdp (rr_rf rr)) with M in *. change (rf_init (rr_rf rr)) with init in *. split.
        * intros r Hr. specialize (RW r ltac:(lia)). rewrite R1, B1 in RW by auto. unfold rstep. change (nS M - 2) with n. fold rw in RW. lra.
        * specialize (RW c ltac:(lia)). rewrite R2, B2 in RW. lra.
      + destruct (rr_fark_y_real rr BF Hi LR t) as (A' & b' & E & LA & LB & HW & R1 & B1 & R2 & B2). rewrite EA in E. injection E as <- <-. change (cert_dim rf Max) with c in RW.
        change (rf_N (rr_rf rr)) with n in *. change (rf_C (rr_rf rr)) with c in *. change (form_mdp (rr_rf rr)) with M in *. change (rf_init (rr_rf rr)) with init in *. split.
        * intros s Hs. specialize (RW s ltac:(lia)). rewrite R1, B1 in RW by auto. exact RW.
        * specialize (RW n ltac:(lia)). rewrite R2, B2 in RW. fold rw in RW. lra.
  Qed.

  Lemma rslack_witness : exists K, (0 <= K)%R /\ forall md t mm eps v, (0 <= eps)%R -> md <> OtherMode -> rcon_has md t mm -> feasible_within eps mm (vec v) ->
    rew_witness_within rr md t (K * eps) (chosen (rf_sys rf) md (firstn (cert_dim rf md) v)).
  Proof.
    destruct (rank rr BF EX Hi FREE) as (w & W0 & WR).
    destruct (rew_slack M SH w W0 WR rw (rw_pos rr NR) (rw_out rr Hi LR)) as (K & K0 & HK). change (nS M - 2) with n in HK. change (nA M - 2) with c in HK.
    exists (K + 1)%R. split; [lra|]. intros md t mm eps v He Hm CH F. destruct (rwithin_rows _ _ _ _ _ Hm CH F) as (B & C).
    set (cert := firstn (cert_dim rf md) v) in *. unfold rew_witness_within. fold rf. fold M. change (kept_reward rf (rr_rew rr) (chosen (rf_sys rf) md cert)) with (krew M rw (chosen (rf_sys rf) md cert)).
    destruct (HK (chosen (rf_sys rf) md cert) eps He) as (HZ & HY). destruct md; [| |congruence]; destruct C as (C1 & C2).
    - destruct (HZ (vec v) init Hi C1) as (x & X1 & X2).
      + intros s Hsn Kf. apply chosen_min in Kf. unfold cert in Kf. rewrite firstn_vec in Kf by exact Hsn. exact Kf.
      + exists x. split; [exact X1|lra].
    - destruct (HY (vec v) init Hi (fun r Hr => B r Hr) C1) as (x & X1 & X2).
      + intros r Hr Kf. apply (chosen_max rf BF Hi) in Kf; [|exact Hr]. unfold cert in Kf. rewrite firstn_vec in Kf by exact Hr. exact Kf.
      + exists x. split; [exact X1|lra].
  Qed.
End RS.

(** C110 *)
Lemma C110_lemma : forall rr, reward_form rr -> exists K, (0 <= K)%R /\
  forall eps SB t md labels, (0 <= eps)%R -> sized SB ->
  (forall S, (forall mm ind, rr_construct_milp SB rr t md labels false None = Ok (Some (mm, ind)) -> answer_within eps mm (S mm)) ->
     forall r, In r (g_items (rr_milp_exact SB S rr t md labels)) -> pr_status r = Success ->
     exists sub v cert, r = MkPRes Success (Some sub) (Some v) (Some cert) /\ mk_subsystem (rr_rf rr) cert md false = Ok sub /\
       rew_witness_within rr md t (K * eps) (chosen (rf_sys (rr_rf rr)) md cert)) /\
  (forall S iterations ini up g calls, rr_qs_run SB S iterations ini up rr t md labels = (g, calls) -> (forall m r, In (m, r) calls -> answer_within eps m r) ->
     forall r, In r (g_items g) -> pr_status r = Success ->
     exists sub v cert, r = MkPRes Success (Some sub) (Some v) (Some cert) /\ mk_subsystem (rr_rf rr) cert md false = Ok sub /\
       rew_witness_within rr md t (K * eps) (chosen (rf_sys (rr_rf rr)) md cert)).
Proof.
  intros rr (BF & EX & Hi & FREE & LR & NR). destruct (rslack_witness rr BF EX Hi FREE LR NR) as (K & K0 & HK). exists K. split; [exact K0|]. intros eps SB t md labels He HS. set (rf := rr_rf rr) in *. split.
  - intros S HA r Hr Hsu. unfold rr_milp_exact in Hr. destruct (rr_construct_milp SB rr t md labels false None) as [[(mm & ind)|]|e] eqn:EC; cbn [bind] in Hr.
    2:{ destruct Hr as [<-|[]]; discriminate Hsu. } 2:{ destruct Hr. }
    destruct (rconstruct_has rr BF Hi LR SB t md labels false mm ind HS EC) as (Hm & _ & CH).
    specialize (HA mm ind eq_refl). cbv zeta in Hr. destruct (sr_status (S mm)) eqn:EST; try (cbn in Hr; destruct Hr as [<-|[]]; discriminate Hsu).
    destruct (HA EST) as (L & F & _). fold rf in Hr. rewrite (size_ok rf md Hm) in Hr. cbn [bind] in Hr.
    destruct (mk_subsystem rf (firstn (cert_dim rf md) (sr_vec (S mm))) md false) as [sub|e] eqn:ES; cbn [bind] in Hr; [|destruct Hr].
    destruct Hr as [<-|[]]. exists sub, (sr_val (S mm)), (firstn (cert_dim rf md) (sr_vec (S mm))). split; [reflexivity|]. split; [exact ES|].
    apply (HK md t mm eps); auto.
  - intros S it ini up g calls E SN r Hr Hsu. unfold rr_qs_run in E. destruct (rr_construct_milp SB rr t md labels true None) as [[(mm & ind)|]|e] eqn:EC.
    2:{ injection E as <- <-. destruct Hr as [<-|[]]; discriminate Hsu. } 2:{ injection E as <- <-. destruct Hr. }
    destruct (rconstruct_has rr BF Hi LR SB t md labels true mm ind HS EC) as (Hm & OK & CH). fold rf in E.
    rewrite (size_ok rf md Hm) in E. cbn [bind] in E. destruct (ini rr md ind) as [obj|e]; cbn [bind] in E; [|injection E as <- <-; destruct Hr].
    assert (K1 : kinv mm mm) by (split; [exact OK|split; [apply keeps_refl|reflexivity]]).
    destruct (loop_items rf md mm S (up rr md ind) (cert_dim rf md) it 0 mm obj g calls K1 E r Hr Hsu) as (m' & r' & sub & HC & EST & (_ & KP & _) & ES & ->).
    destruct (SN _ _ HC EST) as (L & F & _). eexists sub, _, _. split; [reflexivity|]. split; [exact ES|].
    apply (HK md t m' eps); auto. eapply rcon_has_keeps; eauto.
Qed.
