(** The number reported by exact minimisation on reward forms when answers are
    correct up to a tolerance only. *)
From Coq Require Import String List Arith ZArith QArith Qreals Reals Bool Lia Lra.
From Verif Require Import Base BaseFacts Num Matrix MatFacts InvDict SccSpec SpecMdp SpecEc SpecSystem SpecForm SpecBuilt SpecProb SpecSub SpecLp SpecMilp SpecSlack SpecReward SpecRewSub SpecRewSlack SumFacts MdpValue RfTheory SubTheory RewTheory RewSub RewSlackTheory
  Amdp ReachForm ReachFormProofs RfFacts BuiltFacts RfBridge FarkReal Milp MilpProofs LpExists RfLpProofs Subsystem Formulations MilpBuild GroupProofs MilpForm MilpExact MilpMin Problems QsProofs MilpFinal SlackProofs SlackProofs2 SlackProofs3
  RewardForm RewardProofs RewProblems GenBuild RewForms RewMilp RewQs RewFinal RewSlackProofs.
Import ListNotations.
Local Open Scope nat_scope.

Section Num.
  Variable rr : rrform.
  Let rf := rr_rf rr.
  Hypothesis BF : built_form rf.
  Hypothesis EX : exact_rows (a_P (rf_sys rf)).
  Hypothesis Hi : rf_init rf < a_N (rf_sys rf) - 2.
  Hypothesis LR : length (rr_rew rr) = a_C (rf_sys rf) - 2.

  Lemma rconstruct_ind : forall SB t md labels mm ind, sized SB -> rr_construct_milp SB rr t md labels false None = Ok (Some (mm, ind)) ->
    exists A b st u, md <> OtherMode /\ rr_fark_constraints rr t md = Ok (A, b) /\ compute_upper_bounds SB A (cert_dim rf md) b = Ok (st, u) /\ st <> Infeasible /\ (md = Max -> st = Optimal) /\
      (st = Optimal -> length u = cert_dim rf md) /\ grouping rf md labels true (map snd ind) /\ length (mi_vars mm) = cert_dim rf md + length ind /\ mi_dir mm = Minimise /\ ind = combine (seq (cert_dim rf md) (length ind)) (map snd ind) /\
      (forall x, objective mm x = lsum (map fst ind) x) /\
      forall sigma G, In (sigma, G) ind -> ind_has DBinary (match st with Optimal => Some u | _ => None end) mm sigma G.
  Proof.
    intros SB t md labels mm ind HS E. assert (Hm : md <> OtherMode). { intros ->. discriminate E. }
    destruct (rr_fark_real rr BF Hi LR md t Hm) as (A & b & EA & LB & LA & HW & HR). unfold rr_construct_milp in E. rewrite EA in E. cbn [bind] in E. fold rf in E, HW, HR. rewrite (size_ok rf md Hm) in E. cbn [bind] in E.
    set (k := cert_dim rf md) in *. apply bind_ok in E. destruct E as (ch & EU & E). destruct ch as [ub|]; [|discriminate E].
    apply bind_ok in E. destruct E as (u0 & EAS & E). apply bind_ok in E. destruct E as (gs & EG & E).
    unfold rr_choose_bounds in EU. cbn [rr_is_ec_free] in EU. apply bind_ok in EU. destruct EU as ((st & u) & EU & EC).
    assert (NI : st <> Infeasible). { intros ->. discriminate EC. }
    assert (EUB : ub = match st with Optimal => Some u | _ => None end). { destruct st; injection EC as EC; auto. congruence. }
    assert (HUB : st = Optimal -> length u = k).
    { intros ->. unfold compute_upper_bounds in EU. apply bind_ok in EU. destruct EU as (lp & EL & EU). apply bind_ok in EU. destruct EU as (? & _ & EU). injection EU as ES Eu. rewrite <- Eu. clear Eu.
      destruct (k + 1 =? length A) eqn:EK; [|apply repeat_length]. destruct (gbound_lp A k b (rpoly rr md t) LB HW HR) as (lp' & EL' & _ & VL & _). assert (lp' = lp) by congruence. subst lp'. rewrite (HS lp ES). exact VL. }
    assert (HU' : forall u', ub = Some u' -> length u' = k). { intros u' Eu. rewrite EUB in Eu. destruct st; try discriminate Eu. injection Eu as <-. apply HUB. reflexivity. }
    assert (GS : gspec k (rpoly rr md t) false ub gs mm ind).
    { apply (gcons_inv A k b (rpoly rr md t) LB HW HR rr md ub gs false mm ind HU'). unfold gcons. cbv iota. apply bind_ok in E. destruct E as (bs & -> & E). cbn [bind]. apply bind_ok in E. destruct E as (m0 & -> & E). cbn [bind].
      apply bind_ok in E. destruct E as ((m1 & i1) & E1 & E). cbn [negb andb] in *. rewrite E1. cbn [bind]. apply bind_ok in E. destruct E as (m2 & -> & E). cbn [bind]. congruence. }
    destruct GS as (EI & LV & DI & _ & _ & _ & OB & _).
    assert (SX : map snd ind = gs). { rewrite EI. clear. generalize k. induction gs as [|G gs IH]; intros k0; [reflexivity|]. cbn [length seq combine map snd]. rewrite IH. reflexivity. }
    assert (LI : length ind = length gs) by (rewrite <- SX, map_length; reflexivity).
    exists A, b, st, u. split; [exact Hm|]. split; [exact EA|]. split; [exact EU|]. split; [exact NI|]. split.
    { intros ->. rewrite EUB in EAS. destruct st; try reflexivity; try congruence; discriminate EAS. }
    split; [exact HUB|]. split.
    { rewrite SX. destruct labels as [ls|].
      - cbn [rr_groups_from_labels] in EG. unfold rr_groups_from_labels in EG. fold rf in EG. rewrite (size_ok rf md Hm) in EG. cbn [bind] in EG. apply (groups_ok rf BF) in EG. destruct md; exact EG.
      - unfold rr_groups_from_labels in EG. fold rf in EG. rewrite (size_ok rf md Hm) in EG. cbn [bind] in EG. fold k in EG. destruct md; [| |congruence].
        + cbn [negb] in EG. injection EG as <-. reflexivity.
        + cbn [negb] in EG. destruct (k =? 0) eqn:EK; [|discriminate EG]. exfalso. apply Nat.eqb_eq in EK. 
          destruct (W_act (form_mdp rf) (RFW _ (proj1 (br_rf rf BF EX))) (rf_init rf)) as (r & Hr & Es). { change (nS (form_mdp rf)) with (a_N (rf_sys rf)). lia. }
          assert (r < k) by (apply (rows_in (form_mdp rf) (proj1 (br_rf rf BF EX)) (rf_init rf) Hi r); auto). lia. }
    split; [rewrite LI; exact LV|]. split; [exact DI|]. split; [rewrite LI, SX; exact EI|]. split; [exact OB|].
    rewrite <- EUB. clear EUB EC. apply bind_ok in E. destruct E as (bs & Eb & E). apply bind_ok in E. destruct E as (m0 & E0 & E). apply bind_ok in E. destruct E as ((m1 & i1) & E1 & E). apply bind_ok in E. destruct E as (m2 & E2 & E). injection E as <- <-.
    destruct (gbase A k b (rpoly rr md t) LB HW HR rr md ub HU') as (bs' & m0' & Eb' & E0' & X1 & X2 & X3 & _). assert (bs' = bs) by congruence. subst bs'. assert (m0' = m0) by congruence. subst m0'.
    unfold add_indicator_constraints in E1. destruct (indicators_has _ _ _ _ _ _ _ X1 X2 (fun s (H : In s (dkeys (V := list nat) [])) => match H return _ with end) E1) as (K1 & I1).
    destruct (set_objective_keeps _ _ _ E2) as (K2 & _). intros s G HI. eapply ind_has_keeps; [exact K2|]. apply I1. rewrite X3. rewrite EI in HI. exact HI.
  Qed.

  Lemma rnum : forall SB t md labels mm ind eps r, sized SB -> (0 <= eps)%R -> (eps < 1 / 2)%R ->
    rr_construct_milp SB rr t md labels false None = Ok (Some (mm, ind)) -> answer_within eps mm r -> sr_status r = Optimal ->
    let cert := firstn (cert_dim rf md) (sr_vec r) in
    exists A b st w u j, rr_fark_constraints rr t md = Ok (A, b) /\ compute_upper_bounds SB A (cert_dim rf md) b = Ok (st, w) /\ u = (match st with Optimal => w | _ => repeat 1%Q (cert_dim rf md) end) /\ length u = cert_dim rf md /\
      grouping rf md labels true (map snd ind) /\
      (INR j - (INR (length ind) + 1) * eps <= Q2R (sr_val r) <= INR j + (INR (length ind) + 1) * eps)%R /\
      forall T, (forall G, In G (map snd ind) -> T G = true -> touches_above (fun i => eps * (1 + Rabs (vec u i)))%R cert G) -> length (filter T (map snd ind)) <= j.
  Proof.
    intros SB t md labels mm ind eps r HS E0 E1 EC HA EST cert.
    destruct (rconstruct_ind SB t md labels mm ind HS EC) as (A & b & st & w & Hm & EA & EU & NI & MX & LW & GR & LV & _ & EI & OB & CI).
    destruct (HA EST) as (L & (F1 & F2) & V1). set (x := vec (sr_vec r)) in *. set (k := cert_dim rf md) in *. set (gs := map snd ind) in *.
    set (u := match st with Optimal => w | _ => repeat 1%Q k end).
    assert (LU : length u = k) by (unfold u; destruct st; [apply LW; reflexivity| | | |]; apply repeat_length).
    assert (LG : length ind = length gs) by (unfold gs; rewrite map_length; reflexivity).
    assert (FX : map fst ind = seq k (length gs)) by (rewrite EI, <- LG; apply combine_fst; rewrite seq_length; auto).
    assert (BIN : forall sigma G, In (sigma, G) ind -> ((- eps <= x sigma <= eps)%R \/ (1 - eps <= x sigma <= 1 + eps)%R)).
    { intros sigma G HI. destruct (CI sigma G HI) as ((v & Hw & Ew) & _). cbn [mk_var] in Ew. injection Ew as <-. destruct (F1 _ _ Hw) as (B1 & B2 & B3). cbn [v_lb v_ub v_int above below] in *.
      rewrite RMicromega.Q2R_0 in B1. rewrite RMicromega.Q2R_1 in B2. apply near_01; auto. }
    exists A, b, st, w, u, (nhalf (map fst ind) x). split; [exact EA|]. split; [exact EU|]. split; [reflexivity|]. split; [exact LU|]. split; [exact GR|]. split.
    - rewrite OB in V1. pose proof (lsum_half (map fst ind) x eps E0 E1) as LH. rewrite map_length in LH.
      assert (HB : forall j, In j (map fst ind) -> ((- eps <= x j <= eps)%R \/ (1 - eps <= x j <= 1 + eps)%R)). { intros j Hj. apply in_map_iff in Hj. destruct Hj as ((s & G) & <- & HI). apply (BIN _ _ HI). }
      specialize (LH HB). lra.
    - rewrite FX. intros T HT. apply filter_half. intros i G EGi ET. assert (HG : In G gs) by (eapply nth_error_In; eauto). destruct (HT G HG ET) as (v & Hv & Hb).
      assert (NN : (0 <= eps * (1 + Rabs (vec u v)))%R) by (apply Rmult_le_pos; [auto|pose proof (Rabs_pos (vec u v)); lra]).
      assert (Hvk : v < k). { destruct (Nat.lt_ge_cases v k) as [|X]; auto. unfold vec at 2 in Hb. rewrite nth_overflow in Hb; [rewrite RMicromega.Q2R_0 in Hb; lra|]. unfold cert. rewrite firstn_length. fold k. lia. }
      unfold cert in Hb. rewrite firstn_vec in Hb by exact Hvk. fold x in Hb.
      assert (HI : In (k + i, G) ind) by (rewrite EI, LG; apply combine_seq_in; exact EGi). destruct (CI _ _ HI) as (_ & HC).
      assert (EK : k_of (match st with Optimal => Some w | _ => None end) v = Some (nth v u 0%Q)).
      { unfold u. destruct st; cbn [k_of]; try (rewrite (nth_indep _ _ 1%Q) by (rewrite repeat_length; exact Hvk); rewrite nth_repeat; reflexivity). apply nth_error_nth'. rewrite LW by reflexivity. exact Hvk. }
      destruct (HC v _ Hv EK) as (key & Hkey). specialize (F2 _ _ Hkey).
      unfold ind_con in F2. cbn [c_sense c_lhs c_rhs rel_within] in F2.
      rewrite affine_id in F2 by (cbn [map fst]; constructor; [intros [X|[]]; lia|constructor; [intros []|constructor]]). cbn [lin] in F2.
      rewrite Q2R_opp, RMicromega.Q2R_0, RMicromega.Q2R_1 in F2. change (Q2R (nth v u 0%Q)) with (vec u v) in F2.
      unfold half. destruct (Rlt_dec (1 / 2) (x (k + i)%nat)) as [|NL]; [reflexivity|]. exfalso.
      destruct (BIN _ _ HI) as [B|B]; [|lra]. assert (AB : (vec u v * x (k + i)%nat <= Rabs (vec u v) * eps)%R).
      { eapply Rle_trans; [apply Rle_abs|]. rewrite Rabs_mult. apply Rmult_le_compat_l; [apply Rabs_pos|]. apply Rabs_le. lra. }
      lra.
  Qed.
End Num.

Lemma rexact_success : forall SB S rr t md labels sub v cert mm ind, rr_construct_milp SB rr t md labels false None = Ok (Some (mm, ind)) ->
  In (MkPRes Success (Some sub) (Some v) (Some cert)) (g_items (rr_milp_exact SB S rr t md labels)) ->
  md <> OtherMode /\ sr_status (S mm) = Optimal /\ v = sr_val (S mm) /\ cert = firstn (cert_dim (rr_rf rr) md) (sr_vec (S mm)).
Proof.
  intros SB S rr t md labels sub v cert mm ind EC H. assert (Hm : md <> OtherMode). { intros ->. discriminate EC. } unfold rr_milp_exact in H. rewrite EC in H. cbn [bind] in H. cbv zeta in H.
  destruct (sr_status (S mm)) eqn:EST; try (cbn in H; destruct H as [H|[]]; discriminate H). rewrite (size_ok (rr_rf rr) md Hm) in H. cbn [bind] in H.
  destruct (mk_subsystem (rr_rf rr) (firstn (cert_dim (rr_rf rr) md) (sr_vec (S mm))) md false) as [w|e]; cbn [bind] in H; [|destruct H]. destruct H as [H|[]]. injection H as <- <- <-. auto.
Qed.

(** C111 *)
Lemma C111_counted_lemma : forall rr SB S t md labels mm ind eps sub v cert, reward_form rr -> sized SB ->
  (0 <= eps)%R -> (eps < 1 / 2)%R -> rr_construct_milp SB rr t md labels false None = Ok (Some (mm, ind)) -> answer_within eps mm (S mm) ->
  In (MkPRes Success (Some sub) (Some v) (Some cert)) (g_items (rr_milp_exact SB S rr t md labels)) ->
  exists A b st w u j, rr_fark_constraints rr t md = Ok (A, b) /\ compute_upper_bounds SB A (cert_dim (rr_rf rr) md) b = Ok (st, w) /\
    u = (match st with Optimal => w | _ => repeat 1%Q (cert_dim (rr_rf rr) md) end) /\ length u = cert_dim (rr_rf rr) md /\
    grouping (rr_rf rr) md labels true (map snd ind) /\
    (INR j - (INR (length ind) + 1) * eps <= Q2R v <= INR j + (INR (length ind) + 1) * eps)%R /\
    forall T, (forall G, In G (map snd ind) -> T G = true -> touches_above (fun i => eps * (1 + Rabs (vec u i)))%R cert G) -> length (filter T (map snd ind)) <= j.
Proof.
  intros rr SB S t md labels mm ind eps sub v cert (BF & EX & Hi & FREE & LR & NR) HS E0 E1 EC HA HI. destruct (rexact_success _ _ _ _ _ _ _ _ _ _ _ EC HI) as (Hm & EST & -> & ->).
  apply (rnum rr BF EX Hi LR SB t md labels mm ind eps (S mm)); auto.
Qed.

Lemma C111_minimal_lemma : forall rr t, reward_form rr -> exists A b lp, rr_fark_constraints rr t Min = Ok (A, b) /\ upper_bound_lp A (a_N (rf_sys (rr_rf rr)) - 2) b = Ok lp /\ (exists r, exact_answer lp r) /\
  forall SB S eps gap sub v cert, sized SB -> exact_answer lp (SB lp) ->
  (0 <= eps)%R -> (0 <= gap)%R -> ((INR (a_N (rf_sys (rr_rf rr)) - 2) + 1) * eps + gap < 1)%R ->
  (forall mm ind, rr_construct_milp SB rr t Min None false None = Ok (Some (mm, ind)) -> answer_within eps mm (S mm) /\
     (sr_status (S mm) = Optimal -> forall x, feasible mm x -> (Q2R (sr_val (S mm)) <= objective mm x + gap)%R)) ->
  In (MkPRes Success (Some sub) (Some v) (Some cert)) (g_items (rr_milp_exact SB S rr t Min None)) ->
  forall keep, rew_witness rr Min t keep -> (Q2R v <= INR (count keep (a_N (rf_sys (rr_rf rr)) - 2)) + gap)%R /\
    exists u, compute_upper_bounds SB A (a_N (rf_sys (rr_rf rr)) - 2) b = Ok (Optimal, u) /\
    forall T, (forall s, T s = true -> (eps * (1 + Rabs (vec u s)) < vec cert s)%R) -> count T (a_N (rf_sys (rr_rf rr)) - 2) <= count keep (a_N (rf_sys (rr_rf rr)) - 2).
Proof.
  intros rr t RF. destruct (C62_states_final rr t RF) as (pr & A & b & lp & PM & EA & EL & XL & HX). exists A, b, lp. do 3 (split; [assumption|]).
  intros SB S eps gap sub v cert HS XB E0 G0 SM HA HI keep HW. destruct (HX SB XB) as (HXn & HXp). set (n := a_N (rf_sys (rr_rf rr)) - 2) in *.
  destruct (Rlt_le_dec pr (Q2R t)) as [LT|PRT]. { rewrite (HXn LT S) in HI. cbn in HI. destruct HI as [HI|[]]. discriminate HI. }
  destruct (HXp PRT) as (mm & ind & EC & (r & XA) & HX2). destruct (HA mm ind EC) as (HA1 & HA2).
  destruct (rexact_success _ _ _ _ _ _ _ _ _ _ _ EC HI) as (_ & EST & -> & ->).
  destruct (HX2 (fun _ => r) XA) as (_ & sub' & v' & cert' & j & EI & _ & _ & _ & EV & _ & _ & MIN).
  assert (HI' : In (MkPRes Success (Some sub') (Some v') (Some cert')) (g_items (rr_milp_exact SB (fun _ => r) rr t Min None))) by (rewrite EI; left; auto).
  destruct (rexact_success _ _ _ _ _ _ _ _ _ _ _ EC HI') as (_ & EST' & -> & ->). unfold exact_answer in XA. rewrite EST' in XA. destruct XA as (_ & (FE & _) & OV).
  specialize (HA2 EST _ FE). rewrite <- OV, EV in HA2. specialize (MIN keep HW). apply le_INR in MIN.
  destruct RF as (BF & EX & Hi & FREE & LR & NR).
  assert (N1 : (1 <= INR n)%R) by (change 1%R with (INR 1); apply le_INR; unfold n; lia).
  assert (E1 : (eps < 1 / 2)%R). { assert (1 * eps <= INR n * eps)%R by (apply Rmult_le_compat_r; auto). lra. }
  split; [lra|]. destruct (rnum rr BF EX Hi LR SB t Min None mm ind eps (S mm) HS E0 E1 EC HA1 EST) as (A' & b' & st & w & u & j' & EA' & EU & UU & LU & GR & VB & CN).
  rewrite EA in EA'. injection EA' as <- <-. change (cert_dim (rr_rf rr) Min) with n in *. cbn [grouping] in GR. change (cert_dim (rr_rf rr) Min) with n in GR.
  assert (ST : st = Optimal).
  { destruct (rconstruct_ind rr BF EX Hi LR SB t Min None mm ind HS EC) as (A2 & b2 & st2 & u2 & _ & EA2 & EU2 & NI & _). rewrite EA in EA2. injection EA2 as <- <-. change (cert_dim (rr_rf rr) Min) with n in EU2. rewrite EU in EU2. injection EU2 as <- <-.
    destruct (rr_bounds rr BF EX Hi FREE LR NR Min t ltac:(discriminate)) as (A3 & b3 & lp3 & EA3 & _ & _ & _ & EL3 & _ & UB). rewrite EA in EA3. injection EA3 as <- <-. change (cert_dim (rr_rf rr) Min) with n in *. rewrite EL in EL3. injection EL3 as <-.
    destruct (UB SB XB) as [(_ & u3 & X)|(_ & u3 & X & _)]; rewrite EU in X; congruence. }
  subst st. exists w. split; [exact EU|]. intros T HT. subst u.
  assert (LI : length ind = n). { rewrite <- (map_length snd), GR, map_length, seq_length. reflexivity. } rewrite LI in VB.
  assert (J : j' <= count keep n). { apply INR_le. assert (INR j' < INR (count keep n) + 1)%R by lra. rewrite <- S_INR in H. apply INR_lt in H. apply le_INR. lia. }
  eapply Nat.le_trans; [|exact J]. specialize (CN (fun G => match G with [s] => T s | _ => false end)). rewrite GR, filter_map_count in CN. apply CN.
  intros G HG HTG. apply in_map_iff in HG. destruct HG as (s & <- & Hs). exists s. split; [left; auto|]. apply (HT s HTG).
Qed.
