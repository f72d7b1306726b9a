(** The QS heuristic and undetermined bounds on reward forms; subsystems;
    solution vectors. *)
From Coq Require Import String List Arith ZArith QArith Qreals Reals Bool Lia Lra Classical.
From Coq Require Lqa.
From Verif Require Import Base BaseFacts Num Matrix MatFacts InvDict SccSpec SpecMdp SpecEc SpecSystem SpecForm SpecBuilt SpecProb SpecSub SpecLp SpecMilp SpecLabel SpecReward SpecRewSub SumFacts MdpValue RfTheory SubTheory RewTheory RewSub
  Amdp ReachForm ReachFormProofs RfFacts BuiltFacts RfBridge Farkas FarkReal Milp MilpProofs LpExists FarkProofs CertProofs Subsystem SubProofs2 SubProofs4 RfLps RfLpProofs Formulations MilpBuild GroupProofs MilpForm MilpMax MilpKeep MilpExact MilpMin BinExists GenMin LabelMin Problems QsProofs RewardForm RewardProofs RewProblems GenBuild RewForms RewMilp.
Import ListNotations.
Local Open Scope nat_scope.

Section RQ.
  Variable rr : rrform.
  Let rf := rr_rf rr.
  Hypothesis BF : built_form rf.
  Hypothesis EX : exact_rows (a_P (rf_sys rf)).
  Hypothesis Hi : rf_init rf < a_N (rf_sys rf) - 2.
  Hypothesis FREE : ec_free (form_mdp rf).
  Hypothesis LR : length (rr_rew rr) = a_C (rf_sys rf) - 2.
  Hypothesis NR : forall q, In q (rr_rew rr) -> (0 <= q)%Q.
  Let m := rf_sys rf.
  Let n := rf_N rf.
  Let c := rf_C rf.

  (** ** Undetermined bounds *)
  Lemma C64_undetermined : forall t, (1 < t)%Q -> exists A b lp, rr_fark_constraints rr t Min = Ok (A, b) /\ upper_bound_lp A (a_N m - 2) b = Ok lp /\
    forall SB, sr_status (SB lp) = NotSolved \/ sr_status (SB lp) = Undefined -> exists mm ind, rr_construct_milp SB rr t Min None false None = Ok (Some (mm, ind)) /\
      (forall x, ~ feasible mm x) /\ (exists r, exact_answer mm r) /\
      forall S, exact_answer mm (S mm) -> rr_milp_exact SB S rr t Min None = MkGen [failure Infeasible] None.
  Proof.
    intros t Ht. assert (Hm : Min <> OtherMode) by discriminate. destruct (rr_bounds rr BF EX Hi FREE LR NR Min t Hm) as (A & b & lp & EA & LB & HW & HR & EL & _).
    set (k := cert_dim rf Min) in *. exists A, b, lp. do 2 (split; [assumption|]). intros SB HS.
    set (gs := map (fun i => [i]) (seq 0 n)).
    assert (MEM : forall G v, In G gs -> In v G -> v < k). { intros G v HG Hv. apply in_map_iff in HG. destruct HG as (i & <- & Hi'). apply in_seq in Hi'. destruct Hv as [<-|[]]. unfold k. cbn [cert_dim]. unfold n, rf_N in Hi'. lia. }
    assert (HUB : forall u' : list Q, None = Some u' -> length u' = k) by (intros; discriminate).
    destruct (gcons_total A k b (rpoly rr Min t) LB HW HR rr Min None gs false HUB MEM) as (mm & ind & EC).
    pose proof (gcons_inv A k b (rpoly rr Min t) LB HW HR rr Min None gs false mm ind HUB EC) as GS.
    assert (E : rr_construct_milp SB rr t Min None false None = Ok (Some (mm, ind))).
    { unfold rr_construct_milp. rewrite EA. cbn [bind]. fold rf. rewrite (size_ok rf Min Hm). cbn [bind]. fold k. unfold rr_choose_bounds. cbn [rr_is_ec_free]. unfold compute_upper_bounds. change (upper_bound_lp A k b = Ok lp) in EL. rewrite EL. cbn [bind].
      assert (EC2 : gcons A k b rr Min None gs false = Ok (mm, ind)) by exact EC. unfold gcons in EC2. apply bind_ok in EC2. destruct EC2 as (bs & E1 & EC2). apply bind_ok in EC2. destruct EC2 as (m0 & E2 & EC2).
      apply bind_ok in EC2. destruct EC2 as ((m1 & i1) & E3 & EC2). apply bind_ok in EC2. destruct EC2 as (m2 & E4 & EC2). injection EC2 as -> ->.
      destruct HS as [-> | ->]; cbn [assert_ bind negb andb]; unfold rr_groups_from_labels; fold rf; rewrite (size_ok rf Min Hm); cbn [bind]; fold k; change (map (fun i => [i]) (seq 0 k)) with gs; rewrite E1; cbn [bind]; rewrite E2; cbn [bind]; rewrite E3; cbn [bind]; rewrite E4; reflexivity. }
    exists mm, ind. split; [exact E|]. destruct GS as (EI & LV & D & XO & MO & GV & O & F).
    assert (NF : forall x, ~ feasible mm x).
    { intros x Hx. apply F in Hx. destruct Hx as (P1 & _ & P3). cbn [rpoly] in P1. destruct P1 as (_ & P2).
      assert (HI : In (k + rf_init rf, [rf_init rf]) ind). { rewrite EI. apply combine_seq_in. unfold gs. rewrite nth_error_map. rewrite (nth_error_nth' _ 0) by (rewrite seq_length; exact Hi). rewrite seq_nth by exact Hi. reflexivity. }
      destruct (P3 _ _ HI) as (P4 & P5). cbn [sat_dom] in P4. specialize (P5 (rf_init rf) 1%Q (or_introl eq_refl) eq_refl). rewrite ind_con_sat in P5 by (unfold k; cbn [cert_dim]; lia).
      rewrite RMicromega.Q2R_1 in P5. apply Qlt_Rlt in Ht. rewrite RMicromega.Q2R_1 in Ht. fold rf in P2. destruct P4 as [P4|P4]; rewrite P4 in P5; lra. }
    split; [exact NF|]. split; [apply bin_answer_exists; apply (gcons_bin A k b rr Min None gs false mm ind EC)|].
    intros S HA. unfold rr_milp_exact. rewrite E. cbn [bind]. unfold exact_answer in HA. destruct (sr_status (S mm)).
    - exfalso. apply (NF _ (proj1 (proj1 (proj2 HA)))).
    - reflexivity.
    - exfalso. destruct HA as ((x & Hx) & _). apply (NF x Hx).
    - contradiction.
    - contradiction.
  Qed.

  (** ** The heuristic *)
  Lemma rr_construct_relaxed : forall SB t md labels mm ind, sized SB -> rr_construct_milp SB rr t md labels true None = Ok (Some (mm, ind)) ->
    exists ub gs, md <> OtherMode /\ grouping rf md labels false gs /\ gspec (cert_dim rf md) (rpoly rr md t) true ub gs mm ind.
  Proof.
    intros SB t md labels mm ind HS E. assert (Hm : md <> OtherMode). { intros ->. discriminate. }
    destruct (rr_fark_real rr BF Hi LR md t Hm) as (A & b & EA & LB & LA & HW & HR). unfold rr_construct_milp in E. rewrite EA in E. cbn [bind] in E. fold rf in E. rewrite (size_ok rf md Hm) in E. cbn [bind] in E.
    set (k := cert_dim rf md) in *. apply bind_ok in E. destruct E as (ch & EU & E). destruct ch as [ub|]; [|discriminate].
    apply bind_ok in E. destruct E as (? & _ & E). apply bind_ok in E. destruct E as (gs & EG & E).
    replace (match md with Max => negb true | _ => false end) with false in EG by (destruct md; reflexivity).
    assert (EG' : groups_from_labels rf md labels false = Ok gs).
    { unfold rr_groups_from_labels in EG. fold rf in EG. rewrite (size_ok rf md Hm) in EG. cbn [bind] in EG. destruct labels as [ls|]; [exact EG|].
      unfold groups_from_labels. rewrite (size_ok rf md Hm). cbn [bind]. destruct md; exact EG. }
    assert (HUB : forall u, ub = Some u -> length u = k).
    { intros u ->. unfold rr_choose_bounds in EU. cbn [rr_is_ec_free] in EU. apply bind_ok in EU. destruct EU as ((st & u') & EU & EC). destruct st; injection EC as EC; try discriminate. subst u'.
      unfold compute_upper_bounds in EU. apply bind_ok in EU. destruct EU as (lp & EL & EU). apply bind_ok in EU. destruct EU as (? & _ & EU). injection EU as ES Eu. rewrite <- Eu. clear Eu.
      destruct (k + 1 =? length A) eqn:EK; [|apply repeat_length]. destruct (gbound_lp A k b (rpoly rr md t) LB HW HR) as (lp' & EL' & _ & VL & _). assert (lp' = lp) by congruence. subst lp'. rewrite (HS lp ES). exact VL. }
    exists ub, gs. split; [exact Hm|]. split; [apply (groups_ok rf BF md labels false gs EG')|].
    apply (gcons_inv A k b (rpoly rr md t) LB HW HR rr md ub gs true mm ind HUB). unfold gcons.
    apply bind_ok in E. destruct E as (bs & -> & E). cbn [bind]. apply bind_ok in E. destruct E as (m0 & -> & E). cbn [bind]. apply bind_ok in E. destruct E as ((m1 & i1) & -> & E). cbn [bind].
    apply bind_ok in E. destruct E as (m2 & -> & E). cbn [bind]. congruence.
  Qed.

  Lemma rr_relaxed_point : forall t md ub gs mm ind v, md <> OtherMode -> gspec (cert_dim rf md) (rpoly rr md t) true ub gs mm ind -> length v = length (mi_vars mm) -> feasible mm (vec v) ->
    length (firstn (cert_dim rf md) v) = cert_dim rf md /\ rew_polytope rr md t (vec (firstn (cert_dim rf md) v)) /\
    rew_witness rr md t (chosen m md (firstn (cert_dim rf md) v)) /\ length (filter (touches (firstn (cert_dim rf md) v)) gs) <= npos (cert_dim rf md) v.
  Proof.
    intros t md ub gs mm ind v Hm CS L F. destruct CS as (EI & LV & _ & _ & _ & GV & _ & FE). set (k := cert_dim rf md) in *.
    apply FE in F. destruct F as (H1 & H2 & H3). assert (LC : length (firstn k v) = k) by (rewrite firstn_length; lia). split; [exact LC|].
    assert (RP : rpoint rr md t (vec (firstn k v))).
    { split.
      - apply (rpoly_ext rr BF EX Hi md t (vec v) _ Hm); [|exact H1]. intros j Hj. symmetry. apply firstn_vec. exact Hj.
      - intros j Hj. rewrite firstn_vec by exact Hj. apply (H2 j Hj). }
    split; [apply (rpoly_iff rr BF md t _ Hm); exact RP|]. split.
    { apply (point_wit rr BF EX Hi LR FREE NR md t _ (vec (firstn k v)) Hm RP). intros i Hv Hp. apply (chosen_iff rf BF Hi md _ _ Hm); [apply (own_lt rf BF); exact Hv|]. exists i. auto. }
    unfold npos. apply touched_le; [rewrite skipn_length; lia|]. intros i G q EG Eq HT. rewrite skipn_nth in Eq. apply pos_R.
    unfold touches in HT. apply existsb_exists in HT. destruct HT as (j & Hj & Hp). apply pos_R in Hp.
    assert (Hjk : j < k). { destruct (Nat.lt_ge_cases j k) as [|X]; auto. rewrite nth_overflow in Hp by lia. rewrite RMicromega.Q2R_0 in Hp. lra. }
    change (0 < vec (firstn k v) j)%R in Hp. rewrite firstn_vec in Hp by exact Hjk.
    assert (HI : In (k + i, G) ind) by (rewrite EI; apply combine_seq_in; exact EG). destruct (H3 _ _ HI) as (D & HC). cbn [sat_dom above] in D. destruct D as (D & _). rewrite RMicromega.Q2R_0 in D.
    assert (HG : In G gs) by (eapply nth_error_In; eauto). destruct (GV G j HG Hj) as (_ & NK). destruct (k_of ub j) as [q'|] eqn:EK; [|congruence].
    specialize (HC j q' Hj EK). rewrite ind_con_sat in HC by lia. assert (EV : vec v (k + i) = Q2R q) by (unfold vec; rewrite (nth_error_nth _ _ _ Eq); reflexivity). rewrite EV in *.
    destruct D as [D|D]; [exact D|]. rewrite <- D in HC. lra.
  Qed.

  Lemma C65_lemma : forall SB S iterations ini up t md labels g calls, sized SB -> rr_qs_run SB S iterations ini up rr t md labels = (g, calls) ->
    (forall m r, In (m, r) calls -> sound_answer m r) ->
    length (g_items g) <= Nat.max 1 iterations /\ length calls <= iterations /\
    (forall j r, nth_error (g_items g) j = Some r -> pr_status r <> Success -> Datatypes.S j = length (g_items g) /\ g_exn g = None /\ exists s, s <> Optimal /\ r = failure s) /\
    (iterations <> 0 -> g_exn g = None -> g_items g <> []) /\
    forall r, In r (g_items g) -> pr_status r = Success -> exists sub cert k gs, r = MkPRes Success (Some sub) (Some (inject_Z (Z.of_nat k))) (Some cert) /\
      mk_subsystem rf cert md false = Ok sub /\ length cert = cert_dim rf md /\ rew_polytope rr md t (vec cert) /\ rew_witness rr md t (chosen m md cert) /\
      grouping rf md labels false gs /\ length (filter (touches cert) gs) <= k.
  Proof.
    intros SB S it ini up t md labels g calls HS E SN. unfold rr_qs_run in E. destruct (rr_construct_milp SB rr t md labels true None) as [[(mm & ind)|]|e] eqn:EC.
    - destruct (rr_construct_relaxed SB t md labels mm ind HS EC) as (ub & gs & Hm & GR & CS). fold rf in E. rewrite (size_ok rf md Hm) in E. cbn [bind] in E.
      destruct (ini rr md ind) as [obj|e]; cbn [bind] in E.
      2:{ injection E as <- <-. cbn. split; [lia|]. split; [lia|]. split; [intros [|j] ?; discriminate|]. split; [discriminate|intros r []]. }
      assert (LV : cert_dim rf md <= length (mi_vars mm)) by (rewrite (proj1 (proj2 CS)); lia).
      assert (Q0 : qinv mm mm). { split; [apply CS|]. split; [auto|auto]. }
      destruct (loop_calls rf md Hm mm LV S (up rr md ind) it 0 mm obj g calls Q0 E SN) as (R1 & R2 & R3 & R4 & R5). split; [|split].
      + rewrite <- (F2_length _ _ _ _ _ R3). lia.
      + exact R1.
      + split; [|split; [exact R5|]].
        * intros j r HN NS. assert (exists c, nth_error calls j = Some c /\ of_call rf md (cert_dim rf md) c r) as ((m' & r') & HC & HO).
          { clear - R3 HN. revert j HN. induction R3 as [|c x cs xs H F IH]; intros [|j] HN; try discriminate HN; [injection HN as <-; exists c; auto|]. apply (IH j HN). }
          unfold of_call in HO. cbn [snd] in HO. destruct (sr_status r') eqn:ES; try (destruct (R4 _ _ _ HC ltac:(rewrite ES; discriminate)) as (X1 & X2); rewrite <- (F2_length _ _ _ _ _ R3); split; [exact X1|]; split; [exact X2|]; eexists; split; [|exact HO]; discriminate).
          destruct HO as (sub & _ & ->). cbn in NS. congruence.
        * intros r Hr HSu. assert (exists c, In c calls /\ of_call rf md (cert_dim rf md) c r) as ((m' & r') & HC & HO).
          { clear - R3 Hr. induction R3 as [|c x cs xs H F IH]; [destruct Hr|]. destruct Hr as [->|Hr]; [exists c; split; [left; auto|auto]|]. destruct (IH Hr) as (c' & A & B). exists c'. split; [right; auto|auto]. }
          unfold of_call in HO. cbn [snd] in HO. destruct (sr_status r') eqn:ES; try (subst r; discriminate). destruct HO as (sub & EW & ->).
          destruct (SN _ _ HC ES) as (L & F). destruct (R2 _ _ HC) as (_ & V & FI). rewrite V in L.
          destruct (rr_relaxed_point t md ub gs mm ind _ Hm CS L (FI _ F)) as (CL & CP & CW & TC).
          exists sub, (firstn (cert_dim rf md) (sr_vec r')), (npos (cert_dim rf md) (sr_vec r')), gs. do 6 (split; [assumption || reflexivity|]). exact TC.
    - injection E as <- <-. cbn [g_items length g_exn]. split; [lia|]. split; [lia|]. split.
      + intros [|[|j]] r HN; cbn in HN; try discriminate. injection HN as <-. intros _. split; [auto|]. split; [auto|]. exists Infeasible. split; [discriminate|auto].
      + split; [discriminate|]. intros r [<-|[]]; discriminate.
    - injection E as <- <-. cbn. split; [lia|]. split; [lia|]. split; [intros [|j] ?; discriminate|]. split; [discriminate|intros r []].
  Qed.
End RQ.
