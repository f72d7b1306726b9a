(** The heuristic on reachability forms finds a witness if there is one. *)
From Coq Require Import String List Arith ZArith QArith Qreals Reals Bool Lia Lra Classical.
From Coq Require Lqa.
From Verif Require Import Base BaseFacts Num Matrix MatFacts FarkProofs CertProofs InvDict SccSpec SpecMdp SpecEc SpecSystem SpecForm SpecBuilt SpecProb SpecSub SpecLp SpecMilp SpecLabel SpecDecide SumFacts MdpValue RfTheory SubTheory
  Amdp ReachForm RfFacts BuiltFacts RfBridge Milp MilpProofs LpExists Subsystem Formulations MilpBuild GroupProofs MilpForm MilpMax MilpKeep MilpExact MilpMin MilpFinal LabelMin BinExists Problems QsProofs QsFixed QsWeights QsTotal GenBuild HeurFinal.
Import ListNotations.
Local Open Scope nat_scope.

Section Decide.
  Variable rf : rform.
  Hypothesis BF : built_form rf.
  Hypothesis EX : exact_rows (a_P (rf_sys rf)).
  Hypothesis Hi : rf_init rf < a_N (rf_sys rf) - 2.
  Let m := rf_sys rf.

  Lemma groups_inner : forall md labels, md <> OtherMode -> inner_opt m labels ->
    exists gs, groups_from_labels rf md labels false = Ok gs /\ forall G v, In G gs -> In v G -> v < cert_dim rf md.
  Proof.
    intros md [ls|] Hm HL.
    - destruct (groups_labels_total rf BF Hi md ls Hm HL) as (gs & EG). exists gs. assert (EG' : groups_from_labels rf md (Some ls) false = Ok gs) by (unfold groups_from_labels in *; destruct md; exact EG).
      split; [exact EG'|]. destruct (label_groups rf BF Hi md ls gs Hm HL (groups_ok rf BF md (Some ls) _ gs EG)) as (ks & _ & _ & _ & F). exact (label_members rf md ks gs F).
    - destruct (groups_none_total rf BF md false Hm) as (gs & EG). exists gs. split; [exact EG|]. pose proof (groups_ok rf BF md None false gs EG) as HG.
      assert (E : gs = map (fun i => [i]) (seq 0 (cert_dim rf md))) by (destruct md; [exact HG|exact HG|congruence]). intros G v Hin Hv. rewrite E in Hin. apply in_map_iff in Hin. destruct Hin as (i & <- & Hs).
      destruct Hv as [<-|[]]. apply in_seq in Hs. lia.
  Qed.

  Lemma relaxed_total : forall SB t md A b ub labels gs, md <> OtherMode -> fark_constraints rf t md = Ok (A, b) -> choose_bounds SB rf A (cert_dim rf md) b md None = Ok (Some ub) ->
    (forall u, ub = Some u -> length u = cert_dim rf md) -> groups_from_labels rf md labels false = Ok gs -> (forall G v, In G gs -> In v G -> v < cert_dim rf md) ->
    exists mm ind, construct_milp SB rf t md labels true None = Ok (Some (mm, ind)).
  Proof.
    intros S t md A b ub labels gs Hm EA EC L EG HM. unfold construct_milp. rewrite EA. cbn [bind]. rewrite (size_ok rf md Hm). cbn [bind]. rewrite EC. cbn [bind negb andb assert_].
    replace (match md with Max => false | _ => false end) with false by (destruct md; reflexivity). rewrite EG. cbn [bind].
    destruct (base_model rf BF Hi md t ub Hm L) as (A' & b' & bs & m0 & EA' & Eb & E0 & X1 & X2 & X3 & X4 & X5 & X6).
    rewrite EA in EA'. injection EA' as <- <-. rewrite Eb. cbn [bind]. rewrite E0. cbn [bind].
    destruct (indicators_total DReal ub gs m0 [] ltac:(discriminate) X1 X2 ltac:(intros s []) ) as (m1 & ind & E1).
    { intros G v HGi Hv. pose proof (HM G v HGi Hv). rewrite X3. split; [auto|]. destruct ub as [u|]; cbn [k_of]; [|discriminate]. apply nth_error_Some. rewrite (L u eq_refl). lia. }
    assert (E1' : add_indicator_constraints m0 ub gs DReal = Ok (m1, ind)) by exact E1. rewrite E1'. cbn [bind].
    destruct (indicators_inv _ _ _ _ _ _ _ X1 X2 (fun s (H : In s (dkeys (V := list nat) [])) => match H return _ with end) E1) as (A1 & A2 & A3 & A4 & A5 & A6 & A7 & A8).
    assert (EO : exists m2, set_objective m1 (all_ones ind) = Ok m2).
    { unfold set_objective, assert_expression. replace (forallb _ _) with true; [cbn; eauto|]. symmetry. apply forallb_forall. intros [v q] Hin. cbn [fst]. apply Nat.ltb_lt.
      unfold all_ones in Hin. apply in_map_iff in Hin. destruct Hin as ([s G] & Eq & Hin). cbn [fst] in Eq. injection Eq as <- <-. rewrite A6 in Hin. cbn [app] in Hin.
      apply in_combine_seq in Hin. destruct Hin as (i & EGi & ->). assert (i < length gs) by (apply nth_error_Some; congruence). lia. }
    destruct EO as (m2 & ->). cbn [bind]. eauto.
  Qed.

  (** A threshold that is reached gives a point of the polytope. *)
  Lemma value_point : forall md t, md <> OtherMode -> (Q2R t <= opt_value rf BF EX md)%R ->
    exists y, polytope rf md t y /\ (forall v, v < cert_dim rf md -> (0 <= y v)%R) /\ (md = Min -> forall v, v < cert_dim rf md -> (y v <= 1)%R /\ (in_some_ec (a_P m) (a_inv m) v -> y v = 0%R)).
  Proof.
    intros md t Hm HV. pose proof (witness_all rf BF Hi EX md t Hm HV) as HW. destruct md; [| |congruence].
    - destruct (point_of_witness rf BF Hi EX Min t (repeat 1%Q (cert_dim rf Min)) _ Hm (min_bounds rf t) HW) as (y & H1 & H2 & _). exists y. split; [exact H1|]. split; [intros v Hv; apply (H2 v Hv)|].
      intros _ v Hv. destruct (H2 v Hv) as ((_ & A) & B). split; [|auto]. unfold vec in A. rewrite (nth_indep _ _ 1%Q) in A by (rewrite repeat_length; auto). rewrite nth_repeat, RMicromega.Q2R_1 in A. exact A.
    - apply (witness_max rf BF Hi EX) in HW. destruct (y_complete rf BF EX Hi _ t HW) as (y & (HP & H0) & _). exists y. split; [exact HP|]. split; [exact H0|discriminate].
  Qed.

  (** What the bounds can be. *)
  Lemma bounds_cases : forall md t, md <> OtherMode -> exists A b lp, fark_constraints rf t md = Ok (A, b) /\ upper_bound_lp A (cert_dim rf md) b = Ok lp /\ (exists r, exact_answer lp r) /\
    forall SB, bound_answer lp (SB lp) ->
      (choose_bounds SB rf A (cert_dim rf md) b md None = Ok None /\ (opt_value rf BF EX md < Q2R t)%R) \/
      exists ub, choose_bounds SB rf A (cert_dim rf md) b md None = Ok (Some ub) /\ (forall u, ub = Some u -> length u = cert_dim rf md /\
        forall y, polytope rf md t y -> (forall v, v < cert_dim rf md -> (0 <= y v)%R) -> (md = Min -> forall v, v < cert_dim rf md -> (y v <= 1)%R) -> forall v, v < cert_dim rf md -> (y v <= vec u v)%R).
  Proof.
    intros md t Hm. destruct (fark_real rf BF Hi md t Hm) as (A & b & EA & LB & LA & HW & HR).
    destruct (gbound_lp A (cert_dim rf md) b (polytope rf md t) LB HW HR) as (lp & EL & WF & _). exists A, b, lp. split; [exact EA|]. split; [exact EL|]. split; [apply lp_answer_exists; exact WF|].
    intros SB HS. destruct md; [| |congruence].
    - right. exists (Some (repeat 1%Q (cert_dim rf Min))). split; [reflexivity|]. intros u E. injection E as <-. split; [apply repeat_length|]. intros y _ _ H1 v Hv.
      unfold vec. rewrite (nth_indep _ _ 1%Q) by (rewrite repeat_length; auto). rewrite nth_repeat, RMicromega.Q2R_1. apply (H1 eq_refl v Hv).
    - cbn [choose_bounds]. destruct (is_ec_free rf) eqn:EF; [|right; exists None; split; [reflexivity|discriminate]].
      assert (FR : ec_free (form_mdp rf)). { intros s Hs HE. apply (proj1 (is_ec_free_iff rf (rf_init rf) (br_ro rf BF) (br_form rf BF)) EF s Hs). apply (br_ec rf BF EX). exact HE. }
      destruct HS as [HS|HS].
      + destruct (bounds_max rf BF EX Hi FR t) as (A' & b' & lp' & EA' & EL' & _ & HB). cbn [fark_constraints] in EA, EA'. rewrite EA in EA'. injection EA' as <- <-. change (cert_dim rf Max) with (rf_C rf) in *.
        rewrite EL in EL'. injection EL' as <-. destruct (HB SB HS) as [(NO & u & EU)|(_ & u & EU & LU & HU)]; rewrite EU; cbn [bind].
        * left. split; [reflexivity|]. destruct (Rlt_le_dec (opt_value rf BF EX Max) (Q2R t)) as [|HL]; auto. exfalso. destruct (value_point Max t Hm HL) as (y & H1 & H2 & _). apply (NO y). split; auto.
        * right. exists (Some u). split; [reflexivity|]. intros u' E. injection E as <-. split; [exact LU|]. intros y H1 H2 _ v Hv. apply (HU y); [split; auto|exact Hv].
      + right. exists None. split; [|discriminate]. unfold compute_upper_bounds. rewrite EL. cbn [bind]. destruct HS as [-> | ->]; reflexivity.
  Qed.

  Definition good_init (ini : initializer) (md : mode) (mmo : res (option (milp * dict nat (list nat)))) : Prop := forall mm ind, mmo = Ok (Some (mm, ind)) ->
    exists obj, ini rf md ind = Ok obj /\ map fst obj = map fst ind /\ forall s w, In (s, w) obj -> (0 <= w)%Q.

  Lemma decide : forall t md labels, md <> OtherMode -> inner_opt m labels ->
    exists A b lp, fark_constraints rf t md = Ok (A, b) /\ upper_bound_lp A (cert_dim rf md) b = Ok lp /\ (exists r, exact_answer lp r) /\
    forall SB S iterations ini up g calls, sized SB -> bound_answer lp (SB lp) -> up = fixed_zeros \/ up = inverse_result -> good_init ini md (construct_milp SB rf t md labels true None) -> iterations <> 0 ->
      qs_run SB S iterations ini up rf t md labels = (g, calls) -> (forall m r, In (m, r) calls -> exact_answer m r) ->
      g_exn g = None /\
      ((Q2R t <= opt_value rf BF EX md)%R -> length (g_items g) = iterations /\ forall r, In r (g_items g) -> pr_status r = Success) /\
      ((opt_value rf BF EX md < Q2R t)%R -> g_items g = [failure Infeasible]).
  Proof.
    intros t md labels Hm HL. destruct (bounds_cases md t Hm) as (A & b & lp & EA & EL & XA & HB). exists A, b, lp. do 3 (split; [assumption|]).
    intros SB S it ini up g calls HS HA HU GI IT E XC. destruct (HB SB HA) as [(EC & HV)|(ub & EC & UB)].
    { unfold qs_run, construct_milp in E. rewrite EA in E. cbn [bind] in E. rewrite (size_ok rf md Hm) in E. cbn [bind] in E. rewrite EC in E. cbn [bind] in E. injection E as <- <-. cbn [g_exn g_items].
      split; [auto|]. split; [intros; lra|auto]. }
    destruct (groups_inner md labels Hm HL) as (gs & EG & HM).
    destruct (relaxed_total SB t md A b ub labels gs Hm EA EC (fun u H => proj1 (UB u H)) EG HM) as (mm & ind & EM).
    destruct (construct_inv rf BF Hi SB t md labels true mm ind EM) as (ub' & gs' & A' & b' & _ & EA' & EC' & _ & _ & EG' & CS).
    { intros u (A1 & b1 & E1 & E2). rewrite EA in E1. injection E1 as <- <-. rewrite EC in E2. injection E2 as ->. apply (UB u eq_refl). }
    rewrite EA in EA'. injection EA' as <- <-. rewrite EC in EC'. injection EC' as <-.
    replace (match md with Max => negb true | _ => false end) with false in EG' by (destruct md; reflexivity). rewrite EG in EG'. injection EG' as <-.
    pose proof E as E0. unfold qs_run in E. rewrite EM in E. destruct (GI mm ind EM) as (obj & EO & KO & WO). rewrite (size_ok rf md Hm) in E. cbn [bind] in E. rewrite EO in E. cbn [bind] in E.
    destruct (relaxed_facts rf Hi t md ub gs mm ind CS) as (LV & KI & POS).
    assert (UPG : good_up rf md mm ind (up rf md ind)) by (destruct HU as [-> | ->]; [apply good_fixed; auto|apply good_inverse; auto]).
    destruct (total_run rf md Hm mm ind LV KI POS S (up rf md ind) UPG it obj g calls (proj1 (proj2 (proj2 (proj2 (proj2 CS))))) (oinv_start rf BF Hi SB t md labels mm ind HS EM) KO WO E XC) as (R1 & R2 & R3).
    split; [exact R1|]. split.
    - intros HV. apply R2. destruct (value_point md t Hm HV) as (y & Y1 & Y2 & Y3). pose proof CS as (EI & _ & _ & _ & _ & _ & _ & FE).
      destruct (relaxed_solution (cert_dim rf md) ub gs ind y EI HM Y2) as (x & X1 & X2).
      { intros u Eu v Hv. destruct (UB u Eu) as (LU & HB1). specialize (HB1 y Y1 Y2 (fun Em w Hw => proj1 (Y3 Em w Hw)) v Hv). destruct (nth_error u v) as [q|] eqn:Eq; [|apply nth_error_None in Eq; lia].
        exists q. split; [auto|]. unfold vec in HB1. rewrite (nth_error_nth _ _ _ Eq) in HB1. exact HB1. }
      exists x. apply FE. split; [eapply (polytope_ext rf BF Hi); [|exact Y1]; intros v Hv; symmetry; apply X1; exact Hv|]. split; [|exact X2].
      intros v Hv. rewrite (X1 v Hv). split; [apply Y2; exact Hv|]. split; [intros Em HE; rewrite (proj2 (Y3 Em v Hv) HE); lra|]. intros _. destruct ub as [u|]; [|exact I].
      destruct (UB u eq_refl) as (LU & HB1). specialize (HB1 y Y1 Y2 (fun Em w Hw => proj1 (Y3 Em w Hw)) v Hv). destruct (nth_error u v) as [q|] eqn:Eq; [|apply nth_error_None in Eq; lia].
      unfold vec in HB1. rewrite (nth_error_nth _ _ _ Eq) in HB1. exact HB1.
    - intros HV. destruct (classic (exists x, feasible mm x)) as [FX|NF]; [|apply R3; [intros x Hx; apply NF; eauto|exact IT]]. exfalso.
      destruct (R2 FX) as (LI & AS). destruct (g_items g) as [|r rest] eqn:EGI; [cbn in LI; lia|].
      destruct (C42_final rf SB S it ini up t md labels g calls BF EX Hi HS E0) as (_ & _ & _ & C).
      { intros m' r' Hin ST. specialize (XC m' r' Hin). unfold exact_answer in XC. rewrite ST in XC. destruct XC as (L1 & (F1 & _) & _). auto. }
      destruct (C r ltac:(rewrite EGI; left; auto) (AS r (or_introl eq_refl))) as (sub & cert & k & gs' & _ & _ & _ & W & _). pose proof (witness_below rf BF Hi EX md t _ Hm W). lra.
  Qed.
End Decide.
