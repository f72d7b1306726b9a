(** The heuristic on reward forms finds a witness if there is one; groups that
    are zero stay zero. *)
From Coq Require Import String List Arith ZArith QArith Qreals Reals Bool Lia Lra Classical.
From Coq Require Lqa.
From Verif Require Import Base BaseFacts Num Matrix MatFacts FarkProofs CertProofs InvDict SccSpec SpecMdp SpecEc SpecSystem SpecForm SpecBuilt SpecProb SpecSub SpecLp SpecMilp SpecLabel SpecDecide SpecReward SpecRewSub SumFacts
  Amdp ReachForm RfFacts BuiltFacts Milp MilpProofs LpExists Subsystem Formulations MilpBuild GroupProofs MilpForm MilpMax MilpExact MilpMin LabelMin BinExists Problems QsProofs QsFixed QsWeights QsTotal QsDecide GenBuild
  RewardForm RewProblems RewForms RewMilp RewQs.
Import ListNotations.
Local Open Scope nat_scope.

Section RD.
  Variable rr : rrform.
  Let rf := rr_rf rr.
  Let m := rf_sys rf.
  Hypothesis BF : built_form rf.
  Hypothesis EX : exact_rows (a_P (rf_sys rf)).
  Hypothesis Hi : rf_init rf < a_N (rf_sys rf) - 2.
  Hypothesis FREE : ec_free (form_mdp rf).
  Hypothesis LR : length (rr_rew rr) = a_C (rf_sys rf) - 2.
  Hypothesis NR : forall q, In q (rr_rew rr) -> (0 <= q)%Q.

  Lemma rr_groups_inner : forall md labels, md <> OtherMode -> inner_opt m labels ->
    exists gs, rr_groups_from_labels rr md labels false = Ok gs /\ forall G v, In G gs -> In v G -> v < cert_dim rf md.
  Proof.
    intros md labels Hm HL. destruct (groups_inner rf BF Hi md labels Hm HL) as (gs & EG & HM). exists gs. split; [|exact HM].
    unfold rr_groups_from_labels. fold rf. rewrite (size_ok rf md Hm). cbn [bind]. destruct labels as [ls|]; [exact EG|].
    unfold groups_from_labels in EG. rewrite (size_ok rf md Hm) in EG. cbn [bind] in EG. destruct md; exact EG.
  Qed.

  Lemma rr_relaxed_eq : forall SB t md labels A b ub gs, md <> OtherMode -> rr_fark_constraints rr t md = Ok (A, b) -> rr_choose_bounds SB rr A (cert_dim rf md) b None = Ok (Some ub) -> rr_groups_from_labels rr md labels false = Ok gs ->
    rr_construct_milp SB rr t md labels true None = let* (mm, ind) := gcons A (cert_dim rf md) b rr md ub gs true in Ok (Some (mm, ind)).
  Proof.
    intros SB t md labels A b ub gs Hm EA EC EG. unfold rr_construct_milp. rewrite EA. cbn [bind]. fold rf. rewrite (size_ok rf md Hm). cbn [bind]. rewrite EC. cbn [bind negb andb assert_].
    replace (match md with Max => false | _ => false end) with false by (destruct md; reflexivity). rewrite EG. cbn [bind]. unfold gcons.
    destruct (rr_variable_bounds rr md ub (cert_dim rf md)); [|reflexivity]. cbn [bind]. destruct (from_coefficients _ _ _ _ _ _ _ _); [|reflexivity]. cbn [bind].
    destruct (add_indicator_constraints _ _ _ _) as [[m1 ind]|]; [|reflexivity]. cbn [bind]. destruct (set_objective _ _); reflexivity.
  Qed.

  Lemma gcons_nodup : forall A k b md ub gs mm ind, gcons A k b rr md ub gs true = Ok (mm, ind) -> obj_nodup mm /\ mi_obj mm <> None.
  Proof.
    intros A k b md ub gs mm ind H. unfold gcons in H. apply bind_ok in H. destruct H as (bs & Eb & H).
    apply bind_ok in H. destruct H as (m0 & E0 & H). apply bind_ok in H. destruct H as ((m1 & ind1) & E1 & H). apply bind_ok in H. destruct H as (m2 & E2 & H). injection H as <- <-. split.
    - eapply set_objective_nodup; [|exact E2]. unfold obj_nodup. replace (mi_obj m1) with (mi_obj m0); [apply (from_coefficients_nodup _ _ _ _ _ _ _ _ _ E0)|].
      symmetry. unfold add_indicator_constraints in E1. apply (foldM_keep _ _ _ _ (fun st : milp * dict nat (list nat) => mi_obj (fst st))) in E1; [exact E1|].
      intros [m3 i3] G [m4 i4] E. unfold add_group in E. apply bind_ok in E. destruct E as ((m5 & vs) & E5 & E). apply bind_ok in E. destruct E as (sg & _ & E). apply bind_ok in E. destruct E as (m6 & E6 & E).
      injection E as <- _. cbn [fst]. rewrite <- (add_vars_obj _ _ _ _ E5). eapply (foldM_keep _ _ _ _ mi_obj); [|exact E6].
      intros m7 v m8 E7. apply bind_ok in E7. destruct E7 as (q & _ & E7). apply bind_ok in E7. destruct E7 as ((m9 & j) & E7 & E8). injection E8 as <-. eapply add_constraint_obj; eauto.
    - destruct (set_objective_inv _ _ _ E2) as (_ & _ & O). rewrite O. discriminate.
  Qed.

  Lemma rr_relaxed_facts : forall t md ub gs mm ind, gspec (cert_dim rf md) (rpoly rr md t) true ub gs mm ind ->
    cert_dim rf md <= length (mi_vars mm) /\ dkeys ind = seq (cert_dim rf md) (length (mi_vars mm) - cert_dim rf md) /\
    forall x sigma, feasible mm x -> In sigma (dkeys ind) -> (0 <= x sigma)%R.
  Proof.
    intros t md ub gs mm ind (EI & LV & _ & _ & _ & _ & _ & FE). split; [lia|]. split.
    - rewrite EI. unfold dkeys. rewrite combine_fst by apply seq_length. f_equal. lia.
    - intros x sg F Hs. apply FE in F. destruct F as (_ & _ & F). apply in_map_iff in Hs. destruct Hs as ((s & G) & <- & Hin). destruct (F _ _ Hin) as ((A & _) & _). cbn [above] in A. rewrite RMicromega.Q2R_0 in A. exact A.
  Qed.

  Lemma rr_oinv_start : forall t md ub gs mm ind, gspec (cert_dim rf md) (rpoly rr md t) true ub gs mm ind -> obj_nodup mm -> mi_obj mm <> None -> oinv rf md mm.
  Proof.
    intros t md ub gs mm ind CS ND NO. destruct (rr_relaxed_facts t md ub gs mm ind CS) as (LV & KI & _). destruct CS as (EI & LV' & D & XO & _ & _ & OB & _). split; [exact XO|]. split; [exact D|].
    destruct (mi_obj mm) as [d|] eqn:Ed; [|congruence].
    exists d. split; [auto|]. split; [apply ND; auto|]. intros v Hv. specialize (OB (fun j => if j =? v then 1%R else 0%R)). unfold objective in OB. rewrite Ed in OB.
    rewrite (lin_coef d (length (mi_vars mm))) in OB; [|apply ND; auto|]. 2:{ intros w Hw. apply in_map_iff in Hw. destruct Hw as ((w' & q) & <- & Hin). exact (proj2 XO d Ed w' q Hin). }
    rewrite (sumn_single _ v) in OB; [|lia|intros i _ NE; destruct (Nat.eqb_spec i v); [contradiction|ring]]. rewrite Nat.eqb_refl, Rmult_1_r in OB. rewrite OB.
    change (map fst ind) with (dkeys ind). rewrite KI.
    assert (Z : forall l, ~ In v l -> lsum l (fun j => if j =? v then 1%R else 0%R) = 0%R).
    { induction l as [|a l IH]; intros NI; cbn [lsum]; [reflexivity|]. rewrite IH by (intros X; apply NI; right; auto). destruct (Nat.eqb_spec a v) as [->|_]; [exfalso; apply NI; left; auto|lra]. }
    apply Z. rewrite in_seq. lia.
  Qed.

  Definition rr_good_init (ini : rr_initializer) (md : mode) (mmo : res (option (milp * dict nat (list nat)))) : Prop := forall mm ind, mmo = Ok (Some (mm, ind)) ->
    exists obj, ini rr md ind = Ok obj /\ map fst obj = map fst ind /\ forall s w, In (s, w) obj -> (0 <= w)%Q.

  Lemma rr_decide : forall t md labels v, md <> OtherMode -> inner_opt m labels -> rew_opt rr md v ->
    exists A b lp, rr_fark_constraints rr t md = Ok (A, b) /\ upper_bound_lp A (cert_dim rf md) b = Ok lp /\ (exists r, exact_answer lp r) /\
    forall SB S iterations ini up g calls, sized SB -> bound_answer lp (SB lp) -> up = rr_fixed_zeros \/ up = rr_inverse_result -> rr_good_init ini md (rr_construct_milp SB rr t md labels true None) -> iterations <> 0 ->
      rr_qs_run SB S iterations ini up rr t md labels = (g, calls) -> (forall m r, In (m, r) calls -> exact_answer m r) ->
      g_exn g = None /\
      ((Q2R t <= v)%R -> length (g_items g) = iterations /\ forall r, In r (g_items g) -> pr_status r = Success) /\
      ((v < Q2R t)%R -> g_items g = [failure Infeasible]).
  Proof.
    intros t md labels v Hm HL OV. pose proof (point_value rr BF EX Hi LR FREE NR md t v Hm OV) as PV.
    destruct (rr_bounds rr BF EX Hi FREE LR NR md t Hm) as (A & b & lp & EA & LB & HW & HR & EL & XA & HB). exists A, b, lp. do 3 (split; [assumption|]). set (k := cert_dim rf md) in *. change (cert_dim (rr_rf rr) md) with k in *.
    intros SB S it ini up g calls HS HA HU GI IT E XC.
    assert (CASES : (rr_choose_bounds SB rr A k b None = Ok None /\ (v < Q2R t)%R) \/
      exists ub, rr_choose_bounds SB rr A k b None = Ok (Some ub) /\ (forall u, ub = Some u -> length u = k /\ forall y, rpoint rr md t y -> forall i, i < k -> (y i <= vec u i)%R)).
    { unfold rr_choose_bounds. cbn [rr_is_ec_free]. destruct HA as [HA|HA].
      - destruct (HB SB HA) as [(NO & u & EU)|(_ & u & EU & LU & HU')]; rewrite EU; cbn [bind].
        + left. split; [reflexivity|]. destruct (Rlt_le_dec v (Q2R t)) as [|X]; auto. exfalso. apply PV in X. destruct X as (y & Hy). apply (NO y Hy).
        + right. exists (Some u). split; [reflexivity|]. intros u' Eu. injection Eu as <-. auto.
      - right. exists None. split; [|discriminate]. unfold compute_upper_bounds. rewrite EL. cbn [bind]. destruct HA as [-> | ->]; reflexivity. }
    destruct CASES as [(EC & HV)|(ub & EC & UB)].
    { unfold rr_qs_run, rr_construct_milp in E. rewrite EA in E. cbn [bind] in E. fold rf in E. rewrite (size_ok rf md Hm) in E. cbn [bind] in E. fold k in E. rewrite EC in E. cbn [bind] in E. injection E as <- <-. cbn [g_exn g_items].
      split; [auto|]. split; [intros; lra|auto]. }
    destruct (rr_groups_inner md labels Hm HL) as (gs & EG & HM). pose proof (rr_relaxed_eq SB t md labels A b ub gs Hm EA EC EG) as EM. fold k in EM.
    destruct (gcons_total A k b (rpoly rr md t) LB HW HR rr md ub gs true (fun u H => proj1 (UB u H)) HM) as (mm & ind & EGC).
    pose proof (gcons_inv A k b (rpoly rr md t) LB HW HR rr md ub gs true mm ind (fun u H => proj1 (UB u H)) EGC) as CS. rewrite EGC in EM. cbn [bind] in EM.
    pose proof E as E0. unfold rr_qs_run in E. rewrite EM in E. destruct (GI mm ind EM) as (obj & EO & KO & WO). fold rf in E. rewrite (size_ok rf md Hm) in E. cbn [bind] in E. rewrite EO in E. cbn [bind] in E.
    destruct (rr_relaxed_facts t md ub gs mm ind CS) as (LV & KI & POS). destruct (gcons_nodup _ _ _ _ _ _ _ _ EGC) as (ND & NO).
    assert (UPG : good_up rf md mm ind (up rr md ind)) by (destruct HU as [-> | ->]; [apply good_fixed; auto|apply good_inverse; auto]).
    destruct (total_run rf md Hm mm ind LV KI POS S (up rr md ind) UPG it obj g calls (proj1 (proj2 (proj2 (proj2 (proj2 CS))))) (rr_oinv_start t md ub gs mm ind CS ND NO) KO WO E XC) as (R1 & R2 & R3).
    split; [exact R1|]. split.
    - intros HV. apply R2. apply PV in HV. destruct HV as (y & HY). pose proof HY as (Y1 & Y2). pose proof CS as (EI & _ & _ & _ & _ & _ & _ & FE).
      destruct (relaxed_solution k ub gs ind y EI HM Y2) as (x & X1 & X2).
      { intros u Eu i Hik. destruct (UB u Eu) as (LU & HB1). specialize (HB1 y HY i Hik). destruct (nth_error u i) as [q|] eqn:Eq; [|apply nth_error_None in Eq; lia].
        exists q. split; [auto|]. unfold vec in HB1. rewrite (nth_error_nth _ _ _ Eq) in HB1. exact HB1. }
      exists x. apply FE. split; [apply (rpoly_ext rr BF EX Hi md t y x Hm); [intros i Hik; symmetry; apply X1; exact Hik|exact Y1]|]. split; [|exact X2].
      intros i Hik. rewrite (X1 i Hik). split; [apply Y2; exact Hik|]. destruct ub as [u|]; [|exact I].
      destruct (UB u eq_refl) as (LU & HB1). specialize (HB1 y HY i Hik). destruct (nth_error u i) as [q|] eqn:Eq; [|apply nth_error_None in Eq; lia].
      unfold vec in HB1. rewrite (nth_error_nth _ _ _ Eq) in HB1. exact HB1.
    - intros HV. apply R3; [|exact IT]. intros x Fx. apply CS in Fx. destruct Fx as (F1 & F2 & _). assert (X : (Q2R t <= v)%R) by (apply PV; exists x; split; [exact F1|intros i Hik; apply (F2 i Hik)]). lra.
  Qed.

  (** Groups that are zero stay zero. *)
  Lemma rr_shrink : forall SB S iterations ini t md labels g calls, sized SB -> rr_qs_run SB S iterations ini rr_fixed_zeros rr t md labels = (g, calls) ->
    (forall m r, In (m, r) calls -> sound_answer m r) ->
    (forall j mj rj mj' rj', nth_error calls j = Some (mj, rj) -> nth_error calls (Datatypes.S j) = Some (mj', rj') ->
      sr_status rj = Optimal /\ feasible mj' (vec (sr_vec rj)) /\
      (sr_status rj' = Optimal -> forall s, cert_dim rf md <= s -> (0 < vec (sr_vec rj') s)%R -> (0 < vec (sr_vec rj) s)%R)) /\
    (forall j r r' v v', nth_error (g_items g) j = Some r -> nth_error (g_items g) (Datatypes.S j) = Some r' -> pr_value r = Some v -> pr_value r' = Some v' -> (v' <= v)%Q).
  Proof.
    intros SB S it ini t md labels g calls HS E SN. unfold rr_qs_run in E. destruct (rr_construct_milp SB rr t md labels true None) as [[(mm & ind)|]|e] eqn:EC;
      [|injection E as <- <-; split; [intros [|j] ? ? ? ? H; discriminate H|intros [|[|j]] ? ? ? ? N1 N2; try discriminate N1; discriminate N2]..].
    destruct (rr_construct_relaxed rr BF Hi LR SB t md labels mm ind HS EC) as (ub & gs & Hm & GR & CS). fold rf in E. rewrite (size_ok rf md Hm) in E. cbn [bind] in E.
    destruct (ini rr md ind) as [obj|e]; cbn [bind] in E; [|injection E as <- <-; split; [intros [|j] ? ? ? ? H; discriminate H|intros [|[|j]] ? ? ? ? N1 N2; try discriminate N1; discriminate N2]].
    destruct (rr_relaxed_facts t md ub gs mm ind CS) as (LV & KI & POS). assert (Q0 : qinv mm mm). { split; [apply CS|]. split; auto. }
    destruct (loop_calls rf md Hm mm LV S _ it 0 mm obj g calls Q0 E SN) as (_ & R2 & R3 & _).
    assert (H : forall j mj rj mj' rj', nth_error calls j = Some (mj, rj) -> nth_error calls (Datatypes.S j) = Some (mj', rj') ->
      sr_status rj = Optimal /\ feasible mj' (vec (sr_vec rj)) /\
      (sr_status rj' = Optimal -> forall s, cert_dim rf md <= s -> (0 < vec (sr_vec rj') s)%R -> (0 < vec (sr_vec rj) s)%R)).
    { intros j mj rj mj' rj' H1 H2. destruct (fixed_calls rf md mm ind LV KI S it 0 mm obj g calls Q0 E SN j mj rj mj' rj' H1 H2) as (A1 & A2 & A3 & A4 & A5).
      split; [exact A1|]. split; [apply A5; split; [exact A3|auto]|]. intros ST s Hs HP. apply nth_error_In in H2. destruct (SN _ _ H2 ST) as (L & F). rewrite A4 in L.
      assert (Hs2 : s < length (mi_vars mm)). { destruct (Nat.lt_ge_cases s (length (mi_vars mm))) as [|X]; auto. unfold vec in HP. rewrite nth_overflow in HP by lia. rewrite RMicromega.Q2R_0 in HP. lra. }
      assert (K : In s (dkeys ind)) by (rewrite KI; apply in_seq; lia). apply A5 in F. destruct F as (_ & F).
      assert (P0 : (0 <= vec (sr_vec rj) s)%R). { apply POS; [|exact K]. apply (R2 _ _ (nth_error_In _ _ H1)). exact A3. }
      destruct P0 as [P0|P0]; [exact P0|]. rewrite (F s K (eq_sym P0)) in HP. lra. }
    split; [exact H|]. intros j r r' v v' N1 N2 V1 V2.
    assert (GET : forall k x, nth_error (g_items g) k = Some x -> exists c, nth_error calls k = Some c /\ of_call rf md (cert_dim rf md) c x).
    { clear - R3. induction R3 as [|c x cs xs HO F IH]; intros k y HN; [destruct k; discriminate|]. destruct k as [|k]; [injection HN as <-; exists c; auto|apply (IH k y HN)]. }
    destruct (GET _ _ N1) as ((m1 & r1) & C1 & O1). destruct (GET _ _ N2) as ((m2 & r2) & C2 & O2). unfold of_call in O1, O2. cbn [snd] in O1, O2.
    destruct (H _ _ _ _ _ C1 C2) as (A1 & A2 & A3). rewrite A1 in O1. destruct O1 as (s1 & _ & ->). destruct (sr_status r2) eqn:ES; try (subst r'; discriminate). destruct O2 as (s2 & _ & ->).
    cbn in V1, V2. injection V1 as <-. injection V2 as <-. rewrite <- Zle_Qle. apply inj_le. unfold npos.
    assert (L1 : length (sr_vec r1) = length (sr_vec r2)).
    { destruct (SN _ _ (nth_error_In _ _ C1) A1) as (X1 & _). destruct (SN _ _ (nth_error_In _ _ C2) ES) as (X2 & _). rewrite X1, X2.
      rewrite (proj1 (proj2 (R2 _ _ (nth_error_In _ _ C1)))), (proj1 (proj2 (R2 _ _ (nth_error_In _ _ C2)))). reflexivity. }
    apply (count_pos_le rf Hi); [rewrite !skipn_length; lia|]. intros i. unfold vec. rewrite !nth_skipn'. intros HP. apply (A3 eq_refl (cert_dim rf md + i)); [lia|exact HP].
  Qed.
End RD.
