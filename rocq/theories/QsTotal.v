(** With correct answers the heuristic succeeds in every round, or its model
    has no solution. *)
From Coq Require Import String List Arith ZArith QArith Qreals Reals Bool Lia Lra Classical.
From Coq Require Lqa.
From Verif Require Import Base BaseFacts Num Matrix MatFacts FarkProofs CertProofs InvDict SccSpec SpecMdp SpecEc SpecSystem SpecForm SpecBuilt SpecProb SpecSub SpecLp SpecMilp SumFacts
  Amdp ReachForm RfFacts BuiltFacts Milp MilpProofs LpExists Subsystem Formulations MilpBuild GroupProofs MilpForm MilpExact MilpMin BinExists Problems QsProofs QsFixed QsWeights.
Import ListNotations.
Local Open Scope nat_scope.

Section Total.
  Variable rf : rform.
  Variable md : mode.
  Hypothesis Hm : md <> OtherMode.
  Variable m0 : milp.
  Variable ind : dict nat (list nat).
  Let n := cert_dim rf md.
  Let N := length (mi_vars m0).
  Hypothesis LV : n <= N.
  Hypothesis KI : dkeys ind = seq n (N - n).
  Hypothesis POS : forall x sigma, feasible m0 x -> In sigma (dkeys ind) -> (0 <= x sigma)%R.
  Variable S : nat -> solver.
  Variable up : list Q -> res (list (nat * Q) * list extra).

  (** An updater that only uses the indicators, with weights that are not
      negative, and keeps the last solution. *)
  Definition good_up : Prop := forall m r, qinv m0 m -> sr_status r = Optimal -> sound_answer m r -> exists obj cs m', up (sr_vec r) = Ok (obj, cs) /\ add_constraints m cs = Ok m' /\ qinv m0 m' /\
    map fst obj = dkeys ind /\ (forall s w, In (s, w) obj -> (0 <= Q2R w)%R) /\ (oinv rf md m -> oinv rf md m') /\ feasible m' (vec (sr_vec r)) /\ exists m2, set_objective m' obj = Ok m2.
  Hypothesis UP : good_up.

  Lemma total_loop : forall rounds i m obj g calls, qinv m0 m -> oinv rf md m -> (exists x, feasible m x) -> map fst obj = dkeys ind -> (forall s w, In (s, w) obj -> (0 <= Q2R w)%R) -> (exists m2, set_objective m obj = Ok m2) ->
    qs_loop S up rf md n rounds i m obj = (g, calls) -> (forall m' r', In (m', r') calls -> exact_answer m' r') ->
    length (g_items g) = rounds /\ g_exn g = None /\ forall r, In r (g_items g) -> pr_status r = Success.
  Proof.
    induction rounds as [|rounds IH]; intros i m obj g calls QI OI (x0 & F0) KO WO (m1 & ES) E XA; cbn [qs_loop] in E; [injection E as <- <-; cbn; split; [auto|split; [auto|intros r []]]|].
    rewrite ES in E.
    assert (QI1 : qinv m0 m1). { destruct QI as (A & B & C). destruct (set_objective_feasible _ _ _ (fun _ => 0%R) ES) as (_ & B2 & B3 & _). split; [auto|]. split; [congruence|]. intros x Hx. apply C. apply (set_objective_feasible _ _ _ x ES). exact Hx. }
    assert (OI1 : oinv rf md m1) by (apply (oinv_objective rf md m0 ind LV KI m obj m1 OI (proj1 (proj2 QI)) ES); rewrite KO; [apply (keys_nodup rf md m0 ind KI)|auto]).
    cbv zeta in E. assert (EXA : exact_answer m1 (S i m1)).
    { apply XA. destruct (sr_status (S i m1)); try (injection E as <- <-; left; reflexivity). destruct (mk_subsystem _ _ _ _) in E; injection E as <- <-; left; reflexivity. }
    assert (EST : sr_status (S i m1) = Optimal).
    { apply (exact_optimal m1 _ EXA); [exists x0; apply (set_objective_feasible _ _ _ x0 ES); exact F0|]. exists 0%R. intros y Fy. rewrite (proj1 (proj2 OI1)). cbn [better].
      apply (oinv_nonneg rf md m0 ind LV KI m obj m1 y OI (proj1 (proj2 QI)) ES KO WO). intros s Hs. apply POS; [apply QI1; exact Fy|exact Hs]. }
    rewrite EST in E. assert (SA : sound_answer m1 (S i m1)). { intros _. unfold exact_answer in EXA. rewrite EST in EXA. destruct EXA as (A & (B & _) & _). auto. }
    destruct (SA EST) as (L & F). destruct (mk_subsystem_total rf (firstn n (sr_vec (S i m1))) md Hm) as (w & EW). { rewrite firstn_length, L, (proj1 (proj2 QI1)). fold N n. lia. }
    rewrite EW in E. destruct (UP m1 (S i m1) QI1 EST SA) as (obj2 & cs & m2 & EU & EA & QI2 & KO2 & WO2 & OI2 & FE & EO2).
    rewrite EU in E. cbn [bind] in E. rewrite EA in E. cbn [bind] in E. destruct (qs_loop S up rf md n rounds (Datatypes.S i) m2 obj2) as [g2 c2] eqn:E2. cbn [fst snd] in E. injection E as <- <-.
    assert (XA2 : forall m' r', In (m', r') c2 -> exact_answer m' r') by (intros m' r' HI; apply XA; right; exact HI).
    destruct (IH _ _ _ _ _ QI2 (OI2 OI1) (ex_intro _ _ FE) KO2 WO2 EO2 E2 XA2) as (R1 & R2 & R3).
    cbn [gcons g_items g_exn length]. split; [lia|]. split; [exact R2|]. intros r [<-|Hr]; [reflexivity|auto].
  Qed.

  Lemma objective_total : forall m obj, mi_vars m = mi_vars m0 -> map fst obj = dkeys ind -> exists m2, set_objective m obj = Ok m2.
  Proof.
    intros m obj V KO. unfold set_objective. destruct (assert_expression m obj) as [u|e] eqn:EE; [cbn [bind]; eauto|]. exfalso. unfold assert_expression, assert_ in EE.
    destruct (forallb _ obj) eqn:EF in EE; [discriminate|]. rewrite <- not_true_iff_false in EF. apply EF. apply forallb_forall. intros [s w] Hin. apply Nat.ltb_lt. cbn [fst].
    assert (In s (dkeys ind)) as K by (rewrite <- KO; change s with (fst (s, w)); apply in_map; exact Hin). rewrite KI in K. apply in_seq in K. rewrite V. fold N. lia.
  Qed.

  Lemma total_run : forall rounds obj g calls, mi_ok m0 -> oinv rf md m0 -> map fst obj = dkeys ind -> (forall s w, In (s, w) obj -> (0 <= w)%Q) ->
    qs_loop S up rf md n rounds 0 m0 obj = (g, calls) -> (forall m' r', In (m', r') calls -> exact_answer m' r') ->
    g_exn g = None /\ ((exists x, feasible m0 x) -> length (g_items g) = rounds /\ forall r, In r (g_items g) -> pr_status r = Success) /\
    ((forall x, ~ feasible m0 x) -> rounds <> 0 -> g_items g = [failure Infeasible]).
  Proof.
    intros it obj g calls OK OI KO WO E XA. assert (Q0 : qinv m0 m0) by (split; [exact OK|split; auto]).
    assert (WR : forall s w, In (s, w) obj -> (0 <= Q2R w)%R). { intros s w Hin. rewrite <- RMicromega.Q2R_0. apply Qle_Rle. eapply WO; eauto. }
    pose proof (objective_total m0 obj eq_refl KO) as ES.
    destruct (classic (exists x, feasible m0 x)) as [FX|NF].
    - destruct (total_loop it 0 m0 obj g calls Q0 OI FX KO WR ES E XA) as (R1 & R2 & R3). split; [exact R2|]. split; [auto|]. intros NO. destruct FX as (x & Fx). exfalso. apply (NO x Fx).
    - destruct ES as (m1 & ES). destruct it as [|it]; [cbn in E; injection E as <- <-; split; [reflexivity|]; split; [intros FX; contradiction|congruence]|].
      cbn [qs_loop] in E. rewrite ES in E. cbv zeta in E. assert (ST : sr_status (S 0 m1) = Infeasible).
      { assert (XA1 : exact_answer m1 (S 0 m1)). { apply XA. destruct (sr_status (S 0 m1)); try (injection E as <- <-; left; reflexivity). destruct (mk_subsystem _ _ _ _) in E; injection E as <- <-; left; reflexivity. }
        assert (NF1 : forall x, ~ feasible m1 x) by (intros x Fx; apply NF; exists x; apply (set_objective_feasible _ _ _ x ES); exact Fx).
        unfold exact_answer in XA1. destruct (sr_status (S 0 m1)); auto; try contradiction; exfalso.
        - destruct XA1 as (_ & (F & _) & _). apply (NF1 _ F).
        - destruct XA1 as ((x & F) & _). apply (NF1 _ F). }
      rewrite ST in E. injection E as <- <-. cbn [g_exn g_items]. split; [auto|]. split; [intros FX; contradiction|auto].
  Qed.
End Total.

Section Ups.
  Variable rf : rform.
  Variable md : mode.
  Variable m0 : milp.
  Variable ind : dict nat (list nat).
  Hypothesis LV : cert_dim rf md <= length (mi_vars m0).
  Hypothesis KI : dkeys ind = seq (cert_dim rf md) (length (mi_vars m0) - cert_dim rf md).

  Lemma good_fixed : good_up rf md m0 ind (fixed_zeros rf md ind).
  Proof.
    intros m r QI ST SA. destruct (fz_step rf md m0 ind LV KI m r QI ST SA) as (obj & cs & m' & A1 & A2 & A3 & A4 & A5 & A6 & A7 & A8). exists obj, cs, m'.
    do 6 (split; [assumption|]). split; [|exact A8]. apply A7. split; [apply (SA ST)|auto].
  Qed.

  Lemma good_inverse : good_up rf md m0 ind (inverse_result rf md ind).
  Proof.
    intros m r QI ST SA. destruct (SA ST) as (L & F). destruct QI as (OK & V & FI). rewrite V in L.
    destruct (C44_result_lemma rf md ind (sr_vec r)) as (obj & E & KO & HW). { intros s Hs. rewrite KI in Hs. apply in_seq in Hs. lia. }
    exists obj, [], m. split; [exact E|]. split; [reflexivity|]. split; [split; auto|]. split; [exact KO|]. split.
    { intros s w Hin. rewrite <- RMicromega.Q2R_0. apply Qle_Rle. apply Qlt_le_weak. apply (HW s w Hin). }
    split; [auto|]. split; [exact F|]. apply (objective_total rf md m0 ind LV KI m obj V KO).
  Qed.
End Ups.

(** ** A solution of the relaxed model from a point of the polytope *)
Lemma relaxed_solution : forall k ub gs ind (y : nat -> R), ind = combine (seq k (length gs)) gs -> (forall G v, In G gs -> In v G -> v < k) ->
  (forall v, v < k -> (0 <= y v)%R) -> (forall u, ub = Some u -> forall v, v < k -> exists q, nth_error u v = Some q /\ (y v <= Q2R q)%R) ->
  exists x : nat -> R, (forall v, v < k -> x v = y v) /\ forall sigma G, In (sigma, G) ind -> ind_sat DReal ub x sigma G.
Proof.
  intros k ub gs ind y EI HM H0 HU. exists (fun v => if v <? k then y v else match ub with Some _ => 1%R | None => sumn k y end). split.
  { intros v Hv. apply Nat.ltb_lt in Hv. rewrite Hv. auto. }
  intros sigma G Hin. rewrite EI in Hin. apply in_combine_seq in Hin. destruct Hin as (i & EG & ->). split.
  - destruct (Nat.ltb_spec (k + i) k); [lia|]. unfold sat_dom, ind_var. destruct ub as [u|]; cbn [above below]; rewrite RMicromega.Q2R_0; [rewrite RMicromega.Q2R_1; lra|]. split; [|exact I]. apply sumn_nonneg. exact H0.
  - intros v q Hv EK. pose proof (HM G v (nth_error_In _ _ EG) Hv) as Hk. apply ind_con_sat; [lia|]. destruct (Nat.ltb_spec (k + i) k); [lia|]. pose proof Hk as Hk'. apply Nat.ltb_lt in Hk'. rewrite Hk'.
    destruct ub as [u|]; cbn [k_of] in EK.
    + destruct (HU u eq_refl v Hk) as (q' & Eq & Hq). assert (q' = q) by congruence. subst q'. lra.
    + injection EK as <-. rewrite RMicromega.Q2R_1, Rmult_1_l. apply sumn_term_le; auto.
Qed.
