(** Models with indicators over any polytope given by inequalities. *)
From Coq Require Import String List Arith ZArith QArith Qreals Reals Bool Lia Lra Classical.
From Verif Require Import Base BaseFacts Num Matrix MatFacts InvDict SccSpec SpecMdp SpecEc SpecSystem SpecForm SpecBuilt SpecProb SpecSub SpecLp SpecMilp SumFacts RfTheory Amdp ReachForm ReachFormProofs RfFacts BuiltFacts RfBridge FarkReal Milp MilpProofs LpExists RfLpProofs Formulations MilpBuild GroupProofs MilpForm MilpMax MilpExact BinExists RewardForm RewProblems.
Import ListNotations.
Local Open Scope nat_scope.

Lemma ind_sat_bin0 : forall u x sigma G, (forall v, In v G -> v < length u /\ v <> sigma) ->
  (ind_sat DBinary (Some u) x sigma G <-> (x sigma = 0%R \/ x sigma = 1%R) /\ forall v, In v G -> (x v <= vec u v * x sigma)%R).
Proof.
  intros u x sigma G HG. unfold ind_sat. cbn [sat_dom k_of]. split; intros [A B]; (split; [exact A|]).
  - intros v Hv. destruct (HG v Hv) as [L N]. destruct (nth_error u v) as [q|] eqn:E; [|apply nth_error_None in E; lia].
    specialize (B v q Hv E). rewrite ind_con_sat in B by auto. unfold vec. rewrite (nth_error_nth _ _ _ E). exact B.
  - intros v k Hv E. destruct (HG v Hv) as [L N]. rewrite ind_con_sat by auto. specialize (B v Hv). unfold vec in B. rewrite (nth_error_nth _ _ _ E) in B. exact B.
Qed.

Section Build.
  Variable A : list (list Q).
  Variable k : nat.
  Variable b : list Q.
  Variable poly : (nat -> R) -> Prop.
  Hypothesis LB : length b = length A.
  Hypothesis HW : forall row, In row A -> length row = k.
  Hypothesis HR : forall x, (forall i, i < length A -> (rowR A k i x <= Q2R (nth i b 0%Q))%R) <-> poly x.
  Variables (rr : rrform) (md : mode).

  Definition gvb (ub : option (list Q)) (v : nat) (r : R) : Prop := (0 <= r)%R /\ match ub with Some u => below (nth_error u v) r | None => True end.

  Lemma gbounds : forall ub, (forall u, ub = Some u -> length u = k) -> exists bs, rr_variable_bounds rr md ub k = Ok bs /\ length bs = k /\
    forall v r, v < k -> (sat_dom DReal (fst (nth v bs (None, None))) (snd (nth v bs (None, None))) r <-> gvb ub v r).
  Proof.
    intros ub HU. unfold rr_variable_bounds.
    set (g := fun v => let ec := match md with Min => rr_in_proper_ec rr v | _ => false end in
      let* u := if ec then Ok (Some 0%Q) else match ub with Some u => let* q := of_opt IndexError (nth_error u v) in Ok (Some q) | None => Ok None end in Ok (Some 0%Q, u)).
    assert (T : forall v, In v (seq 0 k) -> exists p, g v = Ok p /\ forall r, sat_dom DReal (fst p) (snd p) r <-> gvb ub v r).
    { intros v Hv. apply in_seq in Hv. unfold g. replace (match md with Min => rr_in_proper_ec rr v | _ => false end) with false by (destruct md; reflexivity). cbn zeta match. destruct ub as [u|].
      - specialize (HU u eq_refl). destruct (nth_error u v) as [q|] eqn:Eq; [|apply nth_error_None in Eq; lia]. cbn [of_opt bind]. eexists. split; [reflexivity|].
        intros r. cbn [fst snd sat_dom above]. rewrite RMicromega.Q2R_0. unfold gvb. rewrite Eq. tauto.
      - cbn [bind]. eexists. split; [reflexivity|]. intros r. cbn [fst snd sat_dom above below]. rewrite RMicromega.Q2R_0. unfold gvb. tauto. }
    destruct (mapM_total _ _ g (seq 0 k)) as (bs & Eb). { intros v Hv. destruct (T v Hv) as (p & Ep & _). eauto. }
    exists bs. split; [exact Eb|]. destruct (mapM_seq _ g k 0 bs Eb) as (L & HN). split; [exact L|].
    intros v r Hv. destruct (T v ltac:(apply in_seq; lia)) as (p & Ep & Hp). specialize (HN v (None, None) Hv). cbn [Nat.add] in HN.
    rewrite Ep in HN. injection HN as <-. apply Hp.
  Qed.

  Definition gspec (relaxed : bool) (ub : option (list Q)) (gs : list (list nat)) (mm : milp) (ind : dict nat (list nat)) : Prop :=
    ind = combine (seq k (length gs)) gs /\ length (mi_vars mm) = k + length gs /\ mi_dir mm = Minimise /\ exprs_ok mm /\ mi_ok mm /\ (forall G v, In G gs -> In v G -> v < k + length gs /\ k_of ub v <> None) /\
    (forall x, objective mm x = lsum (map fst ind) x) /\
    forall x, feasible mm x <-> poly x /\ (forall v, v < k -> gvb ub v (x v)) /\
      forall sigma G, In (sigma, G) ind -> ind_sat (if relaxed then DReal else DBinary) ub x sigma G.

  Lemma gbase : forall ub, (forall u, ub = Some u -> length u = k) ->
    exists bs mm, rr_variable_bounds rr md ub k = Ok bs /\
      from_coefficients A k b (repeat 0%Q k) (repeat DReal k) SLe Minimise (Some bs) = Ok mm /\
      mi_ok mm /\ exprs_ok mm /\ length (mi_vars mm) = k /\ mi_dir mm = Minimise /\
      mi_obj mm = Some (map (fun j => (j, nth j (repeat 0%Q k) 0%Q)) (seq 0 k)) /\
      forall x, feasible mm x <-> poly x /\ forall v, v < k -> gvb ub v (x v).
  Proof.
    intros ub HU. destruct (gbounds ub HU) as (bs & Eb & Lb & Hb).
    destruct (from_coefficients_spec A k b (repeat 0%Q k) (repeat DReal k) SLe Minimise (Some bs)) as (mm & Em & OK & LV & D & O & F).
    - discriminate.
    - discriminate.
    - intros row Hr. rewrite (HW row Hr). auto.
    - lia.
    - rewrite repeat_length. auto.
    - rewrite repeat_length. auto.
    - intros bs' E. injection E as <-. lia.
    - intros j Hj. rewrite (nth_indep _ _ DReal) by (rewrite repeat_length; auto). rewrite nth_repeat. discriminate.
    - exists bs, mm. do 2 (split; [assumption|]). split; [exact OK|]. split; [apply (from_coefficients_exprs _ _ _ _ _ _ _ _ _ Em)|].
      split; [exact LV|]. split; [exact D|]. split; [exact O|]. intros x. rewrite F, <- HR. cbn [bound_at].
      assert (EB : (forall j, j < k -> sat_dom (nth j (repeat DReal k) OtherDomain) (fst (nth j bs (None, None))) (snd (nth j bs (None, None))) (x j)) <-> (forall v, v < k -> gvb ub v (x v))).
      { split; intros H v Hv; specialize (H v Hv); rewrite (nth_indep _ _ DReal) in * by (rewrite repeat_length; auto); rewrite nth_repeat in *; apply (Hb v (x v) Hv); auto. }
      rewrite EB. unfold rowR. cbn [SpecLp.rel]. tauto.
  Qed.

  Lemma gfinish : forall (relaxed : bool) ub gs m0 m1 ind m2, mi_ok m0 -> exprs_ok m0 -> length (mi_vars m0) = k -> mi_dir m0 = Minimise ->
    mi_obj m0 = Some (map (fun j => (j, nth j (repeat 0%Q k) 0%Q)) (seq 0 k)) ->
    (forall x, feasible m0 x <-> poly x /\ forall v, v < k -> gvb ub v (x v)) ->
    add_indicator_constraints m0 ub gs (if relaxed then DReal else DBinary) = Ok (m1, ind) -> set_objective m1 (all_ones ind) = Ok m2 ->
    gspec relaxed ub gs m2 ind.
  Proof.
    intros relaxed ub gs m0 m1 ind m2 OK EO LV D O F EI ES. unfold add_indicator_constraints in EI.
    destruct (indicators_inv _ _ _ _ _ _ _ OK EO (fun s (H : In s (dkeys (V := list nat) [])) => match H return _ with end) EI) as (A1 & A2 & A3 & A4 & A5 & A6 & A7 & A8).
    rewrite LV in *. cbn [app] in A6. destruct (set_objective_exprs _ _ _ A2 ES) as (B1 & B2). destruct (set_objective_inv _ _ _ ES) as (_ & _ & B3).
    assert (ED : mi_dir m2 = mi_dir m1 /\ mi_constrs m2 = mi_constrs m1 /\ mi_count m2 = mi_count m1).
    { unfold set_objective in ES. apply bind_ok in ES. destruct ES as (u & _ & ES). injection ES as <-. auto. }
    destruct ED as (ED & EC & EN).
    assert (FX : map fst ind = seq k (length gs)) by (rewrite A6; apply combine_fst; rewrite seq_length; auto).
    unfold gspec. split; [exact A6|]. split; [rewrite B2; exact A5|]. split; [congruence|]. split; [exact B1|]. split; [split; rewrite ?EC, ?EN; apply A1|]. split.
    { intros G v HG Hv. specialize (A7 G v HG Hv). rewrite A5 in A7. exact A7. } split.
    - intros x. unfold objective. rewrite B3, A3, O. rewrite lin_fold_fresh.
      + rewrite zero_obj, lin_all_ones. lra.
      + rewrite all_ones_fst, FX. apply seq_NoDup.
      + intros v. rewrite all_ones_fst, FX. intros Hv HI. unfold dkeys in HI. rewrite map_map in HI. cbn [fst] in HI. rewrite map_id in HI. apply in_seq in Hv, HI. lia.
    - intros x. rewrite A6. unfold feasible at 1. rewrite B2, EC. change (feasible m1 x <-> poly x /\ (forall v, v < k -> gvb ub v (x v)) /\
        (forall sigma G, In (sigma, G) (combine (seq k (length gs)) gs) -> ind_sat (if relaxed then DReal else DBinary) ub x sigma G)). rewrite A8, F. tauto.
  Qed.

  (** The rest of the construction, after the groups. *)
  Definition gcons (ub : option (list Q)) (gs : list (list nat)) (relaxed : bool) : res (milp * dict nat (list nat)) :=
    let* bounds := rr_variable_bounds rr md ub k in
    let* m := from_coefficients A k b (repeat 0%Q k) (repeat DReal k) SLe Minimise (Some bounds) in
    let* (m, ind) := add_indicator_constraints m ub gs (if relaxed then DReal else DBinary) in
    let* m := set_objective m (all_ones ind) in
    Ok (m, ind).

  Lemma gcons_inv : forall ub gs relaxed mm ind, (forall u, ub = Some u -> length u = k) -> gcons ub gs relaxed = Ok (mm, ind) -> gspec relaxed ub gs mm ind.
  Proof.
    intros ub gs relaxed mm ind HU H. unfold gcons in H. apply bind_ok in H. destruct H as (bs & Eb & H).
    apply bind_ok in H. destruct H as (m0 & E0 & H). apply bind_ok in H. destruct H as ((m1 & ind1) & E1 & H). apply bind_ok in H. destruct H as (m2 & E2 & H). injection H as <- <-.
    destruct (gbase ub HU) as (bs' & m0' & Eb' & E0' & X1 & X2 & X3 & X4 & X5 & X6). rewrite Eb in Eb'. injection Eb' as <-. rewrite E0 in E0'. injection E0' as <-. eapply gfinish; eauto.
  Qed.

  Lemma gcons_total : forall ub gs relaxed, (forall u, ub = Some u -> length u = k) -> (forall G v, In G gs -> In v G -> v < k) -> exists mm ind, gcons ub gs relaxed = Ok (mm, ind).
  Proof.
    intros ub gs relaxed HU HM. unfold gcons. destruct (gbase ub HU) as (bs & m0 & Eb & E0 & X1 & X2 & X3 & X4 & X5 & X6). rewrite Eb. cbn [bind]. rewrite E0. cbn [bind].
    set (dom := if relaxed then DReal else DBinary). assert (ND : dom <> OtherDomain) by (destruct relaxed; discriminate).
    destruct (indicators_total dom ub gs m0 [] ND X1 X2 ltac:(intros s []) ) as (m1 & ind & E1).
    { intros G v HGi Hv. pose proof (HM G v HGi Hv). rewrite X3. split; [auto|]. unfold k_of. destruct ub as [u|]; [|discriminate]. apply nth_error_Some. rewrite (HU u eq_refl). auto. }
    assert (E1' : add_indicator_constraints m0 ub gs dom = Ok (m1, ind)) by exact E1. rewrite E1'. cbn [bind].
    destruct (indicators_inv _ _ _ _ _ _ _ X1 X2 (fun s (H : In s (dkeys (V := list nat) [])) => match H return _ with end) E1) as (A1 & A2 & A3 & A4 & A5 & A6 & A7 & A8).
    assert (EO : exists m2, set_objective m1 (all_ones ind) = Ok m2).
    { unfold set_objective, assert_expression. replace (forallb _ _) with true; [cbn; eauto|]. symmetry. apply forallb_forall. intros [v q] Hin. cbn [fst]. apply Nat.ltb_lt.
      unfold all_ones in Hin. apply in_map_iff in Hin. destruct Hin as ([s G] & Eq & Hin). cbn [fst] in Eq. injection Eq as <- <-. rewrite A6 in Hin. cbn [app] in Hin.
      apply in_combine_seq in Hin. destruct Hin as (i & EGi & ->). assert (i < length gs) by (apply nth_error_Some; congruence). lia. }
    destruct EO as (m2 & ->). cbn [bind]. eauto.
  Qed.

  Lemma gcons_bin : forall ub gs relaxed mm ind, gcons ub gs relaxed = Ok (mm, ind) -> bin_wf mm /\ (relaxed = true -> lp_wf mm).
  Proof.
    intros ub gs relaxed mm ind H. unfold gcons in H. apply bind_ok in H. destruct H as (bs & Eb & H).
    apply bind_ok in H. destruct H as (m0 & E0 & H). apply bind_ok in H. destruct H as ((m1 & ind1) & E1 & H). apply bind_ok in H. destruct H as (m2 & E2 & H). injection H as <- <-.
    destruct (from_coefficients_exprs _ _ _ _ _ _ _ _ _ E0) as (X & RV). assert (RV' : real_vars m0). { apply RV. intros j d Hd. apply nth_error_In in Hd. apply repeat_spec in Hd. auto. }
    assert (W0 : bin_wf m0). { split; [exact X|]. intros v Hv Hb. rewrite (RV' v Hv) in Hb. discriminate. }
    destruct (indicators_bin relaxed ub gs m0 [] m1 ind1 W0 E1) as (W1 & R1). destruct (set_objective_exprs _ _ _ (proj1 W1) E2) as (X2 & V2). split.
    - split; [exact X2|]. rewrite V2. apply W1.
    - intros Hr. apply lp_wf_iff. split; [exact X2|]. unfold real_vars. rewrite V2. apply R1; auto.
  Qed.

  (** With bounds and binary indicators. *)
  Lemma gpoint : forall u gs mm ind, length u = k -> (forall G v, In G gs -> In v G -> v < k) -> gspec false (Some u) gs mm ind -> forall x,
    (feasible mm x <-> (poly x /\ forall v, v < k -> (0 <= x v <= vec u v)%R) /\
      forall sigma G, In (sigma, G) (combine (seq k (length gs)) gs) -> (x sigma = 0%R \/ x sigma = 1%R) /\ forall v, In v G -> (0 < x v)%R -> x sigma = 1%R).
  Proof.
    intros u gs mm ind L HM (EI & _ & _ & _ & _ & _ & _ & F) x. rewrite F, EI. clear F. cbn match.
    assert (MB : forall sigma G, In (sigma, G) (combine (seq k (length gs)) gs) -> forall v, In v G -> v < length u /\ v <> sigma).
    { intros sigma G Hin v Hv. apply in_combine_seq in Hin. destruct Hin as (i & EG & ->). specialize (HM G v (nth_error_In _ _ EG) Hv). lia. }
    assert (EV : (forall v, v < k -> gvb (Some u) v (x v)) <-> (forall v, v < k -> (0 <= x v <= vec u v)%R)).
    { assert (E1 : forall v, v < k -> (gvb (Some u) v (x v) <-> (0 <= x v <= vec u v)%R)).
      { intros v Hv. unfold gvb. destruct (nth_error u v) as [q|] eqn:E; [|apply nth_error_None in E; lia]. unfold vec. rewrite (nth_error_nth _ _ _ E). cbn [below]. tauto. }
      split; intros H v Hv; apply (E1 v Hv); auto. }
    rewrite EV. split; [intros (H1 & H2 & H3); split; [split; auto|]|intros ((H1 & H2) & H3); split; [auto|split; [auto|]]]; intros sigma G Hin; specialize (H3 sigma G Hin); pose proof (MB sigma G Hin) as HG.
    - rewrite ind_sat_bin0 in H3 by exact HG. destruct H3 as (B & C). split; [exact B|]. intros v Hv Hp. specialize (C v Hv). destruct B as [E|E]; [rewrite E in C; exfalso; lra|exact E].
    - rewrite ind_sat_bin0 by exact HG. destruct H3 as (B & C). split; [exact B|]. intros v Hv. destruct (HG v Hv) as [Lv _]. destruct (H2 v ltac:(lia)) as (X0 & X1).
      destruct (Rle_lt_or_eq_dec _ _ X0) as [Hp|E0]; [rewrite (C v Hv Hp); lra|]. destruct B as [E|E]; rewrite E; lra.
  Qed.

  Lemma gones : forall u gs mm ind, length u = k -> (forall G v, In G gs -> In v G -> v < k) -> gspec false (Some u) gs mm ind -> forall x, feasible mm x -> objective mm x = INR (ones (seq k (length gs)) x).
  Proof.
    intros u gs mm ind L HM GS x F. pose proof GS as (EI & _ & _ & _ & _ & _ & OB & _). assert (FX : map fst ind = seq k (length gs)) by (rewrite EI; apply combine_fst; rewrite seq_length; auto).
    rewrite OB, FX. apply ones_sum. rewrite <- FX. intros j Hj. apply in_map_iff in Hj. destruct Hj as ([s G] & <- & Hin). rewrite EI in Hin.
    apply (gpoint u gs mm ind L HM GS) in F. apply (proj2 F _ _ Hin).
  Qed.

  (** ** The LP of the bounds *)
  Definition gpt (x : nat -> R) : Prop := poly x /\ forall v, v < k -> (0 <= x v)%R.

  Lemma gbound_lp : exists lp, upper_bound_lp A k b = Ok lp /\ lp_wf lp /\ length (mi_vars lp) = k /\
    mi_dir lp = Maximise /\ (forall x, objective lp x = sumn k x) /\ forall x, feasible lp x <-> gpt x.
  Proof.
    unfold upper_bound_lp. destruct (lp_spec A k b (repeat 1%Q k) SLe Maximise) as (m0 & E0 & OK0 & VL0 & D0 & O0 & F0);
      [discriminate|discriminate|intros row Hr; rewrite (HW row Hr); auto|lia|rewrite repeat_length; auto|].
    pose proof (lp_from_coefficients_wf _ _ _ _ _ _ _ E0) as W0.
    destruct (add_constraints_spec (map (fun j => ([(j, 1%Q)], SGe, 0%Q)) (seq 0 k)) m0 OK0) as (lp & E1 & OK1 & VL1 & O1 & D1 & F1).
    { intros cc H. apply in_map_iff in H. destruct H as (s & <- & Hs). apply in_seq in Hs. split; [discriminate|]. split; [|constructor; [intros []|constructor]].
      intros v r [Ev|[]]. inversion Ev; subst. lia. }
    exists lp. rewrite E0. cbn [bind]. split; [exact E1|]. split; [eapply add_constraints_wf; eauto|]. split; [congruence|]. split; [congruence|]. split.
    { intros x. rewrite (objective_spec lp (fun j => nth j (repeat 1%Q k) 0%Q) k x); [apply sumn_ones; auto|]. rewrite O1. exact O0. }
    intros x. rewrite F1, F0. unfold gpt. rewrite <- HR. unfold rowR. cbn [SpecLp.rel]. split.
    - intros (A1 & A2). split; [exact A1|]. intros i Hic. specialize (A2 [(i, 1%Q)] SGe 0%Q (in_map _ _ _ (proj2 (in_seq k 0 i) ltac:(lia)))). cbn [SpecLp.rel] in A2. rewrite lin_one, RMicromega.Q2R_0 in A2. lra.
    - intros (A1 & A2). split; [exact A1|]. intros l s1 q H. apply in_map_iff in H. destruct H as (s & Eq & Hs). apply in_seq in Hs. inversion Eq; subst. cbn [SpecLp.rel]. rewrite lin_one, RMicromega.Q2R_0.
      specialize (A2 s ltac:(lia)). lra.
  Qed.

  Hypothesis BND : exists B, forall x, gpt x -> (sumn k x <= B)%R.
  Hypothesis JOIN : k + 1 = length A -> forall x y, gpt x -> gpt y -> gpt (fun i => Rmax (x i) (y i)).

  Lemma gbounds_ok : exists lp, upper_bound_lp A k b = Ok lp /\ (exists r, exact_answer lp r) /\
    forall S, exact_answer lp (S lp) ->
      ((forall x, ~ gpt x) /\ exists u, compute_upper_bounds S A k b = Ok (Infeasible, u)) \/
      ((exists x, gpt x) /\ exists u, compute_upper_bounds S A k b = Ok (Optimal, u) /\ length u = k /\
        forall x, gpt x -> forall i, i < k -> (x i <= vec u i)%R).
  Proof.
    destruct gbound_lp as (lp & EL & WF & VL & D & O & F). exists lp. split; [exact EL|]. split; [apply lp_answer_exists; auto|].
    intros S HS. unfold compute_upper_bounds. rewrite EL. cbn [bind].
    destruct (classic (exists x, gpt x)) as [FX|FX].
    - right. split; [exact FX|]. destruct BND as (B & HB).
      assert (OS : sr_status (S lp) = Optimal).
      { apply (exact_optimal lp (S lp) HS); [destruct FX as (x & Hx); exists x; apply F; auto|]. exists B. intros x Hx. rewrite D, O. simpl. apply HB. apply F. auto. }
      rewrite OS. cbn [assert_ bind]. eexists. split; [reflexivity|]. unfold exact_answer in HS. rewrite OS in HS. destruct HS as (LV & (FO & OO) & VO).
      destruct (Nat.eqb_spec (k + 1) (length A)) as [E|E].
      + split; [congruence|]. intros x Hx i Hic. apply F in FO. pose proof (JOIN E x _ Hx FO) as HJ. apply F in HJ. specialize (OO _ HJ). rewrite D, !O in OO. simpl in OO.
        assert (EQ : vec (sr_vec (S lp)) i = Rmax (x i) (vec (sr_vec (S lp)) i)).
        { apply (sumn_eq_pointwise k (vec (sr_vec (S lp))) (fun i => Rmax (x i) (vec (sr_vec (S lp)) i))); auto. intros j _. apply Rmax_r. }
        rewrite EQ. apply Rmax_l.
      + split; [apply repeat_length|]. intros x Hx i Hic. unfold vec. rewrite (nth_indep _ 0%Q (sr_val (S lp))) by (rewrite repeat_length; auto). rewrite nth_repeat, VO, O.
        apply F in Hx. specialize (OO _ Hx). rewrite D, !O in OO. simpl in OO. eapply Rle_trans; [|exact OO]. apply sumn_term_le; auto. apply F in Hx. apply Hx.
    - left. split; [intros x Hx; apply FX; eauto|]. unfold exact_answer in HS. destruct (sr_status (S lp)) eqn:ES; try contradiction.
      + exfalso. apply FX. exists (vec (sr_vec (S lp))). apply F. apply HS.
      + cbn. eauto.
      + exfalso. destruct HS as ((x & Hx) & _). apply FX. exists x. apply F. auto.
  Qed.
End Build.
