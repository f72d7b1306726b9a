(** Subsystems from answers within a tolerance. *)
From Coq Require Import String List Arith ZArith QArith Qreals Reals Bool Lia Lra.
From Verif Require Import Base BaseFacts Num Matrix MatFacts InvDict SccSpec SpecMdp SpecEc SpecSystem SpecForm SpecBuilt SpecProb SpecSub SpecLp SpecMilp SpecSlack SumFacts MdpValue RfTheory SubTheory SlackTheory
  Amdp ReachForm ReachFormProofs RfFacts BuiltFacts RfBridge FarkReal Milp MilpProofs LpExists RfLpProofs Subsystem Formulations MilpBuild GroupProofs MilpForm MilpExact MilpMin Problems QsProofs MilpFinal SlackProofs.
Import ListNotations.
Local Open Scope nat_scope.

Section Loop.
  Variable rf : rform.
  Variable md : mode.
  Variable m0 : milp.
  Variable S : nat -> solver.
  Variable up : list Q -> res (list (nat * Q) * list extra).
  Variable n : nat.

  Definition kinv (m : milp) : Prop := mi_ok m /\ keeps m0 m /\ mi_vars m = mi_vars m0.

  Lemma add_constraints_kinv : forall cs m m', kinv m -> add_constraints m cs = Ok m' -> kinv m'.
  Proof.
    induction cs as [|[[l s] r] cs IH]; intros m m' K H; cbn [add_constraints foldM] in H; [injection H as <-; exact K|].
    apply bind_ok in H. destruct H as (m1 & E & H). apply bind_ok in E. destruct E as ((m2 & i) & E & E'). injection E' as <-.
    apply (IH m2 m'); [|exact H]. destruct K as (K1 & K2 & K3). destruct (add_constraint_has _ _ _ _ _ _ K1 E) as (A1 & _ & A3 & A4).
    split; [exact A3|]. split; [eapply keeps_trans; eauto|congruence].
  Qed.

  Lemma loop_items : forall rounds i m obj g calls, kinv m -> qs_loop S up rf md n rounds i m obj = (g, calls) ->
    forall r, In r (g_items g) -> pr_status r = Success -> exists m' r' sub, In (m', r') calls /\ sr_status r' = Optimal /\ kinv m' /\
      mk_subsystem rf (firstn n (sr_vec r')) md false = Ok sub /\
      r = MkPRes Success (Some sub) (Some (inject_Z (Z.of_nat (npos n (sr_vec r'))))) (Some (firstn n (sr_vec r'))).
  Proof.
    induction rounds as [|rounds IH]; intros i m obj g calls QI E r Hr HS; cbn [qs_loop] in E.
    - injection E as <- <-. destruct Hr.
    - destruct (set_objective m obj) as [m1|e] eqn:ES; [|injection E as <- <-; destruct Hr].
      assert (QI1 : kinv m1). { destruct (set_objective_keeps _ _ _ ES) as (A & B). destruct QI as (Q1 & Q2 & Q3). split; [auto|]. split; [eapply keeps_trans; eauto|].
        unfold set_objective in ES. apply bind_ok in ES. destruct ES as (u & _ & ES). injection ES as <-. exact Q3. }
      cbv zeta in E. destruct (sr_status (S i m1)) eqn:EST; try (injection E as <- <-; destruct Hr as [<-|[]]; discriminate HS).
      destruct (mk_subsystem rf (firstn n (sr_vec (S i m1))) md false) as [w|e] eqn:EW; [|injection E as <- <-; destruct Hr].
      injection E as <- <-. cbn [gcons g_items] in Hr. destruct Hr as [<-|Hr].
      + exists m1, (S i m1), w. split; [left; auto|]. split; [exact EST|]. split; [exact QI1|]. split; [exact EW|reflexivity].
      + destruct (let* (obj, cs) := up (sr_vec (S i m1)) in let* m := add_constraints m1 cs in Ok (obj, m)) as [(obj2 & m2)|e] eqn:EU; [|destruct Hr].
        apply bind_ok in EU. destruct EU as ((obj3 & cs) & _ & EU). apply bind_ok in EU. destruct EU as (m3 & EA & EU). injection EU as -> ->.
        pose proof (add_constraints_kinv _ _ _ QI1 EA) as QI2.
        destruct (qs_loop S up rf md n rounds (Datatypes.S i) m2 obj2) as [g2 c2] eqn:E2. destruct (IH _ _ _ _ _ QI2 E2 r Hr HS) as (m' & r' & sub & X1 & X2).
        exists m', r', sub. split; [right; exact X1|exact X2].
  Qed.
End Loop.

Lemma pos_false : forall q, positive q = false -> (Q2R q <= 0)%R.
Proof. intros q H. unfold positive in H. apply negb_false_iff in H. apply Qle_bool_iff in H. apply Qle_Rle in H. rewrite RMicromega.Q2R_0 in H. exact H. Qed.

Section Pt.
  Variable rf : rform.
  Hypothesis BF : built_form rf.
  Hypothesis Hi : rf_init rf < a_N (rf_sys rf) - 2.
  Hypothesis EX : exact_rows (a_P (rf_sys rf)).
  Let P := a_P (rf_sys rf).
  Let inv := a_inv (rf_sys rf).
  Let init := rf_init rf.
  Let n := rf_N rf.
  Let c := rf_C rf.
  Let M := form_mdp rf.
  Let SH : shape_mdp M := proj1 (br_rf rf BF EX).

  Lemma within_rows : forall md t ub dom ind mm eps x, md <> OtherMode -> con_has rf md t ub dom ind mm -> feasible_within eps mm x ->
    (forall v, v < cert_dim rf md -> (- eps <= x v)%R /\ (md = Min -> in_some_ec P inv v -> (x v <= eps)%R)) /\
    match md with
    | Max => (forall s, s < n -> (balance M x s <= (if s =? init then 1 else 0) + eps)%R) /\ (Q2R t - eps <= to_goal M x)%R
    | _ => (forall r, r < c -> (x (src M r) <= onestep M r x + eps)%R) /\ (Q2R t - eps <= x init)%R
    end.
  Proof.
    intros md t ub dom ind mm eps x Hm (A & b & EA & H1 & H2 & _) (F1 & F2). split.
    - intros v Hv. destruct (H2 v Hv) as (u & Hu & HE). destruct (F1 _ _ Hu) as (B1 & B2 & _). cbn [v_lb v_ub above] in B1, B2. rewrite RMicromega.Q2R_0 in B1. split; [lra|].
      intros E1 E2. rewrite (HE E1 E2) in B2. cbn [below] in B2. rewrite RMicromega.Q2R_0 in B2. lra.
    - assert (RW : forall i, i < length A -> (rowR A (cert_dim rf md) i x <= Q2R (nth i b 0%Q) + eps)%R).
      { intros i Hil. destruct (H1 i Hil) as (k & (kk & Hk) & Es & Er & El). specialize (F2 _ _ Hk). rewrite Es, Er, El in F2. exact F2. }
      destruct md; [| |congruence]; cbn [fark_constraints] in EA.
      + destruct (fark_z_real rf BF t Hi) as (A' & b' & E & LA & LB & HW & R1 & B1 & R2 & B2). rewrite EA in E. injection E as <- <-. change (cert_dim rf Min) with n in RW. split.
        * intros r Hr. specialize (RW r ltac:(unfold c in *; lia)). unfold n in RW. rewrite R1, B1 in RW by auto. unfold onestep. change (nS M - 2) with n. change (goal M) with n. fold M n in RW. lra.
        * specialize (RW c ltac:(unfold c in *; lia)). unfold n, c in RW. rewrite R2, B2 in RW. fold init in RW. lra.
      + destruct (fark_y_real rf BF t ltac:(unfold rf_N; lia)) as (A' & b' & E & LA & LB & HW & R1 & B1 & R2 & B2). rewrite EA in E. injection E as <- <-. change (cert_dim rf Max) with c in RW. split.
        * intros s Hs. specialize (RW s ltac:(unfold n in *; lia)). unfold c in RW. rewrite R1, B1 in RW by auto. exact RW.
        * specialize (RW n ltac:(unfold n in *; lia)). unfold n, c in RW. rewrite R2, B2 in RW. fold M in RW. lra.
  Qed.

  Lemma chosen_min : forall cert s, chosen (rf_sys rf) Min cert s = false -> (vec cert s <= 0)%R.
  Proof. intros cert s H. cbn [chosen] in H. apply pos_false in H. exact H. Qed.
  Lemma chosen_max : forall cert r, r < c -> chosen (rf_sys rf) Max cert (src M r) = false -> (vec cert r <= 0)%R.
  Proof.
    intros cert r Hr H. cbn [chosen] in H. destruct (br_row rf BF r Hr) as (a & E & _).
    assert (B : belongs inv r (src M r) = true). { unfold belongs. change (inv r) with (a_inv (rf_sys rf) r). rewrite E. apply Nat.eqb_refl. }
    destruct (positive (entry cert r)) eqn:EP; [|apply pos_false in EP; exact EP]. exfalso.
    assert (X : existsb (fun i => belongs (a_inv (rf_sys rf)) i (src M r) && positive (entry cert i)) (seq 0 (a_C (rf_sys rf) - 2)) = true).
    { apply existsb_exists. exists r. split; [apply in_seq; unfold c, rf_C in Hr; lia|]. change (a_inv (rf_sys rf)) with inv. rewrite B, EP. reflexivity. }
    rewrite X in H. discriminate.
  Qed.

  Lemma slack_witness : exists K, (0 <= K)%R /\ forall md t ub dom ind mm eps v, (0 <= eps)%R -> md <> OtherMode -> con_has rf md t ub dom ind mm -> feasible_within eps mm (vec v) ->
    witness_within rf md t (K * eps) (chosen (rf_sys rf) md (firstn (cert_dim rf md) v)).
  Proof.
    destruct (z_slack M SH) as (K & K0 & HK). change (nS M - 2) with n in HK. change (nA M - 2) with c in HK.
    assert (N0 : (0 <= INR n * (1 + INR c))%R) by (apply Rmult_le_pos; [apply pos_INR|pose proof (pos_INR c); lra]).
    exists (K + INR n * (1 + INR c) + 1)%R. split; [lra|]. intros md t ub dom ind mm eps v He Hm CH F. destruct (within_rows _ _ _ _ _ _ _ _ Hm CH F) as (B & C).
    assert (Ke : (0 <= K * eps)%R) by (apply Rmult_le_pos; auto). assert (Ne : (0 <= INR n * (1 + INR c) * eps)%R) by (apply Rmult_le_pos; auto).
    set (cert := firstn (cert_dim rf md) v) in *. unfold witness_within. fold M. set (R := restrict M (chosen (rf_sys rf) md cert)).
    assert (Hs : rf_init rf < nS R) by (change (nS R) with (a_N (rf_sys rf)); lia).
    set (WR := RFW R (R_shape _ SH (chosen (rf_sys rf) md cert))).
    destruct md; [| |congruence].
    - exists (Vmin R WR (is_goal R) (rf_init rf)). split; [apply PrMin_Vmin; exact Hs|]. destruct C as (C1 & C2).
      specialize (HK (chosen (rf_sys rf) Min cert) (vec v) eps He C1). specialize (HK (fun s Hs' HE => proj2 (B s Hs') eq_refl (proj2 (br_ec rf BF EX s) HE))).
      assert (X : (vec v init <= Vmin R WR (is_goal R) (rf_init rf) + K * eps)%R).
      { apply HK; [|exact Hi]. intros s Hsn Kf. apply chosen_min in Kf. unfold cert in Kf. rewrite firstn_vec in Kf by exact Hsn. exact Kf. }
      lra.
    - exists (Vmax R WR (is_goal R) (rf_init rf)). split; [apply PrMax_Vmax; exact Hs|]. destruct C as (C1 & C2).
      assert (X : (to_goal M (vec v) <= Vmax R WR (is_goal R) (rf_init rf) + INR n * (1 + INR c) * eps)%R).
      { apply (y_slack M SH init (chosen (rf_sys rf) Max cert) (vec v) eps He Hi); [intros r Hr; apply (B r Hr)|exact C1|].
        intros r Hr Kf. apply chosen_max in Kf; [|exact Hr]. unfold cert in Kf. rewrite firstn_vec in Kf by exact Hr. exact Kf. }
      lra.
  Qed.

  Lemma sized_bounds : forall SB t md, sized SB -> forall u, (exists A b, fark_constraints rf t md = Ok (A, b) /\ choose_bounds SB rf A (cert_dim rf md) b md None = Ok (Some (Some u))) -> length u = cert_dim rf md.
  Proof.
    intros SB t md HS u (A & b & EA & EC). destruct md; [cbn in EC; injection EC as <-; apply repeat_length| |discriminate].
    cbn [choose_bounds] in EC. destruct (is_ec_free rf); [|injection EC; discriminate]. apply bind_ok in EC. destruct EC as ((st & u') & EU & EC).
    destruct st; injection EC as EC; try discriminate. subst u'. apply (bounds_length rf BF Hi SB t A b u); auto.
  Qed.
End Pt.

(** C101 *)
Lemma C101_lemma : forall rf, built_form rf -> exact_rows (a_P (rf_sys rf)) -> rf_init rf < a_N (rf_sys rf) - 2 -> exists K, (0 <= K)%R /\
  forall eps SB t md labels, (0 <= eps)%R -> sized SB ->
  (forall S, (forall mm ind, construct_milp SB rf t md labels false None = Ok (Some (mm, ind)) -> answer_within eps mm (S mm)) ->
     forall r, In r (g_items (milp_exact SB S rf t md labels)) -> pr_status r = Success ->
     exists sub v cert, r = MkPRes Success (Some sub) (Some v) (Some cert) /\ mk_subsystem rf cert md false = Ok sub /\
       witness_within rf md t (K * eps) (chosen (rf_sys rf) md cert)) /\
  (forall S iterations ini up g calls, qs_run SB S iterations ini up rf t md labels = (g, calls) -> (forall m r, In (m, r) calls -> answer_within eps m r) ->
     forall r, In r (g_items g) -> pr_status r = Success ->
     exists sub v cert, r = MkPRes Success (Some sub) (Some v) (Some cert) /\ mk_subsystem rf cert md false = Ok sub /\
       witness_within rf md t (K * eps) (chosen (rf_sys rf) md cert)).
Proof.
  intros rf BF EX Hi. destruct (slack_witness rf BF Hi EX) as (K & K0 & HK). exists K. split; [exact K0|]. intros eps SB t md labels He HS. split.
  - intros S HA r Hr Hsu. unfold milp_exact in Hr. destruct (construct_milp SB rf t md labels false None) as [[(mm & ind)|]|e] eqn:EC; cbn [bind] in Hr.
    2:{ destruct Hr as [<-|[]]; discriminate. } 2:{ destruct Hr. }
    destruct (construct_has rf BF Hi SB t md labels false mm ind EC (sized_bounds rf BF Hi SB t md HS)) as (ub & gs & A & b & Hm & _ & _ & _ & _ & CS & CH).
    specialize (HA mm ind eq_refl). cbv zeta in Hr. destruct (sr_status (S mm)) eqn:EST; try (cbn in Hr; destruct Hr as [<-|[]]; discriminate).
    destruct (HA EST) as (L & F & _). rewrite (size_ok rf md Hm) in Hr. cbn [bind] in Hr.
    destruct (mk_subsystem rf (firstn (cert_dim rf md) (sr_vec (S mm))) md false) as [sub|e] eqn:ES; cbn [bind] in Hr; [|destruct Hr].
    destruct Hr as [<-|[]]. exists sub, (sr_val (S mm)), (firstn (cert_dim rf md) (sr_vec (S mm))). split; [reflexivity|]. split; [exact ES|].
    apply (HK md t ub DBinary ind mm eps); auto.
  - intros S it ini up g calls E SN r Hr Hsu. unfold qs_run in E. destruct (construct_milp SB rf t md labels true None) as [[(mm & ind)|]|e] eqn:EC.
    2:{ injection E as <- <-. destruct Hr as [<-|[]]; discriminate. } 2:{ injection E as <- <-. destruct Hr. }
    destruct (construct_has rf BF Hi SB t md labels true mm ind EC (sized_bounds rf BF Hi SB t md HS)) as (ub & gs & A & b & Hm & _ & _ & _ & _ & CS & CH).
    rewrite (size_ok rf md Hm) in E. cbn [bind] in E. destruct (ini rf md ind) as [obj|e]; cbn [bind] in E; [|injection E as <- <-; destruct Hr].
    assert (K1 : kinv mm mm) by (split; [apply CS|split; [apply keeps_refl|reflexivity]]).
    destruct (loop_items rf md mm S (up rf md ind) (cert_dim rf md) it 0 mm obj g calls K1 E r Hr Hsu) as (m' & r' & sub & HC & EST & (_ & KP & _) & ES & ->).
    destruct (SN _ _ HC EST) as (L & F & _). eexists sub, _, _. split; [reflexivity|]. split; [exact ES|].
    apply (HK md t ub DReal ind m' eps); auto. eapply con_has_keeps; eauto.
Qed.
