(** Certificate generation decides threshold claims. *)
From Coq Require Import String List Arith ZArith QArith Qreals Reals Bool Lia Lra.
From Coq Require Lqa.
From Verif Require Import Base BaseFacts Num Matrix MatFacts SpecMdp SpecSystem SpecEc SpecForm SpecBuilt SpecProb SpecGen SumFacts MdpValue RfTheory SccSpec Amdp
  ReachForm ReachFormProofs RfFacts FarkProofs BuiltFacts RfBridge FarkReal Milp SpecLp MilpProofs LpExists Farkas Certificates CertProofs CertProofs2 TolProofs ExProofs2 GenFark GenFark2.
Import ListNotations.
Local Open Scope nat_scope.

Lemma sumn_const : forall k e, sumn k (fun _ => e) = (INR k * e)%R.
Proof. induction k; intros e; [simpl; ring|]. rewrite S_INR. cbn [sumn]. rewrite IHk. ring. Qed.

Lemma interior_wf : forall A D b x zs lp, interior_lp A D b x zs = Ok lp -> lp_wf lp.
Proof.
  intros A D b x zs lp E. unfold interior_lp in E. apply bind_ok in E. destruct E as (l1 & E1 & E). apply bind_ok in E. destruct E as (l2 & E2 & E).
  apply lp_from_coefficients_wf in E1. eapply add_constraints_wf; [|exact E]. destruct x; [eapply add_constraints_wf; eauto|]. injection E2 as <-. exact E1.
Qed.

Section Dec.
  Variable rf : rform.
  Hypothesis BF : built_form rf.
  Hypothesis EX : exact_rows (a_P (rf_sys rf)).
  Let P := a_P (rf_sys rf).
  Let inv := a_inv (rf_sys rf).
  Let init := rf_init rf.
  Let n := rf_N rf.
  Let c := rf_C rf.
  Let M := form_mdp rf.
  Hypothesis Hi : init < n.
  Let SH : shape_mdp M := proj1 (br_rf rf BF EX).

  Lemma Q2R_nonneg : forall q, (0 <= q)%Q -> (0 <= Q2R q)%R.
  Proof. intros q H. rewrite <- RMicromega.Q2R_0. apply Qle_Rle. exact H. Qed.
  Lemma Q2R_pos : forall q, (0 < q)%Q -> (0 < Q2R q)%R.
  Proof. intros q H. rewrite <- RMicromega.Q2R_0. apply Qlt_Rlt. exact H. Qed.

  Lemma chk_zmin_inv : forall s t v tol, lower s -> check_farkas rf Min s t v tol = Ok true -> zmin_rows rf t (vec v) (Q2R tol).
  Proof.
    intros s t v tol Hs H. apply check_z_min in H; auto. destruct H as (_ & _ & _ & _ & H1 & H2 & _). split.
    - intros r Hr. destruct (br_row rf BF r Hr) as (a & Ei & _). specialize (H1 r _ a Hr Ei). apply Qle_Rle in H1. rewrite Q2R_minus in H1.
      rewrite <- (onestep_vec rf r v : onestep (form_mdp rf) r (vec v) = Q2R (step_value rf v r)) in H1. change (Q2R (entry v (src (form_mdp rf) r))) with (vec v (src (form_mdp rf) r)) in H1. lra.
    - apply Qle_Rle in H2. rewrite Q2R_plus in H2. exact H2.
  Qed.
  Lemma chk_zmax_inv : forall s t v tol, upper s -> check_farkas rf Max s t v tol = Ok true -> zmax_rows rf t (vec v) (Q2R tol).
  Proof.
    intros s t v tol Hs H. apply check_z_max in H; auto. destruct H as (_ & _ & _ & H1 & H2 & _). split.
    - intros r Hr. destruct (br_row rf BF r Hr) as (a & Ei & _). specialize (H1 r _ a Hr Ei). apply Qle_Rle in H1. rewrite Q2R_plus in H1.
      rewrite <- (onestep_vec rf r v : onestep (form_mdp rf) r (vec v) = Q2R (step_value rf v r)) in H1. change (Q2R (entry v (src (form_mdp rf) r))) with (vec v (src (form_mdp rf) r)) in H1. lra.
    - apply Qle_Rle in H2. rewrite Q2R_plus in H2. exact H2.
  Qed.

  (** What the four forms have in common. *)
  Record form_case (md : mode) (s : fsense) (t : Q) (A : list (list Q)) (D : nat) (b : list Q) (zs : list nat) : Prop := FC {
    fc_args : generation_args rf md s t = Ok (A, D, b, zs);
    fc_wf : wfargs A D b zs;
    fc_bound : exists B, forall x sg, rows A D b x sg -> (forall j, j < D -> (- sg <= x j)%R) -> (B <= sg)%R;
    fc_check : forall v tol, length v = D -> gsat A D b zs (vec v) 0 -> (0 <= tol)%Q -> (strictly s = true -> (0 < tol)%Q) -> check_farkas rf md s t v tol = Ok true;
    fc_inv : forall v tol, check_farkas rf md s t v tol = Ok true -> rows A D b (vec v) (Q2R tol);
    fc_point : forall p, extremal rf md p -> claim_near s p (Q2R t) 0 -> exists x, gsat A D b zs x 0;
    fc_sound : forall v p, check_farkas rf md s t v 0 = Ok true -> (forall i, i < D -> (0 <= entry v i)%Q) -> extremal rf md p -> claim s p (Q2R t)
  }.

  Lemma relax0 : forall a b tol, (a <= b + 0)%R -> (0 <= tol)%Q -> (a <= b + Q2R tol)%R.
  Proof. intros a b tol H HT. apply Q2R_nonneg in HT. lra. Qed.

  Lemma case_zmin : forall t s, in_unit t -> lower s -> exists A b zs, form_case Min s t A n b zs.
  Proof.
    intros t s U Hs. destruct (args_zmin rf BF Hi t s U Hs) as (A & b & zs & E & W & HR & HZ). exists A, b, zs. constructor; auto.
    - exists (-1)%R. intros x sg Hx Hg. apply HR in Hx. destruct Hx as (H1 & _). apply (bound_zmin M SH x sg); auto. change (nS M - 2) with n. unfold n in *; lia.
    - intros v tol HL (G1 & G2 & G3) HT HS. assert (G : zmin_rows rf t (vec v) 0) by (apply HR; exact G1). destruct G as (H1 & H2). apply chk_zmin; auto.
      + intros z Hz He. apply G3. apply HZ. auto.
      + split; [intros r Hr; apply relax0; auto|apply relax0; auto].
      + intros ST. specialize (HS ST). apply Q2R_pos in HS. lra.
    - intros v tol H. apply HR. eapply chk_zmin_inv; eauto.
    - intros p HP HC. cbn [extremal] in HP. apply (Vmn_min rf BF EX) in HP; [|apply (init_N rf BF)]. subst p. assert (EV : forall j, Vmn rf BF EX j = Vmin M (RFW M SH) (is_goal M) j) by (intros; apply Vmin_irrel). rewrite EV in HC. exists (Vmin M (RFW M SH) (is_goal M)). split; [|split].
      + apply HR. split.
        * intros r Hr. pose proof (Vmin_onestep M SH r Hr) as V. fold M. lra.
        * destruct Hs; subst s; cbn [claim_near] in HC; unfold init; lra.
      + intros j Hj. pose proof (Vmin_bounds M (RFW M SH) (is_goal M) j). lra.
      + intros z Hz. apply HZ in Hz. destruct Hz as (Hz & He). apply (Vmin_in_ec M SH); [exact Hz|]. apply (br_ec rf BF EX). exact He.
    - intros v p H _ HP. cbn [extremal] in HP. apply (Vmn_min rf BF EX) in HP; [|apply (init_N rf BF)]. subst p. apply check_z_min in H; auto. destruct H as (_ & _ & _ & HE & HS & HT & HT').
      assert (B : (vec v init <= Vmn rf BF EX init)%R). { apply (z_min_cert rf BF EX v HE); auto. intros i st a Hc Hinv. specialize (HS i st a Hc Hinv). Lqa.lra. }
      destruct Hs; subst s; cbn [claim].
      + assert (G : (t <= entry v init)%Q) by (fold init in HT; Lqa.lra). apply Qle_Rle in G. change (Q2R (entry v init)) with (vec v init) in G. fold init. lra.
      + specialize (HT' eq_refl). assert (G : (t < entry v init)%Q) by (fold init in HT'; Lqa.lra). apply Qlt_Rlt in G. change (Q2R (entry v init)) with (vec v init) in G. fold init. lra.
  Qed.

  Lemma case_zmax : forall t s, in_unit t -> upper s -> exists A b, form_case Max s t A n b [].
  Proof.
    intros t s U Hs. destruct (args_zmax rf BF Hi t s U Hs) as (A & b & E & W & HR). exists A, b. constructor; auto.
    - exists (- Q2R t / 2)%R. intros x sg Hx Hg. apply HR in Hx. destruct Hx as (_ & H2). specialize (Hg init Hi). fold init in H2. lra.
    - intros v tol HL (G1 & G2 & G3) HT HS. assert (G : zmax_rows rf t (vec v) 0) by (apply HR; exact G1). destruct G as (H1 & H2). apply chk_zmax; auto.
      + split; [intros r Hr; apply relax0; auto|apply relax0; auto].
      + intros ST. specialize (HS ST). apply Q2R_pos in HS. lra.
    - intros v tol H. apply HR. eapply chk_zmax_inv; eauto.
    - intros p HP HC. cbn [extremal] in HP. apply (Vmx_max rf BF EX) in HP; [|apply (init_N rf BF)]. subst p. assert (EV : forall j, Vmx rf BF EX j = Vmax M (RFW M SH) (is_goal M) j) by (intros; apply Vmax_irrel). rewrite EV in HC. exists (Vmax M (RFW M SH) (is_goal M)). split; [|split].
      + apply HR. split.
        * intros r Hr. pose proof (Vmax_onestep M SH r Hr) as V. fold M. lra.
        * destruct Hs; subst s; cbn [claim_near] in HC; unfold init; lra.
      + intros j Hj. pose proof (Vmax_bounds M (RFW M SH) (is_goal M) j). lra.
      + intros z [].
    - intros v p H _ HP. cbn [extremal] in HP. apply (Vmx_max rf BF EX) in HP; [|apply (init_N rf BF)]. subst p. apply check_z_max in H; auto. destruct H as (_ & _ & _ & HS & HT & HT').
      assert (B : (Vmx rf BF EX init <= vec v init)%R). { apply (z_max_cert rf BF EX v); auto. intros i st a Hc Hinv. specialize (HS i st a Hc Hinv). Lqa.lra. }
      destruct Hs; subst s; cbn [claim].
      + assert (G : (entry v init <= t)%Q) by (fold init in HT; Lqa.lra). apply Qle_Rle in G. change (Q2R (entry v init)) with (vec v init) in G. fold init. lra.
      + specialize (HT' eq_refl). assert (G : (entry v init < t)%Q) by (fold init in HT'; Lqa.lra). apply Qlt_Rlt in G. change (Q2R (entry v init)) with (vec v init) in G. fold init. lra.
  Qed.

  Lemma case_ymax : forall t s, in_unit t -> lower s -> exists A b, form_case Max s t A c b [].
  Proof.
    intros t s U Hs. destruct (args_ymax rf BF Hi t s U Hs) as (A & b & E & W & HR). exists A, b. constructor; auto.
    - exists (-1)%R. intros x sg Hx Hg. apply HR in Hx. destruct Hx as (H1 & _). apply (bound_ymax M SH init x sg); auto.
    - intros v tol HL (G1 & G2 & G3) HT HS. assert (G : ymax_rows rf t (vec v) 0) by (apply HR; exact G1). destruct G as (H1 & H2). apply chk_ymax; auto.
      + split; [intros r Hr; apply relax0; auto|apply relax0; auto].
      + intros ST. specialize (HS ST). apply Q2R_pos in HS. lra.
    - intros v tol H. apply HR. eapply chk_ymax_inv; eauto.
    - intros p HP HC. destruct U as (U0 & U1). destruct (C24_partial_lemma rf BF EX Hi t 0 U0 U1 (Qle_refl 0)) as (_ & _ & C3 & _).
      destruct C3 as (v & K1 & K2). { intros q HQ. cbn [extremal] in HP. apply (Vmx_max rf BF EX) in HP; [|apply (init_N rf BF)]. apply (Vmx_max rf BF EX) in HQ; [|apply (init_N rf BF)]. subst p q. destruct Hs; subst s; cbn [claim_near] in HC; lra. }
      exists (vec v). split; [|split].
      + apply HR. rewrite <- RMicromega.Q2R_0. apply (chk_ymax_inv rf BF FGe); [left; auto|exact K1].
      + intros j Hj. specialize (K2 j Hj). apply Q2R_nonneg in K2. change (Q2R (entry v j)) with (vec v j) in K2. lra.
      + intros z [].
    - intros v p H HN HP. cbn [extremal] in HP. destruct Hs; subst s; cbn [claim]; [eapply C21_partial_lemma|eapply C21_strict_lemma]; eauto.
  Qed.

  Lemma case_ymin : forall t s, is_ec_free rf = true -> in_unit t -> upper s -> exists A b, form_case Min s t A c b [].
  Proof.
    intros t s FREE U Hs. destruct (args_ymin rf BF Hi t s FREE U Hs) as (A & b & E & W & HR). exists A, b. constructor; auto.
    - exists (- Q2R t - 1)%R. intros x sg Hx Hg. apply HR in Hx. destruct Hx as (_ & H2). destruct (Rle_or_lt (- Q2R t - 1) sg) as [|Hlt]; auto. exfalso.
      assert (T0 : (0 <= Q2R t)%R) by (apply Q2R_nonneg; apply U).
      assert (0 <= to_goal M x)%R. { apply (goal_nonneg M SH). intros j Hj. specialize (Hg j Hj). lra. } fold M in H2. lra.
    - intros v tol HL (G1 & G2 & G3) HT HS. assert (G : ymin_rows rf t (vec v) 0) by (apply HR; exact G1). destruct G as (H1 & H2). apply chk_ymin; auto.
      + split; [intros r Hr; apply relax0; auto|apply relax0; auto].
      + intros ST. specialize (HS ST). apply Q2R_pos in HS. lra.
    - intros v tol H. apply HR. eapply chk_ymin_inv; eauto.
    - intros p HP HC. destruct U as (U0 & U1). destruct (C24_partial_lemma rf BF EX Hi t 0 U0 U1 (Qle_refl 0)) as (_ & _ & _ & C4).
      destruct C4 as (v & K1 & K2). { apply (is_ec_free_iff rf init (br_ro rf BF) (br_form rf BF)). exact FREE. }
      { intros q HQ. cbn [extremal] in HP. apply (Vmn_min rf BF EX) in HP; [|apply (init_N rf BF)]. apply (Vmn_min rf BF EX) in HQ; [|apply (init_N rf BF)]. subst p q. destruct Hs; subst s; cbn [claim_near] in HC; lra. }
      exists (vec v). split; [|split].
      + apply HR. rewrite <- RMicromega.Q2R_0. apply (chk_ymin_inv rf BF FLe); [left; auto|exact K1].
      + intros j Hj. specialize (K2 j Hj). apply Q2R_nonneg in K2. change (Q2R (entry v j)) with (vec v j) in K2. lra.
      + intros z [].
    - intros v p H HN HP. cbn [extremal] in HP. destruct Hs; subst s; cbn [claim]; [eapply C22_partial_lemma|eapply C22_strict_lemma]; eauto.
  Qed.

  Lemma case_all : forall md s t, in_unit t -> certifiable rf md s -> exists A D b zs, form_case md s t A D b zs.
  Proof.
    intros md s t U HC. destruct md; [| |destruct HC].
    - destruct s; try destruct HC.
      + destruct (case_ymin t FLe) as (A & b & H); [apply (is_ec_free_iff rf init (br_ro rf BF) (br_form rf BF)); exact HC|auto|left; auto|eauto].
      + destruct (case_ymin t FLt) as (A & b & H); [apply (is_ec_free_iff rf init (br_ro rf BF) (br_form rf BF)); exact HC|auto|right; auto|eauto].
      + destruct (case_zmin t FGe U) as (A & b & zs & H); [left; auto|eauto].
      + destruct (case_zmin t FGt U) as (A & b & zs & H); [right; auto|eauto].
    - destruct s; try destruct HC.
      + destruct (case_zmax t FLe U) as (A & b & H); [left; auto|eauto].
      + destruct (case_zmax t FLt U) as (A & b & H); [right; auto|eauto].
      + destruct (case_ymax t FGe U) as (A & b & H); [left; auto|eauto].
      + destruct (case_ymax t FGt U) as (A & b & H); [right; auto|eauto].
  Qed.

  Lemma accepted_entries : forall md s t A D b zs v sg tol, form_case md s t A D b zs -> gopt A D b zs v sg -> (0 <= tol)%Q -> check_farkas rf md s t v tol = Ok true ->
    length v = D /\ forall i, i < D -> (- tol <= entry v i)%Q.
  Proof.
    intros md s t A D b zs v sg tol F GO HT H. destruct (fc_wf _ _ _ _ _ _ _ F) as (W1 & W2 & W3). split; [apply GO|]. intros i Hc.
    assert (SG : (Q2R sg <= Q2R tol)%R). { apply (opt_tol A D b zs v sg _ GO); [apply Q2R_nonneg; auto|]. apply (fc_inv _ _ _ _ _ _ _ F). exact H. }
    destruct GO as (_ & (_ & G2 & _) & _). specialize (G2 i Hc). apply Rle_Qle. rewrite Q2R_opp. change (Q2R (entry v i)) with (vec v i). lra.
  Qed.

  (** ** The statements *)
  Lemma gen_found : forall md s t, (0 <= t)%Q -> (t <= 1)%Q -> certifiable rf md s -> forall tol S lp, (0 <= tol)%Q -> (strict_sense s -> (0 < tol)%Q) -> generation_lp rf md s t = Ok lp -> exact_answer lp (S lp) ->
    forall p, extremal rf md p -> claim_near s p (Q2R t) 0 ->
    exists v, generate_farkas S rf md s t tol = Ok (Some v) /\ forall q, In q v -> (0 <= q)%Q.
  Proof.
    intros md s t T0 T1 HC tol S lp HT HS EL XA p HP HCl. destruct (case_all md s t (conj T0 T1) HC) as (A & D & b & zs & F).
    destruct (generated rf BF Hi S md s t tol A D b zs lp (fc_args _ _ _ _ _ _ _ F) (fc_wf _ _ _ _ _ _ _ F) EL XA (fc_bound _ _ _ _ _ _ _ F)) as (v & sg & ok & GO & EC & EG).
    destruct (fc_point _ _ _ _ _ _ _ F p HP HCl) as (x & GX). pose proof (opt_feasible A D b zs v sg x GO GX) as G0.
    assert (EC' : check_farkas rf md s t v tol = Ok true). { apply (fc_check _ _ _ _ _ _ _ F); auto; [apply GO|]. intros ST. apply HS. unfold strict_sense. destruct s; auto; discriminate. }
    assert (ok = true) by congruence. subst ok. exists v. split; [exact EG|]. intros q Hq. apply (In_nth _ _ 0%Q) in Hq. destruct Hq as (j & Hj & <-).
    destruct G0 as (_ & G0 & _). assert (HD : length v = D) by apply GO. specialize (G0 j ltac:(lia)). apply Rle_Qle. rewrite RMicromega.Q2R_0. unfold vec in G0. lra.
  Qed.

  Lemma gen_sound : forall md s t, (0 <= t)%Q -> (t <= 1)%Q -> certifiable rf md s -> forall S lp, generation_lp rf md s t = Ok lp -> exact_answer lp (S lp) ->
    forall v p, generate_farkas S rf md s t 0 = Ok (Some v) -> extremal rf md p -> claim s p (Q2R t).
  Proof.
    intros md s t T0 T1 HC S lp EL XA v p EG HP. destruct (case_all md s t (conj T0 T1) HC) as (A & D & b & zs & F).
    destruct (generated rf BF Hi S md s t 0 A D b zs lp (fc_args _ _ _ _ _ _ _ F) (fc_wf _ _ _ _ _ _ _ F) EL XA (fc_bound _ _ _ _ _ _ _ F)) as (v' & sg & ok & GO & EC & EG').
    rewrite EG in EG'. destruct ok; [|discriminate]. injection EG' as <-. apply (fc_sound _ _ _ _ _ _ _ F v p EC); auto.
    intros i Hc. destruct (accepted_entries md s t A D b zs v sg 0 F GO (Qle_refl 0) EC) as (_ & K). specialize (K i Hc). Lqa.lra.
  Qed.

  Lemma gen_total : forall md s t, (0 <= t)%Q -> (t <= 1)%Q -> certifiable rf md s -> exists lp, generation_lp rf md s t = Ok lp /\
    (exists B, forall x, feasible lp x -> (B <= objective lp x)%R) /\ (exists x, feasible lp x) /\ mi_dir lp = Minimise /\ (exists r, exact_answer lp r) /\
    forall tol S, exact_answer lp (S lp) -> exists r, generate_farkas S rf md s t tol = Ok r.
  Proof.
    intros md s t T0 T1 HC. destruct (case_all md s t (conj T0 T1) HC) as (A & D & b & zs & F). destruct (fc_wf _ _ _ _ _ _ _ F) as (W1 & W2 & W3).
    destruct (interior_spec A D b zs W1 W2 W3) as (lp & EL & V & Dr & O & FE). exists lp.
    assert (EL' : generation_lp rf md s t = Ok lp) by (unfold generation_lp; rewrite (fc_args _ _ _ _ _ _ _ F); exact EL). split; [exact EL'|].
    split; [|split; [|split; [exact Dr|split; [apply lp_answer_exists; exact (interior_wf _ _ _ _ _ _ EL)|]]]].
    - destruct (fc_bound _ _ _ _ _ _ _ F) as (B & HB). exists B. intros x Hx. apply FE in Hx. rewrite O. destruct Hx as (X1 & X2 & _). apply (HB x); auto.
    - exists (pt D (fun _ => 0%R) (bb A b)). apply FE. apply gsat_pt; auto. apply gsat_zero.
    - intros tol S XA. destruct (generated rf BF Hi S md s t tol A D b zs lp (fc_args _ _ _ _ _ _ _ F) (fc_wf _ _ _ _ _ _ _ F) EL' XA (fc_bound _ _ _ _ _ _ _ F)) as (v & sg & ok & _ & _ & EG). eauto.
  Qed.

  (** ** With a tolerance: entries may be below zero by the tolerance *)
  Lemma shift_balance : forall y e st, (0 <= e)%R -> st < n -> (balance M y st - INR c * e <= balance M (fun j => y j + e) st <= balance M y st + INR c * e)%R.
  Proof.
    intros y e st He Hst. unfold balance. change (nA M - 2) with c.
    rewrite (sumn_ext c (fun r => ((y r + e) * ((if Nat.eqb (src M r) st then 1 else 0) - prob M r st))%R) (fun r => (y r * ((if Nat.eqb (src M r) st then 1 else 0) - prob M r st) + e * ((if Nat.eqb (src M r) st then 1 else 0) - prob M r st))%R)) by (intros; ring).
    rewrite sumn_plus. assert (K : forall r, r < c -> (- e <= e * ((if Nat.eqb (src M r) st then 1 else 0) - prob M r st) <= e)%R).
    { intros r Hr. assert (0 <= prob M r st)%R by (apply (prob_nonneg M SH); [exact Hr|change (nS M) with (a_N (rf_sys rf)); unfold n, rf_N in Hst; lia]).
      assert (prob M r st <= 1)%R. { pose proof (prob_sum M SH r Hr) as (_ & PS). apply Rle_trans with (2 := PS). apply (sumn_term_le (nS M - 2) st (prob M r)); [exact Hst|].
        intros j Hj. apply (prob_nonneg M SH); [exact Hr|]. lia. }
      assert (0 <= e * (1 - prob M r st))%R by (apply Rmult_le_pos; lra). assert (0 <= e * prob M r st)%R by (apply Rmult_le_pos; lra). destruct (Nat.eqb (src M r) st); lra. }
    assert (K1 : (sumn c (fun _ => - e) <= sumn c (fun r => e * ((if Nat.eqb (src M r) st then 1 else 0) - prob M r st)))%R) by (apply sumn_le; intros; apply K; auto).
    assert (K2 : (sumn c (fun r => e * ((if Nat.eqb (src M r) st then 1 else 0) - prob M r st)) <= sumn c (fun _ => e))%R) by (apply sumn_le; intros; apply K; auto).
    rewrite !sumn_const in *. lra.
  Qed.
  Lemma shift_goal : forall y e, (0 <= e)%R -> (to_goal M y <= to_goal M (fun j => y j + e) <= to_goal M y + INR c * e)%R.
  Proof.
    intros y e He. unfold to_goal. change (nA M - 2) with c.
    rewrite (sumn_ext c (fun r => ((y r + e) * prob M r (goal M))%R) (fun r => (y r * prob M r (goal M) + e * prob M r (goal M))%R)) by (intros; ring). rewrite sumn_plus.
    assert (K : forall r, r < c -> (0 <= e * prob M r (goal M) <= e)%R).
    { intros r Hr. pose proof (RF2 M SH) as (R2 & _). assert (0 <= prob M r (goal M))%R by (apply (prob_nonneg M SH); [exact Hr|unfold goal; lia]).
      pose proof (prob_sum M SH r Hr) as (PS & _). assert (0 <= sumn (nS M - 2) (prob M r))%R by (apply sumn_nonneg; intros j Hj; apply (prob_nonneg M SH); [exact Hr|lia]).
      assert (0 <= e * (1 - prob M r (goal M)))%R by (apply Rmult_le_pos; lra). assert (0 <= e * prob M r (goal M))%R by (apply Rmult_le_pos; lra). lra. }
    assert (0 <= sumn c (fun r => e * prob M r (goal M)))%R by (apply sumn_nonneg; intros; apply K; auto).
    assert (K2 : (sumn c (fun r => e * prob M r (goal M)) <= sumn c (fun _ => e))%R) by (apply sumn_le; intros; apply K; auto). rewrite sumn_const in K2. lra.
  Qed.

  Definition lift (e : Q) (v : list Q) : list Q := map (fun q => (q + e)%Q) v.
  Lemma lift_vec : forall e v j, j < length v -> vec (lift e v) j = (vec v j + Q2R e)%R.
  Proof.
    intros e v j Hj. unfold vec, lift. rewrite (nth_indep _ 0%Q (0 + e)%Q) by (rewrite map_length; auto). rewrite (map_nth (fun q => (q + e)%Q) v 0%Q j). apply Q2R_plus.
  Qed.
  Definition wider (tol : Q) : Q := ((1 + inject_Z (Z.of_nat c)) * tol)%Q.
  Lemma wider_R : forall tol, Q2R (wider tol) = ((1 + INR c) * Q2R tol)%R.
  Proof. intros tol. unfold wider. rewrite Q2R_mult, Q2R_plus, RMicromega.Q2R_1. f_equal. f_equal. rewrite INR_IZR_INZ. unfold Q2R, inject_Z. cbn. field. Qed.
  Lemma balance_ext : forall x y st, (forall j, j < c -> x j = y j) -> balance M x st = balance M y st.
  Proof. intros x y st H. unfold balance. apply sumn_ext. intros j Hj. rewrite H; auto. Qed.
  Lemma goal_ext : forall x y, (forall j, j < c -> x j = y j) -> to_goal M x = to_goal M y.
  Proof. intros x y H. unfold to_goal. apply sumn_ext. intros j Hj. rewrite H; auto. Qed.

  Lemma lift_nonneg : forall tol v, length v = c -> (forall i, i < c -> (- tol <= entry v i)%Q) -> forall i, i < c -> (0 <= entry (lift tol v) i)%Q.
  Proof.
    intros tol v HL H i Hc. specialize (H i Hc). apply Rle_Qle. change (Q2R (entry (lift tol v) i)) with (vec (lift tol v) i). rewrite lift_vec by lia. apply Qle_Rle in H. rewrite Q2R_opp in H. rewrite RMicromega.Q2R_0.
    change (Q2R (entry v i)) with (vec v i) in H. lra.
  Qed.

  Lemma gen_off : exists K, (0 <= K)%R /\ forall md s t, (0 <= t)%Q -> (t <= 1)%Q -> certifiable rf md s -> forall tol S lp, (0 <= tol)%Q -> generation_lp rf md s t = Ok lp -> exact_answer lp (S lp) ->
    forall v p, generate_farkas S rf md s t tol = Ok (Some v) -> extremal rf md p -> (forall q, In q v -> (- tol <= q)%Q) /\ claim_near s p (Q2R t) (K * Q2R tol).
  Proof.
    destruct (C94_lemma rf BF EX) as (K & K0 & TS). pose proof (pos_INR c) as C0. exists (K * (1 + INR c))%R. split; [apply Rmult_le_pos; lra|].
    intros md s t T0 T1 HC tol S lp HT EL XA v p EG HP. destruct (case_all md s t (conj T0 T1) HC) as (A & D & b & zs & F).
    destruct (generated rf BF Hi S md s t tol A D b zs lp (fc_args _ _ _ _ _ _ _ F) (fc_wf _ _ _ _ _ _ _ F) EL XA (fc_bound _ _ _ _ _ _ _ F)) as (v' & sg & ok & GO & EC & EG').
    rewrite EG in EG'. destruct ok; [|discriminate]. injection EG' as <-. destruct (accepted_entries md s t A D b zs v sg tol F GO HT EC) as (HL & HN).
    pose proof (Q2R_nonneg tol HT) as HT'. assert (KT : (0 <= K * Q2R tol)%R) by (apply Rmult_le_pos; auto). assert (KC : (0 <= INR c * (K * Q2R tol))%R) by (apply Rmult_le_pos; auto).
    assert (EK : (K * (1 + INR c) * Q2R tol = K * Q2R tol + INR c * (K * Q2R tol))%R) by ring. rewrite EK.
    assert (WT : (0 <= wider tol)%Q). { apply Rle_Qle. rewrite RMicromega.Q2R_0, wider_R. apply Rmult_le_pos; lra. }
    split. { intros q Hq. apply (In_nth _ _ 0%Q) in Hq. destruct Hq as (j & Hj & <-). apply HN. lia. }
    destruct md; [| |destruct HP]; cbn [extremal] in HP.
    - assert (UP : upper s -> (p <= Q2R t + (K * Q2R tol + INR c * (K * Q2R tol)))%R).
      { intros Hs. assert (HD : D = c). { pose proof (fc_args _ _ _ _ _ _ _ F) as E. destruct (args_ymin rf BF Hi t s) as (A' & b' & E' & _); auto; [|split; auto|]. { apply (is_ec_free_iff rf init (br_ro rf BF) (br_form rf BF)). destruct Hs; subst s; exact HC. } rewrite E in E'. injection E' as _ E2 _ _. exact E2. }
        rewrite HD in HL, HN. destruct (chk_ymin_inv rf BF s t v tol Hs EC) as (H1 & H2). fold M in H1, H2.
        destruct (TS FLe t (lift tol v) (wider tol) WT) as (_ & _ & _ & T4). specialize (T4 (or_introl eq_refl) (lift_nonneg tol v HL HN) Hi).
        rewrite wider_R in T4. replace (K * ((1 + INR c) * Q2R tol))%R with (K * Q2R tol + INR c * (K * Q2R tol))%R in T4 by ring. apply T4; [|exact HP].
        apply chk_ymin; auto; [|left; auto|split; auto|unfold lift; rewrite map_length; exact HL| |discriminate].
        { apply (is_ec_free_iff rf init (br_ro rf BF) (br_form rf BF)). destruct Hs; subst s; exact HC. }
        rewrite (wider_R tol). split.
        - intros st Hst. fold M. rewrite (balance_ext (vec (lift tol v)) (fun j => vec v j + Q2R tol)%R) by (intros; apply lift_vec; lia). pose proof (shift_balance (vec v) (Q2R tol) st HT' Hst). specialize (H1 st Hst). fold init in H1 |- *. lra.
        - fold M. rewrite (goal_ext (vec (lift tol v)) (fun j => vec v j + Q2R tol)%R) by (intros; apply lift_vec; lia). pose proof (shift_goal (vec v) (Q2R tol) HT'). lra. }
      destruct s; cbn [claim_near]; [apply UP; left; auto|apply UP; right; auto| | |destruct HC].
      + destruct (TS FGe t v tol HT) as (T1' & _). specialize (T1' (or_introl eq_refl) EC p HP). lra.
      + destruct (TS FGt t v tol HT) as (T1' & _). specialize (T1' (or_intror eq_refl) EC p HP). lra.
    - assert (LO : lower s -> (Q2R t - (K * Q2R tol + INR c * (K * Q2R tol)) <= p)%R).
      { intros Hs. assert (HD : D = c). { pose proof (fc_args _ _ _ _ _ _ _ F) as E. destruct (args_ymax rf BF Hi t s) as (A' & b' & E' & _); auto; [split; auto|]. rewrite E in E'. injection E' as _ E2 _ _. exact E2. }
        rewrite HD in HL, HN. destruct (chk_ymax_inv rf BF s t v tol Hs EC) as (H1 & H2). fold M in H1, H2.
        destruct (TS FGe t (lift tol v) (wider tol) WT) as (_ & _ & T3 & _). specialize (T3 (or_introl eq_refl) (lift_nonneg tol v HL HN)).
        rewrite wider_R in T3. replace (K * ((1 + INR c) * Q2R tol))%R with (K * Q2R tol + INR c * (K * Q2R tol))%R in T3 by ring. apply T3; [|exact HP].
        apply chk_ymax; auto; [left; auto|split; auto|unfold lift; rewrite map_length; exact HL| |discriminate].
        rewrite (wider_R tol). split.
        - intros st Hst. fold M. rewrite (balance_ext (vec (lift tol v)) (fun j => vec v j + Q2R tol)%R) by (intros; apply lift_vec; lia). pose proof (shift_balance (vec v) (Q2R tol) st HT' Hst). specialize (H1 st Hst). fold init in H1 |- *. lra.
        - fold M. rewrite (goal_ext (vec (lift tol v)) (fun j => vec v j + Q2R tol)%R) by (intros; apply lift_vec; lia). pose proof (shift_goal (vec v) (Q2R tol) HT'). assert (0 <= INR c * Q2R tol)%R by (apply Rmult_le_pos; auto). lra. }
      destruct s; cbn [claim_near]; [| |apply LO; left; auto|apply LO; right; auto|destruct HC].
      + destruct (TS FLe t v tol HT) as (_ & T2' & _). specialize (T2' (or_introl eq_refl) EC p HP). lra.
      + destruct (TS FLt t v tol HT) as (_ & T2' & _). specialize (T2' (or_intror eq_refl) EC p HP). lra.
  Qed.
End Dec.
