(** Witnesses and points of the polytopes supported in them. *)
From Coq Require Import String List Arith ZArith QArith Qreals Reals Bool Lia Lra.
From Coq Require Lqa.
From Verif Require Import Base BaseFacts Num Matrix MatFacts InvDict SccSpec SpecMdp SpecEc SpecSystem SpecForm SpecBuilt SpecProb SpecSub SpecLp SpecMilp SumFacts MdpValue RfTheory SubTheory
  Amdp ReachForm ReachFormProofs RfFacts BuiltFacts RfBridge Farkas FarkReal Milp MilpProofs LpExists FarkProofs CertProofs SubProofs4 RfLpProofs Formulations MilpBuild GroupProofs MilpForm MilpMax.
Import ListNotations.
Local Open Scope nat_scope.

Section Keep.
  Variable rf : rform.
  Hypothesis BF : built_form rf.
  Hypothesis EX : exact_rows (a_P (rf_sys rf)).
  Hypothesis Hi : rf_init rf < a_N (rf_sys rf) - 2.
  Let P := a_P (rf_sys rf).
  Let inv := a_inv (rf_sys rf).
  Let init := rf_init rf.
  Let n := rf_N rf.
  Let c := rf_C rf.
  Let M := form_mdp rf.
  Let RFI : rf_mdp M init := br_rf rf BF EX.
  Let SH : shape_mdp M := proj1 RFI.

  Section Y.
  Variable keep : nat -> bool.
  Let R := restrict M keep.
  Let WR := RFW R (R_shape M SH keep).

  Definition zero_row (i : nat) : ineq := (CertProofs.ind i, 0%Q).
  Definition keep_cs (t : Q) : list ineq := map zero_row (filter (fun i => negb (keep (src M i))) (seq 0 c)) ++ ymax_cs rf t.

  Lemma keep_cone : forall t cc, cone (keep_cs t) cc -> exists w nu, (forall s, (0 <= w s)%Q) /\ (0 <= nu)%Q /\
    (forall j, keep (src M j) = true -> (fst cc j <= drop rf w j - nu * mget P j n)%Q) /\ (snd cc == w init - nu * t)%Q.
  Proof.
    intros t cc HC. induction HC as [cc Hc|c1 c2 _ IH1 _ IH2|q c1 Hq _ IH1].
    - unfold keep_cs in Hc. apply in_app_or in Hc. destruct Hc as [Hc|Hc].
      + apply in_map_iff in Hc. destruct Hc as (i & <- & Hf). apply filter_In in Hf. destruct Hf as [_ Hf]. apply negb_true_iff in Hf.
        exists (fun _ => 0%Q), 0%Q. split; [intros; Lqa.lra|]. split; [Lqa.lra|]. split.
        * intros j Hj. rewrite drop_zero. cbn [fst zero_row]. unfold CertProofs.ind. destruct (Nat.eqb_spec i j) as [->|]; [congruence|]. Lqa.lra.
        * cbn [snd zero_row]. ring.
      + destruct (cone_ymax rf t cc Hi (cone_in _ _ Hc)) as (w & nu & A & B & C & D). exists w, nu. do 2 (split; [assumption|]). split; [intros; apply C|exact D].
    - destruct IH1 as (w1 & n1 & A1 & B1 & C1 & D1). destruct IH2 as (w2 & n2 & A2 & B2 & C2 & D2).
      exists (fun s => w1 s + w2 s)%Q, (n1 + n2)%Q. split; [intros; specialize (A1 s); specialize (A2 s); Lqa.lra|]. split; [Lqa.lra|]. split.
      + intros j Hj. rewrite drop_add. cbn [fst]. specialize (C1 j Hj). specialize (C2 j Hj). Lqa.lra.
      + cbn [snd]. rewrite D1, D2. ring.
    - destruct IH1 as (w1 & n1 & A1 & B1 & C1 & D1). exists (fun s => q * w1 s)%Q, (q * n1)%Q.
      split; [intros; apply Qmult_le_0_compat; auto|]. split; [apply Qmult_le_0_compat; auto|]. split.
      + intros j Hj. rewrite drop_scale. cbn [fst]. specialize (C1 j Hj).
        setoid_replace (q * drop rf w1 j - q * n1 * mget P j n)%Q with (q * (drop rf w1 j - n1 * mget P j n))%Q by ring.
        rewrite (Qmult_comm q (fst c1 j)), (Qmult_comm q). apply Qmult_le_compat_r; auto.
      + cbn [snd]. rewrite D1. ring.
  Qed.

  Lemma y_complete : forall t, (Q2R t <= Vmax R WR (is_goal R) init)%R ->
    exists y, max_point rf t y /\ forall i, i < c -> keep (src M i) = false -> y i = 0%R.
  Proof.
    intros t HV. destruct (farkas_cone c (keep_cs t)) as [(y & Hy)|(cc & HC & HZ & HN)].
    - exists (fun i => Q2R (y i)).
      assert (Y0 : forall i, i < c -> (0 <= y i)%Q).
      { intros i Hic. assert (A : satQ c y (nonneg_row i)). { apply Hy. apply in_or_app. right. unfold ymax_cs. rewrite !in_app_iff. left. apply in_map. apply in_seq. fold c. lia. }
        unfold satQ, nonneg_row in A; cbn [fst snd] in A.
        rewrite (sum_to_ext c _ (fun j => - (CertProofs.ind i j * y j))%Q) in A by (intros; ring). rewrite sum_to_opp, ind_sumQ in A by auto. Lqa.lra. }
      assert (SR : forall f : nat -> Q, Q2R (sum_to c (fun j => f j * y j)%Q) = sumn c (fun j => Q2R (f j) * Q2R (y j))%R).
      { intros f. rewrite Q2R_sum_to. apply sumn_ext. intros. apply Q2R_mult. }
      split; [split|].
      + apply (polytope_max rf BF). split.
        * intros s Hs. assert (A : satQ c y (flow_row rf s)). { apply Hy. apply in_or_app. right. unfold ymax_cs. rewrite !in_app_iff. right; left. apply in_map. apply in_seq. lia. }
          unfold satQ in A. apply Qle_Rle in A. rewrite SR in A. unfold flow_row in A; cbn [fst snd] in A. unfold balance. change (nA (form_mdp rf) - 2) with c.
          rewrite (at_init_R rf s) in A. eapply Rle_trans; [|exact A]. apply Req_le. apply sumn_ext. intros j Hj. rewrite Q2R_minus, Rmult_comm. f_equal. f_equal.
          destruct (src (form_mdp rf) j =? s); [rewrite RMicromega.Q2R_1|rewrite RMicromega.Q2R_0]; reflexivity.
        * assert (A : satQ c y (neg (reward_row rf t))). { apply Hy. apply in_or_app. right. unfold ymax_cs. rewrite !in_app_iff. right; right; left; auto. }
          apply neg_Q in A. apply Qle_Rle in A. rewrite SR in A. unfold reward_row in A; cbn [fst snd] in A. unfold to_goal. change (nA (form_mdp rf) - 2) with c.
          eapply Rle_trans; [exact A|]. apply Req_le. apply sumn_ext. intros j Hj. rewrite Rmult_comm. reflexivity.
      + intros i Hic. rewrite <- RMicromega.Q2R_0. apply Qle_Rle. apply Y0; exact Hic.
      + intros i Hic K. assert (A : satQ c y (zero_row i)). { apply Hy. apply in_or_app. left. apply in_map. apply filter_In. split; [apply in_seq; lia|rewrite K; reflexivity]. }
        unfold satQ, zero_row in A; cbn [fst snd] in A. rewrite ind_sumQ in A by auto. specialize (Y0 i Hic). rewrite (Qeq_eqR (y i) 0) by Lqa.lra. apply RMicromega.Q2R_0.
    - exfalso. destruct (keep_cone t cc HC) as (w & nu & W0 & N0 & DR & SN).
      destruct (Qlt_le_dec 0 nu) as [Hn|Hn].
      2:{ assert (E : (nu == 0)%Q) by Lqa.lra. rewrite SN, E in HN. specialize (W0 init). Lqa.lra. }
      assert (NR : (0 < Q2R nu)%R) by (rewrite <- RMicromega.Q2R_0; apply Qlt_Rlt; auto).
      set (z := fun s => (Q2R (w s) / Q2R nu)%R).
      assert (Z0 : forall s, (0 <= z s)%R). { intros s. unfold z. apply Rmult_le_pos; [rewrite <- RMicromega.Q2R_0; apply Qle_Rle; auto|]. apply Rlt_le. apply Rinv_0_lt_compat. auto. }
      destruct (RF2 M SH) as [N2 A2]. pose proof (RFW M SH) as W.
      assert (G : (Vmax R WR (is_goal R) init <= z init)%R).
      { rewrite <- (ext_in R z init Hi).
        assert (LT : init < nS R) by (change (nS R) with (a_N (rf_sys rf)); unfold init; lia).
        apply Vmax_least; [| | |exact LT].
        - intros s Hs. unfold ext. destruct (Nat.ltb s (nS R - 2)); [apply Z0|]. destruct (s =? goal R); lra.
        - intros s Hs Ht. apply Nat.eqb_eq in Ht. subst s. rewrite (ext_goal R (R_shape M SH keep)). lra.
        - intros r Hr Ht. destruct (row_cases R (R_shape M SH keep) r Hr) as [L|[Er|Er]]; [|subst r|subst r].
          + rewrite (ex_ext_vec R (R_shape M SH keep)). change (nA R - 2) with (nA M - 2) in L. change (onestep R r z) with (onestep (restrict M keep) r z). rewrite (R_onestep M SH keep r z L). change (src R r) with (src M r).
            pose proof (RF_src M SH r L) as Ls. rewrite (ext_in R) by exact Ls. destruct (keep (src M r)) eqn:Kr; [|apply Z0].
            specialize (DR r Kr). rewrite HZ in DR by exact L. change (nS M - 2) with n. change (prob M r (goal M)) with (Q2R (mget P r n)).
            apply Rle_trans with (sumn n (fun d => prob M r d * z d) + Q2R (mget P r n))%R.
            { apply Rplus_le_compat_r. apply sumn_le. intros d Hd. destruct (keep d); [lra|]. apply Rmult_le_pos; [|apply Z0]. apply (W_pos M W); [lia|]. unfold n, rf_N in Hd. change (nS M) with (a_N (rf_sys rf)). lia. }
            unfold drop in DR. apply Qle_Rle in DR. rewrite RMicromega.Q2R_0, !Q2R_minus, Q2R_mult, Q2R_sum_to in DR.
            rewrite (sumn_ext n _ (fun d => Q2R (mget P r d * w d) * / Q2R nu)%R) by (intros d Hd; change (prob M r d) with (Q2R (mget P r d)); unfold z; rewrite Q2R_mult; unfold Rdiv; ring).
            rewrite sumn_scal_r. unfold z. change (src (form_mdp rf) r) with (src M r) in DR.
            apply Rmult_le_reg_r with (Q2R nu); [exact NR|]. unfold Rdiv. rewrite Rmult_plus_distr_r. rewrite (Rmult_assoc (sumn _ _)), (Rmult_assoc (Q2R (w _))), Rinv_l by lra.
            change (sumn (rf_N rf)) with (sumn n) in DR. change (sum_to (rf_N rf)) with (sum_to n) in DR. change (a_P (rf_sys rf)) with P in DR. lra.
          + exfalso. pose proof (R_shape M SH keep) as RS. destruct RS as (_ & _ & _ & _ & (E1 & _) & _). change (src R (nA R - 2) = goal R) in E1. rewrite E1 in Ht. unfold is_goal in Ht. rewrite Nat.eqb_refl in Ht. discriminate.
          + pose proof (R_shape M SH keep) as RS. destruct RS as (_ & _ & _ & _ & _ & (E1 & E2)). change (src R (nA R - 1) = fail R) in E1. change (prob R (nA R - 1) (fail R) = 1%R) in E2. rewrite E1, (ext_fail R (R_shape M SH keep)).
            rewrite (ex_ext_vec R (R_shape M SH keep)). unfold onestep. 
            assert (Q0 : forall d, d < nS R -> d <> fail R -> prob R (nA R - 1) d = 0%R).
            { intros d Hd Hne. pose proof (W_pos R WR (nA R - 1) d Hr Hd). destruct (Rle_lt_or_eq_dec _ _ H) as [Hp|]; [|auto]. exfalso. apply Hne.
              apply (one_row R (R_shape M SH keep) (nA R - 1) (fail R)); auto. unfold fail. change (nS R) with (nS M). lia. }
            rewrite sumn_zero; [|intros d Hd; rewrite Q0; [ring|lia|unfold fail; lia]]. rewrite Q0; [lra|unfold goal; change (nS R) with (nS M); lia|unfold goal, fail; change (nS R) with (nS M); lia]. }
      unfold z in G. apply Qlt_Rlt in HN. rewrite (Qeq_eqR _ _ SN), RMicromega.Q2R_0, Q2R_minus, Q2R_mult in HN.
      assert (L : (Q2R (w init) / Q2R nu < Q2R t)%R). { apply Rmult_lt_reg_r with (Q2R nu); [auto|]. unfold Rdiv. rewrite Rmult_assoc, Rinv_l by lra. lra. }
      lra.
  Qed.
  End Y.
End Keep.
