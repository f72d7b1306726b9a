(** The number reported by exact minimisation when answers are correct up to a
    tolerance only. *)
From Coq Require Import String List Arith ZArith QArith Qreals Reals Bool Lia Lra.
From Verif Require Import Base BaseFacts Num Matrix MatFacts InvDict SccSpec SpecMdp SpecEc SpecSystem SpecForm SpecBuilt SpecProb SpecSub SpecLp SpecMilp SpecSlack SumFacts MdpValue RfTheory SubTheory SlackTheory
  Amdp ReachForm ReachFormProofs RfFacts BuiltFacts RfBridge FarkReal Milp MilpProofs LpExists RfLpProofs RfLps Subsystem Formulations MilpBuild GroupProofs MilpForm MilpMax MilpExact MilpMin Problems QsProofs QsWeights MilpFinal SlackProofs SlackProofs2.
Import ListNotations.
Local Open Scope nat_scope.

(** Number of variables above one half. *)
Definition half (x : nat -> R) (j : nat) : bool := if Rlt_dec (1 / 2) (x j) then true else false.
Definition nhalf (l : list nat) (x : nat -> R) : nat := length (filter (half x) l).

Lemma lsum_half : forall l x eps, (0 <= eps)%R -> (eps < 1 / 2)%R -> (forall j, In j l -> (- eps <= x j <= eps)%R \/ (1 - eps <= x j <= 1 + eps)%R) ->
  (INR (nhalf l x) - INR (length l) * eps <= lsum l x <= INR (nhalf l x) + INR (length l) * eps)%R.
Proof.
  induction l as [|j l IH]; intros x eps E0 E1 H; [unfold nhalf; cbn; lra|].
  specialize (IH x eps E0 E1 (fun i Hi => H i (or_intror Hi))). specialize (H j (or_introl eq_refl)). unfold nhalf in *. cbn [filter lsum]. change (length (j :: l)) with (S (length l)). rewrite S_INR.
  destruct (half x j) eqn:Eh; unfold half in Eh; destruct (Rlt_dec (1 / 2) (x j)) as [L|L]; try discriminate Eh.
  - cbn [length]. rewrite S_INR. destruct H as [H|H]; lra.
  - destruct H as [H|H]; lra.
Qed.

Lemma near_01 : forall eps r, (0 <= eps)%R -> (eps < 1 / 2)%R -> (0 <= r + eps)%R -> (r - eps <= 1)%R -> near_int eps r -> (- eps <= r <= eps)%R \/ (1 - eps <= r <= 1 + eps)%R.
Proof.
  intros eps r E0 E1 A B (z & C). assert (L1 : (-1 < z)%Z) by (apply lt_IZR; lra). assert (L2 : (z < 2)%Z) by (apply lt_IZR; lra).
  assert (z = 0 \/ z = 1)%Z as [-> | ->] by lia; [left|right]; cbn in C; lra.
Qed.

Lemma filter_half : forall (gs : list (list nat)) a x (T : list nat -> bool), (forall i G, nth_error gs i = Some G -> T G = true -> half x (a + i) = true) ->
  length (filter T gs) <= nhalf (seq a (length gs)) x.
Proof.
  induction gs as [|G gs IH]; intros a x T H; [cbn; lia|]. unfold nhalf in *. cbn [length seq filter].
  assert (L : length (filter T gs) <= length (filter (half x) (seq (S a) (length gs)))). { apply IH. intros i G' E. replace (S a + i) with (a + S i) by lia. apply (H (S i)). exact E. }
  specialize (H 0 G eq_refl). rewrite Nat.add_0_r in H. destruct (T G); [rewrite (H eq_refl); cbn [length]; lia|]. destruct (half x a); cbn [length]; lia.
Qed.

Section Num.
  Variable rf : rform.
  Hypothesis BF : built_form rf.
  Hypothesis Hi : rf_init rf < a_N (rf_sys rf) - 2.

  Lemma C102_num : forall SB t md labels mm ind eps r, sized SB -> (0 <= eps)%R -> (eps < 1 / 2)%R ->
    construct_milp SB rf t md labels false None = Ok (Some (mm, ind)) -> answer_within eps mm r -> sr_status r = Optimal ->
    let cert := firstn (cert_dim rf md) (sr_vec r) in
    exists u j, length u = cert_dim rf md /\ (md = Min -> u = repeat 1%Q (cert_dim rf md)) /\
      (md = Max -> exists A b, fark_constraints rf t Max = Ok (A, b) /\ compute_upper_bounds SB A (cert_dim rf md) b = Ok (Optimal, u)) /\
      grouping rf md labels true (map snd ind) /\
      (INR j - (INR (length ind) + 1) * eps <= Q2R (sr_val r) <= INR j + (INR (length ind) + 1) * eps)%R /\
      forall T, (forall G, In G (map snd ind) -> T G = true -> touches_above (fun i => eps * (1 + Rabs (vec u i)))%R cert G) -> length (filter T (map snd ind)) <= j.
  Proof.
    intros SB t md labels mm ind eps r HS E0 E1 EC HA EST cert. pose proof (sized_bounds rf BF Hi SB t md HS) as HU.
    destruct (construct_has rf BF Hi SB t md labels false mm ind EC HU) as (ub & gs & A & b & Hm & EA & ECB & NU & EG & CS & CH).
    destruct ub as [u|]; [|exfalso; apply (NU eq_refl); reflexivity]. destruct (HA EST) as (L & (F1 & F2) & V1). set (x := vec (sr_vec r)) in *.
    destruct CS as (EI & LV & _ & _ & _ & GV & OB & _). set (k := cert_dim rf md) in *.
    assert (LU : length u = k) by (apply HU; eauto).
    assert (FX : map fst ind = seq k (length gs)) by (rewrite EI; apply combine_fst; rewrite seq_length; auto).
    assert (SX : map snd ind = gs). { rewrite EI. clear. generalize k. induction gs as [|G gs IH]; intros k0; [reflexivity|]. cbn [length seq combine map snd]. rewrite IH. reflexivity. }
    assert (LI : length ind = length gs) by (rewrite <- SX, map_length; reflexivity).
    destruct CH as (A' & b' & _ & _ & _ & CI).
    assert (BIN : forall sigma G, In (sigma, G) ind -> ((- eps <= x sigma <= eps)%R \/ (1 - eps <= x sigma <= 1 + eps)%R)).
    { intros sigma G HI. destruct (CI sigma G HI) as ((w & Hw & Ew) & _). cbn [mk_var] in Ew. injection Ew as <-. destruct (F1 _ _ Hw) as (B1 & B2 & B3). cbn [v_lb v_ub v_int above below] in *.
      rewrite RMicromega.Q2R_0 in B1. rewrite RMicromega.Q2R_1 in B2. apply near_01; auto. }
    exists u, (nhalf (map fst ind) x). split; [exact LU|]. split; [|split; [|split; [|split]]].
    - intros ->. cbn [choose_bounds] in ECB. injection ECB as <-. reflexivity.
    - intros ->. exists A, b. split; [exact EA|]. cbn [choose_bounds] in ECB. destruct (is_ec_free rf); [|injection ECB; discriminate].
      apply bind_ok in ECB. destruct ECB as ((st & u') & EU & ECB). destruct st; injection ECB as ECB; try discriminate. subst u'. exact EU.
    - rewrite SX. apply (groups_ok rf BF) in EG. destruct md; [|exact EG|congruence]. destruct labels as [ls|]; exact EG.
    - rewrite OB in V1. pose proof (lsum_half (map fst ind) x eps E0 E1) as LH. rewrite map_length in LH.
      assert (HB : forall j, In j (map fst ind) -> ((- eps <= x j <= eps)%R \/ (1 - eps <= x j <= 1 + eps)%R)). { intros j Hj. apply in_map_iff in Hj. destruct Hj as ((s & G) & <- & HI). apply (BIN _ _ HI). }
      specialize (LH HB). lra.
    - rewrite SX, FX. intros T HT. apply filter_half. intros i G EGi ET. assert (HG : In G gs) by (eapply nth_error_In; eauto). destruct (HT G HG ET) as (v & Hv & Hb).
      assert (NN : (0 <= eps * (1 + Rabs (vec u v)))%R) by (apply Rmult_le_pos; [auto|pose proof (Rabs_pos (vec u v)); lra]).
      assert (Hvk : v < k). { destruct (Nat.lt_ge_cases v k) as [|X]; auto. unfold vec at 2 in Hb. rewrite nth_overflow in Hb; [rewrite RMicromega.Q2R_0 in Hb; lra|]. unfold cert. rewrite firstn_length. fold k. lia. }
      unfold cert in Hb. rewrite firstn_vec in Hb by exact Hvk. fold x in Hb.
      assert (HI : In (k + i, G) ind) by (rewrite EI; apply combine_seq_in; exact EGi). destruct (CI _ _ HI) as (_ & HC).
      assert (EK : k_of (Some u) v = Some (nth v u 0%Q)) by (cbn [k_of]; apply nth_error_nth'; lia). destruct (HC v _ Hv EK) as (key & Hkey). specialize (F2 _ _ Hkey).
      unfold ind_con in F2. cbn [c_sense c_lhs c_rhs rel_within] in F2.
      rewrite affine_id in F2 by (cbn [map fst]; constructor; [intros [X|[]]; lia|constructor; [intros []|constructor]]). cbn [lin] in F2.
      rewrite Q2R_opp, RMicromega.Q2R_0, RMicromega.Q2R_1 in F2. change (Q2R (nth v u 0%Q)) with (vec u v) in F2. fold k in F2.
      unfold half. destruct (Rlt_dec (1 / 2) (x (k + i)%nat)) as [|NL]; [reflexivity|]. exfalso.
      destruct (BIN _ _ HI) as [B|B]; [|lra]. assert (AB : (vec u v * x (k + i)%nat <= Rabs (vec u v) * eps)%R).
      { eapply Rle_trans; [apply Rle_abs|]. rewrite Rabs_mult. apply Rmult_le_compat_l; [apply Rabs_pos|]. apply Rabs_le. lra. }
      lra.
  Qed.
End Num.

Lemma exact_success : forall SB S rf t md labels sub v cert mm ind, construct_milp SB rf t md labels false None = Ok (Some (mm, ind)) ->
  In (MkPRes Success (Some sub) (Some v) (Some cert)) (g_items (milp_exact SB S rf t md labels)) ->
  md <> OtherMode /\ sr_status (S mm) = Optimal /\ v = sr_val (S mm) /\ cert = firstn (cert_dim rf md) (sr_vec (S mm)).
Proof.
  intros SB S rf t md labels sub v cert mm ind EC H. assert (Hm : md <> OtherMode) by (intros ->; discriminate). unfold milp_exact in H. rewrite EC in H. cbn [bind] in H. cbv zeta in H.
  destruct (sr_status (S mm)) eqn:EST; try (cbn in H; destruct H as [H|[]]; discriminate). rewrite (size_ok rf md Hm) in H. cbn [bind] in H.
  destruct (mk_subsystem rf (firstn (cert_dim rf md) (sr_vec (S mm))) md false) as [w|e]; cbn [bind] in H; [|destruct H]. destruct H as [H|[]]. injection H as <- <- <-. auto.
Qed.

(** C102 *)
Lemma C102_counted_lemma : forall rf SB S t md labels mm ind eps sub v cert, built_form rf -> rf_init rf < a_N (rf_sys rf) - 2 -> sized SB ->
  (0 <= eps)%R -> (eps < 1 / 2)%R -> construct_milp SB rf t md labels false None = Ok (Some (mm, ind)) -> answer_within eps mm (S mm) ->
  In (MkPRes Success (Some sub) (Some v) (Some cert)) (g_items (milp_exact SB S rf t md labels)) ->
  exists u j, length u = cert_dim rf md /\ (md = Min -> u = repeat 1%Q (cert_dim rf md)) /\
    (md = Max -> exists A b, fark_constraints rf t Max = Ok (A, b) /\ compute_upper_bounds SB A (cert_dim rf md) b = Ok (Optimal, u)) /\
    grouping rf md labels true (map snd ind) /\
    (INR j - (INR (length ind) + 1) * eps <= Q2R v <= INR j + (INR (length ind) + 1) * eps)%R /\
    forall T, (forall G, In G (map snd ind) -> T G = true -> touches_above (fun i => eps * (1 + Rabs (vec u i)))%R cert G) -> length (filter T (map snd ind)) <= j.
Proof.
  intros rf SB S t md labels mm ind eps sub v cert BF Hi HS E0 E1 EC HA HI. destruct (exact_success _ _ _ _ _ _ _ _ _ _ _ EC HI) as (Hm & EST & -> & ->).
  apply (C102_num rf BF Hi SB t md labels mm ind eps (S mm)); auto.
Qed.

Lemma filter_map_count : forall A B (f : A -> B) (T : B -> bool) l, length (filter T (map f l)) = length (filter (fun a => T (f a)) l).
Proof. induction l as [|a l IH]; cbn; [reflexivity|]. destruct (T (f a)); cbn; rewrite IH; reflexivity. Qed.

Lemma C102_minimal_lemma : forall rf SB S t eps gap sub v cert, built_form rf -> exact_rows (a_P (rf_sys rf)) -> rf_init rf < a_N (rf_sys rf) - 2 -> sized SB ->
  (0 <= eps)%R -> (0 <= gap)%R -> ((INR (a_N (rf_sys rf) - 2) + 1) * eps + gap < 1)%R ->
  (forall mm ind, construct_milp SB rf t Min None false None = Ok (Some (mm, ind)) -> answer_within eps mm (S mm) /\
     (sr_status (S mm) = Optimal -> forall x, feasible mm x -> (Q2R (sr_val (S mm)) <= objective mm x + gap)%R)) ->
  In (MkPRes Success (Some sub) (Some v) (Some cert)) (g_items (milp_exact SB S rf t Min None)) ->
  forall keep, witness rf Min t keep -> (Q2R v <= INR (count keep (a_N (rf_sys rf) - 2)) + gap)%R /\
    forall T, (forall s, T s = true -> (2 * eps < vec cert s)%R) -> count T (a_N (rf_sys rf) - 2) <= count keep (a_N (rf_sys rf) - 2).
Proof.
  intros rf SB S t eps gap sub v cert BF EX Hi HS E0 G0 SM HA HI keep HW. set (n := a_N (rf_sys rf) - 2) in *.
  destruct (C39_final rf t SB BF EX Hi) as (pr & mm & ind & PM & EC & (r & XA) & HX). destruct (HA mm ind EC) as (HA1 & HA2).
  destruct (exact_success _ _ _ _ _ _ _ _ _ _ _ EC HI) as (_ & EST & -> & ->).
  assert (PRT : (Q2R t <= pr)%R).
  { pose proof (witness_below rf BF Hi EX Min t keep ltac:(discriminate) HW) as WB. cbn [opt_value] in WB.
    assert (LT : rf_init rf < nS (form_mdp rf)) by (change (nS (form_mdp rf)) with (a_N (rf_sys rf)); lia).
    pose proof (min_value rf BF EX Hi) as MV. apply (Vmn_min rf BF EX (rf_init rf) pr LT) in PM. rewrite PM. exact WB. }
  destruct (HX (fun _ => r) XA) as (_ & _ & HX2). destruct (HX2 PRT) as (sub' & v' & cert' & j & EI & _ & _ & EV & _ & _ & MIN).
  assert (HI' : In (MkPRes Success (Some sub') (Some v') (Some cert')) (g_items (milp_exact SB (fun _ => r) rf t Min None))) by (rewrite EI; left; auto).
  destruct (exact_success _ _ _ _ _ _ _ _ _ _ _ EC HI') as (_ & EST' & -> & ->). unfold exact_answer in XA. rewrite EST' in XA. destruct XA as (_ & (FE & _) & OV).
  specialize (HA2 EST _ FE). rewrite <- OV, EV in HA2. specialize (MIN keep HW). fold n in MIN. apply le_INR in MIN.
  assert (N1 : (1 <= INR n)%R) by (change 1%R with (INR 1); apply le_INR; unfold n; lia).
  assert (E1 : (eps < 1 / 2)%R). { assert (1 * eps <= INR n * eps)%R by (apply Rmult_le_compat_r; auto). lra. }
  split; [lra|]. intros T HT. destruct (C102_num rf BF Hi SB t Min None mm ind eps (S mm) HS E0 E1 EC HA1 EST) as (u & j' & LU & HU & _ & GR & VB & CN).
  cbn [grouping] in GR. specialize (HU eq_refl). change (cert_dim rf Min) with n in *.
  assert (LI : length ind = n). { rewrite <- (map_length snd), GR, map_length, seq_length. reflexivity. } rewrite LI in VB.
  assert (J : j' <= count keep n). { apply INR_le. assert (INR j' < INR (count keep n) + 1)%R by lra. rewrite <- S_INR in H. apply INR_lt in H. apply le_INR. lia. }
  eapply Nat.le_trans; [|exact J]. specialize (CN (fun G => match G with [s] => T s | _ => false end)). rewrite GR, filter_map_count in CN. apply CN.
  intros G HG HTG. apply in_map_iff in HG. destruct HG as (s & <- & Hs). apply in_seq in Hs. exists s. split; [left; auto|]. rewrite HU. unfold vec at 1.
  rewrite (nth_indep _ _ 1%Q) by (rewrite repeat_length; lia). rewrite nth_repeat, RMicromega.Q2R_1, Rabs_R1. specialize (HT s HTG). lra.
Qed.
