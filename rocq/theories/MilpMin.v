(** Minimality of the subsystems found by the exact models. *)
From Coq Require Import String List Arith ZArith QArith Qreals Reals Bool Lia Lra Permutation Classical.
From Coq Require Lqa.
From Verif Require Import Base BaseFacts Num Matrix MatFacts InvDict SccSpec SpecMdp SpecEc SpecSystem SpecForm SpecBuilt SpecProb SpecSub SpecLp SpecMilp SumFacts MdpValue RfTheory SubTheory
  Amdp ReachForm ReachFormProofs RfFacts BuiltFacts RfBridge Farkas FarkReal Milp MilpProofs LpExists FarkProofs CertProofs Subsystem SubProofs4 SubProofs5 RfLpProofs Formulations MilpBuild GroupProofs MilpForm MilpMax MilpKeep MilpExact Problems.
Import ListNotations.
Local Open Scope nat_scope.

Lemma firstn_vec : forall l k v, v < k -> vec (firstn k l) v = vec l v.
Proof.
  intros l k v H. unfold vec. f_equal. revert k v H. induction l as [|a l IH]; intros [|k] [|v] H; cbn; auto; try lia. apply IH. lia.
Qed.

Lemma F2_length : forall A B (R : A -> B -> Prop) l l', Forall2 R l l' -> length l = length l'.
Proof. intros A B R l l' H. induction H; cbn; auto. Qed.

Section Min.
  Variable rf : rform.
  Hypothesis BF : built_form rf.
  Hypothesis Hi : rf_init rf < a_N (rf_sys rf) - 2.
  Hypothesis EX : exact_rows (a_P (rf_sys rf)).
  Let m := rf_sys rf.
  Let P := a_P m.
  Let inv := a_inv m.
  Let n := rf_N rf.
  Let c := rf_C rf.
  Let M := form_mdp rf.

  Definition good_bounds (md : mode) (t : Q) (u : list Q) : Prop :=
    length u = cert_dim rf md /\ (md = Min -> u = repeat 1%Q (cert_dim rf md)) /\ (md = Max -> forall x, max_point rf t x -> forall i, i < c -> (x i <= vec u i)%R).

  Lemma point_of_witness : forall md t u keep, md <> OtherMode -> good_bounds md t u -> witness rf md t keep ->
    exists y, polytope rf md t y /\ (forall v, v < cert_dim rf md -> (0 <= y v <= vec u v)%R /\ (md = Min -> in_some_ec P inv v -> y v = 0%R)) /\
      forall v, v < cert_dim rf md -> (0 < y v)%R -> keep (own rf md v) = true.
  Proof.
    intros md t u keep Hm (L & U1 & U2) HW. destruct md; [| |congruence].
    - apply (witness_min rf BF Hi EX) in HW. destruct (z_complete (form_mdp rf) (proj1 (br_rf rf BF EX)) keep) as (Z1 & Z2 & Z3 & Z4).
      set (z := Vmin _ _ _) in *. exists z. split; [apply (polytope_min rf BF); split; [exact Z1|exact HW]|]. split.
      + intros v Hv. split.
        * rewrite (U1 eq_refl). unfold vec. rewrite (nth_indep _ _ 1%Q) by (rewrite repeat_length; auto). rewrite nth_repeat, RMicromega.Q2R_1. apply Z2.
        * intros _ HE. apply Z4; [exact Hv|]. apply (br_ec rf BF EX). exact HE.
      + intros v Hv Hp. cbn [own]. destruct (keep v) eqn:K; auto. rewrite (Z3 v Hv K) in Hp. lra.
    - apply (witness_max rf BF Hi EX) in HW. destruct (y_complete rf BF EX Hi keep t HW) as (y & HY & HZ). exists y. split; [apply HY|]. split.
      + intros v Hv. split; [|discriminate]. split; [apply HY; exact Hv|]. apply (U2 eq_refl); auto.
      + intros v Hv Hp. rewrite (own_src rf BF) by exact Hv. destruct (keep (src (form_mdp rf) v)) eqn:K; auto. rewrite (HZ v Hv K) in Hp. lra.
  Qed.

  Section Model.
  Variables (md : mode) (t : Q) (u : list Q) (gs : list (list nat)) (mm : milp) (ind : dict nat (list nat)).
  Hypothesis Hm : md <> OtherMode.
  Hypothesis GB : good_bounds md t u.
  Hypothesis GR : grouping rf md None (match md with Max => true | _ => false end) gs.
  Hypothesis CS : construct_spec rf md t false (Some u) gs mm ind.
  Let k := cert_dim rf md.

  Lemma VP : forall x, feasible mm x <-> polytope rf md t x /\ (forall v, v < k -> (0 <= x v <= vec u v)%R /\ (md = Min -> in_some_ec P inv v -> x v = 0%R)) /\
      forall sigma G, In (sigma, G) ind -> (x sigma = 0%R \/ x sigma = 1%R) /\ forall v, In v G -> (0 < x v)%R -> x sigma = 1%R.
  Proof. intros x. apply (vb_point rf Hi md t u gs mm ind x (proj1 GB) (proj1 (proj2 GB)) CS). Qed.
  Lemma FX : map fst ind = seq k (length gs).
  Proof. destruct CS as (EI & _). rewrite EI. apply combine_fst. rewrite seq_length. auto. Qed.

  Lemma objective_ones : forall x, feasible mm x -> objective mm x = INR (ones (seq k (length gs)) x).
  Proof.
    intros x F. pose proof CS as (_ & _ & _ & _ & _ & _ & OB & _). rewrite OB, FX. apply ones_sum. rewrite <- FX. intros j Hj. apply in_map_iff in Hj. destruct Hj as ([s G] & <- & Hin).
    apply VP in F. destruct F as (_ & _ & F). apply (F _ _ Hin).
  Qed.

  Lemma feasible_of_point : forall keep y, polytope rf md t y -> (forall v, v < k -> (0 <= y v <= vec u v)%R /\ (md = Min -> in_some_ec P inv v -> y v = 0%R)) ->
    (forall v, v < k -> (0 < y v)%R -> keep (own rf md v) = true) ->
    exists x, feasible mm x /\ objective mm x = INR (count keep n) /\ (forall v, v < k -> x v = y v) /\ forall j, k <= j -> x j = 0%R \/ x j = 1%R.
  Proof.
    intros keep y H1 H2 H3. destruct (group_states rf BF Hi md gs Hm GR) as (ss & ND & SS & F2).
    set (x := fun j => if j <? k then y j else match nth_error ss (j - k) with Some s => if keep s then 1%R else 0%R | None => 0%R end).
    assert (X1 : forall v, v < k -> x v = y v). { intros v Hv. unfold x. apply Nat.ltb_lt in Hv. rewrite Hv. auto. }
    assert (X2 : forall i s, nth_error ss i = Some s -> x (k + i) = if keep s then 1%R else 0%R).
    { intros i s E. unfold x. destruct (Nat.ltb_spec (k + i) k); [lia|]. replace (k + i - k) with i by lia. rewrite E. auto. }
    assert (LS : length ss = length gs) by (eapply F2_length; eauto).
    assert (F : feasible mm x).
    { apply VP. split; [eapply (polytope_ext rf BF Hi); [|exact H1]; intros v Hv; symmetry; apply X1; exact Hv|]. split; [intros v Hv; rewrite X1 by exact Hv; apply H2; exact Hv|].
      intros sigma G Hin. pose proof CS as (EI & _). rewrite EI in Hin. apply in_combine_seq in Hin. destruct Hin as (i & EG & ->). change (cert_dim rf md) with k.
      assert (exists s, nth_error ss i = Some s /\ (forall v, In v G <-> v < k /\ own rf md v = s)) as (s & Es & HG).
      { clear - F2 EG. revert i EG. induction F2 as [|s G' ss gs HF F IH]; intros [|i] EG; cbn in EG; try discriminate; [injection EG as <-; exists s; auto|]. apply IH in EG. exact EG. }
      rewrite (X2 i s Es). split; [destruct (keep s); auto|]. intros v Hv Hp. apply HG in Hv. destruct Hv as [Hv Ho]. rewrite X1 in Hp by exact Hv. specialize (H3 v Hv Hp). rewrite Ho in H3. rewrite H3. auto. }
    exists x. split; [exact F|]. split; [|split; [exact X1|]].
    - rewrite (objective_ones x F). f_equal. rewrite <- LS. rewrite (ones_exact ss k keep x X2). apply count_perm; auto.
    - intros j Hj. unfold x. destruct (Nat.ltb_spec j k); [lia|]. destruct (nth_error ss (j - k)) as [s|]; auto. destruct (keep s); auto.
  Qed.

  Lemma feasible_of_witness : forall keep, witness rf md t keep -> exists x, feasible mm x /\ objective mm x = INR (count keep n).
  Proof.
    intros keep HW. destruct (point_of_witness md t u keep Hm GB HW) as (y & H1 & H2 & H3). destruct (feasible_of_point keep y H1 H2 H3) as (x & A & B & _). eauto.
  Qed.

  Lemma witness_of_feasible : forall v, length v = length (mi_vars mm) -> feasible mm (vec v) ->
    length (firstn k v) = k /\ cert_point rf md t (firstn k v) /\ witness rf md t (chosen m md (firstn k v)) /\
    (INR (count (chosen m md (firstn k v)) n) <= objective mm (vec v))%R.
  Proof.
    intros v L F. pose proof CS as (EI & LV & _). change (cert_dim rf md) with k in LV. set (cert := firstn k v).
    assert (LC : length cert = k) by (unfold cert; rewrite firstn_length; lia).
    pose proof F as F0. apply VP in F. destruct F as (H1 & H2 & H3).
    assert (CP : cert_point rf md t cert).
    { apply (point_cert rf BF md t (Some u) cert LC).
      - eapply (polytope_ext rf BF Hi); [|exact H1]. intros j Hj. symmetry. apply firstn_vec. exact Hj.
      - intros j Hj. unfold cert. rewrite firstn_vec by exact Hj. rewrite (vb_some rf Hi md u j) by (rewrite (proj1 GB); exact Hj). destruct (H2 j Hj) as ((A & B) & C).
        split; [exact A|]. split; [intros E1 E2; rewrite (C E1 E2); lra|auto]. }
    split; [exact LC|]. split; [exact CP|]. split; [apply (C32_support_lemma rf md t cert BF EX Hi CP)|].
    rewrite (objective_ones _ F0). apply le_INR. destruct (group_states rf BF Hi md gs Hm GR) as (ss & ND & SS & F2). rewrite <- (count_perm _ ss n ND SS).
    rewrite <- (F2_length _ _ _ _ _ F2). apply ones_le. intros i s Es K.
    assert (exists G, nth_error gs i = Some G /\ (forall v, In v G <-> v < k /\ own rf md v = s)) as (G & EG & HG).
    { clear - F2 Es. revert i Es. induction F2 as [|s' G' ss gs HF F IH]; intros [|i] EG; cbn in EG; try discriminate; [injection EG as <-; exists G'; auto|]. apply IH in EG. exact EG. }
    assert (Hs : s < n) by (apply SS; eapply nth_error_In; eauto).
    apply (chosen_iff rf BF Hi md cert s Hm Hs) in K. destruct K as (j & Hj & Ho & Hp). unfold cert in Hp. rewrite firstn_vec in Hp by exact Hj.
    destruct (H3 (k + i) G) as (_ & H4). { rewrite EI. apply combine_seq_in. exact EG. } apply (H4 j); [apply HG; auto|exact Hp].
  Qed.

  Lemma exact_result : forall r, exact_answer mm r ->
    ((opt_value rf BF EX md < Q2R t)%R /\ sr_status r = Infeasible) \/
    ((Q2R t <= opt_value rf BF EX md)%R /\ sr_status r = Optimal /\ length (firstn k (sr_vec r)) = k /\ cert_point rf md t (firstn k (sr_vec r)) /\
      exists j, Q2R (sr_val r) = INR j /\ witness rf md t (chosen m md (firstn k (sr_vec r))) /\ count (chosen m md (firstn k (sr_vec r))) n = j /\
        forall keep, witness rf md t keep -> j <= count keep n).
  Proof.
    intros r HA. destruct (Rlt_le_dec (opt_value rf BF EX md) (Q2R t)) as [HL|HL].
    - left. split; [exact HL|]. pose proof HA as HA'. unfold exact_answer in HA. destruct (sr_status r) eqn:ES; auto; try contradiction; exfalso.
      + destruct HA as (L & (F & _) & _). destruct (witness_of_feasible _ L F) as (_ & _ & HW & _). apply (witness_below rf BF Hi EX md) in HW; auto. lra.
      + destruct HA as (_ & HA). destruct (HA 0%R) as (x & F & NB). apply NB. pose proof CS as (_ & _ & D & _). rewrite D. cbn [better]. rewrite (objective_ones x F). apply pos_INR.
    - right. split; [exact HL|]. pose proof (witness_all rf BF Hi EX md t Hm HL) as HW. destruct (feasible_of_witness _ HW) as (x & F & _).
      assert (D : mi_dir mm = Minimise) by (apply CS).
      assert (ES : sr_status r = Optimal). { apply (exact_optimal mm r HA); [eauto|]. exists 0%R. intros y Fy. rewrite D. cbn [better]. rewrite (objective_ones y Fy). apply pos_INR. }
      split; [exact ES|]. unfold exact_answer in HA. rewrite ES in HA. destruct HA as (L & (Fv & OPT) & HV).
      destruct (witness_of_feasible _ L Fv) as (LC & CP & W & CO). split; [exact LC|]. split; [exact CP|].
      exists (ones (seq k (length gs)) (vec (sr_vec r))). rewrite (objective_ones _ Fv) in HV, CO. apply INR_le in CO. split; [exact HV|]. split; [exact W|].
      assert (LE : forall keep, witness rf md t keep -> ones (seq k (length gs)) (vec (sr_vec r)) <= count keep n).
      { intros keep HK. destruct (feasible_of_witness keep HK) as (y & Fy & Oy). specialize (OPT y Fy). rewrite D in OPT. cbn [better] in OPT. rewrite (objective_ones _ Fv), Oy in OPT. apply INR_le. exact OPT. }
      split; [apply Nat.le_antisymm; [exact CO|apply LE; exact W]|exact LE].
  Qed.
  End Model.

  (** ** milp_exact *)
  Lemma exact_gen : forall SB S t md mm ind u gs, md <> OtherMode -> good_bounds md t u -> grouping rf md None (match md with Max => true | _ => false end) gs ->
    construct_spec rf md t false (Some u) gs mm ind -> construct_milp SB rf t md None false None = Ok (Some (mm, ind)) -> exact_answer mm (S mm) ->
    g_exn (milp_exact SB S rf t md None) = None /\
    ((opt_value rf BF EX md < Q2R t)%R -> g_items (milp_exact SB S rf t md None) = [failure Infeasible]) /\
    ((Q2R t <= opt_value rf BF EX md)%R -> exists sub v cert j, g_items (milp_exact SB S rf t md None) = [MkPRes Success (Some sub) (Some v) (Some cert)] /\
      mk_subsystem rf cert md false = Ok sub /\ cert_point rf md t cert /\ Q2R v = INR j /\ witness rf md t (chosen m md cert) /\ count (chosen m md cert) n = j /\ forall keep, witness rf md t keep -> j <= count keep n).
  Proof.
    intros SB S t md mm ind u gs Hm GB GR CS E HA. unfold milp_exact. rewrite E. cbn [bind].
    destruct (exact_result md t u gs mm ind Hm GB GR CS (S mm) HA) as [(HL & ES)|(HL & ES & LC & CP & j & HV & W & CO & LE)]; rewrite ES.
    - cbn [g_exn g_items]. split; [auto|]. split; [auto|]. intros; lra.
    - rewrite (size_ok rf md Hm). cbn [bind].
      assert (MK : exists sub, mk_subsystem rf (firstn (cert_dim rf md) (sr_vec (S mm))) md false = Ok sub).
      { unfold mk_subsystem. destruct md; [| |congruence]; cbn [cert_dim] in LC |- *; cbn [assert_ bind]; rewrite LC; rewrite Nat.eqb_refl; cbn; eauto. }
      destruct MK as (sub & MK). rewrite MK. cbn [bind g_exn g_items]. split; [auto|]. split; [intros; lra|]. intros _.
      exists sub, (sr_val (S mm)), (firstn (cert_dim rf md) (sr_vec (S mm))), j. do 6 (split; [auto; fail|]). exact LE.
  Qed.

  Lemma min_bounds : forall t, good_bounds Min t (repeat 1%Q (cert_dim rf Min)).
  Proof. intros t. split; [apply repeat_length|]. split; [auto|discriminate]. Qed.

  Lemma C39_lemma : forall SB t, exists mm ind, construct_milp SB rf t Min None false None = Ok (Some (mm, ind)) /\
    forall S, exact_answer mm (S mm) -> g_exn (milp_exact SB S rf t Min None) = None /\
    ((Vmn rf BF EX (rf_init rf) < Q2R t)%R -> g_items (milp_exact SB S rf t Min None) = [failure Infeasible]) /\
    ((Q2R t <= Vmn rf BF EX (rf_init rf))%R -> exists sub v cert j, g_items (milp_exact SB S rf t Min None) = [MkPRes Success (Some sub) (Some v) (Some cert)] /\
      mk_subsystem rf cert Min false = Ok sub /\ cert_point rf Min t cert /\ Q2R v = INR j /\ witness rf Min t (chosen m Min cert) /\ count (chosen m Min cert) n = j /\ forall keep, witness rf Min t keep -> j <= count keep n).
  Proof.
    intros SB t. destruct (fark_real rf BF Hi Min t ltac:(discriminate)) as (A & b & EA & _).
    destruct (construct_total rf BF Hi SB t Min A b (repeat 1%Q (cert_dim rf Min)) ltac:(discriminate) EA eq_refl (repeat_length _ _)) as (mm & ind & E).
    exists mm, ind. split; [exact E|]. intros S HA.
    destruct (construct_inv rf BF Hi SB t Min None false mm ind E) as (ub & gs & A' & b' & Hm & EA' & EC & _ & _ & EG & CS).
    { intros u (A1 & b1 & _ & EC). cbn in EC. injection EC as <-. apply repeat_length. }
    cbn [choose_bounds] in EC. injection EC as <-.
    apply (exact_gen SB S t Min mm ind _ gs Hm (min_bounds t) (groups_ok rf BF Min None false gs EG) CS E HA).
  Qed.

  Lemma C40_lemma : (forall s, s < n -> ~ in_some_ec P inv s) -> forall t, exists A b lp, fark_constraints rf t Max = Ok (A, b) /\ upper_bound_lp A c b = Ok lp /\ (exists r, exact_answer lp r) /\
    forall SB, exact_answer lp (SB lp) ->
    ((Vmx rf BF EX (rf_init rf) < Q2R t)%R /\ construct_milp SB rf t Max None false None = Ok None /\ forall S, milp_exact SB S rf t Max None = MkGen [failure Infeasible] None) \/
    ((Q2R t <= Vmx rf BF EX (rf_init rf))%R /\ exists mm ind, construct_milp SB rf t Max None false None = Ok (Some (mm, ind)) /\
      forall S, exact_answer mm (S mm) -> g_exn (milp_exact SB S rf t Max None) = None /\
      exists sub v cert j, g_items (milp_exact SB S rf t Max None) = [MkPRes Success (Some sub) (Some v) (Some cert)] /\
        mk_subsystem rf cert Max false = Ok sub /\ cert_point rf Max t cert /\ Q2R v = INR j /\ witness rf Max t (chosen m Max cert) /\ count (chosen m Max cert) n = j /\ forall keep, witness rf Max t keep -> j <= count keep n).
  Proof.
    intros FREE t. assert (FR : ec_free (form_mdp rf)). { intros s Hs HE. apply (FREE s Hs). apply (br_ec rf BF EX). exact HE. }
    destruct (bounds_max rf BF EX Hi FR t) as (A & b & lp & EA & EL & XA & HB). exists A, b, lp. do 3 (split; [assumption|]). intros SB HA.
    assert (EF : is_ec_free rf = true) by (apply (is_ec_free_iff rf (rf_init rf) (br_ro rf BF) (br_form rf BF)); exact FREE).
    assert (WK : forall x, max_point rf t x -> (Q2R t <= Vmx rf BF EX (rf_init rf))%R).
    { intros x (HP & H0). apply (polytope_max rf BF) in HP. destruct HP as [HP Ht]. eapply Rle_trans; [exact Ht|]. unfold Vmx. rewrite (Vmax_irrel _ _ (RFW (form_mdp rf) (proj1 (br_rf rf BF EX)))).
      apply (y_max_sound (form_mdp rf) (rf_init rf) (proj1 (br_rf rf BF EX)) x); auto. }
    destruct (HB SB HA) as [(NO & u & EU)|((x & HX) & u & EU & LU & HU)].
    - left. assert (HV : (Vmx rf BF EX (rf_init rf) < Q2R t)%R).
      { destruct (Rlt_le_dec (Vmx rf BF EX (rf_init rf)) (Q2R t)) as [|HL]; auto. exfalso. pose proof (witness_all rf BF Hi EX Max t ltac:(discriminate) HL) as HW.
        apply (witness_max rf BF Hi EX) in HW. destruct (y_complete rf BF EX Hi _ t HW) as (y & HY & _). apply (NO y HY). }
      assert (EC : construct_milp SB rf t Max None false None = Ok None).
      { unfold construct_milp. rewrite EA. cbn [bind certificate_size choose_bounds]. rewrite EF. change (a_C (rf_sys rf) - 2) with (rf_C rf). rewrite EU. reflexivity. }
      split; [exact HV|]. split; [exact EC|]. intros S. unfold milp_exact. rewrite EC. reflexivity.
    - right. split; [apply (WK x HX)|].
      assert (GB : good_bounds Max t u) by (split; [exact LU|split; [discriminate|auto]]).
      assert (EC : choose_bounds SB rf A (cert_dim rf Max) b Max None = Ok (Some (Some u))). { cbn [choose_bounds]. rewrite EF. change (cert_dim rf Max) with (rf_C rf). rewrite EU. reflexivity. }
      destruct (construct_total rf BF Hi SB t Max A b u ltac:(discriminate) EA EC LU) as (mm & ind & E). exists mm, ind. split; [exact E|]. intros S HM.
      destruct (construct_inv rf BF Hi SB t Max None false mm ind E) as (ub & gs & A' & b' & Hm & EA' & EC' & _ & _ & EG & CS).
      { intros u' (A1 & b1 & E1 & E2). rewrite EA in E1. injection E1 as <- <-. rewrite EC in E2. injection E2 as <-. exact LU. }
      rewrite EA in EA'. injection EA' as <- <-. rewrite EC in EC'. injection EC' as <-.
      destruct (exact_gen SB S t Max mm ind u gs Hm GB (groups_ok rf BF Max None true gs EG) CS E HM) as (G1 & _ & G3). split; [exact G1|]. apply G3. apply (WK x HX).
  Qed.
End Min.
