(** Exact minimisation with labels. *)
From Coq Require Import String List Arith ZArith QArith Qreals Reals Bool Lia Lra Permutation.
From Coq Require Lqa.
From Verif Require Import Base BaseFacts Num Matrix MatFacts InvDict SccSpec SpecMdp SpecEc SpecSystem SpecForm SpecBuilt SpecProb SpecSub SpecLp SpecMilp SpecLabel SumFacts MdpValue RfTheory SubTheory
  Amdp ReachForm ReachFormProofs RfFacts BuiltFacts RfBridge Farkas FarkReal Milp MilpProofs LpExists FarkProofs CertProofs Subsystem SubProofs4 SubProofs5 RfLpProofs Formulations MilpBuild GroupProofs MilpForm MilpMax MilpKeep MilpExact MilpMin MilpFinal BinExists GenMin Problems.
Import ListNotations.
Local Open Scope nat_scope.

Lemma label_count_unique : forall m ls keep i j, label_count m ls keep i -> label_count m ls keep j -> i = j.
Proof.
  intros m ls keep i j (k1 & N1 & <- & H1) (k2 & N2 & <- & H2). apply Permutation_length. apply NoDup_Permutation; auto. intros l. rewrite H1, H2. reflexivity.
Qed.

Definition labb (m : amdp) (l : string) (s : nat) : bool := if in_dec Nat.eq_dec s (states_by_label m l) then true else false.
Lemma labb_iff : forall m l s, labb m l s = true <-> has_label m l s.
Proof. intros m l s. unfold labb, has_label. destruct (in_dec Nat.eq_dec s (states_by_label m l)); split; intros; auto; try discriminate; contradiction. Qed.

Section Lab.
  Variable rf : rform.
  Hypothesis BF : built_form rf.
  Hypothesis Hi : rf_init rf < a_N (rf_sys rf) - 2.
  Let m := rf_sys rf.
  Let P := a_P m.
  Let inv := a_inv m.
  Let n := rf_N rf.
  Let c := rf_C rf.
  Let RO : rf_ok rf := br_ro rf BF.
  Let SO : sys_ok m := ro_sys rf RO.

  Lemma row_src_lt : forall i s a, i < a_C m -> a_inv m i = Some (s, a) -> s < a_N m - 2 -> i < c.
  Proof.
    intros i s a HiC E Hs. destruct (row_has_entry m SO i HiC) as (d & p & Hin). apply (row_lt rf BF i s a d p Hs E Hin).
  Qed.

  Lemma groups_labels_total : forall md ls, md <> OtherMode -> inner_labels m ls -> exists gs, groups_from_labels rf md (Some ls) (match md with Max => true | _ => false end) = Ok gs.
  Proof.
    intros md ls Hm HL. unfold groups_from_labels. destruct md; cbn [certificate_size bind]; [eauto| |congruence].
    destruct (acts_ok rf BF) as (acts & EA & EF & ED). rewrite EA. cbn [bind].
    assert (ST : forall s, s < a_N m - 2 -> exists al, get Nat.eqb acts s = Ok al).
    { intros s Hs. destruct (form_states_act rf (rf_init rf) (br_form rf BF) s) as (a & d & i & p & E2 & E1). { unfold m, a_N in Hs. lia. }
      pose proof (row_lt rf BF i s a d p Hs E1 E2) as HiC.
      destruct (collect_facts Nat.eqb Nat.eqb Nat.eqb_spec Nat.eqb_spec (act_pairs rf) [] (NoDup_nil _)) as (_ & _ & C & _); [intros; discriminate|].
      rewrite <- EF in C. destruct (proj2 (C s a)) as (x & Ex & _). { right. apply (act_pairs_in rf BF). exists i. split; [lia|exact E1]. }
      unfold get. rewrite Ex. eauto. }
    assert (T1 : forall l s al acts', get Nat.eqb acts s = Ok al -> (forall a, In a acts' -> In a al) -> forall g : idict string nat, exists g',
      foldM (fun g a => let* i := of_opt KeyError (a_row (rf_sys rf) (s, a)) in Ok (add String.eqb Nat.eqb g l i)) acts' g = Ok g').
    { intros l s al acts' Eal. induction acts' as [|a acts' IH]; intros HA g; [eexists; reflexivity|]. cbn [foldM].
      pose proof (HA a (or_introl eq_refl)) as Ha. apply (act_rows rf BF acts s a EA al Eal) in Ha. destruct Ha as (i & HiC & Ei). rewrite (proj2 (row_inv (rf_sys rf) SO (s, a) i) Ei). cbn [of_opt bind].
      apply IH. intros; apply HA; right; auto. }
    assert (T2 : forall l ss, (forall s, In s ss -> s < a_N m - 2) -> forall g : idict string nat, exists g',
      foldM (fun g s => let* al := get Nat.eqb acts s in foldM (fun g a => let* i := of_opt KeyError (a_row (rf_sys rf) (s, a)) in Ok (add String.eqb Nat.eqb g l i)) al g) ss g = Ok g').
    { intros l. induction ss as [|s ss IH]; intros HS g; [eexists; reflexivity|]. cbn [foldM]. destruct (ST s (HS s (or_introl eq_refl))) as (al & Eal). rewrite Eal. cbn [bind].
      destruct (T1 l s al al Eal (fun _ H => H) g) as (g1 & ->). cbn [bind]. apply IH. intros; apply HS; right; auto. }
    assert (T3 : forall l ls', (forall x, In x ls' -> In x ls) -> l = ls' -> forall g : idict string nat, exists g', foldM (fun g l =>
      foldM (fun g s => let* al := get Nat.eqb acts s in foldM (fun g a => let* i := of_opt KeyError (a_row (rf_sys rf) (s, a)) in Ok (add String.eqb Nat.eqb g l i)) al g) (states_by_label (rf_sys rf) l) g) ls' g = Ok g').
    { intros l0 ls' HI _. clear l0. induction ls' as [|l ls' IH]; intros g; [eexists; reflexivity|]. cbn [foldM].
      destruct (T2 l (states_by_label (rf_sys rf) l)) with (g := g) as (g1 & ->). { intros s Hs. apply (HL l s (HI l (or_introl eq_refl)) Hs). }
      cbn [bind]. apply IH. intros; apply HI; right; auto. }
    destruct (T3 ls ls (fun _ H => H) eq_refl (mk_idict [] false)) as (g' & ->). cbn [bind]. eauto.
  Qed.

  (** The groups, by label. *)
  Lemma label_groups : forall md ls gs, md <> OtherMode -> inner_labels m ls -> grouping rf md (Some ls) (match md with Max => true | _ => false end) gs ->
    exists ks, NoDup ks /\ (forall l, In l ks -> In l ls) /\ (forall l s, In l ls -> has_label m l s -> In l ks) /\
      Forall2 (fun l G => forall v, In v G <-> v < cert_dim rf md /\ labb m l (own rf md v) = true) ks gs.
  Proof.
    intros md ls gs Hm HL (ks & ND & HK & F). exists ks. split; [exact ND|]. split; [intros l Hl; apply HK; exact Hl|]. split.
    { intros l s Hl Hs. apply HK. split; [exact Hl|]. intros _. exists s. exact Hs. }
    eapply Forall2_impl_in; [|exact F]. cbn beta. intros l G Hl [_ HG] v. rewrite HG, labb_iff. apply HK in Hl. destruct Hl as [Hl _]. destruct md; [| |congruence]; cbn [labelled_var cert_dim own].
    - split; [intros H; split; [apply (HL l v Hl H)|exact H]|tauto].
    - split.
      + intros (Hv & s & a & E & Hs). split; [apply (row_src_lt v s a Hv E (HL l s Hl Hs))|]. unfold row_src. unfold m. rewrite E. exact Hs.
      + intros (Hv & Hs). split; [fold m; unfold m; lia|]. destruct (br_row rf BF v Hv) as (a & E & _). exists (src (form_mdp rf) v), a. split; [exact E|]. unfold row_src in Hs. unfold m in Hs. rewrite E in Hs. exact Hs.
  Qed.

  Lemma construct_total_gs : forall S t md A b u labels gs, md <> OtherMode -> fark_constraints rf t md = Ok (A, b) -> choose_bounds S rf A (cert_dim rf md) b md None = Ok (Some (Some u)) ->
    length u = cert_dim rf md -> groups_from_labels rf md labels (match md with Max => true | _ => false end) = Ok gs -> (forall G v, In G gs -> In v G -> v < cert_dim rf md) ->
    exists mm ind, construct_milp S rf t md labels false None = Ok (Some (mm, ind)).
  Proof.
    intros S t md A b u labels gs Hm EA EC L EG HM. unfold construct_milp. rewrite EA. cbn [bind]. rewrite (size_ok rf md Hm). cbn [bind]. rewrite EC. cbn [bind].
    replace (assert_ (negb (negb false && match md with Max => false | _ => false end))) with (Ok tt) by (destruct md; reflexivity). cbn [bind].
    replace (match md with Max => negb false | _ => false end) with (match md with Max => true | _ => false end) by (destruct md; reflexivity).
    rewrite EG. cbn [bind].
    destruct (base_model rf BF Hi md t (Some u) Hm) as (A' & b' & bs & m0 & EA' & Eb & E0 & X1 & X2 & X3 & X4 & X5 & X6). { intros u' E. injection E as <-. exact L. }
    rewrite EA in EA'. injection EA' as <- <-. rewrite Eb. cbn [bind]. rewrite E0. cbn [bind].
    destruct (indicators_total DBinary (Some u) gs m0 [] ltac:(discriminate) X1 X2 ltac:(intros s []) ) as (m1 & ind & E1).
    { intros G v HGi Hv. pose proof (HM G v HGi Hv). rewrite X3. split; [auto|]. cbn [k_of]. apply nth_error_Some. lia. }
    change (if false then DReal else DBinary) with DBinary. assert (E1' : add_indicator_constraints m0 (Some u) gs DBinary = Ok (m1, ind)) by exact E1. rewrite E1'. cbn [bind].
    destruct (indicators_inv _ _ _ _ _ _ _ X1 X2 (fun s (H : In s (dkeys (V := list nat) [])) => match H return _ with end) E1) as (A1 & A2 & A3 & A4 & A5 & A6 & A7 & A8).
    assert (EO : exists m2, set_objective m1 (all_ones ind) = Ok m2).
    { unfold set_objective, assert_expression. replace (forallb _ _) with true; [cbn; eauto|]. symmetry. apply forallb_forall. intros [v q] Hin. cbn [fst]. apply Nat.ltb_lt.
      unfold all_ones in Hin. apply in_map_iff in Hin. destruct Hin as ([s G] & Eq & Hin). cbn [fst] in Eq. injection Eq as <- <-. rewrite A6 in Hin. cbn [app] in Hin.
      apply in_combine_seq in Hin. destruct Hin as (i & EGi & ->). assert (i < length gs) by (apply nth_error_Some; congruence). lia. }
    destruct EO as (m2 & ->). cbn [bind]. eauto.
  Qed.

  Hypothesis EX : exact_rows (a_P (rf_sys rf)).

  Section Model.
  Variables (md : mode) (t : Q) (u : list Q) (ls : list string) (gs : list (list nat)) (ks : list string) (mm : milp) (ind : dict nat (list nat)).
  Hypothesis Hm : md <> OtherMode.
  Hypothesis GB : good_bounds rf md t u.
  Hypothesis KN : NoDup ks.
  Hypothesis KI : forall l, In l ks -> In l ls.
  Hypothesis KS : forall l s, In l ls -> has_label m l s -> In l ks.
  Hypothesis GR : Forall2 (fun l G => forall v, In v G <-> v < cert_dim rf md /\ labb m l (own rf md v) = true) ks gs.
  Hypothesis CS : construct_spec rf md t false (Some u) gs mm ind.
  Let k := cert_dim rf md.

  Definition lpoly (x : nat -> R) : Prop := polytope rf md t x /\ forall v, v < k -> (0 <= x v <= vec u v)%R /\ (md = Min -> in_some_ec P inv v -> x v = 0%R).

  Lemma lhits : forall keep, label_count m ls keep (hits string n (labb m) ks keep).
  Proof.
    intros keep. exists (filter (hit string n (labb m) keep) ks). split; [apply NoDup_filter; exact KN|]. split; [reflexivity|].
    intros l. rewrite filter_In, hit_iff. split.
    - intros (Hl & s & Hs & H1 & H2). split; [apply KI; exact Hl|]. exists s. split; [exact Hs|]. split; [exact H1|apply labb_iff; exact H2].
    - intros (Hl & s & Hs & H1 & H2). split; [apply (KS l s Hl H2)|]. exists s. split; [exact Hs|]. split; [exact H1|apply labb_iff; exact H2].
  Qed.

  Lemma label_result : forall r, exact_answer mm r ->
    ((opt_value rf BF EX md < Q2R t)%R /\ sr_status r = Infeasible) \/
    ((Q2R t <= opt_value rf BF EX md)%R /\ sr_status r = Optimal /\ length (firstn k (sr_vec r)) = k /\ cert_point rf md t (firstn k (sr_vec r)) /\
      exists j, Q2R (sr_val r) = INR j /\ witness rf md t (chosen m md (firstn k (sr_vec r))) /\ label_count m ls (chosen m md (firstn k (sr_vec r))) j /\
        forall keep i, witness rf md t keep -> label_count m ls keep i -> j <= i).
  Proof.
    intros r HA. pose proof (VP rf Hi md t u gs mm ind GB CS) as VPx. pose proof (FX rf md t u gs mm ind CS) as FXx. pose proof (objective_ones rf Hi md t u gs mm ind GB CS) as OO.
    pose proof CS as (EI & LV & D & _).
    assert (CP : forall cert, length cert = k -> lpoly (vec cert) -> cert_point rf md t cert).
    { intros cert LC (H1 & H2). apply (point_cert rf BF md t (Some u) cert LC H1). intros j Hj. rewrite (vb_some rf Hi md u j) by (rewrite (proj1 GB); exact Hj).
      destruct (H2 j Hj) as ((A & B) & C). split; [exact A|]. split; [intros E1 E2; rewrite (C E1 E2); lra|auto]. }
    destruct (gen_result string k n (own rf md) (labb m) ks gs mm lpoly (witness rf md t) (chosen m md)) with (r := r) as [(NW & ES)|(ES & LC & HP & j & HV & W & CO & LE)].
    - intros v Hv. apply (own_lt rf BF). exact Hv.
    - exact GR.
    - intros x y E (H1 & H2). split; [eapply (polytope_ext rf BF Hi); [|exact H1]; exact E|]. intros v Hv. rewrite <- E by exact Hv. apply H2; exact Hv.
    - intros x. rewrite VPx, EI. unfold lpoly. fold k. tauto.
    - exact OO.
    - exact D.
    - exact LV.
    - intros keep HW. destruct (point_of_witness rf BF Hi EX md t u keep Hm GB HW) as (y & H1 & H2 & H3). exists y. split; [split; [exact H1|exact H2]|exact H3].
    - intros cert LC HP. exact (C32_support_lemma rf md t cert BF EX Hi (CP cert LC HP)).
    - intros cert s Hs _. apply (chosen_iff rf BF Hi md cert s Hm Hs).
    - exact HA.
    - left. split; [|exact ES]. destruct (Rlt_le_dec (opt_value rf BF EX md) (Q2R t)) as [|HL]; auto. exfalso. apply (NW (fun _ => true)). apply (witness_all rf BF Hi EX md t Hm HL).
    - right. split; [apply (witness_below rf BF Hi EX md t _ Hm W)|]. split; [exact ES|]. split; [exact LC|]. split; [apply CP; assumption|].
      exists j. split; [exact HV|]. split; [exact W|]. split; [rewrite <- CO; apply lhits|].
      intros keep i HK HI. rewrite (label_count_unique m ls keep i _ HI (lhits keep)). apply LE. exact HK.
  Qed.
  End Model.

  (** ** milp_exact *)
  Lemma label_members : forall md (ks : list string) gs, Forall2 (fun l G => forall v, In v G <-> v < cert_dim rf md /\ labb m l (own rf md v) = true) ks gs ->
    forall G v, In G gs -> In v G -> v < cert_dim rf md.
  Proof.
    intros md ks gs F G v HG Hv. apply In_nth_error in HG. destruct HG as (i & Ei). destruct (F2_right _ _ _ _ _ F i G Ei) as (l & _ & H). apply H in Hv. apply Hv.
  Qed.

  Lemma label_gen : forall SB t md A b u ls, md <> OtherMode -> inner_labels m ls -> good_bounds rf md t u -> fark_constraints rf t md = Ok (A, b) ->
    choose_bounds SB rf A (cert_dim rf md) b md None = Ok (Some (Some u)) ->
    exists mm ind, construct_milp SB rf t md (Some ls) false None = Ok (Some (mm, ind)) /\ (exists r, exact_answer mm r) /\
    forall S, exact_answer mm (S mm) -> g_exn (milp_exact SB S rf t md (Some ls)) = None /\
    ((opt_value rf BF EX md < Q2R t)%R -> g_items (milp_exact SB S rf t md (Some ls)) = [failure Infeasible]) /\
    ((Q2R t <= opt_value rf BF EX md)%R -> exists sub v cert j, g_items (milp_exact SB S rf t md (Some ls)) = [MkPRes Success (Some sub) (Some v) (Some cert)] /\
      mk_subsystem rf cert md false = Ok sub /\ cert_point rf md t cert /\ Q2R v = INR j /\ witness rf md t (chosen m md cert) /\ label_count m ls (chosen m md cert) j /\
      forall keep i, witness rf md t keep -> label_count m ls keep i -> j <= i).
  Proof.
    intros SB t md A b u ls Hm HL GB EA EC. destruct (groups_labels_total md ls Hm HL) as (gs & EG).
    assert (HG : grouping rf md (Some ls) (match md with Max => true | _ => false end) gs) by (apply (groups_ok rf BF); exact EG).
    destruct (label_groups md ls gs Hm HL HG) as (ks & KN & KI & KS & F).
    destruct (construct_total_gs SB t md A b u (Some ls) gs Hm EA EC (proj1 GB) EG (label_members md ks gs F)) as (mm & ind & E).
    exists mm, ind. split; [exact E|]. split; [apply bin_answer_exists; eapply construct_bin; eauto|].
    destruct (construct_inv rf BF Hi SB t md (Some ls) false mm ind E) as (ub & gs' & A' & b' & _ & EA' & EC' & _ & _ & EG' & CS).
    { intros u' (A1 & b1 & E1 & E2). rewrite EA in E1. injection E1 as <- <-. rewrite EC in E2. injection E2 as <-. apply (proj1 GB). }
    rewrite EA in EA'. injection EA' as <- <-. rewrite EC in EC'. injection EC' as <-.
    replace (match md with Max => negb false | _ => false end) with (match md with Max => true | _ => false end) in EG' by (destruct md; reflexivity).
    rewrite EG in EG'. injection EG' as <-.
    intros S HA. unfold milp_exact. rewrite E. cbn [bind].
    destruct (label_result md t u ls gs ks mm ind Hm GB KN KI KS F CS (S mm) HA) as [(HV & ES)|(HV & ES & LC & CP & j & HJ & W & CO & LE)]; rewrite ES.
    - cbn [g_exn g_items]. split; [auto|]. split; [auto|]. intros; lra.
    - rewrite (size_ok rf md Hm). cbn [bind].
      assert (MK : exists sub, mk_subsystem rf (firstn (cert_dim rf md) (sr_vec (S mm))) md false = Ok sub).
      { unfold mk_subsystem. destruct md; [| |congruence]; cbn [cert_dim] in LC |- *; cbn [assert_ bind]; rewrite LC; rewrite Nat.eqb_refl; cbn; eauto. }
      destruct MK as (sub & MK). rewrite MK. cbn [bind g_exn g_items]. split; [auto|]. split; [intros; lra|]. intros _.
      exists sub, (sr_val (S mm)), (firstn (cert_dim rf md) (sr_vec (S mm))), j. do 6 (split; [auto; fail|]). exact LE.
  Qed.

  (** ** Labels of target and fail *)
  Lemma con_step_index : forall u sigma G mm, mi_ok mm -> sigma < length (mi_vars mm) -> length u <= length (mi_vars mm) ->
    (exists v, In v G /\ length u <= v) -> foldM (con_step (Some u) sigma) G mm = Err IndexError.
  Proof.
    intros u sigma. induction G as [|v G IH]; intros mm OK HS HU (w & Hw & Lw); [destruct Hw|]. cbn [foldM]. destruct (Nat.lt_ge_cases v (length u)) as [Lv|Lv].
    - destruct (con_steps_total (Some u) sigma [v] mm OK HS) as (m1 & E1).
      { intros v' [<-|[]]. split; [lia|]. cbn [k_of]. apply nth_error_Some. exact Lv. }
      cbn [foldM] in E1. apply bind_ok in E1. destruct E1 as (m2 & E1 & E2). injection E2 as ->. rewrite E1. cbn [bind].
      destruct (con_step_inv _ _ _ _ _ OK E1) as (A1 & A2 & _).
      apply IH; auto; try (rewrite A2; auto). destruct Hw as [<-|Hw]; [lia|]. exists w. auto.
    - unfold con_step at 1. cbn [k_of]. rewrite (proj2 (nth_error_None u v) Lv). reflexivity.
  Qed.

  Lemma indicators_index : forall u groups mm ind, mi_ok mm -> exprs_ok mm -> (forall s, In s (dkeys ind) -> s < length (mi_vars mm)) -> length u <= length (mi_vars mm) ->
    (exists G v, In G groups /\ In v G /\ length u <= v) -> foldM (add_group DBinary (Some u)) groups (mm, ind) = Err IndexError.
  Proof.
    intros u. induction groups as [|G groups IH]; intros mm ind OK EO NI HU (G0 & v & HG & Hv & Lv); [destruct HG|]. cbn [foldM].
    destruct (List.existsb (fun v => length u <=? v) G) eqn:EB.
    - apply existsb_exists in EB. destruct EB as (w & Hw & Lw). apply Nat.leb_le in Lw.
      assert (E : add_group DBinary (Some u) (mm, ind) G = Err IndexError).
      { unfold add_group, add_variables_w_bounds. cbn [foldM].
        assert (exists vv, mk_var DBinary (Some 0%Q) (Some 1%Q) = Ok vv) as (vv & ->) by (eexists; reflexivity). cbn [bind app nth_error of_opt].
        destruct (push_var_facts mm vv OK EO) as (P1 & P2 & P3).
        change (foldM (fun m v => _) G (push_var mm vv)) with (foldM (con_step (Some u) (length (mi_vars mm))) G (push_var mm vv)).
        rewrite con_step_index; auto; [cbn [push_var mi_vars]; rewrite app_length; cbn [length]; lia|cbn [push_var mi_vars]; rewrite app_length; lia|eauto]. }
      rewrite E. reflexivity.
    - assert (HN : forall w, In w G -> w < length u).
      { intros w Hw. destruct (Nat.lt_ge_cases w (length u)); auto. exfalso. assert (existsb (fun v => length u <=? v) G = true); [|congruence]. apply existsb_exists. exists w. split; [auto|apply Nat.leb_le; auto]. }
      destruct (indicators_total DBinary (Some u) [G] mm ind ltac:(discriminate) OK EO NI) as (m1 & ind1 & E).
      { intros G' w [<-|[]] Hw. specialize (HN w Hw). split; [lia|]. cbn [k_of]. apply nth_error_Some. exact HN. }
      cbn [foldM] in E. apply bind_ok in E. destruct E as ((m2 & ind2) & E1 & E2). injection E2 as -> ->. rewrite E1. cbn [bind].
      destruct (add_group_inv _ _ _ _ _ _ _ OK EO (fun Hc => Nat.lt_irrefl _ (NI _ Hc)) E1) as (A1 & A2 & A3 & A4 & A5 & A6 & A7 & A8).
      apply IH; auto.
      + intros s Hs. rewrite A5. rewrite A6 in Hs. unfold dkeys in Hs. rewrite map_app in Hs. apply in_app_or in Hs. destruct Hs as [Hs|[<-|[]]]; [specialize (NI s Hs); lia|cbn; lia].
      + lia.
      + exists G0, v. split; [|auto]. destruct HG as [<-|HG]; [|auto]. specialize (HN v Hv). lia.
  Qed.

  Lemma outer_label : forall SB t ls, ~ inner_labels m ls -> construct_milp SB rf t Min (Some ls) false None = Err IndexError.
  Proof.
    intros SB t ls NL. assert (exists l s, In l ls /\ has_label m l s /\ a_N m - 2 <= s) as (l & s & Hl & Hs & Ls).
    { clear - NL. apply Classical_Prop.NNPP. intros N. apply NL. intros l s Hl Hs. destruct (Nat.lt_ge_cases s (a_N m - 2)); auto. exfalso. apply N. eauto. }
    destruct (fark_real rf BF Hi Min t ltac:(discriminate)) as (A & b & EA & _).
    unfold construct_milp. rewrite EA. cbn [bind certificate_size choose_bounds assert_ negb andb].
    assert (exists gs, groups_from_labels rf Min (Some ls) false = Ok gs) as (gs & EG) by (unfold groups_from_labels; cbn [certificate_size bind]; eauto). rewrite EG. cbn [bind].
    set (u := repeat 1%Q (a_N (rf_sys rf) - 2)). assert (LU : length u = a_N (rf_sys rf) - 2) by apply repeat_length.
    destruct (base_model rf BF Hi Min t (Some u) ltac:(discriminate)) as (A' & b' & bs & m0 & EA' & Eb & E0 & X1 & X2 & X3 & X4 & X5 & X6). { intros u' E. injection E as <-. exact LU. }
    rewrite EA in EA'. injection EA' as <- <-. change (cert_dim rf Min) with (a_N (rf_sys rf) - 2) in *. rewrite Eb. cbn [bind]. rewrite E0. cbn [bind].
    pose proof (groups_ok rf BF Min (Some ls) false gs EG) as (ks & _ & HK & F). assert (Hk : In l ks) by (apply HK; split; [exact Hl|discriminate]).
    apply In_nth_error in Hk. destruct Hk as (i & Ei). destruct (F2_left _ _ _ _ _ F i l Ei) as (G & EGi & _ & HG).
    unfold add_indicator_constraints. rewrite indicators_index; auto; [intros x []|lia|].
    exists G, s. split; [eapply nth_error_In; eauto|]. split; [apply HG; exact Hs|]. rewrite LU. exact Ls.
  Qed.

  Lemma outer_label_max : forall SB t ls mm ind, sized SB -> construct_milp SB rf t Max (Some ls) false None = Ok (Some (mm, ind)) -> forall l s, In l ls -> has_label m l s -> s < a_N m - 2.
  Proof.
    intros SB t ls mm ind HS E l s Hl Hs.
    destruct (construct_exact rf BF Hi SB t Max (Some ls) mm ind HS E) as (u & L & _ & _ & _ & gs & (ks & _ & HK & F) & CS).
    assert (Hk : In l ks) by (apply HK; split; [exact Hl|intros _; exists s; exact Hs]).
    apply In_nth_error in Hk. destruct Hk as (i & Ei). destruct (F2_left _ _ _ _ _ F i l Ei) as (G & EGi & _ & HG). 
    pose proof CS as (_ & _ & _ & _ & _ & HM & _).
    destruct (Nat.lt_ge_cases s (a_N m - 2)) as [|Ls]; auto. exfalso.
    assert (EG : exists gs', groups_from_labels rf Max (Some ls) true = Ok gs').
    { unfold construct_milp in E. apply bind_ok in E. destruct E as ((A & b) & EA & E). apply bind_ok in E. destruct E as (k & Ek & E). apply bind_ok in E. destruct E as (cb & Ec & E). destruct cb as [ub|]; [|discriminate].
      apply bind_ok in E. destruct E as (u0 & _ & E). apply bind_ok in E. destruct E as (gs' & Eg & _). eauto. }
    (* the state has a row *)
    destruct (acts_ok rf BF) as (acts & EA & EF & ED).
    assert (GA : exists al, get Nat.eqb acts s = Ok al).
    { destruct EG as (gs' & EG). unfold groups_from_labels in EG. cbn [certificate_size bind] in EG. apply bind_ok in EG. destruct EG as (g & EG & _). rewrite EA in EG. cbn [bind] in EG.
      revert EG. generalize (mk_idict (K := string) (V := nat) [] false). clear - Hl Hs. revert Hl. induction ls as [|l0 ls' IH]; intros Hl g0 E; [destruct Hl|].
      cbn [foldM] in E. apply bind_ok in E. destruct E as (g1 & E1 & E). destruct Hl as [->|Hl]; [|eapply IH; eauto].
      clear E IH. unfold has_label in Hs. change (states_by_label (rf_sys rf) l) with (states_by_label m l) in E1. revert g0 E1. induction (states_by_label m l) as [|s0 ss IHs]; intros g0 E1; [destruct Hs|]. cbn [foldM] in E1. apply bind_ok in E1. destruct E1 as (g2 & E2 & E1).
      destruct Hs as [->|Hs]; [|eapply IHs; eauto]. apply bind_ok in E2. destruct E2 as (al & Eal & _). eauto. }
    destruct GA as (al & Eal).
    assert (exists a, In a al) as (a & Ha).
    { pose proof Eal as Eg. unfold get in Eg. destruct (dget Nat.eqb (fwd acts) s) as [l'|] eqn:EGt; [|rewrite ED in Eg; discriminate].
      destruct (collect_facts Nat.eqb Nat.eqb Nat.eqb_spec Nat.eqb_spec (act_pairs rf) [] (NoDup_nil _)) as (_ & _ & _ & D); [intros; discriminate|].
      assert (In s (dkeys (fwd acts))) as Hk by (apply (dget_Some_key Nat.eqb Nat.eqb_spec); eauto). rewrite EF in Hk. apply D in Hk. destruct Hk as [[]|(a & Ha)].
      exists a. apply (act_rows rf BF acts s a EA al Eal). apply (act_pairs_in rf BF). exact Ha. }
    apply (act_rows rf BF acts s a EA al Eal) in Ha. destruct Ha as (v & Hv & Ev).
    assert (IG : In v G) by (apply HG; cbn [labelled_var]; split; [exact Hv|]; exists s, a; auto).
    destruct (HM G v (nth_error_In _ _ EGi) IG) as [_ KO]. cbn [k_of] in KO. apply nth_error_Some in KO. rewrite L in KO. cbn [cert_dim] in KO.
    destruct (br_row rf BF v KO) as (a' & E' & Hs'). assert (ES : src (form_mdp rf) v = s) by congruence. rewrite ES in Hs'. change (rf_N rf) with (a_N m - 2) in Hs'. lia.
  Qed.
End Lab.

Lemma C61_min_final : forall rf t ls SB, built_form rf -> exact_rows (a_P (rf_sys rf)) -> rf_init rf < a_N (rf_sys rf) - 2 -> inner_labels (rf_sys rf) ls ->
  exists pr mm ind, PrMinForm rf (rf_init rf) pr /\ construct_milp SB rf t Min (Some ls) false None = Ok (Some (mm, ind)) /\ (exists r, exact_answer mm r) /\
    forall S, exact_answer mm (S mm) ->
      g_exn (milp_exact SB S rf t Min (Some ls)) = None /\
      ((pr < Q2R t)%R -> g_items (milp_exact SB S rf t Min (Some ls)) = [failure Infeasible]) /\
      ((Q2R t <= pr)%R -> exists sub v cert j, g_items (milp_exact SB S rf t Min (Some ls)) = [MkPRes Success (Some sub) (Some v) (Some cert)] /\
        mk_subsystem rf cert Min false = Ok sub /\ cert_point rf Min t cert /\ Q2R v = INR j /\
        witness rf Min t (chosen (rf_sys rf) Min cert) /\ label_count (rf_sys rf) ls (chosen (rf_sys rf) Min cert) j /\
        forall keep i, witness rf Min t keep -> label_count (rf_sys rf) ls keep i -> j <= i).
Proof.
  intros rf t ls SB BF EX Hi HL. destruct (fark_real rf BF Hi Min t ltac:(discriminate)) as (A & b & EA & _).
  destruct (label_gen rf BF Hi EX SB t Min A b (repeat 1%Q (cert_dim rf Min)) ls ltac:(discriminate) HL (min_bounds rf t) EA eq_refl) as (mm & ind & E & XA & H).
  exists (Vmn rf BF EX (rf_init rf)), mm, ind. split; [apply min_value; auto|]. split; [exact E|]. split; [exact XA|exact H].
Qed.

Lemma C61_max_final : forall rf t ls, built_form rf -> exact_rows (a_P (rf_sys rf)) -> rf_init rf < a_N (rf_sys rf) - 2 -> inner_labels (rf_sys rf) ls ->
  (forall s, s < a_N (rf_sys rf) - 2 -> ~ in_some_ec (a_P (rf_sys rf)) (a_inv (rf_sys rf)) s) ->
  exists pr A b lp, PrMaxForm rf (rf_init rf) pr /\ fark_constraints rf t Max = Ok (A, b) /\ upper_bound_lp A (a_C (rf_sys rf) - 2) b = Ok lp /\ (exists r, exact_answer lp r) /\
    forall SB, exact_answer lp (SB lp) ->
      ((pr < Q2R t)%R -> forall S, milp_exact SB S rf t Max (Some ls) = MkGen [failure Infeasible] None) /\
      ((Q2R t <= pr)%R -> exists mm ind, construct_milp SB rf t Max (Some ls) false None = Ok (Some (mm, ind)) /\ (exists r, exact_answer mm r) /\
        forall S, exact_answer mm (S mm) -> g_exn (milp_exact SB S rf t Max (Some ls)) = None /\
        exists sub v cert j, g_items (milp_exact SB S rf t Max (Some ls)) = [MkPRes Success (Some sub) (Some v) (Some cert)] /\
          mk_subsystem rf cert Max false = Ok sub /\ cert_point rf Max t cert /\ Q2R v = INR j /\
          witness rf Max t (chosen (rf_sys rf) Max cert) /\ label_count (rf_sys rf) ls (chosen (rf_sys rf) Max cert) j /\
          forall keep i, witness rf Max t keep -> label_count (rf_sys rf) ls keep i -> j <= i).
Proof.
  intros rf t ls BF EX Hi HL FREE. assert (FR : ec_free (form_mdp rf)). { intros s Hs HE. apply (FREE s Hs). apply (br_ec rf BF EX). exact HE. }
  destruct (bounds_max rf BF EX Hi FR t) as (A & b & lp & EA & EL & XA & HB). exists (Vmx rf BF EX (rf_init rf)), A, b, lp.
  split; [apply max_value; auto|]. do 3 (split; [assumption|]). intros SB HA.
  assert (EF : is_ec_free rf = true) by (apply (is_ec_free_iff rf (rf_init rf) (br_ro rf BF) (br_form rf BF)); exact FREE).
  destruct (HB SB HA) as [(NO & u & EU)|((x & HX) & u & EU & LU & HU)].
  - assert (HV : (Vmx rf BF EX (rf_init rf) < Q2R t)%R).
    { destruct (Rlt_le_dec (Vmx rf BF EX (rf_init rf)) (Q2R t)) as [|HV]; auto. exfalso. pose proof (witness_all rf BF Hi EX Max t ltac:(discriminate) HV) as HW.
      apply (witness_max rf BF Hi EX) in HW. destruct (y_complete rf BF EX Hi _ t HW) as (y & HY & _). apply (NO y HY). }
    split; [|intros; lra]. intros _ S.
    assert (EC : construct_milp SB rf t Max (Some ls) false None = Ok None).
    { unfold construct_milp. rewrite EA. cbn [bind certificate_size choose_bounds]. rewrite EF. change (a_C (rf_sys rf) - 2) with (rf_C rf). rewrite EU. reflexivity. }
    unfold milp_exact. rewrite EC. reflexivity.
  - assert (WK : (Q2R t <= Vmx rf BF EX (rf_init rf))%R).
    { destruct HX as (HP & H0). apply (polytope_max rf BF) in HP. destruct HP as [HP Ht]. eapply Rle_trans; [exact Ht|]. unfold Vmx. rewrite (Vmax_irrel _ _ (RFW (form_mdp rf) (proj1 (br_rf rf BF EX)))).
      apply (y_max_sound (form_mdp rf) (rf_init rf) (proj1 (br_rf rf BF EX)) x); auto. }
    split; [intros; lra|]. intros _.
    assert (GB : good_bounds rf Max t u) by (split; [exact LU|split; [discriminate|auto]]).
    assert (EC : choose_bounds SB rf A (cert_dim rf Max) b Max None = Ok (Some (Some u))). { cbn [choose_bounds]. rewrite EF. change (cert_dim rf Max) with (rf_C rf). rewrite EU. reflexivity. }
    destruct (label_gen rf BF Hi EX SB t Max A b u ls ltac:(discriminate) HL GB EA EC) as (mm & ind & E & XM & H).
    exists mm, ind. split; [exact E|]. split; [exact XM|]. intros S HS. destruct (H S HS) as (H1 & _ & H3). split; [exact H1|]. apply H3. exact WK.
Qed.

Lemma C61_outer_final : forall rf t ls SB, built_form rf -> rf_init rf < a_N (rf_sys rf) - 2 -> ~ inner_labels (rf_sys rf) ls ->
  (forall S, milp_exact SB S rf t Min (Some ls) = MkGen [] (Some IndexError)) /\
  ((forall lp, sr_status (SB lp) = Optimal -> length (sr_vec (SB lp)) = length (mi_vars lp)) -> forall S x, In x (g_items (milp_exact SB S rf t Max (Some ls))) -> pr_status x = Failed Infeasible).
Proof.
  intros rf t ls SB BF Hi NL. split.
  - intros S. unfold milp_exact. rewrite (outer_label rf BF Hi SB t ls NL). reflexivity.
  - intros HS S x. unfold milp_exact. destruct (construct_milp SB rf t Max (Some ls) false None) as [[[mm ind]|]|e] eqn:E; cbn [bind].
    + exfalso. apply NL. intros l s. apply (outer_label_max rf BF Hi SB t ls mm ind HS E).
    + intros [<-|[]]. reflexivity.
    + intros [].
Qed.
