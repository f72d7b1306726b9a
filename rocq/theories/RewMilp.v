(** Exact minimisation on reward forms. *)
From Coq Require Import String List Arith ZArith QArith Qreals Reals Bool Lia Lra Classical.
From Coq Require Lqa.
From Verif Require Import Base BaseFacts Num Matrix MatFacts InvDict SccSpec SpecMdp SpecEc SpecSystem SpecForm SpecBuilt SpecProb SpecSub SpecLp SpecMilp SpecLabel SpecReward SpecRewSub SumFacts MdpValue RfTheory SubTheory RewTheory RewSub
  Amdp ReachForm ReachFormProofs RfFacts BuiltFacts RfBridge Farkas FarkReal Milp MilpProofs LpExists FarkProofs CertProofs Subsystem SubProofs4 RfLpProofs Formulations MilpBuild GroupProofs MilpForm MilpMax MilpKeep MilpExact MilpMin BinExists GenMin LabelMin Problems RewardForm RewardProofs RewProblems GenBuild RewForms.
Import ListNotations.
Local Open Scope nat_scope.

Section RM.
  Variable rr : rrform.
  Let rf := rr_rf rr.
  Hypothesis BF : built_form rf.
  Hypothesis EX : exact_rows (a_P (rf_sys rf)).
  Hypothesis Hi : rf_init rf < a_N (rf_sys rf) - 2.
  Hypothesis FREE : ec_free (form_mdp rf).
  Hypothesis LR : length (rr_rew rr) = a_C (rf_sys rf) - 2.
  Hypothesis NR : forall q, In q (rr_rew rr) -> (0 <= q)%Q.
  Let m := rf_sys rf.
  Let n := rf_N rf.
  Let c := rf_C rf.

  Lemma opt_exists : forall md, md <> OtherMode -> exists v, rew_opt rr md v.
  Proof.
    intros md Hm. destruct md; [| |congruence]; unfold rew_opt.
    - destruct (bellman_min_exists rr BF EX Hi FREE LR NR) as (z & HZ). exists (z (rf_init rf)). apply (bellman_min_value rr BF EX Hi FREE LR z HZ). exact Hi.
    - destruct (bellman_max_exists rr BF EX Hi FREE LR NR) as (z & HZ). exists (z (rf_init rf)). apply (bellman_max_value rr BF EX Hi FREE LR z HZ). exact Hi.
  Qed.

  (** ** The bounds *)
  Lemma rr_bounds : forall md t, md <> OtherMode -> exists A b lp, rr_fark_constraints rr t md = Ok (A, b) /\ length b = length A /\ (forall row, In row A -> length row = cert_dim rf md) /\
    (forall x, (forall i, i < length A -> (rowR A (cert_dim rf md) i x <= Q2R (nth i b 0%Q))%R) <-> rpoly rr md t x) /\
    upper_bound_lp A (cert_dim rf md) b = Ok lp /\ (exists r, exact_answer lp r) /\
    forall S, exact_answer lp (S lp) ->
      ((forall x, ~ rpoint rr md t x) /\ exists u, compute_upper_bounds S A (cert_dim rf md) b = Ok (Infeasible, u)) \/
      ((exists x, rpoint rr md t x) /\ exists u, compute_upper_bounds S A (cert_dim rf md) b = Ok (Optimal, u) /\ length u = cert_dim rf md /\
        forall x, rpoint rr md t x -> forall i, i < cert_dim rf md -> (x i <= vec u i)%R).
  Proof.
    intros md t Hm. destruct (rr_fark_real rr BF Hi LR md t Hm) as (A & b & EA & LB & LA & HW & HR).
    destruct (gbounds_ok A (cert_dim rf md) b (rpoly rr md t) LB HW HR) as (lp & EL & XA & HB).
    - apply (rbounded rr BF EX Hi LR FREE NR md t Hm).
    - intros E x y Hx Hy. apply (rjoin rr BF EX Hi LR NR md t Hm); auto. intros ->. rewrite LA in E. cbn [cert_dim] in E. unfold rf_N in E. unfold rf_C, rf_N. unfold rf in E. lia.
    - exists A, b, lp. do 6 (split; [assumption|]). exact HB.
  Qed.

  (** ** The models *)
  Section Keys.
  Variable K : Type.
  Variables (md : mode) (t : Q) (labels : option (list string)) (touch : K -> nat -> bool) (ks : list K) (gs : list (list nat)).
  Hypothesis Hm : md <> OtherMode.
  Hypothesis EG : rr_groups_from_labels rr md labels (match md with Max => true | _ => false end) = Ok gs.
  Hypothesis GR : Forall2 (fun key G => forall v, In v G <-> v < cert_dim rf md /\ touch key (own rf md v) = true) ks gs.
  Let k := cert_dim rf md.

  Lemma key_members : forall G v, In G gs -> In v G -> v < k.
  Proof. intros G v HG Hv. apply In_nth_error in HG. destruct HG as (i & Ei). destruct (F2_right _ _ _ _ _ GR i G Ei) as (l & _ & H). apply H in Hv. apply Hv. Qed.

  Lemma rr_cons_eq : forall SB A b u, rr_fark_constraints rr t md = Ok (A, b) -> compute_upper_bounds SB A k b = Ok (Optimal, u) ->
    rr_construct_milp SB rr t md labels false None = let* (mm, ind) := gcons A k b rr md (Some u) gs false in Ok (Some (mm, ind)).
  Proof.
    intros SB A b u EA EU. unfold rr_construct_milp. rewrite EA. cbn [bind]. fold rf. rewrite (size_ok rf md Hm). cbn [bind]. fold k. unfold rr_choose_bounds. cbn [rr_is_ec_free]. rewrite EU. cbn [bind].
    replace (assert_ (negb (negb false && match md with Max => false | _ => false end))) with (Ok tt) by (destruct md; reflexivity). cbn [bind].
    replace (match md with Max => negb false | _ => false end) with (match md with Max => true | _ => false end) by (destruct md; reflexivity). rewrite EG. cbn [bind]. unfold gcons.
    destruct (rr_variable_bounds rr md (Some u) k); [|reflexivity]. cbn [bind]. destruct (from_coefficients _ _ _ _ _ _ _ _); [|reflexivity]. cbn [bind].
    destruct (add_indicator_constraints _ _ _ _) as [[m1 ind]|]; [|reflexivity]. cbn [bind]. destruct (set_objective _ _); reflexivity.
  Qed.

  Lemma rr_key_gen : exists v A b lp, rew_opt rr md v /\ rr_fark_constraints rr t md = Ok (A, b) /\ upper_bound_lp A k b = Ok lp /\ (exists r, exact_answer lp r) /\
    forall SB, exact_answer lp (SB lp) ->
      ((v < Q2R t)%R -> forall S, rr_milp_exact SB S rr t md labels = MkGen [failure Infeasible] None) /\
      ((Q2R t <= v)%R -> exists mm ind, rr_construct_milp SB rr t md labels false None = Ok (Some (mm, ind)) /\ (exists r, exact_answer mm r) /\
        forall S, exact_answer mm (S mm) -> g_exn (rr_milp_exact SB S rr t md labels) = None /\
        exists sub val cert j, g_items (rr_milp_exact SB S rr t md labels) = [MkPRes Success (Some sub) (Some val) (Some cert)] /\
          mk_subsystem rf cert md false = Ok sub /\ length cert = k /\ rew_polytope rr md t (vec cert) /\ Q2R val = INR j /\
          rew_witness rr md t (chosen m md cert) /\ hits K n touch ks (chosen m md cert) = j /\
          forall keep, rew_witness rr md t keep -> j <= hits K n touch ks keep).
  Proof.
    destruct (opt_exists md Hm) as (v & HV). destruct (rr_bounds md t Hm) as (A & b & lp & EA & LB & HW & HR & EL & XA & HB). fold k in HW, HR, EL, HB.
    exists v, A, b, lp. do 4 (split; [assumption|]). intros SB HS.
    pose proof (point_value rr BF EX Hi LR FREE NR md t v Hm HV) as PV.
    destruct (HB SB HS) as [(NO & u & EU)|(YES & u & EU & LU & HU)].
    - split.
      + intros _ S. unfold rr_milp_exact. assert (EC : rr_construct_milp SB rr t md labels false None = Ok None).
        { unfold rr_construct_milp. rewrite EA. cbn [bind]. fold rf. rewrite (size_ok rf md Hm). cbn [bind]. fold k. unfold rr_choose_bounds. cbn [rr_is_ec_free]. rewrite EU. reflexivity. }
        rewrite EC. reflexivity.
      + intros Ht. exfalso. apply PV in Ht. destruct Ht as (y & Hy). apply (NO y Hy).
    - split; [intros Ht; exfalso; apply PV in YES; lra|]. intros _.
      assert (HUB : forall u', Some u = Some u' -> length u' = k) by (intros u' E; injection E as <-; exact LU).
      destruct (gcons_total A k b (rpoly rr md t) LB HW HR rr md (Some u) gs false HUB key_members) as (mm & ind & EC).
      pose proof (gcons_inv A k b (rpoly rr md t) LB HW HR rr md (Some u) gs false mm ind HUB EC) as GS.
      pose proof (rr_cons_eq SB A b u EA EU) as E. rewrite EC in E. cbn [bind] in E.
      exists mm, ind. split; [exact E|]. split; [apply bin_answer_exists; apply (gcons_bin A k b rr md (Some u) gs false mm ind EC)|].
      intros S HA. unfold rr_milp_exact. rewrite E. cbn [bind]. pose proof GS as (EI & LV & D & _).
      set (bp := fun x : nat -> R => rpoly rr md t x /\ forall v, v < k -> (0 <= x v <= vec u v)%R).
      destruct (gen_result K k n (own rf md) touch ks gs mm bp (rew_witness rr md t) (chosen m md)) with (r := S mm) as [(NW & ES)|(ES & LC & HP & j & HJ & W & CO & LE)].
      + intros i Hv. apply (own_lt rf BF). exact Hv.
      + exact GR.
      + intros x y Exy (H1 & H2). split; [apply (rpoly_ext rr BF EX Hi md t x y Hm Exy H1)|]. intros i Hv. rewrite <- Exy by exact Hv. apply H2; exact Hv.
      + intros x. apply (gpoint A k b (rpoly rr md t) LB u gs mm ind LU key_members GS x).
      + intros x. apply (gones A k b (rpoly rr md t) LB u gs mm ind LU key_members GS x).
      + exact D.
      + exact LV.
      + intros keep HK. destruct (wit_point rr BF EX Hi LR FREE NR md t keep Hm HK) as (y & HY & HO). exists y. split; [|exact HO]. split; [apply HY|]. intros i Hv. split; [apply HY; exact Hv|apply (HU y HY i Hv)].
      + intros cert LC (HP & HB'). apply (point_wit rr BF EX Hi LR FREE NR md t (chosen m md cert) (vec cert) Hm); [split; [exact HP|intros i Hv; apply HB'; exact Hv]|].
        intros i Hv Hp. apply (chosen_iff rf BF Hi md cert _ Hm); [apply (own_lt rf BF); exact Hv|]. exists i. auto.
      + intros cert s Hs _. apply (chosen_iff rf BF Hi md cert s Hm Hs).
      + exact HA.
      + exfalso. destruct YES as (y & HY). apply (NW (fun _ => true)). apply (point_wit rr BF EX Hi LR FREE NR md t (fun _ => true) y Hm HY). reflexivity.
      + rewrite ES. fold rf. rewrite (size_ok rf md Hm). cbn [bind]. fold k.
        assert (MK : exists sub, mk_subsystem rf (firstn k (sr_vec (S mm))) md false = Ok sub).
        { unfold mk_subsystem. unfold k in *. destruct md; [| |congruence]; cbn [cert_dim] in LC |- *; cbn [assert_ bind]; rewrite LC; rewrite Nat.eqb_refl; cbn; eauto. }
        destruct MK as (sub & MK). rewrite MK. cbn [bind g_exn g_items]. split; [auto|].
        exists sub, (sr_val (S mm)), (firstn k (sr_vec (S mm))), j. split; [reflexivity|]. split; [exact MK|]. split; [exact LC|]. split.
        { apply (rpoly_iff rr BF md t _ Hm). destruct HP as (HP & HB'). split; [exact HP|]. intros i Hv. apply HB'. exact Hv. }
        do 3 (split; [assumption|]). exact LE.
  Qed.
  End Keys.

  (** ** States, mode min *)
  Lemma eqb_hits : forall keep, hits nat n Nat.eqb (seq 0 n) keep = count keep n.
  Proof.
    intros keep. unfold hits, count. f_equal. apply filter_ext_in. intros s Hs. apply in_seq in Hs. destruct (keep s) eqn:E.
    - apply hit_iff. exists s. split; [lia|]. split; [exact E|apply Nat.eqb_refl].
    - destruct (hit nat n Nat.eqb keep s) eqn:F; auto. apply hit_iff in F. destruct F as (s' & _ & H1 & H2). apply Nat.eqb_eq in H2. congruence.
  Qed.
  Lemma single_groups : Forall2 (fun key G => forall v, In v G <-> v < cert_dim rf Min /\ Nat.eqb key (own rf Min v) = true) (seq 0 n) (map (fun i => [i]) (seq 0 n)).
  Proof.
    assert (H : forall a l, a + l <= n -> Forall2 (fun key G => forall v, In v G <-> v < cert_dim rf Min /\ Nat.eqb key (own rf Min v) = true) (seq a l) (map (fun i => [i]) (seq a l))).
    { intros a l. revert a. induction l as [|l IH]; intros a Ha; cbn; constructor; [|apply IH; lia]. intros v. cbn [own cert_dim In]. rewrite Nat.eqb_eq. split; [intros [<-|[]]; split; [unfold n, rf_N in Ha; lia|auto]|intros [_ ->]; auto]. }
    apply H. lia.
  Qed.

  Lemma C62_states : forall t, exists v A b lp, rew_opt rr Min v /\ rr_fark_constraints rr t Min = Ok (A, b) /\ upper_bound_lp A (a_N m - 2) b = Ok lp /\ (exists r, exact_answer lp r) /\
    forall SB, exact_answer lp (SB lp) ->
      ((v < Q2R t)%R -> forall S, rr_milp_exact SB S rr t Min None = MkGen [failure Infeasible] None) /\
      ((Q2R t <= v)%R -> exists mm ind, rr_construct_milp SB rr t Min None false None = Ok (Some (mm, ind)) /\ (exists r, exact_answer mm r) /\
        forall S, exact_answer mm (S mm) -> g_exn (rr_milp_exact SB S rr t Min None) = None /\
        exists sub val cert j, g_items (rr_milp_exact SB S rr t Min None) = [MkPRes Success (Some sub) (Some val) (Some cert)] /\
          mk_subsystem rf cert Min false = Ok sub /\ length cert = a_N m - 2 /\ rew_polytope rr Min t (vec cert) /\ Q2R val = INR j /\
          rew_witness rr Min t (chosen m Min cert) /\ count (chosen m Min cert) (a_N m - 2) = j /\
          forall keep, rew_witness rr Min t keep -> j <= count keep (a_N m - 2)).
  Proof.
    intros t. destruct (rr_key_gen nat Min t None Nat.eqb (seq 0 n) (map (fun i => [i]) (seq 0 n)) ltac:(discriminate) eq_refl single_groups) as (v & A & b & lp & H1 & H2 & H3 & H4 & H5).
    exists v, A, b, lp. do 4 (split; [assumption|]). intros SB HS. destruct (H5 SB HS) as (HA & HB). split; [exact HA|]. intros Ht. destruct (HB Ht) as (mm & ind & E & XM & HM). exists mm, ind. do 2 (split; [assumption|]).
    intros S HX. destruct (HM S HX) as (G1 & sub & val & cert & j & G2 & G3 & G4 & G5 & G6 & G7 & G8 & G9). split; [exact G1|]. exists sub, val, cert, j. do 6 (split; [assumption|]).
    rewrite eqb_hits in G8. split; [exact G8|]. intros keep HK. specialize (G9 keep HK). rewrite eqb_hits in G9. exact G9.
  Qed.

  (** ** Labels, both modes *)
  Lemma rr_labels : forall md t ls, md <> OtherMode -> inner_labels m ls -> exists v A b lp, rew_opt rr md v /\ rr_fark_constraints rr t md = Ok (A, b) /\ upper_bound_lp A (cert_dim rf md) b = Ok lp /\ (exists r, exact_answer lp r) /\
    forall SB, exact_answer lp (SB lp) ->
      ((v < Q2R t)%R -> forall S, rr_milp_exact SB S rr t md (Some ls) = MkGen [failure Infeasible] None) /\
      ((Q2R t <= v)%R -> exists mm ind, rr_construct_milp SB rr t md (Some ls) false None = Ok (Some (mm, ind)) /\ (exists r, exact_answer mm r) /\
        forall S, exact_answer mm (S mm) -> g_exn (rr_milp_exact SB S rr t md (Some ls)) = None /\
        exists sub val cert j, g_items (rr_milp_exact SB S rr t md (Some ls)) = [MkPRes Success (Some sub) (Some val) (Some cert)] /\
          mk_subsystem rf cert md false = Ok sub /\ length cert = cert_dim rf md /\ rew_polytope rr md t (vec cert) /\ Q2R val = INR j /\
          rew_witness rr md t (chosen m md cert) /\ label_count m ls (chosen m md cert) j /\
          forall keep i, rew_witness rr md t keep -> label_count m ls keep i -> j <= i).
  Proof.
    intros md t ls Hm HL. destruct (groups_labels_total rf BF Hi md ls Hm HL) as (gs & EG).
    assert (HG : grouping rf md (Some ls) (match md with Max => true | _ => false end) gs) by (apply (groups_ok rf BF); exact EG).
    destruct (label_groups rf BF Hi md ls gs Hm HL HG) as (ks & KN & KI & KS & F).
    assert (ER : rr_groups_from_labels rr md (Some ls) (match md with Max => true | _ => false end) = Ok gs) by (unfold rr_groups_from_labels; fold rf; rewrite (size_ok rf md Hm); cbn [bind]; exact EG).
    pose proof (lhits rf ls ks KN KI KS) as LH. fold m n in LH.
    destruct (rr_key_gen string md t (Some ls) (labb m) ks gs Hm ER F) as (v & A & b & lp & H1 & H2 & H3 & H4 & H5).
    exists v, A, b, lp. do 4 (split; [assumption|]). intros SB HS. destruct (H5 SB HS) as (HA & HB). split; [exact HA|]. intros Ht. destruct (HB Ht) as (mm & ind & E & XM & HM). exists mm, ind. do 2 (split; [assumption|]).
    intros S HX. destruct (HM S HX) as (G1 & sub & val & cert & j & G2 & G3 & G4 & G5 & G6 & G7 & G8 & G9). split; [exact G1|]. exists sub, val, cert, j. do 6 (split; [assumption|]).
    split; [rewrite <- G8; apply LH|]. intros keep i HK HI. rewrite (label_count_unique m ls keep i _ HI (LH keep)). apply G9. exact HK.
  Qed.

  (** ** States, mode max *)
  Lemma C63_states : forall t, exists v A b lp, rew_opt rr Max v /\ rr_fark_constraints rr t Max = Ok (A, b) /\ upper_bound_lp A (a_C m - 2) b = Ok lp /\ (exists r, exact_answer lp r) /\
    forall SB S, exact_answer lp (SB lp) ->
      ((v < Q2R t)%R -> rr_milp_exact SB S rr t Max None = MkGen [failure Infeasible] None) /\
      ((Q2R t <= v)%R -> rr_milp_exact SB S rr t Max None = MkGen [] (Some AttributeError)).
  Proof.
    intros t. assert (Hm : Max <> OtherMode) by discriminate. destruct (opt_exists Max Hm) as (v & HV). destruct (rr_bounds Max t Hm) as (A & b & lp & EA & LB & HW & HR & EL & XA & HB).
    exists v, A, b, lp. do 4 (split; [assumption|]). intros SB S HS.
    pose proof (point_value rr BF EX Hi LR FREE NR Max t v Hm HV) as PV.
    assert (CP : exists c', a_C m - 2 = Datatypes.S c').
    { destruct (W_act (form_mdp rf) (RFW _ (proj1 (br_rf rf BF EX))) (rf_init rf)) as (r & Hr & Es). { change (nS (form_mdp rf)) with (a_N (rf_sys rf)). lia. }
      assert (r < a_C m - 2) by (apply (rows_in (form_mdp rf) (proj1 (br_rf rf BF EX)) (rf_init rf) Hi r); auto). destruct (a_C m - 2); [lia|eauto]. }
    destruct CP as (c' & EC').
    destruct (HB SB HS) as [(NO & u & EU)|(YES & u & EU & LU & HU)]; change (cert_dim rf Max) with (a_C m - 2) in EU.
    - split; [|intros Ht; exfalso; apply PV in Ht; destruct Ht as (y & Hy); apply (NO y Hy)]. intros _. unfold rr_milp_exact, rr_construct_milp. rewrite EA. cbn [bind certificate_size]. fold rf. fold m. unfold rr_choose_bounds. cbn [rr_is_ec_free]. rewrite EU. reflexivity.
    - split; [intros Ht; exfalso; apply PV in YES; lra|]. intros _. unfold rr_milp_exact, rr_construct_milp. rewrite EA. cbn [bind certificate_size]. fold rf. fold m. unfold rr_choose_bounds. cbn [rr_is_ec_free]. rewrite EU.
      cbn [bind negb andb assert_]. unfold rr_groups_from_labels. cbn [certificate_size bind]. fold rf. fold m. rewrite EC'. reflexivity.
  Qed.
End RM.
