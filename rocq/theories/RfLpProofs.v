(** Proofs about the linear programs of reachability forms. *)
From Coq Require Import String List Arith ZArith QArith Qreals Reals Bool Lia Lra.
From Coq Require Lqa.
From Verif Require Import Base BaseFacts Num Matrix MatFacts SccSpec SpecMdp SpecSystem SpecEc SpecForm SpecBuilt SpecProb SumFacts MdpValue RfTheory Amdp
  ReachForm ReachFormProofs RfFacts FarkProofs BuiltFacts RfBridge FarkReal Milp SpecLp MilpProofs LpExists RfLps Certificates CertProofs.
Import ListNotations.
Local Open Scope nat_scope.

Lemma sumn_eq_pointwise : forall n f g, (forall i, i < n -> (f i <= g i)%R) -> (sumn n g <= sumn n f)%R -> forall i, i < n -> f i = g i.
Proof.
  intros n f g H HS i Hi. apply Rle_antisym; [apply H; auto|]. apply Rnot_lt_le. intros HL.
  assert (D : (g i - f i <= sumn n (fun i => g i - f i))%R).
  { apply (sumn_term_le n i (fun i => g i - f i)%R Hi). intros j Hj. specialize (H j Hj). lra. }
  rewrite sumn_minus in D. lra.
Qed.

Lemma lin_one : forall s x, lin [(s, 1%Q)] x = x s.
Proof. intros. simpl. rewrite RMicromega.Q2R_1. ring. Qed.

Lemma sumn_ones : forall n k x, k <= n -> sumn k (fun j => Q2R (nth j (repeat 1%Q n) 0%Q) * x j)%R = sumn k x.
Proof.
  intros. apply sumn_ext. intros j Hj. rewrite (nth_indep _ _ 1%Q) by (rewrite repeat_length; lia). rewrite nth_repeat, RMicromega.Q2R_1. ring.
Qed.

Section LP.
  Variable rf : rform.
  Hypothesis BF : built_form rf.
  Hypothesis EX : exact_rows (a_P (rf_sys rf)).
  Let P := a_P (rf_sys rf).
  Let inv := a_inv (rf_sys rf).
  Let init := rf_init rf.
  Let n := rf_N rf.
  Let c := rf_C rf.
  Let M := form_mdp rf.
  Let RO : rf_ok rf := br_ro rf BF.
  Let FM := br_form rf BF.
  Let V0 := Vmn rf BF EX.
  Let V1 := Vmx rf BF EX.
  Let RFI : rf_mdp M init := br_rf rf BF EX.
  Let RF : shape_mdp M := proj1 RFI.
  Hypothesis Hi : init < n.

  Definition one_ec (x : nat -> R) (s : nat) : Prop :=
    (in_some_ec P inv s -> x s = 0%R) /\ (~ in_some_ec P inv s -> (0 <= x s <= 1)%R).

  Lemma max_z_lp_spec : exists lp, max_z_lp rf = Ok lp /\ lp_wf lp /\ length (mi_vars lp) = n /\ mi_dir lp = Maximise /\
    (forall x, objective lp x = sumn n x) /\
    forall x, feasible lp x <-> (forall r, r < c -> (x (src M r) <= onestep M r x)%R) /\ (0 <= x init)%R /\ forall s, s < n -> one_ec x s.
  Proof.
    destruct (fark_z_real rf BF 0 Hi) as (A & b & E & LA & LB & HW & R1 & B1 & R2 & B2). unfold max_z_lp. rewrite E. cbn [bind]. fold n.
    destruct (lp_spec A n b (repeat 1%Q n) SLe Maximise) as (m0 & E0 & OK0 & VL0 & D0 & O0 & F0);
      [discriminate|discriminate|intros row Hr; rewrite (HW row Hr); auto|unfold c in *; lia|rewrite repeat_length; auto|].
    rewrite E0. cbn [bind]. pose proof (lp_from_coefficients_wf _ _ _ _ _ _ _ E0) as W0.
    set (f := fun (lp : milp) (s : nat) => let* e := in_proper_ec rf s in
        if e then add_constraints lp [([(s, 1%Q)], SEq, 0%Q)] else add_constraints lp [([(s, 1%Q)], SGe, 0%Q); ([(s, 1%Q)], SLe, 1%Q)]).
    destruct (foldM_ok _ _ f (fun pre lp => mi_ok lp /\ lp_wf lp /\ length (mi_vars lp) = n /\ mi_dir lp = Maximise /\ mi_obj lp = mi_obj m0 /\
       forall x, feasible lp x <-> feasible m0 x /\ forall s, In s pre -> one_ec x s) (seq 0 n) m0) as (lp & E1 & OK1 & W1 & VL1 & D1 & O1 & F1).
    - split; [auto|]. split; [auto|]. split; [auto|]. split; [auto|]. split; [auto|]. intros x. simpl. intuition.
    - intros pre s m1 (OK & W & VL & D & O & F) (post & Hs).
      assert (Hsn : s < n). { assert (In s (seq 0 n)) by (rewrite Hs; apply in_or_app; right; left; auto). apply in_seq in H. lia. }
      destruct (in_proper_ec_ok rf init RO FM s Hsn) as (e & Ee & He). unfold f. rewrite Ee. cbn [bind].
      assert (GC : forall s1 q, s1 <> OtherSense -> good_con (length (mi_vars m1)) ([(s, 1%Q)], s1, q)).
      { intros s1 q H1. split; [auto|]. split; [|constructor; [intros []|constructor]]. intros v r [Ev|[]]. inversion Ev; subst. lia. }
      destruct e.
      + destruct (add_constraints_spec [([(s, 1%Q)], SEq, 0%Q)] m1 OK) as (m2 & E2 & OK2 & VL2 & O2 & D2 & F2).
        { intros cc [<-|[]]. apply GC. discriminate. }
        exists m2. split; [exact E2|]. split; [auto|]. split; [eapply add_constraints_wf; eauto|]. split; [congruence|]. split; [congruence|]. split; [congruence|].
        intros x. rewrite F2, F. assert (EC := proj1 He eq_refl). change (in_some_ec P inv s) in EC. split.
        * intros ((A1 & A2) & A3). split; auto. intros s' Hs'. apply in_app_or in Hs'. destruct Hs' as [Hs'|[<-|[]]]; auto.
          specialize (A3 _ _ _ (or_introl eq_refl)). cbn [rel] in A3. rewrite RMicromega.Q2R_0, lin_one in A3. split; tauto.
        * intros (A1 & A2). split; [split; auto; intros; apply A2; apply in_or_app; auto|].
          intros l s1 q [Eq|[]]. inversion Eq; subst. cbn [rel]. rewrite RMicromega.Q2R_0, lin_one. apply (A2 s); auto. apply in_or_app; right; left; auto.
      + destruct (add_constraints_spec [([(s, 1%Q)], SGe, 0%Q); ([(s, 1%Q)], SLe, 1%Q)] m1 OK) as (m2 & E2 & OK2 & VL2 & O2 & D2 & F2).
        { intros cc [<-|[<-|[]]]; apply GC; discriminate. }
        exists m2. split; [exact E2|]. split; [auto|]. split; [eapply add_constraints_wf; eauto|]. split; [congruence|]. split; [congruence|]. split; [congruence|].
        intros x. rewrite F2, F. assert (EC : ~ in_some_ec P inv s) by (intros H; apply He in H; discriminate). split.
        * intros ((A1 & A2) & A3). split; auto. intros s' Hs'. apply in_app_or in Hs'. destruct Hs' as [Hs'|[<-|[]]]; auto.
          pose proof (A3 _ _ _ (or_introl eq_refl)) as A4. pose proof (A3 _ _ _ (or_intror (or_introl eq_refl))) as A5. cbn [rel] in A4, A5.
          rewrite lin_one in A4, A5. rewrite RMicromega.Q2R_0 in A4. rewrite RMicromega.Q2R_1 in A5. split; [tauto|]. intros _. lra.
        * intros (A1 & A2). split; [split; auto; intros; apply A2; apply in_or_app; auto|].
          assert (A3 : (0 <= x s <= 1)%R) by (apply A2; auto; apply in_or_app; right; left; auto).
          intros l s1 q [Eq|[Eq|[]]]; inversion Eq; subst; cbn [rel]; rewrite lin_one, ?RMicromega.Q2R_0, ?RMicromega.Q2R_1; lra.
    - exists lp. split; [exact E1|]. split; [auto|]. split; [auto|]. split; [auto|]. split.
      { intros x. rewrite (objective_spec lp (fun j => nth j (repeat 1%Q n) 0%Q) n x); [apply sumn_ones; auto|]. rewrite O1. exact O0. }
      intros x. rewrite F1, F0. split.
      + intros (A1 & A2). split; [|split].
        * intros r Hr. specialize (A1 r ltac:(unfold c in *; lia)). change (rel SLe (rowR A n r x) (Q2R (nth r b 0%Q))) in A1.
          rewrite R1, B1 in A1 by auto. unfold onestep. change (nS M - 2) with n. change (goal M) with n. cbn [rel] in A1. fold M n in A1. lra.
        * specialize (A1 c ltac:(unfold c in *; lia)). change (rel SLe (rowR A n c x) (Q2R (nth c b 0%Q))) in A1. unfold c, n in A1. rewrite R2, B2 in A1.
          rewrite RMicromega.Q2R_0 in A1. simpl in A1. fold init in A1. lra.
        * intros s Hs. apply A2. apply in_seq. lia.
      + intros (A1 & A2 & A3). split; [|intros s Hs; apply in_seq in Hs; apply A3; lia].
        intros i Hic. change (rel SLe (rowR A n i x) (Q2R (nth i b 0%Q))). assert (i < c \/ i = c) as [Hlt| ->] by (unfold c; lia).
        * rewrite R1, B1 by auto. specialize (A1 i Hlt). unfold onestep in A1. change (nS M - 2) with n in A1. change (goal M) with n in A1. cbn [rel]. fold M n. lra.
        * unfold c, n. rewrite R2, B2, RMicromega.Q2R_0. simpl. fold init. lra.
  Qed.

  Lemma ec_iff : forall s, in_some_ec P inv s <-> in_ec M s.
  Proof. apply (br_ec rf BF EX). Qed.

  Lemma onestep_ext : forall r x y, (forall s, x s = y s) -> onestep M r x = onestep M r y.
  Proof. intros r x y H. unfold onestep. f_equal. apply sumn_ext. intros. rewrite H. auto. Qed.
  Lemma V0_feasible : forall r, r < c -> (V0 (src M r) <= onestep M r V0)%R.
  Proof.
    intros r Hr. unfold V0, Vmn. rewrite (Vmin_irrel _ _ (RFW M RF)), (onestep_ext r _ (Vmin M (RFW M RF) (is_goal M))) by (intros; apply Vmin_irrel).
    apply (Vmin_onestep M RF). exact Hr.
  Qed.
  Lemma V1_feasible : forall r, r < c -> (onestep M r V1 <= V1 (src M r))%R.
  Proof.
    intros r Hr. unfold V1, Vmx. rewrite (Vmax_irrel _ _ (RFW M RF)), (onestep_ext r _ (Vmax M (RFW M RF) (is_goal M))) by (intros; apply Vmax_irrel).
    apply (Vmax_onestep M RF). exact Hr.
  Qed.
  Lemma V0_bounds : forall s, (0 <= V0 s <= 1)%R. Proof. intros. apply Vmin_bounds. Qed.
  Lemma V1_bounds : forall s, (0 <= V1 s <= 1)%R. Proof. intros. apply Vmax_bounds. Qed.

  Lemma C27_lemma : exists lp, max_z_lp rf = Ok lp /\ (exists r, exact_answer lp r) /\
    forall S, exact_answer lp (S lp) -> exists v, pr_min S rf = Ok v /\ sr_status (S lp) = Optimal /\ length v = n /\
      forall s, s < n -> PrMinForm rf s (Q2R (nth s v 0%Q)).
  Proof.
    destruct max_z_lp_spec as (lp & E & W & VL & D & O & F). exists lp. split; [auto|].
    assert (FV : feasible lp V0).
    { apply F. split; [apply V0_feasible|]. split; [apply V0_bounds|]. intros s Hs. split; [|intros _; apply V0_bounds].
      intros H. apply ec_iff in H. unfold V0, Vmn. rewrite (Vmin_irrel _ _ (RFW M RF)). apply (Vmin_in_ec M RF s Hs H). }
    assert (LE : forall x, feasible lp x -> forall s, s < n -> (x s <= V0 s)%R).
    { intros x Hx s Hs. apply F in Hx. destruct Hx as (X1 & _ & X3). unfold V0, Vmn. rewrite (Vmin_irrel _ _ (RFW M RF)).
      apply (z_min_sound M RF x X1); auto. intros s' Hs' H. apply ec_iff in H. right. apply (proj1 (X3 s' Hs') H). }
    assert (BD : exists B, forall x, feasible lp x -> better (mi_dir lp) B (objective lp x)).
    { exists (sumn n V0). intros x Hx. rewrite D, O. simpl. apply sumn_le. intros; apply LE; auto. }
    split; [apply lp_answer_exists; auto|].
    intros S ES. assert (OS := exact_optimal lp (S lp) ES (ex_intro _ _ FV) BD). exists (sr_vec (S lp)).
    unfold pr_min, max_z_state. rewrite E. split; [auto|]. split; [auto|]. unfold exact_answer in ES. rewrite OS in ES. destruct ES as (L & (FX & OX) & _).
    split; [congruence|]. specialize (OX V0 FV). rewrite D, !O in OX. simpl in OX.
    intros s Hs. apply (Vmn_min rf BF EX). { change (nS (form_mdp rf)) with (mcols P). unfold n, rf_N, a_N in Hs. unfold P. lia. }
    change (Q2R (nth s (sr_vec (S lp)) 0%Q)) with (vec (sr_vec (S lp)) s). apply (sumn_eq_pointwise n); auto.
  Qed.

  (** ** pr_max *)
  Lemma pr_max_lp_spec : exists lp, pr_max_lp rf = Ok lp /\ lp_wf lp /\ length (mi_vars lp) = n /\ mi_dir lp = Minimise /\
    (forall x, objective lp x = sumn n x) /\
    forall x, feasible lp x <-> (forall r, r < c -> (onestep M r x <= x (src M r))%R) /\ forall s, s < n -> (0 <= x s <= 1)%R.
  Proof.
    destruct (fark_z_real rf BF 1 Hi) as (A & b & E & LA & LB & HW & R1 & B1 & R2 & B2). unfold pr_max_lp. rewrite E. cbn [bind]. fold n.
    destruct (lp_spec A n b (repeat 1%Q n) SGe Minimise) as (m0 & E0 & OK0 & VL0 & D0 & O0 & F0);
      [discriminate|discriminate|intros row Hr; rewrite (HW row Hr); auto|unfold c in *; lia|rewrite repeat_length; auto|].
    rewrite E0. cbn [bind]. pose proof (lp_from_coefficients_wf _ _ _ _ _ _ _ E0) as W0.
    match goal with |- context [add_constraints m0 ?l] => destruct (add_constraints_spec l m0 OK0) as (lp & E1 & OK1 & VL1 & O1 & D1 & F1) end.
    { intros cc H. apply in_flat_map in H. destruct H as (s & Hs & H). apply in_seq in Hs.
      assert (GC : forall s1 q, s1 <> OtherSense -> good_con (length (mi_vars m0)) ([(s, 1%Q)], s1, q)).
      { intros s1 q H1. split; [auto|]. split; [|constructor; [intros []|constructor]]. intros v r [Ev|[]]. inversion Ev; subst. lia. }
      destruct H as [<-|[<-|[]]]; apply GC; discriminate. }
    exists lp. split; [exact E1|]. split; [eapply add_constraints_wf; eauto|]. split; [congruence|]. split; [congruence|]. split.
    { intros x. rewrite (objective_spec lp (fun j => nth j (repeat 1%Q n) 0%Q) n x); [apply sumn_ones; auto|]. rewrite O1. exact O0. }
    intros x. rewrite F1, F0. split.
    - intros (A1 & A2). split.
      + intros r Hr. specialize (A1 r ltac:(unfold c in *; lia)). change (rel SGe (rowR A n r x) (Q2R (nth r b 0%Q))) in A1.
        rewrite R1, B1 in A1 by auto. unfold onestep. change (nS M - 2) with n. change (goal M) with n. cbn [rel] in A1. fold M n in A1. lra.
      + intros s Hs. assert (I1 : In ([(s, 1%Q)], SGe, 0%Q) (flat_map (fun s => [([(s, 1%Q)], SGe, 0%Q); ([(s, 1%Q)], SLe, 1%Q)]) (seq 0 n))).
        { apply in_flat_map. exists s. split; [apply in_seq; lia|left; auto]. }
        assert (I2 : In ([(s, 1%Q)], SLe, 1%Q) (flat_map (fun s => [([(s, 1%Q)], SGe, 0%Q); ([(s, 1%Q)], SLe, 1%Q)]) (seq 0 n))).
        { apply in_flat_map. exists s. split; [apply in_seq; lia|right; left; auto]. }
        apply A2 in I1. apply A2 in I2. cbn [rel] in I1, I2. rewrite lin_one in I1, I2. rewrite RMicromega.Q2R_0 in I1. rewrite RMicromega.Q2R_1 in I2. lra.
    - intros (A1 & A3). split.
      + intros i Hic. change (rel SGe (rowR A n i x) (Q2R (nth i b 0%Q))). assert (i < c \/ i = c) as [Hlt| ->] by (unfold c; lia).
        * rewrite R1, B1 by auto. specialize (A1 i Hlt). unfold onestep in A1. change (nS M - 2) with n in A1. change (goal M) with n in A1. cbn [rel]. fold M n. lra.
        * unfold c, n. rewrite R2, B2, RMicromega.Q2R_1. simpl. fold init. specialize (A3 init Hi). lra.
      + intros l s1 q H. apply in_flat_map in H. destruct H as (s & Hs & H). apply in_seq in Hs. specialize (A3 s ltac:(lia)).
        destruct H as [Eq|[Eq|[]]]; inversion Eq; subst; cbn [rel]; rewrite lin_one, ?RMicromega.Q2R_0, ?RMicromega.Q2R_1; lra.
  Qed.

  Lemma C28_lemma : exists lp, pr_max_lp rf = Ok lp /\ (exists r, exact_answer lp r) /\
    forall S, exact_answer lp (S lp) -> exists v, pr_max S rf = Ok v /\ sr_status (S lp) = Optimal /\ length v = n /\
      forall s, s < n -> PrMaxForm rf s (Q2R (nth s v 0%Q)).
  Proof.
    destruct pr_max_lp_spec as (lp & E & W & VL & D & O & F). exists lp. split; [auto|].
    assert (FV : feasible lp V1).
    { apply F. split; [|intros; apply V1_bounds]. apply V1_feasible. }
    assert (LE : forall x, feasible lp x -> forall s, s < n -> (V1 s <= x s)%R).
    { intros x Hx s Hs. apply F in Hx. destruct Hx as (X1 & X3). unfold V1, Vmx. rewrite (Vmax_irrel _ _ (RFW M RF)).
      apply (z_max_sound M RF (proj2 (proj2 RFI)) x X1); auto. }
    assert (BD : exists B, forall x, feasible lp x -> better (mi_dir lp) B (objective lp x)).
    { exists (sumn n V1). intros x Hx. rewrite D, O. simpl. apply sumn_le. intros; apply LE; auto. }
    split; [apply lp_answer_exists; auto|].
    intros S ES. assert (OS := exact_optimal lp (S lp) ES (ex_intro _ _ FV) BD). exists (sr_vec (S lp)).
    unfold pr_max. rewrite E. split; [auto|]. split; [auto|]. unfold exact_answer in ES. rewrite OS in ES. destruct ES as (L & (FX & OX) & _).
    split; [congruence|]. specialize (OX V1 FV). rewrite D, !O in OX. simpl in OX.
    intros s Hs. apply (Vmx_max rf BF EX). { change (nS (form_mdp rf)) with (mcols P). unfold n, rf_N, a_N in Hs. unfold P. lia. }
    change (Q2R (nth s (sr_vec (S lp)) 0%Q)) with (vec (sr_vec (S lp)) s). symmetry. apply (sumn_eq_pointwise n); auto.
  Qed.

  (** ** Values are rational *)
  Lemma V0_rational : forall s, s < n -> exists q, V0 s = Q2R q.
  Proof.
    intros s Hs. destruct C27_lemma as (lp & E & (r & HR) & H). destruct (H (fun _ => r) HR) as (v & _ & _ & _ & HV).
    exists (nth s v 0%Q). symmetry. apply (Vmn_min rf BF EX); [|apply HV; auto]. unfold n, rf_N, a_N in Hs. change (nS (form_mdp rf)) with (mcols P). unfold P. lia.
  Qed.
  Lemma V1_rational : forall s, s < n -> exists q, V1 s = Q2R q.
  Proof.
    intros s Hs. destruct C28_lemma as (lp & E & (r & HR) & H). destruct (H (fun _ => r) HR) as (v & _ & _ & _ & HV).
    exists (nth s v 0%Q). symmetry. apply (Vmx_max rf BF EX); [|apply HV; auto]. unfold n, rf_N, a_N in Hs. change (nS (form_mdp rf)) with (mcols P). unfold P. lia.
  Qed.

  (** ** max_z_state_action *)
  Lemma dot_sum : forall (f : nat -> Q) z k, length z = k -> Q2R (dotQ (map f (seq 0 k)) z) = sumn k (fun d => Q2R (f d) * vec z d)%R.
  Proof.
    intros f z k H. rewrite (dot_entry f k z H), Q2R_sum_to. apply sumn_ext. intros. rewrite Q2R_mult. reflexivity.
  Qed.

  Lemma C55_z_lemma : exists lp, max_z_lp rf = Ok lp /\
    forall S, exact_answer lp (S lp) -> exists w, max_z_state_action S rf = Ok w /\ length w = c /\
      forall i, i < c -> exists z, (forall d, d < n -> PrMinForm rf d (z d)) /\
        Q2R (nth i w 0%Q) = (sumn n (fun d => prob M i d * z d) + prob M i n)%R.
  Proof.
    destruct C27_lemma as (lp & E & _ & H). exists lp. split; [auto|]. intros S HS. destruct (H S HS) as (v & Ev & _ & Lv & HV).
    unfold max_z_state_action. change (max_z_state S rf) with (pr_min S rf). rewrite Ev. cbn [bind].
    rewrite Lv. unfold n. rewrite Nat.eqb_refl. eexists. split; [reflexivity|]. split; [rewrite map_length, seq_length; auto|].
    intros i Hic. exists (vec v). split; [intros; apply HV; auto|]. rewrite nth_map_seq by auto. rewrite Q2R_plus. f_equal.
    - rewrite dot_sum by auto. apply sumn_ext. intros d Hd. reflexivity.
    - rewrite (ro_tt rf RO), nth_map_seq by auto. reflexivity.
  Qed.

  (** ** max_y_state_action *)
  Lemma max_y_lp_spec : exists lp, max_y_lp rf = Ok lp /\ lp_wf lp /\ length (mi_vars lp) = c /\ mi_dir lp = Maximise /\
    (forall x, objective lp x = to_goal M x) /\
    forall x, feasible lp x <-> (forall s, s < n -> (balance M x s <= if s =? init then 1 else 0)%R) /\ (0 <= to_goal M x)%R /\ forall i, i < c -> (0 <= x i)%R.
  Proof.
    destruct (fark_y_real rf BF 0 ltac:(unfold init, n in *; lia)) as (A & b & E & LA & LB & HW & R1 & B1 & R2 & B2). unfold max_y_lp. rewrite E. cbn [bind]. fold c.
    assert (LT : length (rf_to_target rf) = c) by (rewrite (ro_tt rf RO), map_length, seq_length; auto).
    destruct (lp_spec A c b (rf_to_target rf) SLe Maximise) as (m0 & E0 & OK0 & VL0 & D0 & O0 & F0);
      [discriminate|discriminate|intros row Hr; rewrite (HW row Hr); auto|unfold c in *; lia|lia|].
    rewrite E0. cbn [bind]. pose proof (lp_from_coefficients_wf _ _ _ _ _ _ _ E0) as W0.
    match goal with |- context [add_constraints m0 ?l] => destruct (add_constraints_spec l m0 OK0) as (lp & E1 & OK1 & VL1 & O1 & D1 & F1) end.
    { intros cc H. apply in_map_iff in H. destruct H as (s & <- & Hs). apply in_seq in Hs. split; [discriminate|]. split; [|constructor; [intros []|constructor]].
      intros v r [Ev|[]]. inversion Ev; subst. lia. }
    exists lp. split; [exact E1|]. split; [eapply add_constraints_wf; eauto|]. split; [congruence|]. split; [congruence|]. split.
    { intros x. rewrite (objective_spec lp (fun j => nth j (rf_to_target rf) 0%Q) c x).
      - unfold to_goal. change (nA M - 2) with c. apply sumn_ext. intros i Hic. rewrite (ro_tt rf RO), nth_map_seq by auto. change (goal M) with n.
        rewrite Rmult_comm. reflexivity.
      - rewrite O1. exact O0. }
    intros x. rewrite F1, F0. split.
    - intros (A1 & A2). split; [|split].
      + intros s Hs. specialize (A1 s ltac:(unfold n in *; lia)). change (rel SLe (rowR A c s x) (Q2R (nth s b 0%Q))) in A1.
        rewrite R1, B1 in A1 by auto. exact A1.
      + specialize (A1 n ltac:(unfold n in *; lia)). change (rel SLe (rowR A c n x) (Q2R (nth n b 0%Q))) in A1. unfold c, n in A1. rewrite R2, B2 in A1.
        rewrite RMicromega.Q2R_0 in A1. cbn [rel] in A1. fold M in A1. lra.
      + intros i Hic. specialize (A2 [(i, 1%Q)] SGe 0%Q (in_map _ _ _ (proj2 (in_seq c 0 i) ltac:(lia)))). cbn [rel] in A2. rewrite lin_one, RMicromega.Q2R_0 in A2. lra.
    - intros (A1 & A2 & A3). split.
      + intros i Hic. change (rel SLe (rowR A c i x) (Q2R (nth i b 0%Q))). assert (i < n \/ i = n) as [Hlt| ->] by (unfold n; lia).
        * rewrite R1, B1 by auto. apply A1; auto.
        * unfold c, n. rewrite R2, B2, RMicromega.Q2R_0. cbn [rel]. fold M. lra.
      + intros l s1 q H. apply in_map_iff in H. destruct H as (s & Eq & Hs). apply in_seq in Hs. inversion Eq; subst. cbn [rel]. rewrite lin_one, RMicromega.Q2R_0.
        specialize (A3 s ltac:(lia)). lra.
  Qed.

  Lemma C55_y_lemma : exists lp, max_y_lp rf = Ok lp /\ (exists r, exact_answer lp r) /\
    forall S, exact_answer lp (S lp) -> exists y, max_y_state_action S rf = Ok y /\ sr_status (S lp) = Optimal /\ length y = c /\
      (forall i, i < c -> (0 <= nth i y 0)%Q) /\
      PrMaxForm rf init (sumn c (fun i => prob M i n * Q2R (nth i y 0%Q)))%R.
  Proof.
    destruct max_y_lp_spec as (lp & E & W & VL & D & O & F). exists lp. split; [auto|].
    assert (UP : forall x, feasible lp x -> (to_goal M x <= V1 init)%R).
    { intros x Hx. apply F in Hx. destruct Hx as (X1 & _ & X3). unfold V1, Vmx. rewrite (Vmax_irrel _ _ (RFW M RF)). apply (y_max_sound M init RF x); auto. }
    destruct (V1_rational init Hi) as (q & Hq).
    assert (Uq : in_unit q). { pose proof (V1_bounds init) as B. rewrite Hq in B. split; apply Rle_Qle; rewrite ?RMicromega.Q2R_0, ?RMicromega.Q2R_1; apply B. }
    destruct (complete_y_max rf BF EX q 0%Q FGe Uq (Qle_refl 0) eq_refl Hi) as (v & CV & PV). { change (Vmx rf BF EX (rf_init rf)) with (V1 init). rewrite Hq. lra. }
    apply check_y_max in CV; [|exact BF|left; auto]. destruct CV as (_ & _ & LV & FV & TV & _).
    set (x0 := fun r => Q2R (entry v r)).
    assert (T0 : (V1 init <= to_goal M x0)%R).
    { unfold x0, M. rewrite (to_goal_vec rf v). rewrite Hq. apply Qle_Rle. unfold reward_y in TV. Lqa.lra. }
    assert (FX : feasible lp x0).
    { apply F. split; [|split].
      - intros s Hs. pose proof (FV s Hs) as A. unfold x0, M. rewrite (balance_vec rf BF v s Hs). rewrite <- (at_init_R rf s : _ = (if s =? init then 1 else 0)%R). apply Qle_Rle. unfold flow in A. Lqa.lra.
      - pose proof (V1_bounds init). lra.
      - intros i Hic. unfold x0. rewrite <- RMicromega.Q2R_0. apply Qle_Rle. apply PV. auto. }
    assert (BD : exists B, forall x, feasible lp x -> better (mi_dir lp) B (objective lp x)).
    { exists (V1 init). intros x Hx. rewrite D, O. simpl. apply UP; auto. }
    split; [apply lp_answer_exists; auto|].
    intros S ES. assert (OS := exact_optimal lp (S lp) ES (ex_intro _ _ FX) BD). exists (sr_vec (S lp)).
    unfold max_y_state_action. rewrite E. split; [auto|]. split; [auto|]. unfold exact_answer in ES. rewrite OS in ES. destruct ES as (L & (FY & OY) & _).
    split; [congruence|]. split.
    - intros i Hic. apply F in FY. destruct FY as (_ & _ & X3). specialize (X3 i Hic). apply Rle_Qle. rewrite RMicromega.Q2R_0. exact X3.
    - apply (Vmx_max rf BF EX init). { change (nS (form_mdp rf)) with (mcols P). unfold n, rf_N, a_N in Hi. unfold P, init. lia. }
      specialize (OY x0 FX). rewrite D, !O in OY. simpl in OY. specialize (UP _ FY). fold V1.
      rewrite (sumn_ext c _ (fun i => (vec (sr_vec (S lp)) i * prob M i n)%R)) by (intros; unfold vec; ring).
      change (to_goal M (vec (sr_vec (S lp))) = V1 init). lra.
  Qed.

  (** ** max_y_state *)
  Lemma C29_sum_lemma : forall S y, max_y_state_action S rf = Ok y -> length y = c ->
    exists v, max_y_state S rf = Ok v /\ length v = n /\
      forall s, s < n -> (nth s v 0 == (if (s =? init)%nat then 1 else 0) + sum_to c (fun i => if belongs inv i s then nth i y 0 else 0))%Q.
  Proof.
    intros S y Ey Ly. unfold max_y_state. rewrite Ey. cbn [bind]. fold init n c. rewrite (proj2 (Nat.ltb_lt _ _) Hi).
    match goal with |- context [foldM ?f ?l ?s0] => destruct (foldM_ok _ _ f (fun pre v => length v = n /\
       forall s, s < n -> (nth s v 0 == (if (s =? init)%nat then 1 else 0) + sumQ (map (fun i => if belongs inv i s then nth i y 0 else 0) pre))%Q) l s0) as (v & Ev & Hv) end.
    - rewrite upd_length, repeat_length. split; [auto|]. intros s Hs. rewrite nth_upd, repeat_length. rewrite (proj2 (Nat.ltb_lt _ _) Hi), andb_true_r, Nat.eqb_sym.
      unfold sumQ; simpl. destruct (s =? init); [ring|]. rewrite nth_repeat. ring.
    - intros pre i v0 (L0 & H0) (post & Hp).
      assert (Hic : i < c). { assert (In i (seq 0 c)) by (rewrite Hp; apply in_or_app; right; left; auto). apply in_seq in H. lia. }
      destruct (inv_row rf BF i Hic) as (st & a & Ei & Hst). rewrite (rf_inv_row rf BF i Hic), Ei. cbn [bind of_opt].
      destruct (nth_error y i) as [q|] eqn:Eq; [|apply nth_error_None in Eq; lia]. destruct (nth_error v0 st) as [o|] eqn:Eo; [|apply nth_error_None in Eo; unfold n in *; lia].
      cbn [bind of_opt]. eexists. split; [reflexivity|]. split; [rewrite upd_length; auto|]. intros s Hs. rewrite map_app, (sumQ_app _ _). simpl map.
      unfold belongs at 2. change (inv i) with (a_inv (rf_sys rf) i). rewrite Ei. rewrite nth_upd. apply nth_error_nth with (d := 0%Q) in Eq. apply nth_error_nth with (d := 0%Q) in Eo.
      rewrite L0. unfold sumQ at 2. simpl fold_right. destruct (Nat.eqb_spec st s) as [<-|Hne]; simpl andb.
      + rewrite (proj2 (Nat.ltb_lt _ _) Hst : (st <? n) = true). specialize (H0 st Hst). rewrite Eo in H0. rewrite H0, Eq. ring.
      + specialize (H0 s Hs). rewrite Qplus_0_r, Qplus_0_r. exact H0.
    - exists v. split; [exact Ev|]. exact Hv.
  Qed.
End LP.
