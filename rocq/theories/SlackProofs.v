(** What the constructed models contain, and what answers within a tolerance
    satisfy. *)
From Coq Require Import String List Arith ZArith QArith Qreals Reals Bool Lia Lra.
From Verif Require Import Base BaseFacts Num Matrix MatFacts InvDict SccSpec SpecMdp SpecEc SpecSystem SpecForm SpecBuilt SpecProb SpecSub SpecLp SpecMilp SumFacts MdpValue RfTheory SubTheory
  Amdp ReachForm ReachFormProofs RfFacts BuiltFacts RfBridge FarkReal Milp MilpProofs LpExists RfLpProofs Formulations MilpBuild GroupProofs MilpForm.
Import ListNotations.
Local Open Scope nat_scope.

Definition keeps (m m' : milp) : Prop :=
  (forall j v, nth_error (mi_vars m) j = Some v -> nth_error (mi_vars m') j = Some v) /\ (forall c, has_constr m c -> has_constr m' c).

Lemma keeps_refl : forall m, keeps m m. Proof. intros m. split; auto. Qed.
Lemma keeps_trans : forall a b c, keeps a b -> keeps b c -> keeps a c. Proof. intros a b c [A1 A2] [B1 B2]. split; auto. Qed.

Lemma set_objective_keeps : forall m e m', set_objective m e = Ok m' -> keeps m m' /\ (mi_ok m -> mi_ok m').
Proof. intros m e m' H. unfold set_objective in H. apply bind_ok in H. destruct H as (u & _ & H). injection H as <-. split; [split; auto|auto]. Qed.

Lemma add_constraint_has : forall m l s r m' i, mi_ok m -> add_constraint m l s r = Ok (m', i) ->
  keeps m m' /\ has_constr m' (MkConstr (affine l) s r) /\ mi_ok m' /\ mi_vars m' = mi_vars m.
Proof.
  intros m l s r m' i OK H. pose proof (add_constraint_inv _ _ _ _ _ _ OK H) as (OK' & V & _). unfold add_constraint in H. apply bind_ok in H. destruct H as (u & E0 & H).
  apply bind_ok in H. destruct H as (u1 & E1 & H). injection H as E Ei.
  assert (NK : ~ In (CName (mi_count m)) (dkeys (mi_constrs m))).
  { intros HI. apply in_map_iff in HI. destruct HI as ((k & c) & Ek & HI). cbn in Ek. subst k. destruct OK as [_ OK]. destruct (OK _ _ HI) as (n & En & Hn). inversion En. lia. }
  rewrite dset_fresh in E; auto using ckey_eqbP. subst m'. split; [|split; [|split; [exact OK'|exact V]]].
  - split; [auto|]. intros c (k & Hc). exists k. cbn [mi_constrs]. apply in_or_app. left; auto.
  - exists (CName (mi_count m)). cbn [mi_constrs]. apply in_or_app. right. left. reflexivity.
Qed.

Lemma con_steps_has : forall ub sigma G m m', mi_ok m -> foldM (con_step ub sigma) G m = Ok m' ->
  keeps m m' /\ mi_vars m' = mi_vars m /\ forall v k, In v G -> k_of ub v = Some k -> has_constr m' (ind_con v sigma k).
Proof.
  intros ub sigma. induction G as [|v G IH]; intros m m' OK H; cbn [foldM] in H.
  - injection H as <-. split; [apply keeps_refl|]. split; [auto|]. intros v k [].
  - apply bind_ok in H. destruct H as (m1 & E & H). destruct (con_step_inv _ _ _ _ _ OK E) as (OK1 & V1 & _). destruct (IH _ _ OK1 H) as (K2 & V2 & C2).
    unfold con_step in E. apply bind_ok in E. destruct E as (k & Ek & E). apply bind_ok in E. destruct E as ((m2 & i) & E & E'). injection E' as ->.
    destruct (add_constraint_has _ _ _ _ _ _ OK E) as (K1 & C1 & _). split; [eapply keeps_trans; eauto|]. split; [congruence|].
    intros w k' [<-|Hw] Hk; [|apply C2; auto]. apply K2. unfold ind_con. assert (k' = k); [|subst; exact C1].
    unfold k_of in Hk. destruct ub as [u|]; [rewrite Hk in Ek; cbn in Ek; congruence|congruence].
Qed.

Definition ind_has (dom : domain) (ub : option (list Q)) (m : milp) (sigma : nat) (G : list nat) : Prop :=
  (exists w, nth_error (mi_vars m) sigma = Some w /\ mk_var dom (Some 0%Q) (ind_var dom ub) = Ok w) /\
  forall v k, In v G -> k_of ub v = Some k -> has_constr m (ind_con v sigma k).

Lemma ind_has_keeps : forall dom ub m m' s G, keeps m m' -> ind_has dom ub m s G -> ind_has dom ub m' s G.
Proof. intros dom ub m m' s G [K1 K2] [(w & A & B) C]. split; [exists w; auto|]. intros; apply K2; eauto. Qed.

Lemma add_group_has : forall dom ub m ind G m' ind', mi_ok m -> exprs_ok m -> add_group dom ub (m, ind) G = Ok (m', ind') ->
  keeps m m' /\ ind_has dom ub m' (length (mi_vars m)) G.
Proof.
  intros dom ub m ind G m' ind' OK EO H. unfold add_group in H. apply bind_ok in H. destruct H as ((m1 & vs) & E1 & H).
  unfold add_variables_w_bounds in E1. cbn [foldM] in E1. apply bind_ok in E1. destruct E1 as ((m2 & l2) & E1 & E2). injection E2 as -> ->.
  apply bind_ok in E1. destruct E1 as (v & Ev & E1). injection E1 as <- <-. cbn [app nth_error of_opt bind] in H.
  apply bind_ok in H. destruct H as (m3 & E3 & H). injection H as <- <-. change (foldM (con_step ub (length (mi_vars m))) G (push_var m v) = Ok m3) in E3.
  destruct (push_var_facts m v OK EO) as (P1 & P2 & P3). destruct (con_steps_has _ _ _ _ _ P1 E3) as (K & V & C).
  assert (K0 : keeps m (push_var m v)).
  { split; [|auto]. intros j w Hj. cbn [push_var mi_vars]. rewrite nth_error_app1; [auto|]. apply nth_error_Some. congruence. }
  split; [eapply keeps_trans; eauto|]. split; [|exact C]. exists v. split; [|exact Ev]. rewrite V. cbn [push_var mi_vars]. rewrite nth_error_app2, Nat.sub_diag by lia. reflexivity.
Qed.

Lemma indicators_has : forall dom ub groups m ind m' ind', mi_ok m -> exprs_ok m -> (forall s, In s (dkeys ind) -> s < length (mi_vars m)) ->
  foldM (add_group dom ub) groups (m, ind) = Ok (m', ind') ->
  keeps m m' /\ forall sigma G, In (sigma, G) (combine (seq (length (mi_vars m)) (length groups)) groups) -> ind_has dom ub m' sigma G.
Proof.
  intros dom ub. induction groups as [|G groups IH]; intros m ind m' ind' OK EO NI H; cbn [foldM] in H.
  - injection H as <- <-. split; [apply keeps_refl|]. intros s G [].
  - apply bind_ok in H. destruct H as ((m1 & ind1) & E & H).
    destruct (add_group_inv _ _ _ _ _ _ _ OK EO (fun Hc => Nat.lt_irrefl _ (NI _ Hc)) E) as (A1 & A2 & A3 & A4 & A5 & A6 & A7 & A8).
    destruct (add_group_has _ _ _ _ _ _ _ OK EO E) as (K1 & I1).
    destruct (IH m1 ind1 m' ind' A1 A2) as (K2 & I2); [|exact H|].
    { intros s Hs. rewrite A5. rewrite A6 in Hs. unfold dkeys in Hs. rewrite map_app in Hs. apply in_app_or in Hs. destruct Hs as [Hs|[<-|[]]]; [specialize (NI s Hs); lia|cbn; lia]. }
    split; [eapply keeps_trans; eauto|]. cbn [length seq combine]. intros s G' [Eq|Hin].
    + injection Eq as <- <-. eapply ind_has_keeps; eauto.
    + apply I2. rewrite A5. exact Hin.
Qed.

Lemma from_coefficients_has : forall A n b opt domains s o bounds m, s <> OtherSense -> (forall row, In row A -> length row = n) ->
  from_coefficients A n b opt domains s o bounds = Ok m ->
  (forall j, j < n -> exists v, nth_error (mi_vars m) j = Some v /\ mk_var (nth j domains OtherDomain) (fst (bound_at bounds j)) (snd (bound_at bounds j)) = Ok v) /\
  (forall i, i < length A -> exists c, has_constr m c /\ c_sense c = s /\ c_rhs c = nth i b 0%Q /\ forall x, lin (c_lhs c) x = rowR A n i x).
Proof.
  intros A n b opt domains s o bounds m Hs HA H. pose proof (from_coefficients_inv _ _ _ _ _ _ _ _ _ Hs H) as (_ & HLb & _ & HLd & HLs & HDom).
  unfold from_coefficients in H. apply bind_ok in H. destruct H as (m0 & E0 & H). apply bind_ok in H. destruct H as (ds & E1 & H).
  apply bind_ok in H. destruct H as ((m1 & l1) & E2 & H). apply bind_ok in H. destruct H as (ob & E3 & H). apply bind_ok in H. destruct H as (m2 & E4 & H).
  assert (M0 : m0 = MkMilp o [] [] 0 None) by (destruct o; cbn in E0; congruence).
  destruct (mapM_seq _ _ _ _ _ E1) as (LD & ND).
  assert (DS : forall j, j < n -> nth_error ds j = Some (nth j domains OtherDomain, fst (bound_at bounds j), snd (bound_at bounds j))).
  { intros j Hj. destruct (nth_error ds j) as [y|] eqn:Ey; [|apply nth_error_None in Ey; lia]. specialize (ND j y Hj). rewrite (nth_error_nth _ _ _ Ey) in ND. cbn [Nat.add] in ND.
    rewrite (nth_error_nth' domains OtherDomain) in ND by lia. cbn [of_opt bind] in ND. destruct bounds as [bs|]; cbn [bound_at].
    - rewrite (nth_error_nth' bs (None, None)) in ND by (specialize (HLs bs eq_refl); lia). cbn [of_opt bind] in ND. congruence.
    - cbn. congruence. }
  destruct (add_vars_spec ds m0 []) as (m1' & l1' & E2' & OK1 & C1 & O1 & D1 & K1 & vs & V1 & V2 & V3 & V4).
  { subst m0. split; cbn; [constructor|intros; contradiction]. }
  { intros d Hd. destruct (In_nth_error _ _ Hd) as (j & Hj). assert (Hjn : j < n) by (rewrite <- LD; apply nth_error_Some; congruence).
    rewrite (DS j Hjn) in Hj. injection Hj as <-. cbn. apply HDom; auto. }
  unfold add_variables_w_bounds in E2. rewrite E2 in E2'. injection E2' as <- <-.
  destruct (set_objective_keeps _ _ _ E4) as (KS & OK2). specialize (OK2 OK1).
  assert (F : keeps m2 m /\ mi_ok m /\ mi_vars m = mi_vars m2 /\ forall i, In i (seq 0 (length A)) -> exists c, has_constr m c /\ c_sense c = s /\ c_rhs c = nth i b 0%Q /\ forall x, lin (c_lhs c) x = rowR A n i x).
  { refine (foldM_inv _ _ _ (fun pre m' => keeps m2 m' /\ mi_ok m' /\ mi_vars m' = mi_vars m2 /\ forall i, In i pre -> exists c, has_constr m' c /\ c_sense c = s /\ c_rhs c = nth i b 0%Q /\ forall x, lin (c_lhs c) x = rowR A n i x) _ _ _ _ _ H).
    - split; [apply keeps_refl|]. split; [exact OK2|]. split; [auto|]. intros i [].
    - intros pre i s1 s2 (I1 & I2 & I3 & I4) E (post & Ep).
      assert (Hi : i < length A). { assert (HI : In i (seq 0 (length A))) by (rewrite Ep; apply in_or_app; right; left; auto). apply in_seq in HI. lia. }
      rewrite (nth_error_nth' A [] Hi) in E. cbn [of_opt bind] in E. rewrite (nth_error_nth' b 0%Q) in E by lia. cbn [of_opt bind] in E.
      apply bind_ok in E. destruct E as ((m3 & k) & E & E'). injection E' as ->. destruct (add_constraint_has _ _ _ _ _ _ I2 E) as (B1 & B2 & B3 & B4).
      split; [eapply keeps_trans; eauto|]. split; [exact B3|]. split; [congruence|]. intros j Hj. apply in_app_or in Hj. destruct Hj as [Hj|[<-|[]]].
      + destruct (I4 j Hj) as (c & X1 & X2). exists c. split; [apply B1; auto|exact X2].
      + eexists. split; [exact B2|]. cbn [c_sense c_rhs c_lhs]. split; [auto|]. split; [auto|]. intros x. destruct (row_items_keys (nth i A [])) as (Q1 & _).
        rewrite affine_id by exact Q1. rewrite row_items_lin. unfold rowR. rewrite (HA (nth i A [])); [reflexivity|]. apply nth_In; auto. }
  destruct F as (F1 & F2 & F3 & F4). split.
  - intros j Hj. destruct (V4 j _ _ _ (DS j Hj)) as (v & Hv & Mv). exists v. split; [|exact Mv]. apply F1, KS. rewrite V1. subst m0. exact Hv.
  - intros i Hi. apply F4. apply in_seq. lia.
Qed.

Section Con.
  Variable rf : rform.
  Hypothesis BF : built_form rf.
  Hypothesis Hi : rf_init rf < a_N (rf_sys rf) - 2.
  Let P := a_P (rf_sys rf).
  Let inv := a_inv (rf_sys rf).

  Lemma bounds_has : forall md ub bs, variable_bounds rf md ub (cert_dim rf md) = Ok bs ->
    forall v, v < cert_dim rf md -> exists u, nth v bs (None, None) = (Some 0%Q, u) /\ (md = Min -> in_some_ec P inv v -> u = Some 0%Q).
  Proof.
    intros md ub bs E v Hv. unfold variable_bounds in E. destruct (mapM_seq _ _ _ _ _ E) as (L & HN). specialize (HN v (None, None) Hv). cbn [Nat.add] in HN.
    apply bind_ok in HN. destruct HN as (e & Ee & HN). apply bind_ok in HN. destruct HN as (u & Eu & HN). injection HN as HN. exists u. split; [congruence|].
    intros -> HE. destruct (in_proper_ec_ok rf (rf_init rf) (br_ro rf BF) (br_form rf BF) v ltac:(unfold rf_N; cbn [cert_dim] in Hv; lia)) as (e' & Ee' & He).
    rewrite Ee in Ee'. injection Ee' as <-. rewrite (proj2 He HE) in Eu. congruence.
  Qed.

  Definition con_has (md : mode) (t : Q) (ub : option (list Q)) (dom : domain) (ind : dict nat (list nat)) (mm : milp) : Prop :=
    exists A b, fark_constraints rf t md = Ok (A, b) /\
    (forall i, i < length A -> exists c, has_constr mm c /\ c_sense c = SLe /\ c_rhs c = nth i b 0%Q /\ forall x, lin (c_lhs c) x = rowR A (cert_dim rf md) i x) /\
    (forall v, v < cert_dim rf md -> exists u, nth_error (mi_vars mm) v = Some (MkVar false (Some 0%Q) u) /\ (md = Min -> in_some_ec P inv v -> u = Some 0%Q)) /\
    (forall sigma G, In (sigma, G) ind -> ind_has dom ub mm sigma G).

  Lemma con_has_keeps : forall md t ub dom ind mm mm', keeps mm mm' -> con_has md t ub dom ind mm -> con_has md t ub dom ind mm'.
  Proof.
    intros md t ub dom ind mm mm' K (A & b & E & H1 & H2 & H3). exists A, b. split; [exact E|]. split; [|split].
    - intros i Hil. destruct (H1 i Hil) as (c & X1 & X2). exists c. split; [apply K; auto|auto].
    - intros v Hv. destruct (H2 v Hv) as (u & X1 & X2). exists u. split; [apply K; auto|auto].
    - intros s G HI. eapply ind_has_keeps; eauto.
  Qed.

  Lemma construct_has : forall S t md labels relaxed mm ind, construct_milp S rf t md labels relaxed None = Ok (Some (mm, ind)) ->
    (forall u, (exists A b, fark_constraints rf t md = Ok (A, b) /\ choose_bounds S rf A (cert_dim rf md) b md None = Ok (Some (Some u))) -> length u = cert_dim rf md) ->
    exists ub gs A b, md <> OtherMode /\ fark_constraints rf t md = Ok (A, b) /\ choose_bounds S rf A (cert_dim rf md) b md None = Ok (Some ub) /\
      (relaxed = false -> ub <> None) /\ groups_from_labels rf md labels (match md with Max => negb relaxed | _ => false end) = Ok gs /\
      construct_spec rf md t relaxed ub gs mm ind /\ con_has md t ub (if relaxed then DReal else DBinary) ind mm.
  Proof.
    intros S t md labels relaxed mm ind H HU. destruct (construct_inv rf BF Hi _ _ _ _ _ _ _ H HU) as (ub & gs & A & b & Hm & EA & EC & HR & _ & EG & CS).
    exists ub, gs, A, b. do 5 (split; [assumption|]). split; [exact CS|].
    unfold construct_milp in H. rewrite EA in H. cbn [bind] in H. rewrite (size_ok rf md Hm) in H. cbn [bind] in H. rewrite EC in H. cbn [bind] in H.
    apply bind_ok in H. destruct H as (u0 & Eas & H). rewrite EG in H. cbn [bind] in H. apply bind_ok in H. destruct H as (bs & Eb & H).
    apply bind_ok in H. destruct H as (m0 & E0 & H). apply bind_ok in H. destruct H as ((m1 & ind1) & E1 & H). apply bind_ok in H. destruct H as (m2 & E2 & H). injection H as <- <-.
    assert (HU' : forall u, ub = Some u -> length u = cert_dim rf md). { intros u ->. apply HU. eauto. }
    destruct (base_model rf BF Hi md t ub Hm HU') as (A' & b' & bs' & m0' & EA' & Eb' & E0' & X1 & X2 & X3 & X4 & X5 & X6).
    rewrite EA in EA'. injection EA' as <- <-. rewrite Eb in Eb'. injection Eb' as <-. rewrite E0 in E0'. injection E0' as <-.
    destruct (fark_real rf BF Hi md t Hm) as (A' & b' & EA' & _ & _ & HW & _). rewrite EA in EA'. injection EA' as <- <-.
    assert (NS : SLe <> OtherSense) by discriminate. destruct (from_coefficients_has _ _ _ _ _ _ _ _ _ NS HW E0) as (F1 & F2).
    unfold add_indicator_constraints in E1. destruct (indicators_has _ _ _ _ _ _ _ X1 X2 (fun s (H : In s (dkeys (V := list nat) [])) => match H return _ with end) E1) as (K1 & I1).
    destruct (set_objective_keeps _ _ _ E2) as (K2 & _). pose proof (proj1 CS) as EI. exists A, b. split; [exact EA|]. split; [|split].
    - intros i Hil. destruct (F2 i Hil) as (c & Y1 & Y2). exists c. split; [apply K2, K1; auto|auto].
    - intros v Hv. destruct (F1 v Hv) as (w & Y1 & Y2). destruct (bounds_has md ub bs Eb v Hv) as (u & Eu & HE). cbn [bound_at] in Y2. rewrite Eu in Y2. cbn [fst snd] in Y2.
      rewrite (nth_indep _ _ DReal) in Y2 by (rewrite repeat_length; auto). rewrite nth_repeat in Y2. cbn [mk_var] in Y2. injection Y2 as <-. exists u. split; [apply K2, K1; auto|exact HE].
    - intros s G HI. eapply ind_has_keeps; [exact K2|]. apply I1. rewrite X3. rewrite EI in HI. exact HI.
  Qed.
End Con.
