(** The QS heuristic with the updater that fixes groups that are zero. *)
From Coq Require Import String List Arith ZArith QArith Qreals Reals Bool Lia Lra Classical.
From Coq Require Lqa.
From Verif Require Import Base BaseFacts Num Matrix MatFacts FarkProofs CertProofs InvDict SccSpec SpecMdp SpecEc SpecSystem SpecForm SpecBuilt SpecProb SpecSub SpecLp SpecMilp SumFacts
  Amdp ReachForm RfFacts BuiltFacts Milp MilpProofs LpExists Subsystem Formulations MilpBuild GroupProofs MilpForm MilpExact MilpMin BinExists Problems QsProofs.
Import ListNotations.
Local Open Scope nat_scope.

(** ** Objectives *)
Definition coef (d : dict nat Q) (v : nat) : Q := match dget Nat.eqb d v with Some q => q | None => 0%Q end.

Lemma lin_coef : forall (d : dict nat Q) N x, NoDup (dkeys d) -> (forall v, In v (dkeys d) -> v < N) -> lin d x = sumn N (fun v => Q2R (coef d v) * x v)%R.
Proof.
  induction d as [|[v q] d IH]; intros N x ND HK; cbn [lin].
  - rewrite sumn_zero; auto. intros. unfold coef. cbn. rewrite RMicromega.Q2R_0. ring.
  - cbn [dkeys map fst] in ND, HK. inversion ND; subst. rewrite (IH N x); auto. 2:{ intros w Hw. apply HK. right; auto. }
    rewrite <- (sumn_indicator N v (Q2R q * x v)%R) at 1 by (apply HK; left; auto). rewrite <- sumn_plus. apply sumn_ext. intros w Hw. unfold coef. cbn [dget].
    destruct (Nat.eqb_spec w v) as [->|NE].
    + destruct (dget Nat.eqb d v) as [q'|] eqn:E; [|rewrite RMicromega.Q2R_0; ring]. exfalso. apply H1. apply (dget_Some_key Nat.eqb Nat.eqb_spec). eauto.
    + ring.
Qed.

Lemma coef_fold : forall e (d : dict nat Q) v, NoDup (map fst e) -> coef (fold_left (fun d p => dset Nat.eqb d (fst p) (snd p)) e d) v = match dget Nat.eqb e v with Some q => q | None => coef d v end.
Proof.
  induction e as [|[w q] e IH]; intros d v ND; cbn [fold_left dget]; [reflexivity|]. cbn [map fst] in ND. inversion ND; subst. rewrite IH by auto. cbn [fst snd].
  unfold coef. rewrite (dget_dset Nat.eqb Nat.eqb_spec). rewrite (Nat.eqb_sym v w). destruct (Nat.eqb_spec w v) as [->|NE]; [|reflexivity].
  destruct (dget Nat.eqb e v) as [q'|] eqn:E; [|reflexivity]. exfalso. apply H1. apply (dget_Some_key Nat.eqb Nat.eqb_spec). eauto.
Qed.

Definition obj_nodup (m : milp) : Prop := forall d, mi_obj m = Some d -> NoDup (dkeys d).

Lemma set_objective_nodup : forall m e m', obj_nodup m -> set_objective m e = Ok m' -> obj_nodup m'.
Proof.
  intros m e m' H E. destruct (set_objective_inv _ _ _ E) as (_ & _ & O). intros d Hd. rewrite O in Hd. injection Hd as <-. apply fold_dset_nodup.
  destruct (mi_obj m) as [d|] eqn:Eo; [apply H; auto|constructor].
Qed.
Lemma add_constraint_obj : forall m l s r m' i, add_constraint m l s r = Ok (m', i) -> mi_obj m' = mi_obj m.
Proof. intros m l s r m' i E. unfold add_constraint in E. apply bind_ok in E. destruct E as (u & _ & E). apply bind_ok in E. destruct E as (u' & _ & E). injection E as <- _. auto. Qed.

Lemma foldM_keep : forall A B C (f : B -> A -> res B) (p : B -> C), (forall s a s', f s a = Ok s' -> p s' = p s) -> forall l s s', foldM f l s = Ok s' -> p s' = p s.
Proof.
  intros A B C f p H. induction l as [|a l IH]; intros s s' E; cbn [foldM] in E; [injection E as <-; auto|]. apply bind_ok in E. destruct E as (s1 & E1 & E). rewrite (IH _ _ E). eapply H; eauto.
Qed.

Lemma add_vars_obj : forall ds m m' l, add_variables_w_bounds m ds = Ok (m', l) -> mi_obj m' = mi_obj m.
Proof.
  intros ds m m' l E. unfold add_variables_w_bounds in E.
  apply (foldM_keep _ _ _ _ (fun st : milp * list nat => mi_obj (fst st))) in E; [exact E|]. intros [m1 l1] [[dom lb] ub] [m2 l2] E'.
  apply bind_ok in E'. destruct E' as (v & _ & E'). injection E' as <- _. reflexivity.
Qed.

Lemma from_coefficients_nodup : forall A n b opt ds s o bs m, from_coefficients A n b opt ds s o bs = Ok m -> obj_nodup m.
Proof.
  intros A n b opt ds s o bs m E. unfold from_coefficients in E. apply bind_ok in E. destruct E as (m0 & E0 & E). apply bind_ok in E. destruct E as (de & _ & E).
  apply bind_ok in E. destruct E as ((m1 & l1) & E1 & E). apply bind_ok in E. destruct E as (obj & _ & E). apply bind_ok in E. destruct E as (m2 & E2 & E).
  assert (H2 : obj_nodup m2). { eapply set_objective_nodup; [|exact E2]. unfold obj_nodup. rewrite (add_vars_obj _ _ _ _ E1). destruct o; cbn in E0; try discriminate; injection E0 as <-; discriminate. }
  unfold obj_nodup. replace (mi_obj m) with (mi_obj m2); [exact H2|]. symmetry. eapply (foldM_keep _ _ _ _ mi_obj); [|exact E].
  intros m3 i m4 E3. apply bind_ok in E3. destruct E3 as (row & _ & E3). apply bind_ok in E3. destruct E3 as (rhs & _ & E3). apply bind_ok in E3. destruct E3 as ((m5 & j) & E3 & E4).
  injection E4 as <-. eapply add_constraint_obj; eauto.
Qed.

Lemma construct_nodup : forall S rf t md labels relaxed known mm ind, construct_milp S rf t md labels relaxed known = Ok (Some (mm, ind)) -> obj_nodup mm.
Proof.
  intros S rf t md labels relaxed known mm ind H. unfold construct_milp in H. apply bind_ok in H. destruct H as ((A & b) & EA & H). apply bind_ok in H. destruct H as (n & En & H).
  apply bind_ok in H. destruct H as (cb & Ec & H). destruct cb as [ub|]; [|discriminate].
  apply bind_ok in H. destruct H as (u0 & Eas & H). apply bind_ok in H. destruct H as (gs & Eg & H). apply bind_ok in H. destruct H as (bs & Eb & H).
  apply bind_ok in H. destruct H as (m0 & E0 & H). apply bind_ok in H. destruct H as ((m1 & ind1) & E1 & H). apply bind_ok in H. destruct H as (m2 & E2 & H). injection H as <- <-.
  eapply set_objective_nodup; [|exact E2]. unfold obj_nodup. replace (mi_obj m1) with (mi_obj m0); [apply (from_coefficients_nodup _ _ _ _ _ _ _ _ _ E0)|].
  symmetry. unfold add_indicator_constraints in E1. apply (foldM_keep _ _ _ _ (fun st : milp * dict nat (list nat) => mi_obj (fst st))) in E1; [exact E1|].
  intros [m3 i3] G [m4 i4] E. unfold add_group in E. apply bind_ok in E. destruct E as ((m5 & vs) & E5 & E). apply bind_ok in E. destruct E as (sg & _ & E). apply bind_ok in E. destruct E as (m6 & E6 & E).
  injection E as <- _. cbn [fst]. rewrite <- (add_vars_obj _ _ _ _ E5). eapply (foldM_keep _ _ _ _ mi_obj); [|exact E6].
  intros m7 v m8 E7. apply bind_ok in E7. destruct E7 as (k & _ & E7). apply bind_ok in E7. destruct E7 as ((m9 & j) & E7 & E8). injection E8 as <-. eapply add_constraint_obj; eauto.
Qed.

(** ** The updater *)
Lemma at_map : forall (last : list Q) (ind : dict nat (list nat)), (forall s, In s (dkeys ind) -> s < length last) ->
  mapM (fun g : nat * list nat => at_ last (fst g)) ind = Ok (map (fun g => nth (fst g) last 0%Q) ind).
Proof.
  intros last. induction ind as [|[s G] ind IH]; intros H; [reflexivity|]. cbn [mapM map fst]. unfold at_ at 1. rewrite (nth_error_nth' last 0%Q) by (apply H; left; auto).
  cbn [of_opt bind]. rewrite IH by (intros; apply H; right; auto). reflexivity.
Qed.
Lemma combine_map : forall A B (f : A -> B) l, combine l (map f l) = map (fun a => (a, f a)) l.
Proof. induction l as [|a l IH]; [reflexivity|]. cbn. rewrite IH. reflexivity. Qed.

Lemma fixed_zeros_spec : forall rf md (ind : dict nat (list nat)) last, (forall s, In s (dkeys ind) -> s < length last) ->
  exists obj cs, fixed_zeros rf md ind last = Ok (obj, cs) /\ map fst obj = dkeys ind /\ (forall s w, In (s, w) obj -> (0 <= Q2R w)%R) /\
    forall l s r, In (l, s, r) cs <-> exists sigma, In sigma (dkeys ind) /\ l = [(sigma, 1%Q)] /\ s = SEq /\ r = 0%Q /\ vec last sigma = 0%R.
Proof.
  intros rf md ind last H. unfold fixed_zeros. rewrite (at_map last ind H). cbn [bind]. rewrite combine_map. eexists. eexists. split; [reflexivity|]. split; [|split].
  - rewrite !map_map. reflexivity.
  - intros s w Hin. apply in_map_iff in Hin. destruct Hin as (gv & E & Hin). apply in_map_iff in Hin. destruct Hin as (g & <- & Hin). cbn [fst snd] in E. injection E as <- <-.
    destruct (Qlt_bool 0 (nth (fst g) last 0%Q)) eqn:E; [|rewrite RMicromega.Q2R_0; lra]. apply Qlt_bool_iff in E. rewrite <- RMicromega.Q2R_0. apply Qle_Rle. apply Qlt_le_weak.
    unfold Qdiv. rewrite Qmult_1_l. apply Qinv_lt_0_compat. exact E.
  - intros l s r. rewrite in_map_iff. split.
    + intros (gv & E & Hin). apply filter_In in Hin. destruct Hin as [Hin HZ]. apply in_map_iff in Hin. destruct Hin as (g & <- & Hin). cbn [fst snd] in *. injection E as <- <- <-.
      exists (fst g). split; [apply in_map; auto|]. do 3 (split; [auto|]). unfold vec. apply Qeq_bool_iff in HZ. rewrite (Qeq_eqR _ _ HZ). apply RMicromega.Q2R_0.
    + intros (sg & Hin & -> & -> & -> & HV). apply in_map_iff in Hin. destruct Hin as (g & <- & Hin). exists (g, nth (fst g) last 0%Q). split; [reflexivity|]. apply filter_In. split.
      * apply in_map_iff. exists g. auto.
      * cbn [snd]. apply Qeq_bool_iff. apply eqR_Qeq. rewrite RMicromega.Q2R_0. exact HV.
Qed.

Section Fixed.
  Variable rf : rform.
  Variable md : mode.
  Hypothesis Hm : md <> OtherMode.
  Variable m0 : milp.
  Variable ind : dict nat (list nat).
  Let n := cert_dim rf md.
  Let N := length (mi_vars m0).
  Hypothesis LV : n <= N.
  Hypothesis KI : dkeys ind = seq n (N - n).
  Hypothesis X0 : exprs_ok m0.
  Hypothesis D0 : mi_dir m0 = Minimise.
  (** Indicators are not negative. *)
  Hypothesis POS : forall x sigma, feasible m0 x -> In sigma (dkeys ind) -> (0 <= x sigma)%R.
  Variable S : nat -> solver.
  Let up := fixed_zeros rf md ind.

  (** The objective only contains indicators. *)
  Definition oinv (m : milp) : Prop := exprs_ok m /\ mi_dir m = Minimise /\ exists d, mi_obj m = Some d /\ NoDup (dkeys d) /\ forall v, v < n -> Q2R (coef d v) = 0%R.

  Lemma key_range : forall s, In s (dkeys ind) <-> n <= s < N.
  Proof. intros s. rewrite KI, in_seq. split; lia. Qed.
  Lemma keys_nodup : NoDup (dkeys ind).
  Proof. rewrite KI. apply seq_NoDup. Qed.

  Lemma oinv_objective : forall m e m', oinv m -> mi_vars m = mi_vars m0 -> set_objective m e = Ok m' -> NoDup (map fst e) -> (forall s, In s (map fst e) -> In s (dkeys ind)) -> oinv m'.
  Proof.
    intros m e m' (XO & D & d & Ed & ND & Z) V E NE IN. destruct (set_objective_inv _ _ _ E) as (V' & _ & O). rewrite Ed in O. split; [apply (set_objective_exprs _ _ _ XO E)|].
    split; [rewrite (proj2 (proj2 (proj2 (set_objective_feasible _ _ _ (fun _ => 0%R) E)))); exact D|]. eexists. split; [exact O|]. split; [apply fold_dset_nodup; exact ND|].
    intros v Hv. rewrite coef_fold by exact NE. destruct (dget Nat.eqb e v) as [q|] eqn:Eq; [|apply Z; auto]. exfalso.
    assert (In v (dkeys ind)) as K by (apply IN; apply (dget_Some_key Nat.eqb Nat.eqb_spec); eauto). apply key_range in K. lia.
  Qed.

  (** With weights that are not negative the objective is not negative. *)
  Lemma oinv_nonneg : forall m e m' x, oinv m -> mi_vars m = mi_vars m0 -> set_objective m e = Ok m' -> map fst e = dkeys ind -> (forall s w, In (s, w) e -> (0 <= Q2R w)%R) ->
    (forall s, In s (dkeys ind) -> (0 <= x s)%R) -> (0 <= objective m' x)%R.
  Proof.
    intros m e m' x OI V E KE WE HX. assert (OI' : oinv m') by (apply (oinv_objective m e m' OI V E); [rewrite KE; apply keys_nodup|rewrite KE; auto]).
    destruct OI' as ((_ & XO) & D & d & Ed & ND & Z). unfold objective. rewrite Ed. destruct (set_objective_inv _ _ _ E) as (V' & _ & O).
    assert (HK : forall v, In v (dkeys d) -> v < N). { intros v Hv. apply in_map_iff in Hv. destruct Hv as ((w & q) & <- & Hin). unfold N. rewrite <- V, <- V'. exact (XO d Ed w q Hin). }
    rewrite (lin_coef d N x ND HK). apply sumn_nonneg. intros v Hv. destruct (Nat.lt_ge_cases v n) as [L|L]; [rewrite Z by exact L; lra|].
    assert (K : In v (dkeys ind)) by (apply key_range; lia). apply Rmult_le_pos; [|apply HX; exact K].
    rewrite O in Ed. injection Ed as <-. rewrite coef_fold by (rewrite KE; apply keys_nodup). rewrite <- KE in K. apply (dget_Some_key Nat.eqb Nat.eqb_spec) in K. destruct K as (q & Eq).
    rewrite Eq. apply (WE v q). apply (dget_In Nat.eqb Nat.eqb_spec). exact Eq.
  Qed.

  Lemma fz_step : forall m r, qinv m0 m -> sr_status r = Optimal -> sound_answer m r -> exists obj cs m', up (sr_vec r) = Ok (obj, cs) /\ add_constraints m cs = Ok m' /\ qinv m0 m' /\
    map fst obj = dkeys ind /\ (forall s w, In (s, w) obj -> (0 <= Q2R w)%R) /\ (oinv m -> oinv m') /\
    (forall x, feasible m' x <-> feasible m x /\ forall s, In s (dkeys ind) -> vec (sr_vec r) s = 0%R -> x s = 0%R) /\
    exists m2, set_objective m' obj = Ok m2.
  Proof.
    intros m r QI ST SA. destruct (SA ST) as (L & F). destruct QI as (OK & V & FI). rewrite V in L. fold N in L.
    destruct (fixed_zeros_spec rf md ind (sr_vec r)) as (obj & cs & E & KO & WO & HC). { intros s Hs. apply key_range in Hs. lia. }
    exists obj, cs. destruct (add_constraints_spec cs m OK) as (m' & EA & _). { intros [[l s] q] Hin. apply HC in Hin. destruct Hin as (sg & Hs & -> & -> & -> & _). cbn. apply key_range in Hs. split; [discriminate|]. split; [intros v q [Ev|[]]; injection Ev as <- <-; rewrite V; fold N; lia|constructor; [intros []|constructor]]. }
    exists m'. destruct (add_constraints_inv _ _ _ OK EA) as (A1 & A2 & A3 & A4 & A5). split; [exact E|]. split; [exact EA|]. split.
    { split; [exact A1|]. split; [congruence|]. intros x Hx. apply FI. apply A5. exact Hx. }
    split; [exact KO|]. split; [exact WO|]. split.
    { intros (XO & D & d & Ed & ND & Z). split; [|split; [congruence|exists d; split; [congruence|auto]]].
      clear - XO EA. revert m m' XO EA. induction cs as [|[[l s] q] cs IH]; intros m m' XO EA; cbn [add_constraints foldM] in EA; [injection EA as <-; auto|].
      apply bind_ok in EA. destruct EA as (m1 & E & EA). apply bind_ok in E. destruct E as ((m2 & i) & E & E'). injection E' as <-. apply (IH m2 m'); [|exact EA]. eapply add_constraint_exprs; eauto. }
    split.
    { intros x. rewrite A5. split; intros [B1 B2]; (split; [exact B1|]).
      - intros s Hs Hz. specialize (B2 [(s, 1%Q)] SEq 0%Q (proj2 (HC _ _ _) ltac:(exists s; auto))). rewrite affine_id in B2 by (constructor; [intros []|constructor]). cbn [lin SpecLp.rel] in B2. rewrite RMicromega.Q2R_0, RMicromega.Q2R_1 in B2. lra.
      - intros l s q Hin. apply HC in Hin. destruct Hin as (sg & Hs & -> & -> & -> & Hz). rewrite affine_id by (constructor; [intros []|constructor]). cbn [lin SpecLp.rel]. rewrite (B2 sg Hs Hz), RMicromega.Q2R_0. ring. }
    unfold set_objective. destruct (assert_expression m' obj) as [u|e] eqn:EE; [cbn [bind]; eauto|]. exfalso. unfold assert_expression, assert_ in EE.
    destruct (forallb _ obj) eqn:EF in EE; [discriminate|]. rewrite <- not_true_iff_false in EF. apply EF. apply forallb_forall. intros [s w] Hin. apply Nat.ltb_lt. cbn [fst].
    assert (In s (dkeys ind)) as K by (rewrite <- KO; change s with (fst (s, w)); apply in_map; exact Hin). apply key_range in K. rewrite A2, V. fold N. lia.
  Qed.

  Lemma loop_first : forall rounds i m obj m' r', nth_error (snd (qs_loop S up rf md n rounds i m obj)) 0 = Some (m', r') -> set_objective m obj = Ok m'.
  Proof.
    intros [|rounds] i m obj m' r' H; [discriminate|]. cbn [qs_loop] in H. destruct (set_objective m obj) as [m1|e]; [|discriminate].
    cbv zeta in H. destruct (sr_status (S i m1)); try (cbn in H; injection H as <- _; reflexivity). destruct (mk_subsystem _ _ _ _) in H; cbn in H; injection H as <- _; reflexivity.
  Qed.

  Lemma fixed_calls : forall rounds i m obj g calls, qinv m0 m -> qs_loop S up rf md n rounds i m obj = (g, calls) -> (forall m' r', In (m', r') calls -> sound_answer m' r') ->
    forall j mj rj mj' rj', nth_error calls j = Some (mj, rj) -> nth_error calls (Datatypes.S j) = Some (mj', rj') ->
      sr_status rj = Optimal /\ length (sr_vec rj) = N /\ feasible mj (vec (sr_vec rj)) /\ mi_vars mj' = mi_vars m0 /\ forall x, feasible mj' x <-> feasible mj x /\ forall s, In s (dkeys ind) -> vec (sr_vec rj) s = 0%R -> x s = 0%R.
  Proof.
    induction rounds as [|rounds IH]; intros i m obj g calls QI E SN j mj rj mj' rj' H1 H2; cbn [qs_loop] in E; [injection E as <- <-; destruct j; discriminate|].
    destruct (set_objective m obj) as [m1|e] eqn:ES; [|injection E as <- <-; destruct j; discriminate].
    assert (QI1 : qinv m0 m1). { destruct QI as (A & B & C). destruct (set_objective_feasible _ _ _ (fun _ => 0%R) ES) as (_ & B2 & B3 & _). split; [auto|]. split; [congruence|]. intros x Hx. apply C. apply (set_objective_feasible _ _ _ x ES). exact Hx. }
    cbv zeta in E. destruct (sr_status (S i m1)) eqn:EST; try (injection E as <- <-; destruct j; [discriminate H2|destruct j; discriminate]).
    destruct (mk_subsystem rf (firstn n (sr_vec (S i m1))) md false) as [w|e] eqn:EW; [|injection E as <- <-; destruct j; [discriminate H2|destruct j; discriminate]].
    assert (SA : sound_answer m1 (S i m1)) by (apply SN; injection E as <- <-; left; auto). destruct (fz_step m1 (S i m1) QI1 EST SA) as (obj2 & cs & m2 & EU & EA & QI2 & _ & _ & _ & FE & _).
    rewrite EU in E. cbn [bind] in E. rewrite EA in E. cbn [bind] in E. pose proof (loop_first rounds (Datatypes.S i) m2 obj2) as LF.
    destruct (qs_loop S up rf md n rounds (Datatypes.S i) m2 obj2) as [g2 c2] eqn:E2. cbn [fst snd] in E, LF. injection E as <- <-.
    assert (SN2 : forall m' r', In (m', r') c2 -> sound_answer m' r') by (intros m' r' HI; apply SN; right; exact HI).
    destruct j as [|j].
    - cbn [nth_error] in H1, H2. injection H1 as <- <-. specialize (LF _ _ H2). destruct (SA EST) as (L & F). rewrite (proj1 (proj2 QI1)) in L.
      split; [exact EST|]. split; [exact L|]. split; [exact F|]. destruct (set_objective_feasible _ _ _ (fun _ => 0%R) LF) as (_ & _ & V & _). split; [rewrite V; apply QI2|]. intros x. rewrite <- FE. apply (set_objective_feasible _ _ _ x LF).
    - cbn [nth_error] in H1, H2. eapply (IH _ _ _ _ _ QI2 E2 SN2); eauto.
  Qed.

  (** With exact answers the loop never fails after the first success. *)
  Lemma fixed_total : forall rounds i m obj g calls, qinv m0 m -> oinv m -> (exists x, feasible m x) -> map fst obj = dkeys ind -> (forall s w, In (s, w) obj -> (0 <= Q2R w)%R) -> (exists m2, set_objective m obj = Ok m2) ->
    qs_loop S up rf md n rounds i m obj = (g, calls) -> (forall m' r', In (m', r') calls -> exact_answer m' r') ->
    length (g_items g) = rounds /\ g_exn g = None /\ forall r, In r (g_items g) -> pr_status r = Success.
  Proof.
    induction rounds as [|rounds IH]; intros i m obj g calls QI OI (x0 & F0) KO WO (m1 & ES) E XA; cbn [qs_loop] in E; [injection E as <- <-; cbn; split; [auto|split; [auto|intros r []]]|].
    rewrite ES in E.
    assert (QI1 : qinv m0 m1). { destruct QI as (A & B & C). destruct (set_objective_feasible _ _ _ (fun _ => 0%R) ES) as (_ & B2 & B3 & _). split; [auto|]. split; [congruence|]. intros x Hx. apply C. apply (set_objective_feasible _ _ _ x ES). exact Hx. }
    assert (OI1 : oinv m1) by (apply (oinv_objective m obj m1 OI (proj1 (proj2 QI)) ES); rewrite KO; [apply keys_nodup|auto]).
    cbv zeta in E. assert (EXA : exact_answer m1 (S i m1)).
    { apply XA. destruct (sr_status (S i m1)); try (injection E as <- <-; left; reflexivity). destruct (mk_subsystem _ _ _ _) in E; injection E as <- <-; left; reflexivity. }
    assert (EST : sr_status (S i m1) = Optimal).
    { apply (exact_optimal m1 _ EXA); [exists x0; apply (set_objective_feasible _ _ _ x0 ES); exact F0|]. exists 0%R. intros y Fy. rewrite (proj1 (proj2 OI1)). cbn [better].
      apply (oinv_nonneg m obj m1 y OI (proj1 (proj2 QI)) ES KO WO). intros s Hs. apply POS; [apply QI1; exact Fy|exact Hs]. }
    rewrite EST in E. assert (SA : sound_answer m1 (S i m1)). { intros _. unfold exact_answer in EXA. rewrite EST in EXA. destruct EXA as (A & (B & _) & _). auto. }
    destruct (SA EST) as (L & F). destruct (mk_subsystem_total rf (firstn n (sr_vec (S i m1))) md Hm) as (w & EW). { rewrite firstn_length, L, (proj1 (proj2 QI1)). fold N n. lia. }
    rewrite EW in E. destruct (fz_step m1 (S i m1) QI1 EST SA) as (obj2 & cs & m2 & EU & EA & QI2 & KO2 & WO2 & OI2 & FE & EO2).
    rewrite EU in E. cbn [bind] in E. rewrite EA in E. cbn [bind] in E. destruct (qs_loop S up rf md n rounds (Datatypes.S i) m2 obj2) as [g2 c2] eqn:E2. cbn [fst snd] in E. injection E as <- <-.
    assert (EF : exists x, feasible m2 x). { exists (vec (sr_vec (S i m1))). apply FE. split; [exact F|]. auto. }
    assert (XA2 : forall m' r', In (m', r') c2 -> exact_answer m' r') by (intros m' r' HI; apply XA; right; exact HI).
    destruct (IH _ _ _ _ _ QI2 (OI2 OI1) EF KO2 WO2 EO2 E2 XA2) as (R1 & R2 & R3).
    cbn [gcons g_items g_exn length]. split; [lia|]. split; [exact R2|]. intros r [<-|Hr]; [reflexivity|auto].
  Qed.
End Fixed.

Lemma nth_skipn' : forall A (l : list A) n i d, nth i (skipn n l) d = nth (n + i) l d.
Proof. induction l as [|a l IH]; intros [|n] i d; cbn; auto. destruct i; reflexivity. Qed.

(** ** The heuristic *)
Section Run.
  Variable rf : rform.
  Hypothesis BF : built_form rf.
  Hypothesis Hi : rf_init rf < a_N (rf_sys rf) - 2.

  Lemma relaxed_facts : forall t md ub gs mm ind, construct_spec rf md t true ub gs mm ind ->
    cert_dim rf md <= length (mi_vars mm) /\ dkeys ind = seq (cert_dim rf md) (length (mi_vars mm) - cert_dim rf md) /\
    forall x sigma, feasible mm x -> In sigma (dkeys ind) -> (0 <= x sigma)%R.
  Proof.
    intros t md ub gs mm ind (EI & LV & _ & _ & _ & _ & _ & FE). split; [lia|]. split.
    - rewrite EI. unfold dkeys. rewrite combine_fst by apply seq_length. f_equal. lia.
    - intros x sg F Hs. apply FE in F. destruct F as (_ & _ & F). apply in_map_iff in Hs. destruct Hs as ((s & G) & <- & Hin). destruct (F _ _ Hin) as ((A & _) & _). cbn [above] in A. rewrite RMicromega.Q2R_0 in A. exact A.
  Qed.

  Lemma C43_shrink_lemma : forall SB S iterations ini t md labels g calls, sized SB -> qs_run SB S iterations ini fixed_zeros rf t md labels = (g, calls) ->
    (forall m r, In (m, r) calls -> sound_answer m r) ->
    Forall2 (of_call rf md (cert_dim rf md)) calls (match calls with [] => [] | _ => g_items g end) /\
    forall j mj rj mj' rj', nth_error calls j = Some (mj, rj) -> nth_error calls (Datatypes.S j) = Some (mj', rj') ->
      sr_status rj = Optimal /\ feasible mj' (vec (sr_vec rj)) /\
      (sr_status rj' = Optimal -> forall s, cert_dim rf md <= s -> (0 < vec (sr_vec rj') s)%R -> (0 < vec (sr_vec rj) s)%R).
  Proof.
    intros SB S it ini t md labels g calls HS E SN. unfold qs_run in E. destruct (construct_milp SB rf t md labels true None) as [[(mm & ind)|]|e] eqn:EC;
      [|injection E as <- <-; split; [constructor|intros [|j] ? ? ? ? H; discriminate H]..].
    destruct (construct_relaxed rf BF Hi SB t md labels mm ind HS EC) as (ub & gs & Hm & GR & CS). rewrite (size_ok rf md Hm) in E. cbn [bind] in E.
    destruct (ini rf md ind) as [obj|e]; cbn [bind] in E; [|injection E as <- <-; split; [constructor|intros [|j] ? ? ? ? H; discriminate H]].
    destruct (relaxed_facts t md ub gs mm ind CS) as (LV & KI & POS). assert (Q0 : qinv mm mm). { split; [apply CS|]. split; auto. } split.
    - destruct (loop_calls rf md Hm mm LV S _ it 0 mm obj g calls Q0 E SN) as (_ & _ & R3 & _). destruct calls; [inversion R3; constructor|exact R3].
    - intros j mj rj mj' rj' H1 H2. destruct (fixed_calls rf md mm ind LV KI S it 0 mm obj g calls Q0 E SN j mj rj mj' rj' H1 H2) as (A1 & A2 & A3 & A4 & A5).
      split; [exact A1|]. split; [apply A5; split; [exact A3|auto]|]. intros ST s Hs HP. apply nth_error_In in H2. destruct (SN _ _ H2 ST) as (L & F). rewrite A4 in L.
      assert (Hs2 : s < length (mi_vars mm)). { destruct (Nat.lt_ge_cases s (length (mi_vars mm))) as [|X]; auto. unfold vec in HP. rewrite nth_overflow in HP by lia. rewrite RMicromega.Q2R_0 in HP. lra. }
      assert (K : In s (dkeys ind)) by (rewrite KI; apply in_seq; lia). apply A5 in F. destruct F as (_ & F).
      assert (P0 : (0 <= vec (sr_vec rj) s)%R). { apply POS; [|exact K]. destruct (loop_calls rf md Hm mm LV S _ it 0 mm obj g calls Q0 E SN) as (_ & R2 & _). apply (R2 _ _ (nth_error_In _ _ H1)). exact A3. }
      destruct P0 as [P0|P0]; [exact P0|]. rewrite (F s K (eq_sym P0)) in HP. lra.
  Qed.

  Lemma count_pos_le : forall (v v' : list Q), length v = length v' -> (forall i, (0 < vec v' i)%R -> (0 < vec v i)%R) -> length (filter (Qlt_bool 0) v') <= length (filter (Qlt_bool 0) v).
  Proof.
    induction v as [|q v IH]; intros [|q' v'] L H; cbn in L; try discriminate; [cbn; lia|]. cbn [filter].
    specialize (IH v' ltac:(lia) (fun i => H (Datatypes.S i))). specialize (H 0). unfold vec in H. cbn [nth] in H. rewrite <- !pos_R in H.
    destruct (Qlt_bool 0 q'); [rewrite (H eq_refl); cbn [length]; lia|]. destruct (Qlt_bool 0 q); cbn [length]; lia.
  Qed.

  (** The reported values never grow. *)
  Lemma C43_values_lemma : forall SB S iterations ini t md labels g calls, sized SB -> qs_run SB S iterations ini fixed_zeros rf t md labels = (g, calls) ->
    (forall m r, In (m, r) calls -> sound_answer m r) ->
    forall j r r' v v', nth_error (g_items g) j = Some r -> nth_error (g_items g) (Datatypes.S j) = Some r' -> pr_value r = Some v -> pr_value r' = Some v' -> (v' <= v)%Q.
  Proof.
    intros SB S it ini t md labels g calls HS E SN j r r' v v' N1 N2 V1 V2. destruct (C43_shrink_lemma SB S it ini t md labels g calls HS E SN) as (F2 & H).
    assert (CN : calls <> []).
    { intros ->. unfold qs_run in E. destruct (construct_milp SB rf t md labels true None) as [[(mm & ind)|]|e] eqn:EC; [| |injection E as <-; destruct j; discriminate].
      - destruct (construct_relaxed rf BF Hi SB t md labels mm ind HS EC) as (ub & gs & Hm & GR & CS). rewrite (size_ok rf md Hm) in E. cbn [bind] in E. destruct (ini rf md ind) as [obj|e]; cbn [bind] in E; [|injection E as <-; destruct j; discriminate].
        destruct (relaxed_facts t md ub gs mm ind CS) as (LV & KI & POS). assert (Q0 : qinv mm mm). { split; [apply CS|]. split; auto. }
        destruct (loop_calls rf md Hm mm LV S _ it 0 mm obj g [] Q0 E SN) as (_ & _ & R3 & _). inversion R3 as [X|]. rewrite <- X in N1 || (destruct (g_items g); [|discriminate]). destruct j; discriminate.
      - injection E as <-. destruct j as [|[|j]]; discriminate. }
    destruct calls as [|c0 calls']; [congruence|]. set (calls := c0 :: calls') in *. clearbody calls. clear c0 calls' CN.
    assert (GET : forall k x, nth_error (g_items g) k = Some x -> exists c, nth_error calls k = Some c /\ of_call rf md (cert_dim rf md) c x).
    { clear - F2. induction F2 as [|c x cs xs HO F IH]; intros k y HN; [destruct k; discriminate|]. destruct k as [|k]; [injection HN as <-; exists c; auto|apply (IH k y HN)]. }
    destruct (GET _ _ N1) as ((m1 & r1) & C1 & O1). destruct (GET _ _ N2) as ((m2 & r2) & C2 & O2). unfold of_call in O1, O2. cbn [snd] in O1, O2.
    destruct (H _ _ _ _ _ C1 C2) as (A1 & A2 & A3). rewrite A1 in O1. destruct O1 as (s1 & _ & ->). destruct (sr_status r2) eqn:ES; try (subst r'; discriminate). destruct O2 as (s2 & _ & ->).
    cbn in V1, V2. injection V1 as <-. injection V2 as <-. rewrite <- Zle_Qle. apply inj_le. unfold npos.
    assert (L1 : length (sr_vec r1) = length (sr_vec r2)).
    { destruct (SN _ _ (nth_error_In _ _ C1) A1) as (X1 & _). destruct (SN _ _ (nth_error_In _ _ C2) ES) as (X2 & _). rewrite X1, X2.
      unfold qs_run in E. destruct (construct_milp SB rf t md labels true None) as [[(mm & ind)|]|e] eqn:EC; [|injection E as <- <-; destruct j; discriminate..].
      destruct (construct_relaxed rf BF Hi SB t md labels mm ind HS EC) as (ub & gs & Hm & GR & CS). rewrite (size_ok rf md Hm) in E. cbn [bind] in E. destruct (ini rf md ind) as [obj|e]; cbn [bind] in E; [|injection E as <- <-; destruct j; discriminate].
      destruct (relaxed_facts t md ub gs mm ind CS) as (LV & KI & POS). assert (Q0 : qinv mm mm). { split; [apply CS|]. split; auto. }
      destruct (loop_calls rf md Hm mm LV S _ it 0 mm obj g calls Q0 E SN) as (_ & R2 & _). rewrite (proj1 (proj2 (R2 _ _ (nth_error_In _ _ C1)))), (proj1 (proj2 (R2 _ _ (nth_error_In _ _ C2)))). reflexivity. }
    apply count_pos_le; [rewrite !skipn_length; lia|]. intros i. unfold vec. rewrite !nth_skipn'. intros HP. apply (A3 eq_refl (cert_dim rf md + i)); [lia|exact HP].
  Qed.

  Lemma oinv_start : forall SB t md labels mm ind, sized SB -> construct_milp SB rf t md labels true None = Ok (Some (mm, ind)) -> oinv rf md mm.
  Proof.
    intros SB t md labels mm ind HS EC. pose proof (construct_nodup _ _ _ _ _ _ _ _ _ EC) as ND. destruct (construct_relaxed rf BF Hi SB t md labels mm ind HS EC) as (ub & gs & Hm & GR & CS).
    destruct (relaxed_facts t md ub gs mm ind CS) as (LV & KI & _). destruct CS as (EI & LV' & D & XO & _ & _ & OB & _). split; [exact XO|]. split; [exact D|].
    destruct (mi_obj mm) as [d|] eqn:Ed.
    - exists d. split; [auto|]. split; [apply ND; auto|]. intros v Hv. specialize (OB (fun j => if j =? v then 1%R else 0%R)). unfold objective in OB. rewrite Ed in OB.
      rewrite (lin_coef d (length (mi_vars mm))) in OB; [|apply ND; auto|]. 2:{ intros w Hw. apply in_map_iff in Hw. destruct Hw as ((w' & q) & <- & Hin). exact (proj2 XO d Ed w' q Hin). }
      rewrite (sumn_single _ v) in OB; [|lia|intros i _ NE; destruct (Nat.eqb_spec i v); [contradiction|ring]]. rewrite Nat.eqb_refl, Rmult_1_r in OB. rewrite OB.
      change (map fst ind) with (dkeys ind). rewrite KI.
      assert (Z : forall l, ~ In v l -> lsum l (fun j => if j =? v then 1%R else 0%R) = 0%R).
      { induction l as [|a l IH]; intros NI; cbn [lsum]; [reflexivity|]. rewrite IH by (intros X; apply NI; right; auto). destruct (Nat.eqb_spec a v) as [->|_]; [exfalso; apply NI; left; auto|lra]. }
      apply Z. rewrite in_seq. lia.
    - exfalso. unfold construct_milp in EC. apply bind_ok in EC. destruct EC as ((A & b) & _ & H). apply bind_ok in H. destruct H as (n & _ & H).
      apply bind_ok in H. destruct H as (cb & _ & H). destruct cb as [ub'|]; [|discriminate].
      apply bind_ok in H. destruct H as (u0 & _ & H). apply bind_ok in H. destruct H as (gs' & _ & H). apply bind_ok in H. destruct H as (bs & _ & H).
      apply bind_ok in H. destruct H as (m0 & _ & H). apply bind_ok in H. destruct H as ((m1 & ind1) & _ & H). apply bind_ok in H. destruct H as (m2 & E2 & H). injection H as <- <-.
      destruct (set_objective_inv _ _ _ E2) as (_ & _ & O). congruence.
  Qed.

  (** Exact answers: all rounds succeed, unless the constraints have no
      solution. *)
  Lemma C43_total_lemma : forall SB S iterations ini t md labels g calls mm ind obj, sized SB -> construct_milp SB rf t md labels true None = Ok (Some (mm, ind)) ->
    ini rf md ind = Ok obj -> map fst obj = dkeys ind -> (forall s w, In (s, w) obj -> (0 <= w)%Q) ->
    qs_run SB S iterations ini fixed_zeros rf t md labels = (g, calls) -> (forall m r, In (m, r) calls -> exact_answer m r) ->
    g_exn g = None /\
    ((exists x, feasible mm x) -> length (g_items g) = iterations /\ forall r, In r (g_items g) -> pr_status r = Success) /\
    ((forall x, ~ feasible mm x) -> iterations <> 0 -> g_items g = [failure Infeasible]).
  Proof.
    intros SB S it ini t md labels g calls mm ind obj HS EC EI KO WO E XA. unfold qs_run in E. rewrite EC in E.
    pose proof (oinv_start SB t md labels mm ind HS EC) as OI.
    destruct (construct_relaxed rf BF Hi SB t md labels mm ind HS EC) as (ub & gs & Hm & GR & CS). rewrite (size_ok rf md Hm) in E. cbn [bind] in E. rewrite EI in E. cbn [bind] in E.
    destruct (relaxed_facts t md ub gs mm ind CS) as (LV & KI & POS). assert (Q0 : qinv mm mm). { split; [apply CS|]. split; auto. }
    assert (WR : forall s w, In (s, w) obj -> (0 <= Q2R w)%R). { intros s w Hin. rewrite <- RMicromega.Q2R_0. apply Qle_Rle. eapply WO; eauto. }
    assert (ES : exists m1, set_objective mm obj = Ok m1).
    { unfold set_objective. destruct (assert_expression mm obj) as [u|e] eqn:EE; [cbn [bind]; eauto|]. exfalso. unfold assert_expression, assert_ in EE.
      destruct (forallb _ obj) eqn:EF in EE; [discriminate|]. rewrite <- not_true_iff_false in EF. apply EF. apply forallb_forall. intros [s w] Hin. apply Nat.ltb_lt. cbn [fst].
      assert (In s (dkeys ind)) as K by (rewrite <- KO; change s with (fst (s, w)); apply in_map; exact Hin). rewrite KI in K. apply in_seq in K. lia. }
    destruct (classic (exists x, feasible mm x)) as [FX|NF].
    - destruct (fixed_total rf md Hm mm ind LV KI POS S it 0 mm obj g calls Q0 OI FX KO WR ES E XA) as (R1 & R2 & R3). split; [exact R2|]. split; [auto|]. intros NO. destruct FX as (x & Fx). exfalso. apply (NO x Fx).
    - destruct ES as (m1 & ES). destruct it as [|it]; [cbn in E; injection E as <- <-; split; [reflexivity|]; split; [intros FX; contradiction|congruence]|].
      cbn [qs_loop] in E. rewrite ES in E. cbv zeta in E. assert (ST : sr_status (S 0 m1) = Infeasible).
      { assert (XA1 : exact_answer m1 (S 0 m1)). { apply XA. destruct (sr_status (S 0 m1)); try (injection E as <- <-; left; reflexivity). destruct (mk_subsystem _ _ _ _) in E; injection E as <- <-; left; reflexivity. }
        assert (NF1 : forall x, ~ feasible m1 x) by (intros x Fx; apply NF; exists x; apply (set_objective_feasible _ _ _ x ES); exact Fx).
        unfold exact_answer in XA1. destruct (sr_status (S 0 m1)); auto; try contradiction; exfalso.
        - destruct XA1 as (_ & (F & _) & _). apply (NF1 _ F).
        - destruct XA1 as ((x & F) & _). apply (NF1 _ F). }
      rewrite ST in E. injection E as <- <-. cbn [g_exn g_items]. split; [auto|]. split; [intros FX; contradiction|auto].
  Qed.
End Run.
