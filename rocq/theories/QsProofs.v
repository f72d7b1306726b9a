(** The QS heuristic. *)
From Coq Require Import String List Arith ZArith QArith Qreals Reals Bool Lia Lra.
From Coq Require Lqa.
From Verif Require Import Base BaseFacts Num Matrix MatFacts InvDict SccSpec SpecMdp SpecEc SpecSystem SpecForm SpecBuilt SpecProb SpecSub SpecLp SpecMilp SumFacts MdpValue RfTheory SubTheory
  Amdp ReachForm ReachFormProofs RfFacts BuiltFacts RfBridge Farkas FarkReal Milp MilpProofs LpExists FarkProofs CertProofs CertProofs2 Subsystem SubProofs4 SubProofs5 RfLpProofs Formulations MilpBuild GroupProofs MilpForm MilpMax MilpKeep MilpExact MilpMin BinExists Problems.
Import ListNotations.
Local Open Scope nat_scope.

Lemma feasible_has : forall m x, feasible m x <-> (forall j v, nth_error (mi_vars m) j = Some v -> sat_var v (x j)) /\ forall c, has_constr m c -> sat_constr x c.
Proof.
  intros m x. unfold feasible, has_constr. split; intros [A B]; (split; [exact A|]); [intros c (k & H); eapply B; eauto|intros k c H; apply B; eauto].
Qed.

Lemma set_objective_feasible : forall m e m' x, set_objective m e = Ok m' -> (feasible m' x <-> feasible m x) /\ (mi_ok m -> mi_ok m') /\ mi_vars m' = mi_vars m /\ mi_dir m' = mi_dir m.
Proof. intros m e m' x H. unfold set_objective in H. apply bind_ok in H. destruct H as (u & _ & H). injection H as <-. split; [reflexivity|]. split; [auto|split; reflexivity]. Qed.

Lemma add_constraints_inv : forall cs m m', mi_ok m -> add_constraints m cs = Ok m' ->
  mi_ok m' /\ mi_vars m' = mi_vars m /\ mi_obj m' = mi_obj m /\ mi_dir m' = mi_dir m /\
  forall x, feasible m' x <-> feasible m x /\ forall l s r, In (l, s, r) cs -> SpecLp.rel s (lin (affine l) x) (Q2R r).
Proof.
  induction cs as [|[[l s] r] cs IH]; intros m m' OK H; cbn [add_constraints foldM] in H.
  - injection H as <-. do 4 (split; [auto|]). intros x. split; [intros F; split; [auto|intros ? ? ? []]|tauto].
  - apply bind_ok in H. destruct H as (m1 & E & H). apply bind_ok in E. destruct E as ((m2 & i) & E & E'). injection E' as <-.
    destruct (add_constraint_inv _ _ _ _ _ _ OK E) as (OK' & V & X1 & X2 & _ & HC). destruct (IH _ _ OK' H) as (B1 & B2 & B3 & B4 & B5).
    split; [auto|]. split; [congruence|]. split; [congruence|]. split; [congruence|]. intros x. rewrite B5, HC. split.
    + intros ((A1 & A2) & A3). split; [exact A1|]. intros l' s' r' [E0|HI]; [injection E0 as <- <- <-; exact A2|apply A3; auto].
    + intros (A1 & A3). split; [|intros; apply A3; right; auto]. split; [exact A1|]. apply (A3 l s r). left; auto.
Qed.

Lemma mk_subsystem_total : forall rf cert md, md <> OtherMode -> length cert = cert_dim rf md -> exists sub, mk_subsystem rf cert md false = Ok sub.
Proof.
  intros rf cert md Hm L. unfold mk_subsystem. destruct md; [| |congruence]; cbn [cert_dim] in L; cbn [assert_ bind]; rewrite L, Nat.eqb_refl; cbn; eauto.
Qed.

(** Number of positive indicators of an answer. *)
Definition npos (n : nat) (v : list Q) : nat := length (filter (Qlt_bool 0) (skipn n v)).
(** The result that belongs to a call of the solver. *)
Definition of_call (rf : rform) (md : mode) (n : nat) (c : milp * sresult) (r : presult) : Prop :=
  match sr_status (snd c) with
  | Optimal => exists sub, mk_subsystem rf (firstn n (sr_vec (snd c))) md false = Ok sub /\
      r = MkPRes Success (Some sub) (Some (inject_Z (Z.of_nat (npos n (sr_vec (snd c)))))) (Some (firstn n (sr_vec (snd c))))
  | s => r = failure s
  end.


Section Loop.
  Variable rf : rform.
  Variable md : mode.
  Hypothesis Hm : md <> OtherMode.
  Variable m0 : milp.
  Hypothesis LV : cert_dim rf md <= length (mi_vars m0).
  Variable S : nat -> solver.
  Variable up : list Q -> res (list (nat * Q) * list extra).
  Let n := cert_dim rf md.

  Definition qinv (m : milp) : Prop := mi_ok m /\ mi_vars m = mi_vars m0 /\ forall x, feasible m x -> feasible m0 x.

  Lemma loop_calls : forall rounds i m obj g calls, qinv m -> qs_loop S up rf md n rounds i m obj = (g, calls) ->
    (forall m' r', In (m', r') calls -> sound_answer m' r') ->
    length calls <= rounds /\ (forall m' r', In (m', r') calls -> qinv m') /\ Forall2 (of_call rf md n) calls (g_items g) /\
    (forall j m' r', nth_error calls j = Some (m', r') -> sr_status r' <> Optimal -> Datatypes.S j = length calls /\ g_exn g = None) /\
    (rounds <> 0 -> g_exn g = None -> g_items g <> []).
  Proof.
    induction rounds as [|rounds IH]; intros i m obj g calls QI E SN; cbn [qs_loop] in E.
    - injection E as <- <-. cbn. split; [lia|]. split; [intros ? ? []|]. split; [constructor|]. split; [intros [|j] ? ?; discriminate|congruence].
    - destruct (set_objective m obj) as [m1|e] eqn:ES.
      2:{ injection E as <- <-. cbn. split; [lia|]. split; [intros ? ? []|]. split; [constructor|]. split; [intros [|j] ? ?; discriminate|discriminate]. }
      assert (QI1 : qinv m1). { destruct QI as (A & B & C). destruct (set_objective_feasible _ _ _ (fun _ => 0%R) ES) as (_ & B2 & B3 & _). split; [auto|]. split; [congruence|]. intros x Hx. apply C. apply (set_objective_feasible _ _ _ x ES). exact Hx. }
      cbv zeta in E. destruct (sr_status (S i m1)) eqn:EST;
        try (injection E as <- <-; cbn; split; [lia|]; split; [intros m' r' [HI|[]]; injection HI as <- <-; exact QI1|]; split; [constructor; [unfold of_call; cbn; rewrite EST; reflexivity|constructor]|];
             split; [intros [|[|j]] m' r' HN; cbn in HN; try discriminate; auto|discriminate]).
      destruct (mk_subsystem rf (firstn n (sr_vec (S i m1))) md false) as [w|e] eqn:EW.
      2:{ exfalso. assert (HI : In (m1, S i m1) calls) by (injection E as <- <-; left; auto). specialize (SN _ _ HI EST). destruct SN as (L & _). destruct (mk_subsystem_total rf (firstn n (sr_vec (S i m1))) md Hm) as (sub & Es); [|congruence].
          rewrite firstn_length, L, (proj1 (proj2 QI1)). fold n in LV |- *. lia. }
      set (rest := match (let* (obj, cs) := up (sr_vec (S i m1)) in let* m := add_constraints m1 cs in Ok (obj, m)) with
                   | Err e => (MkGen [] (Some e), []) | Ok (obj, m) => qs_loop S up rf md n rounds (Datatypes.S i) m obj end) in E.
      assert (HR : length (snd rest) <= rounds /\ (forall m' r', In (m', r') (snd rest) -> qinv m') /\ Forall2 (of_call rf md n) (snd rest) (g_items (fst rest)) /\
        (forall j m' r', nth_error (snd rest) j = Some (m', r') -> sr_status r' <> Optimal -> Datatypes.S j = length (snd rest) /\ g_exn (fst rest) = None)).
      { assert (SN' : forall m' r', In (m', r') (snd rest) -> sound_answer m' r') by (intros m' r' HI; apply SN; injection E as <- <-; right; exact HI).
        clear E. subst rest. destruct (let* (obj, cs) := up (sr_vec (S i m1)) in let* m := add_constraints m1 cs in Ok (obj, m)) as [(obj2 & m2)|e] eqn:EU.
        - apply bind_ok in EU. destruct EU as ((obj3 & cs) & _ & EU). apply bind_ok in EU. destruct EU as (m3 & EA & EU). injection EU as -> ->.
          destruct (add_constraints_inv _ _ _ (proj1 QI1) EA) as (A1 & A2 & _ & _ & A3).
          assert (QI2 : qinv m2). { split; [exact A1|]. split; [rewrite A2; apply QI1|]. intros x Hx. apply QI1. apply A3. exact Hx. }
          destruct (qs_loop S up rf md n rounds (Datatypes.S i) m2 obj2) as [g2 c2] eqn:E2. destruct (IH _ _ _ _ _ QI2 E2 SN') as (R1 & R2 & R3 & R4 & _). cbn [fst snd]. auto.
        - cbn. split; [lia|]. split; [intros ? ? []|]. split; [constructor|]. intros [|j] ? ?; discriminate. }
      clearbody rest. injection E as <- <-. destruct HR as (R1 & R2 & R3 & R4). cbn [gcons g_items g_exn length]. split; [lia|]. split.
      { intros m' r' [HI|HI]; [injection HI as <- <-; exact QI1|apply (R2 _ _ HI)]. } split.
      { constructor; [|exact R3]. unfold of_call. cbn [snd]. rewrite EST. exists w. split; [exact EW|reflexivity]. } split.
      { intros [|j] m' r' HN NS; cbn in HN; [injection HN as <- <-; congruence|]. destruct (R4 _ _ _ HN NS). split; [lia|auto]. } discriminate.
  Qed.
End Loop.

(** ** Positive indicators and touched groups *)
Lemma touched_le : forall (gs : list (list nat)) (vs : list Q) (f : list nat -> bool), length gs = length vs ->
  (forall i G q, nth_error gs i = Some G -> nth_error vs i = Some q -> f G = true -> Qlt_bool 0 q = true) -> length (filter f gs) <= length (filter (Qlt_bool 0) vs).
Proof.
  induction gs as [|G gs IH]; intros [|q vs] f L H; cbn in L; try discriminate; [cbn; lia|]. cbn [filter].
  specialize (IH vs f ltac:(lia) (fun i => H (Datatypes.S i))). specialize (H 0 G q eq_refl eq_refl). destruct (f G); [rewrite (H eq_refl); cbn [length]; lia|]. destruct (Qlt_bool 0 q); cbn [length]; lia.
Qed.

Lemma pos_R : forall q, Qlt_bool 0 q = true <-> (0 < Q2R q)%R.
Proof.
  intros q. rewrite Qlt_bool_iff. split; intros H; [apply Qlt_Rlt in H; rewrite RMicromega.Q2R_0 in H; exact H|]. apply Rlt_Qlt. rewrite RMicromega.Q2R_0. exact H.
Qed.

Lemma skipn_nth : forall A (l : list A) n i, nth_error (skipn n l) i = nth_error l (n + i).
Proof. induction l as [|a l IH]; intros [|n] i; cbn; auto. destruct i; reflexivity. Qed.

Section Qs.
  Variable rf : rform.
  Hypothesis BF : built_form rf.
  Hypothesis Hi : rf_init rf < a_N (rf_sys rf) - 2.
  Let m := rf_sys rf.

  Lemma construct_relaxed : forall SB t md labels mm ind, sized SB -> construct_milp SB rf t md labels true None = Ok (Some (mm, ind)) ->
    exists ub gs, md <> OtherMode /\ grouping rf md labels false gs /\ construct_spec rf md t true ub gs mm ind.
  Proof.
    intros SB t md labels mm ind HS E. destruct (construct_inv rf BF Hi SB t md labels true mm ind E) as (ub & gs & A & b & Hm & EA & EC & _ & _ & EG & CS).
    - intros u (A & b & EA & EC). destruct md; [cbn in EC; injection EC as <-; apply repeat_length| |discriminate].
      cbn [choose_bounds] in EC. destruct (is_ec_free rf); [|injection EC; discriminate]. apply bind_ok in EC. destruct EC as ((st & u') & EU & EC).
      destruct st; injection EC as EC; try discriminate. subst u'. apply (bounds_length rf BF Hi SB t A b u); auto.
    - exists ub, gs. split; [exact Hm|]. split; [|exact CS].
      replace (match md with Max => negb true | _ => false end) with false in EG by (destruct md; reflexivity). apply (groups_ok rf BF md labels false gs EG).
  Qed.

  Lemma relaxed_point : forall t md ub gs mm ind v, md <> OtherMode -> construct_spec rf md t true ub gs mm ind -> length v = length (mi_vars mm) -> feasible mm (vec v) ->
    cert_point rf md t (firstn (cert_dim rf md) v) /\ length (filter (touches (firstn (cert_dim rf md) v)) gs) <= npos (cert_dim rf md) v.
  Proof.
    intros t md ub gs mm ind v Hm CS L F. destruct CS as (EI & LV & _ & _ & _ & GV & _ & FE). set (k := cert_dim rf md) in *.
    apply FE in F. destruct F as (H1 & H2 & H3). assert (LC : length (firstn k v) = k) by (rewrite firstn_length; lia). split.
    - apply (point_cert rf BF md t ub _ LC).
      + eapply (polytope_ext rf BF Hi); [|exact H1]. intros j Hj. symmetry. apply firstn_vec. exact Hj.
      + intros j Hj. rewrite firstn_vec by exact Hj. apply H2. exact Hj.
    - unfold npos. apply touched_le; [rewrite skipn_length; lia|]. intros i G q EG Eq HT. rewrite skipn_nth in Eq. apply pos_R.
      unfold touches in HT. apply existsb_exists in HT. destruct HT as (j & Hj & Hp). apply pos_R in Hp.
      assert (Hjk : j < k). { destruct (Nat.lt_ge_cases j k) as [|X]; auto. rewrite nth_overflow in Hp by lia. rewrite RMicromega.Q2R_0 in Hp. lra. }
      change (0 < vec (firstn k v) j)%R in Hp. rewrite firstn_vec in Hp by exact Hjk.
      assert (HI : In (k + i, G) ind) by (rewrite EI; apply combine_seq_in; exact EG). destruct (H3 _ _ HI) as (D & HC). cbn [sat_dom above] in D. destruct D as (D & _). rewrite RMicromega.Q2R_0 in D.
      assert (HG : In G gs) by (eapply nth_error_In; eauto). destruct (GV G j HG Hj) as (_ & NK). destruct (k_of ub j) as [q'|] eqn:EK; [|congruence].
      specialize (HC j q' Hj EK). rewrite ind_con_sat in HC by lia. assert (EV : vec v (k + i) = Q2R q) by (unfold vec; rewrite (nth_error_nth _ _ _ Eq); reflexivity). rewrite EV in *.
      destruct D as [D|D]; [exact D|]. rewrite <- D in HC. lra.
  Qed.

  Hypothesis EX : exact_rows (a_P (rf_sys rf)).

  Lemma C42_lemma : forall SB S iterations ini up t md labels g calls, sized SB -> qs_run SB S iterations ini up rf t md labels = (g, calls) ->
    (forall m r, In (m, r) calls -> sound_answer m r) ->
    length (g_items g) <= Nat.max 1 iterations /\ length calls <= iterations /\
    (forall j r, nth_error (g_items g) j = Some r -> pr_status r <> Success -> Datatypes.S j = length (g_items g) /\ g_exn g = None /\ exists s, s <> Optimal /\ r = failure s) /\
    (iterations <> 0 -> g_exn g = None -> g_items g <> []) /\
    forall r, In r (g_items g) -> pr_status r = Success -> exists sub cert k gs, r = MkPRes Success (Some sub) (Some (inject_Z (Z.of_nat k))) (Some cert) /\
      mk_subsystem rf cert md false = Ok sub /\ cert_point rf md t cert /\ witness rf md t (chosen m md cert) /\
      grouping rf md labels false gs /\ length (filter (touches cert) gs) <= k.
  Proof.
    intros SB S it ini up t md labels g calls HS E SN. unfold qs_run in E. destruct (construct_milp SB rf t md labels true None) as [[(mm & ind)|]|e] eqn:EC.
    - destruct (construct_relaxed SB t md labels mm ind HS EC) as (ub & gs & Hm & GR & CS). rewrite (size_ok rf md Hm) in E. cbn [bind] in E.
      destruct (ini rf md ind) as [obj|e]; cbn [bind] in E.
      2:{ injection E as <- <-. cbn. split; [lia|]. split; [lia|]. split; [intros [|j] ?; discriminate|]. split; [discriminate|intros r []]. }
      assert (LV : cert_dim rf md <= length (mi_vars mm)) by (rewrite (proj1 (proj2 CS)); lia).
      assert (Q0 : qinv mm mm). { split; [apply CS|]. split; [auto|auto]. }
      destruct (loop_calls rf md Hm mm LV S (up rf md ind) it 0 mm obj g calls Q0 E SN) as (R1 & R2 & R3 & R4 & R5). split; [|split].
      + rewrite <- (F2_length _ _ _ _ _ R3). lia.
      + exact R1.
      + split; [|split; [exact R5|]].
        * intros j r HN NS. assert (exists c, nth_error calls j = Some c /\ of_call rf md (cert_dim rf md) c r) as ((m' & r') & HC & HO).
          { clear - R3 HN. revert j HN. induction R3 as [|c x cs xs H F IH]; intros [|j] HN; try discriminate HN; [injection HN as <-; exists c; auto|]. apply (IH j HN). }
          unfold of_call in HO. cbn [snd] in HO. destruct (sr_status r') eqn:ES; try (destruct (R4 _ _ _ HC ltac:(rewrite ES; discriminate)) as (X1 & X2); rewrite <- (F2_length _ _ _ _ _ R3); split; [exact X1|]; split; [exact X2|]; eexists; split; [|exact HO]; discriminate).
          destruct HO as (sub & _ & ->). cbn in NS. congruence.
        * intros r Hr HSu. assert (exists c, In c calls /\ of_call rf md (cert_dim rf md) c r) as ((m' & r') & HC & HO).
          { clear - R3 Hr. induction R3 as [|c x cs xs H F IH]; [destruct Hr|]. destruct Hr as [->|Hr]; [exists c; split; [left; auto|auto]|]. destruct (IH Hr) as (c' & A & B). exists c'. split; [right; auto|auto]. }
          unfold of_call in HO. cbn [snd] in HO. destruct (sr_status r') eqn:ES; try (subst r; discriminate). destruct HO as (sub & EW & ->).
          destruct (SN _ _ HC ES) as (L & F). destruct (R2 _ _ HC) as (_ & V & FI). rewrite V in L.
          destruct (relaxed_point t md ub gs mm ind _ Hm CS L (FI _ F)) as (CP & TC).
          exists sub, (firstn (cert_dim rf md) (sr_vec r')), (npos (cert_dim rf md) (sr_vec r')), gs. do 3 (split; [auto|]). split; [apply (C32_support_lemma rf md t _ BF EX Hi CP)|]. auto.
    - injection E as <- <-. cbn [g_items length g_exn]. split; [lia|]. split; [lia|]. split.
      + intros [|[|j]] r HN; cbn in HN; try discriminate. injection HN as <-. intros _. split; [auto|]. split; [auto|]. exists Infeasible. split; [discriminate|auto].
      + split; [discriminate|]. intros r [<-|[]]; discriminate.
    - injection E as <- <-. cbn. split; [lia|]. split; [lia|]. split; [intros [|j] ?; discriminate|]. split; [discriminate|intros r []].
  Qed.
End Qs.
