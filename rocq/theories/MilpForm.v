(** The models constructed by [construct_milp]. *)
From Coq Require Import String List Arith ZArith QArith Qreals Reals Bool Lia Lra.
From Coq Require Lqa.
From Verif Require Import Base BaseFacts Num Matrix MatFacts InvDict SccSpec SpecMdp SpecEc SpecSystem SpecForm SpecBuilt SpecProb SpecSub SpecLp SpecMilp SumFacts RfTheory
  Amdp ReachForm ReachFormProofs RfFacts BuiltFacts RfBridge FarkReal Milp MilpProofs LpExists RfLpProofs Formulations MilpBuild GroupProofs.
Import ListNotations.
Local Open Scope nat_scope.

(** Sum of a list of variables. *)
Fixpoint lsum (l : list nat) (x : nat -> R) : R := match l with [] => 0%R | j :: r => (x j + lsum r x)%R end.

Lemma lin_all_ones : forall ind x, lin (all_ones ind) x = lsum (map fst ind) x.
Proof. induction ind as [|[s G] ind IH]; intros x; [reflexivity|]. cbn [all_ones map fst lin lsum]. fold (all_ones ind). rewrite IH, RMicromega.Q2R_1. lra. Qed.

Lemma lin_fold_fresh : forall e (d : dict nat Q) x, NoDup (map fst e) -> (forall v, In v (map fst e) -> ~ In v (dkeys d)) ->
  lin (fold_left (fun d p => dset Nat.eqb d (fst p) (snd p)) e d) x = (lin d x + lin e x)%R.
Proof.
  induction e as [|[v q] e IH]; intros d x N F; cbn [fold_left lin]; [lra|]. cbn [map fst] in N, F. inversion N; subst. rewrite IH; auto.
  - cbn [fst snd]. rewrite lin_dset_fresh; [lra|]. apply F. left; auto.
  - intros w Hw. cbn [fst snd]. rewrite (dset_keys_in Nat.eqb Nat.eqb_spec). intros [->|HI]; [contradiction|]. apply (F w); auto. right; auto.
Qed.

Lemma ones_sum : forall l x, (forall j, In j l -> x j = 0%R \/ x j = 1%R) -> lsum l x = INR (ones l x).
Proof.
  induction l as [|j l IH]; intros x H; [reflexivity|]. cbn [lsum ones]. rewrite plus_INR, IH by (intros; apply H; right; auto). f_equal.
  destruct (Req_EM_T (x j) 1) as [->|N]; [reflexivity|]. destruct (H j (or_introl eq_refl)) as [E|E]; [rewrite E; reflexivity|contradiction].
Qed.
Lemma lsum_nonneg : forall l x, (forall j, In j l -> (0 <= x j)%R) -> (0 <= lsum l x)%R.
Proof. induction l as [|j l IH]; intros x H; cbn [lsum]; [lra|]. specialize (IH x (fun k Hk => H k (or_intror Hk))). specialize (H j (or_introl eq_refl)). lra. Qed.

Section Form.
  Variable rf : rform.
  Hypothesis BF : built_form rf.
  Let P := a_P (rf_sys rf).
  Let inv := a_inv (rf_sys rf).
  Let init := rf_init rf.
  Let n := rf_N rf.
  Let c := rf_C rf.
  Let M := form_mdp rf.
  Let RO : rf_ok rf := br_ro rf BF.
  Let FM := br_form rf BF.
  Hypothesis Hi : rf_init rf < a_N (rf_sys rf) - 2.

  Lemma polytope_min : forall t x, polytope rf Min t x <-> (forall r, r < c -> (x (src M r) <= onestep M r x)%R) /\ (Q2R t <= x init)%R.
  Proof.
    intros t x. cbn [polytope]. split; intros [A B]; (split; [|exact B]).
    - intros r Hr. destruct (br_row rf BF r Hr) as (a & E & _). specialize (A r _ _ Hr E). exact A.
    - intros i s a HiC E. specialize (A i HiC). unfold M in A. rewrite (br_src rf i s a E) in A. exact A.
  Qed.

  Lemma polytope_max : forall t x, polytope rf Max t x <-> (forall s, s < n -> (balance M x s <= if s =? init then 1 else 0)%R) /\ (Q2R t <= to_goal M x)%R.
  Proof.
    intros t x.
    assert (EB : forall s, s < n -> (sumn c (fun i => if belongs inv i s then x i else 0) - sumn c (fun i => Q2R (mget P i s) * x i))%R = balance M x s).
    { intros s Hs. rewrite <- sumn_minus. unfold balance. change (nA M - 2) with c. apply sumn_ext. intros i HiC. destruct (br_row rf BF i HiC) as (a & E & _).
      unfold belongs. change (inv i) with (a_inv (rf_sys rf) i). rewrite E. change (prob M i s) with (Q2R (mget P i s)). fold M. destruct (src M i =? s); ring. }
    assert (EG : sumn c (fun i => Q2R (mget P i n) * x i)%R = to_goal M x).
    { unfold to_goal. change (nA M - 2) with c. apply sumn_ext. intros i HiC. change (prob M i (goal M)) with (Q2R (mget P i n)). ring. }
    cbn [polytope]. change (a_C (rf_sys rf) - 2) with c. change (a_N (rf_sys rf) - 2) with n. change (a_P (rf_sys rf)) with P. change (a_inv (rf_sys rf)) with inv. rewrite EG.
    split; intros [A B]; (split; [|exact B]); intros s Hs; specialize (A s Hs); [rewrite <- EB|rewrite EB]; auto.
  Qed.

  Lemma size_ok : forall md, md <> OtherMode -> certificate_size rf md = Ok (cert_dim rf md).
  Proof. intros [] H; auto. congruence. Qed.

  Lemma fark_real : forall md t, md <> OtherMode -> exists A b, fark_constraints rf t md = Ok (A, b) /\ length b = length A /\
    length A = Datatypes.S (match md with Max => n | _ => c end) /\ (forall row, In row A -> length row = cert_dim rf md) /\
    forall x, (forall i, i < length A -> (rowR A (cert_dim rf md) i x <= Q2R (nth i b 0%Q))%R) <-> polytope rf md t x.
  Proof.
    intros md t Hm. destruct md; [| |congruence]; cbn [fark_constraints].
    - destruct (fark_z_real rf BF t Hi) as (A & b & E & LA & LB & HW & R1 & B1 & R2 & B2). exists A, b. split; [exact E|]. split; [congruence|]. split; [exact LA|]. split; [exact HW|].
      intros x. rewrite polytope_min. change (cert_dim rf Min) with n. split.
      + intros H. split.
        * intros r Hr. specialize (H r ltac:(unfold c in *; lia)). unfold n in H. rewrite R1, B1 in H by auto. unfold onestep. fold M in H. change (nS M - 2) with n. change (goal M) with n. fold n in H. lra.
        * specialize (H c ltac:(unfold c in *; lia)). unfold n, c in H. rewrite R2, B2 in H. fold init in H. lra.
      + intros (H1 & H2) i Hic. assert (i < c \/ i = c) as [Hlt| ->] by (unfold c; lia).
        * unfold n. rewrite R1, B1 by auto. specialize (H1 i Hlt). unfold onestep in H1. change (nS M - 2) with n in H1. change (goal M) with n in H1. fold M n. lra.
        * unfold n, c. rewrite R2, B2. fold init. lra.
    - destruct (fark_y_real rf BF t ltac:(unfold rf_N; lia)) as (A & b & E & LA & LB & HW & R1 & B1 & R2 & B2). exists A, b. split; [exact E|]. split; [congruence|]. split; [exact LA|]. split; [exact HW|].
      intros x. rewrite polytope_max. change (cert_dim rf Max) with c. split.
      + intros H. split.
        * intros s Hs. specialize (H s ltac:(unfold n in *; lia)). unfold c in H. rewrite R1, B1 in H by auto. exact H.
        * specialize (H n ltac:(unfold n in *; lia)). unfold n, c in H. rewrite R2, B2 in H. fold M in H. lra.
      + intros (H1 & H2) i Hic. assert (i < n \/ i = n) as [Hlt| ->] by (unfold n; lia).
        * unfold c. rewrite R1, B1 by auto. apply H1; auto.
        * unfold n, c. rewrite R2, B2. fold M. lra.
  Qed.

  (** ** The bounds of the variables *)
  Definition vb (md : mode) (ub : option (list Q)) (v : nat) (r : R) : Prop :=
    (0 <= r)%R /\ (md = Min -> in_some_ec P inv v -> (r <= 0)%R) /\ (~ (md = Min /\ in_some_ec P inv v) -> match ub with Some u => below (nth_error u v) r | None => True end).

  Lemma bounds_spec : forall md ub, md <> OtherMode -> (forall u, ub = Some u -> length u = cert_dim rf md) ->
    exists bs, variable_bounds rf md ub (cert_dim rf md) = Ok bs /\ length bs = cert_dim rf md /\
      forall v r, v < cert_dim rf md -> (sat_dom DReal (fst (nth v bs (None, None))) (snd (nth v bs (None, None))) r <-> vb md ub v r).
  Proof.
    intros md ub Hm HU. unfold variable_bounds. set (k := cert_dim rf md) in *.
    set (g := fun v => let* ec := match md with Min => in_proper_ec rf v | _ => Ok false end in
      let* u := if ec then Ok (Some 0%Q) else match ub with Some u => let* q := of_opt IndexError (nth_error u v) in Ok (Some q) | None => Ok None end in Ok (Some 0%Q, u)).
    assert (T : forall v, In v (seq 0 k) -> exists p, g v = Ok p /\ forall r, sat_dom DReal (fst p) (snd p) r <-> vb md ub v r).
    { intros v Hv. apply in_seq in Hv. assert (EC : exists e, match md with Min => in_proper_ec rf v | _ => Ok false end = Ok e /\ (e = true <-> md = Min /\ in_some_ec P inv v)).
      { destruct md; [|exists false; split; [auto|split; [discriminate|intros [? _]; discriminate]]|congruence].
        destruct (in_proper_ec_ok rf init RO FM v ltac:(unfold rf_N; unfold k in Hv; cbn [cert_dim] in Hv; lia)) as (e & Ee & He). exists e. split; [exact Ee|]. rewrite He. split; [split; auto|intros [_ ?]; auto]. }
      destruct EC as (e & Ee & He). unfold g. rewrite Ee. cbn [bind]. destruct e.
      - cbn [bind]. eexists. split; [reflexivity|]. intros r. cbn [fst snd sat_dom above below]. rewrite RMicromega.Q2R_0. unfold vb. pose proof (proj1 He eq_refl). tauto.
      - assert (NE : ~ (md = Min /\ in_some_ec P inv v)) by (intros H; apply He in H; discriminate). destruct ub as [u|].
        + specialize (HU u eq_refl). destruct (nth_error u v) as [q|] eqn:Eq; [|apply nth_error_None in Eq; lia]. cbn [of_opt bind]. eexists. split; [reflexivity|].
          intros r. cbn [fst snd sat_dom above]. rewrite RMicromega.Q2R_0. unfold vb. rewrite Eq. tauto.
        + cbn [bind]. eexists. split; [reflexivity|]. intros r. cbn [fst snd sat_dom above below]. rewrite RMicromega.Q2R_0. unfold vb. tauto. }
    destruct (mapM_total _ _ g (seq 0 k)) as (bs & Eb). { intros v Hv. destruct (T v Hv) as (p & Ep & _). eauto. }
    exists bs. split; [exact Eb|]. destruct (mapM_seq _ g k 0 bs Eb) as (L & HN). split; [exact L|].
    intros v r Hv. destruct (T v ltac:(apply in_seq; lia)) as (p & Ep & Hp). specialize (HN v (None, None) Hv). cbn [Nat.add] in HN.
    rewrite Ep in HN. injection HN as <-. apply Hp.
  Qed.

  (** ** The constructed model *)
  Definition construct_spec (md : mode) (t : Q) (relaxed : bool) (ub : option (list Q)) (gs : list (list nat)) (mm : milp) (ind : dict nat (list nat)) : Prop :=
    let k := cert_dim rf md in
    ind = combine (seq k (length gs)) gs /\ length (mi_vars mm) = k + length gs /\ mi_dir mm = Minimise /\ exprs_ok mm /\ mi_ok mm /\ (forall G v, In G gs -> In v G -> v < k + length gs /\ k_of ub v <> None) /\
    (forall x, objective mm x = lsum (map fst ind) x) /\
    forall x, feasible mm x <-> polytope rf md t x /\ (forall v, v < k -> vb md ub v (x v)) /\
      forall sigma G, In (sigma, G) ind -> ind_sat (if relaxed then DReal else DBinary) ub x sigma G.

  Lemma combine_fst : forall A B (l : list A) (l' : list B), length l = length l' -> map fst (combine l l') = l.
  Proof. induction l as [|a l IH]; intros [|b l'] H; cbn in *; try discriminate; auto. rewrite IH; auto. Qed.

  Lemma base_model : forall md t ub, md <> OtherMode -> (forall u, ub = Some u -> length u = cert_dim rf md) ->
    exists A b bs mm, fark_constraints rf t md = Ok (A, b) /\ variable_bounds rf md ub (cert_dim rf md) = Ok bs /\
      from_coefficients A (cert_dim rf md) b (repeat 0%Q (cert_dim rf md)) (repeat DReal (cert_dim rf md)) SLe Minimise (Some bs) = Ok mm /\
      mi_ok mm /\ exprs_ok mm /\ length (mi_vars mm) = cert_dim rf md /\ mi_dir mm = Minimise /\
      mi_obj mm = Some (map (fun j => (j, nth j (repeat 0%Q (cert_dim rf md)) 0%Q)) (seq 0 (cert_dim rf md))) /\
      forall x, feasible mm x <-> polytope rf md t x /\ forall v, v < cert_dim rf md -> vb md ub v (x v).
  Proof.
    intros md t ub Hm HU. destruct (fark_real md t Hm) as (A & b & EA & LB & LA & HW & HR). destruct (bounds_spec md ub Hm HU) as (bs & Eb & Lb & Hb).
    set (k := cert_dim rf md) in *.
    destruct (from_coefficients_spec A k b (repeat 0%Q k) (repeat DReal k) SLe Minimise (Some bs)) as (mm & Em & OK & LV & D & O & F).
    - discriminate.
    - discriminate.
    - intros row Hr. rewrite (HW row Hr). auto.
    - lia.
    - rewrite repeat_length. auto.
    - rewrite repeat_length. auto.
    - intros bs' E. injection E as <-. lia.
    - intros j Hj. rewrite (nth_indep _ _ DReal) by (rewrite repeat_length; auto). rewrite nth_repeat. discriminate.
    - exists A, b, bs, mm. do 3 (split; [assumption|]). split; [exact OK|]. split; [apply (from_coefficients_exprs _ _ _ _ _ _ _ _ _ Em)|].
      split; [exact LV|]. split; [exact D|]. split; [exact O|]. intros x. rewrite F, <- HR. cbn [bound_at].
      assert (EB : (forall j, j < k -> sat_dom (nth j (repeat DReal k) OtherDomain) (fst (nth j bs (None, None))) (snd (nth j bs (None, None))) (x j)) <-> (forall v, v < k -> vb md ub v (x v))).
      { split; intros H v Hv; specialize (H v Hv); rewrite (nth_indep _ _ DReal) in * by (rewrite repeat_length; auto); rewrite nth_repeat in *; apply (Hb v (x v) Hv); auto. }
      rewrite EB. unfold rowR. cbn [rel]. tauto.
  Qed.

  Lemma all_ones_fst : forall ind, map fst (all_ones ind) = map fst ind.
  Proof. intros. unfold all_ones. rewrite map_map. reflexivity. Qed.

  Lemma zero_obj : forall k x, lin (map (fun j => (j, nth j (repeat 0%Q k) 0%Q)) (seq 0 k)) x = 0%R.
  Proof.
    intros k x. rewrite (lin_seq (fun j => nth j (repeat 0%Q k) 0%Q)). apply sumn_zero. intros j Hj. rewrite nth_repeat, RMicromega.Q2R_0. ring.
  Qed.

  Lemma finish_spec : forall md t (relaxed : bool) ub gs m0 m1 ind m2, md <> OtherMode -> mi_ok m0 -> exprs_ok m0 -> length (mi_vars m0) = cert_dim rf md -> mi_dir m0 = Minimise ->
    mi_obj m0 = Some (map (fun j => (j, nth j (repeat 0%Q (cert_dim rf md)) 0%Q)) (seq 0 (cert_dim rf md))) ->
    (forall x, feasible m0 x <-> polytope rf md t x /\ forall v, v < cert_dim rf md -> vb md ub v (x v)) ->
    add_indicator_constraints m0 ub gs (if relaxed then DReal else DBinary) = Ok (m1, ind) -> set_objective m1 (all_ones ind) = Ok m2 ->
    construct_spec md t relaxed ub gs m2 ind.
  Proof.
    intros md t relaxed ub gs m0 m1 ind m2 Hm OK EO LV D O F EI ES. set (k := cert_dim rf md) in *. unfold add_indicator_constraints in EI.
    destruct (indicators_inv _ _ _ _ _ _ _ OK EO (fun s (H : In s (dkeys (V := list nat) [])) => match H return _ with end) EI) as (A1 & A2 & A3 & A4 & A5 & A6 & A7 & A8).
    rewrite LV in *. cbn [app] in A6. destruct (set_objective_exprs _ _ _ A2 ES) as (B1 & B2). destruct (set_objective_inv _ _ _ ES) as (_ & _ & B3).
    assert (ED : mi_dir m2 = mi_dir m1 /\ mi_constrs m2 = mi_constrs m1 /\ mi_count m2 = mi_count m1).
    { unfold set_objective in ES. apply bind_ok in ES. destruct ES as (u & _ & ES). injection ES as <-. auto. }
    destruct ED as (ED & EC & EN).
    assert (FX : map fst ind = seq k (length gs)) by (rewrite A6; apply combine_fst; rewrite seq_length; auto).
    unfold construct_spec. fold k. split; [exact A6|]. split; [rewrite B2; exact A5|]. split; [congruence|]. split; [exact B1|]. split; [split; rewrite ?EC, ?EN; apply A1|]. split.
    { intros G v HG Hv. specialize (A7 G v HG Hv). rewrite A5 in A7. exact A7. } split.
    - intros x. unfold objective. rewrite B3, A3, O. rewrite lin_fold_fresh.
      + rewrite zero_obj, lin_all_ones. lra.
      + rewrite all_ones_fst, FX. apply seq_NoDup.
      + intros v. rewrite all_ones_fst, FX. intros Hv HI. unfold dkeys in HI. rewrite map_map in HI. cbn [fst] in HI. rewrite map_id in HI. apply in_seq in Hv, HI. lia.
    - intros x. rewrite A6. unfold feasible at 1. rewrite B2, EC. change (feasible m1 x <-> polytope rf md t x /\ (forall v, v < k -> vb md ub v (x v)) /\
        (forall sigma G, In (sigma, G) (combine (seq k (length gs)) gs) -> ind_sat (if relaxed then DReal else DBinary) ub x sigma G)). rewrite A8, F. tauto.
  Qed.

  Lemma construct_inv : forall S t md labels relaxed mm ind, construct_milp S rf t md labels relaxed None = Ok (Some (mm, ind)) ->
    (forall u, (exists A b, fark_constraints rf t md = Ok (A, b) /\ choose_bounds S rf A (cert_dim rf md) b md None = Ok (Some (Some u))) -> length u = cert_dim rf md) ->
    exists ub gs A b, md <> OtherMode /\ fark_constraints rf t md = Ok (A, b) /\ choose_bounds S rf A (cert_dim rf md) b md None = Ok (Some ub) /\
      (relaxed = false -> ub <> None) /\ (md = Min -> ub <> None) /\
      groups_from_labels rf md labels (match md with Max => negb relaxed | _ => false end) = Ok gs /\ construct_spec md t relaxed ub gs mm ind.
  Proof.
    intros S t md labels relaxed mm ind H HU. assert (Hm : md <> OtherMode) by (intros ->; discriminate).
    unfold construct_milp in H. apply bind_ok in H. destruct H as ((A & b) & EA & H). rewrite (size_ok md Hm) in H. cbn [bind] in H.
    apply bind_ok in H. destruct H as (cb & Ec & H). destruct cb as [ub|]; [|discriminate].
    apply bind_ok in H. destruct H as (u0 & Eas & H). apply bind_ok in H. destruct H as (gs & Eg & H). apply bind_ok in H. destruct H as (bs & Eb & H).
    apply bind_ok in H. destruct H as (m0 & E0 & H). apply bind_ok in H. destruct H as ((m1 & ind1) & E1 & H). apply bind_ok in H. destruct H as (m2 & E2 & H). injection H as <- <-.
    assert (HU' : forall u, ub = Some u -> length u = cert_dim rf md). { intros u ->. apply HU. eauto. }
    destruct (base_model md t ub Hm HU') as (A' & b' & bs' & m0' & EA' & Eb' & E0' & X1 & X2 & X3 & X4 & X5 & X6).
    rewrite EA in EA'. injection EA' as <- <-. rewrite Eb in Eb'. injection Eb' as <-. rewrite E0 in E0'. injection E0' as <-.
    assert (MN : md = Min -> ub <> None). { intros -> ->. cbn [choose_bounds] in Ec. discriminate. }
    exists ub, gs, A, b. split; [exact Hm|]. split; [exact EA|]. split; [exact Ec|]. split.
    { intros -> ->. apply assert_ok in Eas. destruct md; [apply MN; auto|discriminate|congruence]. }
    split; [exact MN|]. split; [exact Eg|]. eapply finish_spec; eauto.
  Qed.
End Form.
