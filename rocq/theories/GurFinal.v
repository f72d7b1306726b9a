(** Results for the Gurobi back end. *)
From Coq Require Import String List Arith ZArith QArith Qreals Reals Bool Lia Lra Classical.
From Coq Require Lqa.
From Verif Require Import Base BaseFacts Num Matrix InvDict SccSpec SpecMdp SpecEc SpecSystem SpecForm SpecBuilt SpecProb SpecSub SpecLp SpecMilp SpecLabel SpecDecide SpecReward SpecRewSub SpecGurobi SumFacts
  Amdp ReachForm ReachFormProofs RfFacts RfBridge FarkReal Milp MilpProofs LpExists Subsystem Formulations MilpBuild MilpForm MilpMin MilpFinal Problems QsFixed RewardForm RewardProofs RewForms RewProblems
  Gurobi GurProofs GurForm DecideFinal RewFinal.
Import ListNotations.
Local Open Scope nat_scope.

(** ** Answers carry over *)
Lemma same_exact : forall m m' r, same_model m m' -> (exact_answer m r <-> exact_answer m' r).
Proof.
  intros m m' r (D & V & F & O). unfold exact_answer, optimal. rewrite D, V. destruct (sr_status r); try tauto.
  - split; intros (A & (B & C) & E); (split; [exact A|split; [split; [apply F; exact B|]|]]).
    + intros x' Hx'. rewrite <- !O. apply C. apply F. exact Hx'.
    + rewrite <- O. exact E.
    + intros x' Hx'. rewrite !O. apply C. apply F. exact Hx'.
    + rewrite O. exact E.
  - split; intros H x Hx; apply (H x); apply F; exact Hx.
  - split; intros ((x & Hx) & H); (split; [exists x; apply F; exact Hx|]); intros B; destruct (H B) as (y & Hy & Hb); exists y; (split; [apply F; exact Hy|]); [rewrite <- O|rewrite O]; exact Hb.
Qed.
Lemma same_sound : forall m m' r, same_model m m' -> (sound_answer m r <-> sound_answer m' r).
Proof. intros m m' r (D & V & F & O). unfold sound_answer. rewrite V. split; intros H E; destruct (H E) as (A & B); (split; [exact A|apply F; exact B]). Qed.
Lemma same_sym : forall m m', same_model m m' -> same_model m' m.
Proof. intros m m' (D & V & F & O). split; [auto|]. split; [auto|]. split; [intros; symmetry; apply F|intros; symmetry; apply O]. Qed.

Definition replay (gc : list (milp * sresult)) : nat -> solver := fun i _ => match nth_error gc i with Some c => snd c | None => MkRes Undefined [] 0%Q end.

Lemma calls_exact : forall pc gc, Forall2 same_call pc gc -> (forall m r, In (m, r) gc -> exact_answer m r) -> forall m r, In (m, r) pc -> exact_answer m r.
Proof.
  intros pc gc H. induction H as [|[m r] [m' r'] pc gc (S & E) H IH]; intros HX m0 r0 [].
  - injection H0 as <- <-. cbn [fst snd] in *. subst r'. apply (same_exact m m' r S). apply HX. left; reflexivity.
  - apply IH; [|exact H0]. intros m1 r1 H1. apply HX. right; exact H1.
Qed.
Lemma calls_sound : forall pc gc, Forall2 same_call pc gc -> (forall m r, In (m, r) gc -> sound_answer m r) -> forall m r, In (m, r) pc -> sound_answer m r.
Proof.
  intros pc gc H. induction H as [|[m r] [m' r'] pc gc (S & E) H IH]; intros HX m0 r0 [].
  - injection H0 as <- <-. cbn [fst snd] in *. subst r'. apply (same_sound m m' r S). apply HX. left; reflexivity.
  - apply IH; [|exact H0]. intros m1 r1 H1. apply HX. right; exact H1.
Qed.

(** ** Reachability forms *)
Lemma C72_same_lemma : forall rf SB t md labels relaxed, built_form rf -> exact_rows (a_P (rf_sys rf)) -> rf_init rf < a_N (rf_sys rf) - 2 -> sized SB -> (md = Min -> no_unit_loop rf) ->
  same_result (match md with Max => negb relaxed | _ => false end) (construct_milp SB rf t md labels relaxed None) (g_construct_milp SB rf t md labels relaxed None).
Proof. intros rf SB t md labels relaxed BF EX Hi HS NU. apply rfull_same. apply con_sim; [exact HS|]. apply (rows_form rf BF EX Hi md t NU). Qed.

Lemma C72_runs_lemma : forall rf SB S iterations ini up t md labels g gc, built_form rf -> exact_rows (a_P (rf_sys rf)) -> rf_init rf < a_N (rf_sys rf) - 2 -> sized SB -> (md = Min -> no_unit_loop rf) ->
  up = fixed_zeros \/ up = inverse_result -> (forall mm ind obj, g_construct_milp SB rf t md labels true None = Ok (Some (mm, ind)) -> ini rf md ind = Ok obj -> map fst obj = dkeys ind) ->
  g_qs_run SB S iterations ini up rf t md labels = (g, gc) ->
  exists S' pc, qs_run SB S' iterations ini up rf t md labels = (g, pc) /\ Forall2 (fun c c' => same_model (fst c) (fst c') /\ snd c = snd c') pc gc.
Proof.
  intros rf SB S it ini up t md labels g gc BF EX Hi HS NU HU HI E. pose proof (con_sim rf SB t md labels true HS (rows_form rf BF EX Hi md t NU)) as C. unfold g_qs_run in E. unfold qs_run. exists (replay gc).
  destruct C as [C|(C & _)]; [|destruct md; discriminate]. destruct (construct_milp SB rf t md labels true None) as [[[m ind]|]|e] eqn:E1; destruct (g_construct_milp SB rf t md labels true None) as [[[gm ind']|]|e'] eqn:E2; cbn in C; try contradiction.
  - destruct C as ((S1 & EI & ND & OZ & _) & _). cbn [fst snd] in *. subst ind'. destruct (certificate_size rf md) as [n|e]; cbn [bind] in E |- *; [|injection E as <- <-; exists []; split; [reflexivity|constructor]].
    destruct (ini rf md ind) as [obj|e] eqn:EO; cbn [bind] in E |- *; [|injection E as <- <-; exists []; split; [reflexivity|constructor]].
    apply (loop_sim S (replay gc) (up rf md ind) (dkeys ind) rf md n ND ltac:(destruct HU as [-> | ->]; [apply fixed_plain|apply inverse_plain]) it 0 m gm obj g gc S1 OZ (HI gm ind obj eq_refl EO) E).
    intros j c mm Hj. cbn. unfold replay. rewrite Hj. reflexivity.
  - injection E as <- <-. exists []. split; [reflexivity|constructor].
  - subst e'. injection E as <- <-. exists []. split; [reflexivity|constructor].
Qed.

Lemma C72_decides_lemma : forall rf t md labels, built_form rf -> exact_rows (a_P (rf_sys rf)) -> rf_init rf < a_N (rf_sys rf) - 2 -> md <> OtherMode -> inner_opt (rf_sys rf) labels -> (md = Min -> no_unit_loop rf) ->
  exists p A b lp, match md with Max => PrMaxForm | _ => PrMinForm end rf (rf_init rf) p /\ fark_constraints rf t md = Ok (A, b) /\ upper_bound_lp A (cert_dim rf md) b = Ok lp /\ (exists r, exact_answer lp r) /\
  forall SB S iterations ini up g calls, sized SB -> bound_answer lp (SB lp) -> up = fixed_zeros \/ up = inverse_result -> iterations <> 0 ->
    (forall mm ind, g_construct_milp SB rf t md labels true None = Ok (Some (mm, ind)) -> exists obj, ini rf md ind = Ok obj /\ weighting ind obj) ->
    g_qs_run SB S iterations ini up rf t md labels = (g, calls) -> (forall m r, In (m, r) calls -> exact_answer m r) ->
    g_exn g = None /\
    ((Q2R t <= p)%R -> length (g_items g) = iterations /\ forall r, In r (g_items g) -> pr_status r = Success) /\
    ((p < Q2R t)%R -> g_items g = [failure Infeasible]).
Proof.
  intros rf t md labels BF EX Hi Hm HL NU. destruct (C68_final rf t md labels BF EX Hi Hm HL) as (p & A & b & lp & H1 & H2 & H3 & H4 & H). exists p, A, b, lp. do 4 (split; [assumption|]).
  intros SB S it ini up g gc HS HB HU HN HI E HX.
  destruct (C72_runs_lemma rf SB S it ini up t md labels g gc BF EX Hi HS NU HU) as (S' & pc & EP & HF); [|exact E|].
  { intros mm ind obj EC EO. destruct (HI mm ind EC) as (obj' & EO' & (KO & _)). rewrite EO in EO'. injection EO' as <-. exact KO. }
  apply (H SB S' it ini up g pc HS HB HU HN); [|exact EP|apply (calls_exact pc gc HF HX)].
  intros mm ind EC. pose proof (C72_same_lemma rf SB t md labels true BF EX Hi HS NU) as C. rewrite EC in C. destruct (g_construct_milp SB rf t md labels true None) as [[[gm ind']|]|e'] eqn:E2; cbn in C; try contradiction.
  destruct C as (_ & <-). apply (HI gm ind eq_refl).
Qed.

(** milp_exact in terms of the result of construct_MILP. *)
Lemma exact_unfold : forall SB S rf t md labels, milp_exact SB S rf t md labels = g_exact_result S rf md (construct_milp SB rf t md labels false None).
Proof. reflexivity. Qed.
Lemma exact_same : forall S S' rf md m gm ind, S m = S' gm -> g_exact_result S rf md (Ok (Some (m, ind))) = g_exact_result S' rf md (Ok (Some (gm, ind))).
Proof. intros S S' rf md m gm ind E. unfold g_exact_result. cbn [bind]. rewrite E. reflexivity. Qed.

Lemma C72_exact_lemma : forall rf t SB, built_form rf -> exact_rows (a_P (rf_sys rf)) -> rf_init rf < a_N (rf_sys rf) - 2 -> sized SB -> no_unit_loop rf ->
  exists pr mm ind, PrMinForm rf (rf_init rf) pr /\ g_construct_milp SB rf t Min None false None = Ok (Some (mm, ind)) /\ (exists r, exact_answer mm r) /\
    forall S, exact_answer mm (S mm) ->
      g_exn (g_milp_exact SB S rf t Min None) = None /\
      ((pr < Q2R t)%R -> g_items (g_milp_exact SB S rf t Min None) = [failure Infeasible]) /\
      ((Q2R t <= pr)%R -> exists sub v cert j, g_items (g_milp_exact SB S rf t Min None) = [MkPRes Success (Some sub) (Some v) (Some cert)] /\
        mk_subsystem rf cert Min false = Ok sub /\ cert_point rf Min t cert /\ Q2R v = INR j /\
        witness rf Min t (chosen (rf_sys rf) Min cert) /\ count (chosen (rf_sys rf) Min cert) (a_N (rf_sys rf) - 2) = j /\
        forall keep, witness rf Min t keep -> j <= count keep (a_N (rf_sys rf) - 2)).
Proof.
  intros rf t SB BF EX Hi HS NU. destruct (C39_final rf t SB BF EX Hi) as (pr & m & ind & HP & EC & (r0 & HE) & H). pose proof (C72_same_lemma rf SB t Min None false BF EX Hi HS (fun _ => NU)) as C. rewrite EC in C.
  destruct (g_construct_milp SB rf t Min None false None) as [[[gm ind']|]|e'] eqn:E2; cbn in C; try contradiction. destruct C as (SM & <-). exists pr, gm, ind. split; [exact HP|]. split; [reflexivity|]. split; [exists r0; apply (same_exact m gm r0 SM); exact HE|].
  intros S HA. assert (EQ : g_milp_exact SB S rf t Min None = milp_exact SB (fun _ => S gm) rf t Min None) by (rewrite exact_unfold, EC; unfold g_milp_exact; rewrite E2; reflexivity).
  rewrite EQ. apply H. apply (same_exact m gm _ SM). exact HA.
Qed.

(** A pair that stays in its state makes construct_MILP raise. *)
Lemma zero_row : forall row, (forall j, j < length row -> (nth j row 0 == 0)%Q) -> row_items row = [].
Proof.
  intros row H. unfold row_items. destruct (filter _ _) as [|[j q] l] eqn:E; [reflexivity|]. exfalso. assert (HI : In (j, q) ((j, q) :: l)) by (left; reflexivity). rewrite <- E in HI. apply filter_In in HI. destruct HI as (HI & HQ).
  cbn [snd] in HQ. apply (In_nth _ _ (0, 0%Q)) in HI. destruct HI as (k & Hk & EK). rewrite combine_length, seq_length, Nat.min_id in Hk. rewrite combine_nth in EK by apply seq_length. injection EK as _ <-.
  rewrite (proj2 (Qeq_bool_iff _ _) (H k Hk)) in HQ. discriminate.
Qed.

Lemma foldM_err : forall A S (I : S -> Prop) (f : S -> A -> res S) e l s, I s -> (forall s a, I s -> In a l -> (exists s', f s a = Ok s' /\ I s') \/ f s a = Err e) -> (exists a, In a l /\ forall s, I s -> f s a = Err e) -> foldM f l s = Err e.
Proof.
  intros A S I f e. induction l as [|a l IH]; intros s H0 H (a0 & HI & HE); [destruct HI|]. cbn [foldM]. destruct (H s a H0 (or_introl eq_refl)) as [(s' & E & H1)|E]; rewrite E; [|reflexivity]. cbn [bind].
  destruct HI as [<-|HI]; [rewrite (HE s H0) in E; discriminate|]. apply IH; [exact H1|intros s1 a1 I1 J1; apply H; [exact I1|right; exact J1]|exists a0; auto].
Qed.

Lemma g_add_total : forall m lhs rhs, lhs <> [] -> (forall v q, In (v, q) lhs -> v < length (mi_vars m)) -> exists m' i, g_add_constraint m lhs SLe rhs = Ok (m', i) /\ mi_vars m' = mi_vars m.
Proof.
  intros m lhs rhs HL HB. unfold g_add_constraint. cbn [bind]. unfold assert_expression. replace (forallb _ lhs) with true by (symmetry; apply forallb_forall; intros [v q] Hv; apply Nat.ltb_lt; apply (HB v q Hv)).
  cbn [assert_ bind]. destruct lhs; [congruence|]. eexists. eexists. split; [reflexivity|]. reflexivity.
Qed.

Lemma row_items_lt : forall row v q, In (v, q) (row_items row) -> v < length row.
Proof.
  intros row v q H. unfold row_items in H. apply filter_In in H. destruct H as (H & _). apply in_combine_l in H. apply in_seq in H. lia.
Qed.

Lemma g_from_raises : forall A n b o bounds, (forall row, In row A -> length row = n) -> length b = length A -> length bounds = n -> o <> OtherObjective -> (exists row, In row A /\ row_items row = []) ->
  g_from_coefficients A n b (repeat 0%Q n) (repeat DReal n) SLe o (Some bounds) = Err TypeError.
Proof.
  intros A n b o bounds HW LB LU HO (row0 & HR & E0). unfold g_from_coefficients. destruct (milp_new o) as [m0|e] eqn:EN; [|destruct o; discriminate || congruence]. cbn [bind].
  assert (LN : length (mi_vars m0) = 0) by (destruct o; cbn in EN; try discriminate; injection EN as <-; reflexivity).
  assert (RN : forall X (x : X) k j, j < k -> nth_error (repeat x k) j = Some x). { clear. induction k as [|k IH]; intros [|j] H; cbn; try lia; [reflexivity|]. apply IH. lia. }
  assert (ED : exists ds, mapM (fun j => let* d := of_opt IndexError (nth_error (repeat DReal n) j) in let* lu := of_opt IndexError (nth_error bounds j) in Ok (d, fst lu, snd lu)) (seq 0 n) = Ok ds /\ length ds = n /\ forall d, In d ds -> fst (fst d) = DReal).
  { assert (G : forall k l, (forall j, In j l -> j < n) -> k = length l -> exists ds, mapM (fun j => let* d := of_opt IndexError (nth_error (repeat DReal n) j) in let* lu := of_opt IndexError (nth_error bounds j) in Ok (d, fst lu, snd lu)) l = Ok ds /\ length ds = k /\ forall d, In d ds -> fst (fst d) = DReal).
    { induction k as [|k IH]; intros [|j l] HJ HK; cbn in HK; try discriminate; [exists []; split; [reflexivity|split; [reflexivity|intros d []]]|]. destruct (IH l) as (ds & E & L & HD); [intros j' Hj'; apply HJ; right; exact Hj'|lia|].
      cbn [mapM]. rewrite (RN _ DReal n j) by (apply HJ; left; reflexivity). destruct (nth_error bounds j) as [lu|] eqn:EB; [|apply nth_error_None in EB; specialize (HJ j (or_introl eq_refl)); lia]. cbn [of_opt bind]. rewrite E. cbn [bind].
      eexists. split; [reflexivity|]. split; [cbn; lia|]. intros d [<-|Hd]; [reflexivity|apply HD; exact Hd]. }
    apply (G n (seq 0 n)); [intros j Hj; apply in_seq in Hj; lia|rewrite seq_length; reflexivity]. }
  destruct ED as (ds & ED & LD & HD). rewrite ED. cbn [bind].
  assert (EV : exists m1 l1, g_add_variables_w_bounds m0 ds = Ok (m1, l1) /\ length (mi_vars m1) = n).
  { assert (G : forall ds m l, (forall d, In d ds -> fst (fst d) = DReal) -> exists m1 l1, foldM (fun st d => let '(m, l) := st in let '(dom, lb, ub) := d in let* v := g_mk_var dom lb ub in Ok (push_var m v, l ++ [length (mi_vars m)])) ds (m, l) = Ok (m1, l1) /\ length (mi_vars m1) = length (mi_vars m) + length ds).
    { clear. induction ds as [|[[dom lb] ub] ds IH]; intros m l H; cbn [foldM]; [exists m, l; split; [reflexivity|cbn; lia]|]. pose proof (H _ (or_introl eq_refl)) as Hd. cbn in Hd. subst dom. cbn [g_mk_var bind].
      destruct (IH (push_var m (MkVar false (Some match lb with Some q => q | None => 0%Q end) ub)) (l ++ [length (mi_vars m)]) (fun d Hd => H d (or_intror Hd))) as (m1 & l1 & E & L). exists m1, l1. split; [exact E|]. rewrite L. cbn [push_var mi_vars length]. rewrite app_length. cbn [length]. lia. }
    destruct (G ds m0 [] HD) as (m1 & l1 & E & L). exists m1, l1. split; [exact E|]. lia. }
  destruct EV as (m1 & l1 & EV & LV). rewrite EV. cbn [bind].
  assert (EO : exists obj, mapM (fun j => let* q := of_opt IndexError (nth_error (repeat 0%Q n) j) in Ok (j, q)) (seq 0 n) = Ok obj /\ forall v q, In (v, q) obj -> v < n).
  { exists (map (fun j => (j, 0%Q)) (seq 0 n)). split; [|intros v q H; apply in_map_iff in H; destruct H as (j & H & Hj); injection H as <- _; apply in_seq in Hj; lia].
    assert (G : forall l, (forall j, In j l -> j < n) -> mapM (fun j => let* q := of_opt IndexError (nth_error (repeat 0%Q n) j) in Ok (j, q)) l = Ok (map (fun j => (j, 0%Q)) l)).
    { induction l as [|j l IH]; intros H; [reflexivity|]. cbn [mapM map]. rewrite (RN _ 0%Q n j) by (apply H; left; reflexivity). cbn [of_opt bind]. rewrite IH by (intros j' Hj'; apply H; right; exact Hj'). reflexivity. }
    apply G. intros j Hj. apply in_seq in Hj. lia. }
  destruct EO as (obj & EO & HOB). rewrite EO. cbn [bind]. unfold g_set_objective. unfold assert_expression. replace (forallb _ obj) with true by (symmetry; apply forallb_forall; intros [v q] Hv; apply Nat.ltb_lt; cbn [fst]; rewrite LV; apply (HOB v q Hv)). cbn [assert_ bind].
  apply (foldM_err _ _ (fun m => length (mi_vars m) = n)); [exact LV| |].
  - intros m i LM Hi. apply in_seq in Hi. destruct (nth_error A i) as [row|] eqn:ER; [|apply nth_error_None in ER; lia]. destruct (nth_error b i) as [rhs|] eqn:EB; [|apply nth_error_None in EB; lia]. cbn [of_opt bind].
    destruct (row_items row) as [|p l] eqn:EI; [right; reflexivity|]. left. destruct (g_add_total m (p :: l) rhs) as (m' & i' & E' & V'); [discriminate| |rewrite E'; cbn [bind]; exists m'; split; [reflexivity|congruence]].
    intros v q Hv. rewrite <- EI in Hv. apply row_items_lt in Hv. rewrite LM. rewrite <- (HW row (nth_error_In _ _ ER)). exact Hv.
  - apply In_nth_error in HR. destruct HR as (i & Hi). exists i. assert (LI : i < length A) by (apply nth_error_Some; congruence). split; [apply in_seq; lia|]. intros m LM. rewrite Hi. destruct (nth_error b i) as [rhs|] eqn:EB; [|apply nth_error_None in EB; lia]. cbn [of_opt bind]. rewrite E0. reflexivity.
Qed.

Lemma C72_loop_lemma : forall rf SB t labels relaxed, built_form rf -> exact_rows (a_P (rf_sys rf)) -> rf_init rf < a_N (rf_sys rf) - 2 -> ~ no_unit_loop rf -> g_construct_milp SB rf t Min labels relaxed None = Err TypeError.
Proof.
  intros rf SB t labels relaxed BF EX Hi NU. destruct (fark_real rf BF Hi Min t ltac:(discriminate)) as (A & b & EA & LB & LA & HW & _). unfold g_construct_milp. rewrite EA. cbn [bind]. rewrite (size_ok rf Min ltac:(discriminate)). cbn [bind choose_bounds].
  set (k := cert_dim rf Min) in *. assert (HU : forall u, Some (repeat 1%Q k) = Some u -> length u = cert_dim rf Min) by (intros u E; injection E as <-; apply repeat_length).
  destruct (bounds_spec rf BF Hi Min (Some (repeat 1%Q k)) ltac:(discriminate) HU) as (bs & EB & LBS & _). fold k in EB, LBS.
  assert (EG : exists gs, groups_from_labels rf Min labels false = Ok gs). { unfold groups_from_labels. rewrite (size_ok rf Min ltac:(discriminate)). cbn [bind]. destruct labels; eauto. }
  destruct EG as (gs & EG). rewrite EG. cbn [bind]. rewrite EB. cbn [bind]. unfold g_model. rewrite g_from_raises; [reflexivity|exact HW|exact LB|exact LBS|discriminate|].
  destruct (fark_z_real rf BF t Hi) as (A' & b' & E' & LA' & _ & _ & R1 & _). cbn [fark_constraints] in EA. rewrite EA in E'. injection E' as <- <-. set (M := form_mdp rf) in *.
  assert (HE : exists r, r < rf_C rf /\ prob M r (src M r) = 1%R). { apply NNPP. intros H. apply NU. apply (unit_prob rf BF). intros r Hr E. apply H. exists r. auto. }
  destruct HE as (r & Hr & HP). exists (nth r A []). split; [apply nth_In; rewrite LA'; lia|]. apply zero_row. intros j Hj.
  assert (LR : length (nth r A []) = k) by (apply HW; apply nth_In; rewrite LA'; lia). rewrite LR in Hj. apply eqR_Qeq. rewrite RMicromega.Q2R_0.
  assert (HJ : rowR A k r (e_at j) = Q2R (nth j (nth r A []) 0%Q)) by (unfold rowR; apply (sum_e j k (fun j => Q2R (nth j (nth r A []) 0%Q)) Hj)). rewrite <- HJ. unfold k, cert_dim. change (a_N (rf_sys rf) - 2) with (rf_N rf). rewrite (R1 r (e_at j) Hr).
  change (rf_N rf) with (nS M - 2). pose proof (sum_e j (nS M - 2) (prob M r) Hj) as HS. rewrite HS. pose proof (br_rf rf BF EX) as RFM. fold M in RFM. destruct (br_row rf BF r Hr) as (a & _ & Hs). fold M in Hs.
  unfold e_at. destruct (Nat.eqb_spec (src M r) j) as [<-|NE]; [rewrite HP; lra|]. pose proof (two_le M (rf_init rf) RFM r (src M r) j) as H2. destruct RFM as ((W & N2 & A2 & _) & _). destruct W as (_ & W2 & _).
  assert (r < nA M) by (change (rf_C rf) with (nA M - 2) in Hr; lia). assert (HJ2 : j < nS M - 2) by exact Hj. change (src M r < nS M - 2) in Hs. specialize (H2 ltac:(assumption) ltac:(lia) ltac:(lia) NE). specialize (W2 r j ltac:(assumption) ltac:(lia)). lra.
Qed.
