(** Results for the Gurobi back end: reward forms, end components. *)
From Coq Require Import String List Arith ZArith QArith Qreals Reals Bool Lia Lra Classical.
From Coq Require Lqa ClassicalChoice.
From Verif Require Import Base BaseFacts Num Matrix InvDict SccSpec SpecMdp SpecEc SpecSystem SpecForm SpecBuilt SpecProb SpecSub SpecLp SpecMilp SpecLabel SpecDecide SpecReward SpecRewSub SpecGurobi SumFacts
  Amdp ReachForm ReachFormProofs RfFacts RfBridge FarkReal Milp MilpProofs LpExists Subsystem Formulations MilpBuild MilpForm MilpMin MilpFinal Problems QsFixed GroupProofs RewardForm RewardProofs RewForms RewProblems
  Gurobi GurProofs GurForm CertProofs Examples ExProofs2 ExReward QsWeights DecideFinal RewFinal GurFinal.
Import ListNotations.
Local Open Scope nat_scope.

(** ** Mode max without end components, through Gurobi *)
Lemma C72_max_lemma : forall rf t, built_form rf -> exact_rows (a_P (rf_sys rf)) -> rf_init rf < a_N (rf_sys rf) - 2 ->
  (forall s, s < a_N (rf_sys rf) - 2 -> ~ in_some_ec (a_P (rf_sys rf)) (a_inv (rf_sys rf)) s) ->
  exists pr A b lp, PrMaxForm rf (rf_init rf) pr /\ fark_constraints rf t Max = Ok (A, b) /\ upper_bound_lp A (a_C (rf_sys rf) - 2) b = Ok lp /\ (exists r, exact_answer lp r) /\
    forall SB, sized SB -> exact_answer lp (SB lp) ->
      ((pr < Q2R t)%R -> forall S, g_milp_exact SB S rf t Max None = MkGen [failure Infeasible] None) /\
      ((Q2R t <= pr)%R -> exists mm ind, g_construct_milp SB rf t Max None false None = Ok (Some (mm, ind)) /\ (exists r, exact_answer mm r) /\
        forall S, exact_answer mm (S mm) -> g_exn (g_milp_exact SB S rf t Max None) = None /\
        exists sub v cert j, g_items (g_milp_exact SB S rf t Max None) = [MkPRes Success (Some sub) (Some v) (Some cert)] /\
          mk_subsystem rf cert Max false = Ok sub /\ cert_point rf Max t cert /\ Q2R v = INR j /\
          witness rf Max t (chosen (rf_sys rf) Max cert) /\ count (chosen (rf_sys rf) Max cert) (a_N (rf_sys rf) - 2) = j /\
          forall keep, witness rf Max t keep -> j <= count keep (a_N (rf_sys rf) - 2)).
Proof.
  intros rf t BF EX Hi FREE. destruct (C40_final rf t BF EX Hi FREE) as (pr & A & b & lp & HP & EA & EL & XA & H). exists pr, A, b, lp. do 4 (split; [assumption|]).
  intros SB HS HB. destruct (H SB HB) as (H1 & H2). pose proof (C72_same_lemma rf SB t Max None false BF EX Hi HS ltac:(discriminate)) as C. split.
  - intros Hp S. specialize (H1 Hp S). rewrite exact_unfold in H1. unfold g_milp_exact. destruct (construct_milp SB rf t Max None false None) as [[[m ind]|]|e] eqn:E1; destruct (g_construct_milp SB rf t Max None false None) as [[[gm ind']|]|e'] eqn:E2; cbn in C; try contradiction.
    + exfalso. specialize (H1). assert (X : exists v, PrMaxForm rf (rf_init rf) v /\ v = pr) by eauto. clear X.
      assert (H1' : forall S, g_exact_result S rf Max (Ok (Some (m, ind))) = MkGen [failure Infeasible] None) by (intros S'; rewrite <- E1, <- exact_unfold; apply (proj1 (H SB HB) Hp S')).
      specialize (H1' (fun _ => MkRes Unbounded [] 0%Q)). cbn in H1'. discriminate.
    + exact H1.
    + discriminate.
  - intros Hp. destruct (H2 Hp) as (m & ind & EC & (r0 & HE) & HM). rewrite EC in C. destruct (g_construct_milp SB rf t Max None false None) as [[[gm ind']|]|e'] eqn:E2; cbn in C; try contradiction. destruct C as (SM & <-).
    exists gm, ind. split; [reflexivity|]. split; [exists r0; apply (same_exact m gm r0 SM); exact HE|].
    intros S HA. assert (EQ : g_milp_exact SB S rf t Max None = milp_exact SB (fun _ => S gm) rf t Max None) by (rewrite exact_unfold, EC; unfold g_milp_exact; rewrite E2; reflexivity).
    rewrite EQ. apply HM. apply (same_exact m gm _ SM). exact HA.
Qed.

(** Any labels: what the exact method yields with Gurobi is what it yields with
    PuLP, if the solver answers alike. *)
Lemma C72_transfer_lemma : forall rf SB S t md labels, built_form rf -> exact_rows (a_P (rf_sys rf)) -> rf_init rf < a_N (rf_sys rf) - 2 -> sized SB -> (md = Min -> no_unit_loop rf) ->
  exists S', (forall m ind gm ind', construct_milp SB rf t md labels false None = Ok (Some (m, ind)) -> g_construct_milp SB rf t md labels false None = Ok (Some (gm, ind')) ->
      (exact_answer m (S' m) <-> exact_answer gm (S gm)) /\ (sound_answer m (S' m) <-> sound_answer gm (S gm))) /\
    (g_milp_exact SB S rf t md labels = milp_exact SB S' rf t md labels \/
     md = Max /\ milp_exact SB S' rf t md labels = MkGen [] (Some AssertionError) /\ exists e, g_milp_exact SB S rf t md labels = MkGen [] (Some e)).
Proof.
  intros rf SB S t md labels BF EX Hi HS NU. pose proof (C72_same_lemma rf SB t md labels false BF EX Hi HS NU) as C.
  exists (fun _ => match g_construct_milp SB rf t md labels false None with Ok (Some (gm, _)) => S gm | _ => MkRes Undefined [] 0%Q end). split.
  - intros m ind gm ind' E1 E2. rewrite E1, E2 in C. rewrite E2. destruct C as (SM & _). split; [apply same_exact; exact SM|apply same_sound; exact SM].
  - unfold g_milp_exact. rewrite exact_unfold. destruct (construct_milp SB rf t md labels false None) as [[[m ind]|]|e] eqn:E1; destruct (g_construct_milp SB rf t md labels false None) as [[[gm ind']|]|e'] eqn:E2; cbn in C; try contradiction.
    + destruct C as (_ & <-). left. reflexivity.
    + left. reflexivity.
    + destruct C as [<-|(C1 & ->)]; [left; reflexivity|]. right. split; [destruct md; try discriminate; reflexivity|]. split; [reflexivity|]. exists e'. reflexivity.
Qed.

(** ** Reward forms *)
Lemma C73_same_lemma : forall rr SB t md labels relaxed, reward_form rr -> sized SB -> (md = Max -> some_reward rr) ->
  same_result (match md with Max => negb relaxed | _ => false end) (rr_construct_milp SB rr t md labels relaxed None) (g_rr_construct_milp SB rr t md labels relaxed None).
Proof. intros rr SB t md labels relaxed RR HS NU. apply rfull_same. apply rr_con_sim; [exact HS|]. apply (rr_rows rr RR md t NU). Qed.

Lemma C73_runs_lemma : forall rr SB S iterations ini up t md labels g gc, reward_form rr -> sized SB -> (md = Max -> some_reward rr) ->
  up = rr_fixed_zeros \/ up = rr_inverse_result -> (forall mm ind obj, g_rr_construct_milp SB rr t md labels true None = Ok (Some (mm, ind)) -> ini rr md ind = Ok obj -> map fst obj = dkeys ind) ->
  g_rr_qs_run SB S iterations ini up rr t md labels = (g, gc) ->
  exists S' pc, rr_qs_run SB S' iterations ini up rr t md labels = (g, pc) /\ Forall2 (fun c c' => same_model (fst c) (fst c') /\ snd c = snd c') pc gc.
Proof.
  intros rr SB S it ini up t md labels g gc RR HS NU HU HI E. pose proof (rr_con_sim rr SB t md labels true HS (rr_rows rr RR md t NU)) as C. unfold g_rr_qs_run in E. unfold rr_qs_run. exists (replay gc).
  destruct C as [C|(C & _)]; [|destruct md; discriminate]. destruct (rr_construct_milp SB rr t md labels true None) as [[[m ind]|]|e] eqn:E1; destruct (g_rr_construct_milp SB rr t md labels true None) as [[[gm ind']|]|e'] eqn:E2; cbn in C; try contradiction.
  - destruct C as ((S1 & EI & ND & OZ & _) & _). cbn [fst snd] in *. subst ind'. destruct (certificate_size (rr_rf rr) md) as [n|e]; cbn [bind] in E |- *; [|injection E as <- <-; exists []; split; [reflexivity|constructor]].
    destruct (ini rr md ind) as [obj|e] eqn:EO; cbn [bind] in E |- *; [|injection E as <- <-; exists []; split; [reflexivity|constructor]].
    apply (loop_sim S (replay gc) (up rr md ind) (dkeys ind) (rr_rf rr) md n ND ltac:(destruct HU as [-> | ->]; [apply fixed_plain|apply inverse_plain]) it 0 m gm obj g gc S1 OZ (HI gm ind obj eq_refl EO) E).
    intros j c mm Hj. cbn. unfold replay. rewrite Hj. reflexivity.
  - injection E as <- <-. exists []. split; [reflexivity|constructor].
  - subst e'. injection E as <- <-. exists []. split; [reflexivity|constructor].
Qed.

Lemma C73_decides_lemma : forall rr t md labels, reward_form rr -> md <> OtherMode -> inner_opt (rf_sys (rr_rf rr)) labels -> (md = Max -> some_reward rr) ->
  exists v A b lp, rew_opt rr md v /\ rr_fark_constraints rr t md = Ok (A, b) /\ upper_bound_lp A (cert_dim (rr_rf rr) md) b = Ok lp /\ (exists r, exact_answer lp r) /\
  forall SB S iterations ini up g calls, sized SB -> bound_answer lp (SB lp) -> up = rr_fixed_zeros \/ up = rr_inverse_result -> iterations <> 0 ->
    (forall mm ind, g_rr_construct_milp SB rr t md labels true None = Ok (Some (mm, ind)) -> exists obj, ini rr md ind = Ok obj /\ weighting ind obj) ->
    g_rr_qs_run SB S iterations ini up rr t md labels = (g, calls) -> (forall m r, In (m, r) calls -> exact_answer m r) ->
    g_exn g = None /\
    ((Q2R t <= v)%R -> length (g_items g) = iterations /\ forall r, In r (g_items g) -> pr_status r = Success) /\
    ((v < Q2R t)%R -> g_items g = [failure Infeasible]).
Proof.
  intros rr t md labels RR Hm HL NU. destruct (C69_final rr t md labels RR Hm HL) as (p & A & b & lp & H1 & H2 & H3 & H4 & H). exists p, A, b, lp. do 4 (split; [assumption|]).
  intros SB S it ini up g gc HS HB HU HN HI E HX.
  destruct (C73_runs_lemma rr SB S it ini up t md labels g gc RR HS NU HU) as (S' & pc & EP & HF); [|exact E|].
  { intros mm ind obj EC EO. destruct (HI mm ind EC) as (obj' & EO' & (KO & _)). rewrite EO in EO'. injection EO' as <-. exact KO. }
  apply (H SB S' it ini up g pc HS HB HU HN); [|exact EP|apply (calls_exact pc gc HF HX)].
  intros mm ind EC. pose proof (C73_same_lemma rr SB t md labels true RR HS NU) as C. rewrite EC in C. destruct (g_rr_construct_milp SB rr t md labels true None) as [[[gm ind']|]|e'] eqn:E2; cbn in C; try contradiction.
  destruct C as (_ & <-). apply (HI gm ind eq_refl).
Qed.

Lemma rr_exact_unfold : forall SB S rr t md labels, rr_milp_exact SB S rr t md labels = g_exact_result S (rr_rf rr) md (rr_construct_milp SB rr t md labels false None).
Proof. reflexivity. Qed.

Lemma C73_transfer_lemma : forall rr SB S t md labels, reward_form rr -> sized SB -> (md = Max -> some_reward rr) ->
  exists S', (forall m ind gm ind', rr_construct_milp SB rr t md labels false None = Ok (Some (m, ind)) -> g_rr_construct_milp SB rr t md labels false None = Ok (Some (gm, ind')) ->
      (exact_answer m (S' m) <-> exact_answer gm (S gm)) /\ (sound_answer m (S' m) <-> sound_answer gm (S gm))) /\
    (g_rr_milp_exact SB S rr t md labels = rr_milp_exact SB S' rr t md labels \/
     md = Max /\ rr_milp_exact SB S' rr t md labels = MkGen [] (Some AssertionError) /\ exists e, g_rr_milp_exact SB S rr t md labels = MkGen [] (Some e)).
Proof.
  intros rr SB S t md labels RR HS NU. pose proof (C73_same_lemma rr SB t md labels false RR HS NU) as C.
  exists (fun _ => match g_rr_construct_milp SB rr t md labels false None with Ok (Some (gm, _)) => S gm | _ => MkRes Undefined [] 0%Q end). split.
  - intros m ind gm ind' E1 E2. rewrite E1, E2 in C. rewrite E2. destruct C as (SM & _). split; [apply same_exact; exact SM|apply same_sound; exact SM].
  - unfold g_rr_milp_exact. rewrite rr_exact_unfold. destruct (rr_construct_milp SB rr t md labels false None) as [[[m ind]|]|e] eqn:E1; destruct (g_rr_construct_milp SB rr t md labels false None) as [[[gm ind']|]|e'] eqn:E2; cbn in C; try contradiction.
    + destruct C as (_ & <-). left. reflexivity.
    + left. reflexivity.
    + destruct C as [<-|(C1 & ->)]; [left; reflexivity|]. right. split; [destruct md; try discriminate; reflexivity|]. split; [reflexivity|]. exists e'. reflexivity.
Qed.

Lemma rr_bounds_length : forall rr md ub n bs, rr_variable_bounds rr md ub n = Ok bs -> length bs = n.
Proof. intros rr md ub n bs E. unfold rr_variable_bounds in E. destruct (mapM_seq _ _ _ _ _ E) as (L & _). exact L. Qed.

(** Without rewards, mode max raises whenever PuLP would have built a model. *)
Lemma C73_zero_lemma : forall rr SB t labels relaxed m ind, reward_form rr -> ~ some_reward rr ->
  rr_construct_milp SB rr t Max labels relaxed None = Ok (Some (m, ind)) -> g_rr_construct_milp SB rr t Max labels relaxed None = Err TypeError.
Proof.
  intros rr SB t labels relaxed m ind RR NZ E. pose proof RR as (BF & EX & Hi & FREE & LR & NR). destruct (rr_fark_real rr BF Hi LR Max t ltac:(discriminate)) as (A & b & EA & LB & LA & HW & HR). unfold rr_construct_milp in E. unfold g_rr_construct_milp.
  rewrite EA in E |- *. cbn [bind] in E |- *. rewrite (size_ok (rr_rf rr) Max ltac:(discriminate)) in E |- *. cbn [bind] in E |- *. destruct (rr_choose_bounds SB rr A _ b None) as [[ub|]|e]; cbn [bind] in E |- *; try discriminate.
  apply bind_ok in E. destruct E as (u & _ & E). apply bind_ok in E. destruct E as (gs & EG & E). rewrite EG. cbn [bind]. apply bind_ok in E. destruct E as (bs & EB & _). rewrite EB. cbn [bind]. unfold g_model. rewrite g_from_raises; [reflexivity|exact HW|exact LB|apply (rr_bounds_length _ _ _ _ _ EB)|discriminate|].
  destruct (rr_fark_y_real rr BF Hi LR t) as (A' & b' & E' & LA' & _ & _ & R1 & _ & R2 & _). cbn [rr_fark_constraints] in EA. rewrite EA in E'. injection E' as <- <-. set (rf := rr_rf rr) in *.
  exists (nth (rf_N rf) A []). assert (HI : In (nth (rf_N rf) A []) A) by (apply nth_In; rewrite LA'; lia). split; [exact HI|]. apply zero_row. intros j Hj. rewrite (HW _ HI) in Hj. apply eqR_Qeq. rewrite RMicromega.Q2R_0.
  assert (HJ : rowR A (rf_C rf) (rf_N rf) (e_at j) = Q2R (nth j (nth (rf_N rf) A []) 0%Q)) by (unfold rowR; apply (sum_e j (rf_C rf) (fun j => Q2R (nth j (nth (rf_N rf) A []) 0%Q)) Hj)). rewrite <- HJ, R2.
  pose proof (sum_e j (rf_C rf) (fun r => Q2R (nth r (rr_rew rr) 0%Q)) Hj) as HE. unfold row_reward in *. rewrite HE. destruct (Qeq_dec (nth j (rr_rew rr) 0%Q) 0) as [Z|Z]; [apply Qeq_eqR in Z; rewrite Z, RMicromega.Q2R_0; lra|].
  exfalso. apply NZ. exists (nth j (rr_rew rr) 0%Q). split; [apply nth_In; rewrite LR; exact Hj|exact Z].
Qed.

(** ** End components in mode max *)
Lemma C74_lemma : forall rf SB S t, built_form rf -> exact_rows (a_P (rf_sys rf)) -> rf_init rf < a_N (rf_sys rf) - 2 ->
  (exists s, s < a_N (rf_sys rf) - 2 /\ in_some_ec (a_P (rf_sys rf)) (a_inv (rf_sys rf)) s) ->
  milp_exact SB S rf t Max None = MkGen [] (Some AssertionError) /\ g_milp_exact SB S rf t Max None = MkGen [] (Some AttributeError) /\
  forall ls, milp_exact SB S rf t Max (Some ls) = MkGen [] (Some AssertionError) /\ exists e, g_milp_exact SB S rf t Max (Some ls) = MkGen [] (Some e).
Proof.
  intros rf SB S t BF EX Hi (s & Hs & HE). assert (EF : is_ec_free rf = false).
  { destruct (is_ec_free rf) eqn:E; [|reflexivity]. exfalso. apply (proj1 (is_ec_free_iff rf (rf_init rf) (br_ro rf BF) (br_form rf BF)) E s Hs HE). }
  destruct (base_model rf BF Hi Max t None ltac:(discriminate) ltac:(discriminate)) as (A & b & bs & mm & EA & EB & EM & _).
  assert (HP : forall labels, construct_milp SB rf t Max labels false None = Err AssertionError).
  { intros labels. unfold construct_milp. rewrite EA. cbn [bind]. rewrite (size_ok rf Max ltac:(discriminate)). cbn [bind choose_bounds]. rewrite EF. reflexivity. }
  assert (HG : forall labels, g_construct_milp SB rf t Max labels false None = let* groups := groups_from_labels rf Max labels true in Err AttributeError).
  { intros labels. unfold g_construct_milp. rewrite EA. cbn [bind]. rewrite (size_ok rf Max ltac:(discriminate)). cbn [bind choose_bounds]. rewrite EF. cbn [bind negb andb]. destruct (groups_from_labels rf Max labels true) as [gs|e]; cbn [bind]; [|reflexivity]. rewrite EB. cbn [bind].
    unfold g_model. pose proof (from_sim A (cert_dim rf Max) b (repeat 0%Q (cert_dim rf Max)) SLe Minimise bs (rows_form rf BF EX Hi Max t ltac:(discriminate) A b EA) (fun j lu => vbounds_zero _ _ _ _ _ _ _ EB)) as FS. rewrite EM in FS.
    destruct (g_from_coefficients A _ b _ _ SLe Minimise (Some bs)) as [gm|e]; [|destruct FS]. reflexivity. }
  unfold g_milp_exact. rewrite !exact_unfold. split; [rewrite HP; reflexivity|]. split.
  - rewrite HG. destruct (groups_none_total rf BF Max true ltac:(discriminate)) as (gs & ->). reflexivity.
  - intros ls. rewrite exact_unfold, HP, HG. split; [reflexivity|]. destruct (groups_from_labels rf Max (Some ls) true) as [gs|e]; cbn; eauto.
Qed.

(** ** Correct answers exist *)
Lemma best_solver : exists f : solver, forall m, (exists r, exact_answer m r) -> exact_answer m (f m).
Proof.
  destruct (ClassicalChoice.choice (fun (m : milp) (r : sresult) => (exists r, exact_answer m r) -> exact_answer m r)) as (f & Hf); [|exists f; exact Hf].
  intros m. destruct (classic (exists r, exact_answer m r)) as [(r & H)|N]; [exists r; auto|exists (MkRes Optimal [] 0%Q); contradiction].
Qed.

Lemma g_loop_answer : forall (f : solver) up rf md n rounds i m obj m' r', In (m', r') (snd (g_qs_loop (fun _ => f) up rf md n rounds i m obj)) -> r' = f m'.
Proof.
  intros f up rf md n. induction rounds as [|rounds IH]; intros i m obj m' r' H; cbn [g_qs_loop] in H; [destruct H|].
  destruct (g_set_objective m obj) as [m1|e] eqn:ES; [|destruct H].
  cbv zeta in H. destruct (sr_status (f m1)); try (destruct H as [H|[]]; injection H as <- <-; reflexivity).
  destruct (mk_subsystem _ _ _ _) as [w|e]; [|destruct H as [H|[]]; injection H as <- <-; reflexivity]. cbn [snd] in H. destruct H as [H|H]; [injection H as <- <-; reflexivity|].
  destruct (let* (obj0, cs) := up (sr_vec (f m1)) in let* m2 := g_add_constraints m1 cs in Ok (obj0, m2)) as [(obj2 & m2)|e] eqn:EU; [|destruct H]. eapply IH; exact H.
Qed.

Lemma f2_right : forall A B (R : A -> B -> Prop) l l' b, Forall2 R l l' -> In b l' -> exists a, In a l /\ R a b.
Proof. intros A B R l l' b H. induction H as [|x y l l' HR H IH]; intros []; [subst; exists x; split; [left; reflexivity|exact HR]|]. destruct (IH H0) as (a & Ha & Ra). exists a. split; [right; exact Ha|exact Ra]. Qed.

Lemma g_runs_exact : exists f : solver,
  (forall rf SB iterations ini up t md labels, built_form rf -> exact_rows (a_P (rf_sys rf)) -> rf_init rf < a_N (rf_sys rf) - 2 -> sized SB -> (md = Min -> no_unit_loop rf) ->
    up = fixed_zeros \/ up = inverse_result -> (forall mm ind obj, g_construct_milp SB rf t md labels true None = Ok (Some (mm, ind)) -> ini rf md ind = Ok obj -> map fst obj = dkeys ind) ->
    forall m r, In (m, r) (snd (g_qs_run SB (fun _ => f) iterations ini up rf t md labels)) -> exact_answer m r) /\
  (forall rr SB iterations ini up t md labels, reward_form rr -> sized SB -> (md = Max -> some_reward rr) ->
    up = rr_fixed_zeros \/ up = rr_inverse_result -> (forall mm ind obj, g_rr_construct_milp SB rr t md labels true None = Ok (Some (mm, ind)) -> ini rr md ind = Ok obj -> map fst obj = dkeys ind) ->
    forall m r, In (m, r) (snd (g_rr_qs_run SB (fun _ => f) iterations ini up rr t md labels)) -> exact_answer m r).
Proof.
  destruct best_solver as (f & Hf). exists f. split.
  - intros rf SB it ini up t md labels BF EX Hi HS NU HU HI m r H. destruct (g_qs_run SB (fun _ => f) it ini up rf t md labels) as [g gc] eqn:E. destruct (C72_runs_lemma rf SB (fun _ => f) it ini up t md labels g gc BF EX Hi HS NU HU HI E) as (S' & pc & EP & HF). cbn [snd] in H.
    assert (r = f m) as ->.
    { replace gc with (snd (g_qs_run SB (fun _ => f) it ini up rf t md labels)) in H by (rewrite E; reflexivity). unfold g_qs_run in H. destruct (g_construct_milp SB rf t md labels true None) as [[(mm & ind)|]|e]; try (destruct H; fail).
      destruct (let* n := certificate_size rf md in let* obj := ini rf md ind in Ok (n, obj)) as [(n & obj)|e]; [|destruct H]. eapply g_loop_answer; exact H. }
    apply Hf. destruct (f2_right _ _ _ _ _ _ HF H) as ([m0 r0] & H0 & SM & _). cbn [fst] in SM. destruct (qs_answers SB S' it ini up rf t md labels m0 r0) as (r' & Hr'); [rewrite EP; exact H0|]. exists r'. apply (same_exact m0 m r' SM). exact Hr'.
  - intros rr SB it ini up t md labels RR HS NU HU HI m r H. destruct (g_rr_qs_run SB (fun _ => f) it ini up rr t md labels) as [g gc] eqn:E. destruct (C73_runs_lemma rr SB (fun _ => f) it ini up t md labels g gc RR HS NU HU HI E) as (S' & pc & EP & HF). cbn [snd] in H.
    assert (r = f m) as ->.
    { replace gc with (snd (g_rr_qs_run SB (fun _ => f) it ini up rr t md labels)) in H by (rewrite E; reflexivity). unfold g_rr_qs_run in H. destruct (g_rr_construct_milp SB rr t md labels true None) as [[(mm & ind)|]|e]; try (destruct H; fail).
      destruct (let* n := certificate_size (rr_rf rr) md in let* obj := ini rr md ind in Ok (n, obj)) as [(n & obj)|e]; [|destruct H]. eapply g_loop_answer; exact H. }
    apply Hf. destruct (f2_right _ _ _ _ _ _ HF H) as ([m0 r0] & H0 & SM & _). cbn [fst] in SM. assert (W : lp_wf m0).
    { replace pc with (snd (rr_qs_run SB S' it ini up rr t md labels)) in H0 by (rewrite EP; reflexivity). unfold rr_qs_run in H0. destruct (rr_construct_milp SB rr t md labels true None) as [[(mm & ind)|]|e] eqn:EC; try (destruct H0; fail).
      destruct (let* n := certificate_size (rr_rf rr) md in let* obj := ini rr md ind in Ok (n, obj)) as [(n & obj)|e]; [|destruct H0]. eapply loop_wf; [|exact H0]. eapply rr_construct_lp; exact EC. }
    destruct (lp_answer_exists m0 W) as (r' & Hr'). exists r'. apply (same_exact m0 m r' SM). exact Hr'.
Qed.

(** ** Witnesses *)
Lemma ec1_no_loop : no_unit_loop ec1rf.
Proof. intros i s a Hi E H. change (i < 4) in Hi. destruct i as [|[|[|[|i]]]]; [| | | |lia]; vm_compute in E; injection E as <- <-; vm_compute in H; discriminate. Qed.
Lemma ec2_loop : ~ no_unit_loop ec2rf.
Proof.
  intros H. assert (E : exists i s a, i < a_C (rf_sys ec2rf) - 2 /\ a_inv (rf_sys ec2rf) i = Some (s, a) /\ (mget (a_P (rf_sys ec2rf)) i s == 1)%Q).
  { match goal with |- _ => idtac end. first [exists 0; eexists; eexists; split; [vm_compute; lia|split; [vm_compute; reflexivity|vm_compute; reflexivity]]|exists 1; eexists; eexists; split; [vm_compute; lia|split; [vm_compute; reflexivity|vm_compute; reflexivity]]|exists 2; eexists; eexists; split; [vm_compute; lia|split; [vm_compute; reflexivity|vm_compute; reflexivity]]|exists 3; eexists; eexists; split; [vm_compute; lia|split; [vm_compute; reflexivity|vm_compute; reflexivity]]]. }
  destruct E as (i & s & a & Hi & E & HP). exact (H i s a Hi E HP).
Qed.

Lemma C72_refuted_lemma : exists rf t SB S pr, built_form rf /\ exact_rows (a_P (rf_sys rf)) /\ rf_init rf < a_N (rf_sys rf) - 2 /\ sized SB /\ PrMinForm rf (rf_init rf) pr /\ (Q2R t <= pr)%R /\
  (exists sub v cert, milp_exact SB S rf t Min None = MkGen [MkPRes Success (Some sub) (Some v) (Some cert)] None) /\
  g_milp_exact SB S rf t Min None = MkGen [] (Some TypeError) /\ forall Sh iterations ini up, g_qs_run SB Sh iterations ini up rf t Min None = (MkGen [] (Some TypeError), []).
Proof.
  destruct C24_example as (BF & EX & Hi & p & HP & HT). destruct (C39_final ec2rf (1#2) sized_ex BF EX Hi) as (pr & mm & ind & HP' & EC & (r & HE) & H).
  assert (p = pr) as -> by (destruct HP as (L1 & G1); destruct HP' as (L2 & G2); apply Rle_antisym; [apply G2; exact L1|apply G1; exact L2]). destruct (H (fun _ => r) HE) as (H1 & _ & H3). destruct (H3 HT) as (sub & v & cert & j & HI & _).
  exists ec2rf, (1#2), sized_ex, (fun _ => r), pr. do 3 (split; [assumption|]). split; [intros lp _; apply repeat_length|]. split; [exact HP|]. split; [exact HT|]. split.
  - exists sub, v, cert. destruct (milp_exact sized_ex (fun _ => r) ec2rf (1#2) Min None) as [it ex]. cbn in H1, HI. subst. reflexivity.
  - assert (EL : forall rel, g_construct_milp sized_ex ec2rf (1#2) Min None rel None = Err TypeError) by (intros rel; apply (C72_loop_lemma ec2rf sized_ex (1#2) None rel BF EX Hi ec2_loop)).
    split; [unfold g_milp_exact; rewrite EL; reflexivity|]. intros. unfold g_qs_run. rewrite EL. reflexivity.
Qed.

Definition rw0rr : rrform := MkRrf (rr_rf rw1rr) [0; 0; 0; 0]%Q.
Lemma rw0rr_ok : reward_form rw0rr.
Proof.
  destruct rw1rr_ok as (BF & EX & Hi & FREE & LR & NR). split; [exact BF|]. split; [exact EX|]. split; [exact Hi|]. split; [exact FREE|]. split; [vm_compute; reflexivity|]. intros q Hq. cbn in Hq. destruct Hq as [<-|[<-|[<-|[<-|[]]]]]; Lqa.lra.
Qed.
Lemma rw0_max : rew_opt rw0rr Max 0.
Proof.
  pose proof rw0rr_ok as (BF & EX & Li & FR & LR & NR). assert (E : bellq (fun a b => Qle_bool b a) rw0rr [0; 0; 0]%Q = true) by (vm_compute; reflexivity).
  assert (BM : bellman_max rw0rr (vec [0; 0; 0]%Q)) by (exact (bellq_max _ _ BF EX E)). assert (H0 : 0 < rf_N (rr_rf rw0rr)) by (change (0 < 3); lia).
  pose proof (bellman_max_value rw0rr BF EX Li FR LR _ BM 0 H0) as V. replace 0%R with (vec [0; 0; 0]%Q 0); [exact V|]. unfold vec, Q2R. simpl. lra.
Qed.
Lemma rw0_none : ~ some_reward rw0rr.
Proof. intros (q & Hq & N). cbn in Hq. destruct Hq as [<-|[<-|[<-|[<-|[]]]]]; apply N; reflexivity. Qed.

Lemma C73_refuted_lemma : exists rr t SB S, reward_form rr /\ sized SB /\ rew_opt rr Max (Q2R t) /\
  (exists r, g_exn (fst (rr_qs_run SB S 1 rr_all_ones_init rr_fixed_zeros rr t Max None)) = None /\ g_items (fst (rr_qs_run SB S 1 rr_all_ones_init rr_fixed_zeros rr t Max None)) = [r] /\ pr_status r = Success) /\
  forall Sh iterations ini up, g_rr_qs_run SB Sh iterations ini up rr t Max None = (MkGen [] (Some TypeError), []).
Proof.
  destruct C69_exists_lemma as (f & Hf). exists rw0rr, 0%Q, timeout_S, (fun _ => f). split; [exact rw0rr_ok|]. split; [exact timeout_sized|]. split; [rewrite RMicromega.Q2R_0; exact rw0_max|]. split.
  - destruct (C69_final rw0rr 0%Q Max None rw0rr_ok ltac:(discriminate) I) as (v & A & b & lp & OV & _ & _ & _ & H). assert (v = 0%R) as -> by (apply (RewSub.IsRewMax_u _ _ _ _ _ _ OV); exact rw0_max).
    pose proof (Hf timeout_S 1 rr_all_ones_init rr_fixed_zeros rw0rr 0%Q Max None) as HX. destruct (rr_qs_run timeout_S (fun _ => f) 1 rr_all_ones_init rr_fixed_zeros rw0rr 0 Max None) as [g calls] eqn:ER. cbn [fst snd] in *.
    assert (HI : forall mm ind, rr_construct_milp timeout_S rw0rr 0 Max None true None = Ok (Some (mm, ind)) -> exists obj, rr_all_ones_init rw0rr Max ind = Ok obj /\ weighting ind obj) by (intros mm0 ind0 E0; exact (ones_ok (rr_rf rw0rr) Max _ mm0 ind0 E0)).
    destruct (H timeout_S (fun _ => f) 1 rr_all_ones_init rr_fixed_zeros g calls timeout_sized (or_intror (or_introl eq_refl)) (or_introl eq_refl) (Nat.neq_succ_0 0) HI ER HX) as (H1 & H2 & _).
    destruct (H2 ltac:(rewrite RMicromega.Q2R_0; lra)) as (H3 & H4). clear ER HI HX H Hf. destruct (g_items g) as [|r [|]] eqn:EI; [discriminate H3| |discriminate H3]. exists r. split; [exact H1|]. split; [reflexivity|]. apply H4. left; reflexivity.
  - assert (EC : exists m ind, rr_construct_milp timeout_S rw0rr 0%Q Max None true None = Ok (Some (m, ind))) by (eexists; eexists; vm_compute; reflexivity). destruct EC as (m & ind & EC). intros. unfold g_rr_qs_run. rewrite (C73_zero_lemma _ _ _ _ _ _ _ rw0rr_ok rw0_none EC). reflexivity.
Qed.

Lemma ec1_has_ec : exists s, s < a_N (rf_sys ec1rf) - 2 /\ in_some_ec (a_P (rf_sys ec1rf)) (a_inv (rf_sys ec1rf)) s.
Proof.
  apply NNPP. intros H. assert (E : is_ec_free ec1rf = true); [|vm_compute in E; discriminate]. apply (is_ec_free_iff ec1rf (rf_init ec1rf) (br_ro ec1rf ec1rf_built) (br_form ec1rf ec1rf_built)). intros s Hs HE. apply H. exists s. split; [exact Hs|exact HE].
Qed.
Lemma C74_refuted_lemma : exists rf pr t, built_form rf /\ exact_rows (a_P (rf_sys rf)) /\ rf_init rf < a_N (rf_sys rf) - 2 /\ PrMaxForm rf (rf_init rf) pr /\ (Q2R t <= pr)%R /\
  forall SB S, g_milp_exact SB S rf t Max None = MkGen [] (Some AttributeError).
Proof.
  assert (Hi : rf_init ec1rf < a_N (rf_sys ec1rf) - 2) by (vm_compute; lia). exists ec1rf, (Vmx _ ec1rf_built exact_ec1 (rf_init ec1rf)), (1#2)%Q.
  split; [exact ec1rf_built|]. split; [exact exact_ec1|]. split; [exact Hi|]. split; [apply PrMax_Vmx|]. split; [|intros SB S; exact (proj1 (proj2 (C74_lemma ec1rf SB S (1#2)%Q ec1rf_built exact_ec1 Hi ec1_has_ec)))].
  apply (C21_partial_lemma ec1rf ec1rf_built exact_ec1 (1#2)%Q [1; 0; 0; 0]%Q); [vm_compute; reflexivity| |apply PrMax_Vmx].
  intros i Li. change (i < 4) in Li. destruct i as [|[|[|[|i]]]]; [| | | |lia]; vm_compute; discriminate.
Qed.
