(** The theorems about deciding, initial weights and solve in their final
    shape, and examples. *)
From Coq Require Import String List Arith ZArith QArith Qreals Reals Bool Lia Lra Classical.
From Coq Require Lqa.
From Verif Require Import Base BaseFacts Num Matrix MatFacts CertProofs InvDict SccSpec SpecMdp SpecEc SpecSystem SpecForm SpecBuilt SpecProb SpecSub SpecLp SpecMilp SpecLabel SpecDecide SpecReward SpecRewSub SumFacts
  Amdp ReachForm RfFacts BuiltFacts RfBridge Milp LpExists Subsystem RfLps RfLpProofs Formulations GroupProofs MilpForm MilpExact MilpFinal LabelMin Problems QsProofs QsFixed QsWeights QsTotal GenBuild QsDecide
  RewardForm RewardProofs RewProblems RewForms RewMilp RewQs RewVec RewFinal RewDecide GenMin BinExists MilpProofs Examples ExProofs5 ExReward.
Import ListNotations.
Local Open Scope nat_scope.

Lemma C68_final : forall rf t md labels, built_form rf -> exact_rows (a_P (rf_sys rf)) -> rf_init rf < a_N (rf_sys rf) - 2 -> md <> OtherMode -> inner_opt (rf_sys rf) labels ->
  exists p A b lp, match md with Max => PrMaxForm | _ => PrMinForm end rf (rf_init rf) p /\ fark_constraints rf t md = Ok (A, b) /\ upper_bound_lp A (cert_dim rf md) b = Ok lp /\ (exists r, exact_answer lp r) /\
  forall SB S iterations ini up g calls, sized SB -> bound_answer lp (SB lp) -> up = fixed_zeros \/ up = inverse_result -> iterations <> 0 ->
    (forall mm ind, construct_milp SB rf t md labels true None = Ok (Some (mm, ind)) -> exists obj, ini rf md ind = Ok obj /\ weighting ind obj) ->
    qs_run SB S iterations ini up rf t md labels = (g, calls) -> (forall m r, In (m, r) calls -> exact_answer m r) ->
    g_exn g = None /\
    ((Q2R t <= p)%R -> length (g_items g) = iterations /\ forall r, In r (g_items g) -> pr_status r = Success) /\
    ((p < Q2R t)%R -> g_items g = [failure Infeasible]).
Proof.
  intros rf t md labels BF EX Hi Hm HL. destruct (decide rf BF EX Hi t md labels Hm HL) as (A & b & lp & EA & EL & XA & H). exists (opt_value rf BF EX md), A, b, lp.
  split. { destruct md; [exact (min_value rf BF EX Hi)|exact (max_value rf BF EX Hi)|congruence]. }
  do 3 (split; [assumption|]). intros SB S it ini up g calls HS HB HU HI HW E XC. exact (H SB S it ini up g calls HS HB HU HW HI E XC).
Qed.

Lemma rew_opt_exists : forall rr md, reward_form rr -> md <> OtherMode -> exists v, rew_opt rr md v.
Proof.
  intros rr md H Hm. destruct md; [| |congruence].
  - destruct (C62_states_final rr 0 H) as (v & A & b & lp & V & _). eauto.
  - destruct (C63_states_final rr 0 H) as (v & A & b & lp & V & _). eauto.
Qed.

Lemma C69_final : forall rr t md labels, reward_form rr -> md <> OtherMode -> inner_opt (rf_sys (rr_rf rr)) labels ->
  exists v A b lp, rew_opt rr md v /\ rr_fark_constraints rr t md = Ok (A, b) /\ upper_bound_lp A (cert_dim (rr_rf rr) md) b = Ok lp /\ (exists r, exact_answer lp r) /\
  forall SB S iterations ini up g calls, sized SB -> bound_answer lp (SB lp) -> up = rr_fixed_zeros \/ up = rr_inverse_result -> iterations <> 0 ->
    (forall mm ind, rr_construct_milp SB rr t md labels true None = Ok (Some (mm, ind)) -> exists obj, ini rr md ind = Ok obj /\ weighting ind obj) ->
    rr_qs_run SB S iterations ini up rr t md labels = (g, calls) -> (forall m r, In (m, r) calls -> exact_answer m r) ->
    g_exn g = None /\
    ((Q2R t <= v)%R -> length (g_items g) = iterations /\ forall r, In r (g_items g) -> pr_status r = Success) /\
    ((v < Q2R t)%R -> g_items g = [failure Infeasible]).
Proof.
  intros rr t md labels RF Hm HL. destruct (rew_opt_exists rr md RF Hm) as (v & OV). pose proof RF as (BF & EX & Hi & FREE & LR & NR).
  destruct (rr_decide rr BF EX Hi FREE LR NR t md labels v Hm HL OV) as (A & b & lp & EA & EL & XA & H). exists v, A, b, lp. do 4 (split; [assumption|]).
  intros SB S it ini up g calls HS HB HU HI HW E XC. exact (H SB S it ini up g calls HS HB HU HW HI E XC).
Qed.

Lemma C69_shrink_final : forall rr SB S iterations ini t md labels g calls, reward_form rr -> sized SB -> rr_qs_run SB S iterations ini rr_fixed_zeros rr t md labels = (g, calls) ->
  (forall m r, In (m, r) calls -> sound_answer m r) ->
  (forall j mj rj mj' rj', nth_error calls j = Some (mj, rj) -> nth_error calls (Datatypes.S j) = Some (mj', rj') ->
    sr_status rj = Optimal /\ feasible mj' (vec (sr_vec rj)) /\
    (sr_status rj' = Optimal -> forall s, cert_dim (rr_rf rr) md <= s -> (0 < vec (sr_vec rj') s)%R -> (0 < vec (sr_vec rj) s)%R)) /\
  (forall j r r' v v', nth_error (g_items g) j = Some r -> nth_error (g_items g) (Datatypes.S j) = Some r' -> pr_value r = Some v -> pr_value r' = Some v' -> (v' <= v)%Q).
Proof. intros rr SB S it ini t md labels g calls (BF & EX & Hi & FREE & LR & NR). exact (rr_shrink rr BF Hi LR SB S it ini t md labels g calls). Qed.

(** ** Weights *)
Lemma sum_total : forall e (ind : dict nat (list nat)), (forall s G v, In (s, G) ind -> In v G -> v < length e) -> exists obj, inverse_sum e ind = Ok obj.
Proof.
  intros e ind H. unfold inverse_sum. apply mapM_total. intros [s G] HI. cbn [fst snd]. destruct (mapM_total _ _ (at_ e) G) as (vs & Ev).
  { intros v Hv. unfold at_. destruct (nth_error e v) as [q|] eqn:E; [exists q; reflexivity|]. apply nth_error_None in E. pose proof (H s G v HI Hv). lia. }
  rewrite Ev. cbn [bind]. eauto.
Qed.
Lemma average_total : forall e (ind : dict nat (list nat)), (forall s G, In (s, G) ind -> G <> []) -> (forall s G v, In (s, G) ind -> In v G -> v < length e) -> exists obj, inverse_average e ind = Ok obj.
Proof.
  intros e ind N H. unfold inverse_average. apply mapM_total. intros [s G] HI. cbn [fst snd]. destruct (mapM_total _ _ (at_ e) G) as (vs & Ev).
  { intros v Hv. unfold at_. destruct (nth_error e v) as [q|] eqn:E; [exists q; reflexivity|]. apply nth_error_None in E. pose proof (H s G v HI Hv). lia. }
  rewrite Ev. cbn [bind]. destruct vs as [|v vs]; [|eauto]. apply mapM_ats in Ev. specialize (N s G HI). destruct G; [congruence|discriminate].
Qed.

Lemma in_nth : forall A B (l : list (nat * A)) (r : list (nat * B)) (P : B -> Prop), map fst r = map fst l -> (forall i s G, nth_error l i = Some (s, G) -> exists w, nth_error r i = Some (s, w) /\ P w) -> forall s w, In (s, w) r -> P w.
Proof.
  intros A B l r P K H s w HI. apply In_nth_error in HI. destruct HI as (i & Ei). assert (LT : i < length l). { rewrite <- (map_length fst l), <- K, map_length. apply nth_error_Some. congruence. }
  destruct (nth_error l i) as [[s' G]|] eqn:El; [|apply nth_error_None in El; lia]. destruct (H i s' G El) as (w' & E' & Hw). rewrite Ei in E'. injection E' as _ <-. exact Hw.
Qed.

Lemma sum_weighting : forall e (ind : dict nat (list nat)) obj, inverse_sum e ind = Ok obj -> positive_weighting ind obj.
Proof.
  intros e ind obj E. destruct (inverse_sum_spec e ind obj E) as (K & H). split; [exact K|]. apply (in_nth _ _ ind obj); [exact K|]. intros i s G Hi. destruct (H i s G Hi) as (w & E1 & W & _). eauto.
Qed.

Lemma average_weighting : forall pr (ind : dict nat (list nat)) obj, inverse_average pr ind = Ok obj -> positive_weighting ind obj.
Proof.
  intros pr ind obj E. unfold inverse_average in E. destruct (mapM_pointwise _ _ _ _ _ E) as (L & HP).
  assert (K : forall i s G, nth_error ind i = Some (s, G) -> exists w, nth_error obj i = Some (s, w) /\ (0 < w <= 1000000000#1)%Q).
  { intros i s G Hi. destruct (HP _ _ Hi) as (b & Eb & Ef). apply bind_ok in Ef. destruct Ef as (vs & Ev & Ef). cbn [fst snd] in *. destruct vs as [|v0 vs]; [discriminate|]. injection Ef as <-. rewrite Eb.
    eexists. split; [reflexivity|]. rewrite Qmult_1_l. set (a := (_ / _)%Q). split; [|apply qmin_l]. apply (qmin_case _ _ (fun q => (0 < q)%Q)); [unfold e9; Lqa.lra|]. destruct (Qlt_bool 0 a) eqn:E0; [|unfold e9; Lqa.lra].
    unfold Qdiv. rewrite Qmult_1_l. apply Qinv_lt_0_compat. apply Qlt_bool_iff. exact E0. }
  assert (KF : map fst obj = dkeys ind). { apply map_fst_of; [exact L|]. intros i (s & G) Hi. destruct (K i s G Hi) as (w & E1 & _). cbn [fst]. eauto. }
  split; [exact KF|]. apply (in_nth _ _ ind obj); [exact KF|]. exact K.
Qed.

Lemma ones_weighting : forall ind : dict nat (list nat), positive_weighting ind (all_ones ind).
Proof.
  intros ind. split; [unfold all_ones, dkeys; rewrite map_map; reflexivity|]. intros s w H. unfold all_ones in H. apply in_map_iff in H. destruct H as ((s' & G) & E & _). injection E as _ <-. Lqa.lra.
Qed.

(** Groups of the relaxed model. *)
Lemma groups_range : forall rf md labels gs, built_form rf -> rf_init rf < a_N (rf_sys rf) - 2 -> md <> OtherMode -> inner_opt (rf_sys rf) labels -> grouping rf md labels false gs ->
  forall G v, In G gs -> In v G -> v < cert_dim rf md.
Proof.
  intros rf md [ls|] gs BF Hi Hm HL HG G v H1 H2.
  - assert (HG' : grouping rf md (Some ls) (match md with Max => true | _ => false end) gs) by exact HG. destruct (label_groups rf BF Hi md ls gs Hm HL HG') as (ks & _ & _ & _ & F). exact (label_members rf md ks gs F G v H1 H2).
  - assert (E : gs = map (fun i => [i]) (seq 0 (cert_dim rf md))) by (destruct md; [exact HG|exact HG|congruence]). rewrite E in H1. apply in_map_iff in H1. destruct H1 as (i & <- & Hs). destruct H2 as [<-|[]]. apply in_seq in Hs. lia.
Qed.
Lemma groups_nonempty : forall rf md labels gs, built_form rf -> rf_init rf < a_N (rf_sys rf) - 2 -> md <> OtherMode -> inner_opt (rf_sys rf) labels -> used_labels (rf_sys rf) labels -> grouping rf md labels false gs ->
  forall G, In G gs -> G <> [].
Proof.
  intros rf md [ls|] gs BF Hi Hm HL HU HG G H1.
  - destruct HG as (ks & ND & HK & F). apply In_nth_error in H1. destruct H1 as (i & Ei). destruct (F2_right _ _ _ _ _ F i G Ei) as (l & El & _ & HI). apply nth_error_In in El. apply HK in El. destruct El as (El & _).
    destruct (HU l El) as (s & Hs). pose proof (HL l s El Hs) as Hlt. intros ->. destruct md; [| |congruence].
    + apply (HI s). exact Hs.
    + destruct (form_states_act rf (rf_init rf) (br_form rf BF) s) as (a & d & r & p & E2 & E1). { unfold a_N in Hlt. lia. }
      pose proof (GroupProofs.row_lt rf BF r s a d p Hlt E1 E2) as HiC. apply (HI r). cbn [labelled_var]. split; [lia|]. exists s, a. auto.
  - assert (E : gs = map (fun i => [i]) (seq 0 (cert_dim rf md))) by (destruct md; [exact HG|exact HG|congruence]). rewrite E in H1. apply in_map_iff in H1. destruct H1 as (i & <- & Hs). discriminate.
Qed.

Lemma ind_groups : forall k gs (ind : dict nat (list nat)) s G, ind = combine (seq k (length gs)) gs -> In (s, G) ind -> In G gs.
Proof. intros k gs ind s G -> H. eapply in_combine_r; eauto. Qed.


Lemma C70_final : forall rf t md labels, built_form rf -> exact_rows (a_P (rf_sys rf)) -> rf_init rf < a_N (rf_sys rf) - 2 -> md <> OtherMode -> inner_opt (rf_sys rf) labels ->
  exists zlp ylp, max_z_lp rf = Ok zlp /\ max_y_lp rf = Ok ylp /\ (exists r, exact_answer zlp r) /\ (exists r, exact_answer ylp r) /\
  forall SB S mm ind, sized SB -> exact_answer zlp (S zlp) -> exact_answer ylp (S ylp) -> construct_milp SB rf t md labels true None = Ok (Some (mm, ind)) ->
    (forall ini, In ini [all_ones_init; inverse_frequency S; inverse_combined S] -> exists obj, ini rf md ind = Ok obj /\ positive_weighting ind obj) /\
    (used_labels (rf_sys rf) labels -> exists obj, inverse_reachability S rf md ind = Ok obj /\ positive_weighting ind obj).
Proof.
  intros rf t md labels BF EX Hi Hm HL. destruct (C27_lemma rf BF EX Hi) as (zlp & EZ & XZ & HZ). destruct (C55_z_lemma rf BF EX Hi) as (zlp' & EZ' & HZ2). rewrite EZ in EZ'. injection EZ' as <-.
  destruct (C55_y_lemma rf BF EX Hi) as (ylp & EY & XY & HY). exists zlp, ylp. do 4 (split; [assumption|]).
  intros SB S mm ind HS AZ AY EC. destruct (construct_relaxed rf BF Hi SB t md labels mm ind HS EC) as (ub & gs & _ & GR & CS). destruct CS as (EI & _).
  pose proof (groups_range rf md labels gs BF Hi Hm HL GR) as RG.
  destruct (HZ S AZ) as (z & Ez & _ & Lz & _). destruct (HZ2 S AZ) as (w & Ew & Lw & _). destruct (HY S AY) as (y & Ey & _ & Ly & _). destruct (C29_sum_lemma rf BF Hi S y Ey Ly) as (v & Ev & Lv & _).
  assert (PZ : exists pr, match md with Min => max_z_state S rf | _ => max_z_state_action S rf end = Ok pr /\ length pr = cert_dim rf md) by (destruct md; [eexists; split; [exact Ez|exact Lz]|eexists; split; [exact Ew|exact Lw]|congruence]).
  assert (PY : exists e, match md with Min => max_y_state S rf | _ => max_y_state_action S rf end = Ok e /\ length e = cert_dim rf md) by (destruct md; [eexists; split; [exact Ev|exact Lv]|eexists; split; [exact Ey|exact Ly]|congruence]).
  destruct PZ as (pr & Ep & Lp). destruct PY as (e & Ee & Le).
  assert (RI : forall k, k = cert_dim rf md -> forall s G v0, In (s, G) ind -> In v0 G -> v0 < k) by (intros k -> s G v0 H1 H2; eapply RG; [eapply ind_groups; eauto|exact H2]).
  split.
  - intros ini [<-|[<-|[<-|[]]]].
    + exists (all_ones ind). split; [reflexivity|apply ones_weighting].
    + destruct (sum_total e ind (RI _ Le)) as (obj & Eo). exists obj. unfold inverse_frequency. rewrite Ee. cbn [bind]. split; [exact Eo|eapply sum_weighting; eauto].
    + destruct (sum_total (map (fun p => (fst p * snd p)%Q) (combine e pr)) ind) as (obj & Eo). { apply RI. rewrite map_length, combine_length, Le, Lp. apply Nat.min_id. }
      exists obj. unfold inverse_combined. rewrite Ee. cbn [bind]. rewrite Ep. cbn [bind]. rewrite Le, Lp, Nat.eqb_refl. split; [exact Eo|eapply sum_weighting; eauto].
  - intros HU. pose proof (groups_nonempty rf md labels gs BF Hi Hm HL HU GR) as NE. destruct (average_total pr ind) as (obj & Eo); [intros s G H; eapply NE, ind_groups; eauto|apply RI, Lp|].
    exists obj. unfold inverse_reachability. rewrite Ep. cbn [bind]. split; [exact Eo|eapply average_weighting; eauto].
Qed.

Lemma C70_reward_final : forall rr t md labels, reward_form rr -> md <> OtherMode -> inner_opt (rf_sys (rr_rf rr)) labels ->
  exists zlp ylp, rr_max_z_lp rr = Ok zlp /\ rr_max_y_lp rr = Ok ylp /\ (exists r, exact_answer zlp r) /\ (exists r, exact_answer ylp r) /\
  forall SB S mm ind, sized SB -> exact_answer zlp (S zlp) -> exact_answer ylp (S ylp) -> rr_construct_milp SB rr t md labels true None = Ok (Some (mm, ind)) ->
    (forall ini, In ini [rr_all_ones_init; rr_inverse_frequency S; rr_inverse_combined S] -> exists obj, ini rr md ind = Ok obj /\ positive_weighting ind obj) /\
    (used_labels (rf_sys (rr_rf rr)) labels -> exists obj, rr_inverse_reachability S rr md ind = Ok obj /\ positive_weighting ind obj).
Proof.
  intros rr t md labels RF Hm HL. pose proof RF as (BF & EX & Hi & FREE & LR & NR). destruct (C52_min_lemma rr BF EX Hi FREE LR NR) as (zlp & EZ & XZ & HZ). destruct (C67_z_final rr RF) as (zlp' & EZ' & _ & HZ2). rewrite EZ in EZ'. injection EZ' as <-.
  destruct (C67_y_final rr RF) as (ylp & EY & XY & HY). exists zlp, ylp. do 4 (split; [assumption|]).
  intros SB S mm ind HS AZ AY EC. destruct (rr_construct_relaxed rr BF Hi LR SB t md labels mm ind HS EC) as (ub & gs & _ & GR & CS). destruct CS as (EI & _).
  pose proof (groups_range (rr_rf rr) md labels gs BF Hi Hm HL GR) as RG.
  destruct (HZ S AZ) as (z & Ez & _ & Lz & _). destruct (HZ2 S AZ) as (w & Ew & Lw & _). destruct (HY S AY) as (y & Ey & _ & Ly & _). destruct (C67_state_final rr S y RF Ey Ly) as (v & Ev & Lv & _).
  assert (PZ : exists pr, match md with Min => rr_max_z_state S rr | _ => rr_max_z_state_action S rr end = Ok pr /\ length pr = cert_dim (rr_rf rr) md) by (destruct md; [eexists; split; [exact Ez|exact Lz]|eexists; split; [exact Ew|exact Lw]|congruence]).
  assert (PY : exists e, match md with Min => rr_max_y_state S rr | _ => rr_max_y_state_action S rr end = Ok e /\ length e = cert_dim (rr_rf rr) md) by (destruct md; [eexists; split; [exact Ev|exact Lv]|eexists; split; [exact Ey|exact Ly]|congruence]).
  destruct PZ as (pr & Ep & Lp). destruct PY as (e & Ee & Le).
  assert (RI : forall k, k = cert_dim (rr_rf rr) md -> forall s G v0, In (s, G) ind -> In v0 G -> v0 < k) by (intros k -> s G v0 H1 H2; eapply RG; [eapply ind_groups; eauto|exact H2]).
  split.
  - intros ini [<-|[<-|[<-|[]]]].
    + exists (all_ones ind). split; [reflexivity|apply ones_weighting].
    + destruct (sum_total e ind (RI _ Le)) as (obj & Eo). exists obj. unfold rr_inverse_frequency. rewrite Ee. cbn [bind]. split; [exact Eo|eapply sum_weighting; eauto].
    + destruct (sum_total (map (fun p => (fst p * snd p)%Q) (combine e pr)) ind) as (obj & Eo). { apply RI. rewrite map_length, combine_length, Le, Lp. apply Nat.min_id. }
      exists obj. unfold rr_inverse_combined. rewrite Ee. cbn [bind]. rewrite Ep. cbn [bind]. rewrite Le, Lp, Nat.eqb_refl. split; [exact Eo|eapply sum_weighting; eauto].
  - intros HU. pose proof (groups_nonempty (rr_rf rr) md labels gs BF Hi Hm HL HU GR) as NE. destruct (average_total pr ind) as (obj & Eo); [intros s G H; eapply NE, ind_groups; eauto|apply RI, Lp|].
    exists obj. unfold rr_inverse_reachability. rewrite Ep. cbn [bind]. split; [exact Eo|eapply average_weighting; eauto].
Qed.

(** ** solve on reward forms *)
Lemma C71_solve_lemma : forall it rr t md labels r, rr_solve it rr t md labels = Ok r <->
  (0 <= t)%Q /\ md <> OtherMode /\ g_exn (it rr t md labels) = None /\ exists l, g_items (it rr t md labels) = l ++ [r].
Proof.
  intros it rr t md labels r. unfold rr_solve, rr_solveiter, assert_. split.
  - destruct (Qle_bool 0 t) eqn:E0; cbn [bind]; [|discriminate]. apply Qle_bool_iff in E0.
    destruct md; cbn [bind]; try discriminate; (destruct (g_exn _); [discriminate|]; destruct (rev (g_items _)) as [|x l] eqn:ER; [discriminate|]; intros H; injection H as <-;
      split; [auto|]; split; [discriminate|]; split; [auto|]; exists (rev l); rewrite <- (rev_involutive (g_items _)), ER; reflexivity).
  - intros (H0 & Hm & HE & (l & HL)). apply Qle_bool_iff in H0. rewrite H0. cbn [bind]. destruct md; [| |congruence]; cbn [bind]; rewrite HE, HL, rev_unit; reflexivity.
Qed.
Lemma C71_reject_lemma : forall it rr t md labels, (t < 0)%Q \/ md = OtherMode -> rr_solve it rr t md labels = Err AssertionError.
Proof.
  intros it rr t md labels H. unfold rr_solve, rr_solveiter, assert_. destruct (Qle_bool 0 t) eqn:E0; cbn [bind]; [|reflexivity]. apply Qle_bool_iff in E0. destruct H as [H| ->]; [Lqa.lra|reflexivity].
Qed.

(** ** A label without states *)
Local Open Scope string_scope.
Lemma C70_refuted_lemma : exists rf t labels SB S mm (ind : dict nat (list nat)) lp, built_form rf /\ exact_rows (a_P (rf_sys rf)) /\ rf_init rf < a_N (rf_sys rf) - 2 /\ inner_opt (rf_sys rf) labels /\ sized SB /\
  max_z_lp rf = Ok lp /\ exact_answer lp (S lp) /\ construct_milp SB rf t Min labels true None = Ok (Some (mm, ind)) /\ inverse_reachability S rf Min ind = Err ZeroDivisionError.
Proof.
  assert (Hi : rf_init ch3rf < a_N (rf_sys ch3rf) - 2) by (vm_compute; lia).
  destruct (C27_lemma ch3rf ch3rf_built exact_ch3 Hi) as (lp & E & (r & HR) & H). destruct (H (fun _ => r) HR) as (v & Ev & _).
  assert (EC : exists mm, construct_milp sized_ex ch3rf (1#2) Min (Some ["none"]) true None = Ok (Some (mm, [(3, [])]))) by (eexists; vm_compute; reflexivity). destruct EC as (mm & EC).
  exists ch3rf, (1#2)%Q, (Some ["none"]), sized_ex, (fun _ => r), mm, [(3, [])], lp. split; [exact ch3rf_built|]. split; [exact exact_ch3|]. split; [exact Hi|].
  split. { intros l s [<-|[]] Hs. vm_compute in Hs. destruct Hs. } split; [intros l _; apply repeat_length|]. split; [exact E|]. split; [exact HR|]. split; [exact EC|].
  unfold inverse_reachability. change (max_z_state (fun _ => r) ch3rf) with (pr_min (fun _ => r) ch3rf). rewrite Ev. reflexivity.
Qed.

(** ** Examples *)
(** A solver that answers every LP correctly. *)
Lemma exact_solver : exists f : solver, forall m, lp_wf m -> exact_answer m (f m).
Proof.
  destruct (ClassicalChoice.choice (fun (m : milp) (r : sresult) => lp_wf m -> exact_answer m r)) as (f & Hf).
  { intros m. destruct (Classical_Prop.classic (lp_wf m)) as [W|N]; [destruct (lp_answer_exists m W) as (r & Hr); exists r; auto|exists (MkRes Optimal [] 0%Q); contradiction]. }
  exists f. exact Hf.
Qed.

Lemma rr_construct_lp : forall S rr t md labels known mm ind, rr_construct_milp S rr t md labels true known = Ok (Some (mm, ind)) -> lp_wf mm.
Proof.
  intros S rr t md labels known mm ind H. unfold rr_construct_milp in H. apply bind_ok in H. destruct H as ((A & b) & EA & H). apply bind_ok in H. destruct H as (n & En & H).
  apply bind_ok in H. destruct H as (cb & Ec & H). destruct cb as [ub|]; [|discriminate].
  apply bind_ok in H. destruct H as (u0 & Eas & H). apply bind_ok in H. destruct H as (gs & Eg & H). apply bind_ok in H. destruct H as (bs & Eb & H).
  apply bind_ok in H. destruct H as (m0 & E0 & H). apply bind_ok in H. destruct H as ((m1 & ind1) & E1 & H). apply bind_ok in H. destruct H as (m2 & E2 & H). injection H as <- <-.
  destruct (from_coefficients_exprs _ _ _ _ _ _ _ _ _ E0) as (X & R). assert (RV : real_vars m0). { apply R. intros j d Hd. apply nth_error_In in Hd. apply repeat_spec in Hd. auto. }
  assert (W0 : bin_wf m0). { split; [exact X|]. intros v Hv Hb. rewrite (RV v Hv) in Hb. discriminate. }
  destruct (indicators_bin true ub gs m0 [] m1 ind1 W0 E1) as (W1 & R1). destruct (set_objective_exprs _ _ _ (proj1 W1) E2) as (X2 & V2).
  apply lp_wf_iff. split; [exact X2|]. unfold real_vars. rewrite V2. apply R1; auto.
Qed.

Lemma runs_exact : exists f : solver,
  (forall SB iterations ini up rf t md labels m r, In (m, r) (snd (qs_run SB (fun _ => f) iterations ini up rf t md labels)) -> exact_answer m r) /\
  (forall SB iterations ini up rr t md labels m r, In (m, r) (snd (rr_qs_run SB (fun _ => f) iterations ini up rr t md labels)) -> exact_answer m r).
Proof.
  destruct exact_solver as (f & Hf). exists f. split.
  - intros SB it ini up rf t md labels m r Hin. assert (r = f m) as -> by (eapply run_answer; exact Hin). apply Hf. eapply run_wf; exact Hin.
  - intros SB it ini up rr t md labels m r H. unfold rr_qs_run in H. destruct (rr_construct_milp SB rr t md labels true None) as [[(mm & ind)|]|e] eqn:EC; [| |]; try (destruct H; fail).
    destruct (let* n := certificate_size (rr_rf rr) md in let* obj := ini rr md ind in Ok (n, obj)) as [(n & obj)|e]; [|destruct H].
    assert (r = f m) as -> by (eapply loop_answer; exact H). apply Hf. eapply loop_wf; [|exact H]. eapply rr_construct_lp; exact EC.
Qed.
Lemma C68_exists_lemma : exists f : solver, forall SB iterations ini up rf t md labels m r, In (m, r) (snd (qs_run SB (fun _ => f) iterations ini up rf t md labels)) -> exact_answer m r.
Proof. destruct runs_exact as (f & H & _). eauto. Qed.
Lemma C69_exists_lemma : exists f : solver, forall SB iterations ini up rr t md labels m r, In (m, r) (snd (rr_qs_run SB (fun _ => f) iterations ini up rr t md labels)) -> exact_answer m r.
Proof. destruct runs_exact as (f & _ & H). eauto. Qed.

(** A solver of bounds that never determines anything. *)
Definition timeout_S : solver := fun _ => MkRes NotSolved [] 0%Q.
Lemma timeout_sized : sized timeout_S.
Proof. intros lp H. discriminate H. Qed.
Lemma ones_ok : forall rf md (mmo : res (option (milp * dict nat (list nat)))) mm ind, mmo = Ok (Some (mm, ind)) -> exists obj, all_ones_init rf md ind = Ok obj /\ weighting ind obj.
Proof. intros rf md mmo mm ind _. exists (all_ones ind). split; [reflexivity|]. destruct (ones_weighting ind) as (K & W). split; [exact K|]. intros s w H. specialize (W s w H). Lqa.lra. Qed.
