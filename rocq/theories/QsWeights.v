(** Weights of the heuristic, solve, and the heuristic's models. *)
From Coq Require Import String List Arith ZArith QArith Qreals Reals Bool Lia Lra.
From Coq Require Lqa.
From Verif Require Import Base BaseFacts Num Matrix MatFacts FarkProofs CertProofs InvDict SccSpec SpecMdp SpecEc SpecSystem SpecForm SpecBuilt SpecProb SpecSub SpecLp SpecMilp SumFacts
  Amdp ReachForm RfFacts BuiltFacts Milp MilpProofs LpExists RfLps Subsystem Formulations MilpBuild GroupProofs MilpForm MilpExact MilpMin BinExists Problems QsProofs QsFixed Examples.
Import ListNotations.
Local Open Scope nat_scope.

(** ** Minimum and maximum *)
Lemma qmin_l : forall a b, (qmin a b <= a)%Q.
Proof. intros a b. unfold qmin. destruct (Qle_bool a b) eqn:E; [Lqa.lra|]. rewrite <- not_true_iff_false, Qle_bool_iff in E. Lqa.lra. Qed.
Lemma qmin_r : forall a b, (qmin a b <= b)%Q.
Proof. intros a b. unfold qmin. destruct (Qle_bool a b) eqn:E; [apply Qle_bool_iff in E; exact E|Lqa.lra]. Qed.
Lemma qmin_case : forall a b (P : Q -> Prop), P a -> P b -> P (qmin a b).
Proof. intros a b P A B. unfold qmin. destruct (Qle_bool a b); auto. Qed.
Lemma qmax_l : forall a b, (a <= qmax a b)%Q.
Proof. intros a b. unfold qmax. destruct (Qle_bool a b) eqn:E; [apply Qle_bool_iff in E; exact E|Lqa.lra]. Qed.
Lemma fold_qmax : forall l a, (a <= fold_left qmax l a)%Q.
Proof. induction l as [|b l IH]; intros a; cbn [fold_left]; [Lqa.lra|]. eapply Qle_trans; [apply qmax_l|apply IH]. Qed.

Lemma inv_anti : forall a b, (0 < a)%Q -> (a <= b)%Q -> (/ b <= / a)%Q.
Proof.
  intros a b A B. assert (B0 : (0 < b)%Q) by Lqa.lra. rewrite <- (Qmult_1_l (/ b)). apply Qle_shift_div_r; auto. setoid_replace (/ a * b)%Q with (b / a)%Q by (unfold Qdiv; ring).
  apply Qle_shift_div_l; auto. rewrite Qmult_1_l. exact B.
Qed.
Lemma qmin_mono : forall a b c d, (a <= c)%Q -> (b <= d)%Q -> (qmin a b <= qmin c d)%Q.
Proof. intros a b c d A B. apply (qmin_case c d (fun q => (qmin a b <= q)%Q)); [eapply Qle_trans; [apply qmin_l|exact A]|eapply Qle_trans; [apply qmin_r|exact B]]. Qed.

(** ** The result-based updater *)
Definition rw (c v : Q) : Q := if Qlt_bool 0 v then (1 * qmin (/ v) c)%Q else c.
Lemma rw_pos : forall c v, (0 < c)%Q -> (0 < rw c v)%Q.
Proof.
  intros c v C. unfold rw. destruct (Qlt_bool 0 v) eqn:E; auto. rewrite Qmult_1_l. apply (qmin_case _ _ (fun q => (0 < q)%Q)); auto. apply Qinv_lt_0_compat. apply Qlt_bool_iff. exact E.
Qed.
Lemma rw_le : forall c v, (rw c v <= c)%Q.
Proof. intros c v. unfold rw. destruct (Qlt_bool 0 v); [rewrite Qmult_1_l; apply qmin_r|Lqa.lra]. Qed.
Lemma rw_anti : forall c v w, (v <= w)%Q -> (rw c w <= rw c v)%Q.
Proof.
  intros c v w H. unfold rw at 2. destruct (Qlt_bool 0 v) eqn:E; [|apply rw_le]. apply Qlt_bool_iff in E. unfold rw. assert (W : Qlt_bool 0 w = true) by (apply Qlt_bool_iff; Lqa.lra).
  rewrite W, !Qmult_1_l. apply qmin_mono; [apply inv_anti; auto|Lqa.lra].
Qed.

Lemma C44_result_lemma : forall rf md (ind : dict nat (list nat)) last, (forall s, In s (dkeys ind) -> s < length last) ->
  exists obj, inverse_result rf md ind last = Ok (obj, []) /\ map fst obj = dkeys ind /\
    forall s w, In (s, w) obj -> (0 < w <= 1000000000#1)%Q /\ forall s' w', In (s', w') obj ->
      ((nth s last 0 <= nth s' last 0)%Q -> (w' <= w)%Q) /\ ((nth s last 0 == 0)%Q -> (w' <= w)%Q).
Proof.
  intros rf md ind last H. unfold inverse_result. rewrite (at_map last ind H). cbn [bind]. rewrite combine_map. set (c := qmin _ e9).
  assert (C1 : (e8 <= c)%Q). { unfold c. apply (qmin_case _ _ (fun q => (e8 <= q)%Q)); [|unfold e8, e9; Lqa.lra]. eapply Qle_trans; [|apply fold_qmax]. unfold qmax, e8. cbn. Lqa.lra. }
  assert (C2 : (c <= e9)%Q) by apply qmin_r. clearbody c. eexists. split; [reflexivity|]. split; [rewrite !map_map; reflexivity|].
  assert (HW : forall s w, In (s, w) (map (fun gv : nat * list nat * Q => (fst (fst gv), if Qlt_bool 0 (snd gv) then (1 * qmin (/ snd gv) c)%Q else c)) (map (fun a : nat * list nat => (a, nth (fst a) last 0%Q)) ind)) -> w = rw c (nth s last 0%Q)).
  { intros s w Hin. apply in_map_iff in Hin. destruct Hin as (gv & E & Hin). apply in_map_iff in Hin. destruct Hin as (g & <- & Hin). cbn [fst snd] in E. injection E as <- <-. reflexivity. }
  intros s w Hin. rewrite (HW s w Hin). split.
  - split; [apply rw_pos; unfold e8 in C1; Lqa.lra|]. eapply Qle_trans; [apply rw_le|exact C2].
  - intros s' w' Hin'. rewrite (HW s' w' Hin'). split; [apply rw_anti|]. intros Z. replace (rw c (nth s last 0%Q)) with c; [apply rw_le|]. unfold rw. destruct (Qlt_bool 0 (nth s last 0%Q)) eqn:E; auto. apply Qlt_bool_iff in E. Lqa.lra.
Qed.

(** ** The initializers *)
Lemma mapM_ats : forall (e : list Q) l vs, mapM (at_ e) l = Ok vs -> vs = map (fun v => nth v e 0%Q) l.
Proof.
  intros e. induction l as [|v l IH]; intros vs E; cbn [mapM] in E; [injection E as <-; reflexivity|]. apply bind_ok in E. destruct E as (q & Eq & E). apply bind_ok in E. destruct E as (qs & Es & E). injection E as <-.
  cbn [map]. rewrite (IH _ Es). f_equal. unfold at_ in Eq. destruct (nth_error e v) as [q'|] eqn:En; [|discriminate]. injection Eq as <-. symmetry. apply nth_error_nth. exact En.
Qed.

Lemma mapM_pointwise : forall A B (f : A -> res B) l r, mapM f l = Ok r -> length r = length l /\ forall i a, nth_error l i = Some a -> exists b, nth_error r i = Some b /\ f a = Ok b.
Proof.
  intros A B f. induction l as [|a l IH]; intros r E; cbn [mapM] in E; [injection E as <-; split; [auto|intros [|i] ?; discriminate]|].
  apply bind_ok in E. destruct E as (b & Eb & E). apply bind_ok in E. destruct E as (bs & Es & E). injection E as <-. destruct (IH _ Es) as (L & H). split; [cbn; lia|].
  intros [|i] x Hx; cbn in Hx |- *; [injection Hx as <-; exists b; auto|apply H; auto].
Qed.

Lemma map_fst_of : forall (A B C : Type) (l : list (A * B)) (r : list (A * C)), length r = length l -> (forall i a, nth_error l i = Some a -> exists c, nth_error r i = Some (fst a, c)) -> map fst r = map fst l.
Proof.
  induction l as [|a l IH]; intros [|b r] L H; cbn in L; try discriminate; [reflexivity|]. cbn [map]. destruct (H 0 a eq_refl) as (c & E). cbn in E. injection E as ->. cbn [fst]. f_equal.
  apply IH; [lia|]. intros i x Hx. apply (H (Datatypes.S i) x Hx).
Qed.


Lemma C44_reach_lemma : forall S rf md (ind : dict nat (list nat)) obj, inverse_reachability S rf md ind = Ok obj ->
  exists pr, match md with Min => max_z_state S rf | _ => max_z_state_action S rf end = Ok pr /\ map fst obj = dkeys ind /\
    forall i s G, nth_error ind i = Some (s, G) -> exists w, nth_error obj i = Some (s, w) /\ (0 < w <= 1000000000#1)%Q /\ ((avg pr G <= 0)%Q -> (w == 1000000000#1)%Q) /\
      forall j s' G', nth_error ind j = Some (s', G') -> exists w', nth_error obj j = Some (s', w') /\ ((avg pr G <= avg pr G')%Q -> (w' <= w)%Q).
Proof.
  intros S rf md ind obj E. unfold inverse_reachability in E. apply bind_ok in E. destruct E as (pr & Ep & E). exists pr. split; [exact Ep|]. unfold inverse_average in E.
  destruct (mapM_pointwise _ _ _ _ _ E) as (L & HP). set (wt := fun a : Q => (1 * qmin e9 (if Qlt_bool 0 a then 1 / a else e9))%Q).
  assert (K : forall i s G, nth_error ind i = Some (s, G) -> nth_error obj i = Some (s, wt (avg pr G))).
  { intros i s G Hi. destruct (HP _ _ Hi) as (b & Eb & Ef). rewrite Eb. apply bind_ok in Ef. destruct Ef as (vs & Ev & Ef). apply mapM_ats in Ev. cbn [fst snd] in *.
    destruct vs as [|v0 vs]; [discriminate|]. injection Ef as <-. unfold wt, avg. rewrite <- Ev. f_equal. assert (LG : length G = length (v0 :: vs)) by (rewrite Ev, map_length; auto). rewrite LG. reflexivity. }
  split. { apply map_fst_of; [exact L|]. intros i (s & G) Hi. cbn [fst]. eauto. }
  assert (W1 : forall a, (0 < wt a <= e9)%Q).
  { intros a. unfold wt. rewrite Qmult_1_l. split; [|apply qmin_l]. apply (qmin_case _ _ (fun q => (0 < q)%Q)); [unfold e9; Lqa.lra|]. destruct (Qlt_bool 0 a) eqn:E0; [|unfold e9; Lqa.lra].
    unfold Qdiv. rewrite Qmult_1_l. apply Qinv_lt_0_compat. apply Qlt_bool_iff. exact E0. }
  intros i s G Hi. exists (wt (avg pr G)). split; [apply K; exact Hi|]. split; [apply W1|]. split.
  - intros Z. unfold wt. destruct (Qlt_bool 0 (avg pr G)) eqn:E0; [apply Qlt_bool_iff in E0; Lqa.lra|]. rewrite Qmult_1_l. apply (qmin_case _ _ (fun q => (q == _)%Q)); reflexivity.
  - intros j s' G' Hj. exists (wt (avg pr G')). split; [apply K; exact Hj|]. intros HA. unfold wt at 2. destruct (Qlt_bool 0 (avg pr G)) eqn:E0.
    + apply Qlt_bool_iff in E0. unfold wt. assert (E1 : Qlt_bool 0 (avg pr G') = true) by (apply Qlt_bool_iff; Lqa.lra). rewrite E1, !Qmult_1_l. apply qmin_mono; [Lqa.lra|]. unfold Qdiv. rewrite !Qmult_1_l. apply inv_anti; auto.
    + rewrite Qmult_1_l. apply (qmin_case _ _ (fun q => (wt (avg pr G') <= q)%Q)); apply W1.
Qed.

Lemma inverse_sum_spec : forall e (ind : dict nat (list nat)) obj, inverse_sum e ind = Ok obj -> map fst obj = dkeys ind /\
    forall i s G, nth_error ind i = Some (s, G) -> exists w, nth_error obj i = Some (s, w) /\ (0 < w <= 1000000000#1)%Q /\
      forall j s' G', nth_error ind j = Some (s', G') -> exists w', nth_error obj j = Some (s', w') /\
        ((0 < tot e G)%Q -> (tot e G <= tot e G')%Q -> (w' <= w)%Q) /\ ((tot e G <= 0)%Q -> (1#100000000 <= tot e G')%Q -> (w' <= w)%Q).
Proof.
  intros e ind obj E. unfold inverse_sum in E. destruct (mapM_pointwise _ _ _ _ _ E) as (L & HP).
  set (wt := fun a : Q => if Qlt_bool 0 a then (1 * qmin e9 (1 / a))%Q else e8).
  assert (K : forall i s G, nth_error ind i = Some (s, G) -> nth_error obj i = Some (s, wt (tot e G))).
  { intros i s G Hi. destruct (HP _ _ Hi) as (b & Eb & Ef). rewrite Eb. apply bind_ok in Ef. destruct Ef as (vs & Ev & Ef). apply mapM_ats in Ev. cbn [fst snd] in *. injection Ef as <-. unfold wt, tot. rewrite <- Ev. reflexivity. }
  split. { apply map_fst_of; [exact L|]. intros i (s & G) Hi. cbn [fst]. eauto. }
  intros i s G Hi. exists (wt (tot e G)). split; [apply K; exact Hi|]. split.
  { unfold wt. destruct (Qlt_bool 0 (tot e G)) eqn:E0; [|unfold e8; Lqa.lra]. rewrite Qmult_1_l. split; [|apply qmin_l]. apply (qmin_case _ _ (fun q => (0 < q)%Q)); [unfold e9; Lqa.lra|].
    unfold Qdiv. rewrite Qmult_1_l. apply Qinv_lt_0_compat. apply Qlt_bool_iff. exact E0. }
  intros j s' G' Hj. exists (wt (tot e G')). split; [apply K; exact Hj|]. split.
  - intros P0 HA. unfold wt. assert (E0 : Qlt_bool 0 (tot e G) = true) by (apply Qlt_bool_iff; auto). assert (E1 : Qlt_bool 0 (tot e G') = true) by (apply Qlt_bool_iff; Lqa.lra).
    rewrite E0, E1, !Qmult_1_l. apply qmin_mono; [Lqa.lra|]. unfold Qdiv. rewrite !Qmult_1_l. apply inv_anti; auto.
  - intros Z HA. unfold wt. destruct (Qlt_bool 0 (tot e G)) eqn:E0; [apply Qlt_bool_iff in E0; Lqa.lra|]. destruct (Qlt_bool 0 (tot e G')) eqn:E1; [|Lqa.lra].
    rewrite Qmult_1_l. eapply Qle_trans; [apply qmin_r|]. unfold Qdiv. rewrite Qmult_1_l. eapply Qle_trans; [apply (inv_anti (1#100000000)); [Lqa.lra|exact HA]|]. unfold e8. cbn. Lqa.lra.
Qed.

Lemma C44_freq_lemma : forall S rf md (ind : dict nat (list nat)) obj, inverse_frequency S rf md ind = Ok obj ->
  exists e, match md with Min => max_y_state S rf | _ => max_y_state_action S rf end = Ok e /\ map fst obj = dkeys ind /\
    forall i s G, nth_error ind i = Some (s, G) -> exists w, nth_error obj i = Some (s, w) /\ (0 < w <= 1000000000#1)%Q /\
      forall j s' G', nth_error ind j = Some (s', G') -> exists w', nth_error obj j = Some (s', w') /\
        ((0 < tot e G)%Q -> (tot e G <= tot e G')%Q -> (w' <= w)%Q) /\ ((tot e G <= 0)%Q -> (1#100000000 <= tot e G')%Q -> (w' <= w)%Q).
Proof.
  intros S rf md ind obj E. unfold inverse_frequency in E. apply bind_ok in E. destruct E as (e & Ep & E). exists e. split; [exact Ep|]. apply inverse_sum_spec. exact E.
Qed.

(** All initializers give exactly one weight to every group. *)
Lemma initializer_keys : forall S rf md (ind : dict nat (list nat)) obj ini, In ini [all_ones_init; inverse_reachability S; inverse_frequency S; inverse_combined S] -> ini rf md ind = Ok obj -> map fst obj = dkeys ind.
Proof.
  intros S rf md ind obj ini [<-|[<-|[<-|[<-|[]]]]] E.
  - injection E as <-. unfold all_ones. rewrite map_map. reflexivity.
  - destruct (C44_reach_lemma _ _ _ _ _ E) as (pr & _ & H & _). exact H.
  - destruct (C44_freq_lemma _ _ _ _ _ E) as (pr & _ & H & _). exact H.
  - unfold inverse_combined in E. apply bind_ok in E. destruct E as (e & _ & E). apply bind_ok in E. destruct E as (pr & _ & E). destruct (length e =? length pr); [|discriminate]. apply (inverse_sum_spec _ _ _ E).
Qed.

(** ** A frequency below 1e-8 *)
Local Open Scope string_scope.
Definition lowP : mat := mat_of_rows 4 [[0; 1#10000000000; 0; 9999999999#10000000000]; [0; 0; 1; 0]; [0; 0; 0; 1]; [0; 0; 1; 0]; [0; 0; 0; 1]]%Q.
Definition lowI : dict (nat * nat) nat := [((0, 0), 0); ((1, 0), 1); ((1, 1), 2); ((2, 0), 3); ((3, 0), 4)].
Definition lowL : dict string (list nat) := [("init", [0]); ("target", [2]); ("fail", [3])].
Definition low : amdp := get dummy_amdp (mk_mdp lowP lowI [] lowL None).
Definition lowrf : rform := get dummy_rf (mk_rf exrnd low "init" "target" "fail" false).
Lemma low_built : built low.
Proof. apply built_new. exists lowP, lowI, [], lowL, None. split; [apply good_args_ok; vm_compute; reflexivity|]. left. vm_compute. reflexivity. Qed.
Lemma lowrf_built : built_form lowrf.
Proof. exists exrnd, low, "init", "target", "fail". split; [apply low_built|vm_compute; reflexivity]. Qed.
Lemma exact_low : exact_rows (a_P (rf_sys lowrf)).
Proof. apply exact_rows_ok. vm_compute. reflexivity. Qed.

Definition low_lp : milp := MkMilp Maximise (repeat (MkVar false None None) 3)
  [(CName 0, MkConstr [(0, 1%Q)] SLe 1); (CName 1, MkConstr [(0, (-1#10000000000)%Q); (1, 1%Q); (2, 1%Q)] SLe 0); (CName 2, MkConstr [(1, (-1)%Q)] SLe 0);
   (CName 3, MkConstr [(0, 1%Q)] SGe 0); (CName 4, MkConstr [(1, 1%Q)] SGe 0); (CName 5, MkConstr [(2, 1%Q)] SGe 0)] 6 (Some [(0, 0%Q); (1, 1%Q); (2, 0%Q)]).
Definition low_S : solver := fun _ => MkRes Optimal [1; 1#10000000000; 0]%Q (1#10000000000).

Lemma low_exact : exact_answer low_lp (low_S low_lp).
Proof.
  cbn [exact_answer low_S sr_status sr_vec sr_val]. split; [reflexivity|]. split; [split|].
  - split.
    + intros j v H. assert (v = MkVar false None None) as ->. { apply nth_error_In in H. cbn in H. intuition congruence. } unfold sat_var. cbn [v_lb v_ub v_int above below]. split; [exact I|]. split; [exact I|]. discriminate.
    + intros k c H. unfold low_lp in H. cbn [mi_constrs In] in H. repeat (destruct H as [H|H]; [injection H as <- <-; unfold sat_constr; cbn [c_sense c_lhs c_rhs SpecLp.rel lin]; unfold vec, Q2R; cbn; lra|]). destruct H.
  - intros x (_ & C). unfold better, objective. cbn [low_lp mi_dir mi_obj lin].
    pose proof (C (CName 0) _ (or_introl eq_refl)) as C0. pose proof (C (CName 1) _ (or_intror (or_introl eq_refl))) as C1.
    pose proof (C (CName 5) _ (or_intror (or_intror (or_intror (or_intror (or_intror (or_introl eq_refl))))))) as C5.
    unfold sat_constr in C0, C1, C5. cbn [c_sense c_lhs c_rhs SpecLp.rel lin] in C0, C1, C5. unfold vec, Q2R in *. cbn in *. lra.
  - unfold objective. cbn [low_lp mi_obj lin]. unfold vec, Q2R. cbn. lra.
Qed.

Lemma C44_freq_refuted_lemma : exists rf lp S SB t mm ind e obj v v' s s' w w', built_form rf /\ exact_rows (a_P (rf_sys rf)) /\
  construct_milp SB rf t Max None true None = Ok (Some (mm, ind)) /\ max_y_lp rf = Ok lp /\ exact_answer lp (S lp) /\ max_y_state_action S rf = Ok e /\ inverse_frequency S rf Max ind = Ok obj /\
  In (s, [v]) ind /\ In (s', [v']) ind /\ In (s, w) obj /\ In (s', w') obj /\ (nth v e 0 == 0)%Q /\ (0 < nth v' e 0)%Q /\ (w < w')%Q.
Proof.
  assert (EC : exists mm, construct_milp (fun m => MkRes Optimal (repeat 1%Q (length (mi_vars m))) 1%Q) lowrf (1#20000000000) Max None true None = Ok (Some (mm, [(3, [0]); (4, [1]); (5, [2])]))) by (eexists; vm_compute; reflexivity).
  destruct EC as (mm & EC).
  exists lowrf, low_lp, low_S, (fun m => MkRes Optimal (repeat 1%Q (length (mi_vars m))) 1%Q), (1#20000000000)%Q, mm, [(3, [0]); (4, [1]); (5, [2])], [1; 1#10000000000; 0]%Q, [(3, 1%Q); (4, 1000000000%Q); (5, 100000000%Q)], 2, 1, 5, 4, 100000000%Q, 1000000000%Q.
  split; [apply lowrf_built|]. split; [apply exact_low|]. split; [exact EC|]. split; [vm_compute; reflexivity|]. split; [apply low_exact|]. split; [vm_compute; reflexivity|]. split; [vm_compute; reflexivity|].
  cbn. split; [auto|]. split; [auto|]. split; [auto|]. split; [auto|]. split; [reflexivity|]. split; reflexivity.
Qed.

Local Close Scope string_scope.
(** ** solve *)
Lemma C45_solve_lemma : forall it rf t md labels r, solve it rf t md labels = Ok r <->
  (0 <= t <= 1)%Q /\ md <> OtherMode /\ g_exn (it rf t md labels) = None /\ exists l, g_items (it rf t md labels) = l ++ [r].
Proof.
  intros it rf t md labels r. unfold solve, solveiter, assert_. split.
  - destruct (Qle_bool 0 t) eqn:E0; cbn [bind]; [|discriminate]. destruct (Qle_bool t 1) eqn:E1; cbn [bind]; [|discriminate]. apply Qle_bool_iff in E0, E1.
    destruct md; cbn [bind]; try discriminate; (destruct (g_exn _); [discriminate|]; destruct (rev (g_items _)) as [|x l] eqn:ER; [discriminate|]; intros H; injection H as <-;
      split; [auto|]; split; [discriminate|]; split; [auto|]; exists (rev l); rewrite <- (rev_involutive (g_items _)), ER; reflexivity).
  - intros ((H0 & H1) & Hm & HE & (l & HL)). apply Qle_bool_iff in H0, H1. rewrite H0, H1. cbn [bind]. destruct md; [| |congruence]; cbn [bind]; rewrite HE, HL, rev_unit; reflexivity.
Qed.
Lemma C45_reject_lemma : forall it rf t md labels, (t < 0 \/ 1 < t)%Q \/ md = OtherMode -> solve it rf t md labels = Err AssertionError.
Proof.
  intros it rf t md labels H. unfold solve, solveiter, assert_. destruct (Qle_bool 0 t) eqn:E0; cbn [bind]; [|reflexivity]. destruct (Qle_bool t 1) eqn:E1; cbn [bind]; [|reflexivity].
  apply Qle_bool_iff in E0, E1. destruct H as [[H|H]| ->]; [Lqa.lra|Lqa.lra|reflexivity].
Qed.

Lemma qs_result : forall SB S iterations ini up rf t md labels, iterations <> 0 -> g_exn (qs_heur SB S iterations ini up rf t md labels) = None -> g_items (qs_heur SB S iterations ini up rf t md labels) <> [].
Proof.
  intros SB S it ini up rf t md labels HN. unfold qs_heur, qs_run. destruct (construct_milp SB rf t md labels true None) as [[(mm & ind)|]|e]; cbn; try discriminate.
  destruct (let* n := certificate_size rf md in let* obj := ini rf md ind in Ok (n, obj)) as [(n & obj)|e]; cbn; try discriminate.
  destruct it as [|it]; [congruence|]. cbn [qs_loop]. destruct (set_objective mm obj) as [m1|e]; cbn; try discriminate.
  destruct (sr_status (S 0 m1)); cbn; try discriminate. destruct (mk_subsystem _ _ _ _); cbn; discriminate.
Qed.

Lemma C45_result_lemma : forall rf t md labels, (0 <= t <= 1)%Q -> md <> OtherMode ->
  (forall SB S iterations ini up, iterations <> 0 -> g_exn (qs_heur SB S iterations ini up rf t md labels) = None -> exists r, solve (qs_heur SB S iterations ini up) rf t md labels = Ok r) /\
  (forall SB S, g_exn (milp_exact SB S rf t md labels) = None -> exists r, solve (milp_exact SB S) rf t md labels = Ok r).
Proof.
  intros rf t md labels Ht Hm. split.
  - intros SB S it ini up HN HE. pose proof (qs_result SB S it ini up rf t md labels HN HE) as NE. destruct (exists_last NE) as (l & r & El). exists r. apply C45_solve_lemma. eauto.
  - intros SB S HE. assert (NE : exists r, g_items (milp_exact SB S rf t md labels) = [r]). { unfold milp_exact in *. destruct (let* c := _ in _) as [x|e]; cbn in *; [eauto|discriminate]. }
    destruct NE as (r & Er). exists r. apply C45_solve_lemma. split; [auto|]. split; [auto|]. split; [auto|]. exists []. exact Er.
Qed.

(** ** All models of the heuristic have exact answers *)
Lemma loop_wf : forall S up rf md n rounds i m obj, lp_wf m -> forall m' r', In (m', r') (snd (qs_loop S up rf md n rounds i m obj)) -> lp_wf m'.
Proof.
  intros S up rf md n. induction rounds as [|rounds IH]; intros i m obj W m' r' H; cbn [qs_loop] in H; [destruct H|].
  destruct (set_objective m obj) as [m1|e] eqn:ES; [|destruct H].
  assert (W1 : lp_wf m1). { apply lp_wf_iff in W. apply lp_wf_iff. destruct (set_objective_exprs _ _ _ (proj1 W) ES) as (X & V). split; [exact X|]. unfold real_vars. rewrite V. apply W. }
  cbv zeta in H. destruct (sr_status (S i m1)); try (destruct H as [H|[]]; injection H as <- _; exact W1).
  destruct (mk_subsystem _ _ _ _) as [w|e]; [|destruct H as [H|[]]; injection H as <- _; exact W1]. cbn [snd] in H. destruct H as [H|H]; [injection H as <- _; exact W1|].
  destruct (let* (obj0, cs) := up (sr_vec (S i m1)) in let* m2 := add_constraints m1 cs in Ok (obj0, m2)) as [(obj2 & m2)|e] eqn:EU; [|destruct H].
  apply bind_ok in EU. destruct EU as ((obj3 & cs) & _ & EU). apply bind_ok in EU. destruct EU as (m3 & EA & EU). injection EU as -> ->. eapply IH; [|exact H]. eapply add_constraints_wf; eauto.
Qed.

Lemma qs_answers : forall SB S iterations ini up rf t md labels m r, In (m, r) (snd (qs_run SB S iterations ini up rf t md labels)) -> exists r', exact_answer m r'.
Proof.
  intros SB S it ini up rf t md labels m r H. unfold qs_run in H. destruct (construct_milp SB rf t md labels true None) as [[(mm & ind)|]|e] eqn:EC; [| |]; try (destruct H; fail).
  destruct (let* n := certificate_size rf md in let* obj := ini rf md ind in Ok (n, obj)) as [(n & obj)|e]; [|destruct H].
  destruct (construct_bin _ _ _ _ _ _ _ _ _ EC) as (_ & W). apply lp_answer_exists. eapply loop_wf; [|exact H]. apply W. reflexivity.
Qed.

(** ** Rational points *)
Fixpoint linQ (e : list (nat * Q)) (l : list Q) : Q := match e with [] => 0%Q | (v, q) :: r => (q * nth v l 0 + linQ r l)%Q end.
Lemma linQ_lin : forall e l, Q2R (linQ e l) = lin e (vec l).
Proof. induction e as [|[v q] e IH]; intros l; cbn [linQ lin]; [apply RMicromega.Q2R_0|]. rewrite Q2R_plus, Q2R_mult, IH. reflexivity. Qed.
Definition chk_con (l : list Q) (c : constr) : bool :=
  match c_sense c with SLe => Qle_bool (linQ (c_lhs c) l) (c_rhs c) | SGe => Qle_bool (c_rhs c) (linQ (c_lhs c) l) | SEq => Qeq_bool (linQ (c_lhs c) l) (c_rhs c) | OtherSense => false end.
Definition chk_var (v : lpvar) (q : Q) : bool :=
  negb (v_int v) && match v_lb v with Some b => Qle_bool b q | None => true end && match v_ub v with Some b => Qle_bool q b | None => true end.
Definition chk (m : milp) (l : list Q) : bool :=
  (length l =? length (mi_vars m)) && forallb (fun p => chk_var (fst p) (snd p)) (combine (mi_vars m) l) && forallb (fun p => chk_con l (snd p)) (mi_constrs m).
Lemma chk_ok : forall m l, chk m l = true -> length l = length (mi_vars m) /\ feasible m (vec l).
Proof.
  intros m l H. unfold chk in H. apply andb_prop in H. destruct H as [H H3]. apply andb_prop in H. destruct H as [H1 H2]. apply Nat.eqb_eq in H1. rewrite forallb_forall in H2, H3. split; [exact H1|]. split.
  - intros j v Hj. assert (Hl : j < length l) by (rewrite H1; apply nth_error_Some; congruence). pose proof (nth_error_nth' l 0%Q Hl) as Hq.
    assert (HI : In (v, nth j l 0%Q) (combine (mi_vars m) l)).
    { clear - Hj Hq. revert j l Hj Hq. generalize (mi_vars m). induction l as [|a vs IH]; intros [|j] l Hj Hq; cbn in Hj; try discriminate; destruct l as [|b l]; cbn in Hq; try discriminate.
      - injection Hj as <-. left. reflexivity.
      - right. cbn [nth]. apply IH; auto. }
    specialize (H2 _ HI). cbn [fst snd] in H2. unfold chk_var in H2. apply andb_prop in H2. destruct H2 as [H2 B]. apply andb_prop in H2. destruct H2 as [A0 A]. unfold sat_var, vec. split; [|split].
    + destruct (v_lb v); cbn; [apply Qle_Rle, Qle_bool_iff; exact A|exact I].
    + destruct (v_ub v); cbn; [apply Qle_Rle, Qle_bool_iff; exact B|exact I].
    + intros E. rewrite E in A0. discriminate.
  - intros k c Hc. specialize (H3 _ Hc). cbn [snd] in H3. unfold sat_constr. rewrite <- linQ_lin. unfold chk_con in H3. destruct (c_sense c); cbn [SpecLp.rel]; try discriminate.
    + apply Qle_Rle, Qle_bool_iff. exact H3.
    + apply Qeq_eqR, Qeq_bool_iff. exact H3.
    + apply Rle_ge, Qle_Rle, Qle_bool_iff. exact H3.
Qed.
Definition chk_calls (l : list (milp * sresult)) : bool := forallb (fun c => match sr_status (snd c) with Optimal => chk (fst c) (sr_vec (snd c)) | _ => true end) l.
Lemma chk_calls_ok : forall l, chk_calls l = true -> forall m r, In (m, r) l -> sound_answer m r.
Proof. intros l H m r Hin ST. unfold chk_calls in H. rewrite forallb_forall in H. specialize (H _ Hin). cbn [fst snd] in H. rewrite ST in H. apply chk_ok. exact H. Qed.

Lemma run_wf : forall SB S iterations ini up rf t md labels m r, In (m, r) (snd (qs_run SB S iterations ini up rf t md labels)) -> lp_wf m.
Proof.
  intros SB S it ini up rf t md labels m r H. unfold qs_run in H. destruct (construct_milp SB rf t md labels true None) as [[(mm & ind)|]|e] eqn:EC; [| |]; try (destruct H; fail).
  destruct (let* n := certificate_size rf md in let* obj := ini rf md ind in Ok (n, obj)) as [(n & obj)|e]; [|destruct H].
  destruct (construct_bin _ _ _ _ _ _ _ _ _ EC) as (_ & W). eapply loop_wf; [|exact H]. apply W. reflexivity.
Qed.

Lemma loop_answer : forall (f : solver) up rf md n rounds i m obj m' r', In (m', r') (snd (qs_loop (fun _ => f) up rf md n rounds i m obj)) -> r' = f m'.
Proof.
  intros f up rf md n. induction rounds as [|rounds IH]; intros i m obj m' r' H; cbn [qs_loop] in H; [destruct H|].
  destruct (set_objective m obj) as [m1|e] eqn:ES; [|destruct H].
  cbv zeta in H. destruct (sr_status (f m1)); try (destruct H as [H|[]]; injection H as <- <-; reflexivity).
  destruct (mk_subsystem _ _ _ _) as [w|e]; [|destruct H as [H|[]]; injection H as <- <-; reflexivity]. cbn [snd] in H. destruct H as [H|H]; [injection H as <- <-; reflexivity|].
  destruct (let* (obj0, cs) := up (sr_vec (f m1)) in let* m2 := add_constraints m1 cs in Ok (obj0, m2)) as [(obj2 & m2)|e] eqn:EU; [|destruct H]. eapply IH; exact H.
Qed.
Lemma run_answer : forall SB (f : solver) iterations ini up rf t md labels m r, In (m, r) (snd (qs_run SB (fun _ => f) iterations ini up rf t md labels)) -> r = f m.
Proof.
  intros SB f it ini up rf t md labels m r H. unfold qs_run in H. destruct (construct_milp SB rf t md labels true None) as [[(mm & ind)|]|e] eqn:EC; [| |]; try (destruct H; fail).
  destruct (let* n := certificate_size rf md in let* obj := ini rf md ind in Ok (n, obj)) as [(n & obj)|e]; [|destruct H]. eapply loop_answer; exact H.
Qed.
