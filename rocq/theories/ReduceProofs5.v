(** Reduction, fifth part: the result is in reachability form; its maps. *)
From Coq Require Import String List Arith ZArith QArith Bool Lia.
From Verif Require Import Base BaseFacts Num Matrix MatFacts InvDict InvDictProofs Graph GraphSpec GraphProofs SccSpec SpecSystem SpecForm SpecBuilt Amdp AmdpProofs ReachForm ReachFormProofs RfFacts BuiltFacts SpecReduce Reduce ReduceProofs1 ReduceProofs2 ReduceProofs3 ReduceProofs4.
Import ListNotations.
Local Open Scope nat_scope.

Section Mid.
  Variables (m : amdp) (il tl ntl nfl : string) (init : nat).
  Variables (rows : dict (nat * nat) (nat * nat)) (cols : dict nat nat) (tmask : list bool) (P : mat) (m' : amdp).
  Hypothesis OK : sys_ok m.
  Hypothesis PRE : red_pre m il tl ntl nfl init.
  Hypothesis D : red_mid m tl ntl nfl init rows cols tmask P m'.
  Let C := length rows.
  Let N := length cols.

  Lemma md_reduced : reduced m rows cols tmask P ntl nfl m'. Proof. apply (md_red _ _ _ _ _ _ _ _ _ _ D). Qed.
  Lemma m'_built : built m'. Proof. apply built_new. apply md_reduced. Qed.
  Lemma m'_ok : sys_ok m'. Proof. apply built_ok, m'_built. Qed.
  Lemma m'_rows : mrows (a_P m') = C + 2. Proof. apply (rd_C _ _ _ _ _ _ _ _ md_reduced). Qed.
  Lemma m'_cols : mcols (a_P m') = N + 2. Proof. apply (rd_N _ _ _ _ _ _ _ _ md_reduced). Qed.

  Lemma ix_In : forall k j, In (k, j) (new_index rows) <-> exists x, nth_error rows j = Some (x, k).
  Proof. intros. apply ni_In. Qed.

  Lemma inv'_In : forall j x b, a_inv m' j = Some (x, b) <-> In ((x, b), j) (a_idx m').
  Proof.
    intros j x b. unfold a_inv. split; [apply (binv_In Nat.eqb Nat.eqb_spec)|apply (In_binv Nat.eqb Nat.eqb_spec)]. apply (ok_bid m' m'_ok).
  Qed.
  Lemma inv'_cases : forall j x b, a_inv m' j = Some (x, b) <->
    (exists s, nth_error rows j = Some ((s, b), (x, b)) /\ In (s, x) cols) \/ (j = C /\ x = N /\ b = 0) \/ (j = S C /\ x = S N /\ b = 0).
  Proof.
    intros j x b. rewrite inv'_In, (rd_idx _ _ _ _ _ _ _ _ md_reduced), icompl_In, ix_In. split.
    - intros [([s a] & E)|[[E ->]|[E ->]]].
      + left. destruct (md_rc _ _ _ _ _ _ _ _ _ _ D _ _ _ _ (nth_error_In _ _ E)) as [-> Hc]. eauto.
      + inversion E; subst. auto.
      + inversion E; subst. auto.
    - intros [(s & E & _)|[(-> & -> & ->)|(-> & -> & ->)]]; eauto.
  Qed.
  Lemma col_lt : forall s x, In (s, x) cols -> x < N.
  Proof. intros s x. apply cols_lt. apply (md_cs _ _ _ _ _ _ _ _ _ _ D). Qed.
  Lemma row_lt : forall j x, nth_error rows j = Some x -> j < C.
  Proof. intros j x E. unfold C. apply nth_error_Some. congruence. Qed.

  Lemma col_relevant : forall s x, In (s, x) cols -> relevant m init tl s.
  Proof.
    intros s x H. destruct (md_rk _ _ _ _ _ _ _ _ _ _ D s) as (a & Ha). { apply in_map_iff. exists (s, x); auto. }
    apply (md_rows _ _ _ _ _ _ _ _ _ _ D) in Ha. apply Ha.
  Qed.

  Lemma edge'_row : forall s d s' d', In (s, s') cols -> In (d, d') cols -> ~ has_label m tl s -> sys_edge m s d -> sys_edge m' s' d'.
  Proof.
    intros s d s' d' Hs Hd Ht (i & a & p & Hp & Ei).
    assert (Hi : i < a_C m) by (eapply (proj2 (ok_wf m OK)); eauto).
    assert (Hk : In (s, a) (map fst rows)). { apply (md_rows _ _ _ _ _ _ _ _ _ _ D). split; [eapply col_relevant; eauto|eauto]. }
    apply in_map_iff in Hk. destruct Hk as ([sa [x b]] & E & Hin). simpl in E. subst sa.
    destruct (md_rc _ _ _ _ _ _ _ _ _ _ D _ _ _ _ Hin) as [-> Hc].
    rewrite (cols_fun cols (md_cb _ _ _ _ _ _ _ _ _ _ D) _ _ _ Hc Hs) in Hin. destruct (In_nth_error _ _ Hin) as (j & Ej).
    exists j, a, p. split; [|apply inv'_cases; left; eauto].
    eapply (rd_row _ _ _ _ _ _ _ _ md_reduced); [exact Ej| | | |].
    - destruct (nth s tmask false) eqn:E; auto. apply (md_tm _ _ _ _ _ _ _ _ _ _ D) in E. contradiction.
    - apply (row_inv m OK). exact Ei.
    - apply Nat.lt_le_incl. eapply col_lt; eauto.
    - exists d. auto.
  Qed.

  Lemma edge'_goal : forall s s', In (s, s') cols -> has_label m tl s -> sys_edge m' s' N.
  Proof.
    intros s s' Hs Ht. destruct (md_rk _ _ _ _ _ _ _ _ _ _ D s) as (a & Ha). { apply in_map_iff. exists (s, s'); auto. }
    apply in_map_iff in Ha. destruct Ha as ([sa [x b]] & E & Hin). simpl in E. subst sa.
    destruct (md_rc _ _ _ _ _ _ _ _ _ _ D _ _ _ _ Hin) as [-> Hc].
    rewrite (cols_fun cols (md_cb _ _ _ _ _ _ _ _ _ _ D) _ _ _ Hc Hs) in Hin. destruct (In_nth_error _ _ Hin) as (j & Ej).
    exists j, a, 1%Q. split; [|apply inv'_cases; left; eauto].
    eapply (rd_target _ _ _ _ _ _ _ _ md_reduced); [exact Ej| |auto]. apply (md_tm _ _ _ _ _ _ _ _ _ _ D); auto.
  Qed.

  Hypothesis ACT : every_state_acts m.

  Lemma relevant_lt : forall s, relevant m init tl s -> s < a_N m.
  Proof.
    intros s [H _]. destruct H as [s ->|s t H Hn He]; [apply (pr_init _ _ _ _ _ _ PRE)|]. apply (edge_bound m OK) in He. apply He.
  Qed.
  Lemma relevant_col : forall s, relevant m init tl s <-> exists x, In (s, x) cols.
  Proof.
    intros s. split.
    - intros H. destruct (ACT s (relevant_lt s H)) as (a & i & Hi & E).
      assert (Hk : In (s, a) (map fst rows)). { apply (md_rows _ _ _ _ _ _ _ _ _ _ D). eauto. }
      apply in_map_iff in Hk. destruct Hk as ([sa [x b]] & E' & Hin). simpl in E'. subst sa. exists x. eapply (md_rc _ _ _ _ _ _ _ _ _ _ D); eauto.
    - intros (x & H). eapply col_relevant; eauto.
  Qed.

  Lemma reach'_goal : forall s s', In (s, s') cols -> rtc (sys_edge m') s' N.
  Proof.
    intros s s' H. pose proof (col_relevant _ _ H) as (_ & t & Ht & Hr). revert s' H.
    induction Hr as [s|s d t He Hr IH]; intros s' H.
    - econstructor; [eapply edge'_goal; eauto|constructor].
    - destruct (in_dec Nat.eq_dec s (states_by_label m tl)) as [Hs|Hs].
      + econstructor; [eapply edge'_goal; eauto|constructor].
      + assert (Rd : relevant m init tl d).
        { split; [|exists t; auto]. apply ra_step with s; auto. apply (col_relevant _ _ H). }
        apply relevant_col in Rd. destruct Rd as (d' & Hd). econstructor; [eapply edge'_row; eauto|]. apply IH; auto.
  Qed.

  Lemma rtc_snoc : forall (R : nat -> nat -> Prop) x y z, rtc R x y -> R y z -> rtc R x z.
  Proof. intros R x y z H. induction H; intros; [econstructor; [eauto|constructor]|econstructor; eauto]. Qed.

  Lemma reach'_init : forall i', In (init, i') cols -> forall s s', In (s, s') cols -> rtc (sys_edge m') i' s'.
  Proof.
    intros i' Hi s s' Hs. pose proof (col_relevant _ _ Hs) as [Hr Hc]. revert s' Hs Hc.
    induction Hr as [s ->|s d Hr IH Hn He]; intros s' Hs Hc.
    - rewrite (cols_fun cols (md_cb _ _ _ _ _ _ _ _ _ _ D) _ _ _ Hi Hs). constructor.
    - assert (Cs : can_reach m tl s). { destruct Hc as (t & Ht & Hr'). exists t. split; auto. econstructor; eauto. }
      assert (Rs : relevant m init tl s) by (split; auto). apply relevant_col in Rs. destruct Rs as (x & Hx).
      eapply rtc_snoc; [apply IH; eauto|]. eapply edge'_row; eauto.
  Qed.

  Lemma col_onto : forall x, x < N -> exists s, In (s, x) cols.
  Proof.
    intros x Hx. assert (Hin : In x (map snd cols)). { rewrite (md_cs _ _ _ _ _ _ _ _ _ _ D). apply in_seq. unfold N in Hx. lia. }
    apply in_map_iff in Hin. destruct Hin as ([s x'] & E & Hin). simpl in E. subst. eauto.
  Qed.

  Lemma il_used : ~ unused m il.
  Proof. intros H. apply (unused_none _ _ init H). apply (pr_il _ _ _ _ _ _ PRE). auto. Qed.

  Lemma mid_form : ntl <> nfl -> forall i', In (init, i') cols -> in_reach_form (a_P m') (a_inv m') (has_label m') i' il ntl nfl.
  Proof.
    intros Hne i' Hi. unfold in_reach_form. rewrite m'_rows, m'_cols.
    replace (N + 2 - 2) with N by lia. replace (N + 2 - 1) with (S N) by lia. replace (C + 2 - 2) with C by lia. replace (C + 2 - 1) with (S C) by lia.
    assert (NI1 : il <> ntl) by (intros E; apply il_used; rewrite E; apply (pr_ntl _ _ _ _ _ _ PRE)).
    assert (NI2 : il <> nfl) by (intros E; apply il_used; rewrite E; apply (pr_nfl _ _ _ _ _ _ PRE)).
    pose proof (col_lt _ _ Hi) as Hlt.
    split; [auto|]. split; [lia|]. split; [lia|]. split; [lia|]. split; [|split; [|split; [|split; [|split; [|split]]]]].
    - intros x. unfold has_label. rewrite (rd_slab _ _ _ _ _ _ _ _ md_reduced). split.
      + intros [(s & Hs & Hl)|[[E _]|[E _]]]; [|congruence|congruence]. apply (pr_il _ _ _ _ _ _ PRE) in Hl. subst s.
        apply (cols_fun cols (md_cb _ _ _ _ _ _ _ _ _ _ D) _ _ _ Hs Hi).
      + intros ->. left. exists init. split; auto. apply (pr_il _ _ _ _ _ _ PRE). auto.
    - intros x. unfold has_label. rewrite (rd_slab _ _ _ _ _ _ _ _ md_reduced). split.
      + intros [(s & Hs & Hl)|[[E _]|[_ E]]]; [|congruence|auto]. exfalso. eapply unused_none; [apply (pr_ntl _ _ _ _ _ _ PRE)|exact Hl].
      + intros ->. auto.
    - intros x. unfold has_label. rewrite (rd_slab _ _ _ _ _ _ _ _ md_reduced). split.
      + intros [(s & Hs & Hl)|[[_ E]|[E _]]]; [|auto|congruence]. exfalso. eapply unused_none; [apply (pr_nfl _ _ _ _ _ _ PRE)|exact Hl].
      + intros ->. auto.
    - split.
      + exists 0, 1%Q. split; [apply inv'_cases; auto|]. apply (rd_goal_row _ _ _ _ _ _ _ _ md_reduced). auto.
      + intros j d a p Ej Hp. apply inv'_cases in Ej. destruct Ej as [(s & E & Hc)|[(-> & _)|(_ & E & _)]]; [apply col_lt in Hc; lia| |lia].
        apply (rd_goal_row _ _ _ _ _ _ _ _ md_reduced) in Hp. intuition.
    - split.
      + exists 0, 1%Q. split; [apply inv'_cases; auto|]. apply (rd_fail_row _ _ _ _ _ _ _ _ md_reduced). auto.
      + intros j d a p Ej Hp. apply inv'_cases in Ej. destruct Ej as [(s & E & Hc)|[(_ & E & _)|(-> & _)]]; [apply col_lt in Hc; lia|lia|].
        apply (rd_fail_row _ _ _ _ _ _ _ _ md_reduced) in Hp. intuition.
    - intros s Hs Hf. destruct (Nat.eq_dec s N); [subst; eapply reach'_goal; eauto|]. destruct (col_onto s) as (s0 & H0); [lia|]. eapply reach'_init; eauto.
    - intros s Hs Hf. destruct (Nat.eq_dec s N); [subst; constructor|]. destruct (col_onto s) as (s0 & H0); [lia|]. eapply reach'_goal; eauto.
  Qed.
End Mid.

Lemma mk_rf_unchecked : forall rnd m il tl fl rf, mk_rf rnd m il tl fl false = Ok rf -> mk_rf rnd m il tl fl true = Ok rf.
Proof. intros rnd m il tl fl rf H. unfold mk_rf in *. apply bind_ok in H. destruct H as (u & _ & H). cbn [bind]. exact H. Qed.

Lemma reduce_mid_result : forall rnd m il tl ntl nfl init rows cols tmask P m', built m -> every_state_acts m -> ntl <> nfl ->
  red_pre m il tl ntl nfl init -> red_mid m tl ntl nfl init rows cols tmask P m' -> can_reach m tl init ->
  exists rf, mk_rf rnd m' il ntl nfl true = Ok rf /\ rf_sys rf = m' /\ reduce_result m init il tl ntl nfl rf cols.
Proof.
  intros rnd m il tl ntl nfl init rows cols tmask P m' B ACT Hne PRE D CR. pose proof (built_ok m B) as OK.
  assert (RI : relevant m init tl init) by (split; [constructor; auto|auto]).
  destruct (proj1 (relevant_col m il tl ntl nfl init rows cols tmask P m' OK PRE D ACT init) RI) as (i' & Hi).
  pose proof (mid_form m il tl ntl nfl init rows cols tmask P m' OK PRE D ACT Hne i' Hi) as HF.
  pose proof (m'_built _ _ _ _ _ _ _ _ _ _ D) as B'.
  destruct (proj2 (C11_built_lemma rnd m' il ntl nfl B') (ex_intro (fun i => in_reach_form (a_P m') (a_inv m') (has_label m') i il ntl nfl) i' HF)) as (rf & Erf).
  destruct (C11_contents_lemma rnd m' il ntl nfl rf B' Erf) as [Es HF'].
  destruct (mk_rf_ok rnd m' il ntl nfl false rf (built_ok m' B') Erf) as (_ & _ & L1 & L2 & L3 & _).
  exists rf. split; [apply mk_rf_unchecked; auto|]. split; [auto|].
  pose proof (md_cb _ _ _ _ _ _ _ _ _ _ D) as CB.
  split; [exists rnd, m', il, ntl, nfl; auto|]. rewrite Es. split; [apply (rd_exact _ _ _ _ _ _ _ _ (md_red _ _ _ _ _ _ _ _ _ _ D))|].
  split; [auto|]. split; [auto|]. split; [auto|]. split; [|split; [|split]].
  - apply (cols_get cols CB). assert (E : rf_init rf = i'); [|rewrite E; auto].
    destruct HF as (_ & _ & _ & _ & LI & _). destruct HF' as (_ & _ & _ & _ & LI' & _). apply LI. apply LI'. auto.
  - intros s. rewrite (relevant_col m il tl ntl nfl init rows cols tmask P m' OK PRE D ACT s). split; intros (x & Hx); exists x; apply (cols_get cols CB); auto.
  - apply CB.
  - unfold a_N. rewrite (m'_cols m tl ntl nfl init rows cols tmask P m' D). replace (length cols + 2 - 2) with (length cols) by lia. apply (md_cs _ _ _ _ _ _ _ _ _ _ D).
Qed.

Lemma C12_lemma : forall rnd m il tl ntl nfl init, built m -> every_state_acts m -> marks_states m tl ->
  only_state m il init -> init < a_N m -> can_reach m tl init -> unused m ntl -> unused m nfl -> ntl <> nfl ->
  exists rf cols rows, reduce rnd m il tl ntl nfl = Ok (rf, cols, rows) /\ reduce_result m init il tl ntl nfl rf cols.
Proof.
  intros rnd m il tl ntl nfl init B ACT MT OI HI CR U1 U2 Hne.
  assert (PRE : red_pre m il tl ntl nfl init). { constructor; auto. destruct CR as (t & Ht & _). eauto. }
  destruct (reduce_forward m il tl ntl nfl B rnd init PRE) as (rows & cols & tmask & P & m' & D & E).
  destruct (reduce_mid_result rnd m il tl ntl nfl init rows cols tmask P m' B ACT Hne PRE D CR) as (rf & Erf & _ & HR).
  rewrite Erf in E. cbn [bind] in E. eauto 10.
Qed.

(** Whenever [reduce] returns, all this held. *)
Lemma reduce_returns : forall rnd m il tl ntl nfl rf cols rows, built m -> reduce rnd m il tl ntl nfl = Ok (rf, cols, rows) ->
  exists init tmask P, red_pre m il tl ntl nfl init /\ red_mid m tl ntl nfl init rows cols tmask P (rf_sys rf) /\
    relevant m init tl init /\ dget Nat.eqb cols init = Some (rf_init rf) /\ mk_rf rnd (rf_sys rf) il ntl nfl true = Ok rf.
Proof.
  intros rnd m il tl ntl nfl rf cols rows B H. destruct (reduce_pre m il tl ntl nfl B rnd _ H) as (init & PRE).
  destruct (reduce_forward m il tl ntl nfl B rnd init PRE) as (rows1 & cols1 & tmask & P & m' & D & E). rewrite H in E. symmetry in E.
  apply bind_ok in E. destruct E as (rf1 & E1 & E2). inversion E2; subst rf1 cols1 rows1. clear E2.
  assert (Es : rf_sys rf = m'). { apply (mk_rf_ok rnd m' il ntl nfl true rf) in E1; [apply E1|]. apply (m'_ok _ _ _ _ _ _ _ _ _ _ D). }
  exists init, tmask, P. rewrite Es. split; [auto|]. split; [auto|].
  assert (HI : exists x, In (init, x) cols /\ rf_init rf = x).
  { unfold mk_rf in E1. cbn [bind] in E1. destruct (states_by_label m' il) as [|x rest] eqn:EL; [discriminate|].
    assert (Ei : rf_init rf = x). { repeat (destruct (_ <? _) in E1; try discriminate). repeat (apply bind_ok in E1; destruct E1 as (? & _ & E1)). destruct x3 as [[? ?] ?]. inversion E1; auto. }
    exists x. split; [|auto]. assert (Hin : In x (states_by_label m' il)) by (rewrite EL; simpl; auto).
    apply (rd_slab _ _ _ _ _ _ _ _ (md_red _ _ _ _ _ _ _ _ _ _ D)) in Hin.
    pose proof (il_used m il tl ntl nfl init PRE) as IU.
    destruct Hin as [(s & Hs & Hl)|[[E _]|[E _]]].
    - apply (pr_il _ _ _ _ _ _ PRE) in Hl. subst s. auto.
    - exfalso. subst. apply IU. apply (pr_nfl _ _ _ _ _ _ PRE).
    - exfalso. subst. apply IU. apply (pr_ntl _ _ _ _ _ _ PRE). }
  destruct HI as (x & Hx & Ei). split; [eapply col_relevant; eauto|]. split; [|exact E1].
  apply (cols_get cols (md_cb _ _ _ _ _ _ _ _ _ _ D)). rewrite Ei. auto.
Qed.

Lemma C15_lemma : forall rnd m il tl ntl nfl r, built m -> reduce rnd m il tl ntl nfl = Ok r ->
  unused m ntl /\ unused m nfl /\ exists init, only_state m il init /\ can_reach m tl init.
Proof.
  intros rnd m il tl ntl nfl [[rf cols] rows] B H. destruct (reduce_returns _ _ _ _ _ _ _ _ _ B H) as (init & tm & P & PRE & _ & [_ CR] & _).
  split; [apply (pr_ntl _ _ _ _ _ _ PRE)|]. split; [apply (pr_nfl _ _ _ _ _ _ PRE)|]. exists init. split; [apply (pr_il _ _ _ _ _ _ PRE)|auto].
Qed.

(** C14 *)
Lemma C14_lemma : forall rnd m il tl ntl nfl rf cols rows, built m -> reduce rnd m il tl ntl nfl = Ok (rf, cols, rows) ->
  let m' := rf_sys rf in
  (* states *)
  NoDup (map fst cols) /\ map snd cols = seq 0 (a_N m' - 2) /\
  (* state-action pairs *)
  NoDup (map fst rows) /\ NoDup (map snd rows) /\
  (forall s a s' a', In ((s, a), (s', a')) rows -> a' = a /\ dget Nat.eqb cols s = Some s' /\
     exists i i', a_row m (s, a) = Some i /\ i < a_C m /\ a_row m' (s', a) = Some i' /\ i' < a_C m' - 2) /\
  (forall s s' a i, dget Nat.eqb cols s = Some s' -> i < a_C m -> a_row m (s, a) = Some i -> In ((s, a), (s', a)) rows) /\
  (forall s' a' i', s' < a_N m' - 2 -> a_row m' (s', a') = Some i' -> exists s, In ((s, a'), (s', a')) rows) /\
  (* labels *)
  (forall s s' l, dget Nat.eqb cols s = Some s' -> (has_label m' l s' <-> has_label m l s)) /\
  (forall s a s' l, In ((s, a), (s', a)) rows -> (In (s', a) (actions_by_label m' l) <-> In (s, a) (actions_by_label m l))) /\
  (* rewards *)
  match a_rew m, a_rew m' with
  | None, None => True
  | Some r, Some r' => forall s a s' i i', In ((s, a), (s', a)) rows -> a_row m (s, a) = Some i -> a_row m' (s', a) = Some i' -> nth_error r' i' = nth_error r i
  | _, _ => False
  end /\
  (* probabilities *)
  (forall s a s' d d' i i', In ((s, a), (s', a)) rows -> ~ has_label m tl s -> dget Nat.eqb cols d = Some d' ->
     a_row m (s, a) = Some i -> a_row m' (s', a) = Some i' -> mget (a_P m') i' d' = mget (a_P m) i d).
Proof.
  intros rnd m il tl ntl nfl rf cols rows B H m'. pose proof (built_ok m B) as OK.
  destruct (reduce_returns _ _ _ _ _ _ _ _ _ B H) as (init & tm & P & PRE & D & _ & _). fold m' in D.
  pose proof (md_cb _ _ _ _ _ _ _ _ _ _ D) as CB. pose proof (md_red _ _ _ _ _ _ _ _ _ _ D) as RD. pose proof (md_rn _ _ _ _ _ _ _ _ _ _ D) as RN.
  pose proof (md_rc _ _ _ _ _ _ _ _ _ _ D) as RC. pose proof (m'_ok _ _ _ _ _ _ _ _ _ _ D) as OK'.
  assert (EN : a_N m' - 2 = length cols). { unfold a_N. rewrite (m'_cols _ _ _ _ _ _ _ _ _ _ D). lia. }
  assert (EC : a_C m' - 2 = length rows). { unfold a_C. rewrite (m'_rows _ _ _ _ _ _ _ _ _ _ D). lia. }
  pose proof (inv'_cases m tl ntl nfl init rows cols tm P m' D) as IC.
  assert (RW : forall s a s' j, nth_error rows j = Some ((s, a), (s', a)) -> a_row m' (s', a) = Some j).
  { intros s a s' j E. apply (row_inv m' OK'). apply IC. left. exists s. split; auto. apply nth_error_In in E. eapply RC; eauto. }
  split; [apply CB|]. split; [rewrite EN; apply (md_cs _ _ _ _ _ _ _ _ _ _ D)|]. split; [auto|]. split; [eapply rows_vals; eauto|].
  split; [|split; [|split; [|split; [|split; [|split]]]]].
  - intros s a s' a' Hin. destruct (RC _ _ _ _ Hin) as [-> Hc]. split; [auto|]. split; [apply (cols_get cols CB); auto|].
    assert (Hk : In (s, a) (map fst rows)) by (apply in_map_iff; exists ((s, a), (s', a)); auto).
    destruct (md_rr _ _ _ _ _ _ _ _ _ _ OK D _ _ Hk) as (i & Ei). destruct (In_nth_error _ _ Hin) as (j & Ej).
    exists i, j. split; [auto|]. split; [eapply md_lt; eauto|]. split; [eapply RW; eauto|]. rewrite EC. apply nth_error_Some. congruence.
  - intros s s' a i Hc Hi Ei. apply (cols_get cols CB) in Hc.
    assert (Hk : In (s, a) (map fst rows)). { apply (md_rows _ _ _ _ _ _ _ _ _ _ D). split; [eapply col_relevant; eauto|]. exists i. split; [auto|]. apply (row_inv m OK); auto. }
    apply in_map_iff in Hk. destruct Hk as ([sa [x b]] & E' & Hin). simpl in E'. subst sa. destruct (RC _ _ _ _ Hin) as [-> Hc'].
    rewrite (cols_fun cols CB _ _ _ Hc Hc'). auto.
  - intros s' a' i' Hs Ei. rewrite EN in Hs. apply (row_inv m' OK') in Ei. apply IC in Ei. destruct Ei as [(s & E & Hc)|[(_ & E & _)|(_ & E & _)]]; [|lia|lia].
    exists s. eapply nth_error_In; eauto.
  - intros s s' l Hc. apply (cols_get cols CB) in Hc. unfold has_label. rewrite (rd_slab _ _ _ _ _ _ _ _ RD).
    pose proof (cols_lt cols (md_cs _ _ _ _ _ _ _ _ _ _ D) _ _ Hc) as Hlt. split.
    + intros [(s0 & Hs & Hl)|[[_ E]|[_ E]]]; [|lia|lia]. rewrite (cols_inj cols CB _ _ _ Hc Hs). auto.
    + intros Hl. left. eauto.
  - intros s a s' l Hin. rewrite (rd_alab _ _ _ _ _ _ _ _ RD). split; [|eauto].
    intros (s0 & Hin0 & Hl). destruct (RC _ _ _ _ Hin) as [_ Hc]. destruct (RC _ _ _ _ Hin0) as [_ Hc0]. rewrite (cols_inj cols CB _ _ _ Hc Hc0). auto.
  - pose proof (rd_rew _ _ _ _ _ _ _ _ RD) as HR. unfold rew_ok in HR. destruct (a_rew m) as [r|]; [|rewrite HR; auto].
    destruct HR as (v & -> & _ & HV & _). intros s a s' i i' Hin Ei Ei'. destruct (In_nth_error _ _ Hin) as (j & Ej). rewrite (RW _ _ _ _ Ej) in Ei'. inversion Ei'; subst i'.
    eapply HV; eauto. apply nth_error_Some. congruence.
  - intros s a s' d d' i i' Hin Ht Hd Ei Ei'. destruct (In_nth_error _ _ Hin) as (j & Ej). rewrite (RW _ _ _ _ Ej) in Ei'. inversion Ei'; subst i'.
    apply (cols_get cols CB) in Hd. apply mget_ext; [apply OK'|apply OK|]. intros p.
    assert (Et : nth s tm false = false). { destruct (nth s tm false) eqn:E; auto. apply (md_tm _ _ _ _ _ _ _ _ _ _ D) in E. contradiction. }
    pose proof (cols_lt cols (md_cs _ _ _ _ _ _ _ _ _ _ D) _ _ Hd) as Hlt.
    rewrite (rd_row _ _ _ _ _ _ _ _ RD _ _ _ _ _ _ _ Ej Et Ei) by lia. split.
    + intros (d0 & H0 & Hp). rewrite (cols_inj cols CB _ _ _ Hd H0). auto.
    + eauto.
Qed.
