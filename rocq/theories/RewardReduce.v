(** Reduction to reward reachability form: when it succeeds, what it returns,
    and that it keeps expected rewards. *)
From Coq Require Import String List Arith ZArith QArith Qreals Reals Bool Lia Lra.
From Verif Require Import Base BaseFacts Num Matrix MatFacts InvDict Graph GraphSpec SccSpec MecProofs SpecMdp SumFacts MdpValue SpecEc SpecSystem SpecForm SpecBuilt Amdp AmdpProofs ReachForm ReachFormProofs RfFacts BuiltFacts SpecProb RfBridge SpecReduce Reduce ReduceProofs1 ReduceProofs2 ReduceProofs3 ReduceProofs4 ReduceProofs5 ReduceProofs6 Milp RewardForm SpecReward RewGen RewTheory RewardProofs.
Import ListNotations.
Local Open Scope nat_scope.

Lemma nth_mask_eq : forall k n s, s < n -> nth s (map (fun i => i =? k) (seq 0 n)) false = (s =? k).
Proof.
  intros k n s H. rewrite (nth_indep _ false (0 =? k)) by (rewrite map_length, seq_length; auto).
  rewrite (map_nth (fun i => i =? k)). rewrite seq_nth by auto. reflexivity.
Qed.

(** The consistency check of a form. *)
Lemma consistency_iff : forall rnd rf, built_form rf ->
  (assert_reachform_consistency rnd rf = Ok tt <->
   (exists r, a_rew (rf_sys rf) = Some r) /\
   (forall s, rtc (sys_edge (rf_sys rf)) s (a_N (rf_sys rf) - 1) -> s = a_N (rf_sys rf) - 1) /\
   (forall s, s < a_N (rf_sys rf) - 2 -> ~ in_some_ec (a_P (rf_sys rf)) (a_inv (rf_sys rf)) s)).
Proof.
  intros rnd rf BF. destruct (built_form_ok rf BF) as [RO RFM]. pose proof (ro_sys rf RO) as OK. pose proof (ro_N rf RO) as HN.
  unfold assert_reachform_consistency. set (m := rf_sys rf) in *.
  destruct (a_rew m) as [r|]. 2:{ cbn [bind assert_]. split; [discriminate|]. intros ((r & E) & _). discriminate. }
  cbn [bind assert_].
  destruct (mask_spec m OK (a_N m - 1) Backward) as (mask & EM & LM & HM); [unfold a_N in *; lia|discriminate|].
  rewrite EM. cbn [bind].
  assert (HN0 : 0 < mcols (a_P m)) by (unfold a_N in HN; lia).
  destruct (C08_lemma _ _ _ (ok_graph m OK) HN0 rnd) as (comp & proper & k & EC & _).
  unfold a_mecs. rewrite EC.
  set (rf' := MkRf m (rf_init rf) (rf_initl rf) (rf_targetl rf) (rf_faill rf) (rf_idx rf) (rf_A rf) (rf_to_target rf) (firstn (a_N m - 2) comp) (Z.of_nat k - 2)%Z proper).
  assert (RO' : rf_ok rf').
  { destruct RO. constructor; auto. exists rnd, comp, k. split; [exact EC|]. split; reflexivity. }
  pose proof (is_ec_free_iff rf' (rf_init rf) RO' RFM) as FREE. unfold is_ec_free, nr_of_proper_mecs in FREE. change (rf_proper rf') with proper in FREE. change (rf_sys rf') with m in FREE.
  unfold rf_N in FREE. change (rf_sys rf') with m in FREE. rewrite Z.eqb_eq in FREE.
  assert (A1 : forallb (fun b => b) (zip_bool Bool.eqb mask (map (fun i => i =? a_N m - 1) (seq 0 (a_N m)))) = true <->
    (forall s, rtc (sys_edge m) s (a_N m - 1) -> s = a_N m - 1)).
  { rewrite zip_all. rewrite map_length, seq_length, LM. change (mcols (a_P m)) with (a_N m). split.
    - intros H s R. apply HM in R. destruct (Nat.lt_ge_cases s (a_N m)) as [L|L].
      + specialize (H s L L). rewrite R in H. apply Bool.eqb_prop in H. rewrite nth_mask_eq in H by auto. symmetry in H. apply Nat.eqb_eq in H. auto.
      + rewrite nth_overflow in R by (change (mcols (a_P m)) with (a_N m) in LM; lia). discriminate.
    - intros H s L _. rewrite nth_mask_eq by auto. apply Bool.eqb_true_iff.
      destruct (Nat.eqb_spec s (a_N m - 1)) as [->|Hne]; [apply HM; constructor|].
      destruct (nth s mask false) eqn:E; auto. apply HM in E. apply H in E. lia. }
  destruct (forallb (fun b => b) (zip_bool Bool.eqb mask (map (fun i => i =? a_N m - 1) (seq 0 (a_N m))))).
  - cbn [bind assert_]. split.
    + intros H. split; [eauto|]. split; [apply A1; auto|]. apply FREE. destruct (Z.eqb_spec (count_true proper) 2); [lia|discriminate].
    + intros (_ & _ & H). apply FREE in H. replace (count_true proper) with 2%Z by lia. reflexivity.
  - cbn [bind assert_]. split; [discriminate|]. intros (_ & H & _). apply A1 in H. discriminate.
Qed.

Lemma drop2_spec : forall v c, length v = c + 2 -> length (drop2 v) = c /\ forall r, r < c -> nth r (drop2 v) 0%Q = nth r v 0%Q.
Proof.
  intros v c H. unfold drop2. split; [rewrite firstn_length; lia|]. intros r Hr. apply RfFacts.nth_firstn. lia.
Qed.

(** ** Reduction of a system *)
Section Red.
  Variables (m : amdp) (il tl : string) (init : nat).
  Variables (rows : dict (nat * nat) (nat * nat)) (cols : dict nat nat) (tmask : list bool) (P : mat) (m' : amdp).
  Let ntl := "rf_target"%string.
  Let nfl := "rf_fail"%string.
  Hypothesis B : built m.
  Hypothesis PRE : red_pre m il tl ntl nfl init.
  Hypothesis D : red_mid m tl ntl nfl init rows cols tmask P m'.
  Hypothesis ACT : every_state_acts m.
  Hypothesis EX : exact_rows (a_P m).
  Hypothesis W' : wf_mdp (mdp_of m').
  Let OK : sys_ok m := built_ok m B.
  Let M := mdp_of m.
  Let M' := mdp_of m'.
  Let T := label_set m tl.
  Let N := length cols.
  Let W : wf_mdp M := m_wf m B ACT EX.

  Lemma prob_pos_item : forall r d, r < nA M -> d < nS M -> (0 < prob M r d)%R <-> exists p, In ((r, d), p) (mitems (a_P m)).
  Proof.
    intros r d Hr Hd. split.
    - intros H. exists (mget (a_P m) r d). apply mget_nonzero. intros E. unfold M, mdp_of, sys_mdp in H. simpl in H. rewrite (Qeq_eqR _ _ E), RMicromega.Q2R_0 in H. lra.
    - intros (p & Hp). unfold M, mdp_of, sys_mdp. simpl. rewrite (mget_In _ _ _ _ (ok_wf m OK) Hp). destruct OK as (WF & _ & (_ & _ & V & _) & _).
      destruct (V _ _ _ Hp) as [V1 _]. destruct WF as [_ WF]. destruct (WF _ _ _ Hp) as (_ & _ & NZ).
      rewrite <- RMicromega.Q2R_0. apply Qlt_Rlt. apply Qle_lteq in V1. destruct V1 as [V1|V1]; auto. exfalso. apply NZ. symmetry. exact V1.
  Qed.

  Definition inb (s : nat) : bool := smem Nat.eqb s (map fst cols).
  Lemma inb_iff : forall s, inb s = true <-> exists x, In (s, x) cols.
  Proof.
    intros s. unfold inb. rewrite (smem_In Nat.eqb Nat.eqb_spec), in_map_iff. split.
    - intros ([y x] & E & H). simpl in E. subst y. eauto.
    - intros (x & H). exists (s, x). auto.
  Qed.
  Lemma item_edge : forall r d p s, In ((r, d), p) (mitems (a_P m)) -> src M r = s -> r < nA M -> sys_edge m s d.
  Proof.
    intros r d p s Hp Es Hr. destruct (src_inv m B r Hr) as (a & E). exists r, a, p. split; auto. change (a_inv m r = Some (s, a)). rewrite E. unfold M in Es. rewrite Es. auto.
  Qed.

  (** The probability of the fail state. *)
  Lemma fail_zero : forall j s a s' r, nth_error rows j = Some ((s, a), (s', a)) -> ~ has_label m tl s -> a_row m (s, a) = Some r -> r < nA M ->
    (forall d, d < nS M -> (0 < prob M r d)%R -> exists x, In (d, x) cols) <-> prob M' j (S N) = 0%R.
  Proof.
    intros j s a s' r Ej Ht Er Hr.
    set (v := fun d => if inb d then 1%R else 0%R). set (v' := fun d => if d <? N then 1%R else 0%R).
    assert (E : ex M r v = ex M' j v').
    { apply (ex_row m il tl ntl nfl init rows cols tmask P m' B PRE D ACT j s a s' r v v' Ej Ht Er).
      - intros d d' Hd. unfold v, v'. rewrite (proj2 (inb_iff d)) by eauto. rewrite (proj2 (Nat.ltb_lt _ _)); auto. apply (col_lt _ _ _ _ _ _ _ _ _ _ D _ _ Hd).
      - intros d Hd Hn. unfold v. destruct (inb d) eqn:Ei; auto. apply inb_iff in Ei. destruct Ei as (x & Hx). exfalso. apply Hn.
        apply (col_relevant _ _ _ _ _ _ _ _ _ _ D _ _ Hx).
      - unfold v'. rewrite (proj2 (Nat.ltb_ge _ _)); auto. }
    pose proof (row_lt rows j _ Ej) as Hj.
    assert (HjA : j < nA M'). { unfold M'. rewrite (nA' m tl ntl nfl init rows cols tmask P m' D). lia. }
    assert (E1 : ex M' j v' = (1 - prob M' j (S N))%R).
    { assert (HnS : nS M' = N + 2) by exact (nS' m tl ntl nfl init rows cols tmask P m' D).
      pose proof (W_sum M' W' j HjA) as HS. rewrite HnS in HS. rewrite (sumn_split2 (N + 2)) in HS by lia.
      unfold ex. rewrite HnS. rewrite (sumn_split2 (N + 2)) by lia.
      replace (N + 2 - 2) with N in * by lia. replace (N + 2 - 1) with (S N) in * by lia.
      assert (G0 : prob M' j N = 0%R).
      { apply (mget'_zero m'). intros p Hp.
        assert (Et : nth s tmask false = false). { destruct (nth s tmask false) eqn:E'; auto. apply (md_tm _ _ _ _ _ _ _ _ _ _ D) in E'. contradiction. }
        eapply (rd_row _ _ _ _ _ _ _ _ (md_red _ _ _ _ _ _ _ _ _ _ D)) in Hp; eauto. destruct Hp as (d & Hd & _). apply (col_lt _ _ _ _ _ _ _ _ _ _ D) in Hd. unfold N in Hd. lia. }
      rewrite G0 in HS. rewrite (sumn_ext N _ (prob M' j)). 2:{ intros d Hd. unfold v'. rewrite (proj2 (Nat.ltb_lt _ _) Hd). lra. }
      unfold v'. rewrite (proj2 (Nat.ltb_ge N N)) by auto. rewrite (proj2 (Nat.ltb_ge (S N) N)) by lia. lra. }
    assert (E2 : ex M r v = (1 - sumn (nS M) (fun d => if inb d then 0 else prob M r d))%R).
    { rewrite <- (W_sum M W r Hr). unfold ex. rewrite <- sumn_minus. apply sumn_ext. intros d Hd. unfold v. destruct (inb d); lra. }
    assert (E3 : prob M' j (S N) = sumn (nS M) (fun d => if inb d then 0%R else prob M r d)) by lra.
    rewrite E3. split.
    - intros H. apply sumn_zero. intros d Hd. destruct (inb d) eqn:Ei; auto. destruct (Rle_lt_or_eq_dec _ _ (W_pos M W r d Hr Hd)) as [Hp|Hp]; [|lra].
      apply H in Hp; auto. apply inb_iff in Hp. congruence.
    - intros H d Hd Hp. apply inb_iff. destruct (inb d) eqn:Ei; auto. exfalso.
      assert (X := sumn_nonneg_zero (nS M) (fun d => if inb d then 0%R else prob M r d)). specialize (X ltac:(intros i Hi; cbv beta; destruct (inb i); [lra|apply (W_pos M W); auto]) H d Hd).
      cbv beta in X. rewrite Ei in X. lra.
  Qed.

  Lemma nS1 : nS M' = N + 2. Proof. exact (nS' m tl ntl nfl init rows cols tmask P m' D). Qed.
  Lemma nA1 : nA M' = length rows + 2. Proof. exact (nA' m tl ntl nfl init rows cols tmask P m' D). Qed.
  Lemma item_lt : forall i d p, In ((i, d), p) (mitems (a_P m)) -> i < nA M.
  Proof. intros i d p H. apply (ok_wf m OK) in H. apply H. Qed.
  Lemma item_lt' : forall i d p, In ((i, d), p) (mitems (a_P m')) -> i < nA M'.
  Proof. intros i d p H. apply (ok_wf m' (m'_ok _ _ _ _ _ _ _ _ _ _ D)) in H. apply H. Qed.
  Lemma inv1 : forall s s' a r, In (s, s') cols -> r < nA M -> a_inv m r = Some (s, a) -> exists j, nth_error rows j = Some ((s, a), (s', a)) /\ a_row m (s, a) = Some r /\ r < nA M /\ a_inv m' j = Some (s', a).
  Proof.
    intros s s' a r Hc HrA Hr.
    destruct (rows_to m tl ntl nfl init rows cols tmask P m' B D s s' r Hc HrA (src_eq m r s a Hr)) as (j & a1 & Ej & Er & _).
    assert (a1 = a). { apply (row_inv m OK) in Er. rewrite Er in Hr. inversion Hr; auto. } subst a1.
    exists j. split; [auto|]. split; [auto|]. split; [auto|]. apply (inv'_cases _ _ _ _ _ _ _ _ _ _ D). left. eauto.
  Qed.
  Lemma inv2 : forall s s' a j, In (s, s') cols -> j < nA M' -> a_inv m' j = Some (s', a) -> exists r, nth_error rows j = Some ((s, a), (s', a)) /\ a_row m (s, a) = Some r /\ r < nA M /\ a_inv m r = Some (s, a).
  Proof.
    intros s s' a j Hc HjA Hj.
    destruct (rows_from m tl ntl nfl init rows cols tmask P m' B D s s' j Hc HjA (src_eq' m' j s' a Hj)) as (r & a1 & Ej & Er & Hr & _).
    assert (a1 = a). { apply (inv'_cases _ _ _ _ _ _ _ _ _ _ D) in Hj. pose proof (row_lt rows j _ Ej). destruct Hj as [(s0 & E & _)|[(E & _)|(E & _)]]; try lia. congruence. } subst a1.
    exists r. split; [auto|]. split; [auto|]. split; [auto|]. apply (row_inv m OK); auto.
  Qed.
  Lemma tm0 : forall s, ~ has_label m tl s -> nth s tmask false = false.
  Proof. intros s H. destruct (nth s tmask false) eqn:E; auto. apply (md_tm _ _ _ _ _ _ _ _ _ _ D) in E. contradiction. Qed.

  Lemma pe_to : forall s s' d d' a, In (s, s') cols -> In (d, d') cols -> ~ has_label m tl s -> pair_edge (a_P m) (a_inv m) s a d -> pair_edge (a_P m') (a_inv m') s' a d'.
  Proof.
    intros s s' d d' a Hs Hd Ht (r & p & Hp & Er). destruct (inv1 s s' a r Hs (item_lt _ _ _ Hp) Er) as (j & Ej & Er' & Hr & Ej').
    exists j, p. split; [|exact Ej']. apply (rd_row _ _ _ _ _ _ _ _ (md_red _ _ _ _ _ _ _ _ _ _ D) _ _ _ _ _ _ _ Ej (tm0 s Ht) Er'); eauto.
    apply (col_lt _ _ _ _ _ _ _ _ _ _ D) in Hd. lia.
  Qed.
  Lemma pe_from : forall s s' x a, In (s, s') cols -> ~ has_label m tl s -> x <= N -> pair_edge (a_P m') (a_inv m') s' a x -> exists d, In (d, x) cols /\ pair_edge (a_P m) (a_inv m) s a d.
  Proof.
    intros s s' x a Hs Ht Hx (j & p & Hp & Ej). destruct (inv2 s s' a j Hs (item_lt' _ _ _ Hp) Ej) as (r & Ej' & Er & Hr & Er').
    apply (rd_row _ _ _ _ _ _ _ _ (md_red _ _ _ _ _ _ _ _ _ _ D) _ _ _ _ _ _ _ Ej' (tm0 s Ht) Er) in Hp; auto.
    destruct Hp as (d & Hd & Hp). exists d. split; auto. exists r, p. auto.
  Qed.
  Lemma pe_target : forall s s' x a, In (s, s') cols -> has_label m tl s -> pair_edge (a_P m') (a_inv m') s' a x -> x = N.
  Proof.
    intros s s' x a Hs Ht (j & p & Hp & Ej). destruct (inv2 s s' a j Hs (item_lt' _ _ _ Hp) Ej) as (r & Ej' & Er & Hr & Er').
    apply (md_tm _ _ _ _ _ _ _ _ _ _ D) in Ht. eapply (rd_target _ _ _ _ _ _ _ _ (md_red _ _ _ _ _ _ _ _ _ _ D)) in Hp; eauto. apply Hp.
  Qed.
  (** No edge to the fail state iff all successors are kept. *)
  Lemma pe_fail : forall s s' a, In (s, s') cols -> ~ has_label m tl s ->
    (~ pair_edge (a_P m') (a_inv m') s' a (S N)) <-> (forall d, pair_edge (a_P m) (a_inv m) s a d -> exists x, In (d, x) cols).
  Proof.
    intros s s' a Hs Ht. split.
    - intros H d (r & p & Hp & Er). destruct (inv1 s s' a r Hs (item_lt _ _ _ Hp) Er) as (j & Ej & Er' & Hr & Ej').
      assert (Hd : d < nS M). { apply (ok_wf m OK) in Hp. apply Hp. }
      apply (proj2 (fail_zero j s a s' r Ej Ht Er' Hr)); auto.
      + apply mget'_zero. intros q Hq. apply H. exists j, q. auto.
      + apply prob_pos_item; eauto.
    - intros H (j & p & Hp & Ej). destruct (inv2 s s' a j Hs (item_lt' _ _ _ Hp) Ej) as (r & Ej' & Er & Hr & Er').
      assert (Z0 : prob M' j (S N) = 0%R).
      { apply (proj1 (fail_zero j s a s' r Ej' Ht Er Hr)). intros d Hd Hpos. apply prob_pos_item in Hpos; auto. destruct Hpos as (q & Hq). apply H. exists r, q. auto. }
      unfold M' in Z0. rewrite (mget'_in m tl ntl nfl init rows cols tmask P m' D _ _ _ Hp) in Z0.
      apply (ok_wf m' (m'_ok _ _ _ _ _ _ _ _ _ _ D)) in Hp. destruct Hp as (_ & _ & NZ). apply NZ. apply eqR_Qeq. rewrite Z0. symmetry. apply RMicromega.Q2R_0.
  Qed.

  Hypothesis CR : can_reach m tl init.
  Lemma init_col : exists x, In (init, x) cols.
  Proof. apply (relevant_col m il tl ntl nfl init rows cols tmask P m' OK PRE D ACT). split; [apply ra_start; auto|auto]. Qed.

  Lemma fail_only : ((forall s, rtc (sys_edge m') s (S N) -> s = S N) <-> never_lost m init tl).
  Proof.
    split.
    - intros H s R. cut (exists x, In (s, x) cols). { intros (x & Hx). apply (col_relevant _ _ _ _ _ _ _ _ _ _ D _ _ Hx). }
      induction R as [s ->|s t R IH Hb He]; [exact init_col|]. destruct IH as (s' & Hs). destruct He as (r & a & p & Hp & Er).
      apply (proj1 (pe_fail s s' a Hs Hb)); [|exists r, p; auto]. intros (j & q & Hq & Ej).
      assert (E : s' = S N). { apply H. econstructor; [|constructor]. exists j, a, q. auto. }
      apply (col_lt _ _ _ _ _ _ _ _ _ _ D) in Hs. unfold N in E. lia.
    - intros H s R. remember (S N) as f. induction R as [|x y z He R IH]; auto. specialize (IH Heqf). subst z. subst y.
      destruct He as (j & a & p & Hp & Ej). pose proof Ej as Ej'. apply (inv'_cases _ _ _ _ _ _ _ _ _ _ D) in Ej'.
      destruct Ej' as [(s & Er & Hs)|[(E1 & E2 & E3)|(E1 & E2 & E3)]]; [|exfalso|exact E2].
      2:{ subst j. apply (rd_goal_row _ _ _ _ _ _ _ _ (md_red _ _ _ _ _ _ _ _ _ _ D)) in Hp. unfold N in Hp. lia. }
      exfalso. assert (DE : has_label m tl s \/ ~ has_label m tl s). { destruct (nth s tmask false) eqn:E; [left; apply (md_tm _ _ _ _ _ _ _ _ _ _ D); auto|right; intros HL; apply (md_tm _ _ _ _ _ _ _ _ _ _ D) in HL; congruence]. }
      destruct DE as [Ht|Ht].
      + assert (E : S N = N); [|lia]. apply (pe_target s x (S N) a Hs Ht). exists j, p. auto.
      + apply (proj2 (pe_fail s x a Hs Ht)); [|exists j, p; auto]. intros d (r & q & Hq & Er').
        apply (relevant_col m il tl ntl nfl init rows cols tmask P m' OK PRE D ACT).
        assert (MD : met m init tl d). { apply ra_step with s; auto. - apply (col_relevant _ _ _ _ _ _ _ _ _ _ D _ _ Hs). - exists r, a, q. auto. }
        split; [exact MD|]. apply H. exact MD.
  Qed.

  Hypothesis LOOP1 : only_loop (a_P m') (a_inv m') N (length rows).
  Hypothesis LOOP2 : only_loop (a_P m') (a_inv m') (S N) (S (length rows)).

  Lemma lab_dec : forall s, has_label m tl s \/ ~ has_label m tl s.
  Proof. intros s. destruct (nth s tmask false) eqn:E; [left; apply (md_tm _ _ _ _ _ _ _ _ _ _ D); auto|right; intros HL; apply (md_tm _ _ _ _ _ _ _ _ _ _ D) in HL; congruence]. Qed.

  Lemma rtc_map : forall (R1 R2 : nat -> nat -> Prop) (C : nat -> nat -> Prop) (I : nat -> Prop) x y, rtc R1 x y -> I x -> 
    (forall u v, I u -> R1 u v -> I v) -> (forall u u' v v', I u -> I v -> C u u' -> C v v' -> R1 u v -> R2 u' v') -> (forall u, I u -> exists u', C u u') -> 
    (forall u u' u'', C u u' -> C u u'' -> u' = u'') ->
    forall x' y', C x x' -> C y y' -> rtc R2 x' y'.
  Proof.
    intros R1 R2 C I x y H IX HI HS HE HU. revert IX. induction H as [x|x y z S1 R1' IH]; intros IX x' y' Cx Cy.
    - rewrite (HU _ _ _ Cx Cy). constructor.
    - assert (IY : I y) by (eapply HI; eauto). destruct (HE y IY) as (w & Cw). apply rtc_step with w; [eapply HS; [exact IX|exact IY| | |]; eauto|apply IH; auto].
  Qed.

  Lemma free_iff : (forall s, s < N -> ~ in_some_ec (a_P m') (a_inv m') s) <->
    (forall X Bc, end_component (a_P m) (a_inv m) X Bc -> ~ (forall s, X s -> relevant m init tl s /\ ~ has_label m tl s)).
  Proof.
    pose proof (md_cb _ _ _ _ _ _ _ _ _ _ D) as CB. split.
    - intros H X Bc (E1 & E2 & E3 & E4) HX. destruct E1 as (s0 & X0).
      assert (XC : forall s, X s -> exists x, In (s, x) cols).
      { intros s Xs. apply (relevant_col m il tl ntl nfl init rows cols tmask P m' OK PRE D ACT). apply HX; auto. }
      destruct (XC s0 X0) as (x0 & C0). apply (H x0); [apply (col_lt _ _ _ _ _ _ _ _ _ _ D _ _ C0)|].
      exists (fun x => exists s, In (s, x) cols /\ X s), (fun x a => exists s, In (s, x) cols /\ Bc s a). split; [|eauto].
      split; [eauto|]. split; [|split].
      + intros x (s & Cs & Xs). destruct (E2 s Xs) as (a & Ba). eauto.
      + intros x a (s & Cs & Ba). destruct (E3 s a Ba) as (Xs & (d & Hd) & HD). destruct (HX s Xs) as [_ Ht]. split; [eauto|]. split.
        * destruct (XC d (HD d Hd)) as (d' & Cd). exists d'. eapply pe_to; eauto.
        * intros y Hy. assert (Ly : y < N + 2). { destruct Hy as (j & p & Hp & _). apply (ok_wf m' (m'_ok _ _ _ _ _ _ _ _ _ _ D)) in Hp. destruct Hp as (_ & Hp & _). rewrite (m'_cols m tl ntl nfl init rows cols tmask P m' D) in Hp. exact Hp. }
          destruct (Nat.eq_dec y (S N)) as [->|Hne].
          -- exfalso. revert Hy. apply (proj2 (pe_fail s x a Cs Ht)). intros d1 H1. apply XC. apply HD. auto.
          -- destruct (pe_from s x y a Cs Ht ltac:(lia) Hy) as (d1 & C1 & P1). exists d1. split; auto.
      + intros x y (s & Cs & Xs) (t & Ct & Xt).
        apply (rtc_map (fun u v => exists a, Bc u a /\ pair_edge (a_P m) (a_inv m) u a v) _ (fun u u' => In (u, u') cols) X s t); auto.
        * intros u v Xu (a & Ba & Pa). apply (E3 u a Ba). auto.
        * intros u u' v v' Xu Xv Cu Cv (a & Ba & Pa). exists a. split; [eauto|]. eapply pe_to; eauto. apply HX; auto.
        * intros u u' u'' C1 C2. apply (cols_fun cols CB _ _ _ C1 C2).
    - intros H s0' L0 (X' & B' & EC & X0). pose proof EC as (E1 & E2 & E3 & E4).
      assert (NG : ~ X' N). { intros XN. pose proof (ec_loop_only _ _ X' B' N _ EC LOOP1 XN s0' X0). lia. }
      assert (NF : ~ X' (S N)). { intros XN. pose proof (ec_loop_only _ _ X' B' (S N) _ EC LOOP2 XN s0' X0). lia. }
      assert (XL : forall x, X' x -> exists s, In (s, x) cols /\ ~ has_label m tl s).
      { intros x Xx. assert (Lx : x < N + 2).
        { destruct (E2 x Xx) as (a & Ba). destruct (E3 x a Ba) as (_ & (d & j & p & Hp & Ej) & _). destruct (ok_wf m' (m'_ok _ _ _ _ _ _ _ _ _ _ D)) as [_ WF']. 
          apply (inv'_cases _ _ _ _ _ _ _ _ _ _ D) in Ej. destruct Ej as [(s & _ & Hs)|[(_ & -> & _)|(_ & -> & _)]]; [apply (col_lt _ _ _ _ _ _ _ _ _ _ D) in Hs; unfold N; lia|unfold N; lia|unfold N; lia]. }
        assert (x <> N) by (intros ->; auto). assert (x <> S N) by (intros ->; auto).
        destruct (col_onto m tl ntl nfl init rows cols tmask P m' D x) as (s & Hs); [unfold N in *; lia|]. exists s. split; auto. intros Ht.
        destruct (E2 x Xx) as (a & Ba). destruct (E3 x a Ba) as (_ & (d & Hd) & HD). apply NG. rewrite <- (pe_target s x d a Hs Ht Hd). auto. }
      apply (H (fun s => exists x, In (s, x) cols /\ X' x) (fun s a => exists x, In (s, x) cols /\ B' x a)).
      + split; [|split; [|split]].
        * destruct (XL s0' X0) as (s & Hs & _). eauto.
        * intros s (x & Cx & Xx). destruct (E2 x Xx) as (a & Ba). eauto.
        * intros s a (x & Cx & Ba). destruct (E3 x a Ba) as (Xx & (d & Hd) & HD). split; [eauto|].
          destruct (XL x Xx) as (s1 & C1 & Ht). rewrite (cols_inj cols CB _ _ _ C1 Cx) in Ht. clear s1 C1. split.
          -- destruct (XL d (HD d Hd)) as (d0 & C0 & _). destruct (pe_from s x d a Cx Ht) as (d1 & C1 & P1); [apply (col_lt _ _ _ _ _ _ _ _ _ _ D) in C0; unfold N; lia|auto|]. eauto.
          -- intros d1 P1. assert (CD : exists y, In (d1, y) cols).
             { refine (proj1 (pe_fail s x a Cx Ht) _ d1 P1). intros HF. apply NF. apply HD. exact HF. }
             destruct CD as (y & Cy). exists y. split; auto. apply HD. eapply pe_to; eauto.
        * intros s t (x & Cx & Xx) (y & Cy & Xy).
          apply (rtc_map (fun u v => exists a, B' u a /\ pair_edge (a_P m') (a_inv m') u a v) _ (fun u' u => In (u, u') cols) X' x y); auto.
          -- intros u v Xu (a & Ba & Pa). apply (E3 u a Ba). auto.
          -- intros u' u v' v Xu Xv Cu Cv (a & Ba & Pa). exists a. split; [eauto|]. destruct (XL u' Xu) as (u1 & C1 & Ht). rewrite (cols_inj cols CB _ _ _ C1 Cu) in Ht.
             destruct (pe_from u u' v' a Cu Ht) as (d1 & C2 & P1); [apply (col_lt _ _ _ _ _ _ _ _ _ _ D) in Cv; unfold N; lia|auto|]. rewrite (cols_inj cols CB _ _ _ Cv C2). auto.
          -- intros u Xu. destruct (XL u Xu) as (s1 & C1 & _). eauto.
          -- intros u u' u'' C1 C2. apply (cols_inj cols CB _ _ _ C1 C2).
      + intros s (x & Cx & Xx). split; [apply (col_relevant _ _ _ _ _ _ _ _ _ _ D _ _ Cx)|]. destruct (XL x Xx) as (s1 & C1 & Ht). rewrite (cols_inj cols CB _ _ _ C1 Cx) in Ht. auto.
  Qed.
End Red.

Lemma met_relevant : forall m init tl, never_lost m init tl -> forall s, relevant m init tl s <-> met m init tl s.
Proof. intros m init tl H s. split; [intros [A _]; exact A|intros A; split; [exact A|auto]]. Qed.

(** What is known about a successful [reduce]. *)
Lemma red_facts : forall rnd m il tl rf cols rows, built m -> every_state_acts m -> exact_rows (a_P m) ->
  reduce rnd m il tl "rf_target" "rf_fail" = Ok (rf, cols, rows) ->
  built_form rf /\ exact_rows (a_P (rf_sys rf)) /\ rf_init rf < a_N (rf_sys rf) - 2 /\
  exists init, only_state m il init /\ 
   ((forall s, rtc (sys_edge (rf_sys rf)) s (a_N (rf_sys rf) - 1) -> s = a_N (rf_sys rf) - 1) <-> never_lost m init tl) /\
   ((forall s, s < a_N (rf_sys rf) - 2 -> ~ in_some_ec (a_P (rf_sys rf)) (a_inv (rf_sys rf)) s) <->
      (forall X Bc, end_component (a_P m) (a_inv m) X Bc -> ~ (forall s, X s -> relevant m init tl s /\ ~ has_label m tl s))).
Proof.
  intros rnd m il tl rf cols rows B ACT EX H.
  destruct (reduce_returns _ _ _ _ _ _ _ _ _ B H) as (init & tm & P & PRE & D & [_ CR] & Ei & Erf).
  assert (Hne : "rf_target"%string <> "rf_fail"%string) by discriminate.
  destruct (reduce_mid_result rnd m il tl _ _ init rows cols tm P _ B ACT Hne PRE D CR) as (rf1 & Erf1 & _ & BF & EX' & _).
  rewrite Erf in Erf1. inversion Erf1; subst rf1. clear Erf1. specialize (EX' EX).
  apply (cols_get cols (md_cb _ _ _ _ _ _ _ _ _ _ D)) in Ei.
  pose proof (col_lt _ _ _ _ _ _ _ _ _ _ D _ _ Ei) as Li.
  pose proof (rd_N _ _ _ _ _ _ _ _ (md_red _ _ _ _ _ _ _ _ _ _ D)) as EN. pose proof (rd_C _ _ _ _ _ _ _ _ (md_red _ _ _ _ _ _ _ _ _ _ D)) as EC.
  split; [auto|]. split; [auto|]. rewrite EN. replace (length cols + 2 - 2) with (length cols) by lia. replace (length cols + 2 - 1) with (S (length cols)) by lia.
  split; [exact Li|]. exists init. split; [apply PRE|].
  pose proof (mid_form m il tl _ _ init rows cols tm P (rf_sys rf) (built_ok m B) PRE D ACT Hne _ Ei) as HF.
  destruct HF as (_ & _ & _ & _ & _ & _ & _ & L1 & L2 & _). change (mcols (a_P (rf_sys rf))) with (a_N (rf_sys rf)) in *. change (mrows (a_P (rf_sys rf))) with (a_C (rf_sys rf)) in *.
  rewrite EN, EC in *. replace (length cols + 2 - 2) with (length cols) in * by lia. replace (length cols + 2 - 1) with (S (length cols)) in * by lia.
  replace (length rows + 2 - 2) with (length rows) in * by lia. replace (length rows + 2 - 1) with (S (length rows)) in * by lia.
  pose proof (br_wf rf BF EX') as W'.
  split; [eapply fail_only; eauto|eapply free_iff; eauto].
Qed.

Lemma rd_rewards : forall rnd m il tl rf cols rows, built m -> reduce rnd m il tl "rf_target" "rf_fail" = Ok (rf, cols, rows) ->
  match a_rew m with
  | None => a_rew (rf_sys rf) = None
  | Some r => exists v, a_rew (rf_sys rf) = Some v /\ length v = a_C (rf_sys rf) /\
      (forall j s a k i, nth_error rows j = Some ((s, a), k) -> a_row m (s, a) = Some i -> nth_error v j = nth_error r i)
  end /\ a_C (rf_sys rf) = length rows + 2 /\ a_N (rf_sys rf) = length cols + 2.
Proof.
  intros rnd m il tl rf cols rows B H. destruct (reduce_returns _ _ _ _ _ _ _ _ _ B H) as (init & tm & P & PRE & D & _).
  pose proof (rd_rew _ _ _ _ _ _ _ _ (md_red _ _ _ _ _ _ _ _ _ _ D)) as RW. unfold rew_ok in RW.
  pose proof (rd_C _ _ _ _ _ _ _ _ (md_red _ _ _ _ _ _ _ _ _ _ D)) as EC. pose proof (rd_N _ _ _ _ _ _ _ _ (md_red _ _ _ _ _ _ _ _ _ _ D)) as EN.
  split; [|auto]. destruct (a_rew m) as [r|]; auto. destruct RW as (v & E & L & HV & _). exists v. split; [auto|]. split; [lia|].
  intros j s a k i Ej Er. eapply HV; eauto. apply row_lt in Ej. auto.
Qed.

Lemma C58_succeeds_lemma : forall rnd rnd' m il tl, built m -> every_state_acts m -> exact_rows (a_P m) ->
  ((exists x, rr_reduce rnd rnd' m il tl = Ok x) <->
   (exists x, reduce rnd m il tl "rf_target" "rf_fail" = Ok x) /\ a_rew m <> None /\
   exists init, only_state m il init /\ never_lost m init tl /\ no_resting m init tl).
Proof.
  intros rnd rnd' m il tl B ACT EX. unfold rr_reduce. destruct (reduce rnd m il tl "rf_target" "rf_fail") as [[[rf cols] rows]|e] eqn:ER.
  2:{ cbn [bind]. split; [intros (x & E); discriminate|intros ((x & E) & _); discriminate]. }
  cbn [bind]. destruct (red_facts rnd m il tl rf cols rows B ACT EX ER) as (BF & _ & _ & init & OI & F1 & F2).
  destruct (rd_rewards rnd m il tl rf cols rows B ER) as [RW _].
  assert (K : assert_reachform_consistency rnd' rf = Ok tt <-> a_rew m <> None /\ never_lost m init tl /\ no_resting m init tl).
  { rewrite (consistency_iff rnd' rf BF). rewrite F1, F2. split.
    - intros ((r & E) & H1 & H2). split; [intros E0; rewrite E0 in RW; congruence|]. split; [auto|]. intros X Bc EC HX. apply (H2 X Bc EC). intros s Xs. rewrite (met_relevant m init tl H1). auto.
    - intros (H0 & H1 & H2). split; [destruct (a_rew m); [destruct RW as (v & E & _); eauto|congruence]|]. split; [auto|]. intros X Bc EC HX. apply (H2 X Bc EC). intros s Xs. rewrite <- (met_relevant m init tl H1). auto. }
  split.
  - intros (x & E). apply bind_ok in E. destruct E as ([] & E & E'). apply K in E. destruct E as (A & C & D). split; [eauto|]. split; [auto|]. eauto.
  - intros (_ & A & i & OI' & C & D). assert (i = init) by (apply OI; apply OI'; auto). subst i.
    rewrite (proj2 K) by auto. cbn [bind]. destruct (a_rew m) as [r|]; [|congruence]. destruct RW as (v & -> & _). cbn [of_opt bind]. eauto.
Qed.

Lemma rr_reduce_inv : forall rnd rnd' m il tl rr cols rows, built m -> every_state_acts m -> exact_rows (a_P m) ->
  rr_reduce rnd rnd' m il tl = Ok (rr, cols, rows) ->
  reduce rnd m il tl "rf_target" "rf_fail" = Ok (rr_rf rr, cols, rows) /\
  exists r v, a_rew m = Some r /\ a_rew (rf_sys (rr_rf rr)) = Some v /\ rr_rew rr = drop2 v.
Proof.
  intros rnd rnd' m il tl rr cols rows B ACT EX H. unfold rr_reduce in H. apply bind_ok in H. destruct H as ([[rf c] rw] & ER & H).
  apply bind_ok in H. destruct H as ([] & _ & H). apply bind_ok in H. destruct H as (v & EV & H). inversion H; subst. simpl.
  split; auto. destruct (rd_rewards rnd m il tl rf cols rows B ER) as [RW _]. destruct (a_rew (rf_sys rf)) as [v0|]; [|discriminate]. inversion EV; subst.
  destruct (a_rew m) as [r|]; [eauto|discriminate].
Qed.

Lemma C58_contents_lemma : forall rnd rnd' m il tl rr cols rows, built m -> every_state_acts m -> exact_rows (a_P m) ->
  rr_reduce rnd rnd' m il tl = Ok (rr, cols, rows) ->
  let rf := rr_rf rr in let m' := rf_sys rf in
  reduce rnd m il tl "rf_target" "rf_fail" = Ok (rf, cols, rows) /\
  built_form rf /\ exact_rows (a_P m') /\ rf_init rf < a_N m' - 2 /\ ec_free (form_mdp rf) /\
  (forall s, rtc (sys_edge m') s (a_N m' - 1) -> s = a_N m' - 1) /\
  length (rr_rew rr) = a_C m' - 2 /\ (forall q, In q (rr_rew rr) -> (0 <= q)%Q) /\
  exists r, a_rew m = Some r /\ forall s a s' i i', In ((s, a), (s', a)) rows -> a_row m (s, a) = Some i -> a_row m' (s', a) = Some i' ->
    nth_error (rr_rew rr) i' = nth_error r i.
Proof.
  intros rnd rnd' m il tl rr cols rows B ACT EX H rf m'.
  destruct (rr_reduce_inv rnd rnd' m il tl rr cols rows B ACT EX H) as (ER & r & v & Er & Ev & Ed). fold rf in ER, Ev. fold m' in Ev.
  destruct (red_facts rnd m il tl rf cols rows B ACT EX ER) as (BF & EX' & Li & _).
  destruct (rd_rewards rnd m il tl rf cols rows B ER) as (RW & EC & EN). rewrite Er in RW. destruct RW as (v0 & Ev0 & LV & HV). fold m' in Ev0, LV, EC, EN. rewrite Ev in Ev0. inversion Ev0; subst v0.
  assert (CO : assert_reachform_consistency rnd' rf = Ok tt).
  { unfold rr_reduce in H. rewrite ER in H. cbn [bind] in H. apply bind_ok in H. destruct H as ([] & H & _). auto. }
  apply (consistency_iff rnd' rf BF) in CO. destruct CO as (_ & CF & CE). fold m' in CF, CE.
  destruct (drop2_spec v (length rows)) as [D1 D2]; [lia|].
  split; [auto|]. split; [auto|]. split; [auto|]. split; [auto|].
  split. { intros s Hs HE. apply (br_ec rf BF EX') in HE. apply (CE s); auto. }
  split; [auto|]. rewrite Ed. split; [lia|]. split.
  - intros q Hq. apply (In_nth _ _ 0%Q) in Hq. destruct Hq as (j & Hj & <-). rewrite D1 in Hj. rewrite D2 by auto.
    destruct (built_form_ok rf BF) as [RO _]. destruct (ro_sys rf RO) as (_ & _ & (_ & _ & _ & VR & _) & _). fold m' in VR.
    destruct (VR v Ev j) as (q & Eq & Hq). { change (mrows (a_P m')) with (a_C m'). lia. } rewrite (nth_error_nth _ _ _ Eq). auto.
  - exists r. split; auto. intros s a s' i i' Hin Ei Ei'.
    destruct (In_nth_error _ _ Hin) as (j & Ej). destruct (reduce_returns _ _ _ _ _ _ _ _ _ B ER) as (init & tm & P & PRE & D & _).
    assert (j = i').
    { assert (Ej' : a_inv m' j = Some (s', a)). { apply (inv'_cases _ _ _ _ _ _ _ _ _ _ D). left. exists s. split; auto. eapply md_rc; eauto. }
      destruct (built_form_ok rf BF) as [RO _]. apply (row_inv m' (ro_sys rf RO)) in Ej'. congruence. }
    subst j. pose proof (row_lt _ _ _ Ej) as Lj. rewrite <- (HV _ _ _ _ _ Ej Ei).
    rewrite (nth_error_nth' (drop2 v) 0%Q) by lia. rewrite D2 by auto. rewrite (nth_error_nth' v 0%Q) by lia. auto.
Qed.

(** ** Expected rewards are kept *)
Section Keep.
  Variables (m : amdp) (il tl : string) (init : nat).
  Variables (rows : dict (nat * nat) (nat * nat)) (cols : dict nat nat) (tmask : list bool) (P : mat) (m' : amdp).
  Let ntl := "rf_target"%string.
  Let nfl := "rf_fail"%string.
  Hypothesis B : built m.
  Hypothesis PRE : red_pre m il tl ntl nfl init.
  Hypothesis D : red_mid m tl ntl nfl init rows cols tmask P m'.
  Hypothesis ACT : every_state_acts m.
  Hypothesis EX : exact_rows (a_P m).
  Hypothesis W' : wf_mdp (mdp_of m').
  Let OK : sys_ok m := built_ok m B.
  Let M := mdp_of m.
  Let M' := mdp_of m'.
  Let T := label_set m tl.
  Let N := length cols.
  Let W : wf_mdp M := m_wf m B ACT EX.
  Hypothesis NF : forall s, rtc (sys_edge m') s (S N) -> s = S N.
  Variable rw' : nat -> R.
  Hypothesis RW : forall j s a s' r, nth_error rows j = Some ((s, a), (s', a)) -> a_row m (s, a) = Some r -> sys_reward m r = rw' j.
  Hypothesis TF : targets_free m tl.
  Let X (s : nat) : bool := inb cols s && negb (T s).
  Let CB : bid_ok cols := md_cb _ _ _ _ _ _ _ _ _ _ D.

  Definition col (s : nat) : nat := match dget Nat.eqb cols s with Some x => x | None => 0 end.
  Lemma col_eq : forall s x, In (s, x) cols -> col s = x.
  Proof. intros s x H. unfold col. apply (cols_get cols CB) in H. rewrite H. auto. Qed.
  Lemma colN : forall s x, In (s, x) cols -> (x <? N) = true.
  Proof. intros s x H. apply Nat.ltb_lt. apply (col_lt _ _ _ _ _ _ _ _ _ _ D _ _ H). Qed.
  Lemma Tlab : forall s, T s = true <-> has_label m tl s. Proof. apply T_iff. Qed.
  Lemma Tlab0 : forall s, T s = false <-> ~ has_label m tl s.
  Proof. intros s. rewrite <- Tlab. destruct (T s); split; congruence. Qed.
  Lemma X_iff : forall s, X s = true <-> (exists x, In (s, x) cols) /\ ~ has_label m tl s.
  Proof. intros s. unfold X. rewrite andb_true_iff, negb_true_iff, Tlab0, inb_iff. tauto. Qed.
  Lemma XT : forall s, X s = true -> T s = false.
  Proof. intros s H. apply X_iff in H. apply Tlab0. tauto. Qed.
  Lemma succ_in : forall r d, r < nA M -> d < nS M -> X (src M r) = true -> (0 < prob M r d)%R -> exists x, In (d, x) cols.
  Proof.
    intros r d Hr Hd HX Hp. apply X_iff in HX. destruct HX as ((x & Hx) & Ht). apply (prob_pos_item m B r d Hr Hd) in Hp. destruct Hp as (p & Hp).
    destruct (src_inv m B r Hr) as (a & Ea).
    apply (proj1 (pe_fail m il tl init rows cols tmask P m' B PRE D ACT EX W' _ x a Hx Ht)); [|exists r, p; split; [auto|exact Ea]].
    intros (j & q & Hq & Ej). assert (E : x = S N). { apply NF. econstructor; [|constructor]. exists j, a, q. auto. }
    apply (col_lt _ _ _ _ _ _ _ _ _ _ D) in Hx. unfold N in E. lia.
  Qed.
  Lemma XZ : forall r d, r < nA M -> d < nS M -> X (src M r) = true -> (0 < prob M r d)%R -> X d = true \/ T d = true.
  Proof.
    intros r d Hr Hd HX Hp. destruct (T d) eqn:ET; auto. left. apply X_iff. split; [eapply succ_in; eauto|]. apply Tlab0. auto.
  Qed.
  Lemma ZX : forall s, T s = true -> X s = false.
  Proof. intros s H. unfold X. rewrite H. apply andb_false_r. Qed.
  Lemma ZZ : forall r d, r < nA M -> d < nS M -> T (src M r) = true -> T (src M r) = false -> (0 < prob M r d)%R -> T d = true.
  Proof. intros. congruence. Qed.
  Lemma QT : quiet M T T (sys_reward m).
  Proof. intros r Hr H1 H2. congruence. Qed.

  (** A row of [M] and its copy. *)
  Lemma step_eq : forall j s a s' r (z' : nat -> R), nth_error rows j = Some ((s, a), (s', a)) -> ~ has_label m tl s -> a_row m (s, a) = Some r ->
    (forall d d', In (d, d') cols -> has_label m tl d -> z' d' = 0%R) ->
    gstep M X (sys_reward m) r (fun d => z' (col d)) = rstep M' rw' j z'.
  Proof.
    intros j s a s' r z' Ej Ht Er Hz. unfold gstep, rstep. rewrite (RW j s a s' r Ej Er). f_equal.
    pose proof (nS1 m tl init rows cols tmask P m' D) as HnS. fold M' N in HnS. change (nS M' = N + 2) in HnS.
    rewrite (ex_row m il tl ntl nfl init rows cols tmask P m' B PRE D ACT j s a s' r _ (fun d => if d <? N then z' d else 0%R) Ej Ht Er).
    - unfold ex. change (mdp_of m') with M'. rewrite HnS. rewrite (sumn_split2 (N + 2)) by lia. replace (N + 2 - 2) with N by lia. replace (N + 2 - 1) with (S N) by lia.
      rewrite (proj2 (Nat.ltb_ge N N)) by auto. rewrite (proj2 (Nat.ltb_ge (S N) N)) by lia. rewrite !Rmult_0_r, !Rplus_0_r.
      apply sumn_ext. intros d Hd. rewrite (proj2 (Nat.ltb_lt _ _) Hd). auto.
    - intros d d' Hd. rewrite (colN d d' Hd). unfold cut. destruct (X d) eqn:EX0.
      + rewrite (col_eq d d' Hd). auto.
      + symmetry. apply (Hz d d' Hd). destruct (T d) eqn:ET; [apply Tlab; auto|]. exfalso. assert (X d = true); [|congruence]. apply X_iff. split; [eauto|apply Tlab0; auto].
    - intros d Hd Hn. unfold cut. destruct (X d) eqn:EX0; auto. exfalso. apply X_iff in EX0. destruct EX0 as ((x & Hx) & _). apply Hn. apply (col_relevant _ _ _ _ _ _ _ _ _ _ D _ _ Hx).
    - cbv beta. destruct (Nat.ltb_spec (S (length cols)) N) as [L|L]; [unfold N in L; lia|auto].
  Qed.

  Lemma rank_down : forall w', (forall s, s < N -> (0 <= w' s)%R) -> (forall r, r < nA M' - 2 -> (1 <= w' (src M' r) - sumn N (fun d => prob M' r d * w' d))%R) ->
    (forall s, s < nS M -> X s = true -> (0 <= w' (col s))%R) /\
    (forall r, r < nA M -> X (src M r) = true -> (1 <= w' (col (src M r)) - ex M r (cut X (fun d => w' (col d))))%R).
  Proof.
    intros w' H0 H1. split.
    - intros s Hs HX. apply X_iff in HX. destruct HX as ((x & Hx) & _). rewrite (col_eq s x Hx). apply H0. apply (col_lt _ _ _ _ _ _ _ _ _ _ D _ _ Hx).
    - intros r Hr HX. pose proof HX as HX'. apply X_iff in HX. destruct HX as ((x & Hx) & Ht).
      destruct (rows_to m tl ntl nfl init rows cols tmask P m' B D _ x r Hx Hr eq_refl) as (j & a & Ej & Er & Hj & Es).
      pose proof (row_lt rows j _ Ej) as Lj. specialize (H1 j). change (src M' j = x) in Es. rewrite Es in H1. rewrite (col_eq _ x Hx).
      pose proof (nS1 m tl init rows cols tmask P m' D) as HnS. change (nS M' = N + 2) in HnS. pose proof (nA1 m tl init rows cols tmask P m' D) as HnA. change (nA M' = length rows + 2) in HnA.
      specialize (H1 ltac:(lia)).
      cut (ex M r (cut X (fun d => w' (col d))) <= sumn N (fun d => prob M' j d * w' d))%R; [intros; lra|].
      apply Rle_trans with (ex M r (fun d => if inb cols d then w' (col d) else 0%R)).
      + apply (ex_le M W); auto. intros d Hd. unfold cut, X. destruct (inb cols d) eqn:EI; simpl; [|lra]. destruct (T d); simpl; [|lra].
        apply inb_iff in EI. destruct EI as (y & Hy). rewrite (col_eq d y Hy). apply H0. apply (col_lt _ _ _ _ _ _ _ _ _ _ D _ _ Hy).
      + right. rewrite (ex_row m il tl ntl nfl init rows cols tmask P m' B PRE D ACT j _ a x r _ (fun d => if d <? N then w' d else 0%R) Ej Ht Er).
        * unfold ex. change (mdp_of m') with M'. rewrite HnS. rewrite (sumn_split2 (N + 2)) by lia. replace (N + 2 - 2) with N by lia. replace (N + 2 - 1) with (S N) by lia.
          rewrite (proj2 (Nat.ltb_ge N N)) by auto. rewrite (proj2 (Nat.ltb_ge (S N) N)) by lia. rewrite !Rmult_0_r, !Rplus_0_r.
          apply sumn_ext. intros d Hd. rewrite (proj2 (Nat.ltb_lt _ _) Hd). auto.
        * intros d d' Hd. rewrite (colN d d' Hd). rewrite (proj2 (inb_iff cols d)) by eauto. rewrite (col_eq d d' Hd). auto.
        * intros d Hd Hn. destruct (inb cols d) eqn:EI; auto. exfalso. apply inb_iff in EI. destruct EI as (y & Hy). apply Hn. apply (col_relevant _ _ _ _ _ _ _ _ _ _ D _ _ Hy).
        * cbv beta. destruct (Nat.ltb_spec (S (length cols)) N) as [L|L]; [unfold N in L; lia|auto].
  Qed.

  (** Targets have value zero. *)
  Lemma target_zero : forall (z' : nat -> R), (forall s, s < N -> exists r, r < nA M' - 2 /\ src M' r = s /\ z' s = rstep M' rw' r z') ->
    forall d d', In (d, d') cols -> has_label m tl d -> z' d' = 0%R.
  Proof.
    intros z' HB d d' Hd Ht. pose proof (nS1 m tl init rows cols tmask P m' D) as HnS. change (nS M' = N + 2) in HnS.
    destruct (HB d') as (j & Hj & Es & ->); [apply (col_lt _ _ _ _ _ _ _ _ _ _ D _ _ Hd)|].
    destruct (rows_from m tl ntl nfl init rows cols tmask P m' B D d d' j Hd ltac:(fold M'; lia) Es) as (r & a & Ej & Er & Hr & Es').
    unfold rstep. rewrite <- (RW j d a d' r Ej Er).
    rewrite (TF d a r Ht Hr (proj1 (row_inv m OK _ _) Er)).
    rewrite sumn_zero; [ring|]. intros x Hx. rewrite (mget'_zero m'); [ring|]. intros p Hp. apply (md_tm _ _ _ _ _ _ _ _ _ _ D) in Ht.
    eapply (rd_target _ _ _ _ _ _ _ _ (md_red _ _ _ _ _ _ _ _ _ _ D)) in Hp; eauto. unfold N in *. lia.
  Qed.

  Lemma keep_min : forall w' z', (forall s, s < N -> (0 <= w' s)%R) -> (forall r, r < nA M' - 2 -> (1 <= w' (src M' r) - sumn N (fun d => prob M' r d * w' d))%R) ->
    (forall s, s < N -> (0 <= z' s)%R) -> (forall r, r < nA M' - 2 -> (z' (src M' r) <= rstep M' rw' r z')%R) ->
    (forall s, s < N -> exists r, r < nA M' - 2 /\ src M' r = s /\ z' s = rstep M' rw' r z') ->
    forall s s', In (s, s') cols -> IsRewMin M T (sys_reward m) s (z' s').
  Proof.
    intros w' z' W0 W1 Z0 Z1 Z2 s s' Hc. destruct (rank_down w' W0 W1) as [R0 R1]. pose proof (target_zero z' Z2) as TZ.
    pose proof (nS1 m tl init rows cols tmask P m' D) as HnS. change (nS M' = N + 2) in HnS. pose proof (nA1 m tl init rows cols tmask P m' D) as HnA. change (nA M' = length rows + 2) in HnA.
    destruct (keep_lt m il tl ntl nfl init rows cols tmask P m' B PRE D s s' Hc) as [L1 _]. fold M in L1.
    destruct (T s) eqn:ET.
    - rewrite (TZ s s' Hc) by (apply Tlab; auto). pose proof (fun sg V => quiet_value M W T T ZZ (sys_reward m) QT sg s V L1 ET) as QV. split.
      + intros sg V. exists 0%R. apply QV; auto.
      + split.
        * intros x (sg & V & E). apply QV in E; auto. subst. lra.
        * intros b Hb. apply Hb. destruct (Vmin_attained M W T s L1) as (sg & V & _). exists sg. split; auto. apply QV; auto.
    - rewrite <- (col_eq s s' Hc). apply (grew_min_char M W T X T XT XZ ZX ZZ (fun d => w' (col d)) R0 R1 (sys_reward m) QT (fun d => z' (col d))); auto.
      + intros d Hd HX. apply X_iff in HX. destruct HX as ((x & Hx) & _). rewrite (col_eq d x Hx). apply Z0. apply (col_lt _ _ _ _ _ _ _ _ _ _ D _ _ Hx).
      + intros r Hr HX. apply X_iff in HX. destruct HX as ((x & Hx) & Ht).
        destruct (rows_to m tl ntl nfl init rows cols tmask P m' B D _ x r Hx Hr eq_refl) as (j & a & Ej & Er & Hj & Es).
        rewrite (step_eq j _ a x r z' Ej Ht Er TZ). rewrite (col_eq _ x Hx). rewrite <- Es. apply Z1. pose proof (row_lt rows j _ Ej). lia.
      + intros d Hd HX. apply X_iff in HX. destruct HX as ((x & Hx) & Ht). destruct (Z2 x) as (j & Hj & Es & Ez); [apply (col_lt _ _ _ _ _ _ _ _ _ _ D _ _ Hx)|].
        destruct (rows_from m tl ntl nfl init rows cols tmask P m' B D d x j Hx ltac:(fold M'; lia) Es) as (r & a & Ej & Er & Hr & Es').
        exists r. split; [auto|]. split; [auto|]. rewrite (step_eq j _ a x r z' Ej Ht Er TZ). rewrite (col_eq _ x Hx). auto.
      + apply X_iff. split; [eauto|apply Tlab0; auto].
  Qed.
  Lemma keep_max : forall w' z', (forall s, s < N -> (0 <= w' s)%R) -> (forall r, r < nA M' - 2 -> (1 <= w' (src M' r) - sumn N (fun d => prob M' r d * w' d))%R) ->
    (forall s, s < N -> (0 <= z' s)%R) -> (forall r, r < nA M' - 2 -> (rstep M' rw' r z' <= z' (src M' r))%R) ->
    (forall s, s < N -> exists r, r < nA M' - 2 /\ src M' r = s /\ z' s = rstep M' rw' r z') ->
    forall s s', In (s, s') cols -> IsRewMax M T (sys_reward m) s (z' s').
  Proof.
    intros w' z' W0 W1 Z0 Z1 Z2 s s' Hc. destruct (rank_down w' W0 W1) as [R0 R1]. pose proof (target_zero z' Z2) as TZ.
    pose proof (nS1 m tl init rows cols tmask P m' D) as HnS. change (nS M' = N + 2) in HnS. pose proof (nA1 m tl init rows cols tmask P m' D) as HnA. change (nA M' = length rows + 2) in HnA.
    destruct (keep_lt m il tl ntl nfl init rows cols tmask P m' B PRE D s s' Hc) as [L1 _]. fold M in L1.
    destruct (T s) eqn:ET.
    - rewrite (TZ s s' Hc) by (apply Tlab; auto). pose proof (fun sg V => quiet_value M W T T ZZ (sys_reward m) QT sg s V L1 ET) as QV. split.
      + intros sg V. exists 0%R. apply QV; auto.
      + split.
        * intros x (sg & V & E). apply QV in E; auto. subst. lra.
        * intros b Hb. apply Hb. destruct (Vmin_attained M W T s L1) as (sg & V & _). exists sg. split; auto. apply QV; auto.
    - rewrite <- (col_eq s s' Hc). apply (grew_max_char M W T X T XT XZ ZX ZZ (fun d => w' (col d)) R0 R1 (sys_reward m) QT (fun d => z' (col d))); auto.
      + intros d Hd HX. apply X_iff in HX. destruct HX as ((x & Hx) & _). rewrite (col_eq d x Hx). apply Z0. apply (col_lt _ _ _ _ _ _ _ _ _ _ D _ _ Hx).
      + intros r Hr HX. apply X_iff in HX. destruct HX as ((x & Hx) & Ht).
        destruct (rows_to m tl ntl nfl init rows cols tmask P m' B D _ x r Hx Hr eq_refl) as (j & a & Ej & Er & Hj & Es).
        rewrite (step_eq j _ a x r z' Ej Ht Er TZ). rewrite (col_eq _ x Hx). rewrite <- Es. apply Z1. pose proof (row_lt rows j _ Ej). lia.
      + intros d Hd HX. apply X_iff in HX. destruct HX as ((x & Hx) & Ht). destruct (Z2 x) as (j & Hj & Es & Ez); [apply (col_lt _ _ _ _ _ _ _ _ _ _ D _ _ Hx)|].
        destruct (rows_from m tl ntl nfl init rows cols tmask P m' B D d x j Hx ltac:(fold M'; lia) Es) as (r & a & Ej & Er & Hr & Es').
        exists r. split; [auto|]. split; [auto|]. rewrite (step_eq j _ a x r z' Ej Ht Er TZ). rewrite (col_eq _ x Hx). auto.
      + apply X_iff. split; [eauto|apply Tlab0; auto].
  Qed.
End Keep.

Lemma IsRewMin_unique : forall M T rew s x y, IsRewMin M T rew s x -> (IsRewMin M T rew s y <-> x = y).
Proof.
  intros M T rew s x y [A [B1 B2]]. split; [|intros <-; split; [auto|split; auto]].
  intros [_ [C1 C2]]. apply Rle_antisym; [apply C2; exact B1|apply B2; exact C1].
Qed.
Lemma IsRewMax_unique : forall M T rew s x y, IsRewMax M T rew s x -> (IsRewMax M T rew s y <-> x = y).
Proof.
  intros M T rew s x y [A [B1 B2]]. split; [|intros <-; split; [auto|split; auto]].
  intros [_ [C1 C2]]. apply Rle_antisym; [apply B2; exact C1|apply C2; exact B1].
Qed.

Lemma C59_lemma : forall rnd rnd' m il tl rr cols rows, built m -> every_state_acts m -> exact_rows (a_P m) -> targets_free m tl ->
  rr_reduce rnd rnd' m il tl = Ok (rr, cols, rows) -> forall s s', dget Nat.eqb cols s = Some s' ->
  (forall v, IsRewMin (mdp_of m) (label_set m tl) (sys_reward m) s v <-> RewMinForm (rr_rf rr) (rr_rew rr) s' v) /\
  (forall v, IsRewMax (mdp_of m) (label_set m tl) (sys_reward m) s v <-> RewMaxForm (rr_rf rr) (rr_rew rr) s' v).
Proof.
  intros rnd rnd' m il tl rr cols rows B ACT EX TF H s s' Hc.
  destruct (C58_contents_lemma rnd rnd' m il tl rr cols rows B ACT EX H) as (ER & BF & EX' & Li & FREE & NF & LR & NR & r0 & Er0 & HR).
  set (rf := rr_rf rr) in *. set (m' := rf_sys rf) in *.
  destruct (reduce_returns _ _ _ _ _ _ _ _ _ B ER) as (init & tm & P & PRE & D & _). fold m' in D.
  apply (cols_get cols (md_cb _ _ _ _ _ _ _ _ _ _ D)) in Hc. pose proof (col_lt _ _ _ _ _ _ _ _ _ _ D _ _ Hc) as Lc.
  pose proof (rd_N _ _ _ _ _ _ _ _ (md_red _ _ _ _ _ _ _ _ _ _ D)) as EN. pose proof (rd_C _ _ _ _ _ _ _ _ (md_red _ _ _ _ _ _ _ _ _ _ D)) as EC.
  assert (EN' : rf_N rf = length cols). { unfold rf_N. fold m'. lia. }
  assert (RWE : forall j s a s' r, nth_error rows j = Some ((s, a), (s', a)) -> a_row m (s, a) = Some r -> sys_reward m r = row_reward (rr_rew rr) j).
  { intros j s0 a s0' r Ej Er. unfold sys_reward, row_reward. rewrite Er0.
    assert (Ej' : a_inv m' j = Some (s0', a)). { apply (inv'_cases _ _ _ _ _ _ _ _ _ _ D). left. exists s0. split; auto. apply nth_error_In in Ej. eapply md_rc; eauto. }
    apply (row_inv m' (m'_ok _ _ _ _ _ _ _ _ _ _ D)) in Ej'. pose proof (HR s0 a s0' r j (nth_error_In _ _ Ej) Er Ej') as HH.
    f_equal. pose proof (row_lt _ _ _ Ej) as Lj. rewrite (nth_error_nth' (rr_rew rr) 0%Q) in HH by lia. symmetry in HH. apply nth_error_nth with (d := 0%Q) in HH. auto. }
  assert (NF' : forall s, rtc (sys_edge m') s (S (length cols)) -> s = S (length cols)).
  { intros x R. replace (S (length cols)) with (a_N m' - 1) in * by lia. auto. }
  pose proof (br_wf rf BF EX') as W'.
  destruct (rank rr BF EX' Li FREE) as (w & W0 & W1). fold rf in W0, W1. rewrite EN' in W0, W1.
  split; intros v.
  - destruct (bellman_min_exists rr BF EX' Li FREE LR NR) as (z & Z). pose proof (bellman_min_value rr BF EX' Li FREE LR z Z) as VAL.
    destruct Z as (Z0 & Z1 & Z2). fold rf in Z0, Z1, Z2, VAL. rewrite EN' in Z0, Z2, VAL.
    pose proof (keep_min m il tl init rows cols tm P m' B PRE D ACT EX W' NF' (row_reward (rr_rew rr)) RWE TF w z W0 W1 Z0 Z1 Z2 s s' Hc) as KM.
    unfold RewMinForm in *. rewrite (IsRewMin_unique _ _ _ _ _ v KM), (IsRewMin_unique _ _ _ _ _ v (VAL s' Lc)). tauto.
  - destruct (bellman_max_exists rr BF EX' Li FREE LR NR) as (z & Z). pose proof (bellman_max_value rr BF EX' Li FREE LR z Z) as VAL.
    destruct Z as (Z0 & Z1 & Z2). fold rf in Z0, Z1, Z2, VAL. rewrite EN' in Z0, Z2, VAL.
    pose proof (keep_max m il tl init rows cols tm P m' B PRE D ACT EX W' NF' (row_reward (rr_rew rr)) RWE TF w z W0 W1 Z0 Z1 Z2 s s' Hc) as KM.
    unfold RewMaxForm in *. rewrite (IsRewMax_unique _ _ _ _ _ v KM), (IsRewMax_unique _ _ _ _ _ v (VAL s' Lc)). tauto.
Qed.
