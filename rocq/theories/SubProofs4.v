(** Subsystems: proofs of C30-C33. *)
From Coq Require Import String List Arith ZArith QArith Qreals Reals Bool Lia Lra.
From Verif Require Import Base BaseFacts Num Matrix MatFacts InvDict InvDictProofs Graph GraphSpec SccSpec SpecMdp SumFacts MdpValue SpecEc RfTheory SpecSystem SpecForm SpecBuilt SpecProb
  Amdp AmdpProofs ReachForm ReachFormProofs RfFacts BuiltFacts RfBridge Reduce ReduceProofs1 ReduceProofs3 ReduceProofs6 Subsystem SpecSub SubTheory SubProofs1 SubProofs2 SubProofs3.
Import ListNotations.
Local Open Scope nat_scope.

(** ** Shape and labels give the form *)
Lemma shape_form : forall m' init il tl fl, sys_ok m' -> shape_mdp (mdp_of m') -> exact_rows (a_P m') -> il <> tl -> il <> fl -> tl <> fl -> init < a_N m' ->
  (forall s, has_label m' il s <-> s = init) -> (forall s, has_label m' tl s <-> s = a_N m' - 2) -> (forall s, has_label m' fl s <-> s = a_N m' - 1) ->
  (in_reach_form (a_P m') (a_inv m') (labelled m') init il tl fl <->
   forall s, s < nS (mdp_of m') -> s <> fail (mdp_of m') -> rtc (medge (mdp_of m')) init s /\ rtc (medge (mdp_of m')) s (goal (mdp_of m'))).
Proof.
  intros m' init il tl fl OK SH EX D1 D2 D3 Hi LI LT LF.
  assert (PS : proper_system (a_P m') (a_inv m')).
  { split; [apply (ok_wf m' OK)|]. split; [exact EX|]. intros s Hs. destruct (W_act _ (RFW _ SH) s Hs) as (r & Hr & Es). destruct (row_idx m' OK r Hr) as (s' & a & E & _).
    unfold mdp_of, sys_mdp in Es. simpl in Es. rewrite E in Es. subst s'. eauto. }
  pose proof OK as (_ & K1 & K2 & _).
  assert (EM : forall s d, edge (a_P m') (a_inv m') s d <-> medge (mdp_of m') s d) by exact (edge_medge (a_P m') (a_idx m') (a_rew m') K1 K2 PS).
  assert (RT : forall s d, rtc (edge (a_P m') (a_inv m')) s d <-> rtc (medge (mdp_of m')) s d).
  { intros s d. split; intros H; induction H; try constructor; econstructor; eauto; apply EM; auto. }
  pose proof (RF2 _ SH) as [N2 C2]. change (2 <= mcols (a_P m')) in N2. change (2 <= mrows (a_P m')) in C2.
  pose proof SH as (_ & _ & _ & _ & (G1 & G2) & F1 & F2).
  assert (LOOP : forall s r, r < nA (mdp_of m') -> s < nS (mdp_of m') -> src (mdp_of m') r = s -> prob (mdp_of m') r s = 1%R -> (forall r', r' < nA (mdp_of m') -> src (mdp_of m') r' = s -> r' = r) ->
    only_loop (a_P m') (a_inv m') s r).
  { intros s r Hr Hs Es Ep HU. destruct (row_idx m' OK r Hr) as (s' & a & E & _). assert (s' = s). { unfold mdp_of, sys_mdp in Es. simpl in Es. rewrite E in Es. auto. } subst s'. split.
    - exists a, (mget (a_P m') r s). split; [exact E|]. apply mget_nonzero. intros Z. unfold mdp_of, sys_mdp in Ep. simpl in Ep. rewrite (Qeq_eqR _ _ Z), RMicromega.Q2R_0 in Ep. lra.
    - intros r' d a' p E' Hin. assert (M : medge (mdp_of m') s d). { apply EM. exists r', a', p. auto. }
      assert (Er : r' = r). { apply HU; [|unfold mdp_of, sys_mdp; simpl; rewrite E'; auto]. apply (proj2 (ok_wf m' OK) r' d p Hin). }
      split; [exact Er|]. subst r'. eapply (one_row _ SH r s Hr Hs Ep d). { apply (proj2 (ok_wf m' OK) r d p Hin). }
      unfold mdp_of, sys_mdp. simpl. rewrite (mget_In _ _ _ _ (ok_wf m' OK) Hin). rewrite <- RMicromega.Q2R_0. apply Qlt_Rlt.
      destruct K2 as (_ & _ & V & _). destruct (V r d p Hin) as [V1 _]. pose proof (proj2 (ok_wf m' OK) r d p Hin) as (_ & _ & NZ). apply Qle_lteq in V1. destruct V1 as [V1|V1]; [exact V1|]. exfalso. apply NZ. symmetry. exact V1. }
  split.
  - intros (_ & _ & _ & _ & _ & _ & _ & _ & _ & R1 & R2) s Hs Hf. split; apply RT; [apply R1|apply R2]; auto.
  - intros HR. split; [auto|]. split; [exact N2|]. split; [exact C2|]. split; [exact Hi|]. split; [exact LI|]. split; [exact LT|]. split; [exact LF|]. split; [|split; [|split]].
    + apply LOOP; auto; try (change (nS (mdp_of m')) with (mcols (a_P m')); change (nA (mdp_of m')) with (mrows (a_P m')); lia). intros r' Hr Es. apply (RfTheory.goal_row _ SH r' Hr Es).
    + apply LOOP; auto; try (change (nS (mdp_of m')) with (mcols (a_P m')); change (nA (mdp_of m')) with (mrows (a_P m')); lia). intros r' Hr Es. apply (RfTheory.fail_row _ SH r' Hr Es).
    + intros s Hs Hf. apply RT. apply HR; auto.
    + intros s Hs Hf. apply RT. apply HR; auto.
Qed.

Section Steps.
  Variable rf : rform.
  Hypothesis BF : built_form rf.
  Hypothesis EX : exact_rows (a_P (rf_sys rf)).
  Variable keep : nat -> bool.
  Variable m' : amdp.
  Variables tl fl : string.
  Hypothesis HI : induced (rf_sys rf) keep m' tl fl.
  Hypothesis OK' : sys_ok m'.
  Let m := rf_sys rf.
  Let M := form_mdp rf.
  Let SH : shape_mdp M := proj1 (br_rf rf BF EX).
  Let R := restrict M keep.
  Let SR : shape_mdp R := R_shape M SH keep.
  Let M' := mdp_of m'.
  Let S' : shape_mdp M' := ind_shape rf BF EX keep m' tl fl HI OK'.
  Let ST := kept_states m keep.

  Definition rel x s := nth_error ST x = Some s \/ (x = goal M' /\ s = goal M).

  Lemma rel_cases : forall x, x < nS M' -> x = fail M' \/ exists s, rel x s.
  Proof.
    intros x Hx. destruct (state_cases M' S' x Hx) as [H|[->| ->]]; [|right; exists (goal M); right; auto|auto].
    right. destruct (nth_error ST x) as [s|] eqn:E; [exists s; left; auto|]. apply nth_error_None in E. unfold M' in H. rewrite (ind_nS rf keep m' tl fl HI) in H. fold m ST in H. lia.
  Qed.
  Lemma rel_kept : forall s, s < nS M -> s = fail M \/ (s < nS M - 2 /\ keep s = false) \/ exists x, rel x s.
  Proof.
    intros s Hs. destruct (state_cases M SH s Hs) as [H|[->| ->]]; [|right; right; exists (goal M'); right; auto|auto].
    destruct (keep s) eqn:K; [|auto]. right; right. destruct (ind_state rf keep s H K) as (x & E). exists x. left. exact E.
  Qed.
  Lemma rel_fun : forall x s d, rel x s -> rel x d -> s = d.
  Proof.
    intros x s d [H|[-> ->]] [H'|[E ->]]; try congruence; exfalso.
    - subst x. assert (goal M' < length ST) by (apply nth_error_Some; congruence). unfold goal, M' in H0. rewrite (ind_nS rf keep m' tl fl HI) in H0. fold m ST in H0. lia.
    - assert (goal M' < length ST) by (apply nth_error_Some; congruence). unfold goal, M' in H. rewrite (ind_nS rf keep m' tl fl HI) in H. fold m ST in H. lia.
  Qed.
  Lemma rel_inj : forall x y s, rel x s -> rel y s -> x = y.
  Proof.
    intros x y s [H|[-> ->]] [H'|[-> E]]; auto.
    - eapply NoDup_nth_error; [apply (S_nodup rf keep)| |]; fold m ST; [|congruence]. apply nth_error_Some. congruence.
    - subst s. apply (S_nth rf keep) in H. destruct H as (_ & H & _). fold m in H. unfold goal, M, form_mdp, mdp_of, sys_mdp, a_N in *. simpl in *. fold m in H. unfold m in H. lia.
    - apply (S_nth rf keep) in H'. destruct H' as (_ & H' & _). unfold goal, M, form_mdp, mdp_of, sys_mdp, a_N in *. simpl in *. lia.
  Qed.

  Lemma corr_prob : forall i j x s, corr R M' ST i j -> rel x s -> prob M' j x = prob R i s.
  Proof. intros i j x s (C1 & _ & C3) [H|[-> ->]]; [apply C1; auto|]. exact C3. Qed.

  Lemma sim1 : forall x s y, rel x s -> medge M' x y -> y = fail M' \/ exists d, rel y d /\ medge R s d.
  Proof.
    intros x s y Hx HE. pose proof HE as (j & Hj & Es & Hy & Hp). destruct (rel_cases y Hy) as [|(d & Hd)]; [auto|]. right. exists d. split; [exact Hd|].
    destruct Hx as [Hx|[-> ->]].
    - assert (Hj2 : j < nA M' - 2). { eapply (rows_in M' S' x); eauto. unfold M'. rewrite (ind_nS rf keep m' tl fl HI). fold m ST. assert (x < length ST) by (apply nth_error_Some; congruence). lia. }
      destruct (ind_row rf BF keep m' tl fl HI j Hj2) as (i & s' & a & x' & E1 & E2 & E3 & E4). unfold M' in Es. rewrite (ind_src' m' _ _ _ E4) in Es. subst x'. fold m ST in E3. rewrite Hx in E3. inversion E3; subst s'.
      exists i. destruct (R_nth rf BF keep j i E1) as (_ & Hi & _). split; [change (nA R) with (a_C (rf_sys rf)); lia|]. split; [apply (ind_src rf _ _ _ E2)|].
      split. { destruct Hd as [Hd|[_ ->]]; [|apply (goal_lt M SH)]. apply (S_nth rf keep) in Hd. change (nS R) with (a_N (rf_sys rf)). lia. }
      rewrite <- (corr_prob i j y d); auto. exact (ind_corr rf BF EX keep m' tl fl HI j i s a E1 E2).
    - assert (y = goal M') by (apply (goal_absorbing M' S'); eapply rtc_step; [exact HE|constructor]). subst y.
      assert (d = goal M) by (apply (rel_fun (goal M')); auto; right; auto). subst d. pose proof SR as (_ & _ & _ & _ & (G1 & G2) & _). pose proof (RF2 _ SR) as [A1 A2].
      exists (nA R - 2). split; [lia|]. split; [exact G1|]. split; [apply (goal_lt R SR)|]. change (goal M) with (goal R). rewrite G2. lra.
  Qed.
  Lemma sim2 : forall x s d, rel x s -> medge R s d -> d = fail M \/ exists y, rel y d /\ medge M' x y.
  Proof.
    intros x s d Hx HE. pose proof HE as (i & Hi & Es & Hd & Hp). change (nS R) with (nS M) in Hd.
    destruct Hx as [Hx|[-> ->]].
    - destruct (S_nth rf keep x s Hx) as (_ & Hs & Hk). assert (Hi2 : i < nA M - 2) by (eapply (rows_in M SH s); eauto).
      destruct (rel_kept d Hd) as [|[[D1 D2]|(y & Hy)]]; [auto| |].
      { exfalso. unfold R in Hp. rewrite (R_in M keep i d Hi2 D1), D2 in Hp. destruct (keep (src M i)); lra. }
      right. exists y. split; [exact Hy|]. change (src M i = s) in Es. destruct (ind_copy rf BF keep i s Hi2 Es Hk) as (j & Ej). fold m in Ej.
      assert (Hj : j < nA M' - 2). { unfold M'. rewrite (ind_nA rf keep m' tl fl HI). fold m. assert (j < length (kept_rows m keep)) by (apply nth_error_Some; congruence). lia. }
      destruct (ind_row rf BF keep m' tl fl HI j Hj) as (i' & s' & a & x' & E1 & E2 & E3 & E4). fold m in E1. rewrite Ej in E1. inversion E1; subst i'. unfold M in Es; rewrite (ind_src rf _ _ _ E2) in Es. subst s'.
      assert (x' = x) by (apply (rel_inj x' x s); left; auto). subst x'. exists j. split; [lia|]. split; [apply (ind_src' m' _ _ _ E4)|].
      split. { destruct Hy as [Hy|[-> _]]; [|apply goal_lt; exact S']. unfold M'. rewrite (ind_nS rf keep m' tl fl HI). fold m ST. assert (y < length ST) by (apply nth_error_Some; congruence). lia. }
      rewrite (corr_prob i j y d); auto. exact (ind_corr rf BF EX keep m' tl fl HI j i s a Ej E2).
    - right. assert (d = goal R) by (apply (goal_absorbing R SR); eapply rtc_step; [exact HE|constructor]). subst d. exists (goal M'). split; [right; auto|].
      pose proof S' as (_ & _ & _ & _ & (G1 & G2) & _). pose proof (RF2 _ S') as [A1 A2].
      exists (nA M' - 2). split; [lia|]. split; [exact G1|]. split; [apply goal_lt; exact S'|]. rewrite G2. lra.
  Qed.

  Lemma sim1_rtc : forall x y, rtc (medge M') x y -> forall s, rel x s -> y <> fail M' -> exists d, rel y d /\ rtc (medge R) s d.
  Proof.
    intros x y H. induction H as [x|x z y HE HR IH]; intros s Hs Hf; [exists s; split; [auto|constructor]|].
    destruct (sim1 x s z Hs HE) as [->|(d & Hd & HE')]. { exfalso. apply Hf. apply (fail_absorbing M' S'); auto. }
    destruct (IH d Hd Hf) as (d' & H1 & H2). exists d'. split; auto. econstructor; eauto.
  Qed.
  Lemma sim2_rtc : forall s d, rtc (medge R) s d -> forall x, rel x s -> d <> fail M -> exists y, rel y d /\ rtc (medge M') x y.
  Proof.
    intros s d H. induction H as [s|s t d HE HR IH]; intros x Hx Hf; [exists x; split; [auto|constructor]|].
    destruct (sim2 x s t Hx HE) as [->|(y & Hy & HE')]. { exfalso. apply Hf. apply (fail_absorbing R SR); auto. }
    destruct (IH y Hy Hf) as (y' & H1 & H2). exists y'. split; auto. econstructor; eauto.
  Qed.
End Steps.

(** ** The materialised subsystem *)
Section Mat.
  Variables (rnd : nat -> Z) (rf : rform) (cert : list Q) (form : mode) (ign : bool) (sub : subsystem) (rf' : rform).
  Hypothesis BF : built_form rf.
  Hypothesis EX : exact_rows (a_P (rf_sys rf)).
  Hypothesis MK : mk_subsystem rf cert form ign = Ok sub.
  Hypothesis SUB : subsys rnd sub = Ok rf'.
  Let keep := chosen (rf_sys rf) form cert.
  Let M := form_mdp rf.
  Let SH : shape_mdp M := proj1 (br_rf rf BF EX).
  Let R := restrict M keep.
  Let WR : wf_mdp R := RFW R (R_shape M SH keep).

  Lemma ma : materialised rf form cert rf'.
  Proof. eapply subsys_materialised; eauto. Qed.
  Lemma ma_ok : sys_ok (rf_sys rf').
  Proof. apply built_ok. apply built_new. apply (ma_cons _ _ _ _ ma). Qed.
  Lemma ma_wf : wf_mdp (form_mdp rf').
  Proof. exact (ind_wf rf BF EX keep (rf_sys rf') _ _ (ma_induced _ _ _ _ ma) ma_ok). Qed.

  Lemma ma_values : forall x s, nth_error (kept_states (rf_sys rf) keep) x = Some s ->
    (forall v, PrMinForm rf' x v <-> v = Vmin R WR (is_goal R) s) /\ (forall v, PrMaxForm rf' x v <-> v = Vmax R WR (is_goal R) s).
  Proof.
    intros x s Hx. pose proof (ind_values rf BF EX keep (rf_sys rf') _ _ (ma_induced _ _ _ _ ma) ma_ok WR ma_wf x s Hx) as [E1 E2].
    assert (Hn : x < nS (form_mdp rf')). { change (nS (form_mdp rf')) with (a_N (rf_sys rf')). rewrite (in_N _ _ _ _ _ (ma_induced _ _ _ _ ma)). fold keep. assert (x < length (kept_states (rf_sys rf) keep)) by (apply nth_error_Some; congruence). lia. }
    split; intros v; unfold PrMinForm, PrMaxForm.
    - rewrite (PrMin_iff _ ma_wf _ x v Hn). change (mdp_of (rf_sys rf')) with (form_mdp rf') in E1. rewrite E1. tauto.
    - rewrite (PrMax_iff _ ma_wf _ x v Hn). change (mdp_of (rf_sys rf')) with (form_mdp rf') in E2. rewrite E2. tauto.
  Qed.

  Lemma spec_values : forall s, s < a_N (rf_sys rf) ->
    (forall v, IsPrMin R (is_goal R) s v <-> v = Vmin R WR (is_goal R) s) /\ (forall v, IsPrMax R (is_goal R) s v <-> v = Vmax R WR (is_goal R) s).
  Proof. intros s Hs. split; intros v; [apply PrMin_iff|apply PrMax_iff]; exact Hs. Qed.

  Lemma ma_kept_lt : forall x s, nth_error (kept_states (rf_sys rf) keep) x = Some s -> s < a_N (rf_sys rf) - 2.
  Proof. intros x s H. apply (S_nth rf keep) in H. apply H. Qed.
End Mat.

Lemma C30_lemma : forall rnd rf cert form ign sub rf', built_form rf -> mk_subsystem rf cert form ign = Ok sub -> subsys rnd sub = Ok rf' ->
  induced (rf_sys rf) (chosen (rf_sys rf) form cert) (rf_sys rf') (rf_targetl rf) (rf_faill rf) /\
  nth_error (kept_states (rf_sys rf) (chosen (rf_sys rf) form cert)) (rf_init rf') = Some (rf_init rf) /\
  built (rf_sys rf') /\ (ign = false -> built_form rf').
Proof.
  intros rnd rf cert form ign sub rf' BF MK SB. destruct (subsys_materialised rnd rf cert form ign sub rf' BF MK SB) as [MA HF].
  split; [apply MA|]. split; [apply MA|]. split; [apply built_new; apply MA|exact HF].
Qed.

Lemma C30_values_lemma : forall rnd rf cert form ign sub rf', built_form rf -> exact_rows (a_P (rf_sys rf)) -> mk_subsystem rf cert form ign = Ok sub -> subsys rnd sub = Ok rf' ->
  let R := restrict (form_mdp rf) (chosen (rf_sys rf) form cert) in
  forall x s, nth_error (kept_states (rf_sys rf) (chosen (rf_sys rf) form cert)) x = Some s ->
    (forall v, PrMinForm rf' x v <-> IsPrMin R (is_goal R) s v) /\ (forall v, PrMaxForm rf' x v <-> IsPrMax R (is_goal R) s v).
Proof.
  intros rnd rf cert form ign sub rf' BF EX MK SB R x s Hx. destruct (ma_values rnd rf cert form ign sub rf' BF EX MK SB x s Hx) as [A B].
  destruct (spec_values rf cert form BF EX s) as [A' B']. { pose proof (ma_kept_lt rf cert form x s Hx). lia. }
  split; intros v; [rewrite A; symmetry; apply A'|rewrite B; symmetry; apply B'].
Qed.

Lemma C31_lemma : forall rnd rf cert form ign sub rf', built_form rf -> exact_rows (a_P (rf_sys rf)) -> mk_subsystem rf cert form ign = Ok sub -> subsys rnd sub = Ok rf' ->
  forall x s, nth_error (kept_states (rf_sys rf) (chosen (rf_sys rf) form cert)) x = Some s ->
    (forall v v', PrMinForm rf' x v' -> PrMinForm rf s v -> (v' <= v)%R) /\ (forall v v', PrMaxForm rf' x v' -> PrMaxForm rf s v -> (v' <= v)%R).
Proof.
  intros rnd rf cert form ign sub rf' BF EX MK SB x s Hx. destruct (ma_values rnd rf cert form ign sub rf' BF EX MK SB x s Hx) as [A B].
  pose proof (ma_kept_lt rf cert form x s Hx) as Hs. assert (Hs' : s < nS (form_mdp rf)) by (change (nS (form_mdp rf)) with (a_N (rf_sys rf)); lia).
  split; intros v v' H1 H2.
  - apply A in H1. apply (Vmn_min rf BF EX s v Hs') in H2. subst. unfold Vmn. rewrite (Vmin_irrel _ _ (RFW _ (proj1 (br_rf rf BF EX)))).
    apply (R_Vmin_le (form_mdp rf) (proj1 (br_rf rf BF EX))). exact Hs.
  - apply B in H1. apply (Vmx_max rf BF EX s v Hs') in H2. subst. unfold Vmx. rewrite (Vmax_irrel _ _ (RFW _ (proj1 (br_rf rf BF EX)))).
    apply (R_Vmax_le (form_mdp rf) (proj1 (br_rf rf BF EX))). exact Hs.
Qed.

(** Positive entries *)
Lemma positive_iff : forall q, positive q = true <-> (0 < Q2R q)%R.
Proof.
  intros q. unfold positive. rewrite negb_true_iff. rewrite <- RMicromega.Q2R_0. split.
  - intros H. apply Qlt_Rlt. apply Qnot_le_lt. intros L. apply Qle_bool_iff in L. congruence.
  - intros H. apply Rlt_Qlt in H. destruct (Qle_bool q 0) eqn:E; auto. apply Qle_bool_iff in E. exfalso. apply (Qlt_not_le _ _ H E).
Qed.

Lemma min_support : forall rf z t, forall (BF : built_form rf) (EX : exact_rows (a_P (rf_sys rf))),
  z_constraints (a_P (rf_sys rf)) (a_inv (rf_sys rf)) (rf_init rf) t z ->
  (forall s, s < a_N (rf_sys rf) - 2 -> in_some_ec (a_P (rf_sys rf)) (a_inv (rf_sys rf)) s -> (entry z s <= 0)%Q) ->
  rf_init rf < a_N (rf_sys rf) - 2 -> let R := restrict (form_mdp rf) (chosen (rf_sys rf) Min z) in
  forall WR, (Q2R t <= Vmin R WR (is_goal R) (rf_init rf))%R.
Proof.
  intros rf z t BF EX HZ HE Hi R WR. apply (z_real rf BF) in HZ. destruct HZ as [HZ HT]. eapply Rle_trans; [exact HT|].
  rewrite (Vmin_irrel _ _ (RFW R (R_shape _ (proj1 (br_rf rf BF EX)) (chosen (rf_sys rf) Min z)))).
  apply (z_support (form_mdp rf) (proj1 (br_rf rf BF EX)) (chosen (rf_sys rf) Min z) (fun s => Q2R (entry z s))); auto.
  - intros s Hs Hin. rewrite <- RMicromega.Q2R_0. apply Qle_Rle. apply HE; [exact Hs|]. apply (br_ec rf BF EX). exact Hin.
  - intros s Hs. simpl. apply positive_iff.
Qed.

Lemma max_support : forall rf y t, forall (BF : built_form rf) (EX : exact_rows (a_P (rf_sys rf))),
  y_constraints (a_P (rf_sys rf)) (a_inv (rf_sys rf)) (rf_init rf) t y ->
  (forall i, i < a_C (rf_sys rf) - 2 -> (0 <= entry y i)%Q) ->
  rf_init rf < a_N (rf_sys rf) - 2 -> let R := restrict (form_mdp rf) (chosen (rf_sys rf) Max y) in
  forall WR, (Q2R t <= Vmax R WR (is_goal R) (rf_init rf))%R.
Proof.
  intros rf y t BF EX [HY HT] HP Hi R WR. set (M := form_mdp rf).
  apply Rle_trans with (to_goal M (fun r => Q2R (entry y r))).
  { unfold M. rewrite (to_goal_vec rf). apply Qle_Rle. exact HT. }
  rewrite (Vmax_irrel _ _ (RFW R (R_shape _ (proj1 (br_rf rf BF EX)) (chosen (rf_sys rf) Max y)))).
  apply (y_support M (proj1 (br_rf rf BF EX)) (chosen (rf_sys rf) Max y) (rf_init rf) (fun r => Q2R (entry y r))); auto.
  - intros r Hr. rewrite <- RMicromega.Q2R_0. apply Qle_Rle. apply HP. exact Hr.
  - intros s Hs. unfold M. rewrite (balance_vec rf BF y s Hs). 
    replace (if s =? rf_init rf then 1%R else 0%R) with (Q2R (if s =? rf_init rf then 1 else 0)) by (destruct (s =? rf_init rf); [apply RMicromega.Q2R_1|apply RMicromega.Q2R_0]).
    apply Qle_Rle. apply HY. exact Hs.
  - intros s Hs. unfold chosen. rewrite existsb_exists. split.
    + intros (r & Hr & HB). apply andb_prop in HB. destruct HB as [HB HP']. apply in_seq in Hr. exists r. split; [change (nA M) with (a_C (rf_sys rf)); lia|].
      split; [|apply positive_iff; auto]. unfold belongs in HB. destruct (a_inv (rf_sys rf) r) as [[s' a]|] eqn:E; [|discriminate]. apply Nat.eqb_eq in HB. subst s'. apply (br_src rf r s a E).
    + intros (r & Hr & Es & Hp). exists r. split; [apply in_seq; change (nA M) with (a_C (rf_sys rf)) in Hr; lia|]. apply positive_iff in Hp. rewrite Hp, andb_true_r.
      destruct (br_row rf BF r Hr) as (a & E & _). unfold belongs. rewrite E. apply Nat.eqb_eq. exact Es.
Qed.

Lemma C32_min_lemma : forall rnd rf z t ign sub rf', built_form rf -> exact_rows (a_P (rf_sys rf)) ->
  z_constraints (a_P (rf_sys rf)) (a_inv (rf_sys rf)) (rf_init rf) t z ->
  (forall s, s < a_N (rf_sys rf) - 2 -> in_some_ec (a_P (rf_sys rf)) (a_inv (rf_sys rf)) s -> (entry z s <= 0)%Q) ->
  mk_subsystem rf z Min ign = Ok sub -> subsys rnd sub = Ok rf' -> exists p, PrMinForm rf' (rf_init rf') p /\ (Q2R t <= p)%R.
Proof.
  intros rnd rf z t ign sub rf' BF EX HZ HE MK SB. pose proof (ma_init _ _ _ _ (ma rnd rf z Min ign sub rf' BF MK SB)) as Hi.
  destruct (ma_values rnd rf z Min ign sub rf' BF EX MK SB _ _ Hi) as [A _]. eexists. split; [apply A; reflexivity|]. apply (min_support rf z t BF EX HZ HE).
  apply (ma_kept_lt rf z Min _ _ Hi).
Qed.
Lemma C32_max_lemma : forall rnd rf y t ign sub rf', built_form rf -> exact_rows (a_P (rf_sys rf)) ->
  y_constraints (a_P (rf_sys rf)) (a_inv (rf_sys rf)) (rf_init rf) t y ->
  (forall i, i < a_C (rf_sys rf) - 2 -> (0 <= entry y i)%Q) ->
  mk_subsystem rf y Max ign = Ok sub -> subsys rnd sub = Ok rf' -> exists p, PrMaxForm rf' (rf_init rf') p /\ (Q2R t <= p)%R.
Proof.
  intros rnd rf z t ign sub rf' BF EX HZ HE MK SB. pose proof (ma_init _ _ _ _ (ma rnd rf z Max ign sub rf' BF MK SB)) as Hi.
  destruct (ma_values rnd rf z Max ign sub rf' BF EX MK SB _ _ Hi) as [_ A]. eexists. split; [apply A; reflexivity|]. apply (max_support rf z t BF EX HZ HE).
  apply (ma_kept_lt rf z Max _ _ Hi).
Qed.

(** ** C33 *)
Lemma keep_value : forall M (SH : shape_mdp M) keep s, s < nS M - 2 -> keep s = false -> forall WR, Vmax (restrict M keep) WR (is_goal (restrict M keep)) s = 0%R.
Proof.
  intros M SH keep s Hs K WR. apply Rle_antisym; [|apply Vmax_bounds].
  rewrite Vmax_bellman; [|apply g_false; [apply (R_shape M SH keep)|exact Hs]]. apply maxr_lub; [lra|]. intros r Hr Es. change (src M r = s) in Es.
  assert (L : r < nA M - 2) by (eapply (rows_in M SH s); eauto).
  assert (G1 : Vmax (restrict M keep) WR (is_goal (restrict M keep)) (goal (restrict M keep)) = 1%R) by (apply Vmax_T; unfold is_goal; apply Nat.eqb_refl).
  assert (G2 : Vmax (restrict M keep) WR (is_goal (restrict M keep)) (fail (restrict M keep)) = 0%R).
  { rewrite (Vmax_irrel _ _ (RFW _ (R_shape M SH keep))). apply (Vmax_fail _ (R_shape M SH keep)). }
  rewrite (ex_one (restrict M keep) r _ (R_shape M SH keep) G1 G2).
  rewrite (R_onestep M SH keep r _ L). rewrite Es, K. lra.
Qed.

Lemma init_chosen : forall rf form t cert, built_form rf -> exact_rows (a_P (rf_sys rf)) -> rf_init rf < a_N (rf_sys rf) - 2 -> (0 < t)%Q -> cert_point rf form t cert ->
  chosen (rf_sys rf) form cert (rf_init rf) = true.
Proof.
  intros rf form t cert BF EX Hi Ht HC. destruct (chosen (rf_sys rf) form cert (rf_init rf)) eqn:K; auto. exfalso.
  set (R := restrict (form_mdp rf) (chosen (rf_sys rf) form cert)). set (SH := proj1 (br_rf rf BF EX)). set (WR := RFW R (R_shape _ SH (chosen (rf_sys rf) form cert))).
  pose proof (keep_value (form_mdp rf) SH _ (rf_init rf) Hi K WR) as Z. apply Qlt_Rlt in Ht. rewrite RMicromega.Q2R_0 in Ht.
  destruct form; simpl in HC; [| |contradiction]; destruct HC as (A & _ & B).
  - pose proof (min_support rf cert t BF EX A B Hi WR) as H. fold R in H. 
    assert (Vmin R WR (is_goal R) (rf_init rf) <= Vmax R WR (is_goal R) (rf_init rf))%R; [|fold R in Z; lra].
    apply Vmin_le_Vmax. change (nS R) with (a_N (rf_sys rf)). lia.
  - pose proof (max_support rf cert t BF EX A B Hi WR) as H. fold R in H, Z. lra.
Qed.

Lemma C33_ignore_lemma : forall rnd rf form t cert, built_form rf -> exact_rows (a_P (rf_sys rf)) -> rf_init rf < a_N (rf_sys rf) - 2 -> (0 < t)%Q -> cert_point rf form t cert ->
  exists sub rf', mk_subsystem rf cert form true = Ok sub /\ subsys rnd sub = Ok rf'.
Proof.
  intros rnd rf form t cert BF EX Hi Ht HC.
  assert (MK : exists sub, mk_subsystem rf cert form true = Ok sub).
  { unfold mk_subsystem. destruct form; simpl in HC; [| |contradiction]; destruct HC as (_ & L & _); rewrite L; simpl; rewrite Nat.eqb_refl; simpl; eauto. }
  destruct MK as (sub & MK). exists sub. destruct (subsys_exists rnd rf cert form sub BF EX MK Hi) as (rf' & H); [eapply init_chosen; eauto|]. eauto.
Qed.

Lemma C33_iff_lemma : forall rnd rf form cert sub, built_form rf -> exact_rows (a_P (rf_sys rf)) -> mk_subsystem rf cert form false = Ok sub ->
  rf_init rf < a_N (rf_sys rf) - 2 -> chosen (rf_sys rf) form cert (rf_init rf) = true ->
  let R := restrict (form_mdp rf) (chosen (rf_sys rf) form cert) in
  ((exists rf', subsys rnd sub = Ok rf') <->
   (forall s, s < a_N (rf_sys rf) - 2 -> chosen (rf_sys rf) form cert s = true -> rtc (medge R) (rf_init rf) s /\ rtc (medge R) s (goal R))).
Proof.
  intros rnd rf form cert sub BF EX MK Hi HK R. destruct (subsys_ok rnd _ _ _ _ _ BF MK) as (P & index & sl & F & E). rewrite E. clear E.
  destruct (filled_exists rf BF _ _ _ _ F EX) as (m' & Em). rewrite Em. cbn [bind].
  pose proof Em as Em0. apply (filled_induced rf BF _ _ _ _ F) in Em. destruct Em as (HC & HI & HA & HB). pose proof (built_ok _ (built_new _ HC)) as OK'.
  rewrite (mk_rf_iff rnd m' _ _ _ OK'). set (keep := chosen (rf_sys rf) form cert) in *. set (SH := proj1 (br_rf rf BF EX)).
  pose proof (ind_shape rf BF EX keep m' _ _ HI OK') as S'.
  destruct (co_form rf BF) as ((D1 & D2 & D3) & _).
  assert (INIT : forall x, has_label m' (rf_initl rf) x <-> nth_error (kept_states (rf_sys rf) keep) x = Some (rf_init rf)).
  { apply init_found; [apply co_form; auto|auto|]. intros l x Hl.
    apply (mk_kind_inv _ _ _ _ _ _ (filled_args rf _ _ _ _ F)) in Em0. destruct Em0 as (_ & _ & _ & _ & EL & _).
    unfold has_label, states_by_label in Hl. rewrite EL in Hl. apply has_get in Hl. apply (fi_labels _ _ _ _ _ F) in Hl. destruct Hl as [[-> _]|[(_ & -> & _)|(_ & _ & s & Ex & _)]]; auto.
    left. apply nth_error_Some. congruence. }
  destruct (S_pos rf keep _ Hi HK) as (x0 & Ex0 & _).
  assert (INIT' : forall x, has_label m' (rf_initl rf) x <-> x = x0).
  { intros x. rewrite INIT. split; [|intros ->; exact Ex0]. intros Ex. eapply NoDup_nth_error; [apply (S_nodup rf keep)| |congruence]. apply nth_error_Some. congruence. }
  assert (Hx0 : x0 < a_N m'). { rewrite (in_N _ _ _ _ _ HI). assert (x0 < length (kept_states (rf_sys rf) keep)) by (apply nth_error_Some; congruence). lia. }
  assert (R0 : rel rf keep m' x0 (rf_init rf)) by (left; exact Ex0).
  assert (Y : forall x init, has_label m' (rf_initl rf) x -> in_reach_form (a_P m') (a_inv m') (labelled m') init (rf_initl rf) (rf_targetl rf) (rf_faill rf) -> init = x).
  { intros x init Hl (_ & _ & _ & _ & LI & _). symmetry. apply LI. exact Hl. }
  transitivity (forall s, s < nS (mdp_of m') -> s <> fail (mdp_of m') -> rtc (medge (mdp_of m')) x0 s /\ rtc (medge (mdp_of m')) s (goal (mdp_of m'))).
  - rewrite <- (shape_form m' x0 (rf_initl rf) (rf_targetl rf) (rf_faill rf) OK' S' (in_exact _ _ _ _ _ HI) D1 D2 D3 Hx0 INIT' (in_target_label _ _ _ _ _ HI) (in_fail_label _ _ _ _ _ HI)).
    split; [|eauto]. intros (init & H). rewrite <- (Y x0 init); auto. apply INIT'. auto.
  - split.
    + intros H s Hs Ks. destruct (ind_state rf keep s Hs Ks) as (x & Ex). assert (Rx : rel rf keep m' x s) by (left; exact Ex).
      assert (L : x < length (kept_states (rf_sys rf) keep)) by (apply nth_error_Some; congruence).
      assert (NF : x <> fail (mdp_of m')). { unfold fail. rewrite (ind_nS rf keep m' _ _ HI). lia. }
      destruct (H x) as [H1 H2]; [rewrite (ind_nS rf keep m' _ _ HI); lia|exact NF|]. split.
      * destruct (sim1_rtc rf BF EX keep m' _ _ HI OK' x0 x H1 _ R0 NF) as (d & Hd & HR). rewrite (rel_fun rf keep m' _ _ HI x s d Rx Hd). exact HR.
      * destruct (sim1_rtc rf BF EX keep m' _ _ HI OK' x _ H2 _ Rx) as (d & Hd & HR). { unfold goal, fail. rewrite (ind_nS rf keep m' _ _ HI). lia. }
        assert (d = goal R). { apply (rel_fun rf keep m' _ _ HI (goal (mdp_of m'))); auto. right. auto. } subst d. exact HR.
    + intros H x Hx NF. destruct (rel_cases rf BF EX keep m' _ _ HI OK' x Hx) as [|(s & Rx)]; [contradiction|].
      assert (G : rtc (medge R) (rf_init rf) s /\ rtc (medge R) s (goal R)).
      { destruct Rx as [Ex|[_ ->]]; [|split; [apply H; auto|constructor]]. destruct (S_nth rf keep x s Ex) as (_ & Hs & Ks). apply H; auto. }
      assert (SF : s <> fail (form_mdp rf)).
      { pose proof (ro_N rf (co_ro rf BF)) as HN. unfold fail. change (nS (form_mdp rf)) with (a_N (rf_sys rf)).
        destruct Rx as [Ex|[_ ->]]; [destruct (S_nth rf keep x s Ex) as (_ & Hs & _); lia|]. unfold goal. change (nS (form_mdp rf)) with (a_N (rf_sys rf)). lia. }
      destruct G as [G1 G2]. split.
      * destruct (sim2_rtc rf BF EX keep m' _ _ HI OK' _ _ G1 x0 R0 SF) as (y & Ry & HR). rewrite (rel_inj rf keep m' x y s Rx Ry). exact HR.
      * destruct (sim2_rtc rf BF EX keep m' _ _ HI OK' _ _ G2 x Rx) as (y & Ry & HR). { destruct (RF2 _ SH) as [A1 _]. change (goal R) with (goal (form_mdp rf)). unfold goal, fail. lia. }
        assert (EQ : y = goal (mdp_of m')). { apply (rel_inj rf keep m' y _ (goal R) Ry). right. auto. } rewrite <- EQ. exact HR.
Qed.
