(** Subsystems: probabilities of the materialised subsystem. *)
From Coq Require Import String List Arith ZArith QArith Qreals Reals Bool Lia Lra.
From Verif Require Import Base BaseFacts Num Matrix MatFacts InvDict InvDictProofs Graph GraphSpec SccSpec SpecMdp SumFacts MdpValue SpecEc RfTheory SpecSystem SpecForm SpecBuilt SpecProb
  Amdp AmdpProofs ReachForm ReachFormProofs RfFacts BuiltFacts RfBridge Reduce ReduceProofs1 ReduceProofs3 ReduceProofs6 Subsystem SpecSub SubTheory SubProofs1 SubProofs2.
Import ListNotations.
Local Open Scope nat_scope.

Lemma enum_snd_seq : forall (L : list nat), map fst (enum L) = seq 0 (length L).
Proof.
  intros L. unfold enum. assert (G : forall k (l : list nat), map fst (combine (seq k (length l)) l) = seq k (length l)).
  { intros k l. revert k. induction l as [|x l IH]; intros k; simpl; [auto|]. rewrite IH. auto. }
  apply G.
Qed.

Lemma g_false : forall M s, shape_mdp M -> s < nS M - 2 -> is_goal M s = false.
Proof. intros M s SH Hs. unfold is_goal, goal. destruct (Nat.eqb_spec s (nS M - 2)); auto. lia. Qed.

(** ** Two processes of the same shape with corresponding states and rows *)
Section Corr.
  Variables M1 M2 : mdp.
  Hypothesis S1 : shape_mdp M1.
  Hypothesis S2 : shape_mdp M2.
  Variable L : list nat.
  Hypothesis ND : NoDup L.
  Hypothesis LB : forall s, In s L -> s < nS M1 - 2.
  Hypothesis LEN : nS M2 - 2 = length L.
  Definition corr (r r' : nat) : Prop :=
    (forall x s, nth_error L x = Some s -> prob M2 r' x = prob M1 r s) /\
    (forall s, s < nS M1 - 2 -> ~ In s L -> prob M1 r s = 0%R) /\ prob M2 r' (goal M2) = prob M1 r (goal M1).
  Hypothesis R12 : forall x s r, nth_error L x = Some s -> r < nA M1 - 2 -> src M1 r = s -> exists r', r' < nA M2 - 2 /\ src M2 r' = x /\ corr r r'.
  Hypothesis R21 : forall x s r', nth_error L x = Some s -> r' < nA M2 - 2 -> src M2 r' = x -> exists r, r < nA M1 - 2 /\ src M1 r = s /\ corr r r'.

  Lemma corr_onestep : forall r r' z z', corr r r' -> (forall x s, nth_error L x = Some s -> z' x = z s) -> onestep M1 r z = onestep M2 r' z'.
  Proof.
    intros r r' z z' (C1 & C2 & C3) HZ. unfold onestep. rewrite C3. f_equal. rewrite LEN.
    apply (sumn_reindex (nS M1 - 2) (length L) (map (fun p => (snd p, fst p)) (enum L))).
    - rewrite map_map. simpl. rewrite enum_snd. exact ND.
    - rewrite map_map. simpl. apply enum_snd_seq.
    - intros d x Hin. apply in_map_iff in Hin. destruct Hin as ([x' d'] & E & Hin). inversion E; subst. apply enum_In in Hin. simpl in Hin.
      split; [apply LB; eapply nth_error_In; eauto|]. rewrite (C1 x d Hin), (HZ x d Hin). auto.
    - intros d Hd Hn. rewrite C2; [ring|auto|]. intros Hin. apply Hn. rewrite map_map. simpl. rewrite enum_snd. auto.
  Qed.

  Lemma nth_bound : forall x s, nth_error L x = Some s -> x < nS M2 - 2 /\ s < nS M1 - 2.
  Proof. intros x s H. split; [rewrite LEN; apply nth_error_Some; congruence|]. apply LB. eapply nth_error_In; eauto. Qed.

  Let G1 := is_goal M1.
  Let G2 := is_goal M2.

  Lemma ex_one : forall M r v, shape_mdp M -> v (goal M) = 1%R -> v (fail M) = 0%R -> ex M r v = onestep M r v.
  Proof. intros M r v SH H1 H2. rewrite <- (ex_ext M r (ext M v) v) by (intros; apply (ext_id M SH); auto). apply (ex_ext_vec M SH). Qed.

  Lemma vmin_g : forall M k, shape_mdp M -> vmin M (is_goal M) k (goal M) = 1%R.
  Proof. intros M k SH. destruct k; simpl; unfold is_goal; rewrite Nat.eqb_refl; auto. Qed.
  Lemma vmax_g : forall M k, shape_mdp M -> vmax M (is_goal M) k (goal M) = 1%R.
  Proof. intros M k SH. destruct k; simpl; unfold is_goal; rewrite Nat.eqb_refl; auto. Qed.
  Lemma vmin_f : forall M k, shape_mdp M -> vmin M (is_goal M) k (fail M) = 0%R.
  Proof. intros M k SH. apply Rle_antisym; [|apply vmin_bounds; apply (RFW M SH)]. rewrite <- (Vmin_fail M SH). apply vmin_le_Vmin. Qed.
  Lemma vmax_f : forall M k, shape_mdp M -> vmax M (is_goal M) k (fail M) = 0%R.
  Proof. intros M k SH. apply Rle_antisym; [|apply vmax_bounds; apply (RFW M SH)]. rewrite <- (Vmax_fail M SH). apply vmax_le_Vmax. Qed.

  Lemma corr_vmin : forall k x s, nth_error L x = Some s -> vmin M2 G2 k x = vmin M1 G1 k s.
  Proof.
    induction k as [|k IH]; intros x s H; destruct (nth_bound x s H) as [B2 B1]; simpl; unfold G1, G2; rewrite !g_false by auto; [auto|].
    fold G1 G2. symmetry. apply minr_corr.
    - intros r Hr Es. destruct (R12 x s r H) as (r' & Hr' & Es' & C); auto. { eapply (rows_in M1 S1 s); eauto. }
      exists r'. split; [lia|]. split; [exact Es'|]. rewrite !ex_one by (auto; (apply vmin_g || apply vmin_f); auto). apply corr_onestep; auto.
    - intros r' Hr Es. destruct (R21 x s r' H) as (r & Hr' & Es' & C); auto. { eapply (rows_in M2 S2 x); eauto. }
      exists r. split; [lia|]. split; [exact Es'|]. rewrite !ex_one by (auto; (apply vmin_g || apply vmin_f); auto). apply corr_onestep; auto.
  Qed.
  Lemma corr_vmax : forall k x s, nth_error L x = Some s -> vmax M2 G2 k x = vmax M1 G1 k s.
  Proof.
    induction k as [|k IH]; intros x s H; destruct (nth_bound x s H) as [B2 B1]; simpl; unfold G1, G2; rewrite !g_false by auto; [auto|].
    fold G1 G2. symmetry. apply maxr_corr.
    - intros r Hr Es. destruct (R12 x s r H) as (r' & Hr' & Es' & C); auto. { eapply (rows_in M1 S1 s); eauto. }
      exists r'. split; [lia|]. split; [exact Es'|]. rewrite !ex_one by (auto; (apply vmax_g || apply vmax_f); auto). apply corr_onestep; auto.
    - intros r' Hr Es. destruct (R21 x s r' H) as (r & Hr' & Es' & C); auto. { eapply (rows_in M2 S2 x); eauto. }
      exists r. split; [lia|]. split; [exact Es'|]. rewrite !ex_one by (auto; (apply vmax_g || apply vmax_f); auto). apply corr_onestep; auto.
  Qed.

  Lemma corr_Vmin : forall W1 W2 x s, nth_error L x = Some s -> Vmin M2 W2 G2 x = Vmin M1 W1 G1 s.
  Proof. intros W1 W2 x s H. apply Rle_antisym; apply Vmin_le; intros k; [rewrite (corr_vmin k x s H)|rewrite <- (corr_vmin k x s H)]; apply vmin_le_Vmin. Qed.
  Lemma corr_Vmax : forall W1 W2 x s, nth_error L x = Some s -> Vmax M2 W2 G2 x = Vmax M1 W1 G1 s.
  Proof. intros W1 W2 x s H. apply Rle_antisym; apply Vmax_le; intros k; [rewrite (corr_vmax k x s H)|rewrite <- (corr_vmax k x s H)]; apply vmax_le_Vmax. Qed.
End Corr.

(** ** Induced systems *)
Section Induced.
  Variable rf : rform.
  Hypothesis BF : built_form rf.
  Hypothesis EX : exact_rows (a_P (rf_sys rf)).
  Variable keep : nat -> bool.
  Variable m' : amdp.
  Variables tl fl : string.
  Hypothesis HI : induced (rf_sys rf) keep m' tl fl.
  Hypothesis OK' : sys_ok m'.
  Let m := rf_sys rf.
  Let M := form_mdp rf.
  Let SH : shape_mdp M := proj1 (br_rf rf BF EX).
  Let R := restrict M keep.
  Let M' := mdp_of m'.
  Let ST := kept_states m keep.
  Let RW := kept_rows m keep.

  Lemma ind_src' : forall r s a, a_inv m' r = Some (s, a) -> src M' r = s.
  Proof. intros r s a H. unfold M', mdp_of, sys_mdp. simpl. rewrite H. auto. Qed.
  Lemma ind_src : forall r s a, a_inv m r = Some (s, a) -> src M r = s.
  Proof. apply (br_src rf). Qed.
  Lemma ind_nS : nS M' = length ST + 2. Proof. apply (in_N _ _ _ _ _ HI). Qed.
  Lemma ind_nA : nA M' = length RW + 2. Proof. apply (in_C _ _ _ _ _ HI). Qed.

  (** Rows of the induced system. *)
  Lemma ind_row : forall j, j < nA M' - 2 -> exists i s a x, nth_error RW j = Some i /\ a_inv m i = Some (s, a) /\ nth_error ST x = Some s /\ a_inv m' j = Some (x, a).
  Proof.
    intros j Hj. rewrite ind_nA in Hj. destruct (row_at rf BF keep j) as (i & s & a & x & E1 & E2 & E3); [unfold RW, m in Hj; lia|].
    destruct (in_row _ _ _ _ _ HI j i s a E1 E2) as (x' & E4 & E5). exists i, s, a, x'. auto.
  Qed.
  (** Every row of a kept state has its copy. *)
  Lemma ind_copy : forall i s, i < nA M - 2 -> src M i = s -> keep s = true -> exists j, nth_error RW j = Some i.
  Proof.
    intros i s Hi Es Hk. apply In_nth_error. apply (R_In rf keep). split; [exact Hi|].
    destruct (co_row rf BF i) as (s' & a & E & _); [exact Hi|]. rewrite (co_row_src rf _ _ _ E). rewrite (ind_src _ _ _ E) in Es. subst s'. exact Hk.
  Qed.
  Lemma ind_state : forall s, s < nS M - 2 -> keep s = true -> exists x, nth_error ST x = Some s.
  Proof. intros s Hs Hk. destruct (S_pos rf keep s Hs Hk) as (x & E & _). eauto. Qed.

  Lemma ind_wf : wf_mdp M'.
  Proof.
    assert (PS : proper_system (a_P m') (a_inv m')).
    { split; [apply (ok_wf m' OK')|]. split; [apply (in_exact _ _ _ _ _ HI)|]. intros x Hx. change (x < nS M') in Hx. rewrite ind_nS in Hx.
      pose proof (in_C _ _ _ _ _ HI) as HC. pose proof (in_N _ _ _ _ _ HI) as HN. fold m in HC, HN. fold ST in HN. fold RW in HC. change (mrows (a_P m')) with (a_C m').
      destruct (Nat.lt_ge_cases x (length ST)) as [L|L].
      - destruct (nth_error ST x) as [s|] eqn:Ex; [|apply nth_error_None in Ex; lia]. destruct (S_nth rf keep x s Ex) as (_ & Hs & Hk).
        destruct (W_act M (RFW M SH) s) as (r & Hr & Es). { change (nS M) with (a_N m). unfold m. lia. }
        assert (Hr2 : r < nA M - 2) by (eapply (rows_in M SH s); eauto). destruct (ind_copy r s Hr2 Es Hk) as (j & Ej).
        destruct (ind_row j) as (i & s' & a & x' & E1 & E2 & E3 & E4). { rewrite ind_nA. assert (j < length RW) by (apply nth_error_Some; congruence). lia. }
        rewrite Ej in E1. inversion E1; subst i. rewrite (ind_src _ _ _ E2) in Es. subst s'.
        assert (x' = x). { eapply NoDup_nth_error; [apply (S_nodup rf keep)| |]. { apply nth_error_Some. fold m ST. rewrite E3. discriminate. } fold m ST. congruence. } subst x'.
        exists j, a. split; [|exact E4]. rewrite HC. assert (j < length RW) by (apply nth_error_Some; congruence). lia.
      - assert (x = a_N m' - 2 \/ x = a_N m' - 1) as [-> | ->] by lia; eexists; exists 0; (split; [|apply HI]); lia. }
    destruct OK' as (_ & K1 & K2 & _). exact (sys_wf (a_P m') (a_idx m') (a_rew m') K1 K2 PS).
  Qed.

  Lemma ind_shape : shape_mdp M'.
  Proof.
    split; [apply ind_wf|]. split; [rewrite ind_nS; lia|]. split; [rewrite ind_nA; lia|]. split; [|split; split].
    - intros r Hr. destruct (ind_row r Hr) as (i & s & a & x & E1 & E2 & E3 & E4). rewrite (ind_src' _ _ _ E4), ind_nS. assert (x < length ST) by (apply nth_error_Some; congruence). lia.
    - apply (ind_src' _ _ 0). apply HI.
    - unfold M', mdp_of, sys_mdp. simpl. rewrite <- RMicromega.Q2R_1. apply Qeq_eqR. apply (in_target_loop _ _ _ _ _ HI).
    - apply (ind_src' _ _ 0). apply HI.
    - unfold M', mdp_of, sys_mdp. simpl. rewrite <- RMicromega.Q2R_1. apply Qeq_eqR. apply (in_fail_loop _ _ _ _ _ HI).
  Qed.

  Lemma ind_corr : forall j i s a, nth_error RW j = Some i -> a_inv m i = Some (s, a) -> corr R M' ST i j.
  Proof.
    intros j i s a Ej Es. destruct (R_nth rf BF keep j i Ej) as (Hj & Hi & s' & a' & Es' & Hs & Hk). fold m in Es'. rewrite Es in Es'. inversion Es'; subst s' a'.
    change (i < nA M - 2) in Hi. pose proof (ind_src _ _ _ Es) as HS. split; [|split].
    - intros x d Ex. destruct (S_nth rf keep x d Ex) as (_ & Hd & Hkd). unfold R. rewrite (R_in M keep i d Hi) by exact Hd. rewrite HS, Hk, Hkd.
      unfold M', M, form_mdp, mdp_of, sys_mdp. simpl. rewrite (in_prob _ _ _ _ _ HI j i x d Ej Ex). auto.
    - intros d Hd Hn. unfold R. rewrite (R_in M keep i d Hi) by exact Hd. rewrite HS, Hk. destruct (keep d) eqn:Kd; auto. exfalso. apply Hn. apply (S_In rf keep). auto.
    - change (goal R) with (goal M). unfold R. rewrite (R_goal M SH keep i Hi). rewrite HS, Hk.
      unfold M', M, form_mdp, mdp_of, sys_mdp. simpl. apply Qeq_eqR. apply (in_target _ _ _ _ _ HI j i Ej).
  Qed.

  Lemma ind_values : forall WR W' x s, nth_error ST x = Some s ->
    Vmin M' W' (is_goal M') x = Vmin R WR (is_goal R) s /\ Vmax M' W' (is_goal M') x = Vmax R WR (is_goal R) s.
  Proof.
    assert (A1 : forall s, In s ST -> s < nS R - 2). { intros s Hs. apply (S_In rf keep) in Hs. apply Hs. }
    assert (A2 : nS M' - 2 = length ST) by (rewrite ind_nS; lia).
    assert (A3 : forall x s r, nth_error ST x = Some s -> r < nA R - 2 -> src R r = s -> exists r', r' < nA M' - 2 /\ src M' r' = x /\ corr R M' ST r r').
    { intros x s r Ex Hr Es. destruct (S_nth rf keep x s Ex) as (_ & Hs & Hk). change (r < nA M - 2) in Hr. change (src M r = s) in Es.
      destruct (ind_copy r s Hr Es Hk) as (j & Ej). assert (Hj : j < length RW) by (apply nth_error_Some; congruence).
      destruct (ind_row j) as (i & s' & a & x' & E1 & E2 & E3 & E4); [rewrite ind_nA; lia|]. rewrite Ej in E1. inversion E1; subst i. rewrite (ind_src _ _ _ E2) in Es. subst s'.
      assert (x' = x). { eapply NoDup_nth_error; [apply (S_nodup rf keep)| |]. { apply nth_error_Some. fold m ST. rewrite E3. discriminate. } fold m ST. congruence. } subst x'.
      exists j. split; [rewrite ind_nA; lia|]. split; [apply (ind_src' _ _ _ E4)|]. eapply ind_corr; eauto. }
    assert (A4 : forall x s r', nth_error ST x = Some s -> r' < nA M' - 2 -> src M' r' = x -> exists r, r < nA R - 2 /\ src R r = s /\ corr R M' ST r r').
    { intros x s j Ex Hj Es. destruct (ind_row j Hj) as (i & s' & a & x' & E1 & E2 & E3 & E4). rewrite (ind_src' _ _ _ E4) in Es. subst x'. rewrite Ex in E3. inversion E3; subst s'.
      exists i. split; [apply (R_nth rf BF keep j i E1)|]. split; [apply (ind_src _ _ _ E2)|]. eapply ind_corr; eauto. }
    intros WR W' x s Ex. split.
    - apply (corr_Vmin R M' (R_shape M SH keep) ind_shape ST (S_nodup rf keep) A1 A2 A3 A4); auto.
    - apply (corr_Vmax R M' (R_shape M SH keep) ind_shape ST (S_nodup rf keep) A1 A2 A3 A4); auto.
  Qed.
End Induced.
