(** Reduction, sixth part: preservation of reachability probabilities. *)
From Coq Require Import String List Arith ZArith QArith Qreals Reals Bool Lia Lra.
From Verif Require Import Base BaseFacts Num Matrix MatFacts InvDict Graph GraphSpec SccSpec SpecMdp SumFacts MdpValue SpecEc SpecSystem SpecForm SpecBuilt Amdp AmdpProofs ReachForm ReachFormProofs RfFacts BuiltFacts SpecProb RfBridge SpecReduce Reduce ReduceProofs1 ReduceProofs2 ReduceProofs3 ReduceProofs4 ReduceProofs5.
Import ListNotations.
Local Open Scope nat_scope.

(** Optimal one-step values over corresponding rows agree. *)
Lemma minr_corr : forall M M' s s' f f', 
  (forall r, r < nA M -> src M r = s -> exists r', r' < nA M' /\ src M' r' = s' /\ f r = f' r') ->
  (forall r', r' < nA M' -> src M' r' = s' -> exists r, r < nA M /\ src M r = s /\ f r = f' r') ->
  minr M s f (nA M) = minr M' s' f' (nA M').
Proof.
  intros M M' s s' f f' H H'. apply Rle_antisym; apply minr_glb; try apply minr_le1.
  - intros r' Hr Hs. destruct (H' r' Hr Hs) as (r & A & E & <-). apply minr_le; auto.
  - intros r Hr Hs. destruct (H r Hr Hs) as (r' & A & E & ->). apply minr_le; auto.
Qed.
Lemma maxr_corr : forall M M' s s' f f', 
  (forall r, r < nA M -> src M r = s -> exists r', r' < nA M' /\ src M' r' = s' /\ f r = f' r') ->
  (forall r', r' < nA M' -> src M' r' = s' -> exists r, r < nA M /\ src M r = s /\ f r = f' r') ->
  maxr M s f (nA M) = maxr M' s' f' (nA M').
Proof.
  intros M M' s s' f f' H H'. apply Rle_antisym; apply maxr_lub; try apply maxr_ge0.
  - intros r Hr Hs. destruct (H r Hr Hs) as (r' & A & E & ->). apply maxr_ge; auto.
  - intros r' Hr Hs. destruct (H' r' Hr Hs) as (r & A & E & <-). apply maxr_ge; auto.
Qed.

Section Val.
  Variables (m : amdp) (il tl ntl nfl : string) (init : nat).
  Variables (rows : dict (nat * nat) (nat * nat)) (cols : dict nat nat) (tmask : list bool) (P : mat) (m' : amdp).
  Hypothesis B : built m.
  Hypothesis PRE : red_pre m il tl ntl nfl init.
  Hypothesis D : red_mid m tl ntl nfl init rows cols tmask P m'.
  Hypothesis ACT : every_state_acts m.
  Hypothesis EX : exact_rows (a_P m).
  Hypothesis EX' : exact_rows (a_P m').
  Let OK : sys_ok m := built_ok m B.
  Let M := mdp_of m.
  Let M' := mdp_of m'.
  Let T := label_set m tl.
  Let G := is_goal M'.
  Let C := length rows.
  Let N := length cols.
  Hypothesis W' : wf_mdp M'.

  Lemma T_iff : forall s, T s = true <-> has_label m tl s.
  Proof. intros s. unfold T, label_set. apply (smem_In Nat.eqb Nat.eqb_spec). Qed.

  Lemma m_proper : proper_system (a_P m) (a_inv m).
  Proof. split; [apply (ok_wf m OK)|]. split; [exact EX|]. intros s Hs. destruct (ACT s Hs) as (a & i & Hi & E). eauto. Qed.
  Lemma m_wf : wf_mdp M.
  Proof. destruct OK as (_ & K1 & K2 & _). exact (sys_wf (a_P m) (a_idx m) (a_rew m) K1 K2 m_proper). Qed.

  Lemma src_inv : forall r, r < nA M -> exists a, a_inv m r = Some (src M r, a).
  Proof. intros r Hr. destruct (row_idx m OK r Hr) as (s & a & E & _). exists a. unfold M, mdp_of, sys_mdp. simpl. change (binv Nat.eqb (a_idx m) r) with (a_inv m r). rewrite E. auto. Qed.
  Lemma src_eq : forall r s a, a_inv m r = Some (s, a) -> src M r = s.
  Proof. intros r s a E. unfold M, mdp_of, sys_mdp. simpl. change (binv Nat.eqb (a_idx m) r) with (a_inv m r). rewrite E. auto. Qed.
  Lemma src_eq' : forall r s a, a_inv m' r = Some (s, a) -> src M' r = s.
  Proof. intros r s a E. unfold M', mdp_of, sys_mdp. simpl. change (binv Nat.eqb (a_idx m') r) with (a_inv m' r). rewrite E. auto. Qed.

  Lemma nS' : nS M' = N + 2. Proof. apply (m'_cols _ _ _ _ _ _ _ _ _ _ D). Qed.
  Lemma nA' : nA M' = C + 2. Proof. apply (m'_rows _ _ _ _ _ _ _ _ _ _ D). Qed.
  Lemma goal_iff : forall s, G s = true <-> s = N.
  Proof. intros s. unfold G, is_goal, goal. rewrite nS'. replace (N + 2 - 2) with N by lia. apply Nat.eqb_eq. Qed.

  (** States that cannot reach a target have value zero. *)
  Lemma dead_ex : forall (v : nat -> R) s, ~ can_reach m tl s -> (forall d, ~ can_reach m tl d -> v d = 0%R) ->
    forall r, r < nA M -> src M r = s -> ex M r v = 0%R.
  Proof.
    intros v s Hs HV r Hr Es. unfold ex. apply sumn_zero. intros d Hd.
    destruct (Req_dec (prob M r d) 0) as [->|Hp]; [lra|]. rewrite HV; [lra|]. intros (t & Ht & Hr').
    apply Hs. exists t. split; auto. econstructor; [|exact Hr']. destruct (src_inv r Hr) as (a & Ea). rewrite Es in Ea.
    exists r, a, (mget (a_P m) r d). split; [|exact Ea]. apply mget_nonzero. intros E. apply Hp. unfold M, mdp_of, sys_mdp. simpl. rewrite (Qeq_eqR _ _ E). apply Q2R_0.
  Qed.
  Lemma dead_T : forall s, ~ can_reach m tl s -> T s = false.
  Proof. intros s H. destruct (T s) eqn:E; auto. exfalso. apply H. exists s. split; [apply T_iff; auto|constructor]. Qed.
  Lemma vmax_dead : forall n s, s < nS M -> ~ can_reach m tl s -> vmax M T n s = 0%R.
  Proof.
    assert (Gn : forall n s, ~ can_reach m tl s -> vmax M T n s = 0%R); [|intros; apply Gn; auto].
    induction n as [|n IH]; intros s H; simpl; rewrite (dead_T s H); auto.
    apply Rle_antisym; [|apply maxr_ge0]. apply maxr_lub; [lra|]. intros r Hr Es. rewrite (dead_ex _ s H IH r Hr Es). lra.
  Qed.
  Lemma vmin_dead : forall n s, s < nS M -> ~ can_reach m tl s -> vmin M T n s = 0%R.
  Proof.
    assert (Gn : forall n s, s < nS M -> ~ can_reach m tl s -> vmin M T n s = 0%R); [|auto].
    intros n s Hs H. apply Rle_antisym; [|apply (vmin_bounds M m_wf T n s)].
    rewrite <- (vmax_dead n s Hs H).
    destruct (W_act M m_wf s Hs) as (r0 & _). 
    assert (X : forall n s, s < nS M -> (vmin M T n s <= vmax M T n s)%R); [|apply X; auto].
    clear n s Hs H r0. induction n as [|n IH]; intros s Hs; simpl; destruct (T s); try lra.
    destruct (W_act M m_wf s Hs) as (r & Hr & Es). apply Rle_trans with (ex M r (vmin M T n)); [exact (minr_le M s (fun r => ex M r (vmin M T n)) (nA M) r Hr Es)|].
    apply Rle_trans with (ex M r (vmax M T n)); [apply ex_le; auto; exact m_wf|]. exact (maxr_ge M s (fun r => ex M r (vmax M T n)) (nA M) r Hr Es).
  Qed.

  (** The fail state has value zero. *)
  Lemma fail_row : forall r, r < nA M' -> src M' r = S N -> r = S C.
  Proof.
    intros r Hr Es. destruct (row_idx m' (m'_ok _ _ _ _ _ _ _ _ _ _ D) r Hr) as (s & a & E & _). rewrite (src_eq' _ _ _ E) in Es. subst s.
    apply (inv'_cases _ _ _ _ _ _ _ _ _ _ D) in E. destruct E as [(s & E & Hc)|[(_ & E & _)|(E & _)]]; [|unfold N in E; lia|exact E].
    apply (col_lt _ _ _ _ _ _ _ _ _ _ D) in Hc. fold N in Hc. lia.
  Qed.
  Lemma mget'_zero : forall r d, (forall p, ~ In ((r, d), p) (mitems (a_P m'))) -> prob M' r d = 0%R.
  Proof. intros r d H. unfold M', mdp_of, sys_mdp. simpl. rewrite (mget_none (a_P m') r d H). apply Q2R_0. Qed.
  Lemma mget'_in : forall r d p, In ((r, d), p) (mitems (a_P m')) -> prob M' r d = Q2R p.
  Proof. intros r d p H. unfold M', mdp_of, sys_mdp. simpl. rewrite (mget_In _ _ _ _ (ok_wf m' (m'_ok _ _ _ _ _ _ _ _ _ _ D)) H). auto. Qed.

  Lemma fail_ex : forall v, ex M' (S C) v = v (S N).
  Proof.
    intros v. unfold ex. rewrite nS'. rewrite (sumn_single (N + 2) (S N)).
    - rewrite (mget'_in (S C) (S N) 1%Q); [rewrite Q2R_1; lra|]. apply (rd_fail_row _ _ _ _ _ _ _ _ (md_red _ _ _ _ _ _ _ _ _ _ D)). auto.
    - lia.
    - intros i Hi Hn. rewrite mget'_zero; [lra|]. intros p Hp. apply (rd_fail_row _ _ _ _ _ _ _ _ (md_red _ _ _ _ _ _ _ _ _ _ D)) in Hp. unfold N in Hn. tauto.
  Qed.
  Lemma G_fail : G (S N) = false.
  Proof. destruct (G (S N)) eqn:E; auto. apply goal_iff in E. lia. Qed.
  Lemma vmin_fail : forall n, vmin M' G n (S N) = 0%R.
  Proof.
    induction n as [|n IH]; simpl; rewrite G_fail; auto. apply Rle_antisym; [|apply minr_glb; [lra|]].
    - assert (HA : S C < nA M') by (rewrite nA'; lia).
      assert (HS : src M' (S C) = S N). { apply (src_eq' _ _ 0). apply (inv'_cases _ _ _ _ _ _ _ _ _ _ D). auto. }
      apply Rle_trans with (ex M' (S C) (vmin M' G n)); [apply (minr_le M' (S N) (fun r => ex M' r (vmin M' G n))); auto|]. rewrite fail_ex, IH. lra.
    - intros r Hr Es. rewrite (fail_row r Hr Es), fail_ex, IH. lra.
  Qed.
  Lemma vmax_fail : forall n, vmax M' G n (S N) = 0%R.
  Proof.
    induction n as [|n IH]; simpl; rewrite G_fail; auto. apply Rle_antisym; [apply maxr_lub; [lra|]|apply maxr_ge0].
    intros r Hr Es. rewrite (fail_row r Hr Es), fail_ex, IH. lra.
  Qed.

  (** Rows of kept states. *)
  Lemma ex_target : forall j s a k v, nth_error rows j = Some ((s, a), k) -> has_label m tl s -> ex M' j v = v N.
  Proof.
    intros j s a k v Ej Ht. apply (md_tm _ _ _ _ _ _ _ _ _ _ D) in Ht. pose proof (rd_target _ _ _ _ _ _ _ _ (md_red _ _ _ _ _ _ _ _ _ _ D)) as RT.
    unfold ex. rewrite nS'. rewrite (sumn_single (N + 2) N).
    - rewrite (mget'_in j N 1%Q); [rewrite Q2R_1; lra|]. eapply RT; eauto.
    - lia.
    - intros i Hi Hn. rewrite mget'_zero; [lra|]. intros p Hp. eapply RT in Hp; eauto. unfold N in Hn. tauto.
  Qed.

  Lemma ex_row : forall j s a s' i v v', nth_error rows j = Some ((s, a), (s', a)) -> ~ has_label m tl s -> a_row m (s, a) = Some i ->
    (forall d d', In (d, d') cols -> v d = v' d') -> (forall d, d < nS M -> ~ can_reach m tl d -> v d = 0%R) -> v' (S N) = 0%R ->
    ex M i v = ex M' j v'.
  Proof.
    intros j s a s' i v v' Ej Ht Ei HV HZ HF.
    assert (Et : nth s tmask false = false). { destruct (nth s tmask false) eqn:E; auto. apply (md_tm _ _ _ _ _ _ _ _ _ _ D) in E. contradiction. }
    pose proof (md_red _ _ _ _ _ _ _ _ _ _ D) as RD. pose proof (md_cb _ _ _ _ _ _ _ _ _ _ D) as CB.
    unfold ex. rewrite nS'. rewrite (sumn_split2 (N + 2)) by lia. replace (N + 2 - 2) with N by lia. replace (N + 2 - 1) with (S N) by lia.
    rewrite HF. rewrite (mget'_zero j N).
    2:{ intros p Hp. eapply (rd_row _ _ _ _ _ _ _ _ RD) in Hp; eauto. destruct Hp as (d & Hd & _). apply (col_lt _ _ _ _ _ _ _ _ _ _ D) in Hd. fold N in Hd. lia. }
    rewrite Rmult_0_l, Rmult_0_r, !Rplus_0_r.
    apply sumn_reindex with (cols := cols).
    - apply CB.
    - apply (md_cs _ _ _ _ _ _ _ _ _ _ D).
    - intros d c Hc. split. { eapply relevant_lt; eauto. eapply col_relevant; eauto. }
      rewrite (HV _ _ Hc). f_equal. unfold M, M', mdp_of, sys_mdp. simpl. f_equal. apply mget_ext.
      + apply (ok_wf m' (m'_ok _ _ _ _ _ _ _ _ _ _ D)).
      + apply (ok_wf m OK).
      + intros p. pose proof (col_lt _ _ _ _ _ _ _ _ _ _ D _ _ Hc) as Hlt. rewrite (rd_row _ _ _ _ _ _ _ _ RD _ _ _ _ _ _ _ Ej Et Ei) by (unfold N in Hlt; lia). split; [|eauto].
        intros (d0 & H0 & Hp). rewrite (cols_inj cols CB _ _ _ Hc H0). auto.
    - intros d Hd Hk. destruct (Req_dec (prob M i d) 0) as [->|Hp]; [lra|]. rewrite HZ; [lra|auto|]. intros CR. apply Hk.
      assert (He : sys_edge m s d).
      { exists i, a, (mget (a_P m) i d). split; [|apply (row_inv m OK); auto]. apply mget_nonzero. intros E. apply Hp. unfold M, mdp_of, sys_mdp. simpl. rewrite (Qeq_eqR _ _ E). apply Q2R_0. }
      assert (Rd : relevant m init tl d). { split; auto. apply ra_step with s; auto. apply nth_error_In in Ej. apply (md_rc _ _ _ _ _ _ _ _ _ _ D) in Ej. destruct Ej as [_ Hc]. apply (col_relevant _ _ _ _ _ _ _ _ _ _ D _ _ Hc). }
      apply (relevant_col m il tl ntl nfl init rows cols tmask P m' OK PRE D ACT) in Rd. destruct Rd as (x & Hx). apply in_map_iff. exists (d, x). auto.
  Qed.

  (** Rows of [s] and of its image correspond. *)
  Lemma rows_to : forall s s' r, In (s, s') cols -> r < nA M -> src M r = s ->
    exists j a, nth_error rows j = Some ((s, a), (s', a)) /\ a_row m (s, a) = Some r /\ j < nA M' /\ src M' j = s'.
  Proof.
    intros s s' r Hc Hr Es. destruct (src_inv r Hr) as (a & Ea). rewrite Es in Ea.
    assert (Hk : In (s, a) (map fst rows)). { apply (md_rows _ _ _ _ _ _ _ _ _ _ D). split; [eapply col_relevant; eauto|]. exists r. auto. }
    apply in_map_iff in Hk. destruct Hk as ([sa [x b]] & E' & Hin). simpl in E'. subst sa. destruct (md_rc _ _ _ _ _ _ _ _ _ _ D _ _ _ _ Hin) as [-> Hc'].
    rewrite <- (cols_fun cols (md_cb _ _ _ _ _ _ _ _ _ _ D) _ _ _ Hc Hc') in Hin. destruct (In_nth_error _ _ Hin) as (j & Ej).
    exists j, a. split; [auto|]. split; [apply (row_inv m OK); auto|]. split; [rewrite nA'; apply row_lt in Ej; fold C in Ej; lia|].
    apply (src_eq' _ _ a). apply (inv'_cases _ _ _ _ _ _ _ _ _ _ D). left. eauto.
  Qed.
  Lemma rows_from : forall s s' j, In (s, s') cols -> j < nA M' -> src M' j = s' ->
    exists r a, nth_error rows j = Some ((s, a), (s', a)) /\ a_row m (s, a) = Some r /\ r < nA M /\ src M r = s.
  Proof.
    intros s s' j Hc Hj Es. pose proof (col_lt _ _ _ _ _ _ _ _ _ _ D _ _ Hc) as Hlt.
    destruct (row_idx m' (m'_ok _ _ _ _ _ _ _ _ _ _ D) j Hj) as (x & a & E & _). rewrite (src_eq' _ _ _ E) in Es. subst x.
    apply (inv'_cases _ _ _ _ _ _ _ _ _ _ D) in E. destruct E as [(s0 & E & Hc0)|[(_ & E & _)|(_ & E & _)]]; [|unfold N in Hlt; lia|unfold N in Hlt; lia].
    rewrite (cols_inj cols (md_cb _ _ _ _ _ _ _ _ _ _ D) _ _ _ Hc0 Hc) in E.
    assert (Hk : In (s, a) (map fst rows)). { apply in_map_iff. exists ((s, a), (s', a)). split; auto. eapply nth_error_In; eauto. }
    apply (md_rows _ _ _ _ _ _ _ _ _ _ D) in Hk. destruct Hk as (_ & r & Hr & Er). exists r, a. split; [auto|]. split; [apply (row_inv m OK); auto|]. split; [exact Hr|].
    eapply src_eq; eauto.
  Qed.
  Lemma G_col : forall s s', In (s, s') cols -> G s' = false.
  Proof. intros s s' Hc. apply (col_lt _ _ _ _ _ _ _ _ _ _ D) in Hc. destruct (G s') eqn:E; auto. apply goal_iff in E. unfold N in E. lia. Qed.

  Lemma vmin_zero' : forall s s', In (s, s') cols -> vmin M' G 0 s' = 0%R.
  Proof. intros s s' Hc. simpl. rewrite (G_col _ _ Hc). auto. Qed.

  Lemma G_N : G N = true. Proof. apply goal_iff. auto. Qed.
  Lemma vmin_keep : forall n s s', In (s, s') cols -> vmin M T n s = vmin M' G (S n) s'.
  Proof.
    induction n as [|n IH]; intros s s' Hc.
    - cbn [vmin]. rewrite (G_col _ _ Hc). destruct (T s) eqn:Et.
      + apply T_iff in Et. apply Rle_antisym; [|apply minr_le1]. apply minr_glb; [lra|]. intros r Hr Es. destruct (rows_from _ _ _ Hc Hr Es) as (r0 & a & Ej & _).
        rewrite (ex_target _ _ _ _ _ Ej Et). rewrite G_N. lra.
      + assert (Ht : ~ has_label m tl s) by (intros H; apply T_iff in H; congruence).
        assert (Hs : s < nS M) by (eapply relevant_lt; eauto; eapply col_relevant; eauto).
        destruct (W_act M m_wf s Hs) as (r & Hr & Es). destruct (rows_to _ _ _ Hc Hr Es) as (j & a & Ej & Er & Hj & Esj).
        apply Rle_antisym.
        * apply minr_glb; [lra|]. intros r1 Hr1 Es1. apply (ex_bounds M' W' r1 (fun s0 => if G s0 then 1 else 0)%R 0 1 Hr1). intros d _. destruct (G d); lra.
        * apply Rle_trans with (ex M' j (fun s0 => if G s0 then 1 else 0)%R). { apply (minr_le M' s' (fun r => ex M' r (fun s0 => if G s0 then 1 else 0)%R)); auto. }
          rewrite <- (ex_row j s a s' r (fun _ => 0%R) _ Ej Ht Er).
          -- rewrite (ex_const M m_wf); auto. lra.
          -- intros d d' Hd. rewrite (G_col _ _ Hd). auto.
          -- auto.
          -- rewrite G_fail. auto.
    - change (vmin M' G (S (S n)) s') with (if G s' then 1%R else minr M' s' (fun r => ex M' r (vmin M' G (S n))) (nA M')).
      change (vmin M T (S n) s) with (if T s then 1%R else minr M s (fun r => ex M r (vmin M T n)) (nA M)).
      rewrite (G_col _ _ Hc). destruct (T s) eqn:Et.
      + apply T_iff in Et. apply Rle_antisym; [|apply minr_le1]. apply minr_glb; [lra|]. intros r Hr Es. destruct (rows_from _ _ _ Hc Hr Es) as (r0 & a & Ej & _).
        rewrite (ex_target _ _ _ _ _ Ej Et). rewrite vmin_T by apply G_N. lra.
      + assert (Ht : ~ has_label m tl s) by (intros H; apply T_iff in H; congruence).
        apply minr_corr.
        * intros r Hr Es. destruct (rows_to _ _ _ Hc Hr Es) as (j & a & Ej & Er & Hj & Esj). exists j. split; [auto|]. split; [auto|].
          eapply ex_row; eauto; [apply vmin_dead|apply vmin_fail].
        * intros j Hj Es. destruct (rows_from _ _ _ Hc Hj Es) as (r & a & Ej & Er & Hr & Esr). exists r. split; [auto|]. split; [auto|].
          eapply ex_row; eauto; [apply vmin_dead|apply vmin_fail].
  Qed.

  Lemma vmax_keep : forall n s s', In (s, s') cols -> vmax M T n s = vmax M' G (S n) s'.
  Proof.
    induction n as [|n IH]; intros s s' Hc.
    - cbn [vmax]. rewrite (G_col _ _ Hc). destruct (T s) eqn:Et.
      + apply T_iff in Et. 
        assert (Hs : s < nS M) by (eapply relevant_lt; eauto; eapply col_relevant; eauto).
        destruct (W_act M m_wf s Hs) as (r & Hr & Es). destruct (rows_to _ _ _ Hc Hr Es) as (j & a & Ej & Er & Hj & Esj).
        apply Rle_antisym.
        * apply Rle_trans with (ex M' j (fun s0 => if G s0 then 1 else 0)%R); [rewrite (ex_target _ _ _ _ _ Ej Et), G_N; lra|].
          apply (maxr_ge M' s' (fun r => ex M' r (fun s0 => if G s0 then 1 else 0)%R)); auto.
        * apply maxr_lub; [lra|]. intros r1 Hr1 Es1. apply (ex_bounds M' W' r1 (fun s0 => if G s0 then 1 else 0)%R 0 1 Hr1). intros d _. destruct (G d); lra.
      + assert (Ht : ~ has_label m tl s) by (intros H; apply T_iff in H; congruence).
        apply Rle_antisym; [apply maxr_ge0|]. apply maxr_lub; [lra|]. intros j Hj Es. destruct (rows_from _ _ _ Hc Hj Es) as (r & a & Ej & Er & Hr & Esr).
        rewrite <- (ex_row j s a s' r (fun _ => 0%R) _ Ej Ht Er).
        * rewrite (ex_const M m_wf); auto. lra.
        * intros d d' Hd. rewrite (G_col _ _ Hd). auto.
        * auto.
        * rewrite G_fail. auto.
    - change (vmax M' G (S (S n)) s') with (if G s' then 1%R else maxr M' s' (fun r => ex M' r (vmax M' G (S n))) (nA M')).
      change (vmax M T (S n) s) with (if T s then 1%R else maxr M s (fun r => ex M r (vmax M T n)) (nA M)).
      rewrite (G_col _ _ Hc). destruct (T s) eqn:Et.
      + apply T_iff in Et. 
        assert (Hs : s < nS M) by (eapply relevant_lt; eauto; eapply col_relevant; eauto).
        destruct (W_act M m_wf s Hs) as (r & Hr & Es). destruct (rows_to _ _ _ Hc Hr Es) as (j & a & Ej & Er & Hj & Esj).
        apply Rle_antisym.
        * apply Rle_trans with (ex M' j (vmax M' G (S n))); [rewrite (ex_target _ _ _ _ _ Ej Et), vmax_T by apply G_N; lra|].
          apply (maxr_ge M' s' (fun r => ex M' r (vmax M' G (S n)))); auto.
        * apply maxr_lub; [lra|]. intros r1 Hr1 Es1. apply (ex_bounds M' W' r1 (vmax M' G (S n)) 0 1 Hr1). intros d _. apply vmax_bounds. exact W'.
      + assert (Ht : ~ has_label m tl s) by (intros H; apply T_iff in H; congruence).
        apply maxr_corr.
        * intros r Hr Es. destruct (rows_to _ _ _ Hc Hr Es) as (j & a & Ej & Er & Hj & Esj). exists j. split; [auto|]. split; [auto|].
          eapply ex_row; eauto; [apply vmax_dead|apply vmax_fail].
        * intros j Hj Es. destruct (rows_from _ _ _ Hc Hj Es) as (r & a & Ej & Er & Hr & Esr). exists r. split; [auto|]. split; [auto|].
          eapply ex_row; eauto; [apply vmax_dead|apply vmax_fail].
  Qed.

  Lemma Vmin_keep : forall s s', In (s, s') cols -> Vmin M m_wf T s = Vmin M' W' G s'.
  Proof.
    intros s s' Hc. apply Rle_antisym; apply Vmin_le; intros n.
    - rewrite (vmin_keep n s s' Hc). apply vmin_le_Vmin.
    - eapply Rle_trans; [apply (vmin_mono M' W' G n s')|]. rewrite <- (vmin_keep n s s' Hc). apply vmin_le_Vmin.
  Qed.
  Lemma Vmax_keep : forall s s', In (s, s') cols -> Vmax M m_wf T s = Vmax M' W' G s'.
  Proof.
    intros s s' Hc. apply Rle_antisym; apply Vmax_le; intros n.
    - rewrite (vmax_keep n s s' Hc). apply vmax_le_Vmax.
    - eapply Rle_trans; [apply (vmax_mono M' W' G n s')|]. rewrite <- (vmax_keep n s s' Hc). apply vmax_le_Vmax.
  Qed.
  Lemma keep_lt : forall s s', In (s, s') cols -> s < nS M /\ s' < nS M'.
  Proof.
    intros s s' Hc. split; [eapply relevant_lt; eauto; eapply col_relevant; eauto|]. rewrite nS'. apply (col_lt _ _ _ _ _ _ _ _ _ _ D) in Hc. unfold N. lia.
  Qed.
End Val.

Lemma C13_lemma : forall rnd m il tl ntl nfl rf cols rows, built m -> every_state_acts m -> exact_rows (a_P m) -> ntl <> nfl ->
  reduce rnd m il tl ntl nfl = Ok (rf, cols, rows) -> forall s s', dget Nat.eqb cols s = Some s' ->
  (forall v, IsPrMin (mdp_of m) (label_set m tl) s v <-> PrMinForm rf s' v) /\
  (forall v, IsPrMax (mdp_of m) (label_set m tl) s v <-> PrMaxForm rf s' v).
Proof.
  intros rnd m il tl ntl nfl rf cols rows B ACT EX Hne H s s' Hc.
  destruct (reduce_returns _ _ _ _ _ _ _ _ _ B H) as (init & tm & P & PRE & D & [_ CR] & _ & Erf).
  destruct (reduce_mid_result rnd m il tl ntl nfl init rows cols tm P _ B ACT Hne PRE D CR) as (rf1 & Erf1 & _ & BF & EX' & _).
  rewrite Erf in Erf1. inversion Erf1; subst rf1. clear Erf1. specialize (EX' EX).
  pose proof (br_wf rf BF EX') as W'. apply (cols_get cols (md_cb _ _ _ _ _ _ _ _ _ _ D)) in Hc.
  destruct (keep_lt m il tl ntl nfl init rows cols tm P (rf_sys rf) B PRE D s s' Hc) as [L1 L2].
  split; intros v; unfold PrMinForm, PrMaxForm, form_mdp.
  - rewrite (PrMin_iff _ (m_wf m B ACT EX) _ _ _ L1), (PrMin_iff _ W' _ _ _ L2). 
    rewrite (Vmin_keep m il tl ntl nfl init rows cols tm P (rf_sys rf) B PRE D ACT EX W' s s' Hc). tauto.
  - rewrite (PrMax_iff _ (m_wf m B ACT EX) _ _ _ L1), (PrMax_iff _ W' _ _ _ L2). 
    rewrite (Vmax_keep m il tl ntl nfl init rows cols tm P (rf_sys rf) B PRE D ACT EX W' s s' Hc). tauto.
Qed.

Lemma C15_raises_lemma : forall rnd m il tl ntl nfl, built m ->
  (forall init, only_state m il init -> ~ can_reach m tl init) \/ (forall s, ~ only_state m il s) \/
  (forall s, ~ has_label m tl s) \/ ~ unused m ntl \/ ~ unused m nfl ->
  exists e, reduce rnd m il tl ntl nfl = Err e.
Proof.
  intros rnd m il tl ntl nfl B H. destruct (reduce rnd m il tl ntl nfl) as [r|e] eqn:E; [|eauto]. exfalso.
  destruct (C15_lemma _ _ _ _ _ _ _ B E) as (U1 & U2 & init & OI & CR).
  destruct H as [H|[H|[H|[H|H]]]]; [eapply H; eauto|eapply H; eauto| |contradiction|contradiction].
  destruct CR as (t & Ht & _). eapply H; eauto.
Qed.
