(** Theory of subsystems: monotonicity, supports of certificates, completeness. *)
From Coq Require Import List Arith Reals Lra Lia Bool QArith.
From Verif Require Import SpecMdp SumFacts MdpValue SccSpec SpecEc RfTheory SpecSub.
Import ListNotations.
Local Open Scope R_scope.

Section Sub.
  Variable M : mdp.
  Hypothesis SH : shape_mdp M.
  Variable keep : nat -> bool.
  Let W : wf_mdp M := RFW M SH.
  Let n := (nS M - 2)%nat.
  Let m := (nA M - 2)%nat.
  Let R := restrict M keep.

  Lemma sh2 : (2 <= nS M)%nat /\ (2 <= nA M)%nat. Proof. apply RF2; auto. Qed.
  Lemma sh_src : forall r, (r < m)%nat -> (src M r < n)%nat. Proof. apply RF_src; auto. Qed.

  Lemma kept_to_bound : forall r, (r < nA M)%nat -> 0 <= kept_to M keep r <= 1.
  Proof.
    intros r Hr. pose proof sh2. pose proof (W_sum M W r Hr) as HS. rewrite sumn_split2 in HS by lia. change (sumn n (prob M r) + prob M r (goal M) + prob M r (fail M) = 1) in HS. fold n.
    assert (A : 0 <= sumn n (fun d => if keep d then prob M r d else 0)).
    { apply sumn_nonneg. intros d Hd. destruct (keep d); [apply (W_pos M W); auto; lia|lra]. }
    assert (B : sumn n (fun d => if keep d then prob M r d else 0) <= sumn n (prob M r)).
    { apply sumn_le. intros d Hd. destruct (keep d); [lra|apply (W_pos M W); auto; lia]. }
    assert (0 <= prob M r (goal M)) by (apply (W_pos M W); auto; unfold goal; lia).
    assert (0 <= prob M r (fail M)) by (apply (W_pos M W); auto; unfold fail; lia). unfold kept_to. fold n. split; lra.
  Qed.

  Lemma R_in : forall r d, (r < m)%nat -> (d < n)%nat -> prob R r d = if keep (src M r) then if keep d then prob M r d else 0 else 0.
  Proof.
    intros r d Hr Hd. simpl. destruct (Nat.ltb_spec r (nA M - 2)); [|unfold m in Hr; lia]. destruct (keep (src M r)).
    - destruct (Nat.ltb_spec d (nS M - 2)); [auto|unfold n in Hd; lia].
    - destruct (Nat.eqb_spec d (fail M)); auto. unfold fail, n in *. lia.
  Qed.
  Lemma R_goal : forall r, (r < m)%nat -> prob R r (goal M) = if keep (src M r) then prob M r (goal M) else 0.
  Proof.
    intros r Hr. pose proof sh2. simpl. destruct (Nat.ltb_spec r (nA M - 2)); [|unfold m in Hr; lia]. destruct (keep (src M r)).
    - destruct (Nat.ltb_spec (goal M) (nS M - 2)); [unfold goal in *; lia|]. rewrite Nat.eqb_refl. auto.
    - destruct (Nat.eqb_spec (goal M) (fail M)); auto. unfold goal, fail in *. lia.
  Qed.
  Lemma R_fail : forall r, (r < m)%nat -> prob R r (fail M) = if keep (src M r) then 1 - kept_to M keep r else 1.
  Proof.
    intros r Hr. pose proof sh2. simpl. destruct (Nat.ltb_spec r (nA M - 2)); [|unfold m in Hr; lia]. destruct (keep (src M r)).
    - destruct (Nat.ltb_spec (fail M) (nS M - 2)); [unfold fail in *; lia|]. destruct (Nat.eqb_spec (fail M) (goal M)); auto. unfold goal, fail in *. lia.
    - rewrite Nat.eqb_refl. auto.
  Qed.
  Lemma R_last : forall r d, (m <= r)%nat -> prob R r d = prob M r d.
  Proof. intros r d Hr. simpl. destruct (Nat.ltb_spec r (nA M - 2)); auto. unfold m in Hr. lia. Qed.

  Lemma R_wf : wf_mdp R.
  Proof.
    pose proof sh2. destruct W as (W1 & W2 & W3 & W4). split; [exact W1|]. split; [|split; [|exact W4]].
    - intros r d Hr Hd. destruct (Nat.lt_ge_cases r m) as [L|L]; [|rewrite R_last; auto].
      destruct (state_cases M SH d Hd) as [D|[->| ->]].
      + rewrite R_in by auto. destruct (keep (src M r)), (keep d); try lra. apply W2; auto.
      + rewrite R_goal by auto. destruct (keep (src M r)); [|lra]. apply W2; auto.
      + rewrite R_fail by auto. destruct (keep (src M r)); [|lra]. pose proof (kept_to_bound r Hr). lra.
    - intros r Hr. destruct (Nat.lt_ge_cases r m) as [L|L].
      + change (nS R) with (nS M). rewrite sumn_split2 by lia. change (sumn n (prob R r) + prob R r (goal M) + prob R r (fail M) = 1). rewrite R_goal, R_fail by auto.
        rewrite (sumn_ext _ _ (fun d => if keep (src M r) then if keep d then prob M r d else 0 else 0)) by (intros i Hi; apply R_in; auto).
        unfold kept_to. fold n. destruct (keep (src M r)); [lra|]. rewrite sumn_zero by auto. lra.
      + rewrite (sumn_ext _ _ (prob M r)) by (intros i Hi; apply R_last; auto). apply W3; auto.
  Qed.

  Lemma R_shape : shape_mdp R.
  Proof.
    pose proof SH as (_ & A1 & A2 & A3 & (A4 & A5) & A6 & A7). split; [apply R_wf|]. split; [exact A1|]. split; [exact A2|]. split; [exact A3|].
    split; split; auto; change (nA R) with (nA M).
    - change (goal R) with (goal M). rewrite R_last; auto.
    - change (fail R) with (fail M). rewrite R_last; auto. unfold m. lia.
  Qed.

  Lemma R_onestep : forall r z, (r < m)%nat ->
    onestep R r z = if keep (src M r) then sumn n (fun d => if keep d then prob M r d * z d else 0) + prob M r (goal M) else 0.
  Proof.
    intros r z Hr. unfold onestep. change (goal R) with (goal M). rewrite R_goal by auto. change (nS R - 2)%nat with n.
    rewrite (sumn_ext n _ (fun d => if keep (src M r) then if keep d then prob M r d * z d else 0 else 0)).
    - destruct (keep (src M r)); [auto|]. rewrite sumn_zero by auto. lra.
    - intros d Hd. rewrite R_in by auto. destruct (keep (src M r)), (keep d); lra.
  Qed.

  (** Removing states never increases the value of a step. *)
  Lemma R_step_le : forall r z, (r < m)%nat -> (forall d, (d < n)%nat -> 0 <= z d) -> onestep R r z <= onestep M r z.
  Proof.
    intros r z Hr Hz. pose proof sh2. rewrite R_onestep by auto. unfold onestep. fold n.
    assert (Hr' : (r < nA M)%nat) by (unfold m in Hr; lia).
    assert (0 <= prob M r (goal M)) by (apply (W_pos M W); auto; unfold goal; lia).
    assert (P : forall d, (d < n)%nat -> 0 <= prob M r d * z d). { intros d Hd. apply Rmult_le_pos; auto. apply (W_pos M W); auto. unfold n in Hd. lia. }
    destruct (keep (src M r)).
    - apply Rplus_le_compat_r. apply sumn_le. intros d Hd. destruct (keep d); [lra|auto].
    - assert (0 <= sumn n (fun d => prob M r d * z d)) by (apply sumn_nonneg; auto). lra.
  Qed.

  Let WR : wf_mdp R := RFW R R_shape.
  Let T := is_goal M.

  Lemma V_irrel_min : forall N W1 W2 U s, Vmin N W1 U s = Vmin N W2 U s. Proof. intros. eapply is_lub_u; apply Vmin_lub. Qed.

  (** A subsystem does not exceed the system. *)
  Lemma R_Vmin_le : forall s, (s < n)%nat -> Vmin R WR T s <= Vmin M W T s.
  Proof.
    assert (K : forall k s, (s < nS M)%nat -> vmin R T k s <= vmin M T k s).
    { induction k as [|k IH]; intros s Hs; simpl; destruct (T s) eqn:Et; try lra.
      apply minr_glb; [apply minr_le1|]. intros r Hr Es. change (minr R s (fun r => ex R r (vmin R T k)) (nA M)) with (minr R s (fun r => ex R r (vmin R T k)) (nA R)).
      eapply Rle_trans; [apply (minr_le R s (fun r => ex R r (vmin R T k)) (nA R) r Hr Es)|].
      eapply Rle_trans; [|apply (ex_le M W r (vmin R T k)); auto].
      assert (E1 : vmin R T k (goal M) = 1). { destruct k; simpl; unfold T, is_goal; rewrite Nat.eqb_refl; auto. }
      assert (E2 : vmin R T k (fail M) = 0). { apply Rle_antisym; [|apply vmin_bounds; exact WR]. rewrite <- (Vmin_fail R R_shape). apply vmin_le_Vmin. }
      rewrite <- (ex_ext R r (ext M (vmin R T k)) (vmin R T k)) by (intros; apply (ext_id M SH); auto).
      rewrite <- (ex_ext M r (ext M (vmin R T k)) (vmin R T k)) by (intros; apply (ext_id M SH); auto).
      destruct (row_cases M SH r Hr) as [L|L].
      - change (ex R r (ext M (vmin R T k))) with (ex R r (ext R (vmin R T k))). rewrite (ex_ext_vec R R_shape), (ex_ext_vec M SH). apply R_step_le; auto.
        intros d Hd. apply vmin_bounds. exact WR.
      - apply Req_le. apply sumn_ext. intros d Hd. rewrite R_last; auto. unfold m. lia. }
    intros s Hs. apply Vmin_le. intros k. eapply Rle_trans; [apply K; unfold n in Hs; lia|]. apply vmin_le_Vmin.
  Qed.

  Lemma R_Vmax_le : forall s, (s < n)%nat -> Vmax R WR T s <= Vmax M W T s.
  Proof.
    assert (K : forall k s, (s < nS M)%nat -> vmax R T k s <= vmax M T k s).
    { induction k as [|k IH]; intros s Hs; simpl; destruct (T s) eqn:Et; try lra.
      apply maxr_lub; [apply maxr_ge0|]. intros r Hr Es.
      eapply Rle_trans; [|apply (maxr_ge M s (fun r => ex M r (vmax M T k)) (nA M) r Hr Es)].
      eapply Rle_trans; [|apply (ex_le M W r (vmax R T k)); auto].
      assert (E1 : vmax R T k (goal M) = 1). { destruct k; simpl; unfold T, is_goal; rewrite Nat.eqb_refl; auto. }
      assert (E2 : vmax R T k (fail M) = 0). { apply Rle_antisym; [|apply vmax_bounds; exact WR]. rewrite <- (Vmax_fail R R_shape). apply vmax_le_Vmax. }
      rewrite <- (ex_ext R r (ext M (vmax R T k)) (vmax R T k)) by (intros; apply (ext_id M SH); auto).
      rewrite <- (ex_ext M r (ext M (vmax R T k)) (vmax R T k)) by (intros; apply (ext_id M SH); auto).
      destruct (row_cases M SH r Hr) as [L|L].
      - change (ex R r (ext M (vmax R T k))) with (ex R r (ext R (vmax R T k))). rewrite (ex_ext_vec R R_shape), (ex_ext_vec M SH). apply R_step_le; auto.
        intros d Hd. apply vmax_bounds. exact WR.
      - apply Req_le. apply sumn_ext. intros d Hd. rewrite R_last; auto. unfold m. lia. }
    intros s Hs. apply Vmax_le. intros k. eapply Rle_trans; [apply K; unfold n in Hs; lia|]. apply vmax_le_Vmax.
  Qed.

  Lemma R_medge : forall s d, medge R s d -> d <> fail M -> medge M s d.
  Proof.
    intros s d (r & Hr & Es & Hd & Hp) Hf. exists r. split; [exact Hr|]. split; [exact Es|]. split; [exact Hd|].
    destruct (Nat.lt_ge_cases r m) as [L|L]; [|rewrite R_last in Hp; auto].
    destruct (state_cases M SH d Hd) as [D|[->| ->]]; [| |contradiction].
    - rewrite R_in in Hp by auto. destruct (keep (src M r)), (keep d); lra.
    - rewrite R_goal in Hp by auto. destruct (keep (src M r)); lra.
  Qed.

  (** End components of the subsystem are end components of the system. *)
  Lemma R_ec : forall s, (s < n)%nat -> in_ec R s -> keep s = true /\ in_ec M s.
  Proof.
    intros s Hs (X & B & HE & Xs). pose proof HE as (E1 & E2 & E3 & E4). pose proof sh2.
    assert (NF : ~ X (fail M)).
    { intros Hf. assert (s = fail M); [|unfold fail, n in *; lia]. apply (fail_absorbing R R_shape).
      specialize (E4 _ _ Hf Xs). change (fail R) with (fail M). revert E4. generalize (fail M). intros f E4. induction E4; [constructor|].
      destruct H0 as (a & _ & HE'). econstructor; eauto. exists a; auto. }
    assert (NG : ~ X (goal M)).
    { intros Hg. pose proof (ec_no_goal R R_shape X B s HE Xs Hs (goal M) Hg) as E. change (is_goal R (goal M)) with (goal M =? goal M)%nat in E. rewrite Nat.eqb_refl in E. discriminate. }
    assert (KR : forall s r, B s r -> (r < m)%nat /\ src M r = s /\ keep s = true /\ forall d, (d < nS M)%nat -> prob R r d = prob M r d).
    { intros s0 r HB. destruct (E3 s0 r HB) as (Xs0 & (d & Hr & Es & Hd & Hp) & HX). change (nA R) with (nA M) in Hr.
      destruct (row_cases M SH r Hr) as [L|[->| ->]].
      - assert (K : keep (src M r) = true).
        { destruct (keep (src M r)) eqn:K; auto. exfalso. apply NF. apply HX. split; [exact Hr|]. split; [exact Es|]. split; [change (nS R) with (nS M); apply fail_lt; auto|].
          rewrite R_fail by auto. rewrite K. lra. }
        split; [exact L|]. split; [exact Es|]. simpl in Es. rewrite <- Es. split; [exact K|].
        assert (PF : kept_to M keep r = 1).
        { destruct (Req_dec (kept_to M keep r) 1) as [|Hne]; auto. exfalso. apply NF. apply HX. split; [exact Hr|]. split; [exact Es|]. split; [change (nS R) with (nS M); apply fail_lt; auto|].
          rewrite R_fail, K by auto. pose proof (kept_to_bound r Hr). lra. }
        pose proof (W_sum M W r Hr) as HS. rewrite sumn_split2 in HS by lia. change (sumn n (prob M r) + prob M r (goal M) + prob M r (fail M) = 1) in HS. unfold kept_to in PF. fold n in PF.
        assert (0 <= prob M r (fail M)) by (apply (W_pos M W); auto; apply fail_lt; auto).
        assert (PK : forall d, (d < n)%nat -> (if keep d then prob M r d else 0) = prob M r d).
        { intros d0 Hd0. assert (LE : forall i, (i < n)%nat -> 0 <= prob M r i - (if keep i then prob M r i else 0)).
          { intros i Hi. destruct (keep i); [lra|]. assert (0 <= prob M r i) by (apply (W_pos M W); auto; unfold n in Hi; lia). lra. }
          assert (Z : sumn n (fun i => prob M r i - (if keep i then prob M r i else 0)) = 0).
          { apply Rle_antisym; [|apply sumn_nonneg; auto]. rewrite sumn_minus. lra. }
          pose proof (sumn_nonneg_zero n _ LE Z d0 Hd0). simpl in H1. lra. }
        intros d0 Hd0. destruct (state_cases M SH d0 Hd0) as [D|[->| ->]].
        + rewrite R_in, K by auto. apply PK; auto.
        + rewrite R_goal, K by auto. auto.
        + rewrite R_fail, K by auto. unfold kept_to. fold n. rewrite (sumn_ext n _ (prob M r)) by auto. lra.
      - exfalso. apply NG. pose proof SH as (_ & _ & _ & _ & (F & _) & _). simpl in Es. rewrite F in Es. rewrite Es. auto.
      - exfalso. apply NF. pose proof SH as (_ & _ & _ & _ & _ & F & _). simpl in Es. rewrite F in Es. rewrite Es. auto. }
    split. { destruct (E2 s Xs) as (r & HB). apply (KR s r HB). }
    exists X, B. split; auto.
    assert (RE : forall s r d, B s r -> (row_edge R s r d <-> row_edge M s r d)).
    { intros s0 r d HB. destruct (KR _ _ HB) as (_ & _ & _ & HP). unfold row_edge. change (nA R) with (nA M). change (nS R) with (nS M). simpl src.
      split; intros (A1 & A2 & A3 & A4); (split; [exact A1|]; split; [exact A2|]; split; [exact A3|]).
      - rewrite <- HP; auto.
      - rewrite HP; auto. }
    split; [exact E1|]. split; [exact E2|]. split.
    - intros s0 r HB. destruct (E3 s0 r HB) as (A1 & (d & A2) & A3). split; [exact A1|]. split; [exists d; apply RE; auto|]. intros d0 Hd0. apply A3. apply RE; auto.
    - intros u v Hu Hv. specialize (E4 u v Hu Hv). clear - E4 RE. induction E4; [constructor|]. destruct H as (a & HB & HE). econstructor; [|eauto]. exists a. split; auto. apply RE; auto.
  Qed.

  (** ** Supports of certificates *)
  Lemma z_support : forall z, (forall r, (r < m)%nat -> z (src M r) <= onestep M r z) ->
    (forall s, (s < n)%nat -> in_ec M s -> z s <= 0) -> (forall s, (s < n)%nat -> keep s = true <-> 0 < z s) ->
    forall s, (s < n)%nat -> z s <= Vmin R WR T s.
  Proof.
    intros z Hz HEC HK s Hs. apply (z_min_sound R R_shape z); auto.
    - intros r Hr. change (nA R - 2)%nat with m in Hr. rewrite R_onestep by auto. simpl src. destruct (keep (src M r)) eqn:K.
      + eapply Rle_trans; [apply Hz; auto|]. unfold onestep. fold n. apply Rplus_le_compat_r. apply sumn_le. intros d Hd. pose proof sh2.
        destruct (keep d) eqn:Kd; [lra|]. assert (z d <= 0). { destruct (Rle_or_lt (z d) 0); auto. apply HK in H0; auto. congruence. }
        assert (0 <= prob M r d) by (apply (W_pos M W); unfold n, m in *; lia). assert (0 <= prob M r d * - z d) by (apply Rmult_le_pos; lra). lra.
      + destruct (Rle_or_lt (z (src M r)) 0); auto. apply HK in H; [congruence|]. apply sh_src; auto.
    - intros s0 Hs0 HE. apply HEC; auto. apply R_ec; auto.
  Qed.

  Lemma y_support : forall init y, (init < n)%nat -> (forall r, (r < m)%nat -> 0 <= y r) ->
    (forall s, (s < n)%nat -> balance M y s <= if Nat.eqb s init then 1 else 0) ->
    (forall s, (s < n)%nat -> keep s = true <-> exists r, (r < m)%nat /\ src M r = s /\ 0 < y r) ->
    to_goal M y <= Vmax R WR T init.
  Proof.
    intros init y Hi Hy Hb HK.
    assert (Z : forall r, (r < m)%nat -> keep (src M r) = false -> y r = 0).
    { intros r Hr K. destruct (Rle_lt_or_eq_dec _ _ (Hy r Hr)) as [H|H]; [|auto]. exfalso. assert (keep (src M r) = true); [|congruence]. apply HK; [apply sh_src; auto|eauto]. }
    replace (to_goal M y) with (to_goal R y).
    2:{ apply sumn_ext. intros r Hr. change (goal R) with (goal M). rewrite R_goal by auto. destruct (keep (src M r)) eqn:K; [auto|]. rewrite (Z r Hr K). lra. }
    apply (y_max_sound R init R_shape y); auto. intros s Hs. change (nS R - 2)%nat with n in Hs. destruct (keep s) eqn:K.
    - eapply Rle_trans; [|apply Hb; auto]. apply Req_le. apply sumn_ext. intros r Hr. simpl src. rewrite R_in, K by auto.
      destruct (keep (src M r)) eqn:Kr; [auto|]. rewrite (Z r Hr Kr). lra.
    - apply Rle_trans with 0; [|destruct (Nat.eqb s init); lra]. apply Req_le. apply sumn_zero. intros r Hr. change (nA R - 2)%nat with m in Hr. simpl src. rewrite R_in, K by auto.
      destruct (Nat.eqb_spec (src M r) s) as [E|E].
      + rewrite (Z r Hr); [lra|]. rewrite E. exact K.
      + destruct (keep (src M r)); lra.
  Qed.

  (** ** Completeness: a subsystem yields a certificate supported in it. *)
  Lemma z_complete : let z := Vmin R WR T in
    (forall r, (r < m)%nat -> z (src M r) <= onestep M r z) /\ (forall s, 0 <= z s <= 1) /\
    (forall s, (s < n)%nat -> keep s = false -> z s = 0) /\ (forall s, (s < n)%nat -> in_ec M s -> z s = 0).
  Proof.
    intros z. assert (B : forall s, 0 <= z s <= 1) by (intros s; apply (Vmin_bounds R WR T s)).
    split; [|split; [exact B|split]].
    - intros r Hr. eapply Rle_trans; [apply (Vmin_onestep R R_shape r Hr)|]. apply R_step_le; auto. intros d _. apply B.
    - intros s Hs K. apply Rle_antisym; [|apply B].
      destruct (W_act M W s) as (r & Hr & Es); [unfold n in Hs; lia|]. assert (L : (r < m)%nat) by (eapply (rows_in M SH s); eauto).
      rewrite <- Es. eapply Rle_trans; [apply (Vmin_onestep R R_shape r L)|]. rewrite R_onestep by auto. rewrite Es, K. lra.
    - intros s Hs HE. apply Rle_antisym; [|apply B]. rewrite <- (Vmin_in_ec M SH s Hs HE). apply R_Vmin_le; auto.
  Qed.
End Sub.
