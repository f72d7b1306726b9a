(** Theory of subsystems taken from points that satisfy the constraints up to
    a tolerance: the probability that is reached is off by a multiple of it. *)
From Coq Require Import List Arith Reals Lra Lia Bool QArith.
From Verif Require Import SpecMdp SumFacts MdpValue SccSpec SpecEc RfTheory SpecSub SubTheory TolTheory.
Import ListNotations.
Local Open Scope R_scope.

Section Slack.
  Variable M : mdp.
  Hypothesis SH : shape_mdp M.
  Let W : wf_mdp M := RFW M SH.
  Let n := (nS M - 2)%nat.
  Let m := (nA M - 2)%nat.
  Let R keep := restrict M keep.
  Let WR keep : wf_mdp (R keep) := RFW (R keep) (R_shape M SH keep).

  Lemma row_mass : forall r, (r < nA M)%nat -> sumn n (prob M r) <= 1.
  Proof.
    intros r Hr. pose proof (RF2 M SH) as [N2 _]. pose proof (W_sum M W r Hr) as HS. rewrite sumn_split2 in HS by lia.
    assert (0 <= prob M r (nS M - 2)%nat) by (apply (W_pos M W); auto; lia). assert (0 <= prob M r (nS M - 1)%nat) by (apply (W_pos M W); auto; lia).
    unfold n. lra.
  Qed.

  Lemma z_slack : exists K, 0 <= K /\ forall keep z eps, 0 <= eps -> (forall r, (r < m)%nat -> z (src M r) <= onestep M r z + eps) ->
    (forall s, (s < n)%nat -> in_ec M s -> z s <= eps) -> (forall s, (s < n)%nat -> keep s = false -> z s <= 0) ->
    forall s, (s < n)%nat -> z s <= Vmin (R keep) (WR keep) (is_goal M) s + K * eps.
  Proof.
    pose proof (RF2 M SH) as [N2 A2].
    destruct (bool_of (nS M) (fun s => in_ec M s \/ (n <= s)%nat)) as (S & HS).
    destruct (potential M W S) as (u & U0 & UT & U).
    { intros X B HX. destruct (proj1 HX) as (s & Xs). exists s. split; auto. apply HS.
      - destruct HX as (_ & H2 & H3 & _). destruct (H2 s Xs) as (a & Ha). destruct (H3 s a Ha) as (_ & (d & B1 & B2 & _) & _). rewrite <- B2. apply (W_src M W); auto.
      - left. exists X, B. auto. }
    exists (1 + sumn n u). split. { assert (0 <= sumn n u) by (apply sumn_nonneg; auto). lra. }
    intros keep z eps HT Hz HE HK s Hs.
    set (w := fun d => z d - eps * (1 + u d)). set (z' := fun d => Rmax 0 (w d)).
    assert (PU : forall d, 0 <= eps * u d) by (intros d; apply Rmult_le_pos; auto).
    assert (Z0 : forall d, 0 <= z' d) by (intros d; apply Rmax_l).
    assert (ZK : forall d, (d < n)%nat -> keep d = false -> z' d = 0).
    { intros d Hd Kd. specialize (HK d Hd Kd). unfold z', w. apply Rmax_left. specialize (PU d). lra. }
    assert (Z : z' s <= Vmin (R keep) (WR keep) (is_goal M) s).
    { apply (z_min_sound (R keep) (R_shape M SH keep) z'); auto.
      - intros r Hr. change (nA (R keep) - 2)%nat with m in Hr. assert (Hr' : (r < nA M)%nat) by (unfold m in *; lia). pose proof (RF_src M SH r Hr) as Hsrc.
        change (nS M - 2)%nat with n in Hsrc. change (src (R keep) r) with (src M r).
        assert (EO : keep (src M r) = true -> onestep (R keep) r z' = onestep M r z').
        { intros Kr. unfold R. rewrite (R_onestep M SH) by auto. rewrite Kr. unfold onestep. f_equal. apply sumn_ext. intros d Hd. destruct (keep d) eqn:Kd; [auto|]. rewrite (ZK d Hd Kd). lra. }
        assert (NN : 0 <= onestep M r z') by (apply (one_nonneg M SH r z'); [auto|intros; apply Z0]).
        destruct (keep (src M r)) eqn:Kr.
        2:{ rewrite (ZK _ Hsrc Kr). unfold R. rewrite (R_onestep M SH) by auto. rewrite Kr. lra. }
        rewrite EO by auto. destruct (S (src M r)) eqn:ES.
        + assert (E : in_ec M (src M r)). { destruct (proj1 (HS (src M r) ltac:(unfold n in Hsrc; lia)) ES); auto. lia. }
          specialize (HE (src M r) Hsrc E). unfold z' at 1, w. rewrite (UT _ ES). rewrite Rmax_left; [exact NN|lra].
        + unfold z' at 1. apply Rmax_lub; [exact NN|].
          specialize (U r Hr' ES). rewrite (inner_sum M SH) in U by (apply UT; apply HS; [unfold goal, fail; lia|right; unfold goal, fail, n; lia]).
          specialize (Hz r Hr). apply Rle_trans with (onestep M r w).
          * unfold w. rewrite (one_minus M r z (fun d => 1 + u d) eps).
            rewrite (sumn_ext _ (fun d => prob M r d * (1 + u d)) (fun d => prob M r d + prob M r d * u d)) by (intros; lra). rewrite sumn_plus.
            pose proof (row_mass r Hr') as RM. unfold n in RM. set (a := sumn (nS M - 2) (prob M r)) in *. set (b := sumn (nS M - 2) (fun d => prob M r d * u d)) in *.
            assert (eps * (a + b) <= eps * u (src M r)) by (apply Rmult_le_compat_l; lra). lra.
          * apply (one_le M SH); auto. intros; apply Rmax_r.
      - intros t Ht Et. change (nS (R keep) - 2)%nat with n in Ht. destruct (R_ec M SH keep t Ht Et) as [_ E].
        unfold z', w. rewrite UT; [|apply HS; [unfold n in *; lia|auto]]. rewrite Rmax_left; [lra|]. specialize (HE t Ht E). lra. }
    assert (w s <= z' s) by apply Rmax_r. unfold w in H.
    assert (u s <= sumn n u) by (apply sumn_term_le; auto).
    assert (eps * u s <= eps * sumn n u) by (apply Rmult_le_compat_l; auto). lra.
  Qed.

  Lemma y_slack : forall init keep y eps, 0 <= eps -> (init < n)%nat -> (forall r, (r < m)%nat -> - eps <= y r) ->
    (forall s, (s < n)%nat -> balance M y s <= (if Nat.eqb s init then 1 else 0) + eps) ->
    (forall r, (r < m)%nat -> keep (src M r) = false -> y r <= 0) ->
    to_goal M y <= Vmax (R keep) (WR keep) (is_goal M) init + INR n * (1 + INR m) * eps.
  Proof.
    intros init keep y eps He Hi Hy Hb HK. pose proof (RF2 M SH) as [N2 A2]. set (z := fun r => Rmax 0 (y r)).
    assert (Z : forall r, (r < m)%nat -> keep (src M r) = false -> z r = 0) by (intros r Hr K; apply Rmax_left; apply HK; auto).
    assert (ZB : forall r, (r < m)%nat -> 0 <= z r - y r <= eps).
    { intros r Hr. specialize (Hy r Hr). unfold z, Rmax. destruct (Rle_dec 0 (y r)); lra. }
    assert (PB : forall r s, (r < m)%nat -> (s < n)%nat -> 0 <= prob M r s) by (intros r s Hr Hs; apply (W_pos M W); unfold m, n in *; lia).
    assert (G1 : to_goal M y <= to_goal (R keep) z).
    { apply sumn_le. intros r Hr. change (r < m)%nat in Hr. change (goal (R keep)) with (goal M). unfold R. rewrite (R_goal M SH) by auto.
      assert (0 <= prob M r (goal M)) by (apply (W_pos M W); unfold goal, m in *; lia). specialize (ZB r Hr). destruct (keep (src M r)) eqn:K.
      - apply Rmult_le_compat_r; lra.
      - specialize (HK r Hr K). assert (y r * prob M r (goal M) <= 0 * prob M r (goal M)) by (apply Rmult_le_compat_r; lra). lra. }
    assert (B1 : forall s, (s < n)%nat -> balance M z s <= balance M y s + INR m * eps).
    { intros s Hs. unfold balance. fold m. rewrite <- sumn_const, <- sumn_plus. apply sumn_le. intros r Hr. specialize (ZB r Hr). specialize (PB r s Hr Hs).
      set (q := (if Nat.eqb (src M r) s then 1 else 0) - prob M r s). assert (q <= 1) by (unfold q; destruct (Nat.eqb (src M r) s); lra).
      assert ((z r - y r) * q <= (z r - y r) * 1) by (apply Rmult_le_compat_l; lra). lra. }
    assert (MP : 0 <= INR m * eps) by (apply Rmult_le_pos; auto using pos_INR).
    assert (BR : forall s, (s < n)%nat -> balance (R keep) z s <= (if Nat.eqb s init then 1 else 0) + (1 + INR m) * eps).
    { intros s Hs. destruct (keep s) eqn:K.
      - apply Rle_trans with (balance M z s); [|specialize (B1 s Hs); specialize (Hb s Hs); lra]. apply Req_le. apply sumn_ext. intros r Hr. change (nA (R keep) - 2)%nat with m in Hr.
        change (src (R keep) r) with (src M r). unfold R. rewrite (R_in M), K by auto. destruct (keep (src M r)) eqn:Kr; [auto|]. rewrite (Z r Hr Kr). lra.
      - apply Rle_trans with 0; [|destruct (Nat.eqb s init); lra]. apply Req_le. apply sumn_zero. intros r Hr. change (nA (R keep) - 2)%nat with m in Hr.
        change (src (R keep) r) with (src M r). unfold R. rewrite (R_in M), K by auto. destruct (Nat.eqb_spec (src M r) s) as [E|E].
        + rewrite (Z r Hr); [lra|]. rewrite E. exact K.
        + destruct (keep (src M r)); lra. }
    pose proof (y_max_tol (R keep) init (R_shape M SH keep) z ((1 + INR m) * eps)) as Y.
    change (nS (R keep) - 2)%nat with n in Y. change (nA (R keep) - 2)%nat with m in Y. change (is_goal (R keep)) with (is_goal M) in Y.
    eapply Rle_trans; [exact G1|]. rewrite Rmult_assoc. apply Y; auto.
    - lra.
    - intros r Hr. apply Rmax_l.
  Qed.
End Slack.
