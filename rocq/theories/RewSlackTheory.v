(** Expected rewards and points that satisfy the rows of the polytopes up to a
    tolerance. *)
From Coq Require Import String List Arith ZArith QArith Qreals Reals Bool Lia Lra.
From Verif Require Import Base SccSpec SpecMdp SpecEc SpecProb SpecSub SpecReward SpecRewSub SumFacts MdpValue RfTheory SubTheory TolTheory RewTheory RewSub.
Import ListNotations.
Local Open Scope R_scope.

Section Slack.
  Variable M : mdp.
  Hypothesis SH : shape_mdp M.
  Let n := (nS M - 2)%nat.
  Let m := (nA M - 2)%nat.
  Variable w : nat -> R.
  Hypothesis W0 : forall s, (s < n)%nat -> 0 <= w s.
  Hypothesis WR : forall r, (r < m)%nat -> 1 <= w (src M r) - sumn n (fun d => prob M r d * w d).
  Variable rew : nat -> R.
  Hypothesis R0 : forall r, 0 <= rew r.
  Hypothesis RZ : forall r, (m <= r)%nat -> rew r = 0.

  Lemma rz_slack : forall keep z eps u, 0 <= eps -> (forall r, (r < m)%nat -> z (src M r) <= rstep M rew r z + eps) ->
    (forall s, (s < n)%nat -> keep s = false -> z s <= 0) ->
    (forall y, sub_sol (restrict M keep) (krew M rew keep) y -> forall s, (s < n)%nat -> y s <= u s) ->
    forall s, (s < n)%nat -> z s <= u s + eps * w s.
  Proof.
    intros keep z eps u He HZ ZK HU s Hs. set (z' := fun d => Rmax 0 (z d - eps * w d)).
    assert (P0 : forall d, 0 <= z' d) by (intros; apply Rmax_l).
    assert (PZ : forall d, z d - eps * w d <= z' d) by (intros; apply Rmax_r).
    assert (SS : sub_sol M rew z').
    { split; [intros; apply P0|]. intros r Hr. change (nA M - 2)%nat with m in Hr. apply Rmax_lub.
      - unfold rstep. fold n. apply Rplus_le_le_0_compat; [apply R0|]. apply sumn_nonneg. intros d Hd. apply Rmult_le_pos; [apply (pge M SH); auto|apply P0].
      - specialize (HZ r Hr). specialize (WR r Hr). unfold rstep in *. fold n in HZ |- *.
        assert (E1 : eps * 1 <= eps * (w (src M r) - sumn n (fun d => prob M r d * w d))) by (apply Rmult_le_compat_l; lra).
        assert (E2 : sumn n (fun d => prob M r d * z d) - eps * sumn n (fun d => prob M r d * w d) <= sumn n (fun d => prob M r d * z' d)).
        { rewrite <- sumn_scal, <- sumn_minus. apply sumn_le. intros d Hd. replace (prob M r d * z d - eps * (prob M r d * w d)) with (prob M r d * (z d - eps * w d)) by ring.
          apply Rmult_le_compat_l; [apply (pge M SH); auto|apply PZ]. }
        lra. }
    assert (Z0 : forall d, (d < n)%nat -> keep d = false -> z' d = 0).
    { intros d Hd K. apply Rmax_left. specialize (ZK d Hd K). assert (0 <= eps * w d) by (apply Rmult_le_pos; auto). lra. }
    specialize (HU z' (sub_restrict M SH rew keep z' SS Z0) s Hs). specialize (PZ s). lra.
  Qed.

  Lemma ry_slack : forall keep init y eps z, 0 <= eps -> (init < n)%nat -> (forall r, (r < m)%nat -> - eps <= y r) ->
    (forall s, (s < n)%nat -> balance M y s <= (if Nat.eqb s init then 1 else 0) + eps) ->
    (forall r, (r < m)%nat -> keep (src M r) = false -> y r <= 0) ->
    sup_sol (restrict M keep) (krew M rew keep) z -> (forall s, (s < n)%nat -> keep s = false -> z s = 0) ->
    sumn m (fun r => rew r * y r) <= z init + (1 + INR m) * eps * sumn n z.
  Proof.
    intros keep init y eps z He Hi Hy Hb HK (Z0 & HZ) ZK. set (R := restrict M keep) in *. change (nS R - 2)%nat with n in Z0. change (nA R - 2)%nat with m in HZ.
    set (x := fun r => Rmax 0 (y r)).
    assert (XK : forall r, (r < m)%nat -> keep (src M r) = false -> x r = 0) by (intros r Hr K; apply Rmax_left; apply HK; auto).
    assert (XB : forall r, (r < m)%nat -> 0 <= x r - y r <= eps). { intros r Hr. specialize (Hy r Hr). unfold x, Rmax. destruct (Rle_dec 0 (y r)); lra. }
    assert (X0 : forall r, 0 <= x r) by (intros; apply Rmax_l).
    assert (B1 : forall s, (s < n)%nat -> balance M x s <= (if Nat.eqb s init then 1 else 0) + (1 + INR m) * eps).
    { intros s Hs. apply Rle_trans with (balance M y s + INR m * eps); [|specialize (Hb s Hs); lra]. unfold balance. fold m. rewrite <- sumn_const, <- sumn_plus. apply sumn_le. intros r Hr.
      specialize (XB r Hr). pose proof (pge M SH r s Hr Hs) as PB.
      set (q := (if Nat.eqb (src M r) s then 1 else 0) - prob M r s). assert (q <= 1) by (unfold q; destruct (Nat.eqb (src M r) s); lra).
      assert ((x r - y r) * q <= (x r - y r) * 1) by (apply Rmult_le_compat_l; lra). lra. }
    apply Rle_trans with (sumn m (fun r => x r * (z (src M r) - sumn n (fun d => prob M r d * z d)))).
    - apply sumn_le. intros r Hr. specialize (HZ r Hr). unfold R in HZ. rewrite (kstep M rew keep) in HZ by exact Hr. change (src (restrict M keep) r) with (src M r) in HZ. apply Rle_trans with (rew r * x r).
      { apply Rmult_le_compat_l; [apply R0|specialize (XB r Hr); lra]. }
      destruct (keep (src M r)) eqn:K.
      + change (nS M - 2)%nat with n in HZ. rewrite (sumn_ext n (fun d => if keep d then prob M r d * z d else 0) (fun d => prob M r d * z d)) in HZ.
        * rewrite Rmult_comm. apply Rmult_le_compat_l; [apply X0|lra].
        * intros d Hd. destruct (keep d) eqn:Kd; [reflexivity|]. rewrite (ZK d Hd Kd). ring.
      + rewrite (XK r Hr K). lra.
    - pose proof (balance_dual M SH x z) as E. fold n m in E. rewrite <- E. clear E. pose proof (delta_sum M init z Hi) as D. fold n in D. rewrite <- D.
      rewrite <- sumn_scal, <- sumn_plus. apply sumn_le. intros s Hs. rewrite <- Rmult_plus_distr_r. apply Rmult_le_compat_r; [apply Z0; auto|apply B1; auto].
  Qed.

  (** One factor for all sets of states. *)
  Lemma rew_slack : exists K, 0 <= K /\ forall keep eps, 0 <= eps ->
    (forall z init, (init < n)%nat -> (forall r, (r < m)%nat -> z (src M r) <= rstep M rew r z + eps) -> (forall s, (s < n)%nat -> keep s = false -> z s <= 0) ->
       exists x, IsRewMin (restrict M keep) (is_goal (restrict M keep)) (krew M rew keep) init x /\ z init <= x + K * eps) /\
    (forall y init, (init < n)%nat -> (forall r, (r < m)%nat -> - eps <= y r) -> (forall s, (s < n)%nat -> balance M y s <= (if Nat.eqb s init then 1 else 0) + eps) ->
       (forall r, (r < m)%nat -> keep (src M r) = false -> y r <= 0) ->
       exists x, IsRewMax (restrict M keep) (is_goal (restrict M keep)) (krew M rew keep) init x /\ sumn m (fun r => rew r * y r) <= x + K * eps).
  Proof.
    destruct (big_w M SH w WR rew) as (B & B0 & HB). pose proof (pos_INR m) as M0.
    assert (S0 : 0 <= sumn n w) by (apply sumn_nonneg; auto). assert (F0 : 0 <= (1 + INR m) * (B * sumn n w)) by (apply Rmult_le_pos; [lra|apply Rmult_le_pos; auto]).
    exists (sumn n w + (1 + INR m) * (B * sumn n w)). split; [lra|]. intros keep eps He. split.
    - intros z init Hi HZ ZK. destruct (kmin_exists M SH w W0 WR rew R0 RZ keep) as (u & US & UV & UL). exists (u init). split; [apply (UV _ Hi)|].
      pose proof (rz_slack keep z eps u He HZ ZK UL init Hi) as X.
      assert (w init <= sumn n w) by (apply sumn_term_le; auto). assert (eps * w init <= eps * sumn n w) by (apply Rmult_le_compat_l; auto).
      assert (0 <= (1 + INR m) * (B * sumn n w) * eps) by (apply Rmult_le_pos; auto). lra.
    - intros y init Hi Hy Hb HK. destruct (kmax_exists M SH w W0 WR rew R0 RZ keep) as (z & ZS & ZV & ZL). exists (z init). split; [apply (ZV _ Hi)|].
      pose proof (ry_slack keep init y eps z He Hi Hy Hb HK ZS (kmax_out M rew keep z ZL ZS)) as X.
      assert (SP : sup_sol (restrict M keep) (krew M rew keep) (fun s => B * w s)).
      { apply (sup_restrict M SH rew keep); [intros s Hs; apply Rmult_le_pos; auto|]. intros r Hr _. apply HB. exact Hr. }
      assert (LE : sumn n z <= B * sumn n w). { rewrite <- sumn_scal. apply sumn_le. intros s Hs. apply (ZL _ SP s Hs). }
      assert ((1 + INR m) * eps * sumn n z <= (1 + INR m) * eps * (B * sumn n w)) by (apply Rmult_le_compat_l; [apply Rmult_le_pos; lra|exact LE]).
      assert (0 <= sumn n w * eps) by (apply Rmult_le_pos; auto). lra.
  Qed.
End Slack.
