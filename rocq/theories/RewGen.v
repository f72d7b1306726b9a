(** Expected rewards of Markov decision processes whose schedulers leave a set
    of transient states almost surely and collect nothing afterwards. *)
From Coq Require Import List Arith ZArith Reals Bool Lia Lra.
From Verif Require Import SpecMdp SumFacts MdpValue SpecReward.
Import ListNotations.
Local Open Scope R_scope.

Lemma INR_big : forall x, exists k, x < INR k.
Proof.
  intros x. exists (Z.to_nat (up x)). destruct (archimed x) as [H _]. destruct (Z_lt_le_dec (up x) 0) as [L|L].
  - assert (IZR (up x) < 0) by (apply IZR_lt; auto). pose proof (pos_INR (Z.to_nat (up x))). lra.
  - rewrite INR_IZR_INZ, Z2Nat.id by auto. lra.
Qed.

Section Gen.
  Variable M : mdp.
  Hypothesis W : wf_mdp M.
  Variable T : nat -> bool.
  (** Transient states. *)
  Variable X : nat -> bool.
  (** States in which nothing is collected any more. *)
  Variable Z : nat -> bool.
  Hypothesis XT : forall s, X s = true -> T s = false.
  Hypothesis XZ : forall r d, (r < nA M)%nat -> (d < nS M)%nat -> X (src M r) = true -> 0 < prob M r d -> X d = true \/ Z d = true.
  Hypothesis ZX : forall s, Z s = true -> X s = false.
  Hypothesis ZZ : forall r d, (r < nA M)%nat -> (d < nS M)%nat -> Z (src M r) = true -> T (src M r) = false -> 0 < prob M r d -> Z d = true.
  Definition quiet (rew : nat -> R) : Prop := forall r, (r < nA M)%nat -> Z (src M r) = true -> T (src M r) = false -> rew r = 0.

  Definition cut (z : nat -> R) (s : nat) : R := if X s then z s else 0.
  Definition gstep (rew : nat -> R) (r : nat) (z : nat -> R) : R := rew r + ex M r (cut z).

  Lemma ex_cut_le : forall r u v, (r < nA M)%nat -> (forall d, (d < nS M)%nat -> X d = true -> u d <= v d) -> ex M r (cut u) <= ex M r (cut v).
  Proof. intros r u v Hr H. apply (ex_le M W); auto. intros d Hd. unfold cut. destruct (X d) eqn:E; [auto|lra]. Qed.

  Section Sched.
    Variable rew : nat -> R.
    Hypothesis RQ : quiet rew.
    Variable sigma : scheduler.
    Hypothesis V : valid_scheduler M sigma.

    Lemma avg_le : forall h s f g, (s < nS M)%nat -> (forall r, (r < nA M)%nat -> src M r = s -> f r <= g r) ->
      sumn (nA M) (fun r => sigma h s r * f r) <= sumn (nA M) (fun r => sigma h s r * g r).
    Proof.
      intros h s f g Hs H. destruct (V h s Hs) as (P & Zr & _). apply sumn_le. intros r Hr. destruct (Nat.eq_dec (src M r) s) as [E|E].
      - apply Rmult_le_compat_l; auto.
      - rewrite Zr by auto. lra.
    Qed.
    Lemma avg_eq : forall h s f g, (s < nS M)%nat -> (forall r, (r < nA M)%nat -> src M r = s -> f r = g r) ->
      sumn (nA M) (fun r => sigma h s r * f r) = sumn (nA M) (fun r => sigma h s r * g r).
    Proof. intros h s f g Hs H. apply Rle_antisym; apply avg_le; auto; intros r Hr E; rewrite H by auto; lra. Qed.
    Lemma avg_const : forall h s c, (s < nS M)%nat -> sumn (nA M) (fun r => sigma h s r * c) = c.
    Proof. intros h s c Hs. rewrite sumn_scal_r. destruct (V h s Hs) as (_ & _ & ->). ring. Qed.

    Lemma rew_0 : forall h s, rew_upto M T rew sigma 0 h s = 0.
    Proof. intros. simpl. destruct (T s); auto. Qed.
    Lemma rew_quiet : forall k h s, (s < nS M)%nat -> Z s = true -> rew_upto M T rew sigma k h s = 0.
    Proof.
      induction k; intros h s Hs HZ; [apply rew_0|]. simpl. destruct (T s) eqn:ET; auto. rewrite <- (avg_const h s 0) by auto. apply avg_eq; auto.
      intros r Hr Er. subst s. rewrite RQ by auto. rewrite sumn_zero; [ring|]. intros d Hd.
      destruct (Rle_lt_or_eq_dec _ _ (W_pos M W r d Hr Hd)) as [Hp|<-]; [|ring]. rewrite IHk; [ring|auto|]. eapply ZZ; eauto.
    Qed.
    Lemma rew_S : forall k h s, (s < nS M)%nat -> X s = true -> rew_upto M T rew sigma (S k) h s =
      sumn (nA M) (fun r => sigma h s r * gstep rew r (fun d => rew_upto M T rew sigma k ((s, r) :: h) d)).
    Proof.
      intros k h s Hs HX. simpl. rewrite XT by auto. apply avg_eq; auto. intros r Hr Er. subst s. unfold gstep, ex. f_equal. apply sumn_ext. intros d Hd.
      destruct (Rle_lt_or_eq_dec _ _ (W_pos M W r d Hr Hd)) as [Hp|<-]; [|ring]. f_equal. unfold cut. destruct (X d) eqn:E; auto.
      destruct (XZ r d Hr Hd HX Hp) as [H|H]; [congruence|]. apply rew_quiet; auto.
    Qed.

    (** A vector above the average of its one-step values is above the
        rewards. *)
    Lemma rew_le : forall z, (forall s, (s < nS M)%nat -> X s = true -> 0 <= z s) ->
      (forall h s, (s < nS M)%nat -> X s = true -> sumn (nA M) (fun r => sigma h s r * gstep rew r z) <= z s) ->
      forall k h s, (s < nS M)%nat -> X s = true -> rew_upto M T rew sigma k h s <= z s.
    Proof.
      intros z Z0 ZS. induction k; intros h s Hs HX; [rewrite rew_0; auto|]. rewrite rew_S by auto. eapply Rle_trans; [|apply (ZS h s Hs HX)].
      apply avg_le; auto. intros r Hr Er. unfold gstep. apply Rplus_le_compat_l. apply ex_cut_le; auto.
    Qed.

    (** Probability of still being in a transient state after [k] steps. *)
    Fixpoint surv (k : nat) (h : list (nat * nat)) (s : nat) : R :=
      match k with O => 1 | S k' => sumn (nA M) (fun r => sigma h s r * ex M r (cut (fun d => surv k' ((s, r) :: h) d))) end.

    Lemma surv_bounds : forall k h s, (s < nS M)%nat -> 0 <= surv k h s <= 1.
    Proof.
      induction k; intros h s Hs; simpl; [lra|].
      assert (E : forall r, (r < nA M)%nat -> 0 <= ex M r (cut (fun d => surv k ((s, r) :: h) d)) <= 1).
      { intros r Hr. apply (ex_bounds M W); auto. intros d Hd. unfold cut. destruct (X d); [apply IHk; auto|lra]. }
      split; [rewrite <- (avg_const h s 0) by auto|rewrite <- (avg_const h s 1) by auto]; apply avg_le; auto; intros; apply E; auto.
    Qed.

    (** A vector below the average of its one-step values is below the rewards
        plus a bound times the probability of surviving. *)
    Lemma rew_ge : forall z B, (forall s, (s < nS M)%nat -> z s <= B) -> 0 <= B ->
      (forall h s, (s < nS M)%nat -> X s = true -> z s <= sumn (nA M) (fun r => sigma h s r * gstep rew r z)) ->
      forall k h s, (s < nS M)%nat -> X s = true -> z s <= rew_upto M T rew sigma k h s + B * surv k h s.
    Proof.
      intros z B ZB B0 ZS. induction k; intros h s Hs HX; [rewrite rew_0; simpl; specialize (ZB s Hs); lra|].
      rewrite rew_S by auto. simpl surv. rewrite <- sumn_scal, <- sumn_plus. eapply Rle_trans; [apply (ZS h s Hs HX)|].
      rewrite (sumn_ext (nA M) (fun i => _ + B * _) (fun r => sigma h s r * (gstep rew r (fun d => rew_upto M T rew sigma k ((s, r) :: h) d) + B * ex M r (cut (fun d => surv k ((s, r) :: h) d))))) by (intros; ring).
      apply avg_le; auto. intros r Hr Er. unfold gstep. rewrite Rplus_assoc. apply Rplus_le_compat_l.
      rewrite <- (ex_scal M), <- (ex_plus M). apply (ex_le M W); auto. intros d Hd. unfold cut. destruct (X d) eqn:E; [|lra]. apply IHk; auto.
    Qed.
  End Sched.

  (** ** Almost sure absorption *)
  Variable w : nat -> R.
  Hypothesis W0 : forall s, (s < nS M)%nat -> X s = true -> 0 <= w s.
  Hypothesis WR : forall r, (r < nA M)%nat -> X (src M r) = true -> 1 <= w (src M r) - ex M r (cut w).

  Definition one_rew (r : nat) : R := if X (src M r) then 1 else 0.
  Lemma one_quiet : quiet one_rew.
  Proof. intros r Hr HZ _. unfold one_rew. rewrite ZX; auto. Qed.

  Lemma surv_steps : forall sigma, valid_scheduler M sigma -> forall k h s, (s < nS M)%nat -> X s = true -> INR k * surv sigma k h s <= rew_upto M T one_rew sigma k h s.
  Proof.
    intros sigma V. induction k; intros h s Hs HX; [rewrite rew_0; simpl; lra|]. rewrite (rew_S one_rew one_quiet sigma V) by auto. simpl surv. rewrite <- sumn_scal.
    rewrite (sumn_ext (nA M) (fun i => INR (S k) * _) (fun r => sigma h s r * (INR (S k) * ex M r (cut (fun d => surv sigma k ((s, r) :: h) d))))) by (intros; ring).
    apply (avg_le sigma V); auto. intros r Hr Er. unfold gstep, one_rew at 1. rewrite Er, HX, S_INR. rewrite Rmult_plus_distr_r, Rmult_1_l, Rplus_comm. apply Rplus_le_compat.
    - apply (ex_bounds M W r _ 0 1 Hr). intros d Hd. unfold cut. destruct (X d); [apply surv_bounds; auto|lra].
    - rewrite <- (ex_scal M). apply (ex_le M W); auto. intros d Hd. unfold cut. destruct (X d) eqn:E; [auto|lra].
  Qed.

  Lemma avg_w : forall sigma z u rew h s, valid_scheduler M sigma -> (s < nS M)%nat ->
    (forall r, (r < nA M)%nat -> src M r = s -> gstep rew r z <= u) -> sumn (nA M) (fun r => sigma h s r * gstep rew r z) <= u.
  Proof. intros sigma z u rew h s V Hs H. rewrite <- (avg_const sigma V h s u Hs). apply (avg_le sigma V); auto. Qed.
  Lemma avg_w' : forall sigma z u rew h s, valid_scheduler M sigma -> (s < nS M)%nat ->
    (forall r, (r < nA M)%nat -> src M r = s -> u <= gstep rew r z) -> u <= sumn (nA M) (fun r => sigma h s r * gstep rew r z).
  Proof. intros sigma z u rew h s V Hs H. rewrite <- (avg_const sigma V h s u Hs). apply (avg_le sigma V); auto. Qed.

  Lemma surv_w : forall sigma, valid_scheduler M sigma -> forall k h s, (s < nS M)%nat -> X s = true -> INR k * surv sigma k h s <= w s.
  Proof.
    intros sigma V k h s Hs HX. eapply Rle_trans; [apply surv_steps; auto|].
    apply (rew_le one_rew one_quiet sigma V w); auto. intros h' s' Hs' HX'. apply avg_w; auto.
    intros r Hr Er. unfold gstep, one_rew. rewrite Er, HX'. specialize (WR r Hr). rewrite Er in WR. specialize (WR HX'). lra.
  Qed.

  Lemma surv_small : forall sigma, valid_scheduler M sigma -> forall B eps s, 0 <= B -> 0 < eps -> (s < nS M)%nat -> X s = true -> exists k, B * surv sigma k [] s < eps.
  Proof.
    intros sigma V B eps s HB He Hs HX. destruct (INR_big (B * w s / eps)) as (k & Hk). exists (S k).
    assert (Hw := surv_w sigma V (S k) [] s Hs HX). assert (Hp : 0 < INR (S k)) by (apply lt_0_INR; lia).
    assert (H1 : B * w s < INR (S k) * eps).
    { rewrite S_INR. apply Rmult_lt_compat_r with (r := eps) in Hk; auto. replace (B * w s / eps * eps) with (B * w s) in Hk by (field; lra). lra. }
    apply Rmult_lt_reg_l with (INR (S k)); auto. apply Rle_lt_trans with (B * w s); [|lra].
    rewrite <- Rmult_assoc, (Rmult_comm (INR (S k))), Rmult_assoc. apply Rmult_le_compat_l; auto.
  Qed.

  (** ** Values *)
  Variable rew : nat -> R.
  Hypothesis RQ : quiet rew.

  Lemma bound_above : forall (z : nat -> R) k, exists B, 0 <= B /\ forall s, (s < k)%nat -> z s <= B.
  Proof.
    intros z. induction k; [exists 0; split; [lra|intros; lia]|]. destruct IHk as (B & B0 & HB). exists (Rmax B (z k)). split.
    - eapply Rle_trans; [exact B0|apply Rmax_l].
    - intros s Hs. destruct (Nat.eq_dec s k) as [->|]; [apply Rmax_r|]. eapply Rle_trans; [apply HB; lia|apply Rmax_l].
  Qed.

  Lemma gbig_w : exists K, 0 <= K /\ forall r, (r < nA M)%nat -> X (src M r) = true -> gstep rew r (fun s => K * w s) <= K * w (src M r).
  Proof.
    destruct (bound_above rew (nA M)) as (K & K0 & HK). exists K. split; auto. intros r Hr HX. unfold gstep.
    rewrite (ex_ext M r _ (fun d => K * cut w d)) by (intros; unfold cut; destruct (X d); ring). rewrite (ex_scal M). specialize (WR r Hr HX). specialize (HK r Hr).
    assert (K * 1 <= K * (w (src M r) - ex M r (cut w))) by (apply Rmult_le_compat_l; auto). lra.
  Qed.

  Lemma gExpRew_exists : forall sigma, valid_scheduler M sigma -> forall s, (s < nS M)%nat -> X s = true -> exists x, ExpRew M T rew sigma s x.
  Proof.
    intros sigma V s Hs HX. destruct gbig_w as (K & K0 & HK).
    assert (UB : forall k, rew_upto M T rew sigma k [] s <= K * w s).
    { intros k. apply (rew_le rew RQ sigma V (fun s => K * w s)); auto.
      - intros s' Hs' HX'. apply Rmult_le_pos; auto.
      - intros h s' Hs' HX'. apply avg_w; auto. intros r Hr Er. rewrite <- Er. apply HK; auto. congruence. }
    destruct (completeness (fun x => exists k, x = rew_upto M T rew sigma k [] s)) as (l & Hl).
    - exists (K * w s). intros x (k & ->). apply UB.
    - exists 0. exists 0%nat. rewrite rew_0; auto.
    - exists l. exact Hl.
  Qed.

  (** A vector squeezed by a scheduler is its value. *)
  Lemma gExpRew_fix : forall sigma z, valid_scheduler M sigma -> (forall s, (s < nS M)%nat -> X s = true -> 0 <= z s) ->
    (forall h s, (s < nS M)%nat -> X s = true -> z s = sumn (nA M) (fun r => sigma h s r * gstep rew r z)) ->
    forall s, (s < nS M)%nat -> X s = true -> ExpRew M T rew sigma s (z s).
  Proof.
    intros sigma z V Z0 ZE s Hs HX. split.
    - intros x (k & ->). apply (rew_le rew RQ sigma V z); auto. intros h s' Hs' HX'. rewrite <- ZE by auto. lra.
    - intros b Hb. apply Rnot_lt_le. intros HL. destruct (bound_above z (nS M)) as (B & B0 & HB).
      destruct (surv_small sigma V B (z s - b) s B0 ltac:(lra) Hs HX) as (k & Hk).
      assert (G := rew_ge rew RQ sigma V z B HB B0 ltac:(intros h s' Hs' HX'; rewrite <- ZE by auto; lra) k [] s Hs HX).
      assert (rew_upto M T rew sigma k [] s <= b) by (apply Hb; exists k; auto). lra.
  Qed.

  Lemma gbelow_all : forall z, (forall r, (r < nA M)%nat -> X (src M r) = true -> z (src M r) <= gstep rew r z) ->
    forall sigma s x, valid_scheduler M sigma -> (s < nS M)%nat -> X s = true -> ExpRew M T rew sigma s x -> z s <= x.
  Proof.
    intros z HZ sigma s x V Hs HX [HU HL]. apply Rnot_lt_le. intros H. destruct (bound_above z (nS M)) as (B & B0 & HB).
    destruct (surv_small sigma V B (z s - x) s B0 ltac:(lra) Hs HX) as (k & Hk).
    assert (G := rew_ge rew RQ sigma V z B HB B0).
    assert (G' : z s <= rew_upto M T rew sigma k [] s + B * surv sigma k [] s).
    { apply G; auto. intros h s' Hs' HX'. apply avg_w'; auto. intros r Hr Er. rewrite <- Er. apply HZ; auto. congruence. }
    assert (rew_upto M T rew sigma k [] s <= x) by (apply HU; exists k; auto). lra.
  Qed.

  Lemma gabove_all : forall z, (forall s, (s < nS M)%nat -> X s = true -> 0 <= z s) -> (forall r, (r < nA M)%nat -> X (src M r) = true -> gstep rew r z <= z (src M r)) ->
    forall sigma s x, valid_scheduler M sigma -> (s < nS M)%nat -> X s = true -> ExpRew M T rew sigma s x -> x <= z s.
  Proof.
    intros z Z0 HZ sigma s x V Hs HX [HU HL]. apply HL. intros y (k & ->). apply (rew_le rew RQ sigma V z); auto.
    intros h s' Hs' HX'. apply avg_w; auto. intros r Hr Er. rewrite <- Er. apply HZ; auto. congruence.
  Qed.

  (** A choice of tight rows attains the vector. *)
  Lemma gtight_attained : forall z, (forall s, (s < nS M)%nat -> X s = true -> 0 <= z s) ->
    (forall s, (s < nS M)%nat -> X s = true -> exists r, (r < nA M)%nat /\ src M r = s /\ z s = gstep rew r z) ->
    exists sigma, valid_scheduler M sigma /\ forall s, (s < nS M)%nat -> X s = true -> ExpRew M T rew sigma s (z s).
  Proof.
    intros z Z0 TI.
    destruct (finite_choice (nS M) (fun s r => (r < nA M)%nat /\ src M r = s /\ (X s = true -> z s = gstep rew r z))) as (c & Hc).
    { intros s Hs. destruct (X s) eqn:H.
      - destruct (TI s Hs H) as (r & Hr & E & Q). exists r. auto.
      - destruct (W_act M W s Hs) as (r & Hr & E). exists r. split; [auto|]. split; [auto|]. discriminate. }
    exists (det (fun _ => c)). assert (V : valid_scheduler M (det (fun _ => c))) by (apply det_valid; intros _ s Hs; destruct (Hc s Hs) as (A & B & _); auto).
    split; auto. intros s Hs HX. apply gExpRew_fix; auto. intros h s' Hs' HX'. destruct (Hc s') as (A & B & C); [auto|].
    rewrite (det_sum M (fun _ => c) h s' (fun r => gstep rew r z)) by auto. auto.
  Qed.

  Lemma grew_min_char : forall z, (forall s, (s < nS M)%nat -> X s = true -> 0 <= z s) -> (forall r, (r < nA M)%nat -> X (src M r) = true -> z (src M r) <= gstep rew r z) ->
    (forall s, (s < nS M)%nat -> X s = true -> exists r, (r < nA M)%nat /\ src M r = s /\ z s = gstep rew r z) ->
    forall s, (s < nS M)%nat -> X s = true -> IsRewMin M T rew s (z s).
  Proof.
    intros z Z0 HZ TI s Hs HX. split; [intros sigma V; apply gExpRew_exists; auto|]. split.
    - intros x (sigma & V & E). eapply gbelow_all; eauto.
    - intros b Hb. destruct (gtight_attained z Z0 TI) as (sigma & V & E). apply Hb. exists sigma. auto.
  Qed.
  Lemma grew_max_char : forall z, (forall s, (s < nS M)%nat -> X s = true -> 0 <= z s) -> (forall r, (r < nA M)%nat -> X (src M r) = true -> gstep rew r z <= z (src M r)) ->
    (forall s, (s < nS M)%nat -> X s = true -> exists r, (r < nA M)%nat /\ src M r = s /\ z s = gstep rew r z) ->
    forall s, (s < nS M)%nat -> X s = true -> IsRewMax M T rew s (z s).
  Proof.
    intros z Z0 HZ TI s Hs HX. split; [intros sigma V; apply gExpRew_exists; auto|]. split.
    - intros x (sigma & V & E). eapply gabove_all; eauto.
    - intros b Hb. destruct (gtight_attained z Z0 TI) as (sigma & V & E). apply Hb. exists sigma. auto.
  Qed.

  (** In a quiet state the value is zero. *)
  Lemma quiet_value : forall sigma s, valid_scheduler M sigma -> (s < nS M)%nat -> Z s = true -> forall x, ExpRew M T rew sigma s x <-> x = 0.
  Proof.
    intros sigma s V Hs HZ x. assert (L : ExpRew M T rew sigma s 0).
    { split; [intros y (k & ->); rewrite (rew_quiet rew RQ sigma V) by auto; lra|]. intros b Hb. apply Hb. exists 0%nat. rewrite rew_0. auto. }
    split; [intros H; eapply is_lub_u; eauto|intros ->; auto].
  Qed.
End Gen.
