(** Optimal expected rewards exist; subsystems and certificates for rewards. *)
From Coq Require Import List Arith ZArith Reals Bool Lia Lra.
From Verif Require Import SpecMdp SpecEc SpecSub SumFacts MdpValue RfTheory SubTheory SpecReward RewGen RewTheory.
Import ListNotations.
Local Open Scope R_scope.

Lemma sup_fun : forall (F : (nat -> R) -> Prop) (B : nat -> R) n, (exists y, F y) -> (forall y s, F y -> (s < n)%nat -> y s <= B s) ->
  exists z, forall s, (s < n)%nat -> is_lub (fun x => exists y, F y /\ x = y s) (z s).
Proof.
  intros F B n (y0 & H0) HB.
  assert (E : forall s, exists v, (s < n)%nat -> is_lub (fun x => exists y, F y /\ x = y s) v).
  { intros s. destruct (le_lt_dec n s) as [L|L]; [exists 0; intros; lia|].
    destruct (completeness (fun x => exists y, F y /\ x = y s)) as (v & Hv); [exists (B s); intros x (y & Hy & ->); auto|exists (y0 s), y0; auto|]. exists v. auto. }
  assert (G : forall k, (k <= n)%nat -> exists z, forall s, (s < k)%nat -> is_lub (fun x => exists y, F y /\ x = y s) (z s)).
  { induction k as [|k IH]; intros Hk; [exists (fun _ => 0); intros; lia|]. destruct (IH ltac:(lia)) as (z & Hz). destruct (E k) as (v & Hv).
    exists (fun s => if Nat.eqb s k then v else z s). intros s Hs. destruct (Nat.eqb_spec s k) as [->|N]; [apply Hv; lia|apply Hz; lia]. }
  apply (G n). lia.
Qed.

Section Ex.
  Variable M : mdp.
  Hypothesis RF : shape_mdp M.
  Let n := (nS M - 2)%nat.
  Let m := (nA M - 2)%nat.
  Variable w : nat -> R.
  Hypothesis W0 : forall s, (s < n)%nat -> 0 <= w s.
  Hypothesis WR : forall r, (r < m)%nat -> 1 <= w (src M r) - sumn n (fun d => prob M r d * w d).
  Variable rew : nat -> R.
  Hypothesis R0 : forall r, (r < m)%nat -> 0 <= rew r.
  Hypothesis RZ : forall r, (m <= r)%nat -> rew r = 0.

  Definition sub_sol (z : nat -> R) : Prop := (forall s, (s < n)%nat -> 0 <= z s) /\ forall r, (r < m)%nat -> z (src M r) <= rstep M rew r z.
  Definition sup_sol (z : nat -> R) : Prop := (forall s, (s < n)%nat -> 0 <= z s) /\ forall r, (r < m)%nat -> rstep M rew r z <= z (src M r).
  Definition tight (z : nat -> R) : Prop := forall s, (s < n)%nat -> exists r, (r < m)%nat /\ src M r = s /\ z s = rstep M rew r z.

  Lemma rstep_mono : forall r y z, (r < m)%nat -> (forall s, (s < n)%nat -> y s <= z s) -> rstep M rew r y <= rstep M rew r z.
  Proof.
    intros r y z Hr H. unfold rstep. apply Rplus_le_compat_l. apply sumn_le. intros d Hd. apply Rmult_le_compat_l; [|apply H; exact Hd].
    pose proof (RF2 M RF). apply (W_ge M RF); unfold n, m in *; lia.
  Qed.
  Lemma msrc : forall r, (r < m)%nat -> (src M r < n)%nat. Proof. apply RF_src; auto. Qed.

  Lemma min_exists : exists z, sub_sol z /\ tight z /\ forall y, sub_sol y -> forall s, (s < n)%nat -> y s <= z s.
  Proof.
    destruct (big_w M RF w WR rew) as (K & K0 & HK).
    destruct (sup_fun sub_sol (fun s => K * w s) n) as (z & Hz).
    { exists (fun _ => 0). split; [intros; lra|]. intros r Hr. unfold rstep. rewrite sumn_zero by (intros; ring). specialize (R0 r Hr). lra. }
    { intros y s (Y0 & HY) Hs. apply (sub_bounded M RF w W0 WR rew RZ y); auto. }
    assert (TOP : forall y, sub_sol y -> forall s, (s < n)%nat -> y s <= z s). { intros y Hy s Hs. apply (Hz s Hs). exists y. auto. }
    assert (SS : sub_sol z).
    { split.
      - intros s Hs. apply (TOP (fun _ => 0)); auto. split; [intros; lra|]. intros r Hr. unfold rstep. rewrite sumn_zero by (intros; ring). specialize (R0 r Hr). lra.
      - intros r Hr. apply (Hz (src M r) (msrc r Hr)). intros x (y & Hy & ->). eapply Rle_trans; [apply Hy; exact Hr|]. apply rstep_mono; auto. }
    exists z. split; [exact SS|]. split; [|exact TOP]. intros s Hs. apply (max_tight M RF rew); [apply SS| |exact Hs].
    intros z' Z1 Z2. apply sumn_le. intros d Hd. apply TOP; auto. split; [|exact Z1]. intros s' Hs'. eapply Rle_trans; [apply SS; exact Hs'|apply Z2; exact Hs'].
  Qed.

  Lemma max_exists : exists z, sup_sol z /\ tight z /\ forall y, sup_sol y -> forall s, (s < n)%nat -> z s <= y s.
  Proof.
    destruct (big_w M RF w WR rew) as (K & K0 & HK).
    assert (SW : sup_sol (fun s => K * w s)) by (split; [intros s Hs; apply Rmult_le_pos; auto|exact HK]).
    destruct (sup_fun (fun y => sup_sol (fun s => - y s)) (fun _ => 0) n) as (z & Hz).
    { exists (fun s => - (K * w s)). split; [intros s Hs; rewrite Ropp_involutive; apply SW; auto|]. intros r Hr. rewrite Ropp_involutive. eapply Rle_trans; [|apply SW; exact Hr]. apply rstep_mono; auto. intros; lra. }
    { intros y s (Y0 & HY) Hs. specialize (Y0 s Hs). lra. }
    assert (LOW : forall y, sup_sol y -> forall s, (s < n)%nat -> - z s <= y s).
    { intros y Hy s Hs. assert (- y s <= z s); [|lra]. apply (Hz s Hs). exists (fun s => - y s). split; [|reflexivity]. split; [intros s' Hs'; rewrite Ropp_involutive; apply Hy; auto|].
      intros r Hr. rewrite Ropp_involutive. eapply Rle_trans; [|apply Hy; exact Hr]. apply rstep_mono; auto. intros; lra. }
    assert (SS : sup_sol (fun s => - z s)).
    { split.
      - intros s Hs. assert (z s <= 0); [|lra]. apply (Hz s Hs). intros x (y & Hy & ->). destruct Hy as [Y0 _]. specialize (Y0 s Hs). lra.
      - intros r Hr. assert (z (src M r) <= - rstep M rew r (fun s => - z s)); [|lra]. apply (Hz (src M r) (msrc r Hr)). intros x (y & Hy & ->).
        assert (rstep M rew r (fun s => - z s) <= rstep M rew r (fun s => - y s)). { apply rstep_mono; auto. intros s Hs. assert (y s <= z s); [|lra]. apply (Hz s Hs). exists y. auto. }
        pose proof (proj2 Hy r Hr). lra. }
    exists (fun s => - z s). split; [exact SS|]. split; [|exact LOW]. intros s Hs. apply (min_tight M RF rew R0 (fun s => - z s)); [apply SS|apply SS| |exact Hs].
    intros z' Z1 Z2. apply sumn_le. intros d Hd. apply LOW; auto. split; auto.
  Qed.
  Lemma min_is_value : forall z, sub_sol z -> tight z -> forall s, (s < n)%nat -> IsRewMin M (is_goal M) rew s (z s).
  Proof. intros z (A & B) C. apply (rew_min_char M RF w W0 WR rew RZ z); auto. Qed.
  Lemma max_is_value : forall z, sup_sol z -> tight z -> forall s, (s < n)%nat -> IsRewMax M (is_goal M) rew s (z s).
  Proof. intros z (A & B) C. apply (rew_max_char M RF w W0 WR rew RZ z); auto. Qed.
End Ex.

Lemma glb_u : forall E x y, is_glb E x -> is_glb E y -> x = y.
Proof. intros E x y (A & B) (C & D). apply Rle_antisym; [apply D|apply B]; auto. Qed.
Lemma IsRewMin_u : forall M T rew s x y, IsRewMin M T rew s x -> IsRewMin M T rew s y -> x = y.
Proof. intros M T rew s x y (_ & A) (_ & B). eapply glb_u; eauto. Qed.
Lemma IsRewMax_u : forall M T rew s x y, IsRewMax M T rew s x -> IsRewMax M T rew s y -> x = y.
Proof. intros M T rew s x y (_ & A) (_ & B). eapply is_lub_u; eauto. Qed.

(** Rewards in the subsystem of the states [keep]. *)
Section Keep.
  Variable M : mdp.
  Hypothesis SH : shape_mdp M.
  Let n := (nS M - 2)%nat.
  Let m := (nA M - 2)%nat.
  Variable w : nat -> R.
  Hypothesis W0 : forall s, (s < n)%nat -> 0 <= w s.
  Hypothesis WR : forall r, (r < m)%nat -> 1 <= w (src M r) - sumn n (fun d => prob M r d * w d).
  Variable rew : nat -> R.
  Hypothesis R0 : forall r, 0 <= rew r.
  Hypothesis RZ : forall r, (m <= r)%nat -> rew r = 0.
  Variable keep : nat -> bool.
  Let R := restrict M keep.
  Definition krew (r : nat) := if keep (src M r) then rew r else 0.
  Let SR : shape_mdp R := R_shape M SH keep.

  Lemma pge : forall r d, (r < m)%nat -> (d < n)%nat -> 0 <= prob M r d.
  Proof. intros r d Hr Hd. pose proof (RF2 M SH). apply (W_ge M SH); unfold n, m in *; lia. Qed.
  Lemma krew_pos : forall r, 0 <= krew r. Proof. intros r. unfold krew. destruct (keep (src M r)); [apply R0|lra]. Qed.
  Lemma krew_out : forall r, (m <= r)%nat -> krew r = 0. Proof. intros r Hr. unfold krew. rewrite RZ by exact Hr. destruct (keep (src M r)); auto. Qed.
  Lemma kstep : forall r z, (r < m)%nat -> rstep R krew r z = if keep (src M r) then rew r + sumn n (fun d => if keep d then prob M r d * z d else 0) else 0.
  Proof.
    intros r z Hr. unfold rstep. change (nS R - 2)%nat with n. unfold krew.
    rewrite (sumn_ext n _ (fun d => if keep (src M r) then if keep d then prob M r d * z d else 0 else 0)).
    - destruct (keep (src M r)); [reflexivity|]. rewrite sumn_zero by auto. ring.
    - intros d Hd. unfold R. rewrite (R_in M keep r d Hr Hd). destruct (keep (src M r)); [destruct (keep d); ring|ring].
  Qed.
  Lemma kWR : forall r, (r < nA R - 2)%nat -> 1 <= w (src R r) - sumn (nS R - 2) (fun d => prob R r d * w d).
  Proof.
    intros r Hr. change (nA R - 2)%nat with m in Hr. change (nS R - 2)%nat with n. change (src R r) with (src M r). specialize (WR r Hr).
    assert (sumn n (fun d => prob R r d * w d) <= sumn n (fun d => prob M r d * w d)); [|lra]. apply sumn_le. intros d Hd.
    unfold R. rewrite (R_in M keep r d Hr Hd). pose proof (pge r d Hr Hd). specialize (W0 d Hd). assert (0 <= prob M r d * w d) by (apply Rmult_le_pos; auto).
    destruct (keep (src M r)), (keep d); lra.
  Qed.

  Lemma sub_extend : forall z, sub_sol R krew z -> sub_sol M rew z /\ forall s, (s < n)%nat -> keep s = false -> z s = 0.
  Proof.
    intros z (Z0 & HZ). change (nS R - 2)%nat with n in Z0. change (nA R - 2)%nat with m in HZ. split; [split; [exact Z0|]|].
    - intros r Hr. eapply Rle_trans; [apply (HZ r Hr)|]. rewrite kstep by exact Hr. unfold rstep. fold n. destruct (keep (src M r)).
      + apply Rplus_le_compat_l. apply sumn_le. intros d Hd. destruct (keep d); [lra|]. apply Rmult_le_pos; [apply pge; auto|apply Z0; auto].
      + apply Rplus_le_le_0_compat; [apply R0|]. apply sumn_nonneg. intros d Hd. apply Rmult_le_pos; [apply pge; auto|apply Z0; auto].
    - intros s Hs K. destruct (proj2 (proj2 (proj2 (proj1 SH))) s) as (r & Hr & E); [unfold n in *; lia|]. assert (Hr' : (r < m)%nat) by (apply (rows_lt M SH s); auto).
      specialize (HZ r Hr'). rewrite kstep in HZ by exact Hr'. change (src R r) with (src M r) in HZ. rewrite E, K in HZ. specialize (Z0 s Hs). lra.
  Qed.
  Lemma sub_restrict : forall z, sub_sol M rew z -> (forall s, (s < n)%nat -> keep s = false -> z s = 0) -> sub_sol R krew z.
  Proof.
    intros z (Z0 & HZ) ZK. split; [exact Z0|]. intros r Hr. change (nA R - 2)%nat with m in Hr. rewrite kstep by exact Hr. change (src R r) with (src M r). destruct (keep (src M r)) eqn:K.
    - eapply Rle_trans; [apply (HZ r Hr)|]. unfold rstep. fold n. apply Rplus_le_compat_l. apply Req_le. apply sumn_ext. intros d Hd. destruct (keep d) eqn:Kd; [reflexivity|]. rewrite (ZK d Hd Kd). ring.
    - rewrite (ZK (src M r)); [lra|apply RF_src; auto|exact K].
  Qed.
  Lemma sup_restrict : forall z, (forall s, (s < n)%nat -> 0 <= z s) -> (forall r, (r < m)%nat -> keep (src M r) = true -> rstep M rew r z <= z (src M r)) -> sup_sol R krew z.
  Proof.
    intros z Z0 HZ. split; [exact Z0|]. intros r Hr. change (nA R - 2)%nat with m in Hr. rewrite kstep by exact Hr. change (src R r) with (src M r). destruct (keep (src M r)) eqn:K.
    - eapply Rle_trans; [|apply (HZ r Hr K)]. unfold rstep. fold n. apply Rplus_le_compat_l. apply sumn_le. intros d Hd. destruct (keep d); [lra|]. apply Rmult_le_pos; [apply pge; auto|apply Z0; auto].
    - apply Z0. apply RF_src; auto.
  Qed.

  Lemma kmin_exists : exists z, sub_sol R krew z /\ (forall s, (s < n)%nat -> IsRewMin R (is_goal R) krew s (z s)) /\ forall y, sub_sol R krew y -> forall s, (s < n)%nat -> y s <= z s.
  Proof.
    destruct (min_exists R SR w W0 kWR krew (fun r _ => krew_pos r) krew_out) as (z & A & B & C). exists z. split; [exact A|]. split; [|exact C].
    apply (min_is_value R SR w W0 kWR krew krew_out z A B).
  Qed.
  Lemma kmax_exists : exists z, sup_sol R krew z /\ (forall s, (s < n)%nat -> IsRewMax R (is_goal R) krew s (z s)) /\ forall y, sup_sol R krew y -> forall s, (s < n)%nat -> z s <= y s.
  Proof.
    destruct (max_exists R SR w W0 kWR krew (fun r _ => krew_pos r)) as (z & A & B & C). exists z. split; [exact A|]. split; [|exact C].
    apply (max_is_value R SR w W0 kWR krew krew_out z A B).
  Qed.

  (** Points of the y polytope supported in [keep] are below the maximum. *)
  Lemma y_sound : forall init y z, (init < n)%nat -> (forall r, (r < m)%nat -> 0 <= y r) -> (forall s, (s < n)%nat -> balance M y s <= if Nat.eqb s init then 1 else 0) ->
    (forall r, (r < m)%nat -> keep (src M r) = false -> y r = 0) -> sup_sol R krew z -> (forall s, (s < n)%nat -> keep s = false -> z s = 0) ->
    sumn m (fun r => rew r * y r) <= z init.
  Proof.
    intros init y z Hi Y0 HB YK (Z0 & HZ) ZK. change (nS R - 2)%nat with n in Z0. change (nA R - 2)%nat with m in HZ.
    apply Rle_trans with (sumn m (fun r => y r * (z (src M r) - sumn n (fun d => prob M r d * z d)))).
    - apply sumn_le. intros r Hr. specialize (HZ r Hr). rewrite kstep in HZ by exact Hr. change (src R r) with (src M r) in HZ. destruct (keep (src M r)) eqn:K.
      + rewrite (sumn_ext n (fun d => if keep d then prob M r d * z d else 0) (fun d => prob M r d * z d)) in HZ.
        * rewrite Rmult_comm. apply Rmult_le_compat_l; [apply Y0; exact Hr|lra].
        * intros d Hd. destruct (keep d) eqn:Kd; [reflexivity|]. rewrite (ZK d Hd Kd). ring.
      + rewrite (YK r Hr K). lra.
    - pose proof (balance_dual M SH y z) as E. fold n m in E. rewrite <- E. clear E. pose proof (delta_sum M init z Hi) as D. fold n in D. rewrite <- D. apply sumn_le. intros s Hs. apply Rmult_le_compat_r; [apply Z0; auto|apply HB; auto].
  Qed.
  Lemma kmax_out : forall z, (forall y, sup_sol R krew y -> forall s, (s < n)%nat -> z s <= y s) -> sup_sol R krew z -> forall s, (s < n)%nat -> keep s = false -> z s = 0.
  Proof.
    intros z LO (Z0 & HZ) s Hs K. apply Rle_antisym; [|apply Z0; exact Hs].
    assert (SS : sup_sol R krew (fun d => if keep d then z d else 0)).
    { split; [intros d Hd; destruct (keep d); [apply Z0; exact Hd|lra]|]. intros r Hr. change (nA R - 2)%nat with m in Hr, HZ. specialize (HZ r Hr). rewrite kstep in HZ |- * by exact Hr. change (src R r) with (src M r) in *.
      destruct (keep (src M r)) eqn:Kr; [|lra]. rewrite (sumn_ext n _ (fun d => if keep d then prob M r d * z d else 0)); [exact HZ|]. intros d Hd. destruct (keep d); reflexivity. }
    specialize (LO _ SS s Hs). cbn beta in LO. rewrite K in LO. exact LO.
  Qed.
End Keep.
