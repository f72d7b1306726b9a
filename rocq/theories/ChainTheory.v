(** Markov chains in reachability form: values of subsystems as solutions of
    linear equations, and states that may be removed. *)
From Coq Require Import List Arith Reals Lra Lia Bool QArith.
From Verif Require Import SpecMdp SumFacts MdpValue SccSpec SpecEc RfTheory SpecSub SubTheory.
Import ListNotations.
Local Open Scope R_scope.

(** Upper bounds without reachability of goal. *)
Lemma z_max_nonneg_sound : forall M (SH : shape_mdp M) z, (forall s, (s < nS M - 2)%nat -> 0 <= z s) ->
  (forall r, (r < nA M - 2)%nat -> onestep M r z <= z (src M r)) ->
  forall s, (s < nS M - 2)%nat -> Vmax M (RFW M SH) (is_goal M) s <= z s.
Proof.
  intros M SH z HN Hz s Hs. rewrite <- (ext_in M z s Hs). pose proof (RF2 M SH).
  apply (Vmax_least M (RFW M SH) (is_goal M) (ext M z)).
  - intros t Ht. destruct (state_cases M SH t Ht) as [H1|[->| ->]]; [rewrite ext_in; auto|rewrite ext_goal by auto; lra|rewrite ext_fail by auto; lra].
  - intros t _ HT. apply T_true in HT. subst t. rewrite ext_goal by auto. lra.
  - intros r Hr HT. rewrite ex_ext_vec by auto. destruct (row_cases M SH r Hr) as [H1|[->| ->]].
    + rewrite ext_in; [auto|]. apply RF_src; auto.
    + pose proof SH as (_ & _ & _ & _ & (F & _) & _). rewrite F, T_goal in HT. discriminate.
    + pose proof SH as (_ & _ & _ & _ & _ & F & G). rewrite F, ext_fail by auto. rewrite <- ex_ext_vec by auto.
      apply convex_le; [intros i Hi; apply (W_pos M (RFW M SH)); auto|apply (W_sum M (RFW M SH)); auto|].
      intros i Hi Hp. assert (i = fail M) by (apply (one_row M SH (nA M - 1) (fail M)); auto using fail_lt).
      subst i. rewrite ext_fail by auto. lra.
  - lia.
Qed.

Section Chain.
  Variable M : mdp.
  Variable init : nat.
  Hypothesis RF : rf_mdp M init.
  Let SH : shape_mdp M := proj1 RF.
  Let n := (nS M - 2)%nat.
  (** One row per state. *)
  Hypothesis SQ : nA M = nS M.
  Hypothesis ROW : forall r, (r < n)%nat -> src M r = r.

  Lemma ch_row : forall s r, (s < n)%nat -> (r < nA M)%nat -> src M r = s -> r = s.
  Proof.
    intros s r Hs Hr E. assert (L : (r < nA M - 2)%nat) by (eapply (rows_in M SH s); eauto). rewrite SQ in L. rewrite ROW in E; auto.
  Qed.

  Lemma chain_no_ec : forall s, (s < n)%nat -> ~ in_ec M s.
  Proof.
    intros s Hs (X & B & HE & Xs). pose proof (RF2 M SH). pose proof RF as (_ & _ & RG).
    assert (G : X (goal M)).
    { assert (HR : rtc (medge M) s (goal M)) by (apply RG; unfold fail, n in *; lia).
      pose proof HE as (_ & E2 & E3 & _).
      assert (C : forall u v, rtc (medge M) u v -> X u -> X v).
      { intros u v HH. induction HH as [|u w v Huw _ IH]; [auto|]. intros Xu. apply IH. clear IH.
        destruct Huw as (r & Hr & Es & Hd & Hp). destruct (E2 u Xu) as (a & Ha). destruct (E3 u a Ha) as (_ & (d & (A1 & A2 & _)) & A3).
        assert (a = r).
        { assert (Hu : (u < nS M)%nat) by (rewrite <- Es; apply (W_src M (RFW M SH)); auto). destruct (state_cases M SH u Hu) as [L|[->| ->]].
          - rewrite (ch_row u a L A1 A2), (ch_row u r L Hr Es). reflexivity.
          - rewrite (goal_row M SH a A1 A2), (goal_row M SH r Hr Es). reflexivity.
          - rewrite (fail_row M SH a A1 A2), (fail_row M SH r Hr Es). reflexivity. }
        subst a. apply A3. split; [exact Hr|]. split; [exact Es|]. split; auto. }
      exact (C _ _ HR Xs). }
    pose proof (ec_no_goal M SH X B s HE Xs Hs (goal M) G) as E. unfold is_goal in E. rewrite Nat.eqb_refl in E. discriminate.
  Qed.

  Section Keep.
    Variable keep : nat -> bool.
    Let R := restrict M keep.
    Let SR : shape_mdp R := R_shape M SH keep.
    Let WR := RFW R SR.
    Let T := is_goal M.

    Lemma keep_no_ec : forall s, (s < n)%nat -> ~ in_ec R s.
    Proof. intros s Hs HE. destruct (R_ec M SH keep s Hs HE) as [_ H]. exact (chain_no_ec s Hs H). Qed.

    Variable z : nat -> Rdefinitions.R.
    Hypothesis Z1 : forall s, (s < n)%nat -> keep s = true -> z s = sumn n (fun d => if keep d then prob M s d * z d else 0) + prob M s (goal M).
    Hypothesis Z0 : forall s, (s < n)%nat -> keep s = false -> z s = 0.

    Lemma sol_step : forall r, (r < n)%nat -> onestep R r z = z r.
    Proof.
      intros r Hr. unfold R. rewrite (R_onestep M SH keep) by (rewrite SQ; exact Hr). rewrite ROW by auto. destruct (keep r) eqn:K; [symmetry; apply Z1; auto|symmetry; apply Z0; auto].
    Qed.

    Lemma sol_nonneg : forall s, (s < n)%nat -> 0 <= z s.
    Proof.
      intros s Hs. pose proof (RF2 M SH). rewrite <- (ext_in M z s Hs).
      apply (superharmonic_nonneg M (RFW M SH)).
      - intros t Ht. destruct (state_cases M SH t Ht) as [L|[->| ->]].
        + destruct (keep t) eqn:K.
          * right. intros r Hr E. rewrite (ch_row t r L Hr E). rewrite ex_ext_vec by auto. rewrite ext_in by auto. rewrite <- (sol_step t L).
            unfold R. rewrite (R_onestep M SH keep) by (rewrite SQ; exact L). rewrite ROW, K by auto. unfold onestep. apply Rplus_le_compat_r. apply sumn_le. intros d Hd.
            destruct (keep d) eqn:Kd; [lra|]. rewrite (Z0 d Hd Kd). lra.
          * left. rewrite ext_in by auto. rewrite (Z0 t L K). lra.
        + left. rewrite ext_goal by auto. lra.
        + left. rewrite ext_fail by auto. lra.
      - intros t Ht. destruct (Nat.eq_dec t (fail M)) as [->|NE].
        + exists (fail M). split; [constructor|]. rewrite ext_fail by auto. lra.
        + exists (goal M). split; [apply RF; auto|]. rewrite ext_goal by auto. lra.
      - unfold n in Hs. lia.
    Qed.

    Lemma sol_value : forall s, (s < n)%nat -> Vmin R WR T s = z s /\ Vmax R WR T s = z s.
    Proof.
      intros s Hs. pose proof (RF2 M SH).
      assert (A : z s <= Vmin R WR T s).
      { apply (z_min_sound R SR z); [|intros t Ht HE; destruct (keep_no_ec t Ht HE)|exact Hs].
        intros r Hr. change (nA R) with (nA M) in Hr. rewrite SQ in Hr. change (src R r) with (src M r). rewrite ROW by auto. rewrite (sol_step r Hr). lra. }
      assert (B : Vmax R WR T s <= z s).
      { apply (z_max_nonneg_sound R SR z); [exact sol_nonneg| |exact Hs].
        intros r Hr. change (nA R) with (nA M) in Hr. rewrite SQ in Hr. change (src R r) with (src M r). rewrite ROW by auto. rewrite (sol_step r Hr). lra. }
      assert (C : Vmin R WR T s <= Vmax R WR T s) by (apply Vmin_le_Vmax; change (nS R) with (nS M); unfold n in Hs; lia). lra.
    Qed.
  End Keep.

  (** The values of the kept states satisfy the equations. *)
  Lemma keep_values : forall keep, let z := Vmin (restrict M keep) (RFW _ (R_shape M SH keep)) (is_goal M) in
    (forall s, (s < n)%nat -> keep s = true -> z s = sumn n (fun d => if keep d then prob M s d * z d else 0) + prob M s (goal M)) /\
    (forall s, (s < n)%nat -> keep s = false -> z s = 0) /\ (forall s, 0 <= z s <= 1).
  Proof.
    intros keep z. pose proof (RF2 M SH). set (R := restrict M keep) in *. pose proof (R_shape M SH keep) as SR0.
    assert (ST : forall s, (s < n)%nat -> z s = onestep R s z).
    { intros s Hs. destruct (Vmin_att R (RFW _ (R_shape M SH keep)) (is_goal M) s) as (r & Hr & Es & E).
      - change (nS R) with (nS M). unfold n in Hs. lia.
      - apply (T_in R); auto.
      - assert (r = s) by (apply ch_row; auto). subst r. transitivity (ex R s z); [exact E|]. rewrite <- ex_ext_vec by auto. apply ex_ext. intros d Hd.
        symmetry. apply (ext_id R); auto.
        + apply (Vmin_goal R (R_shape M SH keep)).
        + apply (Vmin_fail R (R_shape M SH keep)). }
    split; [|split].
    - intros s Hs K. rewrite (ST s Hs) at 1. unfold R. rewrite (R_onestep M SH keep) by (rewrite SQ; exact Hs). rewrite ROW, K by auto. reflexivity.
    - intros s Hs K. rewrite (ST s Hs). unfold R. rewrite (R_onestep M SH keep) by (rewrite SQ; exact Hs). rewrite ROW, K by auto. reflexivity.
    - intros s. apply Vmin_bounds.
  Qed.

  (** Removing a state that has value zero, or that no kept state leads to. *)
  Lemma drop_value : forall keep v i, (i < n)%nat -> i <> v ->
    let V := fun k => Vmin (restrict M k) (RFW _ (R_shape M SH k)) (is_goal M) in
    (V keep v = 0 \/ forall s, (s < n)%nat -> keep s = true -> prob M s v = 0) ->
    V keep i <= V (fun s => keep s && negb (s =? v)%nat) i.
  Proof.
    intros keep v i Hi Hv V HC. destruct (keep_values keep) as (A1 & A0 & AB). fold (V keep) in A1, A0, AB.
    set (k' := fun s => keep s && negb (s =? v)%nat).
    assert (E : forall s, (s < n)%nat -> Vmin (restrict M k') (RFW _ (R_shape M SH k')) (is_goal M) s = (if (s =? v)%nat then 0 else V keep s) /\ True).
    { intros s Hs. split; [|auto]. apply (sol_value k' (fun s => if (s =? v)%nat then 0 else V keep s)); auto.
      - intros u Hu K. unfold k' in K. apply andb_prop in K. destruct K as [K1 K2]. apply negb_true_iff in K2. rewrite K2. rewrite (A1 u Hu K1). f_equal.
        apply sumn_ext. intros d Hd. unfold k'. destruct (Nat.eqb_spec d v) as [->|ND]; cbn [negb]; [|rewrite andb_true_r; reflexivity].
        rewrite andb_false_r. destruct (keep v); [|reflexivity]. destruct HC as [Z|Z]; [rewrite Z; ring|rewrite (Z u Hu K1); ring].
      - intros u Hu K. unfold k' in K. destruct (u =? v)%nat; [reflexivity|]. cbn in K. rewrite andb_true_r in K. apply A0; auto. }
    destruct (E i Hi) as [E' _]. unfold V at 2. fold k'. rewrite E'. destruct (Nat.eqb_spec i v); [contradiction|lra].
  Qed.
End Chain.
