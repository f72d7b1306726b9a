(** Rounding errors of products of sparse rows with vectors. *)
From Coq Require Import List Arith ZArith QArith Qreals Bool Reals Lia Lra Permutation.
From Flocq Require Import Core BinarySingleNaN Relative.
From Verif Require Import Base Num Matrix Graph Amdp ReachForm Milp Certificates FloatRow SpecFloatRow FloatProofs FloatCheck SpecFloatCheck.
Import ListNotations.
Local Open Scope R_scope.

Notation u := (bpow radix2 (-53)).
Lemma u_pos : 0 < u. Proof. apply bpow_gt_0. Qed.
Lemma u_val : u = / 9007199254740992. Proof. reflexivity. Qed.
Lemma u_small : u <= / 1000000000. Proof. rewrite u_val. lra. Qed.

Lemma rnd_rel : forall x, Rabs (rnd x - x) <= u * (Rabs x + 1).
Proof.
  intros x. change (round_mode mode_NE) with ZnearestE. rewrite fexp_flt.
  destruct (error_N_FLT radix2 (-1074) 53 eq_refl (fun x => negb (Z.even x)) x) as (eps & eta & E1 & E2 & _ & EQ).
  change ZnearestE with (Znearest (fun x => negb (Z.even x))). rewrite EQ.
  replace (x * (1 + eps) + eta - x) with (x * eps + eta) by ring.
  apply Rle_trans with (1 := Rabs_triang _ _). rewrite Rabs_mult.
  assert (H1 : / 2 * bpow radix2 (- (53) + 1) = u). { replace (- (53) + 1)%Z with (-53 + 1)%Z by lia. rewrite bpow_plus. change (bpow radix2 1) with 2. lra. }
  assert (H2 : / 2 * bpow radix2 (-1074) <= u). { apply Rle_trans with (bpow radix2 (-1074)); [pose proof (bpow_gt_0 radix2 (-1074)); lra|apply bpow_le; lia]. }
  rewrite H1 in E1. pose proof (Rmult_le_compat_l _ _ _ (Rabs_pos x) E1). rewrite Rmult_plus_distr_l, Rmult_1_r. lra.
Qed.
Lemma rnd_big : forall x, Rabs x <= bpow radix2 600 -> Rabs (rnd x) < bpow radix2 1024.
Proof.
  intros x H. apply Rle_lt_trans with (bpow radix2 600); [|apply bpow_lt; lia].
  apply abs_round_le_generic; auto with typeclass_instances.
  apply generic_format_bpow. rewrite fexp_flt. unfold FLT_exp. lia.
Qed.
Lemma dmul_ok : forall a b, fin a = true -> fin b = true -> Rabs (val a * val b) <= bpow radix2 600 -> val (dmul a b) = rnd (val a * val b) /\ fin (dmul a b) = true.
Proof. intros a b Fa Fb L. pose proof (@Bmult_correct 53 1024 dprec demax mode_NE a b) as C. fold (dmul a b) in C. rewrite Rlt_bool_true in C by (apply rnd_big; exact L). rewrite Fa, Fb in C. split; apply C. Qed.
Lemma dadd_ok' : forall a b, fin a = true -> fin b = true -> Rabs (val a + val b) <= bpow radix2 600 -> val (dadd a b) = rnd (val a + val b) /\ fin (dadd a b) = true.
Proof. intros. apply dadd_ok; auto. apply rnd_big; auto. Qed.
Lemma dsub_ok' : forall a b, fin a = true -> fin b = true -> Rabs (val a - val b) <= bpow radix2 600 -> val (dsub a b) = rnd (val a - val b) /\ fin (dsub a b) = true.
Proof. intros a b Fa Fb L. pose proof (@Bminus_correct 53 1024 dprec demax mode_NE a b Fa Fb) as C. fold (dsub a b) in C. rewrite Rlt_bool_true in C by (apply rnd_big; exact L). split; apply C. Qed.
Lemma dopp_ok : forall a, val (dopp a) = - val a /\ fin (dopp a) = fin a.
Proof. intros a. split; [apply B2R_Bopp|apply is_finite_Bopp]. Qed.

(** The exact value of a list of entries. *)
Fixpoint wsum (v : list double) (es : list (nat * double)) : R :=
  match es with [] => 0 | e :: r => val (snd e) * val (nth (fst e) v d0) + wsum v r end.
Lemma wsum_app : forall v a b, wsum v (a ++ b) = wsum v a + wsum v b.
Proof. intros v a b. induction a as [|e a IH]; cbn [app wsum]; [lra|]. rewrite IH. lra. Qed.
Lemma wsum_perm : forall v a b, Permutation a b -> wsum v a = wsum v b.
Proof. intros v a b H. induction H; cbn [wsum]; lra. Qed.
Lemma wsum_stored : forall v (l : list (nat * double)), (forall e, In e l -> fin (snd e) = true) -> wsum v (filter (fun e : nat * double => negb (Beqb (snd e) d0)) l) = wsum v l.
Proof.
  intros v. induction l as [|e l IH]; intros H; [reflexivity|]. cbn [filter wsum]. rewrite <- IH by (intros; apply H; right; auto).
  destruct (Beqb (snd e) d0) eqn:Eb; cbn [negb wsum]; [|reflexivity]. rewrite Beqb_correct in Eb by (auto; apply H; left; auto).
  destruct (Req_bool_spec (val (snd e)) (val d0)) as [Z|]; [|discriminate]. rewrite Z. rewrite val_d0. lra.
Qed.

Section Dot.
  Variable v : list double.
  Variable B : R.
  Hypothesis B1 : 1 <= B.
  Hypothesis B2 : B <= bpow radix2 500.
  Definition good (e : nat * double) : Prop :=
    fin (snd e) = true /\ Rabs (val (snd e)) <= 1 /\ fin (nth (fst e) v d0) = true /\ Rabs (val (nth (fst e) v d0)) <= B.

  Lemma small_k : forall k, k <= 20000000 -> k * B <= bpow radix2 600.
  Proof.
    intros k H. apply Rle_trans with (bpow radix2 25 * bpow radix2 500).
    - apply Rle_trans with (bpow radix2 25 * B); [apply Rmult_le_compat_r; [lra|]; change (bpow radix2 25) with 33554432; lra|apply Rmult_le_compat_l; [apply bpow_ge_0|exact B2]].
    - rewrite <- bpow_plus. apply bpow_le. lia.
  Qed.
  Lemma fdot_snoc : forall es e, fdot v (es ++ [e]) = dadd (fdot v es) (dmul (snd e) (nth (fst e) v d0)).
  Proof. intros. unfold fdot. rewrite fold_left_app. reflexivity. Qed.
  Lemma good_mul : forall e, good e -> fin (dmul (snd e) (nth (fst e) v d0)) = true /\ Rabs (val (snd e) * val (nth (fst e) v d0)) <= B /\
    Rabs (val (dmul (snd e) (nth (fst e) v d0)) - val (snd e) * val (nth (fst e) v d0)) <= 2 * u * B.
  Proof.
    intros e (F1 & A1 & F2 & A2). assert (P : Rabs (val (snd e) * val (nth (fst e) v d0)) <= B).
    { rewrite Rabs_mult. rewrite <- (Rmult_1_l B). apply Rmult_le_compat; auto; apply Rabs_pos. }
    destruct (dmul_ok _ _ F1 F2) as [V F]. { pose proof (small_k 1 ltac:(lra)). lra. }
    split; [exact F|]. split; [exact P|]. rewrite V. apply Rle_trans with (1 := rnd_rel _). rewrite (Rmult_comm 2 u), Rmult_assoc. apply Rmult_le_compat_l; [pose proof u_pos; lra|]. lra.
  Qed.
  Lemma fdot_err : forall es, (forall e, In e es -> good e) -> INR (length es) <= 16777216 ->
    fin (fdot v es) = true /\ Rabs (wsum v es) <= INR (length es) * B /\
    Rabs (val (fdot v es) - wsum v es) <= 6 * (INR (length es) * INR (length es)) * (u * B).
  Proof.
    intros es. induction es as [|e es IH] using rev_ind; intros G HL.
    - cbn. split; [reflexivity|]. rewrite Rminus_0_r, Rabs_R0. split; lra.
    - rewrite app_length in *. cbn [length] in *. rewrite plus_INR in *. change (INR 1) with 1 in *. set (k := INR (length es)) in *. assert (K0 : 0 <= k) by apply pos_INR.
      destruct IH as (F & W & D); [intros; apply G; apply in_or_app; auto|lra|].
      destruct (good_mul e) as (MF & MA & MD); [apply G; apply in_or_app; right; left; auto|].
      rewrite fdot_snoc, wsum_app. cbn [wsum]. rewrite Rplus_0_r.
      set (p := val (dmul (snd e) (nth (fst e) v d0))) in *. set (q := val (snd e) * val (nth (fst e) v d0)) in *. set (s := val (fdot v es)) in *. set (w := wsum v es) in *.
      pose proof u_pos as U0. assert (UB : 0 <= u * B) by (apply Rmult_le_pos; lra).
      assert (KK : 6 * (k * k) * (u * B) <= B).
      { apply Rle_trans with (6 * (16777216 * 16777216) * (u * B)); [apply Rmult_le_compat_r; [exact UB|]; apply Rmult_le_compat_l; [lra|]; apply Rmult_le_compat; lra|].
        rewrite u_val. lra. }
      assert (UBs : 2 * u * B <= B) by (rewrite u_val; lra).
      assert (SA : Rabs (s + p) <= (k + 3) * B).
      { replace (s + p) with ((s - w) + (p - q) + (w + q)) by ring. apply Rle_trans with (1 := Rabs_triang _ _). pose proof (Rabs_triang (s - w) (p - q)). pose proof (Rabs_triang w q). lra. }
      destruct (dadd_ok' (fdot v es) (dmul (snd e) (nth (fst e) v d0)) F MF) as [V Fi].
      { fold s p. pose proof (small_k (k + 3) ltac:(lra)). lra. }
      split; [exact Fi|]. split; [apply Rle_trans with (1 := Rabs_triang _ _); lra|].
      rewrite V. fold s p. pose proof (rnd_rel (s + p)) as RR.
      assert (RR' : Rabs (rnd (s + p) - (s + p)) <= (k + 4) * (u * B)).
      { apply Rle_trans with (1 := RR). replace ((k + 4) * (u * B)) with (u * ((k + 4) * B)) by ring. apply Rmult_le_compat_l; lra. }
      replace (rnd (s + p) - (w + q)) with ((rnd (s + p) - (s + p)) + ((s - w) + (p - q))) by ring.
      apply Rle_trans with (1 := Rabs_triang _ _). pose proof (Rabs_triang (s - w) (p - q)).
      assert (0 <= k * (u * B)) by (apply Rmult_le_pos; lra). nra.
  Qed.
End Dot.

(** ** Doubles as rationals *)
Lemma Q2R_inject : forall z, Q2R (inject_Z z) = IZR z. Proof. intros. unfold Q2R, inject_Z. cbn. lra. Qed.
Lemma dq_val : forall p, Q2R (dq p) = val p.
Proof.
  intros [s|s| |s m e H]; try (cbn; unfold Q2R; cbn; lra).
  unfold dq, B2R, F2R. cbn [Fnum Fexp cond_Zopp]. change (cond_Zopp s (Z.pos m)) with (if s then Z.neg m else Z.pos m).
  destruct e as [|k|k].
  - rewrite Q2R_inject. cbn [bpow]. lra.
  - rewrite Q2R_inject, mult_IZR. rewrite <- IZR_Zpower by lia. reflexivity.
  - unfold Q2R. cbn [Qnum Qden]. f_equal. cbn [bpow]. f_equal. apply IZR_eq. rewrite Pos2Z.inj_pow. reflexivity.
Qed.
