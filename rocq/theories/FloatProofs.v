(** Proofs about rows in double precision. *)
From Coq Require Import List ZArith Bool Reals Lia Lra.
From Flocq Require Import Core BinarySingleNaN Plus_error.
From Verif Require Import FloatRow.
Import ListNotations.
Local Open Scope R_scope.

Notation fexp64 := (SpecFloat.fexp 53 1024).
Notation rnd := (round radix2 fexp64 (round_mode mode_NE)).
Notation val := (@B2R 53 1024).
Notation fin := (@is_finite 53 1024).

Lemma fexp_flt : fexp64 = FLT_exp (-1074) 53. Proof. reflexivity. Qed.
Global Instance vexp : Valid_exp fexp64. Proof. rewrite fexp_flt. apply FLT_exp_valid. reflexivity. Qed.
Global Instance mexp : Monotone_exp fexp64. Proof. rewrite fexp_flt. apply FLT_exp_monotone. Qed.
Lemma rnd_le : forall x y, x <= y -> rnd x <= rnd y. Proof. intros. apply round_le; [exact vexp|apply valid_rnd_round_mode|assumption]. Qed.
Lemma rnd_id : forall d, rnd (val d) = val d. Proof. intros. apply round_generic; [apply valid_rnd_round_mode|apply generic_format_B2R]. Qed.
Lemma rnd_0 : rnd 0 = 0. Proof. apply round_0. apply valid_rnd_round_mode. Qed.
Lemma val_d0 : val d0 = 0. Proof. reflexivity. Qed.
Lemma val_d1 : val d1 = 1.
Proof. rewrite <- SF2R_B2SF. replace (B2SF d1) with (SpecFloat.S754_finite false 4503599627370496 (-52)) by (vm_compute; reflexivity). unfold SF2R, F2R. cbn -[IZR]. lra. Qed.
Lemma val_1e9 : val d1e9 = 1000000000.
Proof. rewrite <- SF2R_B2SF. replace (B2SF d1e9) with (SpecFloat.S754_finite false 8388608000000000 (-23)) by (vm_compute; reflexivity). unfold SF2R, F2R. cbn -[IZR]. lra. Qed.
Lemma fin_d1 : fin d1 = true. Proof. reflexivity. Qed.
Lemma fin_1e9 : fin d1e9 = true. Proof. reflexivity. Qed.
Lemma rnd_1 : rnd 1 = 1. Proof. rewrite <- val_d1. apply rnd_id. Qed.
Lemma big : 1000000000000 < bpow radix2 1024.
Proof. apply Rlt_trans with (bpow radix2 60); [unfold bpow; cbn; lra|apply bpow_lt; lia]. Qed.

(** Error of rounding near numbers below 2^k. *)
Lemma rnd_err : forall x k, (-1022 < k)%Z -> Rabs x <= bpow radix2 k -> Rabs (rnd x - x) <= bpow radix2 (k - 53).
Proof.
  intros x k Hk Hx. destruct (Req_dec x 0) as [->|NZ]; [rewrite rnd_0, Rminus_0_r, Rabs_R0; apply bpow_ge_0|].
  assert (H : Rabs (rnd x - x) <= / 2 * ulp radix2 fexp64 x) by (apply error_le_half_ulp; exact vexp).
  assert (U : ulp radix2 fexp64 x <= ulp radix2 fexp64 (bpow radix2 k)).
  { apply ulp_le; auto with typeclass_instances. rewrite (Rabs_pos_eq (bpow _ _)) by apply bpow_ge_0. exact Hx. }
  rewrite ulp_bpow in U. replace (fexp64 (k + 1)) with (1 + (k - 53))%Z in U by (rewrite fexp_flt; unfold FLT_exp; lia). rewrite bpow_plus in U. change (bpow radix2 1) with 2 in U. set (b := bpow radix2 (k - 53)) in *. set (l := ulp radix2 fexp64 x) in *. clearbody b l. apply Rle_trans with (1 := H). lra.
Qed.

Lemma dadd_fin : forall a b, fin (dadd a b) = true -> fin a = true /\ fin b = true.
Proof. intros a b H. destruct a as [sa|sa| |sa ma ea Ha], b as [sb|sb| |sb mb eb Hb]; try discriminate H; auto; cbn in H; try (destruct (Bool.eqb sa sb)); discriminate H. Qed.
Lemma dadd_val : forall a b, fin (dadd a b) = true -> val (dadd a b) = rnd (val a + val b) /\ Rabs (rnd (val a + val b)) < bpow radix2 1024.
Proof.
  intros a b H. destruct (dadd_fin a b H) as [Fa Fb]. pose proof (@Bplus_correct 53 1024 dprec demax mode_NE a b Fa Fb) as C. fold (dadd a b) in C.
  destruct (Rlt_bool_spec (Rabs (rnd (val a + val b))) (bpow radix2 1024)) as [L|L].
  - split; [apply C|exact L].
  - destruct C as [C _]. assert (X : is_finite_SF (B2SF (dadd a b)) = true) by (rewrite is_finite_SF_B2SF; exact H). rewrite C in X. discriminate X.
Qed.
Lemma dadd_ok : forall a b, fin a = true -> fin b = true -> Rabs (rnd (val a + val b)) < bpow radix2 1024 -> val (dadd a b) = rnd (val a + val b) /\ fin (dadd a b) = true.
Proof. intros a b Fa Fb L. pose proof (@Bplus_correct 53 1024 dprec demax mode_NE a b Fa Fb) as C. fold (dadd a b) in C. rewrite Rlt_bool_true in C by exact L. split; apply C. Qed.
Lemma dadd_comm : forall a b, fin (dadd a b) = true -> fin (dadd b a) = true /\ val (dadd b a) = val (dadd a b).
Proof.
  intros a b H. destruct (dadd_fin a b H) as [Fa Fb]. destruct (dadd_val a b H) as [V L]. rewrite Rplus_comm in L. destruct (dadd_ok b a Fb Fa L) as [V' F']. split; [exact F'|]. rewrite V, V', Rplus_comm. reflexivity.
Qed.

(** 1 - s *)
Lemma dsub_ok : forall s, fin s = true -> 0 <= val s -> fin (dsub d1 s) = true /\ val (dsub d1 s) = rnd (1 - val s).
Proof.
  intros s F P. pose proof (@Bminus_correct 53 1024 dprec demax mode_NE d1 s fin_d1 F) as C. fold (dsub d1 s) in C. rewrite val_d1 in C.
  assert (L : Rabs (rnd (1 - val s)) < bpow radix2 1024).
  { pose proof big as B. pose proof (abs_B2R_lt_emax 53 1024 s) as A. rewrite Rabs_pos_eq in A by exact P. apply Rabs_lt. split.
    - apply Rlt_le_trans with (rnd (- val s)); [|apply rnd_le; lra]. change (round_mode mode_NE) with ZnearestE. rewrite round_NE_opp. change ZnearestE with (round_mode mode_NE). rewrite rnd_id. lra.
    - apply Rle_lt_trans with (rnd 1); [apply rnd_le; lra|]. rewrite rnd_1. lra. }
  rewrite Rlt_bool_true in C by exact L. split; apply C.
Qed.
Lemma entry_R : forall p, fin p = true -> (entry_ok p = true <-> 0 <= val p <= 1).
Proof.
  intros p F. unfold entry_ok. rewrite andb_true_iff, !Bleb_correct by auto. rewrite val_d0, val_d1. split.
  - intros [A B]. destruct (Rle_bool_spec 0 (val p)), (Rle_bool_spec (val p) 1); try discriminate; lra.
  - intros [A B]. rewrite !Rle_bool_true by auto. auto.
Qed.
Lemma entry_fin : forall p, entry_ok p = true -> fin p = true.
Proof. intros [s|[|]| |s m e H]; cbn; intros X; try discriminate; reflexivity. Qed.
Lemma le1_R : forall s, fin s = true -> (Bleb s d1 = true <-> val s <= 1).
Proof. intros s F. rewrite Bleb_correct by auto. rewrite val_d1. destruct (Rle_bool_spec (val s) 1); split; intros; try discriminate; auto; lra. Qed.

Lemma fail_entry : forall s, fin s = true -> 0 <= val s -> (entry_ok (dsub d1 s) = true <-> val s <= 1).
Proof.
  intros s F P. destruct (dsub_ok s F P) as [F' V]. rewrite entry_R by exact F'. rewrite V. split.
  - intros [A _]. destruct (Rle_dec (val s) 1) as [|N]; [auto|exfalso]. assert (X : rnd (1 - val s) <= 0) by (rewrite <- rnd_0; apply rnd_le; lra).
    assert (Y : rnd (1 + - val s) <> 0).
    { apply round_plus_neq_0; auto with typeclass_instances. - rewrite <- val_d1. apply generic_format_B2R. - apply generic_format_opp. apply generic_format_B2R. - lra. }
    unfold Rminus in *. lra.
  - intros L. split; [rewrite <- rnd_0; apply rnd_le; lra|]. apply Rle_trans with (rnd 1); [apply rnd_le; lra|rewrite rnd_1; lra].
Qed.

Lemma round9_near : forall t, fin t = true -> Rabs (val t - 1) <= / 1000000000000 -> Beqb (dround9 t) d1 = true.
Proof.
  intros t F H. apply Rabs_le_inv in H. unfold dround9.
  pose proof (@Bmult_correct 53 1024 dprec demax mode_NE t d1e9) as M. fold (dmul t d1e9) in M. rewrite val_1e9 in M.
  assert (B9 : bpow radix2 31 = 2147483648) by (unfold bpow; cbn; lra).
  assert (E : Rabs (rnd (val t * 1000000000) - val t * 1000000000) <= bpow radix2 (31 - 53)). { apply rnd_err; [lia|]. rewrite B9. apply Rabs_le. lra. }
  assert (B22 : bpow radix2 (31 - 53) <= / 4000000) by (unfold bpow; cbn; lra). apply Rabs_le_inv in E.
  rewrite Rlt_bool_true in M. 2:{ pose proof big. apply Rabs_lt. lra. }
  destruct M as (MV & MF & _). rewrite F in MF. change (fin d1e9) with true in MF. cbn [andb] in MF.
  destruct (@Bnearbyint_correct 53 1024 demax mode_NE (dmul t d1e9)) as (NV & NF & _). fold (drint (dmul t d1e9)) in NV, NF. rewrite MF in NF. rewrite MV in NV.
  assert (NE : val (drint (dmul t d1e9)) = 1000000000).
  { rewrite NV. set (q := rnd (val t * 1000000000)) in *. clearbody q. unfold round, scaled_mantissa, cexp, FIX_exp, F2R. cbn [Fnum Fexp Z.opp]. change (bpow radix2 0) with 1. rewrite !Rmult_1_r. apply IZR_eq. change (round_mode mode_NE) with ZnearestE. apply Znearest_imp.
    apply Rabs_def1; change (IZR 1000000000) with 1000000000; lra. }
  assert (NZ : val d1e9 <> 0) by (rewrite val_1e9; lra).
  pose proof (@Bdiv_correct 53 1024 dprec demax mode_NE (drint (dmul t d1e9)) d1e9 NZ) as D. fold (ddiv (drint (dmul t d1e9)) d1e9) in D. rewrite NE, val_1e9 in D. replace (1000000000 / 1000000000) with 1 in D by lra. rewrite rnd_1 in D.
  rewrite Rlt_bool_true in D. 2:{ pose proof big. rewrite Rabs_R1. lra. }
  destruct D as (DV & DF & _). rewrite NF in DF. rewrite Beqb_correct by auto. rewrite DV, val_d1. apply Req_bool_true. reflexivity.
Qed.

Lemma total_near : forall s, fin s = true -> 0 <= val s <= 1 -> forall f, fin f = true -> val f = rnd (1 - val s) -> fin (dadd s f) = true /\ Rabs (val (dadd s f) - 1) <= / 1000000000000.
Proof.
  intros s F [P L] f Ff V.
  assert (E : Rabs (rnd (1 - val s) - (1 - val s)) <= bpow radix2 (0 - 53)) by (apply rnd_err; [lia|]; change (bpow radix2 0) with 1; apply Rabs_le; lra).
  assert (B53 : bpow radix2 (0 - 53) <= / 4000000000000) by (unfold bpow; cbn; lra). apply Rabs_le_inv in E.
  assert (E2 : Rabs (rnd (val s + val f) - (val s + val f)) <= bpow radix2 (1 - 53)) by (apply rnd_err; [lia|]; change (bpow radix2 1) with 2; rewrite V; apply Rabs_le; lra).
  assert (B52 : bpow radix2 (1 - 53) <= / 4000000000000) by (unfold bpow; cbn; lra). apply Rabs_le_inv in E2.
  destruct (dadd_ok s f F Ff) as [V' F']. { pose proof big. rewrite V in *. apply Rabs_lt. lra. } split; [exact F'|]. rewrite V'. rewrite V in *. apply Rabs_le. lra.
Qed.

Lemma dsum_snoc : forall l x, dsum (l ++ [x]) = dadd (dsum l) x. Proof. intros. unfold dsum. rewrite fold_left_app. reflexivity. Qed.
Lemma dsum_nonneg : forall l, forallb entry_ok l = true -> fin (dsum l) = true -> 0 <= val (dsum l).
Proof.
  intros l. induction l as [|x l IH] using rev_ind; intros H F; [unfold dsum; simpl; lra|]. rewrite dsum_snoc in *. rewrite forallb_app in H. apply andb_true_iff in H. destruct H as [H1 H2]. cbn [forallb] in H2. rewrite andb_true_r in H2.
  destruct (dadd_fin _ _ F) as [F1 F2]. destruct (dadd_val _ _ F) as [V _]. rewrite V. rewrite <- rnd_0. apply rnd_le. specialize (IH H1 F1). apply (entry_R x F2) in H2. lra.
Qed.
Lemma s_nonneg : forall ps pt, forallb entry_ok ps = true -> entry_ok pt = true -> fin (dadd pt (dsum ps)) = true -> 0 <= val (dadd pt (dsum ps)).
Proof.
  intros ps pt H1 H2 F. destruct (dadd_fin _ _ F) as [F1 F2]. destruct (dadd_val _ _ F) as [V _]. rewrite V. rewrite <- rnd_0. apply rnd_le. pose proof (dsum_nonneg ps H1 F2). apply (entry_R pt F1) in H2. lra.
Qed.
