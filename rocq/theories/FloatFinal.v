(** Rows of doubles: when materialised rows are accepted. *)
From Coq Require Import List ZArith Bool Reals Lia Lra.
From Flocq Require Import Core BinarySingleNaN Plus_error.
From Verif Require Import FloatRow FloatProofs SpecFloatRow.
Import ListNotations.
Local Open Scope R_scope.

Definition dcap : double := dmake (2 ^ 53) 0.
Lemma val_cap : val dcap = bpow radix2 53.
Proof. rewrite <- SF2R_B2SF. replace (B2SF dcap) with (SpecFloat.S754_finite false (2 ^ 52) 1) by (vm_compute; reflexivity). unfold SF2R, F2R. cbn -[IZR]. lra. Qed.
Lemma rnd_cap : rnd (bpow radix2 53 + 1) = bpow radix2 53.
Proof.
  assert (E : dadd dcap d1 = dcap) by (apply B2SF_inj; vm_compute; reflexivity).
  destruct (dadd_val dcap d1) as [V _]; [rewrite E; reflexivity|]. rewrite E, val_cap, val_d1 in V. symmetry. exact V.
Qed.
Lemma cap_big : bpow radix2 53 < bpow radix2 1024. Proof. apply bpow_lt. lia. Qed.

(** Adding numbers between zero and one never overflows. *)
Lemma add_capped : forall a b, fin a = true -> fin b = true -> 0 <= val a <= bpow radix2 53 -> 0 <= val b <= 1 ->
  fin (dadd a b) = true /\ val (dadd a b) = rnd (val a + val b) /\ 0 <= val (dadd a b) <= bpow radix2 53.
Proof.
  intros a b Fa Fb Ha Hb. assert (B : 0 <= rnd (val a + val b) <= bpow radix2 53).
  { split; [rewrite <- rnd_0; apply rnd_le; lra|rewrite <- rnd_cap; apply rnd_le; lra]. }
  pose proof cap_big. destruct (dadd_ok a b Fa Fb) as [V F]; [apply Rabs_lt; lra|]. rewrite V. auto.
Qed.
Lemma dsum_capped : forall l, forallb entry_ok l = true -> fin (dsum l) = true /\ 0 <= val (dsum l) <= bpow radix2 53.
Proof.
  intros l. induction l as [|x l IH] using rev_ind; intros H.
  - unfold dsum. cbn [fold_left]. rewrite val_d0. split; [reflexivity|]. pose proof (bpow_ge_0 radix2 53). lra.
  - rewrite forallb_app in H. apply andb_true_iff in H. destruct H as [H1 H2]. cbn [forallb] in H2. rewrite andb_true_r in H2. destruct (IH H1) as [F B]. pose proof (entry_fin x H2) as Fx. apply (entry_R x Fx) in H2.
    rewrite dsum_snoc. destruct (add_capped (dsum l) x F Fx B H2) as (A & _ & C). auto.
Qed.
Lemma s_fin : forall ps pt, forallb entry_ok ps = true -> entry_ok pt = true -> fin (dadd pt (dsum ps)) = true.
Proof.
  intros ps pt H1 H2. destruct (dsum_capped ps H1) as [F B]. pose proof (entry_fin pt H2) as Ft. apply (entry_R pt Ft) in H2. destruct (add_capped (dsum ps) pt F Ft B H2) as (A & _). apply (dadd_comm _ _ A).
Qed.

Lemma snoc2 : forall (ps : list double) a b, ps ++ [a; b] = (ps ++ [a]) ++ [b]. Proof. intros. rewrite <- app_assoc. reflexivity. Qed.
Lemma swap_sum : forall ps pt, forallb entry_ok ps = true -> entry_ok pt = true -> fin (dsum (ps ++ [pt])) = true /\ val (dsum (ps ++ [pt])) = val (dadd pt (dsum ps)).
Proof. intros ps pt H1 H2. rewrite dsum_snoc. apply dadd_comm. apply s_fin; auto. Qed.

Lemma sum_with_fail : forall ps pt, forallb entry_ok ps = true -> entry_ok pt = true -> val (dadd pt (dsum ps)) <= 1 ->
  sum_ok (subsys_row ps pt) = true.
Proof.
  intros ps pt H1 H2 L. pose proof (s_fin ps pt H1 H2) as F. pose proof (s_nonneg ps pt H1 H2 F) as P. destruct (swap_sum ps pt H1 H2) as [Fs Vs]. destruct (dsub_ok _ F P) as [Ff Vf].
  unfold sum_ok, subsys_row. rewrite snoc2, dsum_snoc. rewrite <- Vs in *. destruct (total_near (dsum (ps ++ [pt])) Fs (conj P L) _ Ff Vf) as [A B]. apply round9_near; auto.
Qed.

Lemma subsys_row_iff : forall ps pt, forallb entry_ok ps = true -> entry_ok pt = true -> row_ok (subsys_row ps pt) = Bleb (dadd pt (dsum ps)) d1.
Proof.
  intros ps pt H1 H2. pose proof (s_fin ps pt H1 H2) as F. pose proof (s_nonneg ps pt H1 H2 F) as P. pose proof (fail_entry _ F P) as E. rewrite <- (le1_R _ F) in E.
  unfold row_ok. assert (X : forallb entry_ok (subsys_row ps pt) = entry_ok (dsub d1 (dadd pt (dsum ps)))) by (unfold subsys_row; rewrite forallb_app; cbn [forallb]; rewrite H1, H2, andb_true_r; reflexivity).
  rewrite X. destruct (Bleb (dadd pt (dsum ps)) d1) eqn:L.
  - rewrite (proj2 E eq_refl), andb_true_r. apply sum_with_fail; auto. apply (le1_R _ F). exact L.
  - destruct (entry_ok (dsub d1 (dadd pt (dsum ps)))); [discriminate (proj1 E eq_refl)|apply andb_false_r].
Qed.

Lemma lt_R : forall a b, fin a = true -> fin b = true -> Bltb a b = Rlt_bool (val a) (val b). Proof. intros. apply Bltb_correct; auto. Qed.
Lemma fail_pos : forall ps pt, forallb entry_ok ps = true -> entry_ok pt = true -> Bltb d0 (reduce_fail ps pt) = Bltb (dadd pt (dsum ps)) d1.
Proof.
  intros ps pt H1 H2. pose proof (s_fin ps pt H1 H2) as F. pose proof (s_nonneg ps pt H1 H2 F) as P. destruct (dsub_ok _ F P) as [Ff Vf]. unfold reduce_fail. rewrite !lt_R by auto. rewrite Vf, val_d0, val_d1.
  destruct (Rlt_bool_spec (val (dadd pt (dsum ps))) 1) as [L|L].
  - apply Rlt_bool_true. assert (X : rnd (1 + - val (dadd pt (dsum ps))) <> 0).
    { apply round_plus_neq_0; auto with typeclass_instances. - rewrite <- val_d1. apply generic_format_B2R. - apply generic_format_opp. apply generic_format_B2R. - lra. }
    assert (Y : 0 <= rnd (1 - val (dadd pt (dsum ps)))) by (rewrite <- rnd_0; apply rnd_le; lra). unfold Rminus in *. lra.
  - apply Rlt_bool_false. rewrite <- rnd_0. apply rnd_le. lra.
Qed.

Lemma zero_entry : forall pt, entry_ok pt = true -> Bltb d0 pt = false -> exists b, pt = B754_zero b.
Proof.
  intros pt H L. pose proof (entry_fin pt H) as F. apply (entry_R pt F) in H. rewrite lt_R in L by auto. rewrite val_d0 in L. destruct (Rlt_bool_spec 0 (val pt)) as [A|A]; [discriminate|].
  assert (Z : val pt = 0) by lra. destruct pt as [b|b| |b m e Hm]; try discriminate; [exists b; reflexivity|]. exfalso. cbn in Z. revert Z. destruct b; intros Z; apply eq_0_F2R in Z; cbn in Z; discriminate.
Qed.
Lemma add_zero_val : forall x b, fin x = true -> fin (dadd x (B754_zero b)) = true /\ val (dadd x (B754_zero b)) = val x.
Proof.
  intros x b F. destruct (dadd_ok x (B754_zero b) F eq_refl) as [V F'].
  - cbn [B2R]. rewrite Rplus_0_r, rnd_id. apply abs_B2R_lt_emax.
  - split; [exact F'|]. rewrite V. cbn [B2R]. rewrite Rplus_0_r. apply rnd_id.
Qed.
Lemma fin_nz_eq : forall x y : double, fin x = true -> fin y = true -> val x = val y -> val x <> 0 -> x = y.
Proof. intros x y Fx Fy E NZ. apply B2R_inj; auto; rewrite is_finite_strict_B2R; auto. rewrite <- E. auto. Qed.

(** The row of a reduced system without a transition to fail has the sum of
    the original one. *)
Lemma reduce_row_iff : forall ps pt, forallb entry_ok ps = true -> entry_ok pt = true ->
  row_ok (reduce_row ps pt) = Bltb (dadd pt (dsum ps)) d1 || row_ok (ps ++ [pt]).
Proof.
  intros ps pt H1 H2. pose proof (s_fin ps pt H1 H2) as F. pose proof (s_nonneg ps pt H1 H2 F) as P. pose proof (fail_pos ps pt H1 H2) as FP. destruct (dsub_ok _ F P) as [Ff Vf]. pose proof (fail_entry _ F P) as FE.
  destruct (swap_sum ps pt H1 H2) as [Fs Vs]. destruct (dsum_capped ps H1) as [Fp Bp].
  unfold reduce_row. rewrite FP. destruct (Bltb (dadd pt (dsum ps)) d1) eqn:L.
  - cbn [orb]. rewrite lt_R in L by auto. rewrite val_d1 in L. destruct (Rlt_bool_spec (val (dadd pt (dsum ps))) 1) as [L'|]; [clear L|discriminate].
    assert (E : entry_ok (reduce_fail ps pt) = true) by (apply FE; lra).
    unfold row_ok. apply andb_true_iff. split.
    + destruct (Bltb d0 pt) eqn:T.
      * cbn [app]. apply (sum_with_fail ps pt); auto. lra.
      * destruct (zero_entry pt H2 T) as [b ->]. cbn [app]. unfold sum_ok. rewrite dsum_snoc in *. destruct (add_zero_val (dsum ps) b Fp) as [_ Z]. rewrite Z in Vs.
        assert (Q : 0 <= val (dsum ps) <= 1) by lra. fold (reduce_fail ps (B754_zero b)) in Ff, Vf. rewrite <- Vs in Vf. destruct (total_near (dsum ps) Fp Q (reduce_fail ps (B754_zero b)) Ff Vf) as [A B]. apply round9_near; auto.
    + rewrite forallb_app, H1. destruct (Bltb d0 pt); cbn [app forallb]; rewrite ?H2, E; reflexivity.
  - cbn [orb]. rewrite app_nil_r. destruct (Bltb d0 pt) eqn:T; [reflexivity|]. rewrite app_nil_r. destruct (zero_entry pt H2 T) as [b ->]. rewrite lt_R in L by auto. rewrite val_d1 in L. destruct (Rlt_bool_spec (val (dadd (B754_zero b) (dsum ps))) 1) as [|L']; [discriminate|].
    unfold row_ok, sum_ok. rewrite forallb_app, H1. cbn [forallb]. rewrite H2. f_equal. f_equal. f_equal. rewrite dsum_snoc in *. destruct (add_zero_val (dsum ps) b Fp) as [A Z]. apply fin_nz_eq; auto; lra.
Qed.
Lemma accepted_entries : forall ps pt, row_ok (ps ++ [pt]) = true -> forallb entry_ok ps = true /\ entry_ok pt = true.
Proof. intros ps pt H. unfold row_ok in H. apply andb_true_iff in H. destruct H as [_ H]. rewrite forallb_app in H. apply andb_true_iff in H. cbn [forallb] in H. rewrite andb_true_r in H. exact H. Qed.

(** Distance of the computed sum from the exact one. *)
Lemma add_err : forall a b, fin a = true -> fin b = true -> 0 <= val a -> 0 <= val b <= 1 -> val a + val b <= 2 -> fin (dadd a b) = true /\ Rabs (val (dadd a b) - (val a + val b)) <= bpow radix2 (-52).
Proof.
  intros a b Fa Fb Ha Hb L. assert (C : bpow radix2 1 <= bpow radix2 53) by (apply bpow_le; lia). change (bpow radix2 1) with 2 in C.
  destruct (add_capped a b Fa Fb) as (F & V & _); [lra|lra|]. split; [exact F|]. rewrite V. apply (rnd_err _ 1); [lia|]. change (bpow radix2 1) with 2. apply Rabs_le. lra.
Qed.
Lemma exact_app : forall a b, exact_sum (a ++ b) = exact_sum a + exact_sum b.
Proof. intros a b. induction a as [|x a IH]; cbn [app exact_sum]; [|rewrite IH]; lra. Qed.
Lemma exact_nonneg : forall l, forallb entry_ok l = true -> 0 <= exact_sum l.
Proof. intros l. induction l as [|x l IH]; cbn [forallb exact_sum]; intros H; [lra|]. apply andb_true_iff in H. destruct H as [A B]. pose proof (entry_fin x A) as F. apply (entry_R x F) in A. specialize (IH B). unfold dval. lra. Qed.
Lemma dsum_err : forall l, forallb entry_ok l = true -> exact_sum l <= 3 / 2 -> INR (length l) * bpow radix2 (-52) <= / 4 -> Rabs (val (dsum l) - exact_sum l) <= INR (length l) * bpow radix2 (-52).
Proof.
  intros l. induction l as [|x l IH] using rev_ind; intros H E N.
  - unfold dsum. cbn [fold_left exact_sum length INR]. rewrite val_d0, Rminus_0_r, Rabs_R0. lra.
  - rewrite forallb_app in H. apply andb_true_iff in H. destruct H as [H1 H2]. cbn [forallb] in H2. rewrite andb_true_r in H2. pose proof (entry_fin x H2) as Fx. apply (entry_R x Fx) in H2.
    rewrite exact_app in *. cbn [exact_sum] in *. unfold dval in *. rewrite app_length in *. rewrite plus_INR in *. cbn [length INR] in *. rewrite Rplus_0_r in *. pose proof (bpow_ge_0 radix2 (-52)) as B. set (e := bpow radix2 (-52)) in *. rewrite Rmult_plus_distr_r, Rmult_1_l in *.
    assert (I := IH H1 ltac:(lra) ltac:(lra)). apply Rabs_le_inv in I. destruct (dsum_capped l H1) as [F C]. rewrite dsum_snoc.
    destruct (add_err (dsum l) x F Fx) as [_ D]; [lra|lra|lra|]. apply Rabs_le_inv in D. fold e in D. apply Rabs_le. lra.
Qed.
Lemma fail_err : forall ps pt, forallb entry_ok ps = true -> entry_ok pt = true -> exact_sum (ps ++ [pt]) <= 3 / 2 -> (Z.of_nat (length ps) < 2 ^ 49)%Z ->
  Rabs (val (reduce_fail ps pt) - (1 - exact_sum (ps ++ [pt]))) <= INR (length ps + 2) * bpow radix2 (-52).
Proof.
  intros ps pt H1 H2 E N. pose proof (entry_fin pt H2) as Ft. pose proof (proj1 (entry_R pt Ft) H2) as Bt. destruct (dsum_capped ps H1) as [Fp Bp]. pose proof (s_fin ps pt H1 H2) as F. pose proof (s_nonneg ps pt H1 H2 F) as P.
  rewrite exact_app in *. cbn [exact_sum] in *. unfold dval in *. rewrite Rplus_0_r in *. pose proof (bpow_ge_0 radix2 (-52)) as B. assert (E52 : bpow radix2 (-52) * 4503599627370496 = 1) by (unfold bpow; cbn -[IZR]; lra).
  assert (NN : INR (length ps) <= 562949953421311) by (rewrite INR_IZR_INZ; apply IZR_le; lia).
  assert (Q : INR (length ps) * bpow radix2 (-52) <= 562949953421311 * bpow radix2 (-52)) by (apply Rmult_le_compat_r; auto).
  assert (D := dsum_err ps H1 ltac:(lra) ltac:(lra)). apply Rabs_le_inv in D. rewrite plus_INR. cbn [INR]. set (e := bpow radix2 (-52)) in *. set (n := INR (length ps)) in *. pose proof (exact_nonneg ps H1).
  destruct (add_err (dsum ps) pt Fp Ft) as [F' A]; [lra|lra|lra|]. destruct (dadd_comm _ _ F') as [_ S]. rewrite <- S in A. apply Rabs_le_inv in A. fold e in A.
  destruct (dsub_ok _ F P) as [Ff Vf]. unfold reduce_fail. rewrite Vf.
  assert (G : Rabs (rnd (1 - val (dadd pt (dsum ps))) - (1 - val (dadd pt (dsum ps)))) <= bpow radix2 (1 - 53)) by (apply rnd_err; [lia|]; change (bpow radix2 1) with 2; apply Rabs_le; lra).
  change (1 - 53)%Z with (-52)%Z in G. fold e in G. apply Rabs_le_inv in G. apply Rabs_le. rewrite Rmult_plus_distr_r. lra.
Qed.

Lemma reduce_accepted : forall ps pt, row_ok (ps ++ [pt]) = true -> row_ok (reduce_row ps pt) = true.
Proof. intros ps pt H. destruct (accepted_entries ps pt H) as [H1 H2]. rewrite reduce_row_iff by auto. rewrite H. apply orb_true_r. Qed.
Lemma lossy_accepted : forall ps pt, forallb entry_ok (ps ++ [pt]) = true -> (Z.of_nat (length ps) < 2 ^ 49)%Z ->
  exact_sum (ps ++ [pt]) <= 1 - INR (length ps + 1) * bpow radix2 (-52) -> row_ok (subsys_row ps pt) = true.
Proof.
  intros ps pt H N E. rewrite forallb_app in H. apply andb_true_iff in H. destruct H as [H1 H2]. cbn [forallb] in H2. rewrite andb_true_r in H2. rewrite subsys_row_iff by auto. apply (le1_R _ (s_fin ps pt H1 H2)).
  pose proof (entry_fin pt H2) as Ft. pose proof (proj1 (entry_R pt Ft) H2) as Bt. destruct (dsum_capped ps H1) as [Fp Bp].
  rewrite exact_app in *. cbn [exact_sum] in *. unfold dval in *. rewrite Rplus_0_r in *. pose proof (bpow_ge_0 radix2 (-52)) as B. assert (E52 : bpow radix2 (-52) * 4503599627370496 = 1) by (unfold bpow; cbn -[IZR]; lra).
  assert (NN : INR (length ps) <= 562949953421311) by (rewrite INR_IZR_INZ; apply IZR_le; lia). pose proof (pos_INR (length ps)) as N0.
  assert (Q : 0 * bpow radix2 (-52) <= INR (length ps) * bpow radix2 (-52) <= 562949953421311 * bpow radix2 (-52)) by (split; apply Rmult_le_compat_r; auto).
  rewrite plus_INR, Rmult_plus_distr_r in E. cbn [INR] in E.
  assert (D := dsum_err ps H1 ltac:(lra) ltac:(lra)). apply Rabs_le_inv in D. set (e := bpow radix2 (-52)) in *. set (n := INR (length ps)) in *. pose proof (exact_nonneg ps H1).
  destruct (add_err (dsum ps) pt Fp Ft) as [F' A]; [lra|lra|lra|]. destruct (dadd_comm _ _ F') as [_ S]. rewrite <- S in A. apply Rabs_le_inv in A. fold e in A. lra.
Qed.

(** Witnesses. *)
Definition w_sub : list double := [dmake (2 ^ 53 + 2) (-54); dmake 1 (-54); dmake 3 (-54); dmake 3 (-54)].
Definition w_sub_t : double := dmake (2 ^ 53 - 9) (-54).
Definition w_red : list double := [dmake (2 ^ 55 - 4) (-55); dmake 1 (-55); dmake 1 (-55); dmake 1 (-55)].
Definition w_red_t : double := dmake 1 (-55).
Ltac dcalc := match goal with |- context [@B2R 53 1024 ?d] => rewrite <- (@SF2R_B2SF 53 1024 d); let v := eval vm_compute in (B2SF d) in replace (B2SF d) with v by (vm_compute; reflexivity) end.
Lemma w_sub_sum : exact_sum (w_sub ++ [w_sub_t]) = 1.
Proof. unfold w_sub, w_sub_t. cbn [app exact_sum]. unfold dval. repeat dcalc. unfold SF2R, F2R. cbn -[IZR]. lra. Qed.
Lemma w_red_sum : exact_sum (w_red ++ [w_red_t]) = 1.
Proof. unfold w_red, w_red_t. cbn [app exact_sum]. unfold dval. repeat dcalc. unfold SF2R, F2R. cbn -[IZR]. lra. Qed.
Lemma sub_refuted : exists ps pt, exact_sum (ps ++ [pt]) = 1 /\ row_ok (ps ++ [pt]) = true /\ row_ok (subsys_row ps pt) = false.
Proof. exists w_sub, w_sub_t. split; [apply w_sub_sum|]. split; vm_compute; reflexivity. Qed.
Lemma red_refuted : exists ps pt, exact_sum (ps ++ [pt]) = 1 /\ row_ok (ps ++ [pt]) = true /\ Bltb d0 (reduce_fail ps pt) = true /\ reduce_row ps pt = ps ++ [pt; reduce_fail ps pt].
Proof.
  exists w_red, w_red_t. assert (E : Bltb d0 (reduce_fail w_red w_red_t) = true) by (vm_compute; reflexivity). split; [apply w_red_sum|]. split; [vm_compute; reflexivity|]. split; [exact E|].
  unfold reduce_row. rewrite E. replace (Bltb d0 w_red_t) with true by (vm_compute; reflexivity). reflexivity.
Qed.
