(** The check in double precision against the check in exact numbers: the lemmas of C97 and C98. *)
From Coq Require Import String List Arith ZArith QArith Qreals Reals Bool Lia Lra Permutation.
From Coq Require Lqa.
From Flocq Require Import Core BinarySingleNaN.
From Verif Require Import Base BaseFacts Num Matrix MatFacts Graph SpecMdp SpecSystem SpecEc SpecForm SpecBuilt SpecProb SpecNear SumFacts Amdp AmdpProofs
  ReachForm ReachFormProofs RfFacts FarkProofs BuiltFacts RfBridge Milp SpecLp Certificates CertProofs FloatRow SpecFloatRow FloatProofs FloatCheck SpecFloatCheck
  FloatCheckProofs FloatCheckProofs2 FloatCheckProofs3 NearProofs.
Import ListNotations.
Local Open Scope nat_scope.

Lemma forallb_combine_d : forall (f : double * double -> bool) (l1 l2 : list double), length l1 = length l2 ->
  (forallb f (combine l1 l2) = true <-> forall i, i < length l1 -> f (nth i l1 d0, nth i l2 d0) = true).
Proof.
  intros f. induction l1 as [|a l1 IH]; intros [|b l2] HL; cbn [length combine forallb] in *; try discriminate.
  - split; auto. intros; lia.
  - rewrite andb_true_iff, IH by lia. split.
    + intros [H1 H2] [|i] Hi; auto. apply H2. lia.
    + intros H. split; [apply (H 0); lia|]. intros i Hi. apply (H (S i)). lia.
Qed.
Lemma abs_le : forall x y, (Rabs x <= y -> - y <= x <= y)%R.
Proof. intros x y H. unfold Rabs in H. destruct (Rcase_abs x); lra. Qed.

Lemma q_err : forall N (B : Q), Q2R (round_err N B) = (8 * (INR N * INR N) * (u * Q2R B))%R.
Proof.
  intros N B. unfold round_err. rewrite !Q2R_mult, Q2R_inject, Nat2Z.inj_mul, mult_IZR, <- INR_IZR_INZ. rewrite u_val. replace (Q2R (1 # (2 ^ 50))) with (/ 1125899906842624)%R by (unfold Q2R; cbn [Qnum Qden]; change (2 ^ 50)%positive with 1125899906842624%positive; lra). lra.
Qed.
Lemma q_plus : forall a b, Q2R (a + b) = (Q2R a + Q2R b)%R. Proof. apply Q2R_plus. Qed.

Section Cmp.
  Variables (arr : nat -> list (nat * double) -> list (nat * double)) (v : list double) (tol : double) (B : Q) (N D : nat).
  Variables (A : list (list double)) (b : list double) (A' : list (list Q)) (b' : list Q).
  Hypothesis AR : arrangement arr.
  Hypothesis B1 : (1 <= Q2R B)%R.
  Hypothesis B2 : (Q2R B <= bpow radix2 500)%R.
  Hypothesis V : forall x, In x v -> fin x = true /\ (Rabs (val x) <= Q2R B)%R.
  Hypothesis FT : fin tol = true.
  Hypothesis TT : (0 <= val tol <= Q2R B)%R.
  Hypothesis N4 : 4 <= N.
  Hypothesis NB : (INR N <= 16777216)%R.
  Hypothesis MR : matrel D A A'.
  Hypothesis RR : rhsrel b b'.
  Hypothesis LL : length A = length b.
  Hypothesis HV : length v = D.
  Hypothesis HD : D <= N.
  Let vq := map dq v.
  Let err := round_err N B.
  Let R := fmat_vec arr A v.
  Let R' := mat_vec A' vq.

  Lemma len_R : length R = length A. Proof. unfold R, fmat_vec. rewrite map_length, seq_length. reflexivity. Qed.
  Lemma len_A' : length A' = length A. Proof. destruct MR as [X _]. auto. Qed.
  Lemma len_R' : length R' = length A. Proof. unfold R'. rewrite mat_vec_length. apply len_A'. Qed.
  Lemma len_b' : length b' = length A. Proof. destruct RR as [X _]. lia. Qed.
  Lemma lines : forall k, k < length A ->
    fin (dadd (nth k R d0) tol) = true /\ fin (dsub (nth k R d0) tol) = true /\ fin (nth k b d0) = true /\ val (nth k b d0) = Q2R (nth k b' 0%Q) /\
    (Rabs (val (dadd (nth k R d0) tol) - (Q2R (nth k R' 0%Q) + Q2R (dq tol))) <= Q2R err)%R /\
    (Rabs (val (dsub (nth k R d0) tol) - (Q2R (nth k R' 0%Q) - Q2R (dq tol))) <= Q2R err)%R.
  Proof.
    intros k Hk. unfold R. unfold fmat_vec. rewrite nth_map_seq by exact Hk. unfold R'. rewrite mat_vec_nth by (rewrite len_A'; exact Hk).
    destruct MR as [_ MR']. destruct (MR' k Hk) as [RW LW]. destruct RR as [_ RR']. destruct (RR' k ltac:(lia)) as [F1 F2].
    destruct (line_err v (Q2R B) B1 B2 V (nth k A []) (nth k A' []) (arr k (stored (nth k A []))) N tol RW ltac:(lia) (AR k _) ltac:(lia) N4 NB FT TT) as [[X1 X2] [Y1 Y2]].
    unfold err. rewrite q_err, dq_val. repeat (split; [assumption|]). assumption.
  Qed.
  Lemma ge_fwd : fall_ge tol R b = true -> all_ge (dq tol + err)%Q R' b' = true.
  Proof.
    unfold fall_ge. rewrite forallb_combine_d by (rewrite len_R; exact LL). rewrite all_ge_iff by (rewrite len_R', len_b'; reflexivity). rewrite len_R, len_R'. intros H k Hk. specialize (H k Hk). cbn [fst snd] in H.
    destruct (lines k Hk) as (F1 & F2 & F3 & E & D1 & D2). rewrite fle_iff in H by auto. apply abs_le in D1. apply Rle_Qle. rewrite !q_plus. lra.
  Qed.
  Lemma ge_bwd : all_ge (dq tol - err)%Q R' b' = true -> fall_ge tol R b = true.
  Proof.
    unfold fall_ge. rewrite forallb_combine_d by (rewrite len_R; exact LL). rewrite all_ge_iff by (rewrite len_R', len_b'; reflexivity). rewrite len_R, len_R'. intros H k Hk. specialize (H k Hk). cbn [fst snd].
    destruct (lines k Hk) as (F1 & F2 & F3 & E & D1 & D2). rewrite fle_iff by auto. apply abs_le in D1. apply Qle_Rle in H. rewrite q_plus, Q2R_minus in H. lra.
  Qed.
  Lemma le_fwd : fall_le tol R b = true -> all_le (dq tol + err)%Q R' b' = true.
  Proof.
    unfold fall_le. rewrite forallb_combine_d by (rewrite len_R; exact LL). rewrite all_le_iff by (rewrite len_R', len_b'; reflexivity). rewrite len_R, len_R'. intros H k Hk. specialize (H k Hk). cbn [fst snd] in H.
    destruct (lines k Hk) as (F1 & F2 & F3 & E & D1 & D2). rewrite fle_iff in H by auto. apply abs_le in D2. apply Rle_Qle. rewrite Q2R_minus, q_plus. lra.
  Qed.
  Lemma le_bwd : all_le (dq tol - err)%Q R' b' = true -> fall_le tol R b = true.
  Proof.
    unfold fall_le. rewrite forallb_combine_d by (rewrite len_R; exact LL). rewrite all_le_iff by (rewrite len_R', len_b'; reflexivity). rewrite len_R, len_R'. intros H k Hk. specialize (H k Hk). cbn [fst snd].
    destruct (lines k Hk) as (F1 & F2 & F3 & E & D1 & D2). rewrite fle_iff by auto. apply abs_le in D2. apply Qle_Rle in H. rewrite !Q2R_minus in H. lra.
  Qed.
  Lemma verdict_fwd : forall s, 0 < length A -> fverdict s tol R b (length A - 1) = true -> verdict s (dq tol + err)%Q R' b' (length A - 1) = true.
  Proof.
    intros s LP. destruct (lines (length A - 1) ltac:(lia)) as (F1 & F2 & F3 & E & D1 & D2). apply abs_le in D1. apply abs_le in D2. destruct s; cbn [fverdict verdict].
    - apply ge_fwd.
    - intros H. apply andb_true_iff in H. destruct H as [H1 H2]. rewrite (ge_fwd H1). cbn [andb]. apply Qlt_bool_iff. rewrite flt_iff in H2 by auto. apply Rlt_Qlt. rewrite !q_plus. lra.
    - apply le_fwd.
    - intros H. apply andb_true_iff in H. destruct H as [H1 H2]. rewrite (le_fwd H1). cbn [andb]. apply Qlt_bool_iff. rewrite flt_iff in H2 by auto. apply Rlt_Qlt. rewrite Q2R_minus, q_plus. lra.
    - discriminate.
  Qed.
  Lemma verdict_bwd : forall s, 0 < length A -> verdict s (dq tol - err)%Q R' b' (length A - 1) = true -> fverdict s tol R b (length A - 1) = true.
  Proof.
    intros s LP. destruct (lines (length A - 1) ltac:(lia)) as (F1 & F2 & F3 & E & D1 & D2). apply abs_le in D1. apply abs_le in D2. destruct s; cbn [fverdict verdict].
    - apply ge_bwd.
    - intros H. apply andb_true_iff in H. destruct H as [H1 H2]. rewrite (ge_bwd H1). cbn [andb]. apply Qlt_bool_iff in H2. rewrite flt_iff by auto. apply Qlt_Rlt in H2. rewrite q_plus, Q2R_minus in H2. lra.
    - apply le_bwd.
    - intros H. apply andb_true_iff in H. destruct H as [H1 H2]. rewrite (le_bwd H1). cbn [andb]. apply Qlt_bool_iff in H2. rewrite flt_iff by auto. apply Qlt_Rlt in H2. rewrite !Q2R_minus in H2. lra.
    - discriminate.
  Qed.
End Cmp.

Lemma C97_lemma : forall rf pd arr, built_form rf -> double_form rf pd -> arrangement arr ->
  let n := a_N (rf_sys rf) + a_C (rf_sys rf) in (Z.of_nat n <= 2 ^ 24)%Z ->
  forall md s t v tol B, finite t -> finite tol -> (0 <= dval tol)%R -> (dval tol <= Q2R B)%R -> (1 <= B)%Q -> (B <= inject_Z (2 ^ 500))%Q ->
  (forall x, In x v -> finite x /\ (Rabs (dval x) <= Q2R B)%R) ->
  let err := round_err n B in
  (fcheck arr rf pd md s t v tol = Ok true -> check_farkas rf md s (dq t) (map dq v) (dq tol + err) = Ok true) /\
  (check_farkas rf md s (dq t) (map dq v) (dq tol - err) = Ok true -> fcheck arr rf pd md s t v tol = Ok true) /\
  (forall e, fcheck arr rf pd md s t v tol = Err e <-> check_farkas rf md s (dq t) (map dq v) (dq tol) = Err e).
Proof.
  intros rf pd arr BF DF AR n HN md s t v tol B Ft Ftol T0 T1 B1 B2 HV err.
  pose proof (br_ro rf BF) as RO. pose proof (ro_N rf RO) as N2. pose proof (ro_C rf RO) as C2.
  assert (B1' : (1 <= Q2R B)%R) by (apply Qle_Rle in B1; replace (Q2R 1) with 1%R in B1 by (unfold Q2R; cbn; lra); exact B1).
  assert (B2' : (Q2R B <= bpow radix2 500)%R) by (apply Qle_Rle in B2; rewrite Q2R_inject in B2; exact B2).
  assert (NR : (INR n <= 16777216)%R) by (rewrite INR_IZR_INZ; apply (IZR_le _ 16777216); exact HN).
  destruct (sim rf pd BF DF arr md s t v tol Ft (fun x Hx => proj1 (HV x Hx))) as [(e & E1 & E2)|[(E1 & E2)|(A & b & A' & b' & D & MR & RR & LL & LP & LV & HD & HS & E1 & E2)]].
  - rewrite E1, !E2. split; [discriminate|]. split; [discriminate|]. intros e'. reflexivity.
  - rewrite E1, !E2. split; [discriminate|]. split; [discriminate|]. intros e'. split; discriminate.
  - rewrite E1, !E2. assert (DN : D <= n) by (unfold n; destruct HD as [-> | ->]; [change (rf_N rf) with (a_N (rf_sys rf) - 2)|change (rf_C rf) with (a_C (rf_sys rf) - 2)]; lia).
    assert (N4 : 4 <= n) by (unfold n; lia). split; [|split].
    + intros H. f_equal. injection H as H. eapply verdict_fwd; eauto.
    + intros H. f_equal. injection H as H. eapply verdict_bwd; eauto.
    + intros e'. split; discriminate.
Qed.

Lemma C98_lemma : forall M init, rf_mdp M init -> exists K, (0 <= K)%R /\
  forall rf pd arr delta, built_form rf -> rf_init rf = init -> near rf M delta -> (0 <= delta)%R -> double_form rf pd -> arrangement arr ->
  let n := a_N (rf_sys rf) + a_C (rf_sys rf) in (Z.of_nat n <= 2 ^ 24)%Z ->
  forall s t v tol B, finite t -> finite tol -> (0 <= dval tol)%R -> (dval tol <= Q2R B)%R -> (1 <= B)%Q -> (B <= inject_Z (2 ^ 500))%Q ->
  (forall x, In x v -> finite x /\ (Rabs (dval x) <= Q2R B)%R) ->
  let nonneg := forall x, In x v -> (0 <= dval x)%R in
  let e := (dval tol + Q2R (round_err n B) + INR n * (delta * Q2R B))%R in
  (s = FGe \/ s = FGt -> fcheck arr rf pd Min s t v tol = Ok true ->
     forall p, IsPrMin M (is_goal M) init p -> (dval t - K * e <= p)%R) /\
  (s = FLe \/ s = FLt -> fcheck arr rf pd Max s t v tol = Ok true ->
     forall p, IsPrMax M (is_goal M) init p -> (p <= dval t + K * e)%R) /\
  (s = FGe \/ s = FGt -> nonneg -> fcheck arr rf pd Max s t v tol = Ok true ->
     forall p, IsPrMax M (is_goal M) init p -> (dval t - K * e <= p)%R) /\
  (s = FLe \/ s = FLt -> nonneg -> init < a_N (rf_sys rf) - 2 -> fcheck arr rf pd Min s t v tol = Ok true ->
     forall p, IsPrMin M (is_goal M) init p -> (p <= dval t + K * e)%R).
Proof.
  intros M init RF. destruct (C96_lemma M init RF) as (K & K0 & H). exists K. split; [exact K0|].
  intros rf pd arr delta BF HI NE D0 DF AR n HN s t v tol B Ft Ftol T0 T1 B1 B2 HV nonneg e.
  assert (B1' : (1 <= Q2R B)%R) by (apply Qle_Rle in B1; replace (Q2R 1) with 1%R in B1 by (unfold Q2R; cbn; lra); exact B1).
  assert (E0 : (0 <= Q2R (round_err n B))%R). { rewrite q_err. pose proof (pos_INR n). pose proof u_pos. apply Rmult_le_pos; [|apply Rmult_le_pos; lra]. apply Rmult_le_pos; [lra|]. apply Rmult_le_pos; lra. }
  assert (Q0 : (0 <= dq tol + round_err n B)%Q). { apply Rle_Qle. rewrite q_plus, dq_val. replace (Q2R 0) with 0%R by (unfold Q2R; cbn; lra). unfold dval in T0. lra. }
  assert (VB : forall q, In q (map dq v) -> (Rabs (Q2R q) <= Q2R B)%R). { intros q Hq. apply in_map_iff in Hq. destruct Hq as (x & <- & Hx). rewrite dq_val. apply (HV x Hx). }
  assert (NN : nonneg -> forall i, i < a_C (rf_sys rf) - 2 -> (0 <= entry (map dq v) i)%Q).
  { intros X i _. unfold entry. destruct (nth_in_or_default i (map dq v) 0%Q) as [Y| ->]; [|apply Qle_refl]. apply in_map_iff in Y. destruct Y as (x & <- & Hx). apply Rle_Qle. rewrite dq_val. replace (Q2R 0) with 0%R by (unfold Q2R; cbn; lra). apply (X x Hx). }
  destruct (H rf delta BF HI NE D0 s (dq t) (map dq v) (dq tol + round_err n B)%Q (Q2R B) Q0 B1' VB) as (G1 & G2 & G3 & G4).
  assert (EE : (Q2R (dq tol + round_err n B) + INR (a_N (rf_sys rf) + a_C (rf_sys rf)) * (delta * Q2R B))%R = e) by (unfold e; rewrite q_plus, dq_val; reflexivity).
  rewrite EE, dq_val in G1, G2, G3, G4. change (val t) with (dval t) in *.
  assert (C : forall md, fcheck arr rf pd md s t v tol = Ok true -> check_farkas rf md s (dq t) (map dq v) (dq tol + round_err n B) = Ok true)
    by (intros md; apply (C97_lemma rf pd arr BF DF AR HN md s t v tol B Ft Ftol T0 T1 B1 B2 HV)).
  split; [|split; [|split]]; intros; [eapply G1|eapply G2|eapply G3|eapply G4]; eauto.
Qed.

Lemma forallb_weaken : forall A (f g : A -> bool) l, (forall x, f x = true -> g x = true) -> forallb f l = true -> forallb g l = true.
Proof. intros A f g l H. rewrite !forallb_forall. auto. Qed.
Lemma check_mono : forall rf md s t v tol tol', (tol <= tol')%Q -> check_farkas rf md s t v tol = Ok true -> check_farkas rf md s t v tol' = Ok true.
Proof.
  intros rf md s t v tol tol' L. unfold check_farkas. destruct (assert_ _) as [[]|]; cbn [bind]; [|auto]. destruct (right_constraint_set rf md s t) as [[[A b] D]|]; cbn [bind]; [|auto].
  destruct (assert_ _) as [[]|]; cbn [bind]; [|auto]. destruct (match md with Min => _ | _ => _ end) as [[|]|]; cbn [bind]; auto.
  assert (G : forall r b, all_ge tol r b = true -> all_ge tol' r b = true).
  { intros r b0. apply forallb_weaken. intros x. rewrite !Qle_bool_iff. intros. Lqa.lra. }
  assert (E : forall r b, all_le tol r b = true -> all_le tol' r b = true).
  { intros r b0. apply forallb_weaken. intros x. rewrite !Qle_bool_iff. intros. Lqa.lra. }
  destruct s; auto; intros H; injection H as H; f_equal; auto; apply andb_true_iff in H; destruct H as [H1 H2]; apply andb_true_iff; split; auto;
    rewrite Qlt_bool_iff in *; Lqa.lra.
Qed.

Lemma C99_lemma : forall rf pd arr1 arr2, built_form rf -> double_form rf pd -> arrangement arr1 -> arrangement arr2 ->
  let n := a_N (rf_sys rf) + a_C (rf_sys rf) in (Z.of_nat n <= 2 ^ 24)%Z ->
  forall md s t v tol1 tol2 B, finite t -> finite tol1 -> finite tol2 -> (0 <= dval tol1)%R -> (dval tol1 + 2 * Q2R (round_err n B) <= dval tol2)%R ->
  (dval tol2 <= Q2R B)%R -> (1 <= B)%Q -> (B <= inject_Z (2 ^ 500))%Q ->
  (forall x, In x v -> finite x /\ (Rabs (dval x) <= Q2R B)%R) ->
  fcheck arr1 rf pd md s t v tol1 = Ok true -> fcheck arr2 rf pd md s t v tol2 = Ok true.
Proof.
  intros rf pd arr1 arr2 BF DF A1 A2 n HN md s t v tol1 tol2 B Ft F1 F2 T0 T1 T2 B1 B2 HV H.
  assert (B1' : (1 <= Q2R B)%R) by (apply Qle_Rle in B1; replace (Q2R 1) with 1%R in B1 by (unfold Q2R; cbn; lra); exact B1).
  assert (E0 : (0 <= Q2R (round_err n B))%R). { rewrite q_err. pose proof (pos_INR n). pose proof u_pos. apply Rmult_le_pos; [|apply Rmult_le_pos; lra]. apply Rmult_le_pos; [lra|]. apply Rmult_le_pos; lra. }
  destruct (C97_lemma rf pd arr1 BF DF A1 HN md s t v tol1 B Ft F1 T0 ltac:(lra) B1 B2 HV) as (G1 & _ & _).
  destruct (C97_lemma rf pd arr2 BF DF A2 HN md s t v tol2 B Ft F2 ltac:(lra) T2 B1 B2 HV) as (_ & G2 & _).
  apply G2. apply (check_mono rf md s (dq t) (map dq v) (dq tol1 + round_err n B)%Q); [|apply G1; exact H].
  apply Rle_Qle. rewrite q_plus, Q2R_minus, !dq_val. unfold dval in *. fold n. lra.
Qed.
