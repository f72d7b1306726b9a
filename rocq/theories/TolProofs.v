(** The bound given by a certificate accepted with a tolerance. *)
From Coq Require Import String List Arith ZArith QArith Qreals Reals Bool Lia Lra.
From Coq Require Lqa.
From Verif Require Import Base BaseFacts Num Matrix SpecMdp SpecSystem SpecEc SpecForm SpecBuilt SpecProb SumFacts MdpValue RfTheory Amdp ReachForm BuiltFacts
  RfFacts RfBridge Milp SpecLp Certificates CertProofs SccSpec TolTheory.
Import ListNotations.
Local Open Scope nat_scope.

(** [K] bounds the error of every vector that satisfies the constraints over
    [M] up to a tolerance. *)
Definition tol_factor (M : mdp) (SH : shape_mdp M) (K : R) : Prop :=
  (0 <= K)%R /\
  (forall z tol, (0 <= tol)%R -> (forall r, r < nA M - 2 -> (z (src M r) <= onestep M r z + tol)%R) ->
    (forall s, s < nS M - 2 -> in_ec M s -> (z s <= 0)%R) -> forall s, s < nS M - 2 -> (z s <= Vmin M (RFW M SH) (is_goal M) s + K * tol)%R) /\
  (forall z tol, (0 <= tol)%R -> (forall r, r < nA M - 2 -> (onestep M r z <= z (src M r) + tol)%R) ->
    forall s, s < nS M - 2 -> (Vmax M (RFW M SH) (is_goal M) s <= z s + K * tol)%R) /\
  (INR (nS M - 2) <= K)%R.

Lemma factor_ex : forall M init (RF : rf_mdp M init), exists K, tol_factor M (proj1 RF) K.
Proof.
  intros M init RF. destruct (z_min_tol M (proj1 RF)) as (K1 & P1 & H1). destruct (z_max_tol M (proj1 RF) (proj2 (proj2 RF))) as (K2 & P2 & H2).
  pose proof (pos_INR (nS M - 2)). exists (K1 + K2 + INR (nS M - 2))%R. split; [lra|]. split; [|split; [|lra]].
  - intros z tol HT A B s Hs. specialize (H1 z tol HT A B s Hs). assert (0 <= (K2 + INR (nS M - 2)) * tol)%R by (apply Rmult_le_pos; lra). lra.
  - intros z tol HT A s Hs. specialize (H2 z tol HT A s Hs). assert (0 <= (K1 + INR (nS M - 2)) * tol)%R by (apply Rmult_le_pos; lra). lra.
Qed.

(** What a tolerance does to the four kinds of certificates. *)
Definition tol_sound (rf : rform) (K : R) : Prop :=
  forall s t v tol, (0 <= tol)%Q ->
  let nonneg := forall i, i < a_C (rf_sys rf) - 2 -> (0 <= entry v i)%Q in
  (s = FGe \/ s = FGt -> check_farkas rf Min s t v tol = Ok true -> forall p, PrMinForm rf (rf_init rf) p -> (Q2R t - K * Q2R tol <= p)%R) /\
  (s = FLe \/ s = FLt -> check_farkas rf Max s t v tol = Ok true -> forall p, PrMaxForm rf (rf_init rf) p -> (p <= Q2R t + K * Q2R tol)%R) /\
  (s = FGe \/ s = FGt -> nonneg -> check_farkas rf Max s t v tol = Ok true -> forall p, PrMaxForm rf (rf_init rf) p -> (Q2R t - K * Q2R tol <= p)%R) /\
  (s = FLe \/ s = FLt -> nonneg -> rf_init rf < a_N (rf_sys rf) - 2 -> check_farkas rf Min s t v tol = Ok true -> forall p, PrMinForm rf (rf_init rf) p -> (p <= Q2R t + K * Q2R tol)%R).

(** Certificates over the rows: the factor is the number of states. *)
Lemma flow_sound : forall rf (BF : built_form rf) (EX : exact_rows (a_P (rf_sys rf))) s t v tol, (0 <= tol)%Q ->
  (forall i, i < a_C (rf_sys rf) - 2 -> (0 <= entry v i)%Q) ->
  let K := (1 + INR (a_N (rf_sys rf) - 2))%R in
  (s = FGe \/ s = FGt -> check_farkas rf Max s t v tol = Ok true -> forall p, PrMaxForm rf (rf_init rf) p -> (Q2R t - K * Q2R tol <= p)%R) /\
  (s = FLe \/ s = FLt -> rf_init rf < a_N (rf_sys rf) - 2 -> check_farkas rf Min s t v tol = Ok true -> forall p, PrMinForm rf (rf_init rf) p -> (p <= Q2R t + K * Q2R tol)%R).
Proof.
  intros rf BF EX s t v tol HT Hp K. unfold K. clear K. set (SH := proj1 (br_rf rf BF EX)).
  pose (M := form_mdp rf). pose (vR := fun d => Q2R (entry v d)).
  assert (HT' : (0 <= Q2R tol)%R) by (rewrite <- RMicromega.Q2R_0; apply Qle_Rle; auto).
  assert (IN : rf_init rf < nS M) by (apply (br_init_lt rf BF)).
  assert (EMN : forall s, Vmn rf BF EX s = Vmin M (RFW M SH) (is_goal M) s) by (intros; apply Vmin_irrel).
  assert (EMX : forall s, Vmx rf BF EX s = Vmax M (RFW M SH) (is_goal M) s) by (intros; apply Vmax_irrel).
  assert (AI : forall s, Q2R (at_init rf s) = if s =? rf_init rf then 1%R else 0%R) by (intros; unfold at_init; destruct (_ =? _); [apply RMicromega.Q2R_1|apply RMicromega.Q2R_0]).
  split.
  - intros Hs H p HP. apply (Vmx_max rf BF EX _ p IN) in HP. subst p. apply (check_y_max rf BF) in H; [|exact Hs]. destruct H as (_ & Hi & HL & HF & HT1 & _).
    apply Qle_Rle in HT1. rewrite Q2R_plus in HT1. pose proof (pos_INR (a_N (rf_sys rf) - 2)) as PI. assert (0 <= INR (a_N (rf_sys rf) - 2) * Q2R tol)%R by (apply Rmult_le_pos; auto).
    destruct (Nat.eq_dec (rf_init rf) (a_N (rf_sys rf) - 2)) as [E|E].
    + assert (C0 : a_C (rf_sys rf) - 2 = 0) by (apply (init_goal rf BF EX); exact E). assert (R0 : Q2R (reward_y rf v) = 0%R). { unfold reward_y. change (rf_C rf) with (a_C (rf_sys rf) - 2). rewrite C0. apply RMicromega.Q2R_0. } rewrite R0 in HT1.
      pose proof (Vmax_bounds M (RFW M SH) (is_goal M) (rf_init rf)). rewrite EMX. lra.
    + assert (A : (to_goal M vR <= Vmax M (RFW M SH) (is_goal M) (rf_init rf) + INR (nS M - 2) * Q2R tol)%R).
      { apply y_max_tol; auto.
        - change (rf_init rf <= a_N (rf_sys rf) - 2) in Hi. change (nS M - 2) with (a_N (rf_sys rf) - 2). lia.
        - intros r Hr. unfold vR. rewrite <- RMicromega.Q2R_0. apply Qle_Rle. apply Hp; auto.
        - intros st Hst. rewrite <- AI. rewrite (balance_vec rf BF v st Hst : balance M vR st = _). rewrite <- Q2R_plus. apply Qle_Rle. specialize (HF st Hst). change (flow rf v st <= at_init rf st + tol)%Q. Lqa.lra. }
      rewrite (to_goal_vec rf v : to_goal M vR = _) in A. rewrite EMX. change (nS M - 2) with (a_N (rf_sys rf) - 2) in A.
      unfold reward_y in HT1. lra.
  - intros Hs Hi H p HP. apply (Vmn_min rf BF EX _ p IN) in HP. subst p. apply (check_y_min rf BF) in H; [|exact Hs]. destruct H as (_ & _ & HL & _ & HF & HT1 & _).
    apply Qle_Rle in HT1. rewrite Q2R_plus in HT1.
    assert (A : (Vmin M (RFW M SH) (is_goal M) (rf_init rf) <= to_goal M vR + INR (nS M - 2) * Q2R tol)%R).
    { apply y_min_tol; auto.
      - intros r Hr. unfold vR. rewrite <- RMicromega.Q2R_0. apply Qle_Rle. apply Hp; auto.
      - intros st Hst. rewrite <- AI. rewrite (balance_vec rf BF v st Hst : balance M vR st = _). rewrite <- Q2R_plus. apply Qle_Rle. exact (HF st Hst). }
    rewrite (to_goal_vec rf v : to_goal M vR = _) in A. rewrite EMN. change (nS M - 2) with (a_N (rf_sys rf) - 2) in A.
    unfold reward_y in HT1. lra.
Qed.


Lemma factor_sound : forall rf (BF : built_form rf) (EX : exact_rows (a_P (rf_sys rf))) SH K, tol_factor (form_mdp rf) SH K -> tol_sound rf (1 + K).
Proof.
  intros rf BF EX SH K (K0 & H1 & H2 & H3) s t v tol HT nonneg.
  pose (M := form_mdp rf). pose (vR := fun d => Q2R (entry v d)).
  assert (HT' : (0 <= Q2R tol)%R) by (rewrite <- RMicromega.Q2R_0; apply Qle_Rle; auto).
  assert (IN : rf_init rf < nS M) by (apply (br_init_lt rf BF)).
  assert (EMN : forall s, Vmn rf BF EX s = Vmin M (RFW M SH) (is_goal M) s) by (intros; apply Vmin_irrel).
  assert (EMX : forall s, Vmx rf BF EX s = Vmax M (RFW M SH) (is_goal M) s) by (intros; apply Vmax_irrel).
  change (nA (form_mdp rf) - 2) with (a_C (rf_sys rf) - 2) in *. change (nS (form_mdp rf) - 2) with (a_N (rf_sys rf) - 2) in *. fold M in H1, H2.
  split; [|split; [|split]].
  - intros Hs H p HP. apply (Vmn_min rf BF EX _ p IN) in HP. subst p. apply (check_z_min rf BF) in H; [|exact Hs]. destruct H as (_ & Hi & _ & HE & HS & HT1 & _).
    assert (A : (vR (rf_init rf) <= Vmn rf BF EX (rf_init rf) + K * Q2R tol)%R).
    { rewrite EMN. apply H1; auto.
      - intros r Hr. destruct (br_row rf BF r Hr) as (a & Ei & Hn). change (fun d => Q2R (entry v d)) with vR. rewrite (onestep_vec rf r v : onestep M r vR = _). rewrite <- Q2R_plus. apply Qle_Rle. specialize (HS r _ a Hr Ei). change (entry v (src M r) <= step_value rf v r + tol)%Q. change (entry v (src M r) - tol <= step_value rf v r)%Q in HS.  Lqa.lra.
      - intros s' Hs' He. unfold vR. rewrite <- RMicromega.Q2R_0. right. apply Qeq_eqR. apply HE; auto. apply (br_ec rf BF EX). exact He. }
    apply Qle_Rle in HT1. rewrite Q2R_plus in HT1. unfold vR in A. lra.
  - intros Hs H p HP. apply (Vmx_max rf BF EX _ p IN) in HP. subst p. apply (check_z_max rf BF) in H; [|exact Hs]. destruct H as (_ & Hi & _ & HS & HT1 & _).
    assert (A : (Vmx rf BF EX (rf_init rf) <= vR (rf_init rf) + K * Q2R tol)%R).
    { rewrite EMX. apply H2; auto. intros r Hr. destruct (br_row rf BF r Hr) as (a & Ei & Hn). change (fun d => Q2R (entry v d)) with vR. rewrite (onestep_vec rf r v : onestep M r vR = _). change (vR (src M r)) with (Q2R (entry v (src M r))). rewrite <- Q2R_plus. apply Qle_Rle. specialize (HS r _ a Hr Ei). exact HS. }
    apply Qle_Rle in HT1. rewrite Q2R_plus in HT1. unfold vR in A. lra.
  - intros Hs Hp H p HP. destruct (flow_sound rf BF EX s t v tol HT Hp) as (F & _). specialize (F Hs H p HP).
    assert (INR (a_N (rf_sys rf) - 2) * Q2R tol <= K * Q2R tol)%R by (apply Rmult_le_compat_r; auto). lra.
  - intros Hs Hp Hi H p HP. destruct (flow_sound rf BF EX s t v tol HT Hp) as (_ & F). specialize (F Hs Hi H p HP).
    assert (INR (a_N (rf_sys rf) - 2) * Q2R tol <= K * Q2R tol)%R by (apply Rmult_le_compat_r; auto). lra.
Qed.

Lemma C94_lemma : forall rf, built_form rf -> exact_rows (a_P (rf_sys rf)) -> exists K, (0 <= K)%R /\ tol_sound rf K.
Proof.
  intros rf BF EX. destruct (factor_ex (form_mdp rf) (rf_init rf) (br_rf rf BF EX)) as (K & HK). exists (1 + K)%R. split; [destruct HK; lra|]. eapply factor_sound; eauto.
Qed.
