(** Certificates checked against rounded probabilities. *)
From Coq Require Import String List Arith ZArith QArith Qabs Qreals Reals Bool Lia Lra.
From Coq Require Lqa.
From Verif Require Import Base BaseFacts Num Matrix MatFacts InvDict SpecMdp SpecSystem SpecEc SpecForm SpecBuilt SpecProb SpecNear SumFacts MdpValue RfTheory Amdp AmdpProofs ReachForm ReachFormProofs BuiltFacts
  GraphSpec RfFacts FarkProofs RfBridge Milp SpecLp Certificates CertProofs SccSpec MecProofs TolTheory TolProofs.
Import ListNotations.
Local Open Scope nat_scope.

Section Near.
  Variable rf : rform.
  Hypothesis BF : built_form rf.
  Let m := rf_sys rf.
  Let P := a_P m.
  Let inv := a_inv m.
  Let n := rf_N rf.
  Let c := rf_C rf.
  Let RO : rf_ok rf := br_ro rf BF.
  Let OK : sys_ok m := ro_sys rf RO.

  Lemma n_wf : wf_mat P. Proof. apply (ok_wf m OK). Qed.
  Lemma n_valid : valid_system P (a_idx m) (a_rew m). Proof. apply OK. Qed.
  Lemma n_nonneg : forall i d, (0 <= mget P i d)%Q.
  Proof.
    intros i d. destruct (Qeq_bool (mget P i d) 0) eqn:E. { apply Qeq_bool_iff in E. rewrite E. apply Qle_refl. }
    assert (~ (mget P i d == 0)%Q) by (rewrite <- Qeq_bool_iff; congruence). apply mget_nonzero in H. eapply n_valid; eauto.
  Qed.
  Lemma n_pos : forall i d, (0 < mget P i d)%Q <-> exists p, In ((i, d), p) (mitems P).
  Proof.
    intros i d. split.
    - intros H. exists (mget P i d). apply mget_nonzero. intros E. rewrite E in H. discriminate H.
    - intros (p & H). rewrite (mget_In P i d p n_wf H). destruct n_valid as (_ & _ & A & _). destruct (A _ _ _ H) as [A1 _].
      apply Qle_lteq in A1. destruct A1; auto. symmetry in H0. apply (proj2 n_wf) in H. tauto.
  Qed.
  Lemma n_inj : forall i j k, inv i = Some k -> inv j = Some k -> i = j.
  Proof. intros i j k A B. assert (X : bid_ok (a_idx m)) by (split; [apply OK|apply n_valid]). apply (binv_inj pair_eqb Nat.eqb pair_eqbP Nat.eqb_spec (a_idx m) i j k X A B). Qed.

  Variable M : mdp.
  Variable delta : R.
  Hypothesis NR : near rf M delta.

  Lemma near_edge : forall s r d, row_edge M s r d <-> exists a p, inv r = Some (s, a) /\ In ((r, d), p) (mitems P).
  Proof.
    destruct NR as (N1 & N2 & N3 & N4). intros s r d. split.
    - intros (Hr & Hs & Hd & Hp). destruct (N3 r Hr) as (a & Ea). exists a. apply (proj2 (N4 r d Hr Hd)) in Hp. apply n_pos in Hp. destruct Hp as (p & Hp). exists p. rewrite <- Hs. auto.
    - intros (a & p & E & Hin). pose proof (proj2 n_wf _ _ _ Hin) as (A & B & _). assert (Hr : r < nA M) by (rewrite N2; exact A). assert (Hd : d < nS M) by (rewrite N1; exact B).
      split; [auto|]. split; [|split; [auto|]].
      + destruct (N3 r Hr) as (a' & Ea). change (inv r = Some (src M r, a')) in Ea. congruence.
      + apply N4; auto. apply n_pos. eauto.
  Qed.
  Lemma near_pair : forall s a d, pair_edge P inv s a d <-> exists r, inv r = Some (s, a) /\ row_edge M s r d.
  Proof.
    intros s a d. split.
    - intros (i & p & Hin & E). exists i. split; auto. apply near_edge. eauto.
    - intros (r & E & H). apply near_edge in H. destruct H as (a' & p & E' & Hin). exists r, p. split; auto.
  Qed.
  Lemma near_ec : forall s, in_ec M s -> in_some_ec P inv s.
  Proof.
    intros s (X & B & (H1 & H2 & H3 & H4) & Hs).
    exists X, (fun u a => exists r, inv r = Some (u, a) /\ B u r). split; auto.
    split; [|split; [|split]]; auto.
    + intros u Hu. destruct (H2 u Hu) as (r & Hb). destruct (H3 u r Hb) as (_ & (d & Hd) & _). apply near_edge in Hd.
      destruct Hd as (a & p & E & _). exists a, r. auto.
    + intros u a (r & Er & Hb). destruct (H3 u r Hb) as (Hu & (d & Hd) & Hall). split; [auto|]. split.
      * exists d. apply near_pair. eauto.
      * intros d' Hd'. apply Hall. apply near_pair in Hd'. destruct Hd' as (r' & Er' & Hd'). replace r with r'; auto. eapply n_inj; eauto.
    + intros u v Hu Hv. refine (rtc_mono _ _ _ _ _ _ (H4 u v Hu Hv)). intros x y (r & Hb & Hxy).
      pose proof Hxy as Hxy'. apply near_edge in Hxy'. destruct Hxy' as (a & p & E & _). exists a. split; [eauto|]. apply near_pair. eauto.
  Qed.

  (** ** The constraints over the reals *)
  Hypothesis D0 : (0 <= delta)%R.
  Variable v : list Q.
  Variable B : R.
  Hypothesis VB : forall q, In q v -> (Rabs (Q2R q) <= B)%R.
  Hypothesis B1 : (1 <= B)%R.
  Let vR : nat -> R := fun d => Q2R (entry v d).

  Lemma vR_B : forall d, (Rabs (vR d) <= B)%R.
  Proof. intros d. unfold vR, entry. destruct (nth_in_or_default d v 0%Q) as [X| ->]; [auto|]. rewrite Q2R_0, Rabs_R0. lra. Qed.

  Lemma sumn_near : forall k f g b, (forall i, i < k -> (Rabs (f i - g i) <= b)%R) -> (Rabs (sumn k f - sumn k g) <= INR k * b)%R.
  Proof.
    intros k f g b H. induction k as [|k IH]. { simpl. rewrite Rminus_0_r, Rabs_R0. lra. }
    rewrite S_INR. cbn [sumn]. replace (sumn k f + f k - (sumn k g + g k))%R with ((sumn k f - sumn k g) + (f k - g k))%R by lra.
    eapply Rle_trans; [apply Rabs_triang|]. specialize (H k ltac:(lia)) as Hk. assert (IH' := IH (fun i Hi => H i ltac:(lia))). lra.
  Qed.
  Lemma near_mul : forall i d x, i < nA M -> d < nS M -> (Rabs x <= B -> Rabs (Q2R (mget P i d) * x - prob M i d * x) <= delta * B)%R.
  Proof.
    intros i d x Hi Hd Hx. destruct NR as (_ & _ & _ & N4). destruct (N4 i d Hi Hd) as [A _]. replace (Q2R (mget P i d) * x - prob M i d * x)%R with ((Q2R (mget P i d) - prob M i d) * x)%R by lra.
    rewrite Rabs_mult. apply Rmult_le_compat; auto; apply Rabs_pos.
  Qed.

  Lemma dims : nS M - 2 = n /\ nA M - 2 = c /\ 2 <= nS M /\ 2 <= nA M.
  Proof. destruct NR as (N1 & N2 & _). unfold n, c, rf_N, rf_C. rewrite N1, N2. split; [reflexivity|]. split; [reflexivity|]. split; [apply (ro_N rf RO)|apply (ro_C rf RO)]. Qed.

  Lemma onestep_near : forall r, r < c -> (Rabs (Q2R (step_value rf v r) - onestep M r vR) <= INR (S n) * (delta * B))%R.
  Proof.
    intros r Hr. destruct dims as (E1 & E2 & L1 & L2). unfold step_value, onestep. rewrite Q2R_plus, Q2R_sum_to. rewrite E1. fold n.
    rewrite S_INR. change (goal M) with (nS M - 2). rewrite E1.
    match goal with |- (Rabs (?a + ?b - (?c + ?d)) <= _)%R => replace (a + b - (c + d))%R with ((a - c) + (b - d))%R by lra end.
    eapply Rle_trans; [apply Rabs_triang|].
    assert (X : (Rabs (sumn n (fun i => Q2R (mget P r i * entry v i)) - sumn n (fun d => prob M r d * vR d)) <= INR n * (delta * B))%R).
    { apply sumn_near. intros d Hd. rewrite Q2R_mult. apply near_mul; [lia|lia|apply vR_B]. }
    assert (Y : (Rabs (Q2R (mget P r n) - prob M r n) <= delta)%R) by (destruct NR as (_ & _ & _ & N4); apply N4; lia).
    assert (delta <= delta * B)%R. { rewrite <- (Rmult_1_r delta) at 1. apply Rmult_le_compat_l; lra. }
    unfold P, m in *. lra.
  Qed.
  Lemma inv_src : forall r, r < c -> exists a, inv r = Some (src M r, a) /\ src M r < n.
  Proof.
    intros r Hr. destruct dims as (E1 & E2 & L1 & L2). destruct NR as (_ & _ & N3 & _). destruct (N3 r ltac:(lia)) as (a & Ea). exists a. split; [exact Ea|].
    destruct (ro_row rf RO r Hr) as (s & a' & H1 & H2 & _). change (inv r = Some (src M r, a)) in Ea. change (inv r = Some (s, a')) in H1. assert (s = src M r) by congruence. subst s. exact H2.
  Qed.
  Lemma balance_near : forall s, s < n -> (Rabs (Q2R (flow rf v s) - balance M vR s) <= INR c * (delta * B))%R.
  Proof.
    intros s Hs. destruct dims as (E1 & E2 & L1 & L2). unfold flow, balance. rewrite Q2R_minus, !Q2R_sum_to. rewrite E2. fold c. rewrite <- sumn_minus. apply sumn_near.
    intros i Hi. destruct (inv_src i Hi) as (a & H1 & _). unfold belongs. change (a_inv (rf_sys rf) i) with (inv i). rewrite H1, Q2R_mult.
    pose proof (near_mul i s (vR i) ltac:(lia) ltac:(lia) (vR_B i)) as X. rewrite Rabs_minus_sym in X. eapply Rle_trans; [|exact X]. right. f_equal.
    unfold P, m, vR. destruct (src M i =? s); [|rewrite Q2R_0]; ring.
  Qed.
  Lemma reward_near : (Rabs (Q2R (reward_y rf v) - to_goal M vR) <= INR c * (delta * B))%R.
  Proof.
    destruct dims as (E1 & E2 & L1 & L2). unfold reward_y, to_goal. rewrite Q2R_sum_to. rewrite E2. fold c. apply sumn_near.
    intros i Hi. rewrite Q2R_mult. change (goal M) with (nS M - 2). rewrite E1. pose proof (near_mul i n (vR i) ltac:(lia) ltac:(lia) (vR_B i)) as X. eapply Rle_trans; [|exact X]. right. f_equal. unfold P, m, vR. unfold n. ring.
  Qed.
End Near.

Lemma abs_le : forall a b x, (Rabs (a - b) <= x -> a - x <= b <= a + x)%R.
Proof. intros a b x H. pose proof (Rle_abs (a - b)). pose proof (Rle_abs (- (a - b))). rewrite Rabs_Ropp in *. lra. Qed.

Lemma near_sound : forall rf (BF : built_form rf) M (RF : rf_mdp M (rf_init rf)) delta K, near rf M delta -> (0 <= delta)%R -> tol_factor M (proj1 RF) K ->
  forall s t v tol B, (0 <= tol)%Q -> (1 <= B)%R -> (forall q, In q v -> (Rabs (Q2R q) <= B)%R) ->
  let nonneg := forall i, i < a_C (rf_sys rf) - 2 -> (0 <= entry v i)%Q in
  let e := (Q2R tol + INR (a_N (rf_sys rf) + a_C (rf_sys rf)) * (delta * B))%R in
  (s = FGe \/ s = FGt -> check_farkas rf Min s t v tol = Ok true -> forall p, IsPrMin M (is_goal M) (rf_init rf) p -> (Q2R t - (1 + K) * e <= p)%R) /\
  (s = FLe \/ s = FLt -> check_farkas rf Max s t v tol = Ok true -> forall p, IsPrMax M (is_goal M) (rf_init rf) p -> (p <= Q2R t + (1 + K) * e)%R) /\
  (s = FGe \/ s = FGt -> nonneg -> check_farkas rf Max s t v tol = Ok true -> forall p, IsPrMax M (is_goal M) (rf_init rf) p -> (Q2R t - (1 + K) * e <= p)%R) /\
  (s = FLe \/ s = FLt -> nonneg -> rf_init rf < a_N (rf_sys rf) - 2 -> check_farkas rf Min s t v tol = Ok true -> forall p, IsPrMin M (is_goal M) (rf_init rf) p -> (p <= Q2R t + (1 + K) * e)%R).
Proof.
  intros rf BF M RF delta K NR D0 (K0 & H1 & H2 & H3) s t v tol B HT B1 VB nonneg e.
  set (SH := proj1 RF) in *. destruct (dims rf BF M delta NR) as (E1 & E2 & L1 & L2). unfold rf_N in E1. unfold rf_C in E2.
  pose proof NR as (N1 & N2 & N3 & N4).
  pose (vR := fun d => Q2R (entry v d)).
  assert (HT' : (0 <= Q2R tol)%R) by (rewrite <- RMicromega.Q2R_0; apply Qle_Rle; auto).
  assert (DB : (0 <= delta * B)%R) by (apply Rmult_le_pos; lra).
  assert (IN : rf_init rf < nS M) by (rewrite N1; apply (br_init_lt rf BF)).
  assert (LA : forall k, k <= a_N (rf_sys rf) + a_C (rf_sys rf) -> (INR k * (delta * B) <= INR (a_N (rf_sys rf) + a_C (rf_sys rf)) * (delta * B))%R).
  { intros k Hk. apply Rmult_le_compat_r; auto. apply le_INR. exact Hk. }
  assert (E0 : (0 <= e)%R). { unfold e. specialize (LA 0 ltac:(lia)). simpl in LA. lra. }
  assert (ET : (Q2R tol <= e)%R). { unfold e. specialize (LA 0 ltac:(lia)). simpl in LA. lra. }
  assert (AI : forall s, Q2R (at_init rf s) = if s =? rf_init rf then 1%R else 0%R) by (intros; unfold at_init; destruct (_ =? _); [apply RMicromega.Q2R_1|apply RMicromega.Q2R_0]).
  assert (EC0 : (INR (a_C (rf_sys rf) - 2) * (delta * B) + Q2R tol <= e)%R). { unfold e. specialize (LA (a_C (rf_sys rf) - 2) ltac:(lia)). lra. }
  assert (KE : (0 <= K * e)%R) by (apply Rmult_le_pos; auto).
  assert (NE : (INR (nS M - 2) * e <= K * e)%R) by (apply Rmult_le_compat_r; auto).
  split; [|split; [|split]].
  - intros Hs H p HP. apply (PrMin_iff M (RFW M SH)) in HP; [|exact IN]. subst p. apply (check_z_min rf BF) in H; [|exact Hs]. destruct H as (_ & Hi & _ & HE & HS & HT1 & _).
    assert (A : (vR (rf_init rf) <= Vmin M (RFW M SH) (is_goal M) (rf_init rf) + K * e)%R).
    { apply H1; auto; [| |rewrite E1; exact Hi].
      - intros r Hr. rewrite E2 in Hr. destruct (inv_src rf BF M delta NR r Hr) as (a & Ei & Hn). specialize (HS r _ a Hr Ei). apply Qle_Rle in HS. rewrite Q2R_minus in HS.
        pose proof (abs_le _ _ _ (onestep_near rf BF M delta NR D0 v B VB B1 r Hr)) as X. fold vR in X.
        assert (INR (S (rf_N rf)) * (delta * B) + Q2R tol <= e)%R. { unfold e. specialize (LA (S (rf_N rf)) ltac:(unfold rf_N; lia)). lra. }
        unfold vR at 1. lra.
      - intros s' Hs' He. unfold vR. rewrite <- RMicromega.Q2R_0. right. apply Qeq_eqR. apply HE; [unfold rf_N; lia|]. apply (near_ec rf BF M delta NR). exact He. }
    apply Qle_Rle in HT1. rewrite Q2R_plus in HT1. unfold vR in A. lra.
  - intros Hs H p HP. apply (PrMax_iff M (RFW M SH)) in HP; [|exact IN]. subst p. apply (check_z_max rf BF) in H; [|exact Hs]. destruct H as (_ & Hi & _ & HS & HT1 & _).
    assert (A : (Vmax M (RFW M SH) (is_goal M) (rf_init rf) <= vR (rf_init rf) + K * e)%R).
    { apply H2; auto; [|rewrite E1; exact Hi]. intros r Hr. rewrite E2 in Hr. destruct (inv_src rf BF M delta NR r Hr) as (a & Ei & Hn). specialize (HS r _ a Hr Ei). apply Qle_Rle in HS. rewrite Q2R_plus in HS.
        pose proof (abs_le _ _ _ (onestep_near rf BF M delta NR D0 v B VB B1 r Hr)) as X. fold vR in X.
        assert (INR (S (rf_N rf)) * (delta * B) + Q2R tol <= e)%R. { unfold e. specialize (LA (S (rf_N rf)) ltac:(unfold rf_N; lia)). lra. }
        unfold vR at 2. lra. }
    apply Qle_Rle in HT1. rewrite Q2R_plus in HT1. unfold vR in A. lra.
  - intros Hs Hp H p HP. apply (PrMax_iff M (RFW M SH)) in HP; [|exact IN]. subst p. apply (check_y_max rf BF) in H; [|exact Hs]. destruct H as (_ & Hi & HL & HF & HT1 & _).
    apply Qle_Rle in HT1. rewrite Q2R_plus in HT1.
    pose proof (abs_le _ _ _ (reward_near rf BF M delta NR v B VB B1)) as RN. fold vR in RN. unfold rf_C in RN.
    destruct (Nat.eq_dec (rf_init rf) (a_N (rf_sys rf) - 2)) as [E|E].
    + assert (C0 : nA M - 2 = 0).
      { destruct (Nat.eq_dec (nA M - 2) 0) as [|Hc]; auto. exfalso.
        assert (Hs0 : src M 0 < nS M - 2) by (apply (RF_src M SH); lia).
        assert (HR0 : rtc (medge M) (rf_init rf) (src M 0)) by (apply (proj1 (proj2 RF)); unfold fail; lia).
        replace (rf_init rf) with (goal M) in HR0 by (unfold goal; lia). apply (goal_absorbing M SH) in HR0. unfold goal in HR0. lia. }
      assert (T0 : to_goal M vR = 0%R) by (unfold to_goal; rewrite C0; reflexivity).
      pose proof (Vmax_bounds M (RFW M SH) (is_goal M) (rf_init rf)). lra.
    + assert (A : (to_goal M vR <= Vmax M (RFW M SH) (is_goal M) (rf_init rf) + INR (nS M - 2) * e)%R).
      { apply y_max_tol; auto.
        - change (rf_init rf <= a_N (rf_sys rf) - 2) in Hi. lia.
        - intros r Hr. unfold vR. rewrite <- RMicromega.Q2R_0. apply Qle_Rle. apply Hp. lia.
        - intros st Hst. rewrite E1 in Hst. specialize (HF st Hst). apply Qle_Rle in HF. rewrite Q2R_minus, AI in HF.
          pose proof (abs_le _ _ _ (balance_near rf BF M delta NR v B VB B1 st Hst)) as X. fold vR in X. unfold rf_C in X. lra. }
      lra.
  - intros Hs Hp Hi H p HP. apply (PrMin_iff M (RFW M SH)) in HP; [|exact IN]. subst p. apply (check_y_min rf BF) in H; [|exact Hs]. destruct H as (_ & _ & HL & _ & HF & HT1 & _).
    apply Qle_Rle in HT1. rewrite Q2R_plus in HT1.
    pose proof (abs_le _ _ _ (reward_near rf BF M delta NR v B VB B1)) as RN. fold vR in RN. unfold rf_C in RN.
    assert (A : (Vmin M (RFW M SH) (is_goal M) (rf_init rf) <= to_goal M vR + INR (nS M - 2) * e)%R).
    { apply y_min_tol; auto.
      - lia.
      - intros r Hr. unfold vR. rewrite <- RMicromega.Q2R_0. apply Qle_Rle. apply Hp. lia.
      - intros st Hst. rewrite E1 in Hst. specialize (HF st Hst). apply Qle_Rle in HF. rewrite Q2R_plus, AI in HF.
        pose proof (abs_le _ _ _ (balance_near rf BF M delta NR v B VB B1 st Hst)) as X. fold vR in X. unfold rf_C in X. lra. }
    lra.
Qed.

(** ** The normalised system *)
Section Norm.
  Variable rf : rform.
  Hypothesis BF : built_form rf.
  Let m := rf_sys rf.
  Let P := a_P m.
  Let inv := a_inv m.
  Let RO : rf_ok rf := br_ro rf BF.
  Let OK : sys_ok m := ro_sys rf RO.
  Let M := normalised rf.
  Let S (i : nat) : R := Q2R (row_total P i).

  Lemma S_near : forall i, i < mrows P -> (Rabs (S i - 1) <= 1 / 2000000000)%R.
  Proof.
    intros i Hi. destruct (n_valid rf BF) as (_ & A & _). specialize (A i Hi). unfold near_one in A. apply Qabs_Qle_condition in A. destruct A as [A1 A2].
    apply Qle_Rle in A1. apply Qle_Rle in A2. rewrite Q2R_opp, Q2R_minus, Q2R_1 in A1. rewrite Q2R_minus, Q2R_1 in A2. change (Q2R (row_total (a_P (rf_sys rf)) i)) with (S i) in *.
    assert (E : Q2R (1 # 2000000000) = (1 / 2000000000)%R) by (unfold Q2R; cbn; lra). rewrite E in *. apply Rabs_le. lra.
  Qed.
  Lemma S_pos : forall i, i < mrows P -> (0 < S i)%R.
  Proof. intros i Hi. pose proof (abs_le _ _ _ (S_near i Hi)). lra. Qed.
  Lemma S_sum : forall i, S i = sumn (mcols P) (fun d => Q2R (mget P i d)).
  Proof. intros i. unfold S, row_total. rewrite Q2R_sumQ. reflexivity. Qed.
  Lemma mgR : forall i d, (0 <= Q2R (mget P i d))%R.
  Proof. intros i d. rewrite <- RMicromega.Q2R_0. apply Qle_Rle. apply n_nonneg; auto. Qed.
  Lemma mg_le : forall i d, d < mcols P -> (Q2R (mget P i d) <= S i)%R.
  Proof. intros i d Hd. rewrite S_sum. apply (sumn_term_le _ d (fun d => Q2R (mget P i d))); auto. intros; apply mgR. Qed.

  Lemma n_row : forall i, i < mrows P -> exists s a, inv i = Some (s, a) /\ s < mcols P.
  Proof.
    intros i Hi. destruct (Nat.lt_ge_cases i (rf_C rf)) as [L|L].
    - destruct (ro_row rf RO i L) as (s & a & H1 & H2 & _). exists s, a. split; [exact H1|]. unfold rf_N, a_N in H2. unfold P, m. lia.
    - destruct (br_form rf BF) as (_ & HN & HC & _ & _ & _ & _ & L1 & L2 & _). unfold rf_C, a_C in L. fold m P in L, HN, HC.
      assert (i = mrows P - 2 \/ i = mrows P - 1) as [-> | ->] by lia.
      + destruct L1 as ((a & p & H1 & _) & _). exists (mcols P - 2), a. split; [exact H1|lia].
      + destruct L2 as ((a & p & H1 & _) & _). exists (mcols P - 1), a. split; [exact H1|lia].
  Qed.
  Lemma norm_src : forall r s a, inv r = Some (s, a) -> src M r = s.
  Proof. intros r s a H. cbn [M normalised src]. change (a_inv (rf_sys rf) r) with (inv r). rewrite H. reflexivity. Qed.

  Lemma norm_near : near rf M (1 / 2000000000).
  Proof.
    split; [reflexivity|]. split; [reflexivity|]. split.
    - intros i Hi. destruct (n_row i Hi) as (s & a & E & _). exists a. rewrite (norm_src i s a E). exact E.
    - intros i d Hi Hd. cbn [M normalised prob nA nS] in *. fold m P. change (Q2R (row_total P i)) with (S i). pose proof (S_pos i Hi) as SP. pose proof (S_near i Hi) as SN. pose proof (mgR i d) as A. pose proof (mg_le i d Hd) as B. split.
      + replace (Q2R (mget P i d) - Q2R (mget P i d) / S i)%R with ((Q2R (mget P i d) / S i) * (S i - 1))%R by (field; lra).
        rewrite Rabs_mult. rewrite (Rabs_pos_eq (Q2R (mget P i d) / S i)) by (apply Rmult_le_pos; [auto|left; apply Rinv_0_lt_compat; auto]).
        assert (Q2R (mget P i d) / S i <= 1)%R by (apply (Rmult_le_reg_r (S i)); auto; unfold Rdiv; rewrite Rmult_assoc, Rinv_l by lra; lra).
        assert (0 <= Q2R (mget P i d) / S i)%R by (apply Rmult_le_pos; [auto|left; apply Rinv_0_lt_compat; auto]).
        rewrite <- (Rmult_1_l (1 / 2000000000)). apply Rmult_le_compat; auto. apply Rabs_pos.
      + rewrite Q2R_pos. split; intros H; [apply Rdiv_lt_0_compat; auto|]. destruct A as [A|A]; auto. rewrite <- A in H. unfold Rdiv in H. rewrite Rmult_0_l in H. lra.
  Qed.

  Lemma norm_loop : forall s i, only_loop P inv s i -> src M i = s /\ prob M i s = 1%R.
  Proof.
    intros s i ((a & p & H1 & H2) & H3). split; [apply (norm_src i s a H1)|]. destruct (proj2 (n_wf rf BF) i s p H2) as (Hi & Hs & _). fold m P in Hi, Hs.
    cbn [M normalised prob]. fold m P. change (Q2R (row_total P i)) with (S i). assert (E : S i = Q2R (mget P i s)).
    { rewrite S_sum. rewrite (sumn_ext _ _ (fun d => Q2R (if s =? d then mget P i d else 0%Q))).
      - rewrite <- Q2R_sum_to. apply Qeq_eqR. apply (sum_to_single (mcols P) s (fun d => mget P i d)). exact Hs.
      - intros d Hd. destruct (Nat.eqb_spec s d); [reflexivity|]. apply Qeq_eqR. destruct (Qeq_bool (mget P i d) 0) eqn:Ed; [apply Qeq_bool_iff; auto|].
        exfalso. assert (Hd' : In ((i, d), mget P i d) (mitems P)). { apply mget_nonzero. intros Hq. apply Qeq_bool_iff in Hq. congruence. }
        destruct (H3 i d a (mget P i d) H1 Hd') as (_ & Hd''). congruence. }
    rewrite E. pose proof (S_pos i Hi). field. lra.
  Qed.

  Lemma norm_wf : wf_mdp M.
  Proof.
    split; [|split; [|split]].
    - intros r Hr. destruct (n_row r Hr) as (s & a & E & Hs). rewrite (norm_src r s a E). exact Hs.
    - intros r d Hr Hd. cbn [M normalised prob]. apply Rmult_le_pos; [apply mgR|left; apply Rinv_0_lt_compat; apply (S_pos r Hr)].
    - intros r Hr. cbn [M normalised prob nS]. fold m P. change (Q2R (row_total P r)) with (S r). unfold Rdiv. rewrite sumn_scal_r. change (a_N m) with (mcols P). rewrite <- S_sum. apply Rinv_r. pose proof (S_pos r Hr). lra.
    - intros s Hs. destruct (form_states_act rf (rf_init rf) (br_form rf BF) s Hs) as (a & d & i & p & H2 & H1). exists i. split; [apply (proj2 (n_wf rf BF) i d p H2)|]. apply (norm_src i s a H1).
  Qed.

  Lemma norm_rf : rf_mdp M (rf_init rf).
  Proof.
    destruct (br_form rf BF) as (_ & HN & HC & Hi & _ & _ & _ & L1 & L2 & R1 & R2). fold m P in HN, HC, R1, R2. change (a_inv (rf_sys rf)) with inv in *.
    split. { split; [apply norm_wf|]. split; [exact HN|]. split; [exact HC|].
      split. { intros r Hr. destruct (inv_src rf BF M _ norm_near r Hr) as (a & _ & H). exact H. }
      split; apply norm_loop; assumption. }
    assert (ME : forall x y, rtc (edge P inv) x y -> rtc (medge M) x y).
    { intros x y H. induction H as [|x y z E R IH]; [constructor|]. econstructor; [|eauto]. destruct E as (i & a & p & Hin & E). exists i. apply (near_edge rf BF M _ norm_near). eauto. }
    split; intros s Hs Hf; apply ME; [apply R1|apply R2]; auto.
  Qed.
End Norm.

Lemma C96_lemma : forall M init, rf_mdp M init -> exists K, (0 <= K)%R /\
  forall rf delta, built_form rf -> rf_init rf = init -> near rf M delta -> (0 <= delta)%R ->
  forall s t v tol B, (0 <= tol)%Q -> (1 <= B)%R -> (forall q, In q v -> (Rabs (Q2R q) <= B)%R) ->
  let nonneg := forall i, i < a_C (rf_sys rf) - 2 -> (0 <= entry v i)%Q in
  let e := (Q2R tol + INR (a_N (rf_sys rf) + a_C (rf_sys rf)) * (delta * B))%R in
  (s = FGe \/ s = FGt -> check_farkas rf Min s t v tol = Ok true -> forall p, IsPrMin M (is_goal M) init p -> (Q2R t - K * e <= p)%R) /\
  (s = FLe \/ s = FLt -> check_farkas rf Max s t v tol = Ok true -> forall p, IsPrMax M (is_goal M) init p -> (p <= Q2R t + K * e)%R) /\
  (s = FGe \/ s = FGt -> nonneg -> check_farkas rf Max s t v tol = Ok true -> forall p, IsPrMax M (is_goal M) init p -> (Q2R t - K * e <= p)%R) /\
  (s = FLe \/ s = FLt -> nonneg -> init < a_N (rf_sys rf) - 2 -> check_farkas rf Min s t v tol = Ok true -> forall p, IsPrMin M (is_goal M) init p -> (p <= Q2R t + K * e)%R).
Proof.
  intros M init RF. destruct (factor_ex M init RF) as (K & HK). exists (1 + K)%R. split; [destruct HK; lra|].
  intros rf delta BF EI NR D0 s t v tol B HT B1 VB. subst init. apply (near_sound rf BF M RF delta K); auto.
Qed.
Lemma C96_norm_lemma : forall rf, built_form rf -> rf_mdp (normalised rf) (rf_init rf) /\ near rf (normalised rf) (1 / 2000000000).
Proof. intros rf BF. split; [apply norm_rf; auto|apply norm_near; auto]. Qed.
