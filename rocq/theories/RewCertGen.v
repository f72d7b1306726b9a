(** Certificates of reward forms: soundness, completeness, generation. *)
From Coq Require Import String List Arith ZArith QArith Qreals Reals Bool Lia Lra.
From Coq Require Lqa.
From Verif Require Import Base BaseFacts Num Matrix MatFacts SpecMdp SpecSystem SpecEc SpecForm SpecBuilt SpecProb SpecGen SpecReward SpecRewSub SpecRewCert SumFacts MdpValue RfTheory SccSpec Amdp
  ReachForm ReachFormProofs RfFacts FarkProofs BuiltFacts RfBridge FarkReal Milp SpecLp MilpProofs LpExists Farkas RfLpProofs Certificates CertProofs CertProofs2 TolProofs GenFark GenFark2 GenFark3
  RewTheory RewSub RewardForm RewardProofs RewProblems RewForms RewCert RewCertProofs.
Import ListNotations.
Local Open Scope nat_scope.

(** Rational points of rational systems. *)
Definition row_ineq (A : list (list Q)) (b : list Q) (i : nat) : ineq := ((fun j => nth j (nth i A []) 0%Q), nth i b 0%Q).
Lemma rational_rows : forall A D b x, rows A D b x 0 -> (forall j, j < D -> (0 <= x j)%R) -> exists v, length v = D /\ rows A D b (vec v) 0 /\ forall q, In q v -> (0 <= q)%Q.
Proof.
  intros A D b x HX H0. destruct (real_rational D (map (row_ineq A b) (seq 0 (length A)) ++ map nonneg_row (seq 0 D)) x) as (y & HY).
  { intros cc Hc. apply in_app_or in Hc. destruct Hc as [Hc|Hc]; apply in_map_iff in Hc; destruct Hc as (i & <- & Hi); apply in_seq in Hi.
    - specialize (HX i ltac:(lia)). unfold satR, row_ineq; cbn [fst snd]. unfold rowR in HX. lra.
    - specialize (H0 i ltac:(lia)). unfold satR, nonneg_row; cbn [fst snd]. rewrite (sumn_ext D _ (fun j => if j =? i then - x i else 0)%R).
      + rewrite sumn_indicator by lia. rewrite RMicromega.Q2R_0. lra.
      + intros j Hj. rewrite Q2R_opp. unfold CertProofs.ind. rewrite (Nat.eqb_sym i j). destruct (Nat.eqb_spec j i) as [->|]; [rewrite RMicromega.Q2R_1|rewrite RMicromega.Q2R_0]; ring. }
  exists (map y (seq 0 D)). assert (VE : forall j, j < D -> vec (map y (seq 0 D)) j = Q2R (y j)) by (intros j Hj; unfold vec; rewrite nth_map_seq by auto; reflexivity).
  split; [rewrite map_length, seq_length; auto|]. split.
  - intros i Hi. assert (S1 : satR D (fun j => Q2R (y j)) (row_ineq A b i)). { apply satQ_satR. apply HY. apply in_or_app. left. apply in_map. apply in_seq. lia. }
    unfold satR, row_ineq in S1; cbn [fst snd] in S1. unfold rowR. rewrite (sumn_ext D _ (fun j => Q2R (nth j (nth i A []) 0%Q) * Q2R (y j))%R) by (intros j Hj; rewrite VE by auto; auto). lra.
  - intros q Hq. apply in_map_iff in Hq. destruct Hq as (i & <- & Hi). apply in_seq in Hi.
    assert (S1 : satQ D y (nonneg_row i)). { apply HY. apply in_or_app. right. apply in_map. apply in_seq. lia. }
    unfold satQ, nonneg_row in S1; cbn [fst snd] in S1. rewrite (sum_to_ext D _ (fun j => - (CertProofs.ind i j * y j))%Q) in S1 by (intros; ring). rewrite sum_to_opp, ind_sumQ in S1 by lia. Lqa.lra.
Qed.

Lemma small_rational : forall e, (0 < e)%R -> exists q, (0 < Q2R q < e)%R.
Proof.
  intros e He. destruct (archimed_cor1 e He) as (k & K1 & K2). exists (1 # Pos.of_nat k)%Q. assert (E : Q2R (1 # Pos.of_nat k) = (/ INR k)%R).
  { unfold Q2R. cbn [Qnum Qden]. rewrite Rmult_1_l. f_equal. rewrite <- (Nat2Pos.id k) at 2 by lia. rewrite INR_IPR. reflexivity. }
  rewrite E. split; [apply Rinv_0_lt_compat; apply lt_0_INR; auto|exact K1].
Qed.

Section RG.
  Variable rr : rrform.
  Let rf := rr_rf rr.
  Hypothesis GR : reward_form rr.
  Let BF : built_form rf := proj1 GR.
  Let EX : exact_rows (a_P (rf_sys rf)) := proj1 (proj2 GR).
  Let Hi : rf_init rf < a_N (rf_sys rf) - 2 := proj1 (proj2 (proj2 GR)).
  Let FREE : ec_free (form_mdp rf) := proj1 (proj2 (proj2 (proj2 GR))).
  Let LR : length (rr_rew rr) = rf_C rf := proj1 (proj2 (proj2 (proj2 (proj2 GR)))).
  Let NR : forall q, In q (rr_rew rr) -> (0 <= q)%Q := proj2 (proj2 (proj2 (proj2 (proj2 GR)))).
  Let init := rf_init rf.
  Let n := rf_N rf.
  Let c := rf_C rf.
  Let M := form_mdp rf.
  Let SH : shape_mdp M := proj1 (br_rf rf BF EX).
  Let rw := row_reward (rr_rew rr).
  Let R0 : forall r, (0 <= rw r)%R := rw_pos rr NR.
  Let RZ : forall r, c <= r -> rw r = 0%R := rw_out rr Hi LR.

  Lemma rstep_lin : forall (r : nat) (x w : nat -> R) e, rstep M rw r (fun d => x d + e * w d)%R = (rstep M rw r x + e * sumn n (fun d => prob M r d * w d))%R.
  Proof.
    intros r x w e. unfold rstep. change (nS M - 2) with n. rewrite (sumn_ext n _ (fun d => prob M r d * x d + e * (prob M r d * w d))%R) by (intros; ring). rewrite sumn_plus, sumn_scal. ring.
  Qed.

  (** What rows with slack say about the extremal reward. *)
  Lemma zmin_near : forall w, (forall r, r < c -> (1 <= w (src M r) - sumn n (fun d => prob M r d * w d))%R) -> (forall s, s < n -> (0 <= w s)%R) ->
    forall x g p, (0 <= g)%R -> (forall r, (r < c)%nat -> x (src M r) <= rstep M rw r x + g)%R -> rew_opt rr Min p -> (x init - g * w init <= p)%R.
  Proof.
    intros w WR W0 x g p G0 HX HP. unfold rew_opt in HP. fold rf M init in HP. destruct HP as (_ & _ & GL). apply GL. intros e (sigma & V & E).
    pose proof (below_all M SH w W0 WR rw RZ (fun d => x d + (- g) * w d)%R) as B. cut (x init + - g * w init <= e)%R; [lra|].
    apply (B) with (sigma := sigma) (s := init); auto. intros r Hr. rewrite rstep_lin. specialize (HX r Hr). specialize (WR r Hr). set (sw := sumn n (fun d => prob M r d * w d)%R) in *.
    assert (g <= g * (w (src M r) - sw))%R by (rewrite <- (Rmult_1_r g) at 1; apply Rmult_le_compat_l; lra). lra.
  Qed.
  Lemma zmax_near : forall w, (forall r, r < c -> (1 <= w (src M r) - sumn n (fun d => prob M r d * w d))%R) -> (forall s, s < n -> (0 <= w s)%R) ->
    forall x g p, (0 <= g)%R -> (forall r, (r < c)%nat -> rstep M rw r x <= x (src M r) + g)%R -> rew_opt rr Max p -> (p <= x init + g * w init)%R.
  Proof.
    intros w WR W0 x g p G0 HX HP. unfold rew_opt in HP. fold rf M init in HP. destruct HP as (EXS & LU).
    set (z := fun d => (x d + g * w d)%R). assert (HZ : forall r, r < c -> (rstep M rw r z <= z (src M r))%R).
    { intros r Hr. unfold z. rewrite rstep_lin. specialize (HX r Hr). specialize (WR r Hr). set (sw := sumn n (fun d => prob M r d * w d)%R) in *.
      assert (g <= g * (w (src M r) - sw))%R by (rewrite <- (Rmult_1_r g) at 1; apply Rmult_le_compat_l; lra). lra. }
    assert (Z0 : forall s, s < n -> (0 <= z s)%R).
    { intros s Hs. destruct (sub_bounded M SH w W0 WR (fun _ => 0%R) (fun _ _ => eq_refl) (fun d => (- z d)%R)) with (K := 0%R) (s := s) as [K|K]; auto.
      - intros r Hr. specialize (HZ r Hr). unfold rstep in *. change (nS M - 2) with n in *. rewrite (sumn_ext n (fun d => prob M r d * - z d)%R (fun d => - (prob M r d * z d))%R) by (intros; ring). rewrite sumn_opp. specialize (R0 r). lra.
      - lra.
      - intros r Hr. unfold rstep. rewrite sumn_zero by (intros; ring). lra.
      - lra.
      - lra. }
    apply (proj2 LU). intros e (sigma & V & E). apply (above_all M SH rw RZ z Z0 HZ sigma init e V Hi E).
  Qed.
  Lemma ymax_near : exists K, (0 <= K)%R /\ forall y g p, (0 <= g)%R -> (forall r, r < c -> (- g <= y r)%R) -> (forall st, (st < n)%nat -> balance M y st <= (if st =? init then 1 else 0) + g)%R ->
    rew_opt rr Max p -> (sumn c (fun r => rw r * y r) <= p + K * g)%R.
  Proof.
    destruct (rank rr BF EX Hi FREE) as (w & W0 & WR). destruct (max_exists M SH w W0 WR rw (fun r _ => R0 r)) as (z & ZS & ZT & ZL). pose proof (max_is_value M SH w W0 WR rw RZ z ZS ZT init Hi) as ZV.
    destruct ZS as (Z0 & HZ). exists ((1 + INR c) * sumn n z)%R. pose proof (pos_INR c) as C0. split; [apply Rmult_le_pos; [lra|apply sumn_nonneg; exact Z0]|].
    intros y g p G0 Y0 HB HP. unfold rew_opt in HP. fold rf M init in HP. rewrite (IsRewMax_u _ _ _ _ _ _ HP ZV). clear p HP.
    set (y' := fun r => (y r + g)%R). assert (HB' : forall st, st < n -> (balance M y' st <= (if st =? init then 1 else 0) + (1 + INR c) * g)%R).
    { intros st Hst. pose proof (shift_balance rf BF EX Hi y g st G0 Hst) as SB. specialize (HB st Hst). fold rf M c in SB. unfold y'. lra. }
    apply Rle_trans with (sumn c (fun r => rw r * y' r)%R).
    { apply sumn_le. intros r Hr. apply Rmult_le_compat_l; [apply R0|]. unfold y'. lra. }
    apply Rle_trans with (sumn c (fun r => y' r * (z (src M r) - sumn n (fun d => prob M r d * z d)))%R).
    { apply sumn_le. intros r Hr. rewrite Rmult_comm. apply Rmult_le_compat_l; [unfold y'; specialize (Y0 r Hr); lra|]. specialize (HZ r Hr). unfold rstep in HZ. change (nS M - 2) with n in HZ. lra. }
    pose proof (balance_dual M SH y' z) as E. change (nS M - 2) with n in E. change (nA M - 2) with c in E. rewrite <- E.
    pose proof (delta_sum M init z Hi) as D. change (nS M - 2) with n in D. rewrite <- D.
    replace ((1 + INR c) * sumn n z * g)%R with (((1 + INR c) * g) * sumn n z)%R by ring. rewrite <- sumn_scal, <- sumn_plus.
    apply sumn_le. intros s Hs. specialize (HB' s Hs). specialize (Z0 s Hs). rewrite <- Rmult_plus_distr_r. apply Rmult_le_compat_r; auto.
  Qed.

  Lemma rew_near : exists K, (0 <= K)%R /\ forall md s t x g p, rew_certifiable md s -> (0 <= g)%R -> rrows rr md s t x g -> (state_action_form md s -> forall r, r < c -> (- g <= x r)%R) -> rew_opt rr md p ->
    claim_near s p (Q2R t) (K * g) /\ (rstrict rr md s t x g -> g = 0%R -> claim s p (Q2R t)).
  Proof.
    destruct (rank rr BF EX Hi FREE) as (w & W0 & WR). destruct ymax_near as (K & K0 & HY). exists (1 + w init + K)%R. pose proof (W0 init Hi) as WI. split; [lra|].
    intros md s t x g p CE G0 HR HS HP. assert (KG : (0 <= K * g)%R) by (apply Rmult_le_pos; auto). assert (WG : (0 <= w init * g)%R) by (apply Rmult_le_pos; auto).
    assert (EK : ((1 + w init + K) * g = g + w init * g + K * g)%R) by ring. rewrite EK.
    destruct md; destruct s; try contradiction; unfold rrows, rstrict in *; cbn [is_upper] in *; fold rf M c n init rw in HR; fold rf M c n init rw; destruct HR as (H1 & H2); cbn [claim_near claim].
    - pose proof (zmin_near w WR W0 x g p G0 H1 HP) as B. split; [lra|]. intros ST E0. rewrite E0 in *. lra.
    - pose proof (zmin_near w WR W0 x g p G0 H1 HP) as B. split; [lra|]. intros ST E0. rewrite E0 in *. lra.
    - pose proof (zmax_near w WR W0 x g p G0 H1 HP) as B. split; [lra|]. intros ST E0. rewrite E0 in *. lra.
    - pose proof (zmax_near w WR W0 x g p G0 H1 HP) as B. split; [lra|]. intros ST E0. rewrite E0 in *. lra.
    - pose proof (HY x g p G0 (HS ltac:(split; auto)) H1 HP) as B. split; [lra|]. intros ST E0. rewrite E0 in *. lra.
    - pose proof (HY x g p G0 (HS ltac:(split; auto)) H1 HP) as B. split; [lra|]. intros ST E0. rewrite E0 in *. lra.
  Qed.

  (** Points exist for true claims. *)
  Lemma rew_point : forall md s t p, rew_certifiable md s -> rew_opt rr md p -> claim_near s p (Q2R t) 0 -> exists x, rrows rr md s t x 0 /\ forall j, j < rdim rr md s -> (0 <= x j)%R.
  Proof.
    intros md s t p CE HP HC. destruct (rank rr BF EX Hi FREE) as (w & W0 & WR).
    assert (LO : md = Min -> (Q2R t <= p)%R -> exists z, sub_sol M rw z /\ (Q2R t <= z init)%R).
    { intros -> Ht. destruct (min_exists M SH w W0 WR rw (fun r _ => R0 r) RZ) as (z & ZS & ZT & ZL). pose proof (min_is_value M SH w W0 WR rw RZ z ZS ZT init Hi) as ZV.
      exists z. split; auto. unfold rew_opt in HP. rewrite <- (IsRewMin_u _ _ _ _ _ _ HP ZV). exact Ht. }
    assert (UP : md = Max -> (p <= Q2R t)%R -> exists z, sup_sol M rw z /\ (z init <= Q2R t)%R).
    { intros -> Ht. destruct (max_exists M SH w W0 WR rw (fun r _ => R0 r)) as (z & ZS & ZT & ZL). pose proof (max_is_value M SH w W0 WR rw RZ z ZS ZT init Hi) as ZV.
      exists z. split; auto. unfold rew_opt in HP. rewrite <- (IsRewMax_u _ _ _ _ _ _ HP ZV). exact Ht. }
    assert (YL : md = Max -> (Q2R t <= p)%R -> exists y, rpoint rr Max t y).
    { intros -> Ht. apply (point_value rr BF EX Hi LR FREE NR Max t p); auto. discriminate. }
    destruct md; destruct s; try contradiction; unfold rrows, rdim; cbn [is_upper claim_near] in *; fold rf M c n init rw.
    - destruct LO as (z & (Z0 & HZ) & Ht); auto; [lra|]. exists z. split; [|exact Z0]. split; [|lra]. intros r Hr. specialize (HZ r Hr). lra.
    - destruct LO as (z & (Z0 & HZ) & Ht); auto; [lra|]. exists z. split; [|exact Z0]. split; [|lra]. intros r Hr. specialize (HZ r Hr). lra.
    - destruct UP as (z & (Z0 & HZ) & Ht); auto; [lra|]. exists z. split; [|exact Z0]. split; [|lra]. intros r Hr. specialize (HZ r Hr). lra.
    - destruct UP as (z & (Z0 & HZ) & Ht); auto; [lra|]. exists z. split; [|exact Z0]. split; [|lra]. intros r Hr. specialize (HZ r Hr). lra.
    - destruct YL as (y & (HB & Ht) & Y0); auto; [lra|]. exists y. split; [|exact Y0]. fold rf M c n init rw in HB, Ht. split; [|lra]. intros st Hst. specialize (HB st Hst). lra.
    - destruct YL as (y & (HB & Ht) & Y0); auto; [lra|]. exists y. split; [|exact Y0]. fold rf M c n init rw in HB, Ht. split; [|lra]. intros st Hst. specialize (HB st Hst). lra.
  Qed.
  Lemma rew_point_q : forall md s t p, rew_certifiable md s -> rew_opt rr md p -> claim_near s p (Q2R t) 0 -> exists v, length v = rdim rr md s /\ rrows rr md s t (vec v) 0 /\ forall q, In q v -> (0 <= q)%Q.
  Proof.
    intros md s t p CE HP HC. destruct (rew_point md s t p CE HP HC) as (x & HX & X0). destruct (rset rr GR md s t CE) as (A & b & E & HR & HB & HN & RW & _). cbv zeta in RW.
    apply RW in HX. destruct (rational_rows _ _ _ _ HX X0) as (v & L & HV & V0). exists v. split; auto. split; auto. apply RW. exact HV.
  Qed.

  (** ** Statements about the check *)
  Lemma check_sound : forall md s t v p, rew_certifiable md s -> rr_check_farkas rr md s t v 0 = Ok true -> (state_action_form md s -> forall q, In q v -> (0 <= q)%Q) -> rew_opt rr md p -> claim s p (Q2R t).
  Proof.
    intros md s t v p CE H HN HP. pose proof (proj1 (rcheck_iff rr GR md s t v 0 CE) H) as (U & HL & HRW & HS). rewrite RMicromega.Q2R_0 in *.
    destruct rew_near as (K & K0 & HK). destruct (HK md s t (vec v) 0%R p CE (Rle_refl 0) HRW) as (C1 & C2); auto.
    { intros SF r Hr. assert (Q2R 0 <= Q2R (nth r v 0%Q))%R; [|rewrite RMicromega.Q2R_0 in *; unfold vec; lra]. apply Qle_Rle. destruct (le_lt_dec (length v) r); [rewrite nth_overflow by auto; apply Qle_refl|apply HN; auto; apply nth_In; auto]. }
    rewrite Rmult_0_r in C1. destruct s; cbn [claim_near claim strictly] in *; try (destruct md; contradiction); try lra; apply C2; auto.
  Qed.
  Lemma check_near : exists K, (0 <= K)%R /\ forall md s t v tol p, rew_certifiable md s -> (0 <= tol)%Q -> rr_check_farkas rr md s t v tol = Ok true -> (state_action_form md s -> forall q, In q v -> (- tol <= q)%Q) ->
    rew_opt rr md p -> claim_near s p (Q2R t) (K * Q2R tol).
  Proof.
    destruct rew_near as (K & K0 & HK). exists K. split; auto. intros md s t v tol p CE HT H HN HP. pose proof (proj1 (rcheck_iff rr GR md s t v tol CE) H) as (U & HL & HRW & _).
    pose proof (Q2R_nonneg tol HT) as HT'. apply (HK md s t (vec v) (Q2R tol) p CE HT' HRW); auto.
    intros SF r Hr. unfold vec. rewrite <- Q2R_opp. apply Qle_Rle. apply HN; auto. apply nth_In. destruct SF as (-> & [->| ->]); unfold rdim in HL; cbn [is_upper] in HL; fold rf c in HL; lia.
  Qed.
  Lemma check_complete : forall md s t p, rew_certifiable md s -> (0 <= t)%Q -> (t <= 1)%Q -> rew_opt rr md p -> claim s p (Q2R t) -> exists v, rr_check_farkas rr md s t v 0 = Ok true /\ forall q, In q v -> (0 <= q)%Q.
  Proof.
    intros md s t p CE T0 T1 HP HC.
    assert (ST : exists t', claim_near s p (Q2R t') 0 /\ forall x, rrows rr md s t' x 0 -> rrows rr md s t x 0 /\ (strictly s = true -> rstrict rr md s t x 0)).
    { assert (LO : (Q2R t < p)%R -> exists t', (Q2R t < Q2R t' /\ Q2R t' < p)%R) by (intros H; destruct (small_rational (p - Q2R t)) as (q & Q1 & Q2); [lra|exists (t + q)%Q; rewrite Q2R_plus; lra]).
      assert (UP : (p < Q2R t)%R -> exists t', (p < Q2R t' /\ Q2R t' < Q2R t)%R) by (intros H; destruct (small_rational (Q2R t - p)) as (q & Q1 & Q2); [lra|exists (t - q)%Q; rewrite Q2R_minus; lra]).
      destruct md; destruct s; try contradiction; cbn [claim claim_near strictly] in *; unfold rrows, rstrict; cbn [is_upper].
      - exists t. split; [lra|]. intros x Hx. split; [exact Hx|discriminate].
      - destruct (LO HC) as (t' & L1 & L2). exists t'. split; [lra|]. intros x (H1 & H2). split; [split; [exact H1|lra]|intros; lra].
      - exists t. split; [lra|]. intros x Hx. split; [exact Hx|discriminate].
      - destruct (UP HC) as (t' & L1 & L2). exists t'. split; [lra|]. intros x (H1 & H2). split; [split; [exact H1|lra]|intros; lra].
      - exists t. split; [lra|]. intros x Hx. split; [exact Hx|discriminate].
      - destruct (LO HC) as (t' & L1 & L2). exists t'. split; [lra|]. intros x (H1 & H2). split; [split; [exact H1|lra]|intros; lra]. }
    destruct ST as (t' & CN & TR). destruct (rew_point_q md s t' p CE HP CN) as (v & L & HV & V0). exists v. split; auto.
    apply (rcheck_iff rr GR md s t v 0 CE). rewrite RMicromega.Q2R_0. destruct (TR _ HV) as (A & B). split; [split; auto|]. split; [exact L|]. split; auto.
  Qed.

  (** ** Generation *)
  Lemma rargs : forall md s t, rew_certifiable md s -> (0 <= t)%Q -> (t <= 1)%Q -> exists A b, rr_generation_args rr md s t = Ok (A, rdim rr md s, b, []) /\ wfargs A (rdim rr md s) b [] /\
    forall x g, rows A (rdim rr md s) b x g <-> rrows rr md s t x g.
  Proof.
    intros md s t CE T0 T1. destruct (rset rr GR md s t CE) as (A & b & E & HR & HB & HN & RW & _). cbv zeta in RW. unfold rr_generation_args. rewrite (in_unit_assert t (conj T0 T1)). cbn [bind]. rewrite E. cbn [bind].
    rewrite (zero_vars_ok rr md s _ CE). exists (if is_upper s then map (map Qopp) A else A), (if is_upper s then map Qopp b else b).
    split; [destruct (is_upper s); reflexivity|]. split; [|exact RW]. destruct (is_upper s).
    - split; [|split; [rewrite !map_length; auto|intros z []]]. intros row Hr. apply in_map_iff in Hr. destruct Hr as (row' & <- & Hr). rewrite map_length. auto.
    - split; [auto|split; [auto|intros z []]].
  Qed.
  Lemma rbound : forall md s t, rew_certifiable md s -> exists B, forall x g, rrows rr md s t x g -> (forall j, j < rdim rr md s -> (- g <= x j)%R) -> (B <= g)%R.
  Proof.
    intros md s t CE. assert (NN : 0 < n) by (unfold n, rf_N; unfold rf in *; lia).
    assert (ZL : forall x g, (forall r, (r < c)%nat -> x (src M r) <= rstep M rw r x + g)%R -> (forall j, j < n -> (- g <= x j)%R) -> (- sumn c rw <= g)%R).
    { intros x g HR HG. destruct (exists_max n x NN) as (k & Hk & HM). destruct (RFW M SH) as (_ & _ & _ & W4). destruct (W4 k ltac:(change (nS M) with (a_N (rf_sys rf)); unfold n, rf_N in Hk; lia)) as (r & Hr & Es).
      assert (Hrm : r < c) by (apply (rows_in M SH k); auto). specialize (HR r Hrm). rewrite Es in HR. unfold rstep in HR. change (nS M - 2) with n in HR.
      assert (RR : (rw r <= sumn c rw)%R) by (apply (sumn_term_le c r rw Hrm); intros; apply R0). destruct (Rle_or_lt 0 g) as [Hg|Hg].
      { assert (0 <= sumn c rw)%R by (apply sumn_nonneg; intros; apply R0). lra. }
      assert (XK : (0 < x k)%R) by (specialize (HG k Hk); lra).
      assert (PS : (sumn n (fun d => prob M r d * x d) <= x k)%R).
      { apply Rle_trans with (sumn n (fun d => x k * prob M r d)%R).
        - apply sumn_le. intros d Hd. rewrite Rmult_comm. apply Rmult_le_compat_r; [|apply HM; auto]. apply (prob_nonneg M SH); [exact Hrm|]. change (nS M) with (a_N (rf_sys rf)). unfold n, rf_N in Hd. lia.
        - rewrite sumn_scal. pose proof (proj2 (prob_sum M SH r Hrm)) as PS. change (nS M - 2) with n in PS. rewrite <- (Rmult_1_r (x k)) at 2. apply Rmult_le_compat_l; lra. }
      lra. }
    destruct md; destruct s; try contradiction; unfold rrows, rdim; cbn [is_upper]; fold rf M c n init rw.
    - exists (- sumn c rw)%R. intros x g (H1 & _) HG. apply (ZL x); auto.
    - exists (- sumn c rw)%R. intros x g (H1 & _) HG. apply (ZL x); auto.
    - exists (- Q2R t / 2)%R. intros x g (_ & H2) HG. specialize (HG init Hi). lra.
    - exists (- Q2R t / 2)%R. intros x g (_ & H2) HG. specialize (HG init Hi). lra.
    - exists (-1)%R. intros x g (H1 & _) HG. apply (bound_ymax M SH init x g Hi H1 HG).
    - exists (-1)%R. intros x g (H1 & _) HG. apply (bound_ymax M SH init x g Hi H1 HG).
  Qed.

  Lemma rgenerated : forall md s t, rew_certifiable md s -> (0 <= t)%Q -> (t <= 1)%Q -> exists lp A b, rr_generation_lp rr md s t = Ok lp /\ wfargs A (rdim rr md s) b [] /\
    (forall x g, rows A (rdim rr md s) b x g <-> rrows rr md s t x g) /\
    (exists B, forall x, feasible lp x -> (B <= objective lp x)%R) /\ (exists x, feasible lp x) /\ mi_dir lp = Minimise /\ (exists r, exact_answer lp r) /\
    forall tol S, exact_answer lp (S lp) -> exists v sg ok, gopt A (rdim rr md s) b [] v sg /\ rr_check_farkas rr md s t v tol = Ok ok /\ rr_generate_farkas S rr md s t tol = Ok (if ok then Some v else None).
  Proof.
    intros md s t CE T0 T1. destruct (rargs md s t CE T0 T1) as (A & b & EA & (W1 & W2 & W3) & RW). destruct (interior_spec A _ b [] W1 W2 W3) as (lp & EL & V & Dr & O & FE).
    exists lp, A, b. assert (EL' : rr_generation_lp rr md s t = Ok lp) by (unfold rr_generation_lp; rewrite EA; exact EL). split; [exact EL'|]. split; [split; auto|]. split; [exact RW|].
    destruct (rbound md s t CE) as (B & HB). split; [|split; [|split; [exact Dr|split; [apply lp_answer_exists; exact (interior_wf _ _ _ _ _ _ EL)|]]]].
    - exists B. intros x Hx. apply FE in Hx. rewrite O. destruct Hx as (X1 & X2 & _). apply (HB x); auto. apply RW. exact X1.
    - exists (pt (rdim rr md s) (fun _ => 0%R) (bb A b)). apply FE. apply gsat_pt; auto. apply gsat_zero.
    - intros tol S XA. destruct (interior_solved A _ b [] W1 W2 W3 S lp EL XA) as (v & sg & o & q & EF & GO).
      { exists B. intros x g (G1 & G2 & _). apply (HB x); auto. apply RW. exact G1. }
      destruct (rcheck_total rr GR md s t v tol CE (conj T0 T1) (proj1 GO)) as (ok & EC). exists v, sg, ok. split; [exact GO|]. split; [exact EC|].
      unfold rr_generate_farkas. rewrite EA. cbn [bind]. rewrite EF. cbn [bind]. rewrite EC. reflexivity.
  Qed.

  Lemma rgen_total : forall md s t, rew_certifiable md s -> (0 <= t)%Q -> (t <= 1)%Q -> exists lp, rr_generation_lp rr md s t = Ok lp /\
    (exists B, forall x, feasible lp x -> (B <= objective lp x)%R) /\ (exists x, feasible lp x) /\ mi_dir lp = Minimise /\ (exists r, exact_answer lp r) /\
    forall tol S, exact_answer lp (S lp) -> exists r, rr_generate_farkas S rr md s t tol = Ok r.
  Proof.
    intros md s t CE T0 T1. destruct (rgenerated md s t CE T0 T1) as (lp & A & b & EL & _ & _ & BD & FS & Dr & XS & G). exists lp. split; [exact EL|]. split; [exact BD|]. split; [exact FS|]. split; [exact Dr|]. split; [exact XS|].
    intros tol S XA. destruct (G tol S XA) as (v & sg & ok & _ & _ & E). eauto.
  Qed.

  Lemma rgen_found : forall md s t, rew_certifiable md s -> (0 <= t)%Q -> (t <= 1)%Q -> forall tol S lp, (0 <= tol)%Q -> (strict_sense s -> (0 < tol)%Q) -> rr_generation_lp rr md s t = Ok lp -> exact_answer lp (S lp) ->
    forall p, rew_opt rr md p -> claim_near s p (Q2R t) 0 -> exists v, rr_generate_farkas S rr md s t tol = Ok (Some v) /\ forall q, In q v -> (0 <= q)%Q.
  Proof.
    intros md s t CE T0 T1 tol S lp HT HS EL XA p HP HC. destruct (rgenerated md s t CE T0 T1) as (lp' & A & b & EL' & WF & RW & _ & _ & _ & _ & G). rewrite EL in EL'. injection EL' as <-.
    destruct (G tol S XA) as (v & sg & ok & GO & EC & EG). destruct (rew_point md s t p CE HP HC) as (x & HX & X0).
    assert (GX : gsat A (rdim rr md s) b [] x 0). { split; [|split; [|intros z []]]. - apply RW. exact HX. - intros j Hj. specialize (X0 j Hj). lra. }
    pose proof (opt_feasible A _ b [] v sg x GO GX) as (G1 & G2 & _). assert (RV : rrows rr md s t (vec v) 0) by (apply RW; exact G1).
    assert (EC' : rr_check_farkas rr md s t v tol = Ok true).
    { apply (rcheck_iff rr GR md s t v tol CE). split; [split; auto|]. split; [apply GO|]. pose proof (Q2R_nonneg tol HT) as HT'. split.
      - apply RW. intros i Hi'. specialize (G1 i Hi'). lra.
      - intros ST. assert (HP' : (0 < Q2R tol)%R) by (apply Q2R_pos; apply HS; unfold strict_sense; destruct s; auto; discriminate).
        destruct md; destruct s; try contradiction; try discriminate; unfold rrows, rstrict in *; cbn [is_upper] in *; destruct RV as (_ & RV); lra. }
    assert (ok = true) by congruence. subst ok. exists v. split; [exact EG|]. intros q Hq. apply (In_nth _ _ 0%Q) in Hq. destruct Hq as (j & Hj & <-).
    assert (HD : length v = rdim rr md s) by apply GO. specialize (G2 j ltac:(lia)). apply Rle_Qle. rewrite RMicromega.Q2R_0. unfold vec in G2. lra.
  Qed.

  Lemma rgen_entries : forall md s t, rew_certifiable md s -> (0 <= t)%Q -> (t <= 1)%Q -> forall tol S lp, (0 <= tol)%Q -> rr_generation_lp rr md s t = Ok lp -> exact_answer lp (S lp) ->
    forall v, rr_generate_farkas S rr md s t tol = Ok (Some v) -> rr_check_farkas rr md s t v tol = Ok true /\ forall q, In q v -> (- tol <= q)%Q.
  Proof.
    intros md s t CE T0 T1 tol S lp HT EL XA v EG. destruct (rgenerated md s t CE T0 T1) as (lp' & A & b & EL' & WF & RW & _ & _ & _ & _ & G). rewrite EL in EL'. injection EL' as <-.
    destruct (G tol S XA) as (v' & sg & ok & GO & EC & EG'). rewrite EG in EG'. destruct ok; [|discriminate]. injection EG' as <-. split; [exact EC|].
    pose proof (proj1 (rcheck_iff rr GR md s t v tol CE) EC) as (_ & HL & HRW & _).
    assert (SG : (Q2R sg <= Q2R tol)%R). { apply (opt_tol A _ b [] v sg _ GO); [apply Q2R_nonneg; auto|]. apply RW. exact HRW. }
    intros q Hq. apply (In_nth _ _ 0%Q) in Hq. destruct Hq as (j & Hj & <-). destruct GO as (_ & (_ & G2 & _) & _). specialize (G2 j ltac:(lia)). apply Rle_Qle. rewrite Q2R_opp. unfold vec in G2. lra.
  Qed.

  Lemma rgen_decides : forall md s t, rew_certifiable md s -> (0 <= t)%Q -> (t <= 1)%Q -> ~ strict_sense s -> forall S lp, rr_generation_lp rr md s t = Ok lp -> exact_answer lp (S lp) ->
    forall p, rew_opt rr md p -> (claim s p (Q2R t) -> exists v, rr_generate_farkas S rr md s t 0 = Ok (Some v) /\ forall q, In q v -> (0 <= q)%Q) /\
      (~ claim s p (Q2R t) -> rr_generate_farkas S rr md s t 0 = Ok None).
  Proof.
    intros md s t CE T0 T1 NS S lp EL XA p HP. split.
    - intros HC. apply (rgen_found md s t CE T0 T1 0 S lp (Qle_refl 0)) with (p := p); auto; [contradiction|]. destruct s; cbn [claim claim_near] in *; try lra; try contradiction; exfalso; apply NS; unfold strict_sense; auto.
    - intros NC. destruct (rgen_total md s t CE T0 T1) as (lp' & EL' & _ & _ & _ & _ & TT). rewrite EL in EL'. injection EL' as <-. destruct (TT 0%Q S XA) as ([v|] & E); [|exact E]. exfalso. apply NC.
      destruct (rgen_entries md s t CE T0 T1 0 S lp (Qle_refl 0) EL XA v E) as (EC & HN). apply (check_sound md s t v p CE EC); auto.
  Qed.

  Lemma rgen_near : exists K, (0 <= K)%R /\ forall md s t, rew_certifiable md s -> (0 <= t)%Q -> (t <= 1)%Q -> forall tol S lp, (0 <= tol)%Q -> rr_generation_lp rr md s t = Ok lp -> exact_answer lp (S lp) ->
    forall v p, rr_generate_farkas S rr md s t tol = Ok (Some v) -> rew_opt rr md p -> claim_near s p (Q2R t) (K * Q2R tol) /\ (Q2R tol = 0%R -> claim s p (Q2R t)).
  Proof.
    destruct rew_near as (K & K0 & HK). exists K. split; [exact K0|]. intros md s t CE T0 T1 tol S lp HT EL XA v p EG HP.
    destruct (rgen_entries md s t CE T0 T1 tol S lp HT EL XA v EG) as (EC & HN). pose proof (proj1 (rcheck_iff rr GR md s t v tol CE) EC) as (U & HL & HRW & HST). pose proof (Q2R_nonneg tol HT) as HT'.
    destruct (HK md s t (vec v) (Q2R tol) p CE HT' HRW) as (C1 & C2); auto.
    { intros SF r Hr. unfold vec. rewrite <- Q2R_opp. apply Qle_Rle. apply HN; auto. apply nth_In. destruct SF as (-> & [->| ->]); unfold rdim in HL; cbn [is_upper] in HL; fold rf c in HL; lia. }
    split; [exact C1|]. intros Z. rewrite Z, Rmult_0_r in C1. destruct s; cbn [claim_near claim strictly] in *; try (destruct md; contradiction); try lra; apply C2; auto.
  Qed.
End RG.
