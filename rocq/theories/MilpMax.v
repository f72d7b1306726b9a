(** Upper bounds for the points of the polytope of mode max. *)
From Coq Require Import String List Arith ZArith QArith Qreals Reals Bool Lia Lra Classical ClassicalChoice.
From Coq Require Lqa.
From Verif Require Import Base BaseFacts Num Matrix MatFacts InvDict SccSpec SpecMdp SpecEc SpecSystem SpecForm SpecBuilt SpecProb SpecSub SpecLp SpecMilp SumFacts MdpValue RfTheory SubTheory
  Amdp ReachForm ReachFormProofs RfFacts BuiltFacts RfBridge Farkas FarkReal Milp MilpProofs LpExists RfLpProofs FarkProofs CertProofs Formulations MilpBuild GroupProofs MilpForm.
Import ListNotations.
Local Open Scope nat_scope.

Lemma sumn_pos : forall n f, (forall i, i < n -> (0 <= f i)%R) -> (exists i, i < n /\ (0 < f i)%R) -> (0 < sumn n f)%R.
Proof. intros n f H (i & Hi & Hp). pose proof (sumn_term_le n i f Hi H). lra. Qed.

(** Without end components nothing circulates. *)
Lemma no_circulation : forall M, shape_mdp M -> ec_free M -> forall l, (forall r, r < nA M - 2 -> (0 <= l r)%R) -> (forall s, s < nS M - 2 -> (balance M l s <= 0)%R) ->
  forall r, r < nA M - 2 -> l r = 0%R.
Proof.
  intros M SH FREE l HL HB r0 Hr0. destruct (Rle_lt_or_eq_dec _ _ (HL r0 Hr0)) as [HP|]; [|auto]. exfalso.
  set (n := nS M - 2) in *. set (c := nA M - 2) in *. pose proof (RFW M SH) as W. destruct (RF2 M SH) as [N2 A2].
  assert (PP : forall r d, r < c -> d < nS M -> (0 <= prob M r d)%R) by (intros; apply (W_pos M W); auto; unfold c in *; lia).
  assert (TOT : sumn n (fun s => balance M l s) = sumn c (fun r => l r * (prob M r (goal M) + prob M r (fail M)))%R).
  { rewrite (sumn_ext n _ (fun s => balance M l s * 1)%R) by (intros; ring). unfold n. rewrite (balance_dual M SH l (fun _ => 1%R)). fold n c. apply sumn_ext. intros r Hr.
    pose proof (W_sum M W r ltac:(unfold c in *; lia)) as HS. rewrite sumn_split2 in HS by lia. change (sumn n (prob M r) + prob M r (goal M) + prob M r (fail M) = 1)%R in HS.
    rewrite (sumn_ext n (fun d => prob M r d * 1)%R (prob M r)) by (intros; ring). f_equal. lra. }
  assert (TP : (0 <= sumn c (fun r => l r * (prob M r (goal M) + prob M r (fail M))))%R).
  { apply sumn_nonneg. intros r Hr. apply Rmult_le_pos; [apply HL; auto|]. assert (0 <= prob M r (goal M))%R by (apply PP; auto; unfold goal; lia). assert (0 <= prob M r (fail M))%R by (apply PP; auto; unfold fail; lia). lra. }
  assert (BZ : forall s, s < n -> balance M l s = 0%R).
  { assert (Z : forall s, s < n -> (- balance M l s = 0)%R).
    { apply (sumn_nonneg_zero n (fun s => (- balance M l s)%R)); [intros s Hs; specialize (HB s Hs); lra|]. rewrite sumn_opp.
      assert (H0 : (sumn n (fun s => balance M l s) <= 0)%R); [|change (sumn n (fun i => balance M l i)) with (sumn n (balance M l)) in *; lra]. rewrite <- (sumn_zero n (fun _ => 0%R)) by auto. apply sumn_le. intros; apply HB; auto. }
    intros s Hs. specialize (Z s Hs). lra. }
  assert (ESC : forall r, r < c -> (l r * (prob M r (goal M) + prob M r (fail M)) = 0)%R).
  { apply sumn_nonneg_zero.
    - intros r Hr. apply Rmult_le_pos; [apply HL; auto|]. assert (0 <= prob M r (goal M))%R by (apply PP; auto; unfold goal; lia). assert (0 <= prob M r (fail M))%R by (apply PP; auto; unfold fail; lia). lra.
    - rewrite <- TOT. apply sumn_zero. auto. }
  set (X := fun s => exists r, r < c /\ src M r = s /\ (0 < l r)%R).
  assert (XN : forall s, X s -> s < n). { intros s (r & Hr & <- & _). apply (RF_src M SH r Hr). }
  destruct (choice (fun s r => X s -> r < c /\ src M r = s /\ (0 < l r)%R)) as (ch & Hch).
  { intros s. destruct (classic (X s)) as [(r & H)|H]; [exists r; auto|exists 0; tauto]. }
  destruct (closed_has_ec M W X ch) as (Y & B & HE & HY).
  - exists (src M r0). exists r0. auto.
  - intros s Hs. apply XN in Hs. unfold n in Hs. lia.
  - intros s Hs. destruct (Hch s Hs) as (C1 & C2 & _). split; [unfold c in C1; lia|auto].
  - intros s d Hs Hd Hp. destruct (Hch s Hs) as (C1 & C2 & C3). pose proof (ESC (ch s) C1) as HZ.
    assert (0 <= prob M (ch s) (goal M))%R by (apply PP; auto; unfold goal; lia). assert (0 <= prob M (ch s) (fail M))%R by (apply PP; auto; unfold fail; lia).
    apply Rmult_integral in HZ. destruct HZ as [HZ|HZ]; [lra|].
    destruct (state_cases M SH d Hd) as [Dn|[->| ->]]; [|lra|lra].
    apply NNPP. intros NX. assert (forall r, r < c -> src M r = d -> l r = 0%R).
    { intros r Hr Es. destruct (Rle_lt_or_eq_dec _ _ (HL r Hr)) as [HP'|]; [|auto]. exfalso. apply NX. exists r. auto. }
    specialize (BZ d Dn). unfold balance in BZ. fold c in BZ.
    assert (LT : (0 < sumn c (fun r => - (l r * ((if src M r =? d then 1 else 0) - prob M r d))))%R).
    { apply sumn_pos.
      - intros r Hr. destruct (Nat.eqb_spec (src M r) d) as [E|E]; [rewrite (H1 r Hr E); lra|]. pose proof (HL r Hr). pose proof (PP r d Hr Hd).
        assert (0 <= l r * prob M r d)%R by (apply Rmult_le_pos; auto). lra.
      - exists (ch s). split; [auto|]. destruct (Nat.eqb_spec (src M (ch s)) d) as [E|E]; [rewrite (H1 _ C1 E) in C3; lra|]. assert (0 < l (ch s) * prob M (ch s) d)%R by (apply Rmult_lt_0_compat; auto). lra. }
    rewrite sumn_opp in LT. lra.
  - destruct HE as (HE1 & HE2). destruct HE1 as (s & Ys). apply (FREE s); [apply XN; apply HY; auto|]. exists Y, B. split; [split; [exists s; auto|exact HE2]|exact Ys].
Qed.

Section Max.
  Variable rf : rform.
  Hypothesis BF : built_form rf.
  Hypothesis EX : exact_rows (a_P (rf_sys rf)).
  Hypothesis Hi : rf_init rf < a_N (rf_sys rf) - 2.
  Let P := a_P (rf_sys rf).
  Let inv := a_inv (rf_sys rf).
  Let init := rf_init rf.
  Let n := rf_N rf.
  Let c := rf_C rf.
  Let M := form_mdp rf.
  Let RFI : rf_mdp M init := br_rf rf BF EX.
  Let SH : shape_mdp M := proj1 RFI.

  Definition drop_row (r : nat) : ineq := (fun d => (- (CertProofs.ind (src M r) d - mget P r d))%Q, (-1)%Q).
  Definition drop_cs : list ineq := map drop_row (seq 0 c) ++ map nonneg_row (seq 0 n).

  Lemma drop_cone : forall cc, cone drop_cs cc -> exists l : nat -> Q, (forall r, (0 <= l r)%Q) /\
    (forall d, (fst cc d <= - sum_to c (fun r => l r * (CertProofs.ind (src M r) d - mget P r d)))%Q) /\ (snd cc == - sum_to c l)%Q.
  Proof.
    intros cc HC. induction HC as [cc Hc|c1 c2 _ IH1 _ IH2|q c1 Hq _ IH1].
    - unfold drop_cs in Hc. apply in_app_or in Hc. destruct Hc as [Hc|Hc]; apply in_map_iff in Hc; destruct Hc as (i & <- & HI); apply in_seq in HI.
      + exists (CertProofs.ind i). split; [intros; apply ind_pos|]. split.
        * intros d. cbn [fst drop_row]. rewrite (ind_sumQ c i (fun r => (CertProofs.ind (src M r) d - mget P r d)%Q)) by lia. Lqa.lra.
        * cbn [snd drop_row]. rewrite (sum_to_ext c (CertProofs.ind i) (fun r => CertProofs.ind i r * 1)%Q) by (intros; ring). rewrite (ind_sumQ c i (fun _ => 1%Q)) by lia. reflexivity.
      + exists (fun _ => 0%Q). split; [intros; Lqa.lra|]. split.
        * intros d. rewrite sum_to_scal. cbn [fst nonneg_row]. pose proof (ind_pos i d). Lqa.lra.
        * cbn [snd nonneg_row]. rewrite (sum_to_ext c (fun _ => 0%Q) (fun r => 0 * 1)%Q) by (intros; ring). rewrite sum_to_scal. Lqa.lra.
    - destruct IH1 as (l1 & A1 & B1 & C1). destruct IH2 as (l2 & A2 & B2 & C2). exists (fun r => l1 r + l2 r)%Q. split; [intros; specialize (A1 r); specialize (A2 r); Lqa.lra|]. split.
      + intros d. cbn [fst]. specialize (B1 d). specialize (B2 d).
        rewrite (sum_to_ext c _ (fun r => l1 r * (CertProofs.ind (src M r) d - mget P r d) + l2 r * (CertProofs.ind (src M r) d - mget P r d))%Q) by (intros; ring). rewrite sum_to_plus. Lqa.lra.
      + cbn [snd]. rewrite sum_to_plus. Lqa.lra.
    - destruct IH1 as (l1 & A1 & B1 & C1). exists (fun r => q * l1 r)%Q. split; [intros; apply Qmult_le_0_compat; auto|]. split.
      + intros d. cbn [fst]. specialize (B1 d). rewrite (sum_to_ext c _ (fun r => q * (l1 r * (CertProofs.ind (src M r) d - mget P r d)))%Q) by (intros; ring). rewrite sum_to_scal.
        setoid_replace (- (q * sum_to c (fun r => l1 r * (CertProofs.ind (src M r) d - mget P r d))))%Q with (q * (- sum_to c (fun r => l1 r * (CertProofs.ind (src M r) d - mget P r d))))%Q by ring.
        rewrite (Qmult_comm q (fst c1 d)), (Qmult_comm q (- _)). apply Qmult_le_compat_r; auto.
      + cbn [snd]. rewrite sum_to_scal, C1. ring.
  Qed.

  Hypothesis FREE : ec_free M.

  Lemma ranking : exists w : nat -> R, (forall s, s < n -> (0 <= w s)%R) /\ forall r, r < c -> (1 <= w (src M r) - sumn n (fun d => prob M r d * w d))%R.
  Proof.
    destruct (farkas_cone n drop_cs) as [(w & Hw)|(cc & HC & HZ & HN)].
    - exists (fun s => Q2R (w s)). split.
      + intros s Hs. assert (A : satQ n w (nonneg_row s)) by (apply Hw; unfold drop_cs; apply in_or_app; right; apply in_map; apply in_seq; lia).
        unfold satQ, nonneg_row in A; cbn [fst snd] in A. rewrite (sum_to_ext n _ (fun j => - (CertProofs.ind s j * w j))%Q) in A by (intros; ring). rewrite sum_to_opp, ind_sumQ in A by auto.
        rewrite <- RMicromega.Q2R_0. apply Qle_Rle. Lqa.lra.
      + intros r Hr. assert (A : satQ n w (drop_row r)) by (apply Hw; unfold drop_cs; apply in_or_app; left; apply in_map; apply in_seq; lia).
        unfold satQ, drop_row in A; cbn [fst snd] in A.
        rewrite (sum_to_ext n _ (fun j => - (CertProofs.ind (src M r) j * w j - mget P r j * w j))%Q) in A by (intros; ring). rewrite sum_to_opp, sum_to_minus in A.
        rewrite ind_sumQ in A by (apply (RF_src M SH); exact Hr). assert (B : (1 <= w (src M r) - sum_to n (fun d => mget P r d * w d))%Q) by Lqa.lra.
        apply Qle_Rle in B. rewrite RMicromega.Q2R_1, Q2R_minus, Q2R_sum_to in B.
        rewrite (sumn_ext n _ (fun d => Q2R (mget P r d * w d))) by (intros; rewrite Q2R_mult; reflexivity). exact B.
    - exfalso. destruct (drop_cone cc HC) as (l & L0 & LB & LS).
      assert (Z : forall r, r < c -> Q2R (l r) = 0%R).
      { apply (no_circulation M SH FREE (fun r => Q2R (l r))).
        - intros r _. rewrite <- RMicromega.Q2R_0. apply Qle_Rle. apply L0.
        - intros s Hs. specialize (LB s). rewrite HZ in LB by exact Hs. assert (LB' : (sum_to c (fun r => l r * (CertProofs.ind (src M r) s - mget P r s)) <= 0)%Q) by Lqa.lra.
          apply Qle_Rle in LB'. rewrite RMicromega.Q2R_0, Q2R_sum_to in LB'. unfold balance. change (nA M - 2) with c. eapply Rle_trans; [|exact LB']. apply Req_le. apply sumn_ext. intros r Hr.
          rewrite Q2R_mult, Q2R_minus. f_equal. f_equal. unfold CertProofs.ind. destruct (src M r =? s); [rewrite RMicromega.Q2R_1|rewrite RMicromega.Q2R_0]; reflexivity. }
      assert (S0 : (sum_to c l == 0)%Q). { apply eqR_Qeq. rewrite Q2R_sum_to, RMicromega.Q2R_0. apply sumn_zero. auto. }
      rewrite LS, S0 in HN. Lqa.lra.
  Qed.

  Definition max_point (t : Q) (x : nat -> R) : Prop := polytope rf Max t x /\ forall i, i < c -> (0 <= x i)%R.

  Lemma max_bounded : exists B, forall t x, max_point t x -> (sumn c x <= B)%R.
  Proof.
    destruct ranking as (w & W0 & WR). exists (w init). intros t x (HP & H0). apply (polytope_max rf BF) in HP. destruct HP as [HB _].
    apply Rle_trans with (sumn c (fun r => x r * (w (src M r) - sumn n (fun d => prob M r d * w d)))%R).
    { apply sumn_le. intros r Hr. specialize (WR r Hr). specialize (H0 r Hr). assert (0 <= x r * ((w (src M r) - sumn n (fun d => prob M r d * w d)) - 1))%R by (apply Rmult_le_pos; lra). lra. }
    pose proof (balance_dual M SH x w) as E. change (nS M - 2) with n in E. change (nA M - 2) with c in E. rewrite <- E. clear E.
    rewrite <- (delta_sum M init w Hi). change (nS M - 2) with n. apply sumn_le. intros s Hs. apply Rmult_le_compat_r; [apply W0; auto|]. apply HB. exact Hs.
  Qed.

  Lemma upper_bound_lp_spec : forall t, exists A b lp, fark_constraints rf t Max = Ok (A, b) /\ length A = Datatypes.S n /\ upper_bound_lp A c b = Ok lp /\ lp_wf lp /\ length (mi_vars lp) = c /\
    mi_dir lp = Maximise /\ (forall x, objective lp x = sumn c x) /\ forall x, feasible lp x <-> max_point t x.
  Proof.
    intros t. destruct (fark_real rf BF Hi Max t ltac:(discriminate)) as (A & b & EA & LB & LA & HW & HR). change (cert_dim rf Max) with c in *. fold n in LA.
    unfold upper_bound_lp. destruct (lp_spec A c b (repeat 1%Q c) SLe Maximise) as (m0 & E0 & OK0 & VL0 & D0 & O0 & F0);
      [discriminate|discriminate|intros row Hr; rewrite (HW row Hr); auto|lia|rewrite repeat_length; auto|].
    pose proof (lp_from_coefficients_wf _ _ _ _ _ _ _ E0) as W0.
    destruct (add_constraints_spec (map (fun j => ([(j, 1%Q)], SGe, 0%Q)) (seq 0 c)) m0 OK0) as (lp & E1 & OK1 & VL1 & O1 & D1 & F1).
    { intros cc H. apply in_map_iff in H. destruct H as (s & <- & Hs). apply in_seq in Hs. split; [discriminate|]. split; [|constructor; [intros []|constructor]].
      intros v r [Ev|[]]. inversion Ev; subst. lia. }
    exists A, b, lp. split; [exact EA|]. split; [exact LA|]. rewrite E0. cbn [bind]. split; [exact E1|]. split; [eapply add_constraints_wf; eauto|]. split; [congruence|]. split; [congruence|]. split.
    { intros x. rewrite (objective_spec lp (fun j => nth j (repeat 1%Q c) 0%Q) c x); [apply sumn_ones; auto|]. rewrite O1. exact O0. }
    intros x. rewrite F1, F0. unfold max_point. rewrite <- HR. unfold rowR. cbn [rel]. split.
    - intros (A1 & A2). split; [exact A1|]. intros i Hic. specialize (A2 [(i, 1%Q)] SGe 0%Q (in_map _ _ _ (proj2 (in_seq c 0 i) ltac:(lia)))). cbn [rel] in A2. rewrite lin_one, RMicromega.Q2R_0 in A2. lra.
    - intros (A1 & A2). split; [exact A1|]. intros l s1 q H. apply in_map_iff in H. destruct H as (s & Eq & Hs). apply in_seq in Hs. inversion Eq; subst. cbn [rel]. rewrite lin_one, RMicromega.Q2R_0.
      specialize (A2 s ltac:(lia)). lra.
  Qed.

  (** One row per state: the point-wise maximum of two points is a point. *)
  Lemma one_row_inj : c = n -> forall r r', r < c -> r' < c -> src M r = src M r' -> r = r'.
  Proof.
    intros E. assert (ND : NoDup (map (src M) (seq 0 c))).
    { apply NoDup_incl_NoDup with (l := seq 0 n); [apply seq_NoDup|rewrite map_length, !seq_length; lia|].
      intros s Hs. apply in_seq in Hs. destruct (W_act M (RFW M SH) s) as (r & Hr & Es). { change (nS M) with (a_N (rf_sys rf)). unfold n, rf_N in Hs. lia. }
      apply in_map_iff. exists r. split; [auto|]. apply in_seq. split; [lia|]. assert (r < nA M - 2) by (eapply (rows_in M SH s); eauto; change (nS M - 2) with n; lia). exact H. }
    intros r r' Hr Hr' Es. pose proof (proj1 (NoDup_nth (map (src M) (seq 0 c)) 0) ND r r') as H. rewrite map_length, seq_length in H.
    assert (G : forall k, k < c -> nth k (map (src M) (seq 0 c)) 0 = src M k).
    { intros k Hk. rewrite (nth_indep _ 0 (src M 0)) by (rewrite map_length, seq_length; auto). rewrite map_nth, seq_nth by auto. reflexivity. }
    rewrite !G in H by auto. auto.
  Qed.

  Lemma max_join : c = n -> forall t x y, max_point t x -> max_point t y -> max_point t (fun i => Rmax (x i) (y i)).
  Proof.
    intros EC t x y (PX & X0) (PY & Y0). apply (polytope_max rf BF) in PX, PY. destruct PX as [BX TX]. destruct PY as [BY TY].
    pose proof (RFW M SH) as W.
    assert (PP : forall r d, r < c -> d < nS M -> (0 <= prob M r d)%R). { intros r d Hr Hd. apply (W_pos M W); auto. change (nA M) with (a_C (rf_sys rf)). unfold c, rf_C in Hr. lia. }
    assert (GN : forall r, r < c -> (0 <= prob M r (goal M))%R). { intros r Hr. apply PP; auto. unfold goal. destruct (RF2 M SH). lia. }
    split; [apply (polytope_max rf BF)|].
    2:{ intros i Hic. eapply Rle_trans; [apply (X0 i Hic)|apply Rmax_l]. }
    split.
    - intros s Hs. fold M.
      destruct (W_act M W s) as (r & Hr & Es). { change (nS M) with (a_N (rf_sys rf)). unfold rf_N in Hs. lia. }
      assert (Hrc : r < c) by (eapply (rows_in M SH s); eauto).
      assert (BE : forall y, balance M y s = (y r - sumn c (fun i => y i * prob M i s))%R).
      { intros u. unfold balance. change (nA M - 2) with c. rewrite (sumn_ext c _ (fun i => (if i =? r then u r else 0) - u i * prob M i s)%R).
        - rewrite sumn_minus, sumn_indicator by auto. reflexivity.
        - intros i Hic. destruct (Nat.eqb_spec i r) as [->|NE].
          + rewrite Es, Nat.eqb_refl. ring.
          + destruct (Nat.eqb_spec (src M i) s) as [E|E]; [|ring]. exfalso. apply NE. apply (one_row_inj EC); auto. congruence. }
      specialize (BX s Hs). specialize (BY s Hs). fold M in BX, BY. fold init in BX, BY. fold init. rewrite BE in BX, BY. rewrite BE.
      assert (Hs' : s < nS M). { change (nS M) with (a_N (rf_sys rf)). unfold rf_N in Hs. lia. }
      assert (LX : (sumn c (fun i => x i * prob M i s) <= sumn c (fun i => Rmax (x i) (y i) * prob M i s))%R) by (apply sumn_le; intros i Hic; apply Rmult_le_compat_r; [apply PP; auto|apply Rmax_l]).
      assert (LY : (sumn c (fun i => y i * prob M i s) <= sumn c (fun i => Rmax (x i) (y i) * prob M i s))%R) by (apply sumn_le; intros i Hic; apply Rmult_le_compat_r; [apply PP; auto|apply Rmax_r]).
      unfold Rmax at 1. destruct (Rle_dec (x r) (y r)); lra.
    - eapply Rle_trans; [exact TX|]. fold M. unfold to_goal. change (nA M - 2) with c. apply sumn_le. intros i Hic. apply Rmult_le_compat_r; [apply GN; auto|apply Rmax_l].
  Qed.

  (** The computed bounds. *)
  Lemma bounds_max : forall t, exists A b lp, fark_constraints rf t Max = Ok (A, b) /\ upper_bound_lp A c b = Ok lp /\ (exists r, exact_answer lp r) /\
    forall S, exact_answer lp (S lp) ->
      ((forall x, ~ max_point t x) /\ exists u, compute_upper_bounds S A c b = Ok (Infeasible, u)) \/
      ((exists x, max_point t x) /\ exists u, compute_upper_bounds S A c b = Ok (Optimal, u) /\ length u = c /\
        forall x, max_point t x -> forall i, i < c -> (x i <= vec u i)%R).
  Proof.
    intros t. destruct (upper_bound_lp_spec t) as (A & b & lp & EA & LA & EL & WF & VL & D & O & F). exists A, b, lp. split; [exact EA|]. split; [exact EL|]. split; [apply lp_answer_exists; auto|].
    intros S HS. unfold compute_upper_bounds. rewrite EL. cbn [bind].
    destruct (classic (exists x, max_point t x)) as [FX|FX].
    - right. split; [exact FX|]. destruct max_bounded as (B & HB).
      assert (OS : sr_status (S lp) = Optimal).
      { apply (exact_optimal lp (S lp) HS); [destruct FX as (x & Hx); exists x; apply F; auto|]. exists B. intros x Hx. rewrite D, O. simpl. apply (HB t). apply F. auto. }
      rewrite OS. cbn [assert_ bind]. eexists. split; [reflexivity|]. unfold exact_answer in HS. rewrite OS in HS. destruct HS as (LV & (FO & OO) & VO).
      rewrite LA. destruct (Nat.eqb_spec (c + 1) (Datatypes.S n)) as [E|E].
      + split; [congruence|]. intros x Hx i Hic. apply F in FO. pose proof (max_join ltac:(lia) t x _ Hx FO) as HJ. apply F in HJ. specialize (OO _ HJ). rewrite D, !O in OO. simpl in OO.
        assert (EQ : vec (sr_vec (S lp)) i = Rmax (x i) (vec (sr_vec (S lp)) i)).
        { apply (sumn_eq_pointwise c (vec (sr_vec (S lp))) (fun i => Rmax (x i) (vec (sr_vec (S lp)) i))); auto. intros j _. apply Rmax_r. }
        rewrite EQ. apply Rmax_l.
      + split; [apply repeat_length|]. intros x Hx i Hic. unfold vec. rewrite (nth_indep _ 0%Q (sr_val (S lp))) by (rewrite repeat_length; auto). rewrite nth_repeat, VO, O.
        apply F in Hx. specialize (OO _ Hx). rewrite D, !O in OO. simpl in OO. eapply Rle_trans; [|exact OO]. apply sumn_term_le; auto. apply F in Hx. apply Hx.
    - left. split; [intros x Hx; apply FX; eauto|]. unfold exact_answer in HS. destruct (sr_status (S lp)) eqn:ES; try contradiction.
      + exfalso. apply FX. exists (vec (sr_vec (S lp))). apply F. apply HS.
      + cbn. eauto.
      + exfalso. destruct HS as ((x & Hx) & _). apply FX. exists x. apply F. auto.
  Qed.
End Max.
