(** The polytopes of certificates for rewards: real form, bounds, and the points
    supported in witnesses. *)
From Coq Require Import String List Arith ZArith QArith Qreals Reals Bool Lia Lra Classical.
From Coq Require Lqa.
From Verif Require Import Base BaseFacts Num Matrix MatFacts InvDict SccSpec SpecMdp SpecEc SpecSystem SpecForm SpecBuilt SpecProb SpecSub SpecLp SpecMilp SpecReward SpecRewSub SumFacts MdpValue RfTheory SubTheory RewTheory RewSub
  Amdp ReachForm ReachFormProofs RfFacts BuiltFacts RfBridge Farkas FarkReal Milp MilpProofs LpExists FarkProofs CertProofs SubProofs4 RfLpProofs Formulations MilpBuild GroupProofs MilpForm MilpMax MilpKeep MilpExact RewardForm RewardProofs RewProblems.
Import ListNotations.
Local Open Scope nat_scope.

Section RM.
  Variable rr : rrform.
  Let rf := rr_rf rr.
  Hypothesis BF : built_form rf.
  Hypothesis EX : exact_rows (a_P (rf_sys rf)).
  Let P := a_P (rf_sys rf).
  Let inv := a_inv (rf_sys rf).
  Let init := rf_init rf.
  Let n := rf_N rf.
  Let c := rf_C rf.
  Let M := form_mdp rf.
  Let RFI : rf_mdp M init := br_rf rf BF EX.
  Let SH : shape_mdp M := proj1 RFI.
  Hypothesis Hi : rf_init rf < a_N (rf_sys rf) - 2.
  Hypothesis LR : length (rr_rew rr) = rf_C rf.
  Let rw := row_reward (rr_rew rr).

  Definition rpoly (md : mode) (t : Q) (x : nat -> R) : Prop :=
    match md with
    | Max => (forall s, s < n -> (balance M x s <= if s =? init then 1 else 0)%R) /\ (Q2R t <= sumn c (fun r => rw r * x r))%R
    | _ => (forall r, r < c -> (x (src M r) <= rstep M rw r x)%R) /\ (Q2R t <= x init)%R
    end.

  Lemma rpoly_iff : forall md t x, md <> OtherMode -> (rew_polytope rr md t x <-> rpoly md t x /\ forall v, v < cert_dim rf md -> (0 <= x v)%R).
  Proof.
    intros md t x Hm. destruct md; [| |congruence]; cbn [rew_polytope rpoly cert_dim].
    - split.
      + intros (A & B & C). split; [split; [|exact B]|exact C]. intros r Hr. destruct (br_row rf BF r Hr) as (a & E & _). specialize (A r _ _ Hr E). exact A.
      + intros ((A & B) & C). split; [|split; [exact B|exact C]]. intros i s a HiC E. specialize (A i HiC). unfold M in A. rewrite (br_src rf i s a E) in A. exact A.
    - assert (EB : forall s, s < n -> (sumn c (fun i => if belongs inv i s then x i else 0) - sumn c (fun i => Q2R (mget P i s) * x i))%R = balance M x s).
      { intros s Hs. rewrite <- sumn_minus. unfold balance. change (nA M - 2) with c. apply sumn_ext. intros i HiC. destruct (br_row rf BF i HiC) as (a & E & _).
        unfold belongs. change (inv i) with (a_inv (rf_sys rf) i). rewrite E. change (prob M i s) with (Q2R (mget P i s)). fold M. destruct (src M i =? s); ring. }
      split.
      + intros (A & B & C). split; [split; [|exact B]|exact C]. intros s Hs. rewrite <- EB by exact Hs. apply A. exact Hs.
      + intros ((A & B) & C). split; [|split; [exact B|exact C]]. intros s Hs. specialize (A s Hs). rewrite <- EB in A by exact Hs. exact A.
  Qed.

  Lemma rpoly_ext : forall md t x y, md <> OtherMode -> (forall v, v < cert_dim rf md -> x v = y v) -> rpoly md t x -> rpoly md t y.
  Proof.
    intros md t x y Hm E H. destruct md; [| |congruence]; cbn [rpoly cert_dim] in *; destruct H as (A & B).
    - split; [|rewrite <- E by exact Hi; exact B]. intros r Hr. specialize (A r Hr). rewrite <- E by (apply (RF_src M SH); exact Hr). eapply Rle_trans; [exact A|]. apply Req_le. unfold rstep. f_equal. apply sumn_ext. intros d Hd. rewrite E by exact Hd. reflexivity.
    - split.
      + intros s Hs. specialize (A s Hs). eapply Rle_trans; [|exact A]. apply Req_le. unfold balance. apply sumn_ext. intros i Hic. rewrite E by exact Hic. reflexivity.
      + eapply Rle_trans; [exact B|]. apply Req_le. apply sumn_ext. intros i Hic. rewrite E by exact Hic. reflexivity.
  Qed.

  Lemma rr_fark_y_real : forall t, exists A b, rr_fark_y rr t = Ok (A, b) /\ length A = S n /\ length b = S n /\
    (forall row, In row A -> length row = c) /\
    (forall s x, s < n -> rowR A c s x = balance M x s) /\
    (forall s, s < n -> Q2R (nth s b 0%Q) = if s =? init then 1%R else 0%R) /\
    (forall x, rowR A c n x = (- sumn c (fun r => rw r * x r))%R) /\ Q2R (nth n b 0%Q) = (- Q2R t)%R.
  Proof.
    intros t. assert (Hi' : rf_init rf <= rf_N rf) by (unfold rf_N; lia). destruct (fark_y_real rf BF t Hi') as (A & b & E & LA & LB & HW & R1 & B1 & R2 & B2).
    unfold fark_y in E. assert (HB : (rf_init rf <? S (rf_N rf)) = true) by (apply Nat.ltb_lt; lia). rewrite HB in E.
    pose proof (f_equal (fun r => match r with Ok p => fst p | Err _ => [] end) E) as EA. pose proof (f_equal (fun r => match r with Ok p => snd p | Err _ => [] end) E) as Eb. cbn beta iota delta [fst snd] in EA, Eb.
    unfold rr_fark_y. fold rf. rewrite HB, LR, Nat.eqb_refl. rewrite Eb. eexists. eexists. split; [reflexivity|].
    set (cols := map (column (rf_A rf)) (seq 0 (rf_N rf))) in *. assert (LC : length cols = n) by (unfold cols; rewrite map_length, seq_length; auto).
    split; [rewrite app_length, LC; cbn; unfold n; lia|]. split; [exact LB|]. split.
    { intros row Hrow. apply in_app_or in Hrow. destruct Hrow as [Hrow|[<-|[]]]; [apply HW; rewrite <- EA; apply in_or_app; auto|rewrite map_length; exact LR]. }
    split; [|split; [exact B1|split; [|exact B2]]].
    - intros s x Hs. pose proof (R1 s x Hs) as E1. fold M in E1. rewrite <- E1. rewrite <- EA. unfold rowR. rewrite !app_nth1 by (rewrite LC; exact Hs). reflexivity.
    - intros x. unfold rowR. rewrite app_nth2 by (rewrite LC; lia). rewrite LC, Nat.sub_diag. cbn [nth]. rewrite <- sumn_opp. apply sumn_ext. intros r Hr.
      rewrite (nth_indep _ 0%Q (Qopp 0%Q)) by (rewrite map_length, LR; exact Hr). rewrite map_nth, Q2R_opp. unfold rw, row_reward. ring.
  Qed.

  Lemma rr_fark_real : forall md t, md <> OtherMode -> exists A b, rr_fark_constraints rr t md = Ok (A, b) /\ length b = length A /\
    length A = Datatypes.S (match md with Max => n | _ => c end) /\ (forall row, In row A -> length row = cert_dim rf md) /\
    forall x, (forall i, i < length A -> (rowR A (cert_dim rf md) i x <= Q2R (nth i b 0%Q))%R) <-> rpoly md t x.
  Proof.
    intros md t Hm. destruct md; [| |congruence]; cbn [rr_fark_constraints].
    - destruct (rr_fark_z_real rr BF Hi LR t) as (A & b & E & LA & LB & HW & R1 & B1 & R2 & B2). exists A, b. split; [exact E|]. split; [congruence|]. split; [exact LA|]. split; [exact HW|].
      intros x. cbn [rpoly]. change (cert_dim rf Min) with n.
      change (rf_N (rr_rf rr)) with n in *. change (rf_C (rr_rf rr)) with c in *. change (form_mdp (rr_rf rr)) with M in *. change (rf_init (rr_rf rr)) with init in *. split.
      + intros H. split.
        * intros r Hr. specialize (H r ltac:(lia)). rewrite R1, B1 in H by auto. unfold rstep. change (nS M - 2) with n. fold rw in H. lra.
        * specialize (H c ltac:(lia)). rewrite R2, B2 in H. lra.
      + intros (H1 & H2) i Hic. assert (i < c \/ i = c) as [Hlt| ->] by lia.
        * rewrite R1, B1 by auto. specialize (H1 i Hlt). unfold rstep in H1. change (nS M - 2) with n in H1. fold rw. lra.
        * rewrite R2, B2. lra.
    - destruct (rr_fark_y_real t) as (A & b & E & LA & LB & HW & R1 & B1 & R2 & B2). exists A, b. split; [exact E|]. split; [congruence|]. split; [exact LA|]. split; [exact HW|].
      intros x. cbn [rpoly]. change (cert_dim rf Max) with c. split.
      + intros H. split.
        * intros s Hs. specialize (H s ltac:(lia)). rewrite R1, B1 in H by auto. exact H.
        * specialize (H n ltac:(lia)). rewrite R2, B2 in H. lra.
      + intros (H1 & H2) i Hic. assert (i < n \/ i = n) as [Hlt| ->] by lia.
        * rewrite R1, B1 by auto. apply H1; auto.
        * rewrite R2, B2. lra.
  Qed.

  Hypothesis FREE : ec_free M.
  Hypothesis NR : forall q, In q (rr_rew rr) -> (0 <= q)%Q.
  Let R0 : forall r, (0 <= rw r)%R := rw_pos rr NR.
  Let RZ : forall r, c <= r -> rw r = 0%R := rw_out rr Hi LR.

  Definition rpoint (md : mode) (t : Q) (x : nat -> R) : Prop := rpoly md t x /\ forall v, v < cert_dim rf md -> (0 <= x v)%R.
  Lemma rpoint_sub : forall t x, rpoint Min t x <-> sub_sol M rw x /\ (Q2R t <= x init)%R.
  Proof. intros t x. unfold rpoint, sub_sol. cbn [rpoly cert_dim]. change (nS M - 2) with n. change (nA M - 2) with c. change (a_N (rf_sys rf) - 2) with n. tauto. Qed.

  Lemma rbounded : forall md t, md <> OtherMode -> exists B, forall x, rpoint md t x -> (sumn (cert_dim rf md) x <= B)%R.
  Proof.
    intros md t Hm. destruct (rank rr BF EX Hi FREE) as (w & W0 & WR). destruct md; [| |congruence].
    - destruct (min_exists M SH w W0 WR rw (fun r _ => R0 r) RZ) as (z & ZS & _ & ZM). exists (sumn n z). intros x Hx. apply rpoint_sub in Hx. destruct Hx as [Hx _].
      cbn [cert_dim]. change (a_N (rf_sys rf) - 2) with n. apply sumn_le. intros s Hs. apply (ZM x Hx s Hs).
    - exists (w init). intros x ((HB & _) & H0). change (cert_dim rf Max) with c in *.
      apply Rle_trans with (sumn c (fun r => x r * (w (src M r) - sumn n (fun d => prob M r d * w d)))%R).
      { apply sumn_le. intros r Hr. pose proof (WR r Hr) as WRr. fold rf in WRr. fold M in WRr. change (rf_N rf) with n in WRr. specialize (H0 r Hr). assert (0 <= x r * ((w (src M r) - sumn n (fun d => prob M r d * w d)) - 1))%R by (apply Rmult_le_pos; lra). lra. }
      pose proof (balance_dual M SH x w) as E. change (nS M - 2) with n in E. change (nA M - 2) with c in E. rewrite <- E. clear E.
      rewrite <- (delta_sum M init w Hi). change (nS M - 2) with n. apply sumn_le. intros s Hs. apply Rmult_le_compat_r; [apply W0; auto|]. apply HB. exact Hs.
  Qed.

  Lemma rjoin : forall md t, md <> OtherMode -> (md = Max -> c = n) -> forall x y, rpoint md t x -> rpoint md t y -> rpoint md t (fun i => Rmax (x i) (y i)).
  Proof.
    intros md t Hm HC x y Hx Hy. pose proof (RFW M SH) as W.
    assert (PP : forall r d, r < c -> d < nS M -> (0 <= prob M r d)%R). { intros r d Hr Hd. apply (W_pos M W); auto. change (nA M) with (a_C (rf_sys rf)). unfold c, rf_C in Hr. lia. }
    destruct Hx as (PX & X0). destruct Hy as (PY & Y0).
    split. 2:{ intros i Hic. eapply Rle_trans; [apply (X0 i Hic)|apply Rmax_l]. }
    destruct md; [| |congruence]; cbn [rpoly] in *; destruct PX as [BX TX]; destruct PY as [BY TY].
    - split; [|eapply Rle_trans; [exact TX|apply Rmax_l]]. intros r Hr.
      assert (MO : forall z, (forall s, (z s <= Rmax (x s) (y s))%R) -> (rstep M rw r z <= rstep M rw r (fun i => Rmax (x i) (y i)))%R).
      { intros z Hz. unfold rstep. apply Rplus_le_compat_l. apply sumn_le. intros d Hd. apply Rmult_le_compat_l; [apply PP; [exact Hr|]|apply Hz]. lia. }
      unfold Rmax at 1. destruct (Rle_dec (x (src M r)) (y (src M r))); [eapply Rle_trans; [apply (BY r Hr)|apply MO; intros; apply Rmax_r]|eapply Rle_trans; [apply (BX r Hr)|apply MO; intros; apply Rmax_l]].
    - specialize (HC eq_refl). split.
      + intros s Hs. destruct (W_act M W s) as (r & Hr & Es). { change (nS M) with (a_N (rf_sys rf)). unfold n, rf_N in Hs. lia. }
        assert (Hrc : r < c) by (eapply (rows_in M SH s); eauto).
        assert (BE : forall u, balance M u s = (u r - sumn c (fun i => u i * prob M i s))%R).
        { intros u. unfold balance. change (nA M - 2) with c. rewrite (sumn_ext c _ (fun i => (if i =? r then u r else 0) - u i * prob M i s)%R).
          - rewrite sumn_minus, sumn_indicator by auto. reflexivity.
          - intros i Hic. destruct (Nat.eqb_spec i r) as [->|NE].
            + rewrite Es, Nat.eqb_refl. ring.
            + destruct (Nat.eqb_spec (src M i) s) as [E|E]; [|ring]. exfalso. apply NE. apply (one_row_inj rf BF EX Hi HC); auto. fold M. congruence. }
        specialize (BX s Hs). specialize (BY s Hs). rewrite BE in BX, BY. rewrite BE.
        assert (Hs' : s < nS M). { change (nS M) with (a_N (rf_sys rf)). unfold n, rf_N in Hs. lia. }
        assert (LX : (sumn c (fun i => x i * prob M i s) <= sumn c (fun i => Rmax (x i) (y i) * prob M i s))%R) by (apply sumn_le; intros i Hic; apply Rmult_le_compat_r; [apply PP; auto|apply Rmax_l]).
        assert (LY : (sumn c (fun i => y i * prob M i s) <= sumn c (fun i => Rmax (x i) (y i) * prob M i s))%R) by (apply sumn_le; intros i Hic; apply Rmult_le_compat_r; [apply PP; auto|apply Rmax_r]).
        unfold Rmax at 1. destruct (Rle_dec (x r) (y r)); lra.
      + eapply Rle_trans; [exact TX|]. apply sumn_le. intros i Hic. apply Rmult_le_compat_l; [apply R0|apply Rmax_l].
  Qed.

  (** ** Points supported in a witness: mode max *)
  Section Y.
  Variable keep : nat -> bool.
  Definition rrew_row (t : Q) : ineq := ((fun r => nth r (rr_rew rr) 0%Q), t).
  Definition rkeep_cs (t : Q) : list ineq := map zero_row (filter (fun i => negb (keep (src M i))) (seq 0 c)) ++ map nonneg_row (seq 0 c) ++ map (flow_row rf) (seq 0 n) ++ [neg (rrew_row t)].

  Lemma rkeep_cone : forall t cc, cone (rkeep_cs t) cc -> exists w nu, (forall s, (0 <= w s)%Q) /\ (0 <= nu)%Q /\
    (forall j, keep (src M j) = true -> (fst cc j <= drop rf w j - nu * nth j (rr_rew rr) 0)%Q) /\ (snd cc == w init - nu * t)%Q.
  Proof.
    intros t cc HC. induction HC as [cc Hc|c1 c2 _ IH1 _ IH2|q c1 Hq _ IH1].
    - unfold rkeep_cs in Hc. rewrite !in_app_iff in Hc. destruct Hc as [Hc|[Hc|[Hc|[<-|[]]]]].
      + apply in_map_iff in Hc. destruct Hc as (i & <- & Hf). apply filter_In in Hf. destruct Hf as [_ Hf]. apply negb_true_iff in Hf.
        exists (fun _ => 0%Q), 0%Q. split; [intros; Lqa.lra|]. split; [Lqa.lra|]. split.
        * intros j Hj. rewrite drop_zero. cbn [fst zero_row]. unfold CertProofs.ind. destruct (Nat.eqb_spec i j) as [->|]; [congruence|]. Lqa.lra.
        * cbn [snd zero_row]. ring.
      + apply in_map_iff in Hc. destruct Hc as (i & <- & _). exists (fun _ => 0%Q), 0%Q. split; [intros; Lqa.lra|]. split; [Lqa.lra|]. split.
        * intros j _. rewrite drop_zero. unfold nonneg_row; cbn [fst]. pose proof (ind_pos i j). Lqa.lra.
        * unfold nonneg_row; cbn [snd]. ring.
      + apply in_map_iff in Hc. destruct Hc as (s & <- & Hs). apply in_seq in Hs. exists (CertProofs.ind s), 0%Q. split; [intros; apply ind_pos|]. split; [Lqa.lra|]. split.
        * intros j _. rewrite (drop_ind rf) by (fold n; lia). Lqa.lra.
        * unfold flow_row, at_init, CertProofs.ind; cbn [snd]. fold init. destruct (s =? init); ring.
      + exists (fun _ => 0%Q), 1%Q. split; [intros; Lqa.lra|]. split; [Lqa.lra|]. split.
        * intros j _. rewrite drop_zero. unfold neg, rrew_row; cbn [fst]. Lqa.lra.
        * unfold neg, rrew_row; cbn [snd]. ring.
    - destruct IH1 as (w1 & n1 & A1 & B1 & C1 & D1). destruct IH2 as (w2 & n2 & A2 & B2 & C2 & D2).
      exists (fun s => w1 s + w2 s)%Q, (n1 + n2)%Q. split; [intros; specialize (A1 s); specialize (A2 s); Lqa.lra|]. split; [Lqa.lra|]. split.
      + intros j Hj. rewrite drop_add. cbn [fst]. specialize (C1 j Hj). specialize (C2 j Hj). Lqa.lra.
      + cbn [snd]. rewrite D1, D2. ring.
    - destruct IH1 as (w1 & n1 & A1 & B1 & C1 & D1). exists (fun s => q * w1 s)%Q, (q * n1)%Q.
      split; [intros; apply Qmult_le_0_compat; auto|]. split; [apply Qmult_le_0_compat; auto|]. split.
      + intros j Hj. rewrite drop_scale. cbn [fst]. specialize (C1 j Hj).
        setoid_replace (q * drop rf w1 j - q * n1 * nth j (rr_rew rr) 0)%Q with (q * (drop rf w1 j - n1 * nth j (rr_rew rr) 0))%Q by ring.
        rewrite (Qmult_comm q (fst c1 j)), (Qmult_comm q). apply Qmult_le_compat_r; auto.
      + cbn [snd]. rewrite D1. ring.
  Qed.

  (** If no super-solution of the restriction is below the threshold, there is a
      point supported in it. *)
  Lemma ry_complete : forall t, (forall z, sup_sol (restrict M keep) (krew M rw keep) z -> (Q2R t <= z init)%R) ->
    exists y, rpoint Max t y /\ forall i, i < c -> keep (src M i) = false -> y i = 0%R.
  Proof.
    intros t HV. destruct (farkas_cone c (rkeep_cs t)) as [(y & Hy)|(cc & HC & HZ & HN)].
    - exists (fun i => Q2R (y i)).
      assert (Y0 : forall i, i < c -> (0 <= y i)%Q).
      { intros i Hic. assert (A : satQ c y (nonneg_row i)). { apply Hy. unfold rkeep_cs. rewrite !in_app_iff. right; left. apply in_map. apply in_seq. lia. }
        unfold satQ, nonneg_row in A; cbn [fst snd] in A.
        rewrite (sum_to_ext c _ (fun j => - (CertProofs.ind i j * y j))%Q) in A by (intros; ring). rewrite sum_to_opp, ind_sumQ in A by auto. Lqa.lra. }
      assert (SR : forall f : nat -> Q, Q2R (sum_to c (fun j => f j * y j)%Q) = sumn c (fun j => Q2R (f j) * Q2R (y j))%R).
      { intros f. rewrite Q2R_sum_to. apply sumn_ext. intros. apply Q2R_mult. }
      split; [split|].
      + split.
        * intros s Hs. assert (A : satQ c y (flow_row rf s)). { apply Hy. unfold rkeep_cs. rewrite !in_app_iff. right; right; left. apply in_map. apply in_seq. lia. }
          unfold satQ in A. apply Qle_Rle in A. rewrite SR in A. unfold flow_row in A; cbn [fst snd] in A. unfold balance. change (nA M - 2) with c.
          rewrite (at_init_R rf s) in A. eapply Rle_trans; [|exact A]. apply Req_le. apply sumn_ext. intros j Hj. rewrite Q2R_minus, Rmult_comm. f_equal. f_equal.
          fold M. destruct (src M j =? s); [rewrite RMicromega.Q2R_1|rewrite RMicromega.Q2R_0]; reflexivity.
        * assert (A : satQ c y (neg (rrew_row t))). { apply Hy. unfold rkeep_cs. rewrite !in_app_iff. right; right; right; left; auto. }
          apply neg_Q in A. apply Qle_Rle in A. rewrite SR in A. unfold rrew_row in A; cbn [fst snd] in A. exact A.
      + intros i Hic. rewrite <- RMicromega.Q2R_0. apply Qle_Rle. apply Y0; exact Hic.
      + intros i Hic K. assert (A : satQ c y (zero_row i)). { apply Hy. apply in_or_app. left. apply in_map. apply filter_In. split; [apply in_seq; lia|rewrite K; reflexivity]. }
        unfold satQ, zero_row in A; cbn [fst snd] in A. rewrite ind_sumQ in A by auto. specialize (Y0 i Hic). rewrite (Qeq_eqR (y i) 0) by Lqa.lra. apply RMicromega.Q2R_0.
    - exfalso. destruct (rkeep_cone t cc HC) as (w & nu & W0 & N0 & DR & SN).
      destruct (Qlt_le_dec 0 nu) as [Hn|Hn].
      2:{ assert (E : (nu == 0)%Q) by Lqa.lra. rewrite SN, E in HN. specialize (W0 init). Lqa.lra. }
      assert (NP : (0 < Q2R nu)%R) by (rewrite <- RMicromega.Q2R_0; apply Qlt_Rlt; auto).
      set (z := fun s => (Q2R (w s) / Q2R nu)%R).
      assert (Z0 : forall s, (0 <= z s)%R). { intros s. unfold z. apply Rmult_le_pos; [rewrite <- RMicromega.Q2R_0; apply Qle_Rle; auto|]. apply Rlt_le. apply Rinv_0_lt_compat. auto. }
      assert (SS : sup_sol (restrict M keep) (krew M rw keep) z).
      { apply (sup_restrict M SH rw keep z); [intros; apply Z0|]. intros r Hr Kr. change (nA M - 2) with c in Hr.
        specialize (DR r Kr). rewrite HZ in DR by exact Hr. unfold drop in DR. apply Qle_Rle in DR. rewrite RMicromega.Q2R_0, !Q2R_minus, Q2R_mult, Q2R_sum_to in DR.
        unfold rstep. change (nS M - 2) with n.
        rewrite (sumn_ext n _ (fun d => Q2R (mget P r d * w d) * / Q2R nu)%R) by (intros d Hd; change (prob M r d) with (Q2R (mget P r d)); unfold z; rewrite Q2R_mult; unfold Rdiv; ring).
        rewrite sumn_scal_r. unfold z. fold M in DR. change (rf_N rf) with n in DR. change (a_P (rf_sys rf)) with P in DR. change (Q2R (nth r (rr_rew rr) 0%Q)) with (rw r) in DR.
        apply Rmult_le_reg_r with (Q2R nu); [exact NP|]. unfold Rdiv. rewrite Rmult_plus_distr_r. rewrite (Rmult_assoc (sumn _ _)), (Rmult_assoc (Q2R (w _))), Rinv_l by lra. lra. }
      specialize (HV z SS). unfold z in HV. apply Qlt_Rlt in HN. rewrite (Qeq_eqR _ _ SN), RMicromega.Q2R_0, Q2R_minus, Q2R_mult in HN.
      assert (L : (Q2R (w init) / Q2R nu < Q2R t)%R). { apply Rmult_lt_reg_r with (Q2R nu); [auto|]. unfold Rdiv. rewrite Rmult_assoc, Rinv_l by lra. lra. }
      lra.
  Qed.
  End Y.

  (** ** Witnesses and points *)
  Lemma wit_point : forall md t keep, md <> OtherMode -> rew_witness rr md t keep -> exists y, rpoint md t y /\ forall v, v < cert_dim rf md -> (0 < y v)%R -> keep (own rf md v) = true.
  Proof.
    intros md t keep Hm (v & HV & Ht). fold rf in HV. fold M in HV. destruct (rank rr BF EX Hi FREE) as (w & W0 & WR). change (kept_reward rf (rr_rew rr) keep) with (krew M rw keep) in HV. destruct md; [| |congruence].
    - destruct (kmin_exists M SH w W0 WR rw R0 RZ keep) as (z & ZS & ZV & _). pose proof (IsRewMin_u _ _ _ _ _ _ HV (ZV _ Hi)) as E. destruct (sub_extend M SH rw R0 keep z ZS) as (ZM & ZO).
      exists z. split; [apply rpoint_sub; split; [exact ZM|]; fold init in E; rewrite <- E; exact Ht|]. intros s Hs Hp. cbn [own]. destruct (keep s) eqn:K; auto. rewrite (ZO s Hs K) in Hp. lra.
    - destruct (kmax_exists M SH w W0 WR rw R0 RZ keep) as (z & ZS & ZV & ZL). pose proof (IsRewMax_u _ _ _ _ _ _ HV (ZV _ Hi)) as E.
      destruct (ry_complete keep t) as (y & HY & HO). { intros z' Hz'. eapply Rle_trans; [exact Ht|]. rewrite E. apply (ZL z' Hz' init Hi). }
      exists y. split; [exact HY|]. intros r Hr Hp. rewrite (own_src rf BF) by exact Hr. fold M. destruct (keep (src M r)) eqn:K; auto. rewrite (HO r Hr K) in Hp. lra.
  Qed.

  Lemma point_wit : forall md t keep y, md <> OtherMode -> rpoint md t y -> (forall v, v < cert_dim rf md -> (0 < y v)%R -> keep (own rf md v) = true) -> rew_witness rr md t keep.
  Proof.
    intros md t keep y Hm HY HK. destruct (rank rr BF EX Hi FREE) as (w & W0 & WR). unfold rew_witness. fold rf. fold M. change (kept_reward rf (rr_rew rr) keep) with (krew M rw keep). destruct md; [| |congruence].
    - destruct (kmin_exists M SH w W0 WR rw R0 RZ keep) as (z & ZS & ZV & ZL). exists (z init). split; [apply (ZV _ Hi)|]. apply rpoint_sub in HY. destruct HY as [HY Ht]. eapply Rle_trans; [exact Ht|].
      apply (ZL y); [|exact Hi]. apply (sub_restrict M SH rw keep y HY). intros s Hs K. apply Rle_antisym; [|apply (proj1 HY s Hs)]. destruct (Rle_lt_dec (y s) 0); auto. specialize (HK s Hs r). cbn [own] in HK. congruence.
    - destruct (kmax_exists M SH w W0 WR rw R0 RZ keep) as (z & ZS & ZV & ZL). exists (z init). split; [apply (ZV _ Hi)|]. destruct HY as ((HB & Ht) & H0). eapply Rle_trans; [exact Ht|].
      apply (y_sound M SH rw keep init y z Hi H0 HB); [|exact ZS|apply (kmax_out M rw keep z ZL ZS)].
      intros r Hr K. apply Rle_antisym; [|apply (H0 r Hr)]. destruct (Rle_lt_dec (y r) 0) as [|HP]; auto. specialize (HK r Hr HP). rewrite (own_src rf BF) in HK by exact Hr. fold M in HK. congruence.
  Qed.

  (** Everything kept. *)
  Definition rew_value (md : mode) (v : R) : Prop := match md with Max => RewMaxForm | _ => RewMinForm end rf (rr_rew rr) init v.

  Lemma point_value : forall md t v, md <> OtherMode -> rew_value md v -> ((exists y, rpoint md t y) <-> (Q2R t <= v)%R).
  Proof.
    intros md t v Hm HV. destruct (rank rr BF EX Hi FREE) as (w & W0 & WR). destruct md; [| |congruence]; unfold rew_value, RewMinForm, RewMaxForm in HV; fold M in HV; fold rw in HV.
    - destruct (min_exists M SH w W0 WR rw (fun r _ => R0 r) RZ) as (z & ZS & ZT & ZL). pose proof (min_is_value M SH w W0 WR rw RZ z ZS ZT init Hi) as ZV. pose proof (IsRewMin_u _ _ _ _ _ _ HV ZV) as E.
      split.
      + intros (y & HY). apply rpoint_sub in HY. destruct HY as [HY Ht]. rewrite E. eapply Rle_trans; [exact Ht|apply (ZL y HY init Hi)].
      + intros Ht. exists z. apply rpoint_sub. split; [exact ZS|]. rewrite <- E. exact Ht.
    - destruct (max_exists M SH w W0 WR rw (fun r _ => R0 r)) as (z & ZS & ZT & ZL). pose proof (max_is_value M SH w W0 WR rw RZ z ZS ZT init Hi) as ZV. pose proof (IsRewMax_u _ _ _ _ _ _ HV ZV) as E.
      assert (KS : forall z', sup_sol M rw z' <-> sup_sol (restrict M (fun _ => true)) (krew M rw (fun _ => true)) z').
      { intros z'. unfold sup_sol. change (nS (restrict M (fun _ => true))) with (nS M). change (nA (restrict M (fun _ => true))) with (nA M).
        split; intros (A & B); (split; [exact A|]); intros r Hr; specialize (B r Hr); change (src (restrict M (fun _ => true)) r) with (src M r) in *; rewrite (kstep M rw (fun _ => true)) in * by exact Hr; cbn match in *; exact B. }
      split.
      + intros (y & ((HB & Ht) & H0)). rewrite E. eapply Rle_trans; [exact Ht|]. apply (y_sound M SH rw (fun _ => true) init y z Hi H0 HB); [discriminate|apply KS; exact ZS|discriminate].
      + intros Ht. destruct (ry_complete (fun _ => true) t) as (y & HY & _); [|exists y; exact HY].
        intros z' Hz'. apply KS in Hz'. eapply Rle_trans; [exact Ht|]. rewrite E. apply (ZL z' Hz' init Hi).
  Qed.
End RM.
