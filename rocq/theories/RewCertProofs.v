(** Certificates of reward forms: what the check accepts, and generation. *)
From Coq Require Import String List Arith ZArith QArith Qreals Reals Bool Lia Lra.
From Coq Require Lqa.
From Verif Require Import Base BaseFacts Num Matrix MatFacts SpecMdp SpecSystem SpecEc SpecForm SpecBuilt SpecProb SpecGen SpecReward SpecRewSub SpecRewCert SumFacts MdpValue RfTheory SccSpec Amdp
  ReachForm ReachFormProofs RfFacts FarkProofs BuiltFacts RfBridge FarkReal Milp SpecLp MilpProofs LpExists Farkas RfLpProofs Certificates CertProofs CertProofs2 TolProofs GenFark GenFark2 GenFark3
  RewTheory RewSub RewardForm RewardProofs RewProblems RewForms RewCert.
Import ListNotations.
Local Open Scope nat_scope.

Lemma list_as_map : forall (l : list Q), l = map (fun j => nth j l 0%Q) (seq 0 (length l)).
Proof.
  intros l. apply (nth_ext l _ 0%Q 0%Q); [rewrite map_length, seq_length; auto|]. intros i Hi. rewrite nth_map_seq by auto. reflexivity.
Qed.

Lemma row_real : forall A D v i, (forall row, In row A -> length row = D) -> length v = D -> i < length A -> Q2R (nth i (mat_vec A v) 0%Q) = rowR A D i (vec v).
Proof.
  intros A D v i HR HL Hi. rewrite mat_vec_nth by auto. assert (L : length (nth i A []) = D) by (apply HR; apply nth_In; auto).
  rewrite (list_as_map (nth i A [])), L. rewrite dot_sum by auto. reflexivity.
Qed.
Lemma le_rows : forall A D b v tol, (forall row, In row A -> length row = D) -> length b = length A -> length v = D ->
  (all_le tol (mat_vec A v) b = true <-> rows A D b (vec v) (Q2R tol)).
Proof.
  intros A D b v tol HR HB HL. rewrite all_le_iff by (rewrite mat_vec_length; auto). rewrite mat_vec_length. unfold rows. split; intros H i Hi; specialize (H i Hi).
  - apply Qle_Rle in H. rewrite Q2R_minus, (row_real A D) in H by auto. lra.
  - apply Rle_Qle. rewrite Q2R_minus, (row_real A D) by auto. lra.
Qed.
Lemma ge_rows : forall A D b v tol, (forall row, In row A -> length row = D) -> length b = length A -> length v = D ->
  (all_ge tol (mat_vec A v) b = true <-> rows (map (map Qopp) A) D (map Qopp b) (vec v) (Q2R tol)).
Proof.
  intros A D b v tol HR HB HL. rewrite all_ge_iff by (rewrite mat_vec_length; auto). rewrite mat_vec_length. unfold rows. rewrite map_length. split; intros H i Hi; specialize (H i Hi).
  - apply Qle_Rle in H. rewrite Q2R_plus, (row_real A D) in H by auto. rewrite rowR_neg, nth_neg, Q2R_opp. lra.
  - apply Rle_Qle. rewrite Q2R_plus, (row_real A D) by auto. rewrite rowR_neg, nth_neg, Q2R_opp in H. lra.
Qed.

Lemma strict_last : forall A D b v tol, (forall row, In row A -> length row = D) -> length v = D -> 0 < length A ->
  (Qlt_bool (nth (length A - 1) (mat_vec A v) 0%Q - tol)%Q (nth (length A - 1) b 0%Q) = true <-> (rowR A D (length A - 1) (vec v) - Q2R tol < Q2R (nth (length A - 1) b 0%Q))%R) /\
  (Qlt_bool (nth (length A - 1) b 0%Q) (nth (length A - 1) (mat_vec A v) 0%Q + tol)%Q = true <-> (Q2R (nth (length A - 1) b 0%Q) < rowR A D (length A - 1) (vec v) + Q2R tol)%R).
Proof.
  intros A D b v tol HR HL HA. split; (rewrite Qlt_bool_iff; split; intros H;
    [apply Qlt_Rlt in H; rewrite ?Q2R_minus, ?Q2R_plus, (row_real A D) in H by (auto; lia); exact H
    |apply Rlt_Qlt; rewrite ?Q2R_minus, ?Q2R_plus, (row_real A D) by (auto; lia); exact H]).
Qed.

Section RC.
  Variable rr : rrform.
  Let rf := rr_rf rr.
  Hypothesis GR : reward_form rr.
  Let BF : built_form rf := proj1 GR.
  Let EX : exact_rows (a_P (rf_sys rf)) := proj1 (proj2 GR).
  Let Hi : rf_init rf < a_N (rf_sys rf) - 2 := proj1 (proj2 (proj2 GR)).
  Let FREE : ec_free (form_mdp rf) := proj1 (proj2 (proj2 (proj2 GR))).
  Let LR : length (rr_rew rr) = rf_C rf := proj1 (proj2 (proj2 (proj2 (proj2 GR)))).
  Let NR : forall q, In q (rr_rew rr) -> (0 <= q)%Q := proj2 (proj2 (proj2 (proj2 (proj2 GR)))).
  Let init := rf_init rf.
  Let n := rf_N rf.
  Let c := rf_C rf.
  Let M := form_mdp rf.
  Let SH : shape_mdp M := proj1 (br_rf rf BF EX).
  Let rw := row_reward (rr_rew rr).
  Let R0 : forall r, (0 <= rw r)%R := rw_pos rr NR.
  Let RZ : forall r, c <= r -> rw r = 0%R := rw_out rr Hi LR.

  Definition rdim (md : mode) (s : fsense) : nat := match md, is_upper s with Max, false => c | _, _ => n end.
  (** The constraints with slack [g]. *)
  Definition rrows (md : mode) (s : fsense) (t : Q) (x : nat -> R) (g : R) : Prop :=
    match md, is_upper s with
    | Max, false => (forall st, (st < n)%nat -> balance M x st <= (if st =? init then 1 else 0) + g)%R /\ (Q2R t <= sumn c (fun r => rw r * x r) + g)%R
    | Max, true => (forall r, (r < c)%nat -> rstep M rw r x <= x (src M r) + g)%R /\ (x init <= Q2R t + g)%R
    | _, _ => (forall r, (r < c)%nat -> x (src M r) <= rstep M rw r x + g)%R /\ (Q2R t <= x init + g)%R
    end.
  Definition rstrict (md : mode) (s : fsense) (t : Q) (x : nat -> R) (g : R) : Prop :=
    match md, is_upper s with
    | Max, false => (Q2R t < sumn c (fun r => rw r * x r) + g)%R
    | Max, true => (x init < Q2R t + g)%R
    | _, _ => (Q2R t < x init + g)%R
    end.

  (** The constraint set, oriented as in generation. *)
  Lemma rset : forall md s t, rew_certifiable md s -> exists A b, rr_right_constraint_set rr md s t = Ok (A, b, rdim md s) /\
    (forall row, In row A -> length row = rdim md s) /\ length b = length A /\ 0 < length A /\
    let A' := if is_upper s then map (map Qopp) A else A in let b' := if is_upper s then map Qopp b else b in
    (forall x g, rows A' (rdim md s) b' x g <-> rrows md s t x g) /\
    (forall x g, (if is_upper s then (Q2R (nth (length A - 1) b 0%Q) < rowR A (rdim md s) (length A - 1) x + g)%R
      else (rowR A (rdim md s) (length A - 1) x - g < Q2R (nth (length A - 1) b 0%Q))%R) <-> rstrict md s t x g).
  Proof.
    intros md s t CE.
    destruct (rr_fark_z_real rr BF Hi LR t) as (A & b & E & LA & LB & HW & R1 & B1 & R2 & B2).
    destruct (rr_fark_y_real rr BF Hi LR t) as (Ay & by' & Ey & LAy & LBy & HWy & R1y & B1y & R2y & B2y).
    change (rf_N (rr_rf rr)) with n in *. change (rf_C (rr_rf rr)) with c in *. change (form_mdp (rr_rf rr)) with M in *. change (rf_init (rr_rf rr)) with init in *.
    change (row_reward (rr_rew rr)) with rw in R1, B1, R1y, B1y, R2y.
    assert (ZL : forall s', is_upper s' = false -> (forall x g, rows A n b x g <-> (forall r, (r < c)%nat -> x (src M r) <= rstep M rw r x + g)%R /\ (Q2R t <= x init + g)%R)).
    { intros _ _ x g. unfold rows. rewrite LA. split.
      - intros H. split.
        + intros r Hr. specialize (H r ltac:(lia)). rewrite R1, B1 in H by auto. unfold rstep. change (nS M - 2) with n. lra.
        + specialize (H c ltac:(lia)). rewrite R2, B2 in H. lra.
      - intros (H1 & H2) i Hic. assert (i < c \/ i = c) as [Hlt| ->] by lia.
        + rewrite R1, B1 by auto. specialize (H1 i Hlt). unfold rstep in H1. change (nS M - 2) with n in H1. lra.
        + rewrite R2, B2. lra. }
    assert (ZU : forall x g, rows (map (map Qopp) A) n (map Qopp b) x g <-> (forall r, (r < c)%nat -> rstep M rw r x <= x (src M r) + g)%R /\ (x init <= Q2R t + g)%R).
    { intros x g. unfold rows. rewrite map_length, LA. split.
      - intros H. split.
        + intros r Hr. specialize (H r ltac:(lia)). rewrite rowR_neg, nth_neg, Q2R_opp in H. rewrite R1, B1 in H by auto. unfold rstep. change (nS M - 2) with n. lra.
        + specialize (H c ltac:(lia)). rewrite rowR_neg, nth_neg, Q2R_opp in H. rewrite R2, B2 in H. lra.
      - intros (H1 & H2) i Hic. rewrite rowR_neg, nth_neg, Q2R_opp. assert (i < c \/ i = c) as [Hlt| ->] by lia.
        + rewrite R1, B1 by auto. specialize (H1 i Hlt). unfold rstep in H1. change (nS M - 2) with n in H1. lra.
        + rewrite R2, B2. lra. }
    assert (YL : forall x g, rows Ay c by' x g <-> (forall st, (st < n)%nat -> balance M x st <= (if st =? init then 1 else 0) + g)%R /\ (Q2R t <= sumn c (fun r => rw r * x r) + g)%R).
    { intros x g. unfold rows. rewrite LAy. split.
      - intros H. split.
        + intros r Hr. specialize (H r ltac:(lia)). rewrite R1y, B1y in H by auto. exact H.
        + specialize (H n ltac:(lia)). rewrite R2y, B2y in H. lra.
      - intros (H1 & H2) i Hic. assert (i < n \/ i = n) as [Hlt| ->] by lia.
        + rewrite R1y, B1y by auto. apply H1; auto.
        + rewrite R2y, B2y. lra. }
    assert (LAc : length A - 1 = c) by lia. assert (LAn : length Ay - 1 = n) by lia.
    destruct md; destruct s; try contradiction; unfold rr_right_constraint_set; cbn [right_form bind rdim is_upper]; unfold rrows, rstrict; cbn [is_upper].
    - exists A, b. rewrite E. cbn [bind]. split; [reflexivity|]. split; [exact HW|]. split; [lia|]. split; [lia|]. split; [apply (ZL FGe eq_refl)|]. intros x g. rewrite LAc, R2, B2. split; lra.
    - exists A, b. rewrite E. cbn [bind]. split; [reflexivity|]. split; [exact HW|]. split; [lia|]. split; [lia|]. split; [apply (ZL FGe eq_refl)|]. intros x g. rewrite LAc, R2, B2. split; lra.
    - exists A, b. rewrite E. cbn [bind]. split; [reflexivity|]. split; [exact HW|]. split; [lia|]. split; [lia|]. split; [exact ZU|]. intros x g. rewrite LAc, R2, B2. split; lra.
    - exists A, b. rewrite E. cbn [bind]. split; [reflexivity|]. split; [exact HW|]. split; [lia|]. split; [lia|]. split; [exact ZU|]. intros x g. rewrite LAc, R2, B2. split; lra.
    - exists Ay, by'. rewrite Ey. cbn [bind]. split; [reflexivity|]. split; [exact HWy|]. split; [lia|]. split; [lia|]. split; [exact YL|]. intros x g. rewrite LAn, R2y, B2y. split; lra.
    - exists Ay, by'. rewrite Ey. cbn [bind]. split; [reflexivity|]. split; [exact HWy|]. split; [lia|]. split; [lia|]. split; [exact YL|]. intros x g. rewrite LAn, R2y, B2y. split; lra.
  Qed.

  Lemma ec_loop_ok : forall md s v l, rew_certifiable md s -> match md with Min => rr_ec_entries_zero rr (is_upper s) v l | _ => Ok true end = Ok true.
  Proof.
    intros md s v l CE. destruct md; auto. destruct s; try contradiction; cbn [is_upper]; induction l; auto.
  Qed.
  Lemma zero_vars_ok : forall md s D, rew_certifiable md s -> rr_zero_variables rr md s D = Ok [].
  Proof.
    intros md s D CE. destruct md; auto. unfold rr_zero_variables. assert (G : forall l, foldM (fun (acc : list nat) idx => if is_upper s then Err AttributeError else Ok (if rr_in_proper_ec rr idx then acc ++ [idx] else acc)) l [] = Ok []).
    { destruct s; try contradiction; cbn [is_upper]; induction l; auto. }
    apply G.
  Qed.

  Lemma rcheck_iff : forall md s t v tol, rew_certifiable md s ->
    (rr_check_farkas rr md s t v tol = Ok true <-> in_unit t /\ length v = rdim md s /\ rrows md s t (vec v) (Q2R tol) /\ (strictly s = true -> rstrict md s t (vec v) (Q2R tol))).
  Proof.
    intros md s t v tol CE. destruct (rset md s t CE) as (A & b & E & HR & HB & HP & RW & ST). cbv zeta in RW. unfold rr_check_farkas.
    destruct (Qle_bool 0 t && Qle_bool t 1) eqn:EU.
    2:{ cbn [assert_ bind]. split; [discriminate|]. intros ((U0 & U1) & _). apply Qle_bool_iff in U0. apply Qle_bool_iff in U1. rewrite U0, U1 in EU. discriminate. }
    assert (U : in_unit t) by (apply andb_true_iff in EU; destruct EU as [U0 U1]; split; apply Qle_bool_iff; auto).
    cbn [assert_ bind]. rewrite E. cbn [bind]. destruct (Nat.eqb_spec (length v) (rdim md s)) as [HL|HL].
    2:{ cbn [assert_ bind]. split; [discriminate|]. intros (_ & H & _). contradiction. }
    cbn [assert_ bind]. rewrite (ec_loop_ok md s v _ CE). cbn [bind]. destruct (strict_last A (rdim md s) b v tol HR HL HP) as [SL SG].
    specialize (RW (vec v) (Q2R tol)). specialize (ST (vec v) (Q2R tol)). pose proof (le_rows A (rdim md s) b v tol HR HB HL) as HLe. pose proof (ge_rows A (rdim md s) b v tol HR HB HL) as HGe.
    destruct s; cbn [is_upper strictly] in *; try (destruct md; contradiction).
    - split.
      + intros H. injection H as H. split; [auto|]. split; [auto|]. split; [tauto|discriminate].
      + intros (_ & _ & H & _). f_equal. tauto.
    - split.
      + intros H. injection H as H. apply andb_true_iff in H. split; [auto|]. split; [auto|]. tauto.
      + intros (_ & _ & H & H'). f_equal. apply andb_true_iff. specialize (H' eq_refl). tauto.
    - split.
      + intros H. injection H as H. split; [auto|]. split; [auto|]. split; [tauto|discriminate].
      + intros (_ & _ & H & _). f_equal. tauto.
    - split.
      + intros H. injection H as H. apply andb_true_iff in H. split; [auto|]. split; [auto|]. tauto.
      + intros (_ & _ & H & H'). f_equal. apply andb_true_iff. specialize (H' eq_refl). tauto.
  Qed.
  Lemma rcheck_total : forall md s t v tol, rew_certifiable md s -> in_unit t -> length v = rdim md s -> exists ok, rr_check_farkas rr md s t v tol = Ok ok.
  Proof.
    intros md s t v tol CE U HL. destruct (rset md s t CE) as (A & b & E & _). unfold rr_check_farkas. rewrite (in_unit_assert t U). cbn [bind]. rewrite E. cbn [bind].
    rewrite HL, Nat.eqb_refl. cbn [assert_ bind]. rewrite (ec_loop_ok md s v _ CE). cbn [bind]. destruct s; eauto. destruct md; contradiction.
  Qed.
End RC.
