(** Examples: the number reported on a reward form with a tolerance. *)
From Coq Require Import String List Arith ZArith QArith Qreals Reals Bool Lia Lra.
From Coq Require Lqa.
From Verif Require Import Base BaseFacts Num Matrix SpecMdp SpecEc SpecForm SpecBuilt SpecProb SpecSub SpecLp SpecMilp SpecReward SpecRewSub SpecSlack SpecRewSlack Amdp ReachForm Milp Subsystem Formulations Problems MilpFinal QsWeights Examples ExProofs2 ExProofs5
  RewardForm RewProblems RewSlackProofs ExReward ExRewCert ExSlack ExRewSlack.
Import ListNotations.
Local Open Scope nat_scope.

(** Rewards 1/16: the initial state alone suffices.  The bounds are the
    solution of the linear program; state 1 has a positive entry below the
    tolerance, and its indicator is zero. *)
Definition bound_ex (m : milp) : sresult := if length (mi_vars m) =? 3 then MkRes Optimal [3#16; 1#4; 0]%Q (7#16) else sized_ex m.
Definition rtiny_z (q : Q) : list Q := [1 # 16; if Qle_bool q (1 # 4) then q else 1 # 4; 0; 1; 0; 0]%Q.
Definition rtinyS (q : Q) (m : milp) : sresult := MkRes Optimal (rtiny_z q) 1%Q.
Definition rtiny_fark : list (list Q) * list Q := Eval vm_compute in match rr_fark_constraints rwqrr (1 # 16) Min with Ok p => p | Err _ => ([], []) end.
Definition no_milp : milp := MkMilp Minimise [] [] 0 None.
Definition rtiny_lp : milp := Eval vm_compute in match upper_bound_lp (fst rtiny_fark) 3 (snd rtiny_fark) with Ok p => p | Err _ => no_milp end.
Definition rtiny_mm : milp * dict nat (list nat) := Eval vm_compute in some_milp (rr_construct_milp bound_ex rwqrr (1 # 16) Min None false None).
Lemma rtiny_fark_ok : rr_fark_constraints rwqrr (1 # 16) Min = Ok rtiny_fark. Proof. vm_compute. reflexivity. Qed.
Lemma rtiny_lp_ok : upper_bound_lp (fst rtiny_fark) 3 (snd rtiny_fark) = Ok rtiny_lp. Proof. vm_compute. reflexivity. Qed.
Lemma rtiny_mm_ok : rr_construct_milp bound_ex rwqrr (1 # 16) Min None false None = Ok (Some rtiny_mm). Proof. vm_compute. reflexivity. Qed.
Lemma bound_sized : sized bound_ex.
Proof. intros lp H. unfold bound_ex in *. destruct (length (mi_vars lp) =? 3) eqn:E; [apply Nat.eqb_eq in E; rewrite E; reflexivity|apply repeat_length]. Qed.

Lemma bound_exact : exact_answer rtiny_lp (bound_ex rtiny_lp).
Proof.
  change (bound_ex rtiny_lp) with (MkRes Optimal [3#16; 1#4; 0]%Q (7#16)). unfold exact_answer. cbn [sr_status sr_vec sr_val]. split; [reflexivity|].
  assert (V : forall j, vec [3#16; 1#4; 0]%Q j = match j with 0 => (3 / 16)%R | 1 => (1 / 4)%R | _ => 0%R end).
  { intros j. unfold vec. destruct j as [|[|[|j]]]; cbn [nth]; unfold Q2R; cbn; try lra. destruct j; cbn; lra. }
  revert V. generalize (vec [3#16; 1#4; 0]%Q). intros z V.
  assert (OV : objective rtiny_lp z = (7 / 16)%R). { unfold objective. cbn [rtiny_lp mi_obj lin]. rewrite !V. unfold Q2R. cbn. lra. }
  split; [split|].
  - split.
    + intros j v Hj. destruct j as [|[|[|j]]]; cbn in Hj; try (injection Hj as <-); try (destruct j; discriminate Hj); (split; [exact I|split; [exact I|intros E; discriminate E]]).
    + intros k c Hc. cbn [rtiny_lp mi_constrs] in Hc. repeat (destruct Hc as [Hc|Hc]; [injection Hc as <- <-; unfold sat_constr, SpecLp.rel; cbn [c_sense c_lhs c_rhs lin]; rewrite ?V; unfold Q2R; cbn; lra|]). destruct Hc.
  - intros y (FV & FC). rewrite OV. cbn [rtiny_lp mi_dir mi_constrs better] in *.
    pose proof (FC _ _ (or_introl eq_refl)) as C0. pose proof (FC _ _ (or_intror (or_intror (or_introl eq_refl)))) as C2. pose proof (FC _ _ (or_intror (or_intror (or_intror (or_introl eq_refl))))) as C3. clear FV FC.
    unfold sat_constr, SpecLp.rel, objective in *. cbn [c_sense c_lhs c_rhs lin rtiny_lp mi_obj] in *. unfold Q2R in *. cbn in *. lra.
  - rewrite OV. unfold Q2R. cbn. lra.
Qed.

Lemma rtiny_within : forall q, (0 < q)%Q -> answer_within (Q2R q) (fst rtiny_mm) (rtinyS q (fst rtiny_mm)).
Proof.
  intros q Hq _. apply Qlt_Rlt in Hq. rewrite RMicromega.Q2R_0 in Hq.
  set (w := (if Qle_bool q (1 # 4) then q else 1 # 4)%Q). assert (WB : (0 < Q2R w)%R /\ (Q2R w <= Q2R q)%R /\ (Q2R w <= 1 / 4)%R).
  { assert (H2 : Q2R (1 # 4) = (1 / 4)%R) by (unfold Q2R; cbn; lra). unfold w. destruct (Qle_bool q (1 # 4)) eqn:E.
    - apply Qle_bool_iff in E. apply Qle_Rle in E. lra.
    - assert (L : (1 # 4 < q)%Q) by (apply Qnot_le_lt; intros X; apply Qle_bool_iff in X; congruence). apply Qlt_Rlt in L. lra. }
  assert (V : forall j, vec (rtiny_z q) j = match j with 0 => (1 / 16)%R | 1 => Q2R w | 3 => 1%R | _ => 0%R end).
  { intros j. unfold vec, rtiny_z. fold w. destruct j as [|[|[|[|[|[|j]]]]]]; cbn [nth]; try reflexivity; unfold Q2R; cbn; try lra. destruct j; cbn; lra. }
  split; [reflexivity|]. cbn [rtinyS sr_vec sr_val]. revert V WB Hq. generalize (vec (rtiny_z q)) (Q2R w) (Q2R q). intros z W e V WB He. split; [split|].
  - intros j v Hj. rewrite V. destruct j as [|[|[|[|[|[|j]]]]]]; cbn in Hj; try (injection Hj as <-); try (destruct j; discriminate Hj);
      (unfold var_within; cbn [v_lb v_ub v_int above below]; split; [unfold Q2R; cbn; lra|split; [unfold Q2R; cbn; lra|]]); intros E; try discriminate E; [exists 1%Z|exists 0%Z|exists 0%Z]; cbn; lra.
  - intros k c Hc. cbn [rtiny_mm fst mi_constrs] in Hc. repeat (destruct Hc as [Hc|Hc]; [injection Hc as <- <-; cbn [c_sense c_lhs c_rhs rel_within lin]; rewrite ?V; unfold Q2R; cbn; lra|]). destruct Hc.
  - unfold objective. cbn [rtiny_mm fst mi_obj lin]. rewrite !V. unfold Q2R. cbn. lra.
Qed.

Lemma rwq_N : a_N (rf_sys (rr_rf rwqrr)) - 2 = 3. Proof. vm_compute. reflexivity. Qed.
Lemma rwq_mk : forall cert, length cert = 3 -> mk_subsystem (rr_rf rwqrr) cert Min false = Ok (MkSub (rr_rf rwqrr) cert Min false).
Proof. intros cert H. unfold mk_subsystem. rewrite rwq_N, H. reflexivity. Qed.
Lemma rwq_size : certificate_size (rr_rf rwqrr) Min = Ok 3. Proof. unfold certificate_size. rewrite rwq_N. reflexivity. Qed.

Lemma C111_refuted_lemma : exists rr SB t A b lp, reward_form rr /\ sized SB /\
  rr_fark_constraints rr t Min = Ok (A, b) /\ upper_bound_lp A (a_N (rf_sys (rr_rf rr)) - 2) b = Ok lp /\ exact_answer lp (SB lp) /\
  forall eps, (0 < eps)%Q -> exists S mm ind sub v cert, rr_construct_milp SB rr t Min None false None = Ok (Some (mm, ind)) /\ answer_within (Q2R eps) mm (S mm) /\
    In (MkPRes Success (Some sub) (Some v) (Some cert)) (g_items (rr_milp_exact SB S rr t Min None)) /\
    (v < inject_Z (Z.of_nat (count (chosen (rf_sys (rr_rf rr)) Min cert) (a_N (rf_sys (rr_rf rr)) - 2))))%Q.
Proof.
  exists rwqrr, bound_ex, (1 # 16)%Q, (fst rtiny_fark), (snd rtiny_fark), rtiny_lp. split; [exact rwqrr_ok|]. split; [exact bound_sized|]. split; [exact rtiny_fark_ok|]. split; [exact rtiny_lp_ok|]. split; [exact bound_exact|].
  intros eps He. exists (rtinyS eps), (fst rtiny_mm), (snd rtiny_mm). pose proof (rtiny_within eps He) as TW.
  pose proof (rwq_mk (firstn 3 (rtiny_z eps)) eq_refl) as ES. set (sub := MkSub (rr_rf rwqrr) (firstn 3 (rtiny_z eps)) Min false) in *.
  exists sub, 1%Q, (firstn 3 (rtiny_z eps)). split; [exact rtiny_mm_ok|]. split; [exact TW|]. split.
  - unfold rr_milp_exact. rewrite rtiny_mm_ok. cbn [bind rtiny_mm]. cbn [rtinyS sr_status sr_vec sr_val]. rewrite rwq_size. cbn [bind]. rewrite ES. cbn [bind]. left. reflexivity.
  - rewrite rwq_N. unfold count. cbn [seq filter chosen firstn rtiny_z]. unfold entry. cbn [nth].
    change (positive (1 # 16)) with true. change (positive 0) with false.
    assert (PW : positive (if Qle_bool eps (1 # 4) then eps else 1 # 4) = true).
    { unfold positive. apply negb_true_iff. destruct (Qle_bool eps (1 # 4)); [|reflexivity]. destruct (Qle_bool eps 0) eqn:E; auto. apply Qle_bool_iff in E. exfalso. apply (Qlt_not_le _ _ He E). }
    rewrite PW. cbn. reflexivity.
Qed.

Lemma rtiny_optimal : forall x, feasible (fst rtiny_mm) x -> (1 <= objective (fst rtiny_mm) x + 0)%R.
Proof.
  intros x (FV & FC). cbn [rtiny_mm fst mi_constrs mi_vars] in FV, FC.
  pose proof (FC _ _ (or_intror (or_intror (or_intror (or_intror (or_introl eq_refl)))))) as C0.
  pose proof (FC _ _ (or_intror (or_intror (or_intror (or_intror (or_intror (or_introl eq_refl))))))) as C1.
  destruct (FV 3 _ eq_refl) as (_ & _ & I3). destruct (FV 4 _ eq_refl) as (L4 & _). destruct (FV 5 _ eq_refl) as (L5 & _). clear FV FC.
  destruct (I3 eq_refl) as (z & Hz). unfold sat_constr, SpecLp.rel, above, objective in *. cbn [c_sense c_lhs c_rhs lin v_lb rtiny_mm fst mi_obj] in *.
  assert (Z1 : (1 <= IZR z)%R). { apply IZR_le. cut (0 < z)%Z; [lia|]. apply lt_IZR. rewrite <- Hz. unfold Q2R in *. cbn in *. lra. }
  rewrite <- Hz in Z1. unfold Q2R in *. cbn in *. lra.
Qed.

Lemma rtiny_witness : rew_witness rwqrr Min (1 # 16) (chosen (rf_sys (rr_rf rwqrr)) Min [1 # 16; 0; 0]%Q).
Proof.
  destruct (C110_lemma rwqrr rwqrr_ok) as (K & _ & HK).
  destruct (HK (Q2R 0) bound_ex (1 # 16)%Q Min None) as (HE & _); [rewrite RMicromega.Q2R_0; lra|exact bound_sized|].
  destruct (HE (fixedS [1 # 16; 0; 0; 1; 0; 0]%Q)) with (r := hd (failure Infeasible) (g_items (rr_milp_exact bound_ex (fixedS [1 # 16; 0; 0; 1; 0; 0]%Q) rwqrr (1 # 16) Min None))) as (sub & v & cert & E & _ & W).
  - intros mm ind EC. rewrite rtiny_mm_ok in EC. injection EC as EC1 EC2. rewrite <- EC1. apply chkw_ok. vm_compute. reflexivity.
  - vm_compute. left. reflexivity.
  - vm_compute. reflexivity.
  - assert (cert = [1 # 16; 0; 0]%Q) as ->. { apply (f_equal pr_cert) in E. vm_compute in E. injection E as <-. reflexivity. }
    destruct W as (p & HP & HT). exists p. split; [exact HP|]. rewrite RMicromega.Q2R_0 in HT. lra.
Qed.
