(** Subsystems: remaining proofs and counterexamples of C32-C34. *)
From Coq Require Import String List Arith ZArith QArith Qreals Reals Bool Lia Lra.
From Verif Require Import Base Num Matrix InvDict SccSpec SpecMdp MdpValue SpecEc RfTheory SpecSystem SpecForm SpecBuilt SpecProb SpecSub
  Amdp ReachForm BuiltFacts RfBridge Subsystem SubTheory SubProofs1 SubProofs2 SubProofs4 Examples ExProofs2 ExProofs5.
Import ListNotations.
Local Open Scope nat_scope.
Local Open Scope string_scope.

Lemma C32_support_lemma : forall rf form t cert, built_form rf -> exact_rows (a_P (rf_sys rf)) -> rf_init rf < a_N (rf_sys rf) - 2 ->
  cert_point rf form t cert -> let R := restrict (form_mdp rf) (chosen (rf_sys rf) form cert) in
  exists p, match form with Max => IsPrMax | _ => IsPrMin end R (is_goal R) (rf_init rf) p /\ (Q2R t <= p)%R.
Proof.
  intros rf form t cert BF EX Hi HC R. set (SH := proj1 (br_rf rf BF EX)). set (WR := RFW R (R_shape _ SH (chosen (rf_sys rf) form cert))).
  assert (Hs : rf_init rf < nS R) by (change (nS R) with (a_N (rf_sys rf)); lia).
  destruct form; simpl in HC; [| |contradiction]; destruct HC as (A & _ & B).
  - exists (Vmin R WR (is_goal R) (rf_init rf)). split; [apply PrMin_Vmin; exact Hs|]. apply (min_support rf cert t BF EX A B Hi WR).
  - exists (Vmax R WR (is_goal R) (rf_init rf)). split; [apply PrMax_Vmax; exact Hs|]. apply (max_support rf cert t BF EX A B Hi WR).
Qed.

Lemma ch3_min : cert_point ch3rf Min (1#2) [1#2; 0; 1#2]%Q.
Proof. split; [exact ch3_z|]. split; [vm_compute; reflexivity|]. intros s Hs H. exfalso. eapply ch3_noec; eauto. Qed.
Lemma ch3_max : cert_point ch3rf Max (1#2) [1; 1#2; 0]%Q.
Proof. split; [exact ch3_y|]. split; [vm_compute; reflexivity|]. intros i Hi. change (i < 3) in Hi. destruct i as [|[|[|i]]]; [| | |lia]; vm_compute; discriminate. Qed.

Lemma C33_min_refuted_lemma : exists rnd rf t cert sub, built_form rf /\ exact_rows (a_P (rf_sys rf)) /\ (0 < t)%Q /\ cert_point rf Min t cert /\
  mk_subsystem rf cert Min false = Ok sub /\ subsys rnd sub = Err AssertionError.
Proof. exists exrnd, ch3rf, (1#2)%Q, [1#2; 0; 1#2]%Q, ch3sub. split; [apply ch3rf_built|]. split; [apply exact_ch3|]. split; [reflexivity|]. split; [apply ch3_min|apply ch3sub_raises]. Qed.
Lemma C33_max_refuted_lemma : exists rnd rf t cert sub, built_form rf /\ exact_rows (a_P (rf_sys rf)) /\ (0 < t)%Q /\ cert_point rf Max t cert /\
  mk_subsystem rf cert Max false = Ok sub /\ subsys rnd sub = Err AssertionError.
Proof. exists exrnd, ch3rf, (1#2)%Q, [1; 1#2; 0]%Q, ch3suby. split; [apply ch3rf_built|]. split; [apply exact_ch3|]. split; [reflexivity|]. split; [apply ch3_max|apply ch3suby_raises]. Qed.
Lemma C33_inexact_refuted_lemma : exists rnd rf t cert sub, built_form rf /\ (0 < t)%Q /\
  z_constraints (a_P (rf_sys rf)) (a_inv (rf_sys rf)) (rf_init rf) t cert /\
  mk_subsystem rf cert Min true = Ok sub /\ subsys rnd sub = Err AssertionError.
Proof. exists exrnd, ovrf, (3#4)%Q, [3#4; 1#2]%Q, ovsub. split; [apply ovrf_built|]. split; [reflexivity|]. split; [apply ov_z|apply ovsub_raises]. Qed.

Lemma C34_refuted_lemma : exists rnd rf cert sub rf' x s a l, built_form rf /\ exact_rows (a_P (rf_sys rf)) /\
  mk_subsystem rf cert Max false = Ok sub /\ subsys rnd sub = Ok rf' /\
  nth_error (kept_states (rf_sys rf) (chosen (rf_sys rf) Max cert)) x = Some s /\
  In (s, a) (actions_by_label (rf_sys rf) l) /\ ~ In (x, a) (actions_by_label (rf_sys rf') l).
Proof.
  exists exrnd, ec1rf, [1; 0; 0; 1#2]%Q, ec1sub, ec1sub_rf, 0, 0, 1, "stay". split; [apply ec1rf_built|]. split; [apply exact_ec1|]. split; [apply ec1sub_ok|]. split; [apply ec1sub_ok|].
  split; [vm_compute; reflexivity|]. split; [vm_compute; auto|]. vm_compute. intros [].
Qed.

Lemma C34_partial_lemma : forall rnd rf cert form ign sub rf', built_form rf -> mk_subsystem rf cert form ign = Ok sub -> subsys rnd sub = Ok rf' ->
  forall l, ((forall x s a, nth_error (kept_states (rf_sys rf) (chosen (rf_sys rf) form cert)) x = Some s ->
                (In (x, a) (actions_by_label (rf_sys rf') l) <-> In (s, a) (actions_by_label (rf_sys rf) l))) <->
             (forall s a, s < a_N (rf_sys rf) - 2 -> chosen (rf_sys rf) form cert s = true -> ~ In (s, a) (actions_by_label (rf_sys rf) l))).
Proof.
  intros rnd rf cert form ign sub rf' BF MK SB l. pose proof (ma_alab _ _ _ _ (ma rnd rf cert form ign sub rf' BF MK SB) l) as E. rewrite E. simpl. split.
  - intros H s a Hs Hk Hin. destruct (S_pos rf (chosen (rf_sys rf) form cert) s Hs Hk) as (x & Ex & _). apply (H x s a Ex). exact Hin.
  - intros H x s a Ex. destruct (S_nth rf (chosen (rf_sys rf) form cert) x s Ex) as (_ & Hs & Hk). specialize (H s a Hs Hk). tauto.
Qed.
