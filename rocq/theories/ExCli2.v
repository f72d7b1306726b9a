(** Refutations for the command line tool, by concrete runs. *)
From Coq Require Import String List Arith ZArith QArith Qreals Reals Bool Ascii Lia Lra.
From Verif Require Import Base Num Matrix InvDict GraphSpec SccSpec SpecMdp SpecSystem SpecForm SpecBuilt SpecProb SpecReduce SpecFiles SpecSub
  Amdp ReachForm Reduce Milp Certificates Files Cli SpecCli Examples CliProofs7 ExCli.
Import ListNotations.
Local Open Scope nat_scope.
Local Open Scope string_scope.

Lemma cla1_on : forall tol, on_output cla (cla1 tol).
Proof. intros tol. repeat split. Qed.
Lemma clw1_exited : switss clE CRf cla clw = Exited clw1.
Proof. vm_compute. reflexivity. Qed.
Lemma clw2_keeps : forall md t v, keeps (rf_output cla) clw1 (clw2 md t v).
Proof. intros md t v. split; vm_compute; reflexivity. Qed.

Lemma C88_refuted_lemma : exists E a w m init w', stored w (modeltype a) (modelpath a) m /\
  reducible m (initial_label a) (target_label a) (target_label_rf a) (fail_label_rf a) init /\ plain (target_label_rf a) /\ plain (fail_label_rf a) /\
  exact_rows (a_P m) /\ switss E CRf a w = Exited w' /\
  forall E' a', on_output a a' -> exists m', load_model a' w' = Done m' w' /\ gen_rf E' m' a' = Err AssertionError.
Proof.
  exists clE, rarea, rarew, rare, 0, rarew1. split; [exact rare_stored|]. split; [exact rare_reducible|]. split; [exact plain_target|]. split; [exact plain_fail|]. split; [exact rare_exact|].
  split; [vm_compute; reflexivity|]. intros E' a' (A1 & A2 & A3 & A4 & A5). exists rare1. split.
  - unfold load_model. rewrite A1, A2. vm_compute. reflexivity.
  - unfold gen_rf. rewrite A3, A4, A5. vm_compute. reflexivity.
Qed.

(** A probability of less than half of one millionth is written as zero, so the
    written form does not copy the system under any list of rows. *)
Definition rare1_lab : text := Eval vm_compute in match w_fs rarew1 "m-rf.lab" with Some (FText x) => x | _ => [] end.
Definition rare1_tra : text := Eval vm_compute in match w_fs rarew1 "m-rf.tra" with Some (FText x) => x | _ => [] end.
Lemma rare1_files : w_fs rarew1 ("m-rf" ++ ".lab") = Some (FText rare1_lab) /\ w_fs rarew1 ("m-rf" ++ ".tra") = Some (FText rare1_tra) /\
  from_file KDtmc rare1_lab rare1_tra = Ok rare1.
Proof. split; [vm_compute; reflexivity|]. split; vm_compute; reflexivity. Qed.
Lemma rare_stored1 : forall m', stored rarew1 KDtmc "m-rf" m' -> m' = rare1.
Proof.
  destruct rare1_files as (X1 & X2 & X3). revert X1 X2 X3. generalize rare1_lab, rare1_tra, rare1. generalize rarew1. clear.
  intros w l t r X1 X2 X3 m' (lab & tra & L1 & L2 & L3). rewrite X1 in L1. rewrite X2 in L2. injection L1 as <-. injection L2 as <-. congruence.
Qed.
Lemma rare1_stored : stored rarew1 KDtmc "m-rf" rare1.
Proof. exists rare1_lab, rare1_tra. exact rare1_files. Qed.
Lemma rare_edge : sys_edge rare 0 1.
Proof. exists 0, 0, (0.0000001)%Q. split; [vm_compute; auto|vm_compute; reflexivity]. Qed.
Lemma rare_not_copied : forall rows, ~ copies rare 0 "goal" rare1 rows.
Proof.
  intros rows (_ & _ & C1 & C2 & _ & C3).
  assert (T1 : has_label rare "goal" 1) by (vm_compute; auto).
  assert (T0 : ~ has_label rare "goal" 0) by (vm_compute; intuition discriminate).
  assert (R0 : relevant rare 0 "goal" 0).
  { split; [apply ra_start; reflexivity|]. exists 1. split; [exact T1|]. apply rtc_step with 1; [exact rare_edge|constructor]. }
  assert (R1 : relevant rare 0 "goal" 1).
  { split; [apply ra_step with 0; [apply R0|exact T0|exact rare_edge]|]. exists 1. split; [exact T1|constructor]. }
  assert (I0 : In (0, 0) (map fst rows)) by (apply C1; split; [exact R0|exists 0; split; [vm_compute; lia|reflexivity]]).
  assert (I1 : In (1, 0) (map fst rows)) by (apply C1; split; [exact R1|exists 1; split; [vm_compute; lia|reflexivity]]).
  apply in_map_iff in I0. destruct I0 as (((s, a), (s', a')) & E0 & J0). cbn in E0. injection E0 as -> ->.
  apply in_map_iff in I1. destruct I1 as (((d, b), (d', b')) & E1 & J1). cbn in E1. injection E1 as -> ->.
  destruct (C3 _ _ _ _ _ _ _ _ J0 J1) as (_ & K). specialize (K T0 (0.0000001)%Q).
  assert (X : pair_prob rare1 s' a' d' (0.0000001)%Q) by (apply K; exists 0; split; [vm_compute; lia|split; reflexivity]).
  destruct X as (i & Hi & _ & Hq). change (a_C rare1) with 4 in Hi.
  assert (Hd : d' < 2).
  { assert (Y : In (d', b') (map snd rows)) by (apply in_map_iff; exists ((1, 0), (d', b')); auto). apply C2 in Y. destruct Y as (Y & _). change (a_N rare1 - 2) with 2 in Y. exact Y. }
  destruct i as [|[|[|[|i]]]]; [| | | |lia]; destruct d' as [|[|d']]; try lia; vm_compute in Hq; discriminate.
Qed.
Lemma C89_refuted_lemma : exists E a w m init w' m' j, stored w (modeltype a) (modelpath a) m /\
  reducible m (initial_label a) (target_label a) (target_label_rf a) (fail_label_rf a) init /\ plain (target_label_rf a) /\ plain (fail_label_rf a) /\
  exact_rows (a_P m) /\ switss E CRf a w = Exited w' /\ w_fs w' (rf_output a ++ ".mapping.json") = Some (FJson j) /\
  mapping_file j [((0, 0), (0, 0)); ((1, 0), (1, 0))] /\ stored w' (modeltype a) (rf_output a) m' /\
  (forall m'' rows, stored w' (modeltype a) (rf_output a) m'' -> ~ copies m init (target_label a) m'' rows).
Proof.
  exists clE, rarea, rarew, rare, 0, rarew1, rare1, (match w_fs rarew1 "m-rf.mapping.json" with Some (FJson j) => j | _ => JNull end).
  split; [exact rare_stored|]. split; [exact rare_reducible|]. split; [exact plain_target|]. split; [exact plain_fail|]. split; [exact rare_exact|].
  split; [vm_compute; reflexivity|]. split; [vm_compute; reflexivity|]. split; [repeat split; vm_compute; reflexivity|]. split; [exact rare1_stored|].
  intros m'' rows H. apply rare_stored1 in H. subst m''. apply rare_not_copied.
Qed.

Lemma C90_refuted_lemma : exists w k p m v, stored w k p m /\ accepted m 0 "min" (1 # 5) v 0 /\ (exists E rf, forall a, initial_label a = "init" -> target_label_rf a = "rf_target" -> fail_label_rf a = "rf_fail" -> gen_rf E m a = Ok rf /\ rf_init rf = 0) /\
  forall E a w', modeltype a = k -> modelpath a = p -> switss E CMinimize a w = Exited w' ->
    exists j, w_fs w' (min_output a) = Some (FJson j) /\ getitem j "instances" = Ok (JArr []).
Proof.
  exists (clw2 "min" (1 # 5) []), KMdp, "m-rf", clm1, [1 # 5; 2 # 5; 1]%Q. split; [apply clm1_stored|]. split.
  - apply (proj1 (A := accepted clm1 0 "min" (1 # 5) [1 # 5; 2 # 5; 1]%Q 0) (B := True)). split; [|auto].
    assert (BF : built_form clrf1 /\ rf_sys clrf1 = clm1) by (apply (cert_form clE (cla1 0) (clw2 "min" (1 # 5) [])); [apply clm1_stored|apply clrf1_ok]). destruct BF as [BF ES].
    destruct (check_accepted clrf1 "min" (1 # 5) [1 # 5; 2 # 5; 1]%Q 0 BF (or_introl eq_refl)) as (b & Eb & Hb); [vm_compute; lia|discriminate|discriminate|reflexivity|].
    rewrite ES in Hb. apply Hb. assert (X : check_farkas clrf1 Min FGe (1 # 5) [1 # 5; 2 # 5; 1]%Q 0 = Ok true) by (vm_compute; reflexivity). change (as_mode (JStr "min")) with Min in Eb. rewrite X in Eb. injection Eb as <-. reflexivity.
  - split.
    + exists clE, clrf1. intros a A1 A2 A3. split; [|reflexivity]. unfold gen_rf. rewrite A1, A2, A3. vm_compute. reflexivity.
    + intros E a w' _ _ H. apply (C90_lemma E a _ w' H).
Qed.

Lemma C92_refuted_lemma : exists E a w m rf p j md es, (forall x, e_deepcopy E x = cython_deepcopy x) /\ stored w (modeltype a) (modelpath a) m /\ gen_rf E m a = Ok rf /\ certificate a = Some p /\ w_fs w p = Some (FJson j) /\
  certificates_file j md es /\ (forall e, In e es -> checkable m md e /\ accepted m (rf_init rf) md (en_threshold e) (en_cert e) 0) /\ es <> []%list /\
  unused m (subsys_label a) /\ plain (subsys_label a) /\ six_decimals m /\ switss E CSubsystem a w = Traceback (Py TypeError) w.
Proof.
  exists (MkEnv exrnd (fun _ => "0") (fun _ => Err ValueError) (fun _ => Err ValueError) cython_deepcopy cl_solver cl_solver (fun _ _ => cl_solver)), (cla1 0), (clw2 "min" (1 # 5) [1 # 5; 2 # 5; 1]%Q), clm1, clrf1, "c.json", (cl_cert "min" (1 # 5) [1 # 5; 2 # 5; 1]%Q), "min", [MkCinst (jnat 0) (1 # 5) [1 # 5; 2 # 5; 1]%Q].
  split; [reflexivity|]. split; [apply clm1_stored|]. split; [vm_compute; reflexivity|]. split; [reflexivity|]. split; [vm_compute; reflexivity|]. split; [apply cl_cert_file|]. split.
  { intros e [<-|[]]. split; [split; [discriminate|split; [discriminate|reflexivity]]|].
    assert (BF : built_form clrf1 /\ rf_sys clrf1 = clm1) by (apply (cert_form clE (cla1 0) (clw2 "min" (1 # 5) [])); [apply clm1_stored|apply clrf1_ok]). destruct BF as [BF ES].
    destruct (check_accepted clrf1 "min" (1 # 5) [1 # 5; 2 # 5; 1]%Q 0 BF (or_introl eq_refl)) as (b & Eb & Hb); [vm_compute; lia|discriminate|discriminate|reflexivity|].
    rewrite ES in Hb. apply Hb. assert (X : check_farkas clrf1 Min FGe (1 # 5) [1 # 5; 2 # 5; 1]%Q 0 = Ok true) by (vm_compute; reflexivity). change (as_mode (JStr "min")) with Min in Eb. rewrite X in Eb. injection Eb as <-. reflexivity. }
  split; [discriminate|]. split; [vm_compute; intuition discriminate|]. split; [exact plain_sub|]. split; [apply ExFiles.six_ok; vm_compute; reflexivity|]. vm_compute. reflexivity.
Qed.

(** With the default tolerance, a threshold above the minimal probability is
    called valid. *)
Lemma C93_tolerance_lemma : exists E a w m init w1 a' w2 p j it t v,
  stored w (modeltype a) (modelpath a) m /\ reducible m (initial_label a) (target_label a) (target_label_rf a) (fail_label_rf a) init /\ plain (target_label_rf a) /\ plain (fail_label_rf a) /\
  six_decimals m /\ exact_rows (a_P m) /\ switss E CRf a w = Exited w1 /\ on_output a a' /\ tolerance a' = default_tolerance /\ keeps (rf_output a) w1 w2 /\ certificate a' = Some p /\ w_fs w2 p = Some (FJson j) /\
  file_mode j "min" /\ w_out (final (switss E CCertify a' w2)) = (w_out w2 ++ [Verdict it (JNum t) true])%list /\
  IsPrMin (mdp_of m) (label_set m (target_label a)) init v /\ (v < Q2R t)%R.
Proof.
  destruct clm_values as (pv & qv & V1 & V2 & _). set (t := (200001 # 1000000)%Q). set (v := [1 # 5; 2 # 5; 1]%Q).
  exists clE, cla, clw, clm, 0, clw1, (cla1 default_tolerance), (clw2 "min" t v), "c.json", (cl_cert "min" t v), (jnat 0), t, pv.
  split; [exact clm_stored|]. split; [exact clm_reducible|]. split; [exact plain_target|]. split; [exact plain_fail|]. split; [exact clm_six|]. split; [exact clm_exact|]. split; [exact clw1_exited|]. split; [apply cla1_on|].
  split; [reflexivity|]. split; [apply clw2_keeps|]. split; [reflexivity|]. split; [vm_compute; reflexivity|]. split; [eexists; split; reflexivity|]. split; [vm_compute; reflexivity|]. split; [exact V1|].
  eapply Rle_lt_trans; [exact V2|]. apply Qlt_Rlt. reflexivity.
Qed.

(** With tolerance zero, a certificate with a negative entry is called valid in
    mode max although the threshold is above the maximal probability. *)
Lemma C93_negative_lemma : exists E a w m init w1 a' w2 p j it t v,
  stored w (modeltype a) (modelpath a) m /\ reducible m (initial_label a) (target_label a) (target_label_rf a) (fail_label_rf a) init /\ plain (target_label_rf a) /\ plain (fail_label_rf a) /\
  six_decimals m /\ exact_rows (a_P m) /\ switss E CRf a w = Exited w1 /\ on_output a a' /\ tolerance a' = 0%Q /\ keeps (rf_output a) w1 w2 /\ certificate a' = Some p /\ w_fs w2 p = Some (FJson j) /\
  file_mode j "max" /\ w_out (final (switss E CCertify a' w2)) = (w_out w2 ++ [Verdict it (JNum t) true])%list /\
  IsPrMax (mdp_of m) (label_set m (target_label a)) init v /\ (v < Q2R t)%R.
Proof.
  destruct clm_values as (pv & qv & _ & _ & V1 & V2). set (t := 1%Q). set (v := [9; -8; 9 # 2; 0; 5 # 2]%Q).
  exists clE, cla, clw, clm, 0, clw1, (cla1 0), (clw2 "max" t v), "c.json", (cl_cert "max" t v), (jnat 0), t, qv.
  split; [exact clm_stored|]. split; [exact clm_reducible|]. split; [exact plain_target|]. split; [exact plain_fail|]. split; [exact clm_six|]. split; [exact clm_exact|]. split; [exact clw1_exited|]. split; [apply cla1_on|].
  split; [reflexivity|]. split; [apply clw2_keeps|]. split; [reflexivity|]. split; [vm_compute; reflexivity|]. split; [eexists; split; reflexivity|]. split; [vm_compute; reflexivity|]. split; [exact V1|].
  eapply Rle_lt_trans; [exact V2|]. apply Qlt_Rlt. reflexivity.
Qed.
