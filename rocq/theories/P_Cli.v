(** Properties C88 to C93: the command line tool. *)
From Coq Require Import String List Arith ZArith QArith Qreals Reals Bool.
From Verif Require Import Base Num Matrix InvDict SpecMdp SpecSystem SpecForm SpecBuilt SpecProb SpecReduce SpecFiles SpecSub
  Amdp ReachForm Reduce Milp Certificates Files Cli SpecCli CliProofs5 CliProofs6 CliProofs7 CliProofs8 CliProofs9 ExFiles ExCli ExCli2.
Import ListNotations.
Local Open Scope nat_scope.
Local Open Scope string_scope.

(** C88: [switss rf] ends without exception, writes three files and nothing
    else, and every later command that loads what it wrote obtains a
    reachability form of the system with the same probabilities.  Missing for
    the full claim: probabilities with more than six decimals. *)
Theorem C88_rf_command_partial : forall E a w m init, stored w (modeltype a) (modelpath a) m ->
  reducible m (initial_label a) (target_label a) (target_label_rf a) (fail_label_rf a) init ->
  plain (target_label_rf a) -> plain (fail_label_rf a) -> six_decimals m ->
  exists w' m' cols, switss E CRf a w = Exited w' /\ w_out w' = w_out w /\
    changes_only [form_path a ++ ".tra"; form_path a ++ ".lab"; form_path a ++ ".mapping.json"] w w' /\
    forall E' a', on_output a a' -> load_model a' w' = Done m' w' /\ exists rf, gen_rf E' m' a' = Ok rf /\
      reduce_result m init (initial_label a) (target_label a) (target_label_rf a) (fail_label_rf a) rf cols /\
      (exact_rows (a_P m) -> forall s s', dget Nat.eqb cols s = Some s' ->
        (forall v, IsPrMin (mdp_of m) (label_set m (target_label a)) s v <-> PrMinForm rf s' v) /\
        (forall v, IsPrMax (mdp_of m) (label_set m (target_label a)) s v <-> PrMaxForm rf s' v)).
Proof. exact C88_lemma. Qed.
Print Assumptions C88_rf_command_partial.

(** With smaller probabilities the files are written, but no later command
    accepts them. *)
Theorem C88_rf_command_refuted : exists E a w m init w', stored w (modeltype a) (modelpath a) m /\
  reducible m (initial_label a) (target_label a) (target_label_rf a) (fail_label_rf a) init /\ plain (target_label_rf a) /\ plain (fail_label_rf a) /\
  exact_rows (a_P m) /\ switss E CRf a w = Exited w' /\
  forall E' a', on_output a a' -> exists m', load_model a' w' = Done m' w' /\ gen_rf E' m' a' = Err AssertionError.
Proof. exact C88_refuted_lemma. Qed.
Print Assumptions C88_rf_command_refuted.

Example C88_nonvacuous : stored clw (modeltype cla) (modelpath cla) clm /\
  reducible clm (initial_label cla) (target_label cla) (target_label_rf cla) (fail_label_rf cla) 0 /\
  plain (target_label_rf cla) /\ plain (fail_label_rf cla) /\ six_decimals clm /\ exact_rows (a_P clm) /\ on_output cla (cla1 0) /\
  a_N clm = 4 /\ a_N clm1 = 5.
Proof.
  split; [exact clm_stored|]. split; [exact clm_reducible|]. split; [exact plain_target|]. split; [exact plain_fail|].
  split; [exact clm_six|]. split; [exact clm_exact|]. split; [apply cla1_on|]. split; reflexivity.
Qed.

(** C89: the mapping file lists every pair of a state and an action of the
    relevant part of the system with its copy in the written form. *)
Theorem C89_mapping_file_partial : forall E a w m init, stored w (modeltype a) (modelpath a) m ->
  reducible m (initial_label a) (target_label a) (target_label_rf a) (fail_label_rf a) init ->
  plain (target_label_rf a) -> plain (fail_label_rf a) -> six_decimals m ->
  exists w' m' j rows, switss E CRf a w = Exited w' /\
    w_fs w' (form_path a ++ ".mapping.json") = Some (FJson j) /\ mapping_file j rows /\
    stored w' (modeltype a) (form_path a) m' /\ copies m init (target_label a) m' rows.
Proof. exact C89_lemma. Qed.
Print Assumptions C89_mapping_file_partial.

(** With smaller probabilities the two files do not describe a copy, whatever
    rows are read from the mapping. *)
Theorem C89_mapping_file_refuted : exists E a w m init w' m' j, stored w (modeltype a) (modelpath a) m /\
  reducible m (initial_label a) (target_label a) (target_label_rf a) (fail_label_rf a) init /\ plain (target_label_rf a) /\ plain (fail_label_rf a) /\
  exact_rows (a_P m) /\ switss E CRf a w = Exited w' /\ w_fs w' (form_path a ++ ".mapping.json") = Some (FJson j) /\
  mapping_file j [((0, 0), (0, 0)); ((1, 0), (1, 0))] /\ stored w' (modeltype a) (form_path a) m' /\
  (forall m'' rows, stored w' (modeltype a) (form_path a) m'' -> ~ copies m init (target_label a) m'' rows).
Proof. exact C89_refuted_lemma. Qed.
Print Assumptions C89_mapping_file_refuted.

Example C89_nonvacuous : exists j, w_fs clw1 "m-rf.mapping.json" = Some (FJson j) /\
  mapping_file j [((0, 0), (0, 0)); ((0, 1), (0, 1)); ((1, 0), (1, 0)); ((1, 1), (1, 1)); ((3, 0), (2, 0))] /\
  six_decimals clm /\ reducible clm "init" "goal" "rf_target" "rf_fail" 0 /\ stored clw KMdp "m" clm.
Proof.
  eexists. split; [vm_compute; reflexivity|]. split; [repeat split|]. split; [exact clm_six|]. split; [exact clm_reducible|exact clm_stored].
Qed.

(** C90: that [switss minimize] stores what it computes is wrong for all
    arguments: whenever it ends without exception, the list of instances it
    stores is empty.  A result is checked with the mode taken from the arguments
    of the method, whose constructor does not accept a mode. *)
Theorem C90_minimize_stores_nothing : forall E a w w', switss E CMinimize a w = Exited w' ->
  w_out w' = w_out w /\ changes_only [results_path a] w w' /\
  exists j, w_fs w' (results_path a) = Some (FJson j) /\ getitem j "instances" = Ok (JArr []).
Proof. exact C90_lemma. Qed.
Print Assumptions C90_minimize_stores_nothing.

Theorem C90_minimize_refuted : exists w k p m v, stored w k p m /\ accepted m 0 "min" (1 # 5) v 0 /\
  (exists E rf, forall a, initial_label a = "init" -> target_label_rf a = "rf_target" -> fail_label_rf a = "rf_fail" ->
     gen_rf E m a = Ok rf /\ rf_init rf = 0) /\
  forall E a w', modeltype a = k -> modelpath a = p -> switss E CMinimize a w = Exited w' ->
    exists j, w_fs w' (results_path a) = Some (FJson j) /\ getitem j "instances" = Ok (JArr []).
Proof. exact C90_refuted_lemma. Qed.
Print Assumptions C90_minimize_refuted.

(** There are runs of this kind. *)
Definition cla2 (ma sa si : list string) : args :=
  MkArgs KMdp "m-rf" "init" "goal" "rf_target" "rf_fail" None None ma sa si default_tolerance "subsystem".
Example C90_nonvacuous :
  (exists w', switss clE CMinimize (cla2 ["QSHeur"; "iterations=0"] [] ["threshold=0.2"; "mode=min"]) clw1 = Exited w') /\
  switss clE CMinimize (cla2 ["QSHeur"; "mode=min"] [] ["threshold=0.2"; "mode=min"]) clw1 = Traceback (Py TypeError) clw1.
Proof. split; [eexists|]; vm_compute; reflexivity. Qed.

(** C91: [switss certify] prints one verdict for each instance in the file, in
    this order; VALID says exactly that the Farkas constraints hold up to the
    tolerance; no file changes. *)
Theorem C91_certify_verdicts : forall E a w m rf p j, stored w (modeltype a) (modelpath a) m -> gen_rf E m a = Ok rf ->
  certificate a = Some p -> w_fs w p = Some (FJson j) ->
  forall md es, rf_init rf < a_N m - 2 -> certificates_file j md es -> md = "min" \/ md = "max" ->
  (forall e, In e es -> checkable m md e) ->
  exists bs, switss E CCertify a w = Exited (MkWorld (w_fs w) (w_out w ++ verdicts es bs)) /\
    Forall2 (fun e b => b = true <-> accepted m (rf_init rf) md (en_threshold e) (en_cert e) (tolerance a)) es bs.
Proof. exact C91_lemma. Qed.
Print Assumptions C91_certify_verdicts.

Example C91_nonvacuous : let v := [1 # 5; 2 # 5; 1]%Q in let w := clw2 "min" (1 # 5) v in
  stored w (modeltype (cla1 0)) (modelpath (cla1 0)) clm1 /\ gen_rf clE clm1 (cla1 0) = Ok clrf1 /\ certificate (cla1 0) = Some "c.json" /\
  w_fs w "c.json" = Some (FJson (cl_cert "min" (1 # 5) v)) /\ rf_init clrf1 < a_N clm1 - 2 /\
  certificates_file (cl_cert "min" (1 # 5) v) "min" [MkCinst (jnat 0) (1 # 5) v] /\ checkable clm1 "min" (MkCinst (jnat 0) (1 # 5) v) /\
  w_out (final (switss clE CCertify (cla1 0) w)) = [Verdict (jnat 0) (JNum (1 # 5)) true] /\
  w_out (final (switss clE CCertify (cla1 0) (clw2 "min" (1 # 4) v))) = [Verdict (jnat 0) (JNum (1 # 4)) false].
Proof.
  cbv zeta. split; [apply clm1_stored|]. split; [apply clrf1_ok|]. split; [reflexivity|]. split; [vm_compute; reflexivity|].
  split; [vm_compute; auto|]. split; [apply cl_cert_file|]. split; [split; [discriminate|split; [discriminate|reflexivity]]|]. split; vm_compute; reflexivity.
Qed.

(** C92: [switss subsystem] writes for every instance the system with the label
    for the subsystem on exactly the states the certificate selects.  Missing
    for the full claim: that systems can be copied with deepcopy, and
    probabilities with more than six decimals. *)
Theorem C92_subsystem_files_partial : forall E a w m rf p j md es, stored w (modeltype a) (modelpath a) m -> gen_rf E m a = Ok rf ->
  certificate a = Some p -> w_fs w p = Some (FJson j) -> certificates_file j md es -> md = "min" \/ md = "max" ->
  (forall e, In e es -> length (en_cert e) = if String.eqb md "min" then a_N m - 2 else a_C m - 2) ->
  unused m (subsys_label a) -> plain (subsys_label a) -> six_decimals m -> (forall x, e_deepcopy E x = Ok x) ->
  NoDup (map (fun e => part_path E a (en_iteration e)) es) ->
  exists w', switss E CSubsystem a w = Exited w' /\ w_out w' = w_out w /\
    changes_only (flat_map (fun e => [part_path E a (en_iteration e) ++ ".tra"; part_path E a (en_iteration e) ++ ".lab"]) es) w w' /\
    forall e, In e es -> exists m', stored w' (modeltype a) (part_path E a (en_iteration e)) m' /\
      with_label m (subsys_label a) (selected m md (en_cert e)) m'.
Proof. exact C92_lemma. Qed.
Print Assumptions C92_subsystem_files_partial.

(** With the graph class as it is, deepcopy raises, and so does the command
    for the first instance. *)
Theorem C92_subsystem_files_refuted : exists E a w m rf p j md es, (forall x, e_deepcopy E x = cython_deepcopy x) /\
  stored w (modeltype a) (modelpath a) m /\ gen_rf E m a = Ok rf /\ certificate a = Some p /\ w_fs w p = Some (FJson j) /\
  certificates_file j md es /\ (forall e, In e es -> checkable m md e /\ accepted m (rf_init rf) md (en_threshold e) (en_cert e) 0) /\
  es <> []%list /\ unused m (subsys_label a) /\ plain (subsys_label a) /\ six_decimals m /\
  switss E CSubsystem a w = Traceback (Py TypeError) w.
Proof. exact C92_refuted_lemma. Qed.
Print Assumptions C92_subsystem_files_refuted.

Example C92_nonvacuous : let v := [1 # 5; 2 # 5; 0]%Q in let w := clw2 "min" (1 # 5) v in let a := cla1 0 in
  let e := MkCinst (jnat 0) (1 # 5) v in
  stored w (modeltype a) (modelpath a) clm1 /\ gen_rf clE clm1 a = Ok clrf1 /\ certificates_file (cl_cert "min" (1 # 5) v) "min" [e] /\
  length v = a_N clm1 - 2 /\ unused clm1 (subsys_label a) /\ plain (subsys_label a) /\ six_decimals clm1 /\
  (forall x, e_deepcopy clE x = Ok x) /\ NoDup (map (fun e => part_path clE a (en_iteration e)) [e]) /\
  exists lab tra m', w_fs (final (switss clE CSubsystem a w)) "m-rf-subsys-0.lab" = Some (FText lab) /\
    w_fs (final (switss clE CSubsystem a w)) "m-rf-subsys-0.tra" = Some (FText tra) /\ from_file KMdp lab tra = Ok m' /\
    states_by_label m' "subsystem" = [0; 1].
Proof.
  cbv zeta. split; [apply clm1_stored|]. split; [apply clrf1_ok|]. split; [apply cl_cert_file|]. split; [reflexivity|].
  split; [vm_compute; intuition discriminate|]. split; [exact plain_sub|]. split; [apply six_ok; vm_compute; reflexivity|].
  split; [reflexivity|]. split; [constructor; [intros []|constructor]|]. eexists _, _, _.
  split; [vm_compute; reflexivity|]. split; [vm_compute; reflexivity|]. split; vm_compute; reflexivity.
Qed.

(** C93: rf and then certify, on whatever file: a threshold printed as VALID is
    a lower bound for the probability in the original system.  Missing for the
    full claim: a tolerance above zero, negative entries in mode max, and
    probabilities with more than six decimals. *)
Theorem C93_rf_certify_sound_partial : forall E a w m init, stored w (modeltype a) (modelpath a) m ->
  reducible m (initial_label a) (target_label a) (target_label_rf a) (fail_label_rf a) init ->
  plain (target_label_rf a) -> plain (fail_label_rf a) -> six_decimals m -> exact_rows (a_P m) ->
  exists w1, switss E CRf a w = Exited w1 /\
  forall E' a' w2 p j, on_output a a' -> tolerance a' = 0%Q -> keeps (form_path a) w1 w2 -> certificate a' = Some p -> w_fs w2 p = Some (FJson j) ->
  let w3 := final (switss E' CCertify a' w2) in w_fs w3 = w_fs w2 /\ exists new, w_out w3 = (w_out w2 ++ new)%list /\
    (file_mode j "min" -> forall it th, In (Verdict it th true) new -> exists t, as_number th = Ok t /\
       forall v, IsPrMin (mdp_of m) (label_set m (target_label a)) init v -> (Q2R t <= v)%R) /\
    (file_mode j "max" -> (forall v q, file_certificate j v -> In q v -> (0 <= q)%Q) ->
       forall it th, In (Verdict it th true) new -> exists t, as_number th = Ok t /\
       forall v, IsPrMax (mdp_of m) (label_set m (target_label a)) init v -> (Q2R t <= v)%R).
Proof. exact C93_sound_lemma. Qed.
Print Assumptions C93_rf_certify_sound_partial.

(** Conversely, for every lower bound there is a certificate that rf and
    certify accept, with every tolerance. *)
Theorem C93_rf_certify_complete_partial : forall E a w m init, stored w (modeltype a) (modelpath a) m ->
  reducible m (initial_label a) (target_label a) (target_label_rf a) (fail_label_rf a) init ->
  plain (target_label_rf a) -> plain (fail_label_rf a) -> six_decimals m -> exact_rows (a_P m) ->
  exists w1, switss E CRf a w = Exited w1 /\ forall md t, (0 <= t)%Q -> (t <= 1)%Q ->
  (md = "min" /\ forall v, IsPrMin (mdp_of m) (label_set m (target_label a)) init v -> (Q2R t <= v)%R) \/
  (md = "max" /\ forall v, IsPrMax (mdp_of m) (label_set m (target_label a)) init v -> (Q2R t <= v)%R) ->
  exists c, (forall q, md = "max" -> In q c -> (0 <= q)%Q) /\
    forall E' a' w2 p j it, on_output a a' -> (0 <= tolerance a')%Q -> keeps (form_path a) w1 w2 -> certificate a' = Some p -> w_fs w2 p = Some (FJson j) ->
    certificates_file j md [MkCinst it t c] ->
    switss E' CCertify a' w2 = Exited (MkWorld (w_fs w2) (w_out w2 ++ [Verdict it (JNum t) true])).
Proof. exact C93_complete_lemma. Qed.
Print Assumptions C93_rf_certify_complete_partial.

(** The default tolerance makes VALID wrong. *)
Theorem C93_default_tolerance_refuted : exists E a w m init w1 a' w2 p j it t v,
  stored w (modeltype a) (modelpath a) m /\ reducible m (initial_label a) (target_label a) (target_label_rf a) (fail_label_rf a) init /\
  plain (target_label_rf a) /\ plain (fail_label_rf a) /\ six_decimals m /\ exact_rows (a_P m) /\
  switss E CRf a w = Exited w1 /\ on_output a a' /\ tolerance a' = default_tolerance /\ keeps (form_path a) w1 w2 /\
  certificate a' = Some p /\ w_fs w2 p = Some (FJson j) /\ file_mode j "min" /\
  w_out (final (switss E CCertify a' w2)) = (w_out w2 ++ [Verdict it (JNum t) true])%list /\
  IsPrMin (mdp_of m) (label_set m (target_label a)) init v /\ (v < Q2R t)%R.
Proof. exact C93_tolerance_lemma. Qed.
Print Assumptions C93_default_tolerance_refuted.

(** Negative entries make VALID wrong in mode max. *)
Theorem C93_negative_entries_refuted : exists E a w m init w1 a' w2 p j it t v,
  stored w (modeltype a) (modelpath a) m /\ reducible m (initial_label a) (target_label a) (target_label_rf a) (fail_label_rf a) init /\
  plain (target_label_rf a) /\ plain (fail_label_rf a) /\ six_decimals m /\ exact_rows (a_P m) /\
  switss E CRf a w = Exited w1 /\ on_output a a' /\ tolerance a' = 0%Q /\ keeps (form_path a) w1 w2 /\
  certificate a' = Some p /\ w_fs w2 p = Some (FJson j) /\ file_mode j "max" /\
  w_out (final (switss E CCertify a' w2)) = (w_out w2 ++ [Verdict it (JNum t) true])%list /\
  IsPrMax (mdp_of m) (label_set m (target_label a)) init v /\ (v < Q2R t)%R.
Proof. exact C93_negative_lemma. Qed.
Print Assumptions C93_negative_entries_refuted.

Example C93_nonvacuous : stored clw (modeltype cla) (modelpath cla) clm /\
  reducible clm (initial_label cla) (target_label cla) (target_label_rf cla) (fail_label_rf cla) 0 /\ six_decimals clm /\ exact_rows (a_P clm) /\
  plain (target_label_rf cla) /\ plain (fail_label_rf cla) /\ switss clE CRf cla clw = Exited clw1 /\ on_output cla (cla1 0) /\
  (let v := [1; 0; 1 # 2; 0; 1 # 2]%Q in keeps (form_path cla) clw1 (clw2 "max" (1 # 2) v) /\ file_mode (cl_cert "max" (1 # 2) v) "max" /\
     (forall q, In q v -> (0 <= q)%Q) /\
     w_out (final (switss clE CCertify (cla1 0) (clw2 "max" (1 # 2) v))) = [Verdict (jnat 0) (JNum (1 # 2)) true]).
Proof.
  split; [exact clm_stored|]. split; [exact clm_reducible|]. split; [exact clm_six|]. split; [exact clm_exact|]. split; [exact plain_target|]. split; [exact plain_fail|].
  split; [exact clw1_exited|]. split; [apply cla1_on|]. cbv zeta. split; [apply clw2_keeps|]. split; [eexists; split; reflexivity|].
  split; [|vm_compute; reflexivity]. intros q H. repeat (destruct H as [<-|H]; [vm_compute; discriminate|]). destruct H.
Qed.
