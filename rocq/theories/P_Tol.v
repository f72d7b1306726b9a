(** Properties C94 and C95: what the tolerance of the certificate check does. *)
From Coq Require Import String List Arith ZArith QArith Qreals Reals Bool Lia.
From Verif Require Import Base Num Matrix SpecMdp SpecSystem SpecForm SpecBuilt SpecProb SpecReduce SpecFiles Amdp ReachForm Reduce Milp SpecLp Certificates
  Files Cli SpecCli CliProofs5 CliProofs6 CliProofs7 TolProofs TolProofs2 Examples ExProofs2 ExTol ExCli ExCli2.
Import ListNotations.
Local Open Scope nat_scope.
Local Open Scope string_scope.

(** C94: for every form there is a factor [K] such that every certificate that
    is accepted with a tolerance gives a bound that is off by at most [K] times
    the tolerance; the factor serves all thresholds, vectors and tolerances.
    Certificates over the rows have to be non-negative (see C21 and C22). *)
Theorem C94_tolerance_bounded : forall rf, built_form rf -> exact_rows (a_P (rf_sys rf)) -> exists K, (0 <= K)%R /\
  forall s t v tol, (0 <= tol)%Q ->
  let nonneg := forall i, i < a_C (rf_sys rf) - 2 -> (0 <= entry v i)%Q in
  (s = FGe \/ s = FGt -> check_farkas rf Min s t v tol = Ok true ->
     forall p, PrMinForm rf (rf_init rf) p -> (Q2R t - K * Q2R tol <= p)%R) /\
  (s = FLe \/ s = FLt -> check_farkas rf Max s t v tol = Ok true ->
     forall p, PrMaxForm rf (rf_init rf) p -> (p <= Q2R t + K * Q2R tol)%R) /\
  (s = FGe \/ s = FGt -> nonneg -> check_farkas rf Max s t v tol = Ok true ->
     forall p, PrMaxForm rf (rf_init rf) p -> (Q2R t - K * Q2R tol <= p)%R) /\
  (s = FLe \/ s = FLt -> nonneg -> rf_init rf < a_N (rf_sys rf) - 2 -> check_farkas rf Min s t v tol = Ok true ->
     forall p, PrMinForm rf (rf_init rf) p -> (p <= Q2R t + K * Q2R tol)%R).
Proof. exact C94_lemma. Qed.
Print Assumptions C94_tolerance_bounded.

(** C93, with a tolerance: what rf and then certify print as VALID is
    off by at most [K] times the tolerance, and [K] depends on the model only. *)
Theorem C93_rf_certify_tolerance_partial : forall E a w m init, stored w (modeltype a) (modelpath a) m ->
  reducible m (initial_label a) (target_label a) (target_label_rf a) (fail_label_rf a) init ->
  plain (target_label_rf a) -> plain (fail_label_rf a) -> six_decimals m -> exact_rows (a_P m) ->
  exists w1 K, switss E CRf a w = Exited w1 /\ (0 <= K)%R /\
  forall E' a' w2 p j, on_output a a' -> (0 <= tolerance a')%Q -> keeps (form_path a) w1 w2 -> certificate a' = Some p -> w_fs w2 p = Some (FJson j) ->
  let w3 := final (switss E' CCertify a' w2) in w_fs w3 = w_fs w2 /\ exists new, w_out w3 = (w_out w2 ++ new)%list /\
    (file_mode j "min" -> forall it th, In (Verdict it th true) new -> exists t, as_number th = Ok t /\
       forall v, IsPrMin (mdp_of m) (label_set m (target_label a)) init v -> (Q2R t - K * Q2R (tolerance a') <= v)%R) /\
    (file_mode j "max" -> (forall v q, file_certificate j v -> In q v -> (0 <= q)%Q) ->
       forall it th, In (Verdict it th true) new -> exists t, as_number th = Ok t /\
       forall v, IsPrMax (mdp_of m) (label_set m (target_label a)) init v -> (Q2R t - K * Q2R (tolerance a') <= v)%R).
Proof. exact C93_tol_lemma. Qed.
Print Assumptions C93_rf_certify_tolerance_partial.

(** Accepted with a tolerance, not without: on a form with an end component
    and on a chain; the files of C93 with the default tolerance. *)
Example C94_nonvacuous :
  (built_form ec2rf /\ exact_rows (a_P (rf_sys ec2rf)) /\
   check_farkas ec2rf Min FGe (51 # 100) [1 # 2; 0]%Q (1 # 100) = Ok true /\ check_farkas ec2rf Min FGe (51 # 100) [1 # 2; 0]%Q 0 = Ok false /\
   check_farkas ec2rf Max FLe (74 # 100) [3 # 4; 1 # 2]%Q (1 # 100) = Ok true /\ check_farkas ec2rf Max FGe (76 # 100) [0; 1; 0; 0]%Q (1 # 100) = Ok true) /\
  (stored clw (modeltype cla) (modelpath cla) clm /\ reducible clm (initial_label cla) (target_label cla) (target_label_rf cla) (fail_label_rf cla) 0 /\
   six_decimals clm /\ exact_rows (a_P clm) /\ plain (target_label_rf cla) /\ plain (fail_label_rf cla) /\ on_output cla (cla1 default_tolerance) /\
   (0 <= tolerance (cla1 default_tolerance))%Q /\ keeps (form_path cla) clw1 (clw2 "max" (100001 # 200000) [1; 0; 1 # 2; 0; 1 # 2]%Q) /\
   w_out (final (switss clE CCertify (cla1 default_tolerance) (clw2 "max" (100001 # 200000) [1; 0; 1 # 2; 0; 1 # 2]%Q))) = [Verdict (jnat 0) (JNum (100001 # 200000)) true]%list).
Proof.
  split.
  - split; [apply ec2rf_built|]. split; [apply exact_ec2|]. split; [vm_compute; reflexivity|]. split; [vm_compute; reflexivity|]. split; vm_compute; reflexivity.
  - split; [exact clm_stored|]. split; [exact clm_reducible|]. split; [exact clm_six|]. split; [exact clm_exact|]. split; [exact plain_target|]. split; [exact plain_fail|].
    split; [apply cla1_on|]. split; [vm_compute; discriminate|]. split; [apply clw2_keeps|]. vm_compute. reflexivity.
Qed.

(** C95: the factor does not depend on the probabilities.  Certificates over
    the rows (lower bounds of Pr-max, upper bounds of Pr-min): it is one more
    than the number of states. *)
Theorem C95_flow_factor_partial : forall rf, built_form rf -> exact_rows (a_P (rf_sys rf)) ->
  forall s t v tol, (0 <= tol)%Q -> (forall i, i < a_C (rf_sys rf) - 2 -> (0 <= entry v i)%Q) ->
  let K := (1 + INR (a_N (rf_sys rf) - 2))%R in
  (s = FGe \/ s = FGt -> check_farkas rf Max s t v tol = Ok true ->
     forall p, PrMaxForm rf (rf_init rf) p -> (Q2R t - K * Q2R tol <= p)%R) /\
  (s = FLe \/ s = FLt -> rf_init rf < a_N (rf_sys rf) - 2 -> check_farkas rf Min s t v tol = Ok true ->
     forall p, PrMinForm rf (rf_init rf) p -> (p <= Q2R t + K * Q2R tol)%R).
Proof. exact flow_sound. Qed.
Print Assumptions C95_flow_factor_partial.

(** Certificates over the states: false.  One state, probability 1/2; with the
    default tolerance of the command line both "at least 1" and "at most 0"
    have an accepted certificate. *)
Theorem C95_state_factor_refuted : exists rf p, built_form rf /\ exact_rows (a_P (rf_sys rf)) /\ PrMinForm rf (rf_init rf) p /\ PrMaxForm rf (rf_init rf) p /\
  p = (1 / 2)%R /\ check_farkas rf Min FGe 1 [1]%Q default_tolerance = Ok true /\ check_farkas rf Max FLe 0 [0]%Q default_tolerance = Ok true.
Proof. exact C95_lemma. Qed.
Print Assumptions C95_state_factor_refuted.

Example C95_nonvacuous : built_form ec2rf /\ exact_rows (a_P (rf_sys ec2rf)) /\ rf_init ec2rf < a_N (rf_sys ec2rf) - 2 /\
  check_farkas ec2rf Max FGe (77 # 100) [0; 102 # 100; 0; 0]%Q (1 # 50) = Ok true /\ check_farkas ec2rf Max FGe (77 # 100) [0; 102 # 100; 0; 0]%Q 0 = Ok false.
Proof. split; [apply ec2rf_built|]. split; [apply exact_ec2|]. split; [vm_compute; lia|]. split; vm_compute; reflexivity. Qed.
