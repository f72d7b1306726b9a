(** Properties C97 to C100: the certificate check in double precision. *)
From Coq Require Import String List Arith ZArith QArith Qreals Reals Bool Lia Permutation.
From Flocq Require Import Core BinarySingleNaN.
From Verif Require Import Base Num Matrix SpecMdp SpecSystem SpecEc SpecForm SpecBuilt SpecProb SpecNear Amdp ReachForm Milp SpecLp Certificates
  FloatRow SpecFloatRow FloatCheck SpecFloatCheck FloatCheckProofs4 FloatNan Examples ExFloatCheck ExNan.
Import ListNotations.
Local Open Scope nat_scope.

(** C97: the check in doubles, whatever the order in which the entries of the
    matrix are stored, accepts only what the exact check accepts with the
    tolerance raised by [err], and all that the exact check accepts with the
    tolerance lowered by [err]; it raises the same exceptions.  The numbers of
    the form are those that are stored. *)
Theorem C97_float_check_is_a_tolerance : forall rf pd arr, built_form rf -> double_form rf pd -> arrangement arr ->
  let n := a_N (rf_sys rf) + a_C (rf_sys rf) in (Z.of_nat n <= 2 ^ 24)%Z ->
  forall md s t v tol B, finite t -> finite tol -> (0 <= dval tol)%R -> (dval tol <= Q2R B)%R -> (1 <= B)%Q -> (B <= inject_Z (2 ^ 500))%Q ->
  (forall x, In x v -> finite x /\ (Rabs (dval x) <= Q2R B)%R) ->
  let err := round_err n B in
  (fcheck arr rf pd md s t v tol = Ok true -> check_farkas rf md s (dq t) (map dq v) (dq tol + err) = Ok true) /\
  (check_farkas rf md s (dq t) (map dq v) (dq tol - err) = Ok true -> fcheck arr rf pd md s t v tol = Ok true) /\
  (forall e, fcheck arr rf pd md s t v tol = Err e <-> check_farkas rf md s (dq t) (map dq v) (dq tol) = Err e).
Proof. exact C97_lemma. Qed.
Print Assumptions C97_float_check_is_a_tolerance.

(** All four kinds of certificates, with the default tolerance. *)
Example C97_nonvacuous : built_form eighthrf /\ double_form eighthrf eighthD /\ arrangement backwards /\
  fcheck backwards eighthrf eighthD Min FGe (dmake 1 (-3)) [dmake 1 (-3); half; dmake 1 (-2)] tol8 = Ok true /\
  fcheck backwards eighthrf eighthD Max FLe half [half; d1; d1] tol8 = Ok true /\
  fcheck backwards eighthrf eighthD Max FGe (dmake 1 (-3)) [d1; dmake 1 (-3); dmake 3 (-3)] tol8 = Ok true /\
  fcheck backwards eighthrf eighthD Min FLe half [dmake 2 0; dmake 1 (-2); dmake 3 (-2)] tol8 = Ok true /\
  fcheck backwards eighthrf eighthD Max FGt half [d1; dmake 1 (-3); dmake 3 (-3)] tol8 = Ok false.
Proof. split; [exact eighthrf_built|]. split; [exact eighth_double|]. split; [exact backwards_ok|]. repeat (split; [vm_compute; reflexivity|]). vm_compute; reflexivity. Qed.

(** C98: [M] is the system that was meant, the doubles of the form are off by
    at most [delta].  A certificate that the check in doubles accepts gives a
    bound for [M], off by at most [K] times [e]; [K] depends on [M] only. *)
Theorem C98_float_certificate_bound : forall M init, rf_mdp M init -> exists K, (0 <= K)%R /\
  forall rf pd arr delta, built_form rf -> rf_init rf = init -> near rf M delta -> (0 <= delta)%R -> double_form rf pd -> arrangement arr ->
  let n := a_N (rf_sys rf) + a_C (rf_sys rf) in (Z.of_nat n <= 2 ^ 24)%Z ->
  forall s t v tol B, finite t -> finite tol -> (0 <= dval tol)%R -> (dval tol <= Q2R B)%R -> (1 <= B)%Q -> (B <= inject_Z (2 ^ 500))%Q ->
  (forall x, In x v -> finite x /\ (Rabs (dval x) <= Q2R B)%R) ->
  let nonneg := forall x, In x v -> (0 <= dval x)%R in
  let e := (dval tol + Q2R (round_err n B) + INR n * (delta * Q2R B))%R in
  (s = FGe \/ s = FGt -> fcheck arr rf pd Min s t v tol = Ok true ->
     forall p, IsPrMin M (is_goal M) init p -> (dval t - K * e <= p)%R) /\
  (s = FLe \/ s = FLt -> fcheck arr rf pd Max s t v tol = Ok true ->
     forall p, IsPrMax M (is_goal M) init p -> (p <= dval t + K * e)%R) /\
  (s = FGe \/ s = FGt -> nonneg -> fcheck arr rf pd Max s t v tol = Ok true ->
     forall p, IsPrMax M (is_goal M) init p -> (dval t - K * e <= p)%R) /\
  (s = FLe \/ s = FLt -> nonneg -> init < a_N (rf_sys rf) - 2 -> fcheck arr rf pd Min s t v tol = Ok true ->
     forall p, IsPrMin M (is_goal M) init p -> (p <= dval t + K * e)%R).
Proof. exact C98_lemma. Qed.
Print Assumptions C98_float_certificate_bound.

(** Every form is close to the system with divided rows; here rows sum to one. *)
Example C98_nonvacuous : rf_mdp (normalised eighthrf) (rf_init eighthrf) /\ near eighthrf (normalised eighthrf) (1 / 2000000000) /\ double_form eighthrf eighthD /\
  fcheck by_column eighthrf eighthD Max FLe half lowv tol8 = Ok true.
Proof. split; [apply (NearProofs.C96_norm_lemma eighthrf eighthrf_built)|]. split; [apply (NearProofs.C96_norm_lemma eighthrf eighthrf_built)|]. split; [exact eighth_double|vm_compute; reflexivity]. Qed.

(** C99: verdicts for different orders of the stored entries agree up to twice
    the rounding error. *)
Theorem C99_order_partial : forall rf pd arr1 arr2, built_form rf -> double_form rf pd -> arrangement arr1 -> arrangement arr2 ->
  let n := a_N (rf_sys rf) + a_C (rf_sys rf) in (Z.of_nat n <= 2 ^ 24)%Z ->
  forall md s t v tol1 tol2 B, finite t -> finite tol1 -> finite tol2 -> (0 <= dval tol1)%R -> (dval tol1 + 2 * Q2R (round_err n B) <= dval tol2)%R ->
  (dval tol2 <= Q2R B)%R -> (1 <= B)%Q -> (B <= inject_Z (2 ^ 500))%Q ->
  (forall x, In x v -> finite x /\ (Rabs (dval x) <= Q2R B)%R) ->
  fcheck arr1 rf pd md s t v tol1 = Ok true -> fcheck arr2 rf pd md s t v tol2 = Ok true.
Proof. exact C99_lemma. Qed.
Print Assumptions C99_order_partial.

(** The verdict is not that of the exact check, in either direction, and it
    depends on the order in which the entries are stored. *)
Theorem C99_rounding_refuted : exists rf pd arr t v1 v2, built_form rf /\ double_form rf pd /\ arrangement arr /\ finite t /\
  fcheck arr rf pd Max FLe t v1 d0 = Ok false /\ check_farkas rf Max FLe (dq t) (map dq v1) 0 = Ok true /\
  fcheck arr rf pd Max FLe t v2 d0 = Ok true /\ check_farkas rf Max FLe (dq t) (map dq v2) 0 = Ok false.
Proof.
  exists eighthrf, eighthD, head_back, half, tightv, lowv. split; [exact eighthrf_built|]. split; [exact eighth_double|]. split; [exact head_back_ok|].
  repeat (split; [vm_compute; reflexivity|]). vm_compute; reflexivity.
Qed.
Print Assumptions C99_rounding_refuted.
Theorem C99_order_refuted : exists rf pd arr1 arr2 t v, built_form rf /\ double_form rf pd /\ arrangement arr1 /\ arrangement arr2 /\ finite t /\
  fcheck arr1 rf pd Max FLe t v d0 = Ok true /\ fcheck arr2 rf pd Max FLe t v d0 = Ok false.
Proof.
  exists eighthrf, eighthD, by_column, head_back, half, tightv. split; [exact eighthrf_built|]. split; [exact eighth_double|]. split; [exact by_column_ok|]. split; [exact head_back_ok|].
  repeat (split; [vm_compute; reflexivity|]). vm_compute; reflexivity.
Qed.
Print Assumptions C99_order_refuted.

(** Both orders accept the vector with the default tolerance, without any
    tolerance only one does. *)
Example C99_nonvacuous : fcheck by_column eighthrf eighthD Max FLe half tightv d0 = Ok true /\ fcheck head_back eighthrf eighthD Max FLe half tightv tol8 = Ok true.
Proof. split; vm_compute; reflexivity. Qed.

(** C100: a certificate over states with an infinite or undefined entry is not
    accepted.  Missing: certificates over rows, and rows with an entry one
    beside others. *)
Theorem C100_states_finite_partial : forall rf pd arr, built_form rf -> double_form rf pd -> arrangement arr -> sole_one rf ->
  forall md s t v tol, md = Min /\ (s = FGe \/ s = FGt) \/ md = Max /\ (s = FLe \/ s = FLt) -> finite tol ->
  fcheck arr rf pd md s t v tol = Ok true -> forall x, In x v -> finite x.
Proof. exact C100_lemma. Qed.
Print Assumptions C100_states_finite_partial.

(** The claim fails for rows: NaN for a row that stays, minus infinity for a
    row to fail (and the accepted bound is wrong).  It fails for states if a
    row has an entry one beside another. *)
Theorem C100_finite_refuted : exists rf1 pd1 v1 rf2 pd2 v2 rf3 pd3 v3, built_form rf1 /\ double_form rf1 pd1 /\ built_form rf2 /\ double_form rf2 pd2 /\ built_form rf3 /\ double_form rf3 pd3 /\
  fcheck by_column rf1 pd1 Max FGe half v1 d0 = Ok true /\ In dnan v1 /\
  fcheck by_column rf2 pd2 Max FGe d1 v2 d0 = Ok true /\ In dminf v2 /\ (exists p, PrMaxForm rf2 (rf_init rf2) p /\ (p < 1)%R) /\
  fcheck by_column rf3 pd3 Min FGe d1 v3 d0 = Ok true /\ In dpinf v3.
Proof. exact C100_refuted_lemma. Qed.
Print Assumptions C100_finite_refuted.

Example C100_nonvacuous : sole_one eighthrf /\ fcheck by_column eighthrf eighthD Min FGe (dmake 1 (-3)) [dmake 1 (-3); half; dmake 1 (-2)] tol8 = Ok true /\
  fcheck by_column eighthrf eighthD Min FGe (dmake 1 (-3)) [dmake 1 (-3); dnan; dmake 1 (-2)] tol8 = Ok false /\
  fcheck by_column eighthrf eighthD Min FGe (dmake 1 (-3)) [dmake 1 (-3); dpinf; dmake 1 (-2)] tol8 = Ok false /\
  fcheck by_column eighthrf eighthD Max FLe half [dminf; dminf; dminf] tol8 = Ok false.
Proof. split; [exact eighth_sole|]. repeat (split; [vm_compute; reflexivity|]). vm_compute; reflexivity. Qed.
