(** Property C96: certificates checked against rounded probabilities. *)
From Coq Require Import String List Arith ZArith QArith Qreals Reals Bool Lia.
From Verif Require Import Base Num Matrix SpecMdp SpecSystem SpecEc SpecForm SpecBuilt SpecProb SpecNear Amdp ReachForm Milp SpecLp Certificates
  NearProofs Examples ExNear.
Import ListNotations.
Local Open Scope nat_scope.

(** C96: [M] is the system that was meant, [rf] a form with numbers that are off
    by at most [delta] (so its rows need not sum to one).  A certificate with
    entries up to [B] that is accepted with a tolerance gives a bound for [M]
    that is off by at most [K] times [e]; [K] depends on [M] only. *)
Theorem C96_rounded_probabilities : forall M init, rf_mdp M init -> exists K, (0 <= K)%R /\
  forall rf delta, built_form rf -> rf_init rf = init -> near rf M delta -> (0 <= delta)%R ->
  forall s t v tol B, (0 <= tol)%Q -> (1 <= B)%R -> (forall q, In q v -> (Rabs (Q2R q) <= B)%R) ->
  let nonneg := forall i, i < a_C (rf_sys rf) - 2 -> (0 <= entry v i)%Q in
  let e := (Q2R tol + INR (a_N (rf_sys rf) + a_C (rf_sys rf)) * (delta * B))%R in
  (s = FGe \/ s = FGt -> check_farkas rf Min s t v tol = Ok true ->
     forall p, IsPrMin M (is_goal M) init p -> (Q2R t - K * e <= p)%R) /\
  (s = FLe \/ s = FLt -> check_farkas rf Max s t v tol = Ok true ->
     forall p, IsPrMax M (is_goal M) init p -> (p <= Q2R t + K * e)%R) /\
  (s = FGe \/ s = FGt -> nonneg -> check_farkas rf Max s t v tol = Ok true ->
     forall p, IsPrMax M (is_goal M) init p -> (Q2R t - K * e <= p)%R) /\
  (s = FLe \/ s = FLt -> nonneg -> init < a_N (rf_sys rf) - 2 -> check_farkas rf Min s t v tol = Ok true ->
     forall p, IsPrMin M (is_goal M) init p -> (p <= Q2R t + K * e)%R).
Proof. exact C96_lemma. Qed.
Print Assumptions C96_rounded_probabilities.

(** Every form that the constructor accepts is close to a system, for example
    to the one in which every row is divided by its sum. *)
Theorem C96_every_form_is_near : forall rf, built_form rf ->
  rf_mdp (normalised rf) (rf_init rf) /\ near rf (normalised rf) (1 / 2000000000).
Proof. exact C96_norm_lemma. Qed.
Print Assumptions C96_every_form_is_near.

(** One third written with ten decimals. *)
Example C96_nonvacuous : built_form thirdrf /\ ~ exact_rows (a_P (rf_sys thirdrf)) /\ near thirdrf thirdM (1 / 10000000000) /\
  check_farkas thirdrf Min FGe (1 # 3) [3333333333 # 10000000000]%Q (1 # 1000000000) = Ok true /\
  check_farkas thirdrf Min FGe (1 # 3) [3333333333 # 10000000000]%Q 0 = Ok false /\
  check_farkas thirdrf Max FGe (1 # 3) [1]%Q (1 # 1000000000) = Ok true.
Proof. split; [exact thirdrf_built|]. split; [exact third_inexact|]. split; [exact third_near|]. split; [vm_compute; reflexivity|]. split; vm_compute; reflexivity. Qed.
