(** Property C108: certificates of reward forms. *)
From Coq Require Import String List Arith ZArith QArith Qreals Reals Bool Lia.
From Verif Require Import Base Num Matrix SpecMdp SpecSystem SpecBuilt SpecEc SpecProb SpecGen SpecReward SpecRewSub SpecRewCert Amdp ReachForm Milp SpecLp Certificates
  RewardForm ExReward RewCert RewCertProofs RewCertGen ExRewCert.
Import ListNotations.
Local Open Scope nat_scope.

(** C108, tolerance 0: accepted certificates are right; those with an entry for
    each state and action need entries that are not negative.  Missing: bounds
    from above on the minimum, and negative entries; see the refutations. *)
Theorem C108_sound_partial : forall rr, reward_form rr -> forall md s t v p, rew_certifiable md s -> rr_check_farkas rr md s t v 0 = Ok true ->
  (state_action_form md s -> forall q, In q v -> (0 <= q)%Q) -> rew_opt rr md p -> claim s p (Q2R t).
Proof. exact check_sound. Qed.
Print Assumptions C108_sound_partial.

(** C108, tolerance 0: every true claim, strict or not, has an accepted
    certificate.  Missing: thresholds above 1; see the refutation. *)
Theorem C108_complete_partial : forall rr, reward_form rr -> forall md s t p, rew_certifiable md s -> (0 <= t)%Q -> (t <= 1)%Q -> rew_opt rr md p -> claim s p (Q2R t) ->
  exists v, rr_check_farkas rr md s t v 0 = Ok true /\ forall q, In q v -> (0 <= q)%Q.
Proof. exact check_complete. Qed.
Print Assumptions C108_complete_partial.

(** C108, with a tolerance: an accepted claim is off by at most a multiple of
    the tolerance, which depends on the form only. *)
Theorem C108_near_partial : forall rr, reward_form rr -> exists K, (0 <= K)%R /\ forall md s t v tol p, rew_certifiable md s -> (0 <= tol)%Q -> rr_check_farkas rr md s t v tol = Ok true ->
  (state_action_form md s -> forall q, In q v -> (- tol <= q)%Q) -> rew_opt rr md p -> claim_near s p (Q2R t) (K * Q2R tol).
Proof. exact check_near. Qed.
Print Assumptions C108_near_partial.

(** C108, generation: the linear program exists, is feasible and bounded, has a
    correct answer, and with one nothing is raised. *)
Theorem C108_total_partial : forall rr, reward_form rr -> forall md s t, rew_certifiable md s -> (0 <= t)%Q -> (t <= 1)%Q -> exists lp, rr_generation_lp rr md s t = Ok lp /\
  (exists B, forall x, feasible lp x -> (B <= objective lp x)%R) /\ (exists x, feasible lp x) /\ mi_dir lp = Minimise /\ (exists r, exact_answer lp r) /\
  forall tol S, exact_answer lp (S lp) -> exists r, rr_generate_farkas S rr md s t tol = Ok r.
Proof. exact rgen_total. Qed.
Print Assumptions C108_total_partial.

(** C108, generation for claims with <= and >=: with tolerance 0 a certificate
    is returned if and only if the claim is true. *)
Theorem C108_decides_partial : forall rr, reward_form rr -> forall md s t, rew_certifiable md s -> (0 <= t)%Q -> (t <= 1)%Q -> ~ strict_sense s ->
  forall S lp, rr_generation_lp rr md s t = Ok lp -> exact_answer lp (S lp) -> forall p, rew_opt rr md p ->
  (claim s p (Q2R t) -> exists v, rr_generate_farkas S rr md s t 0 = Ok (Some v) /\ forall q, In q v -> (0 <= q)%Q) /\
  (~ claim s p (Q2R t) -> rr_generate_farkas S rr md s t 0 = Ok None).
Proof. exact rgen_decides. Qed.
Print Assumptions C108_decides_partial.

(** C108, generation with a tolerance (positive for strict claims): true claims
    are certified, by vectors without negative entries. *)
Theorem C108_found_partial : forall rr, reward_form rr -> forall md s t, rew_certifiable md s -> (0 <= t)%Q -> (t <= 1)%Q ->
  forall tol S lp, (0 <= tol)%Q -> (strict_sense s -> (0 < tol)%Q) -> rr_generation_lp rr md s t = Ok lp -> exact_answer lp (S lp) ->
  forall p, rew_opt rr md p -> claim_near s p (Q2R t) 0 -> exists v, rr_generate_farkas S rr md s t tol = Ok (Some v) /\ forall q, In q v -> (0 <= q)%Q.
Proof. exact rgen_found. Qed.
Print Assumptions C108_found_partial.

(** C108, generation with a tolerance: what is certified is off by at most a
    multiple of the tolerance, and true (also if strict) for tolerance 0. *)
Theorem C108_off_partial : forall rr, reward_form rr -> exists K, (0 <= K)%R /\ forall md s t, rew_certifiable md s -> (0 <= t)%Q -> (t <= 1)%Q ->
  forall tol S lp, (0 <= tol)%Q -> rr_generation_lp rr md s t = Ok lp -> exact_answer lp (S lp) ->
  forall v p, rr_generate_farkas S rr md s t tol = Ok (Some v) -> rew_opt rr md p -> claim_near s p (Q2R t) (K * Q2R tol) /\ (Q2R tol = 0%R -> claim s p (Q2R t)).
Proof. exact rgen_near. Qed.
Print Assumptions C108_off_partial.

(** Expected rewards may exceed 1, thresholds may not: true claims that no
    vector certifies, since the check and generation raise. *)
Theorem C108_threshold_refuted : exists rr t pmin pmax, reward_form rr /\ rew_opt rr Min pmin /\ rew_opt rr Max pmax /\ claim FGt pmin (Q2R t) /\ claim FGt pmax (Q2R t) /\
  forall md s v tol S, rr_check_farkas rr md s t v tol = Err AssertionError /\ rr_generate_farkas S rr md s t tol = Err AssertionError.
Proof. exact C108_threshold_lemma. Qed.
Print Assumptions C108_threshold_refuted.

(** Bounds from above on the minimum: true claims exist, and for every form
    the check and generation raise (forms for rewards have no
    index_by_state_action). *)
Theorem C108_min_upper_refuted :
  (exists rr t p, reward_form rr /\ (0 <= t)%Q /\ (t <= 1)%Q /\ rew_opt rr Min p /\ claim FLt p (Q2R t)) /\
  forall rr, reward_form rr -> forall s, (s = FLe \/ s = FLt) -> forall t, (0 <= t)%Q -> (t <= 1)%Q ->
    (forall v tol, exists e, rr_check_farkas rr Min s t v tol = Err e) /\ (forall v tol, length v = a_C (rf_sys (rr_rf rr)) - 2 -> rr_check_farkas rr Min s t v tol = Err AttributeError) /\
    forall S tol, rr_generate_farkas S rr Min s t tol = Err AttributeError.
Proof. exact C108_min_upper_lemma. Qed.
Print Assumptions C108_min_upper_refuted.

(** Negative entries: a false claim is accepted. *)
Theorem C108_negative_refuted : exists rr t v p, reward_form rr /\ rew_opt rr Max p /\ ~ claim FGt p (Q2R t) /\ ~ claim FGe p (Q2R t) /\
  rr_check_farkas rr Max FGe t v 0 = Ok true /\ rr_check_farkas rr Max FGt t v 0 = Ok true.
Proof. exact C108_negative_lemma. Qed.
Print Assumptions C108_negative_refuted.

(** A form with values 3/16 and 7/16: certificates of each kind, a generated
    one, and a false claim. *)
Example C108_nonvacuous : reward_form rwqrr /\ rew_opt rwqrr Min (Q2R (3#16)) /\ rew_opt rwqrr Max (Q2R (7#16)) /\
  rr_check_farkas rwqrr Min FGt (1#8) [3#16; 1#4; 0]%Q 0 = Ok true /\ rr_check_farkas rwqrr Min FGe (3#16) [3#16; 1#4; 0]%Q 0 = Ok true /\
  rr_check_farkas rwqrr Max FLe (7#16) [7#16; 1#4; 0]%Q 0 = Ok true /\ rr_check_farkas rwqrr Max FLt (1#2) [7#16; 1#4; 0]%Q 0 = Ok true /\
  rr_check_farkas rwqrr Max FGe (7#16) [0; 1; 2; 1]%Q 0 = Ok true /\ rr_check_farkas rwqrr Max FGe (1#2) [0; 1; 2; 1]%Q 0 = Ok false /\
  (exists lp S, rr_generation_lp rwqrr Max FGe (7#16) = Ok lp /\ exact_answer lp (S lp) /\ exists v, rr_generate_farkas S rwqrr Max FGe (7#16) 0 = Ok (Some v)) /\
  (exists lp S, rr_generation_lp rwqrr Min FGe (1#4) = Ok lp /\ exact_answer lp (S lp) /\ rr_generate_farkas S rwqrr Min FGe (1#4) 0 = Ok None).
Proof. exact C108_ex. Qed.
