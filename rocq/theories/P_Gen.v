(** Property C106: certificate generation decides threshold claims. *)
From Coq Require Import String List Arith ZArith QArith Qreals Reals Bool Lia.
From Verif Require Import Base Num Matrix SpecMdp SpecSystem SpecEc SpecForm SpecBuilt SpecProb SpecGen SccSpec Amdp ReachForm Milp SpecLp Certificates Examples ExProofs2 GenFark3 ExGen.
Import ListNotations.
Local Open Scope nat_scope.

(** C106, the linear program: it exists, is feasible and bounded, has a correct
    answer, and with one nothing is raised. *)
Theorem C106_total_partial : forall rf, built_form rf -> exact_rows (a_P (rf_sys rf)) -> rf_init rf < a_N (rf_sys rf) - 2 ->
  forall md s t, (0 <= t)%Q -> (t <= 1)%Q -> certifiable rf md s -> exists lp, generation_lp rf md s t = Ok lp /\
  (exists B, forall x, feasible lp x -> (B <= objective lp x)%R) /\ (exists x, feasible lp x) /\ mi_dir lp = Minimise /\ (exists r, exact_answer lp r) /\
  forall tol S, exact_answer lp (S lp) -> exists r, generate_farkas S rf md s t tol = Ok r.
Proof. exact gen_total. Qed.
Print Assumptions C106_total_partial.

(** C106, claims with <= and >=: with tolerance 0 a certificate is returned if
    and only if the claim is true.  Missing: strict claims, and "Pr-min <= t"
    in forms with end components; see the refutations. *)
Theorem C106_decides_partial : forall rf, built_form rf -> exact_rows (a_P (rf_sys rf)) -> rf_init rf < a_N (rf_sys rf) - 2 ->
  forall md s t, (0 <= t)%Q -> (t <= 1)%Q -> certifiable rf md s -> ~ strict_sense s -> forall S lp, generation_lp rf md s t = Ok lp -> exact_answer lp (S lp) ->
  forall p, extremal rf md p -> (claim s p (Q2R t) -> exists v, generate_farkas S rf md s t 0 = Ok (Some v) /\ forall q, In q v -> (0 <= q)%Q) /\
    (~ claim s p (Q2R t) -> generate_farkas S rf md s t 0 = Ok None).
Proof. exact C106_decides_lemma. Qed.
Print Assumptions C106_decides_partial.

(** C106, tolerance 0 and any sense: what is certified is true. *)
Theorem C106_sound_partial : forall rf, built_form rf -> exact_rows (a_P (rf_sys rf)) -> rf_init rf < a_N (rf_sys rf) - 2 ->
  forall md s t, (0 <= t)%Q -> (t <= 1)%Q -> certifiable rf md s -> forall S lp, generation_lp rf md s t = Ok lp -> exact_answer lp (S lp) ->
  forall v p, generate_farkas S rf md s t 0 = Ok (Some v) -> extremal rf md p -> claim s p (Q2R t).
Proof. exact gen_sound. Qed.
Print Assumptions C106_sound_partial.

(** C106, with a tolerance (positive for strict claims): claims that are true
    are certified, by vectors without negative entries. *)
Theorem C106_found_partial : forall rf, built_form rf -> exact_rows (a_P (rf_sys rf)) -> rf_init rf < a_N (rf_sys rf) - 2 ->
  forall md s t, (0 <= t)%Q -> (t <= 1)%Q -> certifiable rf md s -> forall tol S lp, (0 <= tol)%Q -> (strict_sense s -> (0 < tol)%Q) -> generation_lp rf md s t = Ok lp -> exact_answer lp (S lp) ->
  forall p, extremal rf md p -> claim_near s p (Q2R t) 0 ->
  exists v, generate_farkas S rf md s t tol = Ok (Some v) /\ forall q, In q v -> (0 <= q)%Q.
Proof. exact gen_found. Qed.
Print Assumptions C106_found_partial.

(** C106, with a tolerance: what is certified is off by at most a multiple of
    the tolerance, which depends on the form only. *)
Theorem C106_off_partial : forall rf, built_form rf -> exact_rows (a_P (rf_sys rf)) -> rf_init rf < a_N (rf_sys rf) - 2 ->
  exists K, (0 <= K)%R /\ forall md s t, (0 <= t)%Q -> (t <= 1)%Q -> certifiable rf md s -> forall tol S lp, (0 <= tol)%Q -> generation_lp rf md s t = Ok lp -> exact_answer lp (S lp) ->
  forall v p, generate_farkas S rf md s t tol = Ok (Some v) -> extremal rf md p -> (forall q, In q v -> (- tol <= q)%Q) /\ claim_near s p (Q2R t) (K * Q2R tol).
Proof. exact gen_off. Qed.
Print Assumptions C106_off_partial.

(** In forms with end components, "Pr-min <= t" may be true and have a
    certificate that the check accepts, and no correct solver leads to one:
    line 165 fixes the wrong variables. *)
Theorem C106_pins_refuted : exists rf t v p lp, built_form rf /\ exact_rows (a_P (rf_sys rf)) /\ rf_init rf < a_N (rf_sys rf) - 2 /\ extremal rf Min p /\ claim FLe p (Q2R t) /\
  check_farkas rf Min FLe t v 0 = Ok true /\ (forall q, In q v -> (0 <= q)%Q) /\ generation_lp rf Min FLe t = Ok lp /\ (exists S, exact_answer lp (S lp)) /\
  forall S tol, exact_answer lp (S lp) -> (tol < 1 # 3)%Q -> generate_farkas S rf Min FLe t tol = Ok None.
Proof. exact C106_pins_lemma. Qed.
Print Assumptions C106_pins_refuted.

(** Strict claims, tolerance 0: a true one may get no certificate. *)
Theorem C106_strict_refuted : exists rf t p lp S, built_form rf /\ exact_rows (a_P (rf_sys rf)) /\ rf_init rf < a_N (rf_sys rf) - 2 /\ extremal rf Min p /\ claim FGt p (Q2R t) /\
  generation_lp rf Min FGt t = Ok lp /\ exact_answer lp (S lp) /\ generate_farkas S rf Min FGt t 0 = Ok None.
Proof. exact C106_strict_lemma. Qed.
Print Assumptions C106_strict_refuted.

(** Strict claims, default tolerance: a false one gets a certificate from every
    correct solver. *)
Theorem C106_false_refuted : exists rf t p lp, built_form rf /\ exact_rows (a_P (rf_sys rf)) /\ rf_init rf < a_N (rf_sys rf) - 2 /\ extremal rf Max p /\ ~ claim FGt p (Q2R t) /\
  generation_lp rf Max FGt t = Ok lp /\ forall S, exact_answer lp (S lp) -> exists v, generate_farkas S rf Max FGt t default_generate_tol = Ok (Some v).
Proof. exact C106_false_lemma. Qed.
Print Assumptions C106_false_refuted.

(** A form with an end component, a correct answer, a true claim; a form
    without end components. *)
Example C106_nonvacuous : built_form ec2rf /\ exact_rows (a_P (rf_sys ec2rf)) /\ rf_init ec2rf < a_N (rf_sys ec2rf) - 2 /\ certifiable ec2rf Min FGt /\
  (exists lp, generation_lp ec2rf Min FGt (1#4) = Ok lp /\ exact_answer lp (low_S lp)) /\ (exists p, extremal ec2rf Min p /\ claim FGt p (Q2R (1#4))) /\
  generate_farkas low_S ec2rf Min FGt (1#4) default_generate_tol = Ok (Some [1#4; 0]%Q) /\ generate_farkas low_S ec2rf Min FGt (1#4) 0 = Ok None /\
  (exists t v, generate_farkas (fun _ => MkRes Optimal [1#2; 0; 0]%Q 0) ec2rf Min FGe t 0 = Ok (Some v)) /\
  certifiable (tinyrf (1#2) (9#10)) Min FLe.
Proof.
  split; [apply ec2rf_built|]. split; [apply exact_ec2|]. split; [vm_compute; auto|]. split; [exact I|]. split; [exact ec2_exact|]. split; [exact ec2_min|].
  split; [vm_compute; reflexivity|]. split; [vm_compute; reflexivity|]. split; [exists (1#2)%Q, [1#2; 0]%Q; vm_compute; reflexivity|]. exact tiny2_free.
Qed.
