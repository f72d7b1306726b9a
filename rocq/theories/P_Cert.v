(** Properties C19-C26: Farkas certificates.  [PrForm rf sigma s p] says that p
    is the probability of reaching the target of the form from s under the
    scheduler sigma; [PrMinForm], [PrMaxForm] are the infimum and supremum over
    all schedulers.  [exact_rows]: the rows of the matrix sum to one exactly. *)
From Coq Require Import String List Arith ZArith QArith Qreals Reals Bool Lia.
From Verif Require Import Base Num Matrix SpecMdp SpecSystem SpecEc SpecForm SpecBuilt SpecProb Amdp ReachForm BuiltFacts
  Milp SpecLp Certificates CertProofs CertProofs2 Examples ExProofs2 SccSpec.
Import ListNotations.
Local Open Scope nat_scope.

(** C19.  Any vector, forms with or without end components. *)
Theorem C19_min_ge_sound : forall rf, built_form rf -> exact_rows (a_P (rf_sys rf)) ->
  forall t v, check_farkas rf Min FGe t v 0 = Ok true ->
  forall sigma p, valid_scheduler (form_mdp rf) sigma -> PrForm rf sigma (rf_init rf) p -> (Q2R t <= p)%R.
Proof. exact C19_lemma. Qed.
Print Assumptions C19_min_ge_sound.

Theorem C19_min_gt_sound : forall rf, built_form rf -> exact_rows (a_P (rf_sys rf)) ->
  forall t v, check_farkas rf Min FGt t v 0 = Ok true ->
  forall sigma p, valid_scheduler (form_mdp rf) sigma -> PrForm rf sigma (rf_init rf) p -> (Q2R t < p)%R.
Proof. exact C19_strict_lemma. Qed.
Print Assumptions C19_min_gt_sound.

Example C19_nonvacuous : built_form ec2rf /\ exact_rows (a_P (rf_sys ec2rf)) /\
  check_farkas ec2rf Min FGe (1#2) [1#2; 0]%Q 0 = Ok true /\ check_farkas ec2rf Min FGt (49#100) [1#2; 0]%Q 0 = Ok true /\
  check_farkas ec2rf Min FGe (1#2) [1#2; 1#10]%Q 0 = Ok false.
Proof. split; [apply ec2rf_built|]. split; [apply exact_ec2|]. repeat split; vm_compute; reflexivity. Qed.

(** C20.  Any vector. *)
Theorem C20_max_le_sound : forall rf, built_form rf -> exact_rows (a_P (rf_sys rf)) ->
  forall t v, check_farkas rf Max FLe t v 0 = Ok true ->
  forall sigma p, valid_scheduler (form_mdp rf) sigma -> PrForm rf sigma (rf_init rf) p -> (p <= Q2R t)%R.
Proof. exact C20_lemma. Qed.
Print Assumptions C20_max_le_sound.

Theorem C20_max_lt_sound : forall rf, built_form rf -> exact_rows (a_P (rf_sys rf)) ->
  forall t v, check_farkas rf Max FLt t v 0 = Ok true ->
  forall sigma p, valid_scheduler (form_mdp rf) sigma -> PrForm rf sigma (rf_init rf) p -> (p < Q2R t)%R.
Proof. exact C20_strict_lemma. Qed.
Print Assumptions C20_max_lt_sound.

Example C20_nonvacuous : built_form ec2rf /\ exact_rows (a_P (rf_sys ec2rf)) /\
  check_farkas ec2rf Max FLe (3#4) [3#4; 1#2]%Q 0 = Ok true /\ check_farkas ec2rf Max FLt (76#100) [3#4; 1#2]%Q 0 = Ok true.
Proof. split; [apply ec2rf_built|]. split; [apply exact_ec2|]. repeat split; vm_compute; reflexivity. Qed.

(** C21 is false: the check does not ask for non-negative entries. *)
Theorem C21_max_ge_sound_refuted : exists rf t v p, built_form rf /\ exact_rows (a_P (rf_sys rf)) /\ check_farkas rf Max FGe t v 0 = Ok true /\
  PrMaxForm rf (rf_init rf) p /\ (p < Q2R t)%R.
Proof. exact C21_refuted_lemma. Qed.
Print Assumptions C21_max_ge_sound_refuted.

(** It holds for vectors without negative entries. *)
Theorem C21_max_ge_sound_partial : forall rf, built_form rf -> exact_rows (a_P (rf_sys rf)) ->
  forall t v, check_farkas rf Max FGe t v 0 = Ok true -> (forall i, i < a_C (rf_sys rf) - 2 -> (0 <= entry v i)%Q) ->
  forall p, PrMaxForm rf (rf_init rf) p -> (Q2R t <= p)%R.
Proof. exact C21_partial_lemma. Qed.
Print Assumptions C21_max_ge_sound_partial.

Theorem C21_max_gt_sound_partial : forall rf, built_form rf -> exact_rows (a_P (rf_sys rf)) ->
  forall t v, check_farkas rf Max FGt t v 0 = Ok true -> (forall i, i < a_C (rf_sys rf) - 2 -> (0 <= entry v i)%Q) ->
  forall p, PrMaxForm rf (rf_init rf) p -> (Q2R t < p)%R.
Proof. exact C21_strict_lemma. Qed.
Print Assumptions C21_max_gt_sound_partial.

Example C21_nonvacuous : built_form ec2rf /\ exact_rows (a_P (rf_sys ec2rf)) /\
  check_farkas ec2rf Max FGe (3#4) [0; 1; 0; 0]%Q 0 = Ok true /\ check_farkas ec2rf Max FGt (74#100) [0; 1; 7; 0]%Q 0 = Ok true.
Proof. split; [apply ec2rf_built|]. split; [apply exact_ec2|]. repeat split; vm_compute; reflexivity. Qed.

(** C22 is false for the same reason. *)
Theorem C22_min_le_sound_refuted : exists rf t v p, built_form rf /\ exact_rows (a_P (rf_sys rf)) /\ check_farkas rf Min FLe t v 0 = Ok true /\
  PrMinForm rf (rf_init rf) p /\ (Q2R t < p)%R.
Proof. exact C22_refuted_lemma. Qed.
Print Assumptions C22_min_le_sound_refuted.

(** It holds for vectors without negative entries if the initial state is not
    the target itself. *)
Theorem C22_min_le_sound_partial : forall rf, built_form rf -> exact_rows (a_P (rf_sys rf)) ->
  forall t v, check_farkas rf Min FLe t v 0 = Ok true -> (forall i, i < a_C (rf_sys rf) - 2 -> (0 <= entry v i)%Q) ->
  rf_init rf < a_N (rf_sys rf) - 2 ->
  forall p, PrMinForm rf (rf_init rf) p -> (p <= Q2R t)%R.
Proof. exact C22_partial_lemma. Qed.
Print Assumptions C22_min_le_sound_partial.

Theorem C22_min_lt_sound_partial : forall rf, built_form rf -> exact_rows (a_P (rf_sys rf)) ->
  forall t v, check_farkas rf Min FLt t v 0 = Ok true -> (forall i, i < a_C (rf_sys rf) - 2 -> (0 <= entry v i)%Q) ->
  rf_init rf < a_N (rf_sys rf) - 2 ->
  forall p, PrMinForm rf (rf_init rf) p -> (p < Q2R t)%R.
Proof. exact C22_strict_lemma. Qed.
Print Assumptions C22_min_lt_sound_partial.

Example C22_nonvacuous : built_form (tinyrf (1#2) (9#10)) /\ exact_rows (a_P (rf_sys (tinyrf (1#2) (9#10)))) /\
  rf_init (tinyrf (1#2) (9#10)) < a_N (rf_sys (tinyrf (1#2) (9#10))) - 2 /\
  check_farkas (tinyrf (1#2) (9#10)) Min FLe (1#2) [1; 0]%Q 0 = Ok true /\
  check_farkas (tinyrf (1#2) (9#10)) Min FLt (51#100) [1; 0]%Q 0 = Ok true.
Proof. split; [apply tiny2_built|]. split; [apply exact_tiny2|]. repeat split; vm_compute; auto. Qed.

(** C23 is false: with the default tolerance the last comparison of the strict
    senses is weaker than the non-strict comparison without tolerance. *)
Theorem C23_strict_refuted : exists rf t v p v' rf' p', built_form rf /\ exact_rows (a_P (rf_sys rf)) /\
  check_farkas rf Min FGt t v default_check_tol = Ok true /\ PrMinForm rf (rf_init rf) p /\ ~ (Q2R t < p)%R /\
  built_form rf' /\ exact_rows (a_P (rf_sys rf')) /\
  check_farkas rf' Max FLt t v' default_check_tol = Ok true /\ PrMaxForm rf' (rf_init rf') p' /\ ~ (p' < Q2R t)%R.
Proof. exact C23_refuted_lemma. Qed.
Print Assumptions C23_strict_refuted.

(** With zero tolerance all four strict claims hold (y-forms: for vectors
    without negative entries).  Missing: positive tolerances. *)
Theorem C23_strict_partial : forall rf, built_form rf -> exact_rows (a_P (rf_sys rf)) -> rf_init rf < a_N (rf_sys rf) - 2 ->
  forall t v,
  (check_farkas rf Min FGt t v 0 = Ok true ->
     forall sigma p, valid_scheduler (form_mdp rf) sigma -> PrForm rf sigma (rf_init rf) p -> (Q2R t < p)%R) /\
  (check_farkas rf Max FLt t v 0 = Ok true ->
     forall sigma p, valid_scheduler (form_mdp rf) sigma -> PrForm rf sigma (rf_init rf) p -> (p < Q2R t)%R) /\
  ((forall i, i < a_C (rf_sys rf) - 2 -> (0 <= entry v i)%Q) ->
     (check_farkas rf Max FGt t v 0 = Ok true -> forall p, PrMaxForm rf (rf_init rf) p -> (Q2R t < p)%R) /\
     (check_farkas rf Min FLt t v 0 = Ok true -> forall p, PrMinForm rf (rf_init rf) p -> (p < Q2R t)%R)).
Proof. exact C23_partial_lemma. Qed.
Print Assumptions C23_strict_partial.

Example C23_nonvacuous : built_form (tinyrf (1#2) (9#10)) /\ exact_rows (a_P (rf_sys (tinyrf (1#2) (9#10)))) /\
  rf_init (tinyrf (1#2) (9#10)) < a_N (rf_sys (tinyrf (1#2) (9#10))) - 2 /\
  check_farkas (tinyrf (1#2) (9#10)) Min FGt (49#100) [1#2]%Q 0 = Ok true /\
  check_farkas (tinyrf (1#2) (9#10)) Max FLt (91#100) [9#10]%Q 0 = Ok true /\
  check_farkas (tinyrf (1#2) (9#10)) Max FGt (89#100) [0; 1]%Q 0 = Ok true /\
  check_farkas (tinyrf (1#2) (9#10)) Min FLt (51#100) [1; 0]%Q 0 = Ok true.
Proof. split; [apply tiny2_built|]. split; [apply exact_tiny2|]. repeat split; vm_compute; auto. Qed.

(** C24 is false for "Pr-min <= t" in forms with end components: no vector at
    all is accepted (for any tolerance below one). *)
Theorem C24_complete_refuted : exists rf t p, built_form rf /\ exact_rows (a_P (rf_sys rf)) /\ rf_init rf < a_N (rf_sys rf) - 2 /\
  (0 <= t)%Q /\ (t <= 1)%Q /\ PrMinForm rf (rf_init rf) p /\ (p <= Q2R t)%R /\
  forall v tol, (tol < 1)%Q -> check_farkas rf Min FLe t v tol <> Ok true.
Proof. exact C24_refuted_lemma. Qed.
Print Assumptions C24_complete_refuted.

(** The other three claims always have a certificate; "Pr-min <= t" has one if
    there are no end components. *)
Theorem C24_complete_partial : forall rf, built_form rf -> exact_rows (a_P (rf_sys rf)) -> rf_init rf < a_N (rf_sys rf) - 2 ->
  forall t tol, (0 <= t)%Q -> (t <= 1)%Q -> (0 <= tol)%Q ->
  ((forall p, PrMinForm rf (rf_init rf) p -> (Q2R t <= p)%R) -> exists v, check_farkas rf Min FGe t v tol = Ok true) /\
  ((forall p, PrMaxForm rf (rf_init rf) p -> (p <= Q2R t)%R) -> exists v, check_farkas rf Max FLe t v tol = Ok true) /\
  ((forall p, PrMaxForm rf (rf_init rf) p -> (Q2R t <= p)%R) ->
      exists v, check_farkas rf Max FGe t v tol = Ok true /\ (forall i, i < a_C (rf_sys rf) - 2 -> (0 <= entry v i)%Q)) /\
  ((forall s, s < a_N (rf_sys rf) - 2 -> ~ in_some_ec (a_P (rf_sys rf)) (a_inv (rf_sys rf)) s) ->
   (forall p, PrMinForm rf (rf_init rf) p -> (p <= Q2R t)%R) ->
      exists v, check_farkas rf Min FLe t v tol = Ok true /\ (forall i, i < a_C (rf_sys rf) - 2 -> (0 <= entry v i)%Q)).
Proof. exact C24_partial_lemma. Qed.
Print Assumptions C24_complete_partial.

(** Its hypotheses hold for the form with an end component below. *)
Example C24_nonvacuous : built_form ec2rf /\ exact_rows (a_P (rf_sys ec2rf)) /\ rf_init ec2rf < a_N (rf_sys ec2rf) - 2 /\
  (exists p, PrMinForm ec2rf (rf_init ec2rf) p /\ (Q2R (1#2) <= p)%R).
Proof. exact C24_example. Qed.

(** C25.  For every solver, exact or not. *)
Theorem C25_generated_checked : forall S rf md s t tol r, generate_farkas S rf md s t tol = Ok r ->
  r = None \/ exists v, r = Some v /\ check_farkas rf md s t v tol = Ok true.
Proof. exact C25_lemma. Qed.
Print Assumptions C25_generated_checked.

(** A solver answering with the right point, and one answering nonsense. *)
Example C25_nonvacuous :
  generate_farkas (fun _ => MkRes Optimal [1#2; 0; 0]%Q 0) ec2rf Min FGe (1#2) default_generate_tol = Ok (Some [1#2; 0]%Q) /\
  generate_farkas (fun _ => MkRes Optimal [7; 0; 0]%Q 0) ec2rf Min FGe (1#2) default_generate_tol = Ok None.
Proof. split; vm_compute; reflexivity. Qed.

(** C26 is false for the y-form: line 165 appends the state instead of the
    index of the pair.  A pair of an end-component state is not fixed, and a
    pair of another state is. *)
Theorem C26_pinned_refuted : exists rf t lp i s a i' s' a', built_form rf /\ generation_lp rf Min FLe t = Ok lp /\
  a_inv (rf_sys rf) i = Some (s, a) /\ in_some_ec (a_P (rf_sys rf)) (a_inv (rf_sys rf)) s /\ ~ pinned lp i /\
  a_inv (rf_sys rf) i' = Some (s', a') /\ ~ in_some_ec (a_P (rf_sys rf)) (a_inv (rf_sys rf)) s' /\ pinned lp i'.
Proof. exact C26_refuted_lemma. Qed.
Print Assumptions C26_pinned_refuted.

(** For the z-form it holds. *)
Theorem C26_pinned_partial : forall rf s t lp, built_form rf -> s = FGe \/ s = FGt -> generation_lp rf Min s t = Ok lp ->
  forall j, pinned lp j <-> j < a_N (rf_sys rf) - 2 /\ in_some_ec (a_P (rf_sys rf)) (a_inv (rf_sys rf)) j.
Proof. exact C26_z_lemma. Qed.
Print Assumptions C26_pinned_partial.

Theorem C26_lp_built : forall rf s t, built_form rf -> s = FGe \/ s = FGt -> (0 <= t)%Q -> (t <= 1)%Q -> rf_init rf < a_N (rf_sys rf) - 2 ->
  exists lp, generation_lp rf Min s t = Ok lp.
Proof. exact C26_lp_exists. Qed.
Print Assumptions C26_lp_built.

Example C26_nonvacuous : exists lp, built_form ec2rf /\ generation_lp ec2rf Min FGe (1#2) = Ok lp /\ pinned lp 1 /\ ~ pinned lp 0.
Proof. exact C26_example. Qed.
