(** Property C111: the number reported by exact minimisation on reward forms when
    the solver is correct up to a tolerance. *)
From Coq Require Import String List Arith ZArith QArith Qreals Reals Bool Lia Lra.
From Verif Require Import Base Num Matrix SpecMdp SpecSystem SpecEc SpecForm SpecBuilt SpecProb SpecSub SpecLp SpecMilp SpecSlack SpecReward SpecRewSub SpecRewSlack Amdp ReachForm Milp Subsystem Formulations Problems
  MilpFinal RewardForm RewProblems RewNum Examples ExProofs2 ExProofs5 ExReward ExRewCert ExSlack ExRewNum.
Import ListNotations.
Local Open Scope nat_scope.

(** C111, the claim: the value that exact minimisation reports is the number of
    groups of the subsystem, and no subsystem that reaches the threshold has
    fewer.  With a tolerance this is false, however small it is, even if the
    bounds are exact. *)
Theorem C111_reported_number_refuted : exists rr SB t A b lp, reward_form rr /\ sized SB /\
  rr_fark_constraints rr t Min = Ok (A, b) /\ upper_bound_lp A (a_N (rf_sys (rr_rf rr)) - 2) b = Ok lp /\ exact_answer lp (SB lp) /\
  forall eps, (0 < eps)%Q -> exists S mm ind sub v cert, rr_construct_milp SB rr t Min None false None = Ok (Some (mm, ind)) /\ answer_within (Q2R eps) mm (S mm) /\
    In (MkPRes Success (Some sub) (Some v) (Some cert)) (g_items (rr_milp_exact SB S rr t Min None)) /\
    (v < inject_Z (Z.of_nat (count (chosen (rf_sys (rr_rf rr)) Min cert) (a_N (rf_sys (rr_rf rr)) - 2))))%Q.
Proof. exact C111_refuted_lemma. Qed.
Print Assumptions C111_reported_number_refuted.

(** What remains of the first half: the value is close to a number that is at
    least the number of groups with an entry above [eps * (1 + bound)], where
    the bounds are those the code computes, or one if it finds none. *)
Theorem C111_counted_partial : forall rr SB S t md labels mm ind eps sub v cert, reward_form rr -> sized SB ->
  (0 <= eps)%R -> (eps < 1 / 2)%R -> rr_construct_milp SB rr t md labels false None = Ok (Some (mm, ind)) -> answer_within eps mm (S mm) ->
  In (MkPRes Success (Some sub) (Some v) (Some cert)) (g_items (rr_milp_exact SB S rr t md labels)) ->
  exists A b st w u j, rr_fark_constraints rr t md = Ok (A, b) /\ compute_upper_bounds SB A (cert_dim (rr_rf rr) md) b = Ok (st, w) /\
    u = (match st with Optimal => w | _ => repeat 1%Q (cert_dim (rr_rf rr) md) end) /\ length u = cert_dim (rr_rf rr) md /\
    grouping (rr_rf rr) md labels true (map snd ind) /\
    (INR j - (INR (length ind) + 1) * eps <= Q2R v <= INR j + (INR (length ind) + 1) * eps)%R /\
    forall T, (forall G, In G (map snd ind) -> T G = true -> touches_above (fun i => eps * (1 + Rabs (vec u i)))%R cert G) -> length (filter T (map snd ind)) <= j.
Proof. exact C111_counted_lemma. Qed.
Print Assumptions C111_counted_partial.

(** What remains of the second half, for minimal rewards without labels and with
    exact bounds: no exact witness has fewer states than the entries above
    [eps * (1 + bound)]. *)
Theorem C111_minimal_partial : forall rr t, reward_form rr -> exists A b lp, rr_fark_constraints rr t Min = Ok (A, b) /\ upper_bound_lp A (a_N (rf_sys (rr_rf rr)) - 2) b = Ok lp /\ (exists r, exact_answer lp r) /\
  forall SB S eps gap sub v cert, sized SB -> exact_answer lp (SB lp) ->
  (0 <= eps)%R -> (0 <= gap)%R -> ((INR (a_N (rf_sys (rr_rf rr)) - 2) + 1) * eps + gap < 1)%R ->
  (forall mm ind, rr_construct_milp SB rr t Min None false None = Ok (Some (mm, ind)) -> answer_within eps mm (S mm) /\
     (sr_status (S mm) = Optimal -> forall x, feasible mm x -> (Q2R (sr_val (S mm)) <= objective mm x + gap)%R)) ->
  In (MkPRes Success (Some sub) (Some v) (Some cert)) (g_items (rr_milp_exact SB S rr t Min None)) ->
  forall keep, rew_witness rr Min t keep -> (Q2R v <= INR (count keep (a_N (rf_sys (rr_rf rr)) - 2)) + gap)%R /\
    exists u, compute_upper_bounds SB A (a_N (rf_sys (rr_rf rr)) - 2) b = Ok (Optimal, u) /\
    forall T, (forall s, T s = true -> (eps * (1 + Rabs (vec u s)) < vec cert s)%R) -> count T (a_N (rf_sys (rr_rf rr)) - 2) <= count keep (a_N (rf_sys (rr_rf rr)) - 2).
Proof. exact C111_minimal_lemma. Qed.
Print Assumptions C111_minimal_partial.

(** The form with rewards below one, threshold 1/16 and a certificate whose
    second entry is tolerated: the subsystem has two states, the value is one,
    and one state suffices. *)
Example C111_nonvacuous : reward_form rwqrr /\ sized bound_ex /\ rr_fark_constraints rwqrr (1 # 16) Min = Ok rtiny_fark /\ upper_bound_lp (fst rtiny_fark) 3 (snd rtiny_fark) = Ok rtiny_lp /\
  exact_answer rtiny_lp (bound_ex rtiny_lp) /\ a_N (rf_sys (rr_rf rwqrr)) - 2 = 3 /\
  rr_construct_milp bound_ex rwqrr (1 # 16) Min None false None = Ok (Some rtiny_mm) /\
  answer_within (Q2R (1 # 100)) (fst rtiny_mm) (rtinyS (1 # 100) (fst rtiny_mm)) /\
  (forall x, feasible (fst rtiny_mm) x -> (1 <= objective (fst rtiny_mm) x + 0)%R) /\
  g_items (rr_milp_exact bound_ex (rtinyS (1 # 100)) rwqrr (1 # 16) Min None) = [MkPRes Success (Some (MkSub (rr_rf rwqrr) [1 # 16; 1 # 100; 0]%Q Min false)) (Some 1%Q) (Some [1 # 16; 1 # 100; 0]%Q)] /\
  ((INR 3 + 1) * Q2R (1 # 100) + 0 < 1)%R /\ rew_witness rwqrr Min (1 # 16) (chosen (rf_sys (rr_rf rwqrr)) Min [1 # 16; 0; 0]%Q) /\
  compute_upper_bounds bound_ex (fst rtiny_fark) 3 (snd rtiny_fark) = Ok (Optimal, [7 # 16; 7 # 16; 7 # 16]%Q).
Proof.
  split; [exact rwqrr_ok|]. split; [exact bound_sized|]. split; [exact rtiny_fark_ok|]. split; [exact rtiny_lp_ok|]. split; [exact bound_exact|]. split; [exact rwq_N|]. split; [exact rtiny_mm_ok|].
  split; [apply rtiny_within; reflexivity|]. split; [exact rtiny_optimal|]. split.
  { unfold rr_milp_exact. rewrite rtiny_mm_ok. cbn [bind rtiny_mm]. cbn [rtinyS sr_status sr_vec sr_val]. rewrite rwq_size. cbn [bind]. rewrite rwq_mk by reflexivity. reflexivity. }
  split; [unfold Q2R; cbn; lra|]. split; [exact rtiny_witness|]. vm_compute. reflexivity.
Qed.
