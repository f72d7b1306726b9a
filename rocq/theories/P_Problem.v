(** Properties C38-C41: the mixed-integer models and exact minimisation.
    [polytope rf md t x]: the real vector [x] satisfies the Farkas constraints
    of mode [md] for the threshold [t].  [witness rf md t keep]: the subsystem
    of the states [keep] reaches the threshold.  Statements about solvers
    assume a correct answer to the one model that is solved; that such an
    answer exists is part of each statement. *)
From Coq Require Import String List Arith ZArith QArith Qreals Reals Bool Lia.
From Verif Require Import Base Num Matrix InvDict SccSpec SpecMdp SpecEc SpecSystem SpecForm SpecBuilt SpecProb SpecSub SpecLp SpecMilp
  Amdp ReachForm Milp Subsystem Formulations Problems MilpFinal Examples ExProofs2 ExProofs5.
Import ListNotations.
Local Open Scope nat_scope.
Local Open Scope string_scope.

(** C38.  Variables [0..n-1] are the certificate, the next ones the indicators
    of the groups. *)
Theorem C38_indicators : forall rf S t md labels mm ind, built_form rf -> rf_init rf < a_N (rf_sys rf) - 2 ->
  (forall lp, sr_status (S lp) = Optimal -> length (sr_vec (S lp)) = length (mi_vars lp)) ->
  construct_milp S rf t md labels false None = Ok (Some (mm, ind)) ->
  exists u, length u = cert_dim rf md /\ (md = Min -> u = repeat 1%Q (cert_dim rf md)) /\
    (md = Max -> exists A b, fark_constraints rf t Max = Ok (A, b) /\ compute_upper_bounds S A (cert_dim rf md) b = Ok (Optimal, u)) /\
    map fst ind = seq (cert_dim rf md) (length ind) /\ grouping rf md labels true (map snd ind) /\
    (forall x, feasible mm x <->
      polytope rf md t x /\
      (forall v, v < cert_dim rf md -> (0 <= x v <= vec u v)%R /\ (md = Min -> in_some_ec (a_P (rf_sys rf)) (a_inv (rf_sys rf)) v -> x v = 0%R)) /\
      forall sigma G, In (sigma, G) ind -> (x sigma = 0%R \/ x sigma = 1%R) /\ forall v, In v G -> (0 < x v)%R -> x sigma = 1%R) /\
    (forall x, feasible mm x -> objective mm x = INR (ones (map fst ind) x)) /\ mi_dir mm = Minimise.
Proof. exact C38_final. Qed.
Print Assumptions C38_indicators.

Example C38_nonvacuous : built_form toy2rf /\ rf_init toy2rf < a_N (rf_sys toy2rf) - 2 /\
  (forall lp, sr_status (sized_ex lp) = Optimal -> length (sr_vec (sized_ex lp)) = length (mi_vars lp)) /\
  (exists mm, construct_milp sized_ex toy2rf (1#2) Min (Some ["blue"; "brown"]) false None = Ok (Some (mm, [(6, [1; 2; 3]); (7, [5])]))) /\
  (exists mm, construct_milp sized_ex toy2rf (1#2) Max (Some ["blue"; "lightblue"]) false None = Ok (Some (mm, [(7, [2; 3; 4]); (8, [5])]))) /\
  exists mm, construct_milp sized_ex toy2rf (1#2) Max None false None = Ok (Some (mm, [(7, [0; 1]); (8, [2]); (9, [3]); (10, [4]); (11, [5]); (12, [6])])).
Proof.
  split; [apply toy2rf_built|]. split; [vm_compute; lia|]. split; [intros lp _; apply repeat_length|].
  split; [eexists; vm_compute; reflexivity|]. split; eexists; vm_compute; reflexivity.
Qed.

(** C39. *)
Theorem C39_exact_min : forall rf t SB, built_form rf -> exact_rows (a_P (rf_sys rf)) -> rf_init rf < a_N (rf_sys rf) - 2 ->
  exists pr mm ind, PrMinForm rf (rf_init rf) pr /\ construct_milp SB rf t Min None false None = Ok (Some (mm, ind)) /\ (exists r, exact_answer mm r) /\
    forall S, exact_answer mm (S mm) ->
      g_exn (milp_exact SB S rf t Min None) = None /\
      ((pr < Q2R t)%R -> g_items (milp_exact SB S rf t Min None) = [failure Infeasible]) /\
      ((Q2R t <= pr)%R -> exists sub v cert j, g_items (milp_exact SB S rf t Min None) = [MkPRes Success (Some sub) (Some v) (Some cert)] /\
        mk_subsystem rf cert Min false = Ok sub /\ cert_point rf Min t cert /\ Q2R v = INR j /\
        witness rf Min t (chosen (rf_sys rf) Min cert) /\ count (chosen (rf_sys rf) Min cert) (a_N (rf_sys rf) - 2) = j /\
        forall keep, witness rf Min t keep -> j <= count keep (a_N (rf_sys rf) - 2)).
Proof. exact C39_final. Qed.
Print Assumptions C39_exact_min.

Example C39_nonvacuous : built_form ec1rf /\ exact_rows (a_P (rf_sys ec1rf)) /\ rf_init ec1rf < a_N (rf_sys ec1rf) - 2.
Proof. split; [apply ec1rf_built|]. split; [apply exact_ec1|vm_compute; lia]. Qed.

(** C40. *)
Theorem C40_exact_max : forall rf t, built_form rf -> exact_rows (a_P (rf_sys rf)) -> rf_init rf < a_N (rf_sys rf) - 2 ->
  (forall s, s < a_N (rf_sys rf) - 2 -> ~ in_some_ec (a_P (rf_sys rf)) (a_inv (rf_sys rf)) s) ->
  exists pr A b lp, PrMaxForm rf (rf_init rf) pr /\ fark_constraints rf t Max = Ok (A, b) /\ upper_bound_lp A (a_C (rf_sys rf) - 2) b = Ok lp /\ (exists r, exact_answer lp r) /\
    forall SB, exact_answer lp (SB lp) ->
      ((pr < Q2R t)%R -> forall S, milp_exact SB S rf t Max None = MkGen [failure Infeasible] None) /\
      ((Q2R t <= pr)%R -> exists mm ind, construct_milp SB rf t Max None false None = Ok (Some (mm, ind)) /\ (exists r, exact_answer mm r) /\
        forall S, exact_answer mm (S mm) -> g_exn (milp_exact SB S rf t Max None) = None /\
        exists sub v cert j, g_items (milp_exact SB S rf t Max None) = [MkPRes Success (Some sub) (Some v) (Some cert)] /\
          mk_subsystem rf cert Max false = Ok sub /\ cert_point rf Max t cert /\ Q2R v = INR j /\
          witness rf Max t (chosen (rf_sys rf) Max cert) /\ count (chosen (rf_sys rf) Max cert) (a_N (rf_sys rf) - 2) = j /\
          forall keep, witness rf Max t keep -> j <= count keep (a_N (rf_sys rf) - 2)).
Proof. exact C40_final. Qed.
Print Assumptions C40_exact_max.

Example C40_nonvacuous : built_form toy2rf /\ exact_rows (a_P (rf_sys toy2rf)) /\ rf_init toy2rf < a_N (rf_sys toy2rf) - 2 /\
  (forall s, s < a_N (rf_sys toy2rf) - 2 -> ~ in_some_ec (a_P (rf_sys toy2rf)) (a_inv (rf_sys toy2rf)) s).
Proof. split; [apply toy2rf_built|]. split; [apply exact_toy2|]. split; [vm_compute; lia|apply toy2_ecfree]. Qed.

(** C41. *)
Theorem C41_upper_bounds : forall rf t, built_form rf -> exact_rows (a_P (rf_sys rf)) -> rf_init rf < a_N (rf_sys rf) - 2 ->
  (forall s, s < a_N (rf_sys rf) - 2 -> ~ in_some_ec (a_P (rf_sys rf)) (a_inv (rf_sys rf)) s) ->
  exists A b lp, fark_constraints rf t Max = Ok (A, b) /\ upper_bound_lp A (a_C (rf_sys rf) - 2) b = Ok lp /\ (exists r, exact_answer lp r) /\
    forall S, exact_answer lp (S lp) -> exists st u, compute_upper_bounds S A (a_C (rf_sys rf) - 2) b = Ok (st, u) /\
      ((st = Infeasible /\ forall x, ~ (polytope rf Max t x /\ forall i, i < a_C (rf_sys rf) - 2 -> (0 <= x i)%R)) \/
       (st = Optimal /\ length u = a_C (rf_sys rf) - 2 /\
        forall x, polytope rf Max t x -> (forall i, i < a_C (rf_sys rf) - 2 -> (0 <= x i)%R) -> forall i, i < a_C (rf_sys rf) - 2 -> (x i <= vec u i)%R)).
Proof. exact C41_final. Qed.
Print Assumptions C41_upper_bounds.

Example C41_nonvacuous : built_form toy2rf /\ exact_rows (a_P (rf_sys toy2rf)) /\ rf_init toy2rf < a_N (rf_sys toy2rf) - 2 /\
  (forall s, s < a_N (rf_sys toy2rf) - 2 -> ~ in_some_ec (a_P (rf_sys toy2rf)) (a_inv (rf_sys toy2rf)) s).
Proof. exact C40_nonvacuous. Qed.
