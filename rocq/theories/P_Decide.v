(** Properties C68-C71: the heuristic decides whether a witness exists; weights
    of the initializers; solve on reward forms.  [bound_answer], [inner_opt],
    [used_labels] and the weightings are in SpecDecide. *)
From Coq Require Import String List Arith ZArith QArith Qreals Reals Bool Lia Lra.
From Verif Require Import Base Num Matrix InvDict SccSpec SpecMdp SpecEc SpecSystem SpecForm SpecBuilt SpecProb SpecSub SpecLp SpecMilp SpecLabel SpecDecide SpecReward SpecRewSub
  Amdp ReachForm Milp Subsystem RfLps Formulations Problems MilpFinal RewardForm RewProblems Examples ExProofs2 ExReward ExProofs5 QsWeights RewFinal DecideFinal.
Import ListNotations.
Local Open Scope string_scope.
Local Open Scope nat_scope.

(** C68.  The LP [lp] of the bounds may be answered correctly or end
    undetermined; the LPs of the rounds are answered correctly. *)
Theorem C68_heuristic_decides : forall rf t md labels, built_form rf -> exact_rows (a_P (rf_sys rf)) -> rf_init rf < a_N (rf_sys rf) - 2 -> md <> OtherMode -> inner_opt (rf_sys rf) labels ->
  exists p A b lp, match md with Max => PrMaxForm | _ => PrMinForm end rf (rf_init rf) p /\ fark_constraints rf t md = Ok (A, b) /\ upper_bound_lp A (cert_dim rf md) b = Ok lp /\ (exists r, exact_answer lp r) /\
  forall SB S iterations ini up g calls, sized SB -> bound_answer lp (SB lp) -> up = fixed_zeros \/ up = inverse_result -> iterations <> 0 ->
    (forall mm ind, construct_milp SB rf t md labels true None = Ok (Some (mm, ind)) -> exists obj, ini rf md ind = Ok obj /\ weighting ind obj) ->
    qs_run SB S iterations ini up rf t md labels = (g, calls) -> (forall m r, In (m, r) calls -> exact_answer m r) ->
    g_exn g = None /\
    ((Q2R t <= p)%R -> length (g_items g) = iterations /\ forall r, In r (g_items g) -> pr_status r = Success) /\
    ((p < Q2R t)%R -> g_items g = [failure Infeasible]).
Proof. exact C68_final. Qed.
Print Assumptions C68_heuristic_decides.

(** Correct answers exist for every run. *)
Theorem C68_answers_exist : exists f : solver, forall SB iterations ini up rf t md labels m r, In (m, r) (snd (qs_run SB (fun _ => f) iterations ini up rf t md labels)) -> exact_answer m r.
Proof. exact C68_exists_lemma. Qed.
Print Assumptions C68_answers_exist.

(** Two forms, one with a proper end component, with an LP of the bounds that
    is never determined. *)
Example C68_nonvacuous : sized timeout_S /\ (forall lp, bound_answer lp (timeout_S lp)) /\
  (built_form ch3rf /\ exact_rows (a_P (rf_sys ch3rf)) /\ rf_init ch3rf < a_N (rf_sys ch3rf) - 2) /\
  (built_form ec1rf /\ exact_rows (a_P (rf_sys ec1rf)) /\ rf_init ec1rf < a_N (rf_sys ec1rf) - 2) /\
  exists S, (forall m r, In (m, r) (snd (qs_run timeout_S S 3 all_ones_init fixed_zeros ch3rf (1#2) Min None)) -> exact_answer m r) /\
    (forall m r, In (m, r) (snd (qs_run timeout_S S 2 all_ones_init inverse_result ec1rf (1#2) Max None)) -> exact_answer m r) /\
    (forall mm ind, construct_milp timeout_S ec1rf (1#2) Max None true None = Ok (Some (mm, ind)) -> exists obj, all_ones_init ec1rf Max ind = Ok obj /\ weighting ind obj) /\
    exists mm, construct_milp timeout_S ec1rf (1#2) Max None true None = Ok (Some (mm, [(4, [0]); (5, [1]); (6, [2]); (7, [3])])).
Proof.
  split; [exact timeout_sized|]. split; [right; left; reflexivity|]. split; [split; [exact ch3rf_built|split; [exact exact_ch3|vm_compute; lia]]|]. split; [split; [exact ec1rf_built|split; [exact exact_ec1|vm_compute; lia]]|].
  destruct C68_answers_exist as (f & Hf). exists (fun _ => f). split; [apply Hf|]. split; [apply Hf|]. split; [intros; eapply ones_ok; eauto|]. eexists. vm_compute. reflexivity.
Qed.

(** C69. *)
Theorem C69_heuristic_decides : forall rr t md labels, reward_form rr -> md <> OtherMode -> inner_opt (rf_sys (rr_rf rr)) labels ->
  exists v A b lp, rew_opt rr md v /\ rr_fark_constraints rr t md = Ok (A, b) /\ upper_bound_lp A (cert_dim (rr_rf rr) md) b = Ok lp /\ (exists r, exact_answer lp r) /\
  forall SB S iterations ini up g calls, sized SB -> bound_answer lp (SB lp) -> up = rr_fixed_zeros \/ up = rr_inverse_result -> iterations <> 0 ->
    (forall mm ind, rr_construct_milp SB rr t md labels true None = Ok (Some (mm, ind)) -> exists obj, ini rr md ind = Ok obj /\ weighting ind obj) ->
    rr_qs_run SB S iterations ini up rr t md labels = (g, calls) -> (forall m r, In (m, r) calls -> exact_answer m r) ->
    g_exn g = None /\
    ((Q2R t <= v)%R -> length (g_items g) = iterations /\ forall r, In r (g_items g) -> pr_status r = Success) /\
    ((v < Q2R t)%R -> g_items g = [failure Infeasible]).
Proof. exact C69_final. Qed.
Print Assumptions C69_heuristic_decides.

Theorem C69_answers_exist : exists f : solver, forall SB iterations ini up rr t md labels m r, In (m, r) (snd (rr_qs_run SB (fun _ => f) iterations ini up rr t md labels)) -> exact_answer m r.
Proof. exact C69_exists_lemma. Qed.
Print Assumptions C69_answers_exist.

(** Indicators that are zero stay zero, and reported values never grow. *)
Theorem C69_shrink : forall rr SB S iterations ini t md labels g calls, reward_form rr -> sized SB -> rr_qs_run SB S iterations ini rr_fixed_zeros rr t md labels = (g, calls) ->
  (forall m r, In (m, r) calls -> sound_answer m r) ->
  (forall j mj rj mj' rj', nth_error calls j = Some (mj, rj) -> nth_error calls (Datatypes.S j) = Some (mj', rj') ->
    sr_status rj = Optimal /\ feasible mj' (vec (sr_vec rj)) /\
    (sr_status rj' = Optimal -> forall s, cert_dim (rr_rf rr) md <= s -> (0 < vec (sr_vec rj') s)%R -> (0 < vec (sr_vec rj) s)%R)) /\
  (forall j r r' v v', nth_error (g_items g) j = Some r -> nth_error (g_items g) (Datatypes.S j) = Some r' -> pr_value r = Some v -> pr_value r' = Some v' -> (v' <= v)%Q).
Proof. exact C69_shrink_final. Qed.
Print Assumptions C69_shrink.

Example C69_nonvacuous : reward_form rw1rr /\ rew_opt rw1rr Min 3 /\ (Q2R 2 <= 3)%R /\ (3 < Q2R 4)%R /\ inner_opt (rf_sys (rr_rf rw1rr)) (Some ["init"]) /\ sized timeout_S /\ (forall lp, bound_answer lp (timeout_S lp)) /\
  (exists S, (forall m r, In (m, r) (snd (rr_qs_run timeout_S S 3 rr_all_ones_init rr_fixed_zeros rw1rr 2 Min None)) -> exact_answer m r)) /\
  (exists mm ind, rr_construct_milp timeout_S rw1rr 2 Min None true None = Ok (Some (mm, ind)) /\ length ind = 3) /\
  (let run := rr_qs_run sized_ex rw_S 3 rr_all_ones_init rr_fixed_zeros rw1rr 2 Min None in (forall m r, In (m, r) (snd run) -> sound_answer m r) /\ length (snd run) = 3).
Proof.
  split; [exact rw1rr_ok|]. split; [exact rw1_min|]. split; [unfold Q2R; simpl; lra|]. split; [unfold Q2R; simpl; lra|]. split; [exact rw1_inner|]. split; [exact timeout_sized|]. split; [right; left; reflexivity|].
  split; [destruct C69_answers_exist as (f & Hf); exists (fun _ => f); apply Hf|]. split; [eexists; eexists; split; vm_compute; reflexivity|].
  cbv zeta. split; [apply chk_calls_ok; vm_compute; reflexivity|vm_compute; reflexivity].
Qed.

(** C70. *)
Theorem C70_weights_partial : forall rf t md labels, built_form rf -> exact_rows (a_P (rf_sys rf)) -> rf_init rf < a_N (rf_sys rf) - 2 -> md <> OtherMode -> inner_opt (rf_sys rf) labels ->
  exists zlp ylp, max_z_lp rf = Ok zlp /\ max_y_lp rf = Ok ylp /\ (exists r, exact_answer zlp r) /\ (exists r, exact_answer ylp r) /\
  forall SB S mm ind, sized SB -> exact_answer zlp (S zlp) -> exact_answer ylp (S ylp) -> construct_milp SB rf t md labels true None = Ok (Some (mm, ind)) ->
    (forall ini, In ini [all_ones_init; inverse_frequency S; inverse_combined S] -> exists obj, ini rf md ind = Ok obj /\ positive_weighting ind obj) /\
    (used_labels (rf_sys rf) labels -> exists obj, inverse_reachability S rf md ind = Ok obj /\ positive_weighting ind obj).
Proof. exact C70_final. Qed.
Print Assumptions C70_weights_partial.

Theorem C70_reward_weights_partial : forall rr t md labels, reward_form rr -> md <> OtherMode -> inner_opt (rf_sys (rr_rf rr)) labels ->
  exists zlp ylp, rr_max_z_lp rr = Ok zlp /\ rr_max_y_lp rr = Ok ylp /\ (exists r, exact_answer zlp r) /\ (exists r, exact_answer ylp r) /\
  forall SB S mm ind, sized SB -> exact_answer zlp (S zlp) -> exact_answer ylp (S ylp) -> rr_construct_milp SB rr t md labels true None = Ok (Some (mm, ind)) ->
    (forall ini, In ini [rr_all_ones_init; rr_inverse_frequency S; rr_inverse_combined S] -> exists obj, ini rr md ind = Ok obj /\ positive_weighting ind obj) /\
    (used_labels (rf_sys (rr_rf rr)) labels -> exists obj, rr_inverse_reachability S rr md ind = Ok obj /\ positive_weighting ind obj).
Proof. exact C70_reward_final. Qed.
Print Assumptions C70_reward_weights_partial.

(** A label that no state has gives an empty group, which divides by zero. *)
Theorem C70_empty_label_refuted : exists rf t labels SB S mm (ind : dict nat (list nat)) lp, built_form rf /\ exact_rows (a_P (rf_sys rf)) /\ rf_init rf < a_N (rf_sys rf) - 2 /\ inner_opt (rf_sys rf) labels /\ sized SB /\
  max_z_lp rf = Ok lp /\ exact_answer lp (S lp) /\ construct_milp SB rf t Min labels true None = Ok (Some (mm, ind)) /\ inverse_reachability S rf Min ind = Err ZeroDivisionError.
Proof. exact C70_refuted_lemma. Qed.
Print Assumptions C70_empty_label_refuted.

Example C70_nonvacuous : inner_opt (rf_sys (rr_rf rw1rr)) (Some ["init"]) /\ used_labels (rf_sys (rr_rf rw1rr)) (Some ["init"]) /\
  (exists zlp S, rr_max_z_lp rw1rr = Ok zlp /\ exact_answer zlp (S zlp)) /\
  (exists mm, rr_construct_milp timeout_S rw1rr 2 Min (Some ["init"]) true None = Ok (Some (mm, [(3, [0])]))) /\
  positive_weighting [(3, [0]); (4, [1; 2])] [(3, 1%Q); (4, 1#2)].
Proof.
  split; [exact rw1_inner|]. split; [intros l [<-|[]]; exists 0; vm_compute; auto|].
  split; [destruct (C67_z_final rw1rr rw1rr_ok) as (lp & E & (r & H) & _); exists lp, (fun _ => r); auto|]. split; [eexists; vm_compute; reflexivity|].
  split; [reflexivity|]. intros s w [H|[H|[]]]; injection H as _ <-; split; vm_compute; congruence.
Qed.

(** C71. *)
Theorem C71_reward_solve : forall it rr t md labels r, rr_solve it rr t md labels = Ok r <->
  (0 <= t)%Q /\ md <> OtherMode /\ g_exn (it rr t md labels) = None /\ exists l, g_items (it rr t md labels) = (l ++ [r])%list.
Proof. exact C71_solve_lemma. Qed.
Print Assumptions C71_reward_solve.

Theorem C71_reward_solve_rejects : forall it rr t md labels, (t < 0)%Q \/ md = OtherMode -> rr_solve it rr t md labels = Err AssertionError.
Proof. exact C71_reject_lemma. Qed.
Print Assumptions C71_reward_solve_rejects.

Example C71_nonvacuous : (exists r, rr_solve (rr_qs_heur sized_ex rw_S 3 rr_all_ones_init rr_inverse_result) rw1rr 2 Min None = Ok r /\ pr_status r = Success) /\
  rr_solve (rr_qs_heur sized_ex rw_S 3 rr_all_ones_init rr_inverse_result) rw1rr (-1) Min None = Err AssertionError.
Proof. split; [eexists; split; vm_compute; reflexivity|vm_compute; reflexivity]. Qed.
