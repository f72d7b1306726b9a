(** Statements about the heuristic in their final form; examples. *)
From Coq Require Import String List Arith ZArith QArith Qreals Reals Bool Lia Lra ClassicalChoice.
From Verif Require Import Base BaseFacts Num Matrix InvDict SccSpec SpecMdp SpecEc SpecSystem SpecForm SpecBuilt SpecProb SpecSub SpecLp SpecMilp
  Amdp ReachForm Milp LpExists RfLps Subsystem Formulations Problems QsProofs QsFixed QsWeights MilpFinal Examples ExProofs2 ExProofs5.
Import ListNotations.
Local Open Scope nat_scope.

Lemma C42_final : forall rf SB S iterations ini up t md labels g calls,
  built_form rf -> exact_rows (a_P (rf_sys rf)) -> rf_init rf < a_N (rf_sys rf) - 2 -> sized SB ->
  qs_run SB S iterations ini up rf t md labels = (g, calls) -> (forall m r, In (m, r) calls -> sound_answer m r) ->
  qs_heur SB S iterations ini up rf t md labels = g /\
  length (g_items g) <= Nat.max 1 iterations /\
  (forall j r, nth_error (g_items g) j = Some r -> pr_status r <> Success -> Datatypes.S j = length (g_items g) /\ g_exn g = None /\ exists s, s <> Optimal /\ r = failure s) /\
  forall r, In r (g_items g) -> pr_status r = Success -> exists sub cert k gs, r = MkPRes Success (Some sub) (Some (inject_Z (Z.of_nat k))) (Some cert) /\
    mk_subsystem rf cert md false = Ok sub /\ cert_point rf md t cert /\ witness rf md t (chosen (rf_sys rf) md cert) /\
    grouping rf md labels false gs /\ length (filter (touches cert) gs) <= k.
Proof.
  intros rf SB S it ini up t md labels g calls BF EX Hi HS E SN. destruct (C42_lemma rf BF Hi EX SB S it ini up t md labels g calls HS E SN) as (A & _ & B & _ & C).
  split; [unfold qs_heur; rewrite E; reflexivity|]. auto.
Qed.

Lemma C43_final : forall rf SB S iterations ini t md labels g calls, built_form rf -> rf_init rf < a_N (rf_sys rf) - 2 -> sized SB ->
  qs_run SB S iterations ini fixed_zeros rf t md labels = (g, calls) -> (forall m r, In (m, r) calls -> sound_answer m r) ->
  (forall j mj rj mj' rj', nth_error calls j = Some (mj, rj) -> nth_error calls (Datatypes.S j) = Some (mj', rj') ->
    sr_status rj = Optimal /\ feasible mj' (vec (sr_vec rj)) /\
    (sr_status rj' = Optimal -> forall s, cert_dim rf md <= s -> (0 < vec (sr_vec rj') s)%R -> (0 < vec (sr_vec rj) s)%R)) /\
  (forall j r r' v v', nth_error (g_items g) j = Some r -> nth_error (g_items g) (Datatypes.S j) = Some r' -> pr_value r = Some v -> pr_value r' = Some v' -> (v' <= v)%Q).
Proof.
  intros rf SB S it ini t md labels g calls BF Hi HS E SN. split; [apply (C43_shrink_lemma rf BF Hi SB S it ini t md labels g calls HS E SN)|].
  apply (C43_values_lemma rf BF Hi SB S it ini t md labels g calls HS E SN).
Qed.

Lemma C43_never_fails_final : forall rf SB S iterations ini t md labels g calls mm (ind : dict nat (list nat)) obj, built_form rf -> rf_init rf < a_N (rf_sys rf) - 2 -> sized SB ->
  construct_milp SB rf t md labels true None = Ok (Some (mm, ind)) ->
  ini rf md ind = Ok obj -> map fst obj = map fst ind -> (forall s w, In (s, w) obj -> (0 <= w)%Q) ->
  qs_run SB S iterations ini fixed_zeros rf t md labels = (g, calls) -> (forall m r, In (m, r) calls -> exact_answer m r) ->
  g_exn g = None /\
  ((exists x, feasible mm x) -> length (g_items g) = iterations /\ forall r, In r (g_items g) -> pr_status r = Success) /\
  ((forall x, ~ feasible mm x) -> iterations <> 0 -> g_items g = [failure Infeasible]).
Proof. intros rf SB S it ini t md labels g calls mm ind obj BF Hi HS EC EI KO WO E XA. exact (C43_total_lemma rf BF Hi SB S it ini t md labels g calls mm ind obj HS EC EI KO WO E XA). Qed.

(** ** Examples *)
Definition heur_S (i : nat) : solver := fun m => match i with
  | 0 => MkRes Optimal [1#2; 0; 0; 1; 1; 1]%Q 3
  | _ => MkRes Optimal [1#2; 0; 0; 1#2; 0; 0]%Q (1#2)
  end.

Lemma C42_zero_lemma : exists rf SB S ini up t md labels, built_form rf /\ exact_rows (a_P (rf_sys rf)) /\ sound_solver SB /\
  length (g_items (qs_heur SB S 0 ini up rf t md labels)) = 1.
Proof.
  exists toy2rf, (fun _ => MkRes Infeasible [] 0%Q), heur_S, all_ones_init, inverse_result, 1%Q, Max, None.
  split; [apply toy2rf_built|]. split; [apply exact_toy2|]. split; [intros m H; discriminate|]. vm_compute. reflexivity.
Qed.

Lemma C43_exact_example : exists S mm, construct_milp sized_ex ch3rf (1#2) Min None true None = Ok (Some (mm, [(3, [0]); (4, [1]); (5, [2])])) /\ feasible mm (vec [1#2; 0; 0; 1; 1; 1]%Q) /\
    all_ones_init ch3rf Min [(3, [0]); (4, [1]); (5, [2])] = Ok [(3, 1%Q); (4, 1%Q); (5, 1%Q)] /\
    forall m r, In (m, r) (snd (qs_run sized_ex S 3 all_ones_init fixed_zeros ch3rf (1#2) Min None)) -> exact_answer m r.
Proof.
  destruct (choice (fun (m : milp) (r : sresult) => lp_wf m -> exact_answer m r)) as (f & Hf).
  { intros m. destruct (Classical_Prop.classic (lp_wf m)) as [W|N]; [destruct (lp_answer_exists m W) as (r & Hr); exists r; auto|exists (MkRes Optimal [] 0%Q); contradiction]. }
  exists (fun _ => f), (fst (some_milp (construct_milp sized_ex ch3rf (1#2) Min None true None))).
  split; [vm_compute; reflexivity|]. split; [apply chk_ok; vm_compute; reflexivity|]. split; [reflexivity|].
  intros m r Hin. assert (r = f m) as -> by (eapply run_answer; exact Hin). apply Hf. eapply run_wf; exact Hin.
Qed.
