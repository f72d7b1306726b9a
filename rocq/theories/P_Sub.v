(** Properties C30-C34: subsystems.  [chosen m form cert] is the set of states
    with a positive entry (mode min) or a state-action pair with a positive
    entry (mode max); [kept_states] lists them in order, so the x-th of them is
    state x of the subsystem. *)
From Coq Require Import String List Arith ZArith QArith Qreals Reals Bool Lia.
From Verif Require Import Base Num Matrix InvDict SccSpec SpecMdp SpecEc SpecSystem SpecForm SpecBuilt SpecProb SpecSub
  Amdp ReachForm BuiltFacts Subsystem SubProofs4 SubProofs5 Examples ExProofs2 ExProofs5.
Import ListNotations.
Local Open Scope nat_scope.
Local Open Scope string_scope.

(** C30. *)
Theorem C30_subsystem_induced : forall rnd rf cert form ign sub rf', built_form rf ->
  mk_subsystem rf cert form ign = Ok sub -> subsys rnd sub = Ok rf' ->
  induced (rf_sys rf) (chosen (rf_sys rf) form cert) (rf_sys rf') (rf_targetl rf) (rf_faill rf) /\
  nth_error (kept_states (rf_sys rf) (chosen (rf_sys rf) form cert)) (rf_init rf') = Some (rf_init rf) /\
  built (rf_sys rf') /\ (ign = false -> built_form rf').
Proof. exact C30_lemma. Qed.
Print Assumptions C30_subsystem_induced.

(** Its optimal probabilities are those of the process in which everything
    that leaves the chosen states goes to fail. *)
Theorem C30_subsystem_values : forall rnd rf cert form ign sub rf', built_form rf -> exact_rows (a_P (rf_sys rf)) ->
  mk_subsystem rf cert form ign = Ok sub -> subsys rnd sub = Ok rf' ->
  let R := restrict (form_mdp rf) (chosen (rf_sys rf) form cert) in
  forall x s, nth_error (kept_states (rf_sys rf) (chosen (rf_sys rf) form cert)) x = Some s ->
    (forall v, PrMinForm rf' x v <-> IsPrMin R (is_goal R) s v) /\ (forall v, PrMaxForm rf' x v <-> IsPrMax R (is_goal R) s v).
Proof. exact C30_values_lemma. Qed.
Print Assumptions C30_subsystem_values.

Example C30_nonvacuous : built_form ec2rf /\ exact_rows (a_P (rf_sys ec2rf)) /\ mk_subsystem ec2rf [1#2; 0]%Q Min false = Ok ec2sub /\
  subsys exrnd ec2sub = Ok ec2sub_rf /\ kept_states (rf_sys ec2rf) (chosen (rf_sys ec2rf) Min [1#2; 0]%Q) = [0] /\
  mk_subsystem ec1rf [1; 0; 0; 1#2]%Q Max false = Ok ec1sub /\ subsys exrnd ec1sub = Ok ec1sub_rf.
Proof.
  split; [apply ec2rf_built|]. split; [apply exact_ec2|]. split; [apply ec2sub_ok|]. split; [apply ec2sub_ok|]. split; [apply ec2sub_ok|]. exact ec1sub_ok.
Qed.

(** C31. *)
Theorem C31_subsystem_below : forall rnd rf cert form ign sub rf', built_form rf -> exact_rows (a_P (rf_sys rf)) ->
  mk_subsystem rf cert form ign = Ok sub -> subsys rnd sub = Ok rf' ->
  forall x s, nth_error (kept_states (rf_sys rf) (chosen (rf_sys rf) form cert)) x = Some s ->
    (forall v v', PrMinForm rf' x v' -> PrMinForm rf s v -> (v' <= v)%R) /\
    (forall v v', PrMaxForm rf' x v' -> PrMaxForm rf s v -> (v' <= v)%R).
Proof. exact C31_lemma. Qed.
Print Assumptions C31_subsystem_below.

Example C31_nonvacuous : built_form ch3rf /\ exact_rows (a_P (rf_sys ch3rf)) /\ mk_subsystem ch3rf [1#2; 0; 1#2]%Q Min true = Ok ch3sub_i /\
  subsys exrnd ch3sub_i = Ok ch3sub_rf /\ nth_error (kept_states (rf_sys ch3rf) (chosen (rf_sys ch3rf) Min [1#2; 0; 1#2]%Q)) 1 = Some 2.
Proof. split; [apply ch3rf_built|]. split; [apply exact_ch3|]. split; [apply ch3sub_ok|]. split; [apply ch3sub_ok|vm_compute; reflexivity]. Qed.

(** C32. *)
Theorem C32_min_support : forall rnd rf z t ign sub rf', built_form rf -> exact_rows (a_P (rf_sys rf)) ->
  z_constraints (a_P (rf_sys rf)) (a_inv (rf_sys rf)) (rf_init rf) t z ->
  (forall s, s < a_N (rf_sys rf) - 2 -> in_some_ec (a_P (rf_sys rf)) (a_inv (rf_sys rf)) s -> (entry z s <= 0)%Q) ->
  mk_subsystem rf z Min ign = Ok sub -> subsys rnd sub = Ok rf' -> exists p, PrMinForm rf' (rf_init rf') p /\ (Q2R t <= p)%R.
Proof. exact C32_min_lemma. Qed.
Print Assumptions C32_min_support.

Theorem C32_max_support : forall rnd rf y t ign sub rf', built_form rf -> exact_rows (a_P (rf_sys rf)) ->
  y_constraints (a_P (rf_sys rf)) (a_inv (rf_sys rf)) (rf_init rf) t y ->
  (forall i, i < a_C (rf_sys rf) - 2 -> (0 <= entry y i)%Q) ->
  mk_subsystem rf y Max ign = Ok sub -> subsys rnd sub = Ok rf' -> exists p, PrMaxForm rf' (rf_init rf') p /\ (Q2R t <= p)%R.
Proof. exact C32_max_lemma. Qed.
Print Assumptions C32_max_support.

(** The same for the process with everything else redirected to fail, whether
    or not the subsystem is materialised. *)
Theorem C32_support : forall rf form t cert, built_form rf -> exact_rows (a_P (rf_sys rf)) -> rf_init rf < a_N (rf_sys rf) - 2 ->
  cert_point rf form t cert -> let R := restrict (form_mdp rf) (chosen (rf_sys rf) form cert) in
  exists p, match form with Max => IsPrMax | _ => IsPrMin end R (is_goal R) (rf_init rf) p /\ (Q2R t <= p)%R.
Proof. exact C32_support_lemma. Qed.
Print Assumptions C32_support.

Example C32_nonvacuous : built_form ch3rf /\ exact_rows (a_P (rf_sys ch3rf)) /\ rf_init ch3rf < a_N (rf_sys ch3rf) - 2 /\
  cert_point ch3rf Min (1#2) [1#2; 0; 1#2]%Q /\ cert_point ch3rf Max (1#2) [1; 1#2; 0]%Q /\
  mk_subsystem ch3rf [1#2; 0; 1#2]%Q Min true = Ok ch3sub_i /\ subsys exrnd ch3sub_i = Ok ch3sub_rf /\
  y_constraints (a_P (rf_sys ec1rf)) (a_inv (rf_sys ec1rf)) (rf_init ec1rf) (5#8) [1; 0; 0; 1#2]%Q /\
  mk_subsystem ec1rf [1; 0; 0; 1#2]%Q Max false = Ok ec1sub /\ subsys exrnd ec1sub = Ok ec1sub_rf.
Proof.
  split; [apply ch3rf_built|]. split; [apply exact_ch3|]. split; [vm_compute; lia|]. split; [apply ch3_min|]. split; [apply ch3_max|].
  split; [apply ch3sub_ok|]. split; [apply ch3sub_ok|]. split; [apply ec1_y|]. exact ec1sub_ok.
Qed.

(** C33 is false: with the default options the subsystem has to pass the
    consistency check, and the support of a point of the polytope need not. *)
Theorem C33_min_materialise_refuted : exists rnd rf t cert sub, built_form rf /\ exact_rows (a_P (rf_sys rf)) /\ (0 < t)%Q /\ cert_point rf Min t cert /\
  mk_subsystem rf cert Min false = Ok sub /\ subsys rnd sub = Err AssertionError.
Proof. exact C33_min_refuted_lemma. Qed.
Print Assumptions C33_min_materialise_refuted.

Theorem C33_max_materialise_refuted : exists rnd rf t cert sub, built_form rf /\ exact_rows (a_P (rf_sys rf)) /\ (0 < t)%Q /\ cert_point rf Max t cert /\
  mk_subsystem rf cert Max false = Ok sub /\ subsys rnd sub = Err AssertionError.
Proof. exact C33_max_refuted_lemma. Qed.
Print Assumptions C33_max_materialise_refuted.

(** Rows that sum to slightly more than one, which the constructor accepts,
    give a negative probability of fail, which it rejects. *)
Theorem C33_inexact_rows_refuted : exists rnd rf t cert sub, built_form rf /\ (0 < t)%Q /\
  z_constraints (a_P (rf_sys rf)) (a_inv (rf_sys rf)) (rf_init rf) t cert /\
  mk_subsystem rf cert Min true = Ok sub /\ subsys rnd sub = Err AssertionError.
Proof. exact C33_inexact_refuted_lemma. Qed.
Print Assumptions C33_inexact_rows_refuted.

(** With exact rows and without the consistency check it always works ... *)
Theorem C33_materialise_partial : forall rnd rf form t cert, built_form rf -> exact_rows (a_P (rf_sys rf)) -> rf_init rf < a_N (rf_sys rf) - 2 ->
  (0 < t)%Q -> cert_point rf form t cert -> exists sub rf', mk_subsystem rf cert form true = Ok sub /\ subsys rnd sub = Ok rf'.
Proof. exact C33_ignore_lemma. Qed.
Print Assumptions C33_materialise_partial.

(** ... and with it exactly if every chosen state is reachable from the initial
    state and reaches the target inside the subsystem. *)
Theorem C33_materialise_check_partial : forall rnd rf form cert sub, built_form rf -> exact_rows (a_P (rf_sys rf)) ->
  mk_subsystem rf cert form false = Ok sub -> rf_init rf < a_N (rf_sys rf) - 2 -> chosen (rf_sys rf) form cert (rf_init rf) = true ->
  let R := restrict (form_mdp rf) (chosen (rf_sys rf) form cert) in
  ((exists rf', subsys rnd sub = Ok rf') <->
   (forall s, s < a_N (rf_sys rf) - 2 -> chosen (rf_sys rf) form cert s = true -> rtc (medge R) (rf_init rf) s /\ rtc (medge R) s (goal R))).
Proof. exact C33_iff_lemma. Qed.
Print Assumptions C33_materialise_check_partial.

Example C33_nonvacuous : built_form ch3rf /\ exact_rows (a_P (rf_sys ch3rf)) /\ rf_init ch3rf < a_N (rf_sys ch3rf) - 2 /\ (0 < 1#2)%Q /\
  cert_point ch3rf Min (1#2) [1#2; 0; 1#2]%Q /\ cert_point ch3rf Max (1#2) [1; 1#2; 0]%Q /\
  mk_subsystem ch3rf [1#2; 0; 1#2]%Q Min false = Ok ch3sub /\ chosen (rf_sys ch3rf) Min [1#2; 0; 1#2]%Q (rf_init ch3rf) = true.
Proof.
  split; [apply ch3rf_built|]. split; [apply exact_ch3|]. split; [vm_compute; lia|]. split; [reflexivity|]. split; [apply ch3_min|]. split; [apply ch3_max|].
  split; [apply ch3sub_raises|vm_compute; reflexivity].
Qed.

(** C34 is false: the dictionary handed to the constructor maps pairs to
    labels instead of labels to pairs. *)
Theorem C34_action_labels_refuted : exists rnd rf cert sub rf' x s a l, built_form rf /\ exact_rows (a_P (rf_sys rf)) /\
  mk_subsystem rf cert Max false = Ok sub /\ subsys rnd sub = Ok rf' /\
  nth_error (kept_states (rf_sys rf) (chosen (rf_sys rf) Max cert)) x = Some s /\
  In (s, a) (actions_by_label (rf_sys rf) l) /\ ~ In (x, a) (actions_by_label (rf_sys rf') l).
Proof. exact C34_refuted_lemma. Qed.
Print Assumptions C34_action_labels_refuted.

(** It holds for a label exactly if no kept pair carries it: the subsystem has
    no action labels. *)
Theorem C34_action_labels_partial : forall rnd rf cert form ign sub rf', built_form rf -> mk_subsystem rf cert form ign = Ok sub -> subsys rnd sub = Ok rf' ->
  forall l, ((forall x s a, nth_error (kept_states (rf_sys rf) (chosen (rf_sys rf) form cert)) x = Some s ->
                (In (x, a) (actions_by_label (rf_sys rf') l) <-> In (s, a) (actions_by_label (rf_sys rf) l))) <->
             (forall s a, s < a_N (rf_sys rf) - 2 -> chosen (rf_sys rf) form cert s = true -> ~ In (s, a) (actions_by_label (rf_sys rf) l))).
Proof. exact C34_partial_lemma. Qed.
Print Assumptions C34_action_labels_partial.

Example C34_nonvacuous : built_form ec1rf /\ mk_subsystem ec1rf [1; 0; 0; 1#2]%Q Max false = Ok ec1sub /\ subsys exrnd ec1sub = Ok ec1sub_rf /\
  actions_by_label (rf_sys ec1rf) "stay" = [(0, 1); (1, 0)].
Proof. split; [apply ec1rf_built|]. split; [apply ec1sub_ok|]. split; [apply ec1sub_ok|vm_compute; reflexivity]. Qed.
