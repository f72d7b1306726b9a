(** Properties C27-C29 and C55: the linear programs of reachability forms.
    [exact_answer lp (S lp)]: the solver answers this particular LP
    correctly (SpecLp).  The initial state is the target state only for forms
    consisting of target and fail alone; then fark_z_constraints raises. *)
From Coq Require Import String List Arith ZArith QArith Qreals Reals Bool Lia.
From Verif Require Import Base Num Matrix SpecMdp SpecSystem SpecEc SpecForm SpecBuilt SpecProb Amdp ReachForm BuiltFacts
  Milp SpecLp RfLps RfLpProofs Examples ExProofs2 ExProofs3.
Import ListNotations.
Local Open Scope nat_scope.

(** C27.  An exact answer exists and every exact answer gives Pr-min. *)
Theorem C27_pr_min : forall rf, built_form rf -> exact_rows (a_P (rf_sys rf)) -> rf_init rf < a_N (rf_sys rf) - 2 ->
  exists lp, max_z_lp rf = Ok lp /\ (exists r, exact_answer lp r) /\
    forall S, exact_answer lp (S lp) -> exists v, pr_min S rf = Ok v /\ sr_status (S lp) = Optimal /\ length v = a_N (rf_sys rf) - 2 /\
      forall s, s < a_N (rf_sys rf) - 2 -> PrMinForm rf s (Q2R (nth s v 0%Q)).
Proof. exact C27_lemma. Qed.
Print Assumptions C27_pr_min.

Example C27_nonvacuous : built_form ec2rf /\ exact_rows (a_P (rf_sys ec2rf)) /\ rf_init ec2rf < a_N (rf_sys ec2rf) - 2 /\
  exists lp S v, max_z_lp ec2rf = Ok lp /\ exact_answer lp (S lp) /\ pr_min S ec2rf = Ok v.
Proof.
  split; [apply ec2rf_built|]. split; [apply exact_ec2|]. assert (Hi : rf_init ec2rf < a_N (rf_sys ec2rf) - 2) by (vm_compute; lia).
  split; [auto|]. destruct (C27_pr_min ec2rf ec2rf_built exact_ec2 Hi) as (lp & E & (r & HR) & H).
  destruct (H (fun _ => r) HR) as (v & Ev & _). exists lp, (fun _ => r), v. auto.
Qed.

(** C28. *)
Theorem C28_pr_max : forall rf, built_form rf -> exact_rows (a_P (rf_sys rf)) -> rf_init rf < a_N (rf_sys rf) - 2 ->
  exists lp, pr_max_lp rf = Ok lp /\ (exists r, exact_answer lp r) /\
    forall S, exact_answer lp (S lp) -> exists v, pr_max S rf = Ok v /\ sr_status (S lp) = Optimal /\ length v = a_N (rf_sys rf) - 2 /\
      forall s, s < a_N (rf_sys rf) - 2 -> PrMaxForm rf s (Q2R (nth s v 0%Q)).
Proof. exact C28_lemma. Qed.
Print Assumptions C28_pr_max.

Example C28_nonvacuous : built_form ec2rf /\ exact_rows (a_P (rf_sys ec2rf)) /\ rf_init ec2rf < a_N (rf_sys ec2rf) - 2 /\
  exists lp S v, pr_max_lp ec2rf = Ok lp /\ exact_answer lp (S lp) /\ pr_max S ec2rf = Ok v.
Proof.
  split; [apply ec2rf_built|]. split; [apply exact_ec2|]. assert (Hi : rf_init ec2rf < a_N (rf_sys ec2rf) - 2) by (vm_compute; lia).
  split; [auto|]. destruct (C28_pr_max ec2rf ec2rf_built exact_ec2 Hi) as (lp & E & (r & HR) & H).
  destruct (H (fun _ => r) HR) as (v & Ev & _). exists lp, (fun _ => r), v. auto.
Qed.

(** C29 is false at the initial state, even for an exact solver. *)
Theorem C29_max_y_state_refuted : exists rf lp S y v s, built_form rf /\ exact_rows (a_P (rf_sys rf)) /\ max_y_lp rf = Ok lp /\ exact_answer lp (S lp) /\
  max_y_state_action S rf = Ok y /\ max_y_state S rf = Ok v /\ s < a_N (rf_sys rf) - 2 /\
  ~ (nth s v 0 == sum_to (a_C (rf_sys rf) - 2) (fun i => if belongs (a_inv (rf_sys rf)) i s then nth i y 0 else 0))%Q.
Proof. exact C29_refuted_lemma. Qed.
Print Assumptions C29_max_y_state_refuted.

(** The entry of the initial state is one too large, all others are right. *)
Theorem C29_max_y_state_partial : forall rf, built_form rf -> rf_init rf < a_N (rf_sys rf) - 2 ->
  forall S y, max_y_state_action S rf = Ok y -> length y = a_C (rf_sys rf) - 2 ->
  exists v, max_y_state S rf = Ok v /\ length v = a_N (rf_sys rf) - 2 /\
    forall s, s < a_N (rf_sys rf) - 2 ->
      (nth s v 0 == (if (s =? rf_init rf)%nat then 1 else 0) +
                    sum_to (a_C (rf_sys rf) - 2) (fun i => if belongs (a_inv (rf_sys rf)) i s then nth i y 0 else 0))%Q.
Proof. exact C29_sum_lemma. Qed.
Print Assumptions C29_max_y_state_partial.

Example C29_nonvacuous : built_form ec2rf /\ rf_init ec2rf < a_N (rf_sys ec2rf) - 2 /\
  let S := fun _ => MkRes Optimal [1#2; 1#2; 0; 1#2]%Q 0%Q in
  max_y_state_action S ec2rf = Ok [1#2; 1#2; 0; 1#2]%Q /\ length [1#2; 1#2; 0; 1#2]%Q = a_C (rf_sys ec2rf) - 2.
Proof. split; [apply ec2rf_built|]. split; [vm_compute; lia|]. split; vm_compute; reflexivity. Qed.

(** C55.  max_z_state_action: the entry of a row is the probability of
    reaching the target by taking it and then minimising. *)
Theorem C55_max_z_state_action : forall rf, built_form rf -> exact_rows (a_P (rf_sys rf)) -> rf_init rf < a_N (rf_sys rf) - 2 ->
  exists lp, max_z_lp rf = Ok lp /\
    forall S, exact_answer lp (S lp) -> exists w, max_z_state_action S rf = Ok w /\ length w = a_C (rf_sys rf) - 2 /\
      forall i, i < a_C (rf_sys rf) - 2 -> exists z, (forall d, d < a_N (rf_sys rf) - 2 -> PrMinForm rf d (z d)) /\
        Q2R (nth i w 0%Q) = (sumn (a_N (rf_sys rf) - 2) (fun d => prob (form_mdp rf) i d * z d) + prob (form_mdp rf) i (a_N (rf_sys rf) - 2))%R.
Proof. exact C55_z_lemma. Qed.
Print Assumptions C55_max_z_state_action.

(** max_y_state_action: a non-negative vector whose total inflow into the
    target is Pr-max of the initial state; the LP always has an optimum, also
    with end components. *)
Theorem C55_max_y_state_action : forall rf, built_form rf -> exact_rows (a_P (rf_sys rf)) -> rf_init rf < a_N (rf_sys rf) - 2 ->
  exists lp, max_y_lp rf = Ok lp /\ (exists r, exact_answer lp r) /\
    forall S, exact_answer lp (S lp) -> exists y, max_y_state_action S rf = Ok y /\ sr_status (S lp) = Optimal /\ length y = a_C (rf_sys rf) - 2 /\
      (forall i, i < a_C (rf_sys rf) - 2 -> (0 <= nth i y 0)%Q) /\
      PrMaxForm rf (rf_init rf) (sumn (a_C (rf_sys rf) - 2) (fun i => prob (form_mdp rf) i (a_N (rf_sys rf) - 2) * Q2R (nth i y 0%Q)))%R.
Proof. exact C55_y_lemma. Qed.
Print Assumptions C55_max_y_state_action.

Example C55_nonvacuous : built_form ec2rf /\ exact_rows (a_P (rf_sys ec2rf)) /\ rf_init ec2rf < a_N (rf_sys ec2rf) - 2 /\
  (exists lp S w, max_z_lp ec2rf = Ok lp /\ exact_answer lp (S lp) /\ max_z_state_action S ec2rf = Ok w) /\
  (exists lp S y, max_y_lp ec2rf = Ok lp /\ exact_answer lp (S lp) /\ max_y_state_action S ec2rf = Ok y).
Proof.
  split; [apply ec2rf_built|]. split; [apply exact_ec2|]. assert (Hi : rf_init ec2rf < a_N (rf_sys ec2rf) - 2) by (vm_compute; lia).
  split; [auto|]. split.
  - destruct (C27_pr_min ec2rf ec2rf_built exact_ec2 Hi) as (lp & E & (r & HR) & H).
    destruct (C55_max_z_state_action ec2rf ec2rf_built exact_ec2 Hi) as (lp' & E' & H'). assert (lp' = lp) by congruence. subst lp'.
    destruct (H' (fun _ => r) HR) as (w & Ew & _). exists lp, (fun _ => r), w. auto.
  - destruct (C55_max_y_state_action ec2rf ec2rf_built exact_ec2 Hi) as (lp & E & (r & HR) & H).
    destruct (H (fun _ => r) HR) as (y & Ey & _). exists lp, (fun _ => r), y. auto.
Qed.
