(** Property C61: exact minimisation of the number of labels.
    [label_count m ls keep j]: [j] of the labels [ls] belong to a state of
    [keep].  [inner_labels m ls]: none of them belongs to target or fail. *)
From Coq Require Import String List Arith ZArith QArith Qreals Reals Bool Lia.
From Verif Require Import Base Num Matrix InvDict SccSpec SpecMdp SpecEc SpecSystem SpecForm SpecBuilt SpecProb SpecSub SpecLp SpecMilp SpecLabel
  Amdp ReachForm Milp Subsystem Formulations Problems MilpFinal LabelMin Examples ExProofs2 ExProofs5.
Import ListNotations.
Local Open Scope string_scope.
Local Open Scope nat_scope.

(** C61, minimal probabilities. *)
Theorem C61_exact_min_labels : forall rf t ls SB, built_form rf -> exact_rows (a_P (rf_sys rf)) -> rf_init rf < a_N (rf_sys rf) - 2 -> inner_labels (rf_sys rf) ls ->
  exists pr mm ind, PrMinForm rf (rf_init rf) pr /\ construct_milp SB rf t Min (Some ls) false None = Ok (Some (mm, ind)) /\ (exists r, exact_answer mm r) /\
    forall S, exact_answer mm (S mm) ->
      g_exn (milp_exact SB S rf t Min (Some ls)) = None /\
      ((pr < Q2R t)%R -> g_items (milp_exact SB S rf t Min (Some ls)) = [failure Infeasible]) /\
      ((Q2R t <= pr)%R -> exists sub v cert j, g_items (milp_exact SB S rf t Min (Some ls)) = [MkPRes Success (Some sub) (Some v) (Some cert)] /\
        mk_subsystem rf cert Min false = Ok sub /\ cert_point rf Min t cert /\ Q2R v = INR j /\
        witness rf Min t (chosen (rf_sys rf) Min cert) /\ label_count (rf_sys rf) ls (chosen (rf_sys rf) Min cert) j /\
        forall keep i, witness rf Min t keep -> label_count (rf_sys rf) ls keep i -> j <= i).
Proof. exact C61_min_final. Qed.
Print Assumptions C61_exact_min_labels.

(** The system ec1 has an end component; label grey has two states. *)
Example C61_min_nonvacuous : built_form ec1rf /\ exact_rows (a_P (rf_sys ec1rf)) /\ rf_init ec1rf < a_N (rf_sys ec1rf) - 2 /\ inner_labels (rf_sys ec1rf) ["grey"; "init"] /\
  has_label (rf_sys ec1rf) "grey" 0 /\ has_label (rf_sys ec1rf) "grey" 1.
Proof.
  split; [apply ec1rf_built|]. split; [apply exact_ec1|]. split; [vm_compute; lia|]. split.
  - intros l s [<-|[<-|[]]] H; vm_compute in H; repeat destruct H as [<-|H]; try destruct H; vm_compute; lia.
  - vm_compute. auto.
Qed.

(** C61, maximal probabilities without proper end components. *)
Theorem C61_exact_max_labels : forall rf t ls, built_form rf -> exact_rows (a_P (rf_sys rf)) -> rf_init rf < a_N (rf_sys rf) - 2 -> inner_labels (rf_sys rf) ls ->
  (forall s, s < a_N (rf_sys rf) - 2 -> ~ in_some_ec (a_P (rf_sys rf)) (a_inv (rf_sys rf)) s) ->
  exists pr A b lp, PrMaxForm rf (rf_init rf) pr /\ fark_constraints rf t Max = Ok (A, b) /\ upper_bound_lp A (a_C (rf_sys rf) - 2) b = Ok lp /\ (exists r, exact_answer lp r) /\
    forall SB, exact_answer lp (SB lp) ->
      ((pr < Q2R t)%R -> forall S, milp_exact SB S rf t Max (Some ls) = MkGen [failure Infeasible] None) /\
      ((Q2R t <= pr)%R -> exists mm ind, construct_milp SB rf t Max (Some ls) false None = Ok (Some (mm, ind)) /\ (exists r, exact_answer mm r) /\
        forall S, exact_answer mm (S mm) -> g_exn (milp_exact SB S rf t Max (Some ls)) = None /\
        exists sub v cert j, g_items (milp_exact SB S rf t Max (Some ls)) = [MkPRes Success (Some sub) (Some v) (Some cert)] /\
          mk_subsystem rf cert Max false = Ok sub /\ cert_point rf Max t cert /\ Q2R v = INR j /\
          witness rf Max t (chosen (rf_sys rf) Max cert) /\ label_count (rf_sys rf) ls (chosen (rf_sys rf) Max cert) j /\
          forall keep i, witness rf Max t keep -> label_count (rf_sys rf) ls keep i -> j <= i).
Proof. exact C61_max_final. Qed.
Print Assumptions C61_exact_max_labels.

Example C61_max_nonvacuous : built_form toy2rf /\ exact_rows (a_P (rf_sys toy2rf)) /\ rf_init toy2rf < a_N (rf_sys toy2rf) - 2 /\
  inner_labels (rf_sys toy2rf) ["blue"; "brown"; "lightblue"] /\
  (forall s, s < a_N (rf_sys toy2rf) - 2 -> ~ in_some_ec (a_P (rf_sys toy2rf)) (a_inv (rf_sys toy2rf)) s) /\
  label_count (rf_sys toy2rf) ["blue"; "brown"; "lightblue"] (fun s => (s =? 1) || (s =? 2) || (s =? 5)) 2.
Proof.
  split; [apply toy2rf_built|]. split; [apply exact_toy2|]. split; [vm_compute; lia|]. split.
  { intros l s [<-|[<-|[<-|[]]]] H; vm_compute in H; repeat destruct H as [<-|H]; try destruct H; vm_compute; lia. }
  split; [apply toy2_ecfree|]. exists ["blue"; "brown"]. split; [|split; [reflexivity|]].
  - constructor; [intros [H|[]]; discriminate|]. constructor; [intros []|constructor].
  - intros l. split.
    + intros [<-|[<-|[]]]; (split; [cbn; auto|]); [exists 1|exists 5]; (split; [vm_compute; lia|]); (split; [reflexivity|vm_compute; auto]).
    + intros ([<-|[<-|[<-|[]]]] & s & _ & K & H); [left; reflexivity|right; left; reflexivity|]. exfalso. vm_compute in H. repeat destruct H as [<-|H]; try destruct H; discriminate.
Qed.

(** C61: a label of target or fail makes the construction fail. *)
Theorem C61_outer_labels : forall rf t ls SB, built_form rf -> rf_init rf < a_N (rf_sys rf) - 2 -> ~ inner_labels (rf_sys rf) ls ->
  (forall S, milp_exact SB S rf t Min (Some ls) = MkGen [] (Some IndexError)) /\
  ((forall lp, sr_status (SB lp) = Optimal -> length (sr_vec (SB lp)) = length (mi_vars lp)) -> forall S x, In x (g_items (milp_exact SB S rf t Max (Some ls))) -> pr_status x = Failed Infeasible).
Proof. exact C61_outer_final. Qed.
Print Assumptions C61_outer_labels.

Example C61_outer_nonvacuous : built_form toy2rf /\ rf_init toy2rf < a_N (rf_sys toy2rf) - 2 /\ ~ inner_labels (rf_sys toy2rf) ["blue"; "target"] /\
  milp_exact sized_ex sized_ex toy2rf (1#2) Min (Some ["blue"; "target"]) = MkGen [] (Some IndexError).
Proof.
  split; [apply toy2rf_built|]. split; [vm_compute; lia|]. split; [|vm_compute; reflexivity].
  intros H. specialize (H "target" 6 (or_intror (or_introl eq_refl))). assert (L : 6 < a_N (rf_sys toy2rf) - 2) by (apply H; vm_compute; auto). vm_compute in L. lia.
Qed.
