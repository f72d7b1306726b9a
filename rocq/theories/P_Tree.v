(** Properties C46, C47, C53: tree algorithm, combination counter, quotient
    graphs. *)
From Coq Require Import String List Arith ZArith QArith Bool Lia.
From Verif Require Import Base Num Matrix InvDict SpecSystem SpecBuilt SpecTree SpecLp Amdp ReachForm Milp Subsystem Formulations Problems Tree TreeProofs TreeFinal
  HeurFinal MilpFinal Examples ExProofs2 ExProofs5.
Import ListNotations.
Local Open Scope nat_scope.

(** C46.  [TW] is the tree decomposition: number of states, or -1 after a
    timeout, or an exception.  What is returned is a number it returned, and
    that number is the only result unless it is -1. *)
Theorem C46_success_partial : forall SB S TW kub rf t md labels r, solve (tree_iter SB S TW kub) rf t md labels = Ok r ->
  a_kind (rf_sys rf) = KDtmc /\
  exists u z, TW rf t u = Ok z /\ r = MkPRes Success None (Some (inject_Z z)) None /\
    (z <> (-1)%Z -> g_items (tree_iter SB S TW kub rf t md labels) = [r]) /\
    match kub with
    | Some u' => u = u'
    | None => ~ (u == 0)%Q /\ exists rmax rmin a b, solve (qs_heur SB S 5 all_ones_init inverse_result) rf t Max None = Ok rmax /\ solve (qs_heur SB S 5 all_ones_init inverse_result) rf t Min None = Ok rmin /\
        pr_status rmax = Success /\ pr_status rmin = Success /\ pr_value rmax = Some a /\ pr_value rmin = Some b /\ (u <= a)%Q /\ (u <= b)%Q /\ (u = a \/ u = b)
    end.
Proof. exact C46_success_lemma. Qed.
Print Assumptions C46_success_partial.

(** A timeout is reported as success with value -1. *)
Theorem C46_timeout_refuted : exists SB S TW kub rf t md r, built_form rf /\ TW rf t 3%Q = Ok (-1)%Z /\ solve (tree_iter SB S TW kub) rf t md None = Ok r /\ pr_status r = Success /\ pr_value r = Some (-1)%Q.
Proof. exact C46_timeout_lemma. Qed.
Print Assumptions C46_timeout_refuted.

(** If the heuristic finds nothing, solve raises TypeError instead of
    returning a result; the iterator yields "infeasible" before that. *)
Theorem C46_infeasible_raises : forall SB S TW rf t md labels rmax rmin, a_kind (rf_sys rf) = KDtmc -> md <> OtherMode ->
  solve (qs_heur SB S 5 all_ones_init inverse_result) rf t Max None = Ok rmax -> solve (qs_heur SB S 5 all_ones_init inverse_result) rf t Min None = Ok rmin ->
  pr_status rmax <> Success \/ pr_status rmin <> Success ->
  g_items (tree_iter SB S TW None rf t md labels) = [failure Infeasible] /\ solve (tree_iter SB S TW None) rf t md labels = Err TypeError.
Proof. exact C46_infeasible_lemma. Qed.
Print Assumptions C46_infeasible_raises.

Example C46_nonvacuous : (exists r, solve (tree_iter sized_ex heur_S (fun _ _ _ => Ok 1%Z) (Some 3%Q)) ch3rf (1#2) Min None = Ok r /\ pr_value r = Some 1%Q) /\
  (exists r, solve (tree_iter heur_SB heur_S (fun _ _ _ => Ok 1%Z) None) ch3rf (1#2) Min None = Ok r /\ pr_value r = Some 1%Q) /\
  solve (qs_heur heur_SB no_S 5 all_ones_init inverse_result) ch3rf 1 Max None = Ok (failure Infeasible) /\
  solve (qs_heur heur_SB no_S 5 all_ones_init inverse_result) ch3rf 1 Min None = Ok (failure Infeasible).
Proof.
  split; [eexists; split; vm_compute; reflexivity|]. split; [eexists; split; vm_compute; reflexivity|]. split; vm_compute; reflexivity.
Qed.

(** C47.  [visited pps] are the values of the counter during the loop for
    successors with [pps] many points.  The claim holds exactly if some
    successor has no point, or all successors but the last have one point. *)
Theorem C47_counter_partial : forall pps,
  ((forall it, In it (visited pps) -> Forall2 lt it pps) /\ NoDup (visited pps) /\ (forall it, Forall2 lt it pps -> In it (visited pps)))
  <-> In 0 pps \/ forall i, Datatypes.S i < length pps -> nth i pps 0 = 1.
Proof. exact C47_lemma. Qed.
Print Assumptions C47_counter_partial.

Theorem C47_counter_refuted : exists pps it it', In it (visited pps) /\ ~ Forall2 lt it pps /\ Forall2 lt it' pps /\ ~ In it' (visited pps).
Proof. exact C47_refuted_lemma. Qed.
Print Assumptions C47_counter_refuted.

Example C47_nonvacuous : visited [1; 3] = [[0; 0]; [0; 1]; [0; 2]] /\ visited [4] = [[0]; [1]; [2]; [3]] /\ visited [2; 2] = [[0; 0]; [0; 1]; [0; 2]; [1; 0]].
Proof. split; [|split]; vm_compute; reflexivity. Qed.

(** C53.  Edges, labels and interface of the quotient. *)
Theorem C53_quotient : forall P ps, wf_mat P -> mrows P <= mcols P -> partition_of (mcols P) ps ->
  exists G qe lab itf, underlying_graph P = Ok G /\ quotient G ps = Ok (qe, lab, itf) /\ NoDup qe /\ length lab = mcols P /\ length itf = mcols P /\
    (forall v i p, v < mcols P -> nth_error ps i = Some p -> (nth v lab 0 = i <-> In v p)) /\
    (forall i j p q, nth_error ps i = Some p -> nth_error ps j = Some q ->
       (In (i, j) qe <-> i <> j /\ exists u v, In u p /\ In v q /\ ~ (mget P u v == 0)%Q)) /\
    (forall i j, In (i, j) qe -> i < length ps /\ j < length ps) /\
    (forall v j q, nth_error ps j = Some q -> In v q -> (nth v itf false = true <-> exists u, ~ In u q /\ ~ (mget P u v == 0)%Q)).
Proof. exact C53_lemma. Qed.
Print Assumptions C53_quotient.

Example C53_nonvacuous : let P := MkMat 4 4 [((0, 1), 1#2); ((0, 2), 1#2); ((1, 0), 1%Q); ((1, 3), 1#4); ((2, 3), 1%Q)] in
  wf_mat P /\ partition_of 4 [[1; 0]; [3]; [2]] /\
  (let* G := underlying_graph P in quotient G [[1; 0]; [3]; [2]]) = Ok ([(0, 2); (0, 1); (2, 1)], [0; 0; 2; 1], [false; false; true; true]).
Proof. exact C53_example. Qed.
