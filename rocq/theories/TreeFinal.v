(** Witnesses and examples for the tree algorithm. *)
From Coq Require Import String List Arith ZArith QArith Bool Lia.
From Verif Require Import Base BaseFacts Num Matrix MatFacts InvDict SpecSystem SpecBuilt SpecTree SpecLp Amdp ReachForm Milp Subsystem Formulations Problems Tree TreeProofs
  HeurFinal MilpFinal Examples ExProofs2 ExProofs5.
Import ListNotations.
Local Open Scope nat_scope.

Definition no_S (i : nat) : solver := fun _ => MkRes Infeasible [] 0%Q.
Definition heur_SB : solver := fun m => MkRes Optimal (repeat 1%Q (length (mi_vars m))) 3%Q.

Lemma C46_timeout_lemma : exists SB S TW kub rf t md r, built_form rf /\ TW rf t 3%Q = Ok (-1)%Z /\ solve (tree_iter SB S TW kub) rf t md None = Ok r /\ pr_status r = Success /\ pr_value r = Some (-1)%Q.
Proof.
  exists sized_ex, heur_S, (fun _ _ _ => Ok (-1)%Z), (Some 3%Q), ch3rf, (1#2)%Q, Min. eexists. split; [apply ch3rf_built|]. split; [reflexivity|]. split; [vm_compute; reflexivity|].
  split; reflexivity.
Qed.

Lemma C47_refuted_lemma : exists pps it it', In it (visited pps) /\ ~ Forall2 lt it pps /\ Forall2 lt it' pps /\ ~ In it' (visited pps).
Proof.
  exists [2; 2], [0; 2], [1; 1]. split; [vm_compute; auto|]. split; [intros F; inversion F as [|? ? ? ? _ G]; subst; inversion G; subst; lia|].
  split; [repeat constructor|]. intros I. vm_compute in I. repeat (destruct I as [I|I]; [discriminate|]). exact I.
Qed.

Lemma C53_example : let P := MkMat 4 4 [((0, 1), 1#2); ((0, 2), 1#2); ((1, 0), 1%Q); ((1, 3), 1#4); ((2, 3), 1%Q)] in
  wf_mat P /\ partition_of 4 [[1; 0]; [3]; [2]] /\
  (let* G := underlying_graph P in quotient G [[1; 0]; [3]; [2]]) = Ok ([(0, 2); (0, 1); (2, 1)], [0; 0; 2; 1], [false; false; true; true]).
Proof.
  cbv zeta. split; [|split; [|vm_compute; reflexivity]].
  - split.
    + cbn. repeat (constructor; [cbn; intros H; repeat (destruct H as [H|H]; [discriminate|]); exact H|]). constructor.
    + cbn. intros i d p H. repeat (destruct H as [H|H]; [injection H as <- <- <-; split; [lia|]; split; [lia|discriminate]|]). destruct H.
  - split.
    + intros i p v E I. destruct i as [|[|[|i]]]; cbn in E; [| | |destruct i; discriminate]; injection E as <-; cbn in I; lia.
    + intros v Hv. assert (C : v = 0 \/ v = 1 \/ v = 2 \/ v = 3) by lia.
      assert (U : forall v0 j p', nth_error [[1; 0]; [3]; [2]] j = Some p' -> In v0 p' -> (j = 0 /\ (v0 = 1 \/ v0 = 0)) \/ (j = 1 /\ v0 = 3) \/ (j = 2 /\ v0 = 2)).
      { intros v0 j p' E I. destruct j as [|[|[|j]]]; cbn in E; [| | |destruct j; discriminate]; injection E as <-; cbn in I; lia. }
      destruct C as [->|[->|[->| ->]]].
      * exists 0, [1; 0]. split; [reflexivity|]. split; [cbn; auto|]. intros j p' E I. specialize (U 0 j p' E I). lia.
      * exists 0, [1; 0]. split; [reflexivity|]. split; [cbn; auto|]. intros j p' E I. specialize (U 1 j p' E I). lia.
      * exists 2, [2]. split; [reflexivity|]. split; [cbn; auto|]. intros j p' E I. specialize (U 2 j p' E I). lia.
      * exists 1, [3]. split; [reflexivity|]. split; [cbn; auto|]. intros j p' E I. specialize (U 3 j p' E I). lia.
Qed.
