(** Facts about the example of the reduction. *)
From Coq Require Import String List Arith ZArith QArith Qreals Reals Bool Lia.
From Verif Require Import Base Num Matrix InvDict GraphSpec SccSpec SpecMdp SpecSystem SpecForm SpecBuilt SpecProb SpecReduce
  Amdp AmdpProofs ReachForm ReachFormProofs BuiltFacts Reduce Examples ReduceProofs5.
Import ListNotations.
Local Open Scope nat_scope.
Local Open Scope string_scope.

Definition red1P : mat := mat_of_rows 5
  [[0; 1#2; 1#2; 0; 0]; [1#4; 0; 1#4; 0; 1#2]; [0; 1; 0; 0; 0]; [0; 0; 1; 0; 0]; [1#2; 0; 0; 1#2; 0]; [0; 1; 0; 0; 0]; [0; 0; 1; 0; 0]]%Q.
Definition red1I : dict (nat * nat) nat :=
  [((0, 0), 0); ((1, 1), 1); ((1, 0), 2); ((2, 0), 3); ((3, 0), 4); ((4, 0), 5); ((4, 3), 6)].
Definition red1L : dict string (list nat) := [("init", [0]); ("goal", [4]); ("dead", [2]); ("grey", [1; 2; 3; 4])].
Definition red1A : dict string (list (nat * nat)) := [("go", [(1, 1)]); ("end", [(4, 3); (3, 0)])].
Definition red1R : option (list Q) := Some [1; 2; 3; 4; 5; 6; 7]%Q.
Definition red1 : amdp := get dummy_amdp (mk_mdp red1P red1I red1A red1L red1R).
Definition red1res := get (dummy_rf, [], []) (reduce exrnd red1 "init" "goal" "rf_target" "rf_fail").
Definition red1rf : rform := fst (fst red1res).
Definition red1cols : dict nat nat := [(0, 0); (1, 1); (4, 2)].
Definition red1rows : dict (nat * nat) (nat * nat) := [((0, 0), (0, 0)); ((1, 1), (1, 1)); ((1, 0), (1, 0)); ((4, 0), (2, 0)); ((4, 3), (2, 3))].

Lemma red1_built : built red1.
Proof. apply built_new. exists red1P, red1I, red1A, red1L, red1R. split; [apply good_args_ok; vm_compute; reflexivity|]. left. vm_compute. reflexivity. Qed.
Lemma red1_exact : exact_rows (a_P red1).
Proof. apply exact_rows_ok. vm_compute. reflexivity. Qed.
Lemma red1_acts : every_state_acts red1.
Proof.
  intros s Hs. change (a_N red1) with 5 in Hs.
  destruct s as [|[|[|[|[|s]]]]]; [exists 0, 0|exists 0, 2|exists 0, 3|exists 0, 4|exists 0, 5|lia]; (split; [change (a_C red1) with 7; lia|vm_compute; reflexivity]).
Qed.
Lemma red1_marks : marks_states red1 "goal".
Proof. intros s H. unfold has_label in H. vm_compute in H. destruct H as [<-|[]]. vm_compute. lia. Qed.
Lemma red1_init : only_state red1 "init" 0.
Proof. intros s. unfold has_label. vm_compute. intuition. Qed.
Lemma red1_dead_only : only_state red1 "dead" 2.
Proof. intros s. unfold has_label. vm_compute. intuition. Qed.
Lemma red1_reach : can_reach red1 "goal" 0.
Proof.
  exists 4. split; [vm_compute; auto|]. apply rtc_step with 1; [|apply rtc_step with 4; [|constructor]].
  - exists 0, 0, (1#2)%Q. split; [vm_compute; auto|vm_compute; reflexivity].
  - exists 1, 1, (1#2)%Q. split; [vm_compute; auto 10|vm_compute; reflexivity].
Qed.
Lemma red1_reduce : reduce exrnd red1 "init" "goal" "rf_target" "rf_fail" = Ok (red1rf, red1cols, red1rows).
Proof. vm_compute. reflexivity. Qed.
Lemma red1_dead : forall init, only_state red1 "dead" init -> ~ can_reach red1 "goal" init.
Proof.
  intros init HO. assert (E : init = 2) by (apply (proj1 (red1_dead_only init)); apply HO; auto). subst init. clear HO.
  assert (K : forall s t, rtc (sys_edge red1) s t -> s = 2 -> t = 2).
  { intros s t H. induction H; auto. intros ->. apply IHrtc. destruct H as (i & a & p & Hp & Hi).
    vm_compute in Hp. repeat (destruct Hp as [Hp|Hp]; [inversion Hp; subst; try reflexivity; vm_compute in Hi; discriminate|]). destruct Hp. }
  intros (t & Ht & Hr). apply K in Hr; auto. subst t. vm_compute in Ht. intuition discriminate.
Qed.
