(** Properties C10, C57: constructed systems, label and action queries. *)
From Coq Require Import String List Arith ZArith QArith Qabs Bool Lia.
From Verif Require Import Base Num Matrix InvDict Graph SpecSystem SpecBuilt Amdp AmdpProofs LabelProofs Examples.
Import ListNotations.
Local Open Scope nat_scope.

(** C10.  [wf_mat]: what every dok_matrix satisfies; [NoDup (map fst idx)]:
    keys of a dictionary are unique.  Construction succeeds exactly on the
    documented conditions. *)
Theorem C10_mdp_constructor : forall P idx al sl rew, wf_mat P -> NoDup (map fst idx) ->
  (exists m, mk_mdp P idx al sl rew = Ok m) <-> valid_system P idx rew.
Proof. exact C10_mdp_lemma. Qed.
Print Assumptions C10_mdp_constructor.

(** The constructed object has the given matrix, index and rewards, and the
    given labels. *)
Theorem C10_mdp_contents : forall P idx al sl rew m, NoDup (map fst idx) -> mk_mdp P idx al sl rew = Ok m ->
  a_P m = P /\ a_idx m = idx /\ a_rew m = rew /\
  (forall l, states_by_label m l = match dget String.eqb sl l with Some s => s | None => [] end) /\
  (forall l, actions_by_label m l = match dget String.eqb al l with Some s => s | None => [] end).
Proof. exact C10_contents_lemma. Qed.
Print Assumptions C10_mdp_contents.

(** Markov chains: square matrix, action 0 only. *)
Theorem C10_dtmc_constructor : forall P idx sl rew, wf_mat P -> (forall d, idx = Some d -> NoDup (map fst d)) ->
  (exists m, mk_dtmc P idx sl rew = Ok m) <->
  (mrows P = mcols P /\
   match idx with
   | None => valid_system P (map (fun i => ((i, 0), i)) (seq 0 (mrows P))) rew
   | Some d => valid_system P d rew /\ forall s a i, In ((s, a), i) d -> a = 0
   end).
Proof. exact C10_dtmc_lemma. Qed.
Print Assumptions C10_dtmc_constructor.

Definition c10P : mat := mat_of_rows 3 [[0; 1#3; 2#3]; [1#2; 1#2; 0]; [0; 1; 0]; [0; 0; 1]]%Q.
Definition c10I : dict (nat * nat) nat := [((0, 0), 0); ((0, 1), 1); ((1, 0), 2); ((2, 0), 3)].

(** A system with rewards is accepted; a row that is off by 10^-8, a repeated
    row index and a negative reward are refused. *)
Example C10_nonvacuous :
  wf_mat c10P /\
  (exists m, mk_mdp c10P c10I [("up"%string, [(0, 1)])] [("init"%string, [0])] (Some [1; 0; 2; 0]%Q) = Ok m) /\
  mk_mdp (mat_of_rows 1 [[99999999#100000000]]) [((0, 0), 0)] [] [] None = Err AssertionError /\
  mk_mdp c10P (c10I ++ [((2, 1), 3)]) [] [] None = Err ValueDuplicationError /\
  mk_mdp c10P c10I [] [] (Some [1; 0; (-1#2); 0]%Q) = Err NameError.
Proof.
  split; [|split; [eexists; vm_compute; reflexivity|vm_compute; auto]]. split.
  - vm_compute. repeat constructor; simpl; intuition congruence.
  - intros i d p H. simpl in H. repeat destruct H as [H|H]; inversion H; subst; simpl; split; try lia; split; try lia; discriminate.
Qed.

(** C57.  Labels: both views agree; adding a label changes exactly one pair of
    the state labels and nothing else. *)
Theorem C57_label_views : forall m, built m ->
  (forall l s, In l (labels_by_state m s) <-> In s (states_by_label m l)) /\
  (forall l x, In l (labels_by_action m x) <-> In x (actions_by_label m l)).
Proof. exact C57_labels_lemma. Qed.
Print Assumptions C57_label_views.

Theorem C57_add_label : forall m s l, built m -> let m' := add_label m s l in
  (forall l' s', In s' (states_by_label m' l') <-> In s' (states_by_label m l') \/ (l' = l /\ s' = s)) /\
  (forall l' s', In l' (labels_by_state m' s') <-> In l' (labels_by_state m s') \/ (l' = l /\ s' = s)) /\
  (forall l', actions_by_label m' l' = actions_by_label m l') /\ (forall x, labels_by_action m' x = labels_by_action m x) /\
  a_kind m' = a_kind m /\ a_P m' = a_P m /\ a_idx m' = a_idx m /\ a_rew m' = a_rew m /\ a_graph m' = a_graph m.
Proof. exact C57_add_lemma. Qed.
Print Assumptions C57_add_label.

(** The dictionary of actions: exactly the pairs of the index that own a row of
    the matrix, in both views; exactly the states without a row are no key. *)
Theorem C57_actions_by_state : forall m, built m -> exists d, actions_by_state m = Ok d /\
  (forall s a, (exists l, InvDict.get Nat.eqb d s = Ok l /\ In a l) <-> exists i, i < a_C m /\ In ((s, a), i) (a_idx m)) /\
  (forall s a, (exists l, inv_get Nat.eqb Nat.eqb d a = Ok l /\ In s l) <-> exists i, i < a_C m /\ In ((s, a), i) (a_idx m)) /\
  (forall s, InvDict.get Nat.eqb d s = Err KeyError <-> ~ exists a i, i < a_C m /\ In ((s, a), i) (a_idx m)).
Proof. exact C57_actions_lemma. Qed.
Print Assumptions C57_actions_by_state.

Example C57_nonvacuous : built ec1 /\ labels_by_state ec1 0 = ["init"; "grey"]%string /\
  states_by_label (add_label ec1 1 "init"%string) "init"%string = [0; 1] /\
  (let* d := actions_by_state ec1 in InvDict.get Nat.eqb d 1) = Ok [0; 1] /\ (let* d := actions_by_state ec1 in inv_get Nat.eqb Nat.eqb d 0) = Ok [0; 1; 2; 3].
Proof. split; [apply ec1_built|vm_compute; auto]. Qed.
