(** Properties C83 to C87: the C part of the program and its memory. *)
From Coq Require Import List Arith ZArith QArith Bool Lia.
From Verif Require Import Base Num Matrix Graph GraphSpec SccSpec Heap HeapTreap HeapGraph HeapClient HeapSpec HeapRunProofs HeapFinal P_Graph P_Ec.
Import ListNotations.
Local Open Scope nat_scope.

(** C83: any sequence of calls on a treap, followed by freeing it, runs
    without undefined behaviour, answers as a set of keys would, and touches
    no block of anyone else. *)
Theorem C83_treap_sessions : forall calls m, mem_ok m -> exists ans m',
  c_tsession calls m = Done ans m' /\ tspec [] calls ans /\ mem_ok m' /\ keeps m m'.
Proof. exact treap_sessions. Qed.
Print Assumptions C83_treap_sessions.

(** The same for stacks, as long as nothing is popped from an empty one (which
    is an access through NULL); here all memory is given back. *)
Theorem C83_stack_sessions : forall calls out m, mem_ok m -> sspec [] calls = Some out -> exists m',
  c_ssession calls m = Done out m' /\ mem_ok m' /\ keeps m m' /\ live m' = live m.
Proof. exact run_stack. Qed.
Print Assumptions C83_stack_sessions.

Theorem C83_empty_stack : forall m, mem_ok m -> c_pop null m = Fault BadAccess /\ c_ts_pop null m = Fault BadAccess.
Proof. exact pop_empty. Qed.
Print Assumptions C83_empty_stack.

Example C83_nonvacuous : mem_ok mem0 /\
  (exists m, c_tsession [TKeys; TAdd 4 7; TAdd 2 9; TAdd 8 3; TIn 2; TIn 3; TAdd 2 1; TKeys] mem0 =
     Done [AKeys []; ADone; ADone; ADone; ABool true; ABool false; ADone; AKeys [2; 4; 8]] m) /\
  sspec [] [SPush 3; SPush 4; SPop; SPush 5; SPop; SPop] = Some [4; 5; 3].
Proof. split; [reflexivity|]. split; [eexists; vm_compute; reflexivity|reflexivity]. Qed.

(** C84: that freeing a treap gives back all memory taken for it is wrong:
    add_to_treap allocates a node before it looks whether the key is there
    already, and forgets it. *)
Theorem C84_treap_released_refuted : exists calls ans m',
  c_tsession calls mem0 = Done ans m' /\ live mem0 < live m'.
Proof. exact treap_leak. Qed.
Print Assumptions C84_treap_released_refuted.

(** Exactly one block is lost for each repeated addition; missing for the full
    claim: the repeated additions. *)
Theorem C84_treap_released_partial : forall calls m, mem_ok m -> exists ans m',
  c_tsession calls m = Done ans m' /\ live m' = live m + again [] calls.
Proof. exact treap_blocks. Qed.
Print Assumptions C84_treap_released_partial.

Example C84_nonvacuous : again [] [TAdd 4 7; TAdd 2 9; TIn 2; TAdd 2 1; TKeys; TAdd 4 1] = 2 /\
  again [] [TAdd 4 7; TAdd 2 9; TIn 2; TKeys] = 0.
Proof. split; reflexivity. Qed.

(** C85: a graph is constructed, called in any way with legal arguments and
    deallocated: no undefined behaviour (no access through bad pointers or
    outside of arrays, no use of uninitialised memory, no free of anything
    twice), nothing else is touched, and the answers are those the matrix
    determines.  A row without index raises KeyError, and all memory taken for
    the graph is given back. *)
Theorem C85_graph_sessions : forall P inv calls m, mem_ok m -> indices_ok P inv -> (forall c, In c calls -> gvalid P c) ->
  ((forall i d p, In ((i, d), p) (mitems P) -> inv i <> None) ->
   exists ans m', c_gsession P inv calls m = Done ans m' /\ Forall2 (gspec P inv) calls ans /\ mem_ok m' /\ keeps m m') /\
  ((exists i d p, In ((i, d), p) (mitems P) /\ inv i = None) ->
   exists m', c_gsession P inv calls m = Raised KeyError m' /\ mem_ok m' /\ keeps m m' /\ live m' = live m).
Proof. exact graph_sessions. Qed.
Print Assumptions C85_graph_sessions.

(** The assertions of reachable come before any memory is touched. *)
Theorem C85_assertions_first : forall g fs d bl m, fs = [] \/ d = OtherDirection -> c_reachable g fs d bl m = Raised AssertionError m.
Proof. exact reach_assertions. Qed.
Print Assumptions C85_assertions_first.

(** The system of C07: reachability, end components, successors. *)
Definition hrnd (n : nat) : Z := Z.of_nat (7 * n mod 5).

Example C85_nonvacuous : indices_ok ecP ecInv /\
  (forall c, In c [GReach [0] Forward [2]; GMec hrnd; GNeigh true 0 (Some 1)] -> gvalid ecP c) /\
  exists m, c_gsession ecP ecInv [GReach [0] Forward [2]; GMec hrnd; GNeigh true 0 (Some 1)] mem0 =
    Done [AMask [1; 1; 1; 1; 0]; AMec [0; 0; 1; 3; 2] [true; false; true; true] 4; ANeigh [(2, 1, 1%Q)]] m.
Proof.
  split; [|split].
  - intros i d p H. vm_compute in H. repeat (destruct H as [H|H]; [injection H as <- <- <-; vm_compute; split; [lia|intros s a E; injection E as <- <-; lia]|]). destruct H.
  - simpl. intros c [<-|[<-|[<-|[]]]]; simpl; repeat split; try congruence; try lia; intros s [<-|[]]; lia.
  - eexists. vm_compute. reflexivity.
Qed.

(** A row without index. *)
Example C85_nonvacuous_error : indices_ok ecP (fun i => if i =? 3 then None else ecInv i) /\
  exists m, c_gsession ecP (fun i => if i =? 3 then None else ecInv i) [] mem0 = Raised KeyError m /\ live m = 0.
Proof.
  split.
  - intros i d p H. vm_compute in H. repeat (destruct H as [H|H]; [injection H as <- <- <-; vm_compute; split; [lia|intros s a E; try discriminate E; injection E as <- <-; lia]|]). destruct H.
  - eexists. vm_compute. split; reflexivity.
Qed.

(** C86: that everything is given back when the graph is gone is wrong. *)
Theorem C86_graph_released_refuted : exists P inv calls ans m', indices_ok P inv /\ (forall c, In c calls -> gvalid P c) /\
  c_gsession P inv calls mem0 = Done ans m' /\ live mem0 < live m'.
Proof. exact graph_leak. Qed.
Print Assumptions C86_graph_released_refuted.

(** Every call of maximal_end_components with at least two components loses
    at least as many blocks as there are components (in 211 an array is
    allocated in every round, only the last one is freed in 257); everything is given
    back if such calls are missing or find one component with two or more
    states.  Missing for the full claim: systems with several components. *)
Theorem C86_graph_released_partial : forall P inv calls m, mem_ok m -> indices_ok P inv -> (forall c, In c calls -> gvalid P c) ->
  (forall i d p, In ((i, d), p) (mitems P) -> inv i <> None) ->
  exists ans m', c_gsession P inv calls m = Done ans m' /\ live m + glosses ans <= live m' /\
    (Forall no_loss ans -> live m' = live m).
Proof. exact graph_blocks. Qed.
Print Assumptions C86_graph_released_partial.

(** Two states that lead to each other lose nothing; the system of C07 loses
    more than its four components. *)
Definition cycP : mat := mat_of_rows 2 [[0; 1]; [1; 0]]%Q.
Definition cycInv (i : nat) : option (nat * nat) := nth_error [(0, 0); (1, 0)] i.
Example C86_nonvacuous :
  (exists m, c_gsession cycP cycInv [GMec hrnd; GReach [0] Backward []] mem0 = Done [AMec [0; 0] [true] 1; AMask [1; 1]] m /\ live m = live mem0) /\
  (exists ans m, c_gsession ecP ecInv [GMec hrnd] mem0 = Done ans m /\ glosses ans = 4 /\ live m = 7).
Proof. split; [eexists|do 2 eexists]; vm_compute; repeat split; reflexivity. Qed.

(** C87: that no call can lead to undefined behaviour is wrong. *)
Theorem C87_calls_defined_refuted : exists P inv call, (exists g, mk_graph P inv = Ok g) /\
  c_gsession P inv [call] mem0 = Fault Bounds.
Proof. exact wild_call. Qed.
Print Assumptions C87_calls_defined_refuted.

(** After any legal calls, every call of successors, predecessors or reachable
    with an index that is no state accesses memory outside of an array, and
    the end components of a system without states read through NULL.  Missing
    for the full claim: these calls (the legal ones are C85). *)
Theorem C87_calls_defined_partial : forall P inv good bad rest m, mem_ok m ->
  (forall i d p, In ((i, d), p) (mitems P) -> d < mcols P /\ exists s a, inv i = Some (s, a) /\ s < mcols P) ->
  (forall c, In c good -> gvalid P c) -> gwild P bad ->
  c_gsession P inv (good ++ bad :: rest) m = Fault (match bad with GMec _ => BadAccess | _ => Bounds end).
Proof. exact run_wild. Qed.
Print Assumptions C87_calls_defined_partial.

Example C87_nonvacuous : gwild exP (GReach [1; 7] Forward []) /\ gwild exP (GReach [1] Forward [3]) /\ gwild exP (GNeigh false 3 None) /\
  (forall c, In c [GNeigh true 1 None] -> gvalid exP c) /\ gwild (mat_of_rows 0 []) (GMec hrnd).
Proof.
  simpl. repeat split; try congruence; try lia.
  - exists 7. split; [auto|lia].
  - exists 3. split; [auto|lia].
  - intros c [<-|[]]. simpl. lia.
Qed.
