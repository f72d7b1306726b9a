(** The statements of P_Heap.v. *)
From Coq Require Import List Arith ZArith QArith Bool Lia.
From Verif Require Import Base Num Matrix Graph GraphSpec SccSpec Heap HeapTreap HeapGraph HeapClient HeapSpec HeapRunProofs P_Graph P_Ec.
Import ListNotations.
Local Open Scope nat_scope.

Lemma treap_sessions : forall calls m, mem_ok m -> exists ans m',
  c_tsession calls m = Done ans m' /\ tspec [] calls ans /\ mem_ok m' /\ keeps m m'.
Proof. intros calls m Hm. destruct (run_treap calls m Hm) as (ans & m' & H1 & H2 & H3 & H4 & _). exists ans, m'. auto. Qed.

Lemma treap_blocks : forall calls m, mem_ok m -> exists ans m',
  c_tsession calls m = Done ans m' /\ live m' = live m + again [] calls.
Proof. intros calls m Hm. destruct (run_treap calls m Hm) as (ans & m' & H1 & H2 & H3 & H4 & H5). exists ans, m'. auto. Qed.

Lemma treap_leak : exists calls ans m', c_tsession calls mem0 = Done ans m' /\ live mem0 < live m'.
Proof. exists [TAdd 3 5; TAdd 3 6]. do 2 eexists. split; [vm_compute; reflexivity|]. vm_compute. lia. Qed.

Lemma graph_sessions : forall P inv calls m, mem_ok m -> indices_ok P inv -> (forall c, In c calls -> gvalid P c) ->
  ((forall i d p, In ((i, d), p) (mitems P) -> inv i <> None) ->
   exists ans m', c_gsession P inv calls m = Done ans m' /\ Forall2 (gspec P inv) calls ans /\ mem_ok m' /\ keeps m m') /\
  ((exists i d p, In ((i, d), p) (mitems P) /\ inv i = None) ->
   exists m', c_gsession P inv calls m = Raised KeyError m' /\ mem_ok m' /\ keeps m m' /\ live m' = live m).
Proof.
  intros P inv calls m Hm Hi Hv.
  destruct (run_graph P inv calls m Hm Hi Hv) as [[(i & d & p & H1 & H2) H3]|[H1 (ans & m' & j & H2 & H3 & H4 & H5 & _)]].
  - split; [intros H; exfalso; exact (H i d p H1 H2)|]. intros _. exact H3.
  - split; [|intros (i & d & p & A & B); exfalso; exact (H1 i d p A B)]. intros _. exists ans, m'. auto.
Qed.

Lemma graph_blocks : forall P inv calls m, mem_ok m -> indices_ok P inv -> (forall c, In c calls -> gvalid P c) ->
  (forall i d p, In ((i, d), p) (mitems P) -> inv i <> None) ->
  exists ans m', c_gsession P inv calls m = Done ans m' /\ live m + glosses ans <= live m' /\
    (Forall no_loss ans -> live m' = live m).
Proof.
  intros P inv calls m Hm Hi Hv Hr.
  destruct (run_graph P inv calls m Hm Hi Hv) as [[(i & d & p & H1 & H2) H3]|[H1 (ans & m' & j & H2 & H3 & H4 & H5 & H6 & H7 & H8)]].
  - exfalso. exact (Hr i d p H1 H2).
  - exists ans, m'. split; auto. split; [lia|]. intros H. rewrite H6, (H8 H). lia.
Qed.

Lemma reach_assertions : forall g fs d bl m, fs = [] \/ d = OtherDirection -> c_reachable g fs d bl m = Raised AssertionError m.
Proof. intros g fs d bl m [->| ->]; [reflexivity|]. destruct fs; reflexivity. Qed.

Lemma graph_leak : exists P inv calls ans m', indices_ok P inv /\ (forall c, In c calls -> gvalid P c) /\
  c_gsession P inv calls mem0 = Done ans m' /\ live mem0 < live m'.
Proof.
  exists exP, exInv, [GMec (fun n => Z.of_nat n)]. do 2 eexists. split; [|split; [|split; [vm_compute; reflexivity|vm_compute; lia]]].
  - intros i d p H. vm_compute in H. repeat (destruct H as [H|H]; [injection H as <- <- <-; vm_compute; split; [lia|intros s a E; injection E as <- <-; lia]|]). destruct H.
  - intros c [<-|[]]. simpl. lia.
Qed.

Lemma wild_call : exists P inv call, (exists g, mk_graph P inv = Ok g) /\ c_gsession P inv [call] mem0 = Fault Bounds.
Proof. exists exP, exInv, (GReach [3] Forward []). split; [eexists; vm_compute; reflexivity|vm_compute; reflexivity]. Qed.
