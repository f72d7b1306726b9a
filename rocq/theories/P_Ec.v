(** Properties C07, C08, C09: strongly connected components and maximal end
    components. *)
From Coq Require Import List Arith ZArith QArith Bool Lia.
From Verif Require Import Base Num Matrix Treap TreapSpec Graph GraphSpec Scc SccSpec SccProofs Mec MecProofs.
Import ListNotations.
Local Open Scope nat_scope.

(** C07: [ks] are the states of the subset with arbitrary priorities, [rnd] is
    the stream of further random priorities, [rc] its position.  States
    outside of the subset keep the number 0. *)
Theorem C07_scc_exact : forall P inv g, mk_graph P inv = Ok g -> forall (ks : list (nat * Z)) rnd rc,
  (forall k, In k (map fst ks) -> k < mcols P) ->
  let R := stay_edge P inv (fun x => In x (map fst ks)) in
  exists sccs k rc', strongly_connected g rnd rc (insert_all TNull ks) = Ok (sccs, k, rc') /\
    length sccs = mcols P /\
    (forall u v, In u (map fst ks) -> In v (map fst ks) -> (nth u sccs 0 = nth v sccs 0 <-> mutual R u v)) /\
    (forall u, In u (map fst ks) -> 1 <= nth u sccs 0 <= k) /\
    (forall n, 1 <= n <= k -> exists u, In u (map fst ks) /\ nth u sccs 0 = n) /\
    (forall u, ~ In u (map fst ks) -> nth u sccs 0 = 0).
Proof. exact C07_lemma. Qed.
Print Assumptions C07_scc_exact.

(** Five states; 0 and 1 form an end component with actions that may also
    leave it, 3 and 4 are absorbing, 2 is transient. *)
Definition ecP : mat := mat_of_rows 5
  [[0; 1; 0; 0; 0]; [0; 0; 1; 0; 0]; [1#2; 1#2; 0; 0; 0]; [1#2; 0; 0; 1#2; 0]; [0; 0; 0; 1#3; 2#3]; [0; 0; 0; 1; 0]; [0; 0; 0; 0; 1]]%Q.
Definition ecInv (i : nat) : option (nat * nat) :=
  nth_error [(0, 0); (0, 1); (1, 0); (1, 1); (2, 0); (3, 0); (4, 0)] i.

Example C07_nonvacuous : exists g, mk_graph ecP ecInv = Ok g /\
  strongly_connected g (fun n => Z.of_nat (7 * n mod 5)) 0 (insert_all TNull [(0, 3%Z); (2, 1%Z); (1, 2%Z)]) = Ok ([2; 2; 1; 0; 0], 2, 3) /\
  strongly_connected g (fun n => Z.of_nat (7 * n mod 5)) 0 (insert_all TNull [(2, 1%Z); (1, 2%Z)]) = Ok ([0; 1; 2; 0; 0], 2, 5).
Proof. eexists. split; [vm_compute; reflexivity|]. vm_compute. auto. Qed.

(** C08 *)
Theorem C08_mec_exact : forall P inv g, mk_graph P inv = Ok g -> 0 < mcols P -> forall rnd,
  exists comp proper k,
    maximal_end_components g rnd = Ok (comp, proper, k) /\ length comp = mcols P /\ length proper = k /\
    (forall n, n < mcols P -> nth n comp 0 < k) /\
    (forall c, c < k -> exists n, n < mcols P /\ nth n comp 0 = c) /\
    (forall u v, u < mcols P -> v < mcols P ->
       (nth u comp 0 = nth v comp 0 <-> u = v \/ exists X B, end_component P inv X B /\ X u /\ X v)).
Proof. exact C08_lemma. Qed.
Print Assumptions C08_mec_exact.

(** The outer loop ends after at most [2 * N] rounds: any larger bound gives a
    regular result. *)
Theorem C08_mec_terminates : forall P inv g, mk_graph P inv = Ok g -> 0 < mcols P -> forall rnd fuel, 2 * mcols P <= fuel ->
  exists comp proper k, mec_fuel fuel g rnd = Ok (comp, proper, k).
Proof. exact C08_terminates_lemma. Qed.
Print Assumptions C08_mec_terminates.

Example C08_nonvacuous : exists g, mk_graph ecP ecInv = Ok g /\
  maximal_end_components g (fun n => Z.of_nat (7 * n mod 5)) = Ok ([0; 0; 1; 3; 2], [true; false; true; true], 4).
Proof. eexists. split; [vm_compute; reflexivity|]. vm_compute. auto. Qed.

(** C09, first half (the flag); the second half is in [P_ReachForm.v]. *)
Theorem C09_proper_flag : forall P inv g, mk_graph P inv = Ok g -> 0 < mcols P -> forall rnd,
  (forall n, n < mcols P -> exists a d, pair_edge P inv n a d) ->
  forall comp proper k, maximal_end_components g rnd = Ok (comp, proper, k) ->
  forall n, n < mcols P -> (nth (nth n comp 0) proper false = true <-> in_some_ec P inv n).
Proof. exact C09_lemma. Qed.
Print Assumptions C09_proper_flag.

Example C09_nonvacuous : (forall n, n < mcols ecP -> exists a d, pair_edge ecP ecInv n a d) /\ ~ in_some_ec ecP ecInv 2.
Proof.
  split.
  - intros n Hn. exists 0. simpl in Hn.
    destruct n as [|[|[|[|[|n]]]]]; [exists 1, 0, 1%Q | exists 0, 2, (1#2)%Q | exists 3, 4, (1#3)%Q | exists 3, 5, 1%Q | exists 4, 6, 1%Q | exfalso; lia];
      vm_compute; auto 12.
  - intros H. set (rnd := fun n => Z.of_nat (7 * n mod 5)).
    destruct C08_nonvacuous as (g & Hg & Hm).
    assert (Hact : forall n, n < mcols ecP -> exists a d, pair_edge ecP ecInv n a d).
    { intros n Hn. exists 0. simpl in Hn.
      destruct n as [|[|[|[|[|n]]]]]; [exists 1, 0, 1%Q | exists 0, 2, (1#2)%Q | exists 3, 4, (1#3)%Q | exists 3, 5, 1%Q | exists 4, 6, 1%Q | exfalso; lia];
      vm_compute; auto 12. }
    apply (C09_proper_flag ecP ecInv g Hg ltac:(simpl; lia) rnd Hact _ _ _ Hm 2) in H; [discriminate|simpl; lia].
Qed.
