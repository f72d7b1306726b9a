(** Properties C01 - C04: invertible dictionaries and treaps. *)
From Coq Require Import List Arith ZArith Bool.
From Verif Require Import Base BaseFacts InvDict InvDictSpec InvDictProofs AliasDict AliasDictProofs
  Treap TreapSpec TreapProofs.
Import ListNotations.

(** C01: after any history on either view both views describe the relation
    of the history; removes raise exactly for absent pairs; a missing key
    raises exactly for a non-default dictionary that never knew the key. *)
Theorem C01_invertible_dict_consistent : forall K V (keqb : K -> K -> bool) (veqb : V -> V -> bool),
  (forall x y, reflect (x = y) (keqb x y)) -> (forall x y, reflect (x = y) (veqb x y)) ->
  forall d df os, NoDup (dkeys d) ->
  let f := run keqb veqb (mk_idict d df) os in
  let R := spec_run (dict_rel d) os in
  (forall k v, (exists s, get keqb f k = Ok s /\ In v s) <-> R k v) /\
  (forall k v, (exists s, inv_get keqb veqb f v = Ok s /\ In k s) <-> R k v) /\
  (forall o, spec_raises R o (snd (step keqb veqb f o))) /\
  (forall k e, get keqb f k = Err e <->
     e = KeyError /\ df = false /\ ~ In k (dkeys d) /\ ~ Exists (adds_key k) os).
Proof. exact @C01_lemma. Qed.
Print Assumptions C01_invertible_dict_consistent.

Example C01_nonvacuous :
  let d := [(1, [10; 11]); (2, [11])] in
  let f := run Nat.eqb Nat.eqb (mk_idict d false) [OReadInv; OAdd 3 11; OInvRemove 11 1; OInvAdd 12 2; ORemove 7 7] in
  NoDup (dkeys d) /\ inv_get Nat.eqb Nat.eqb f 11 = Ok [2; 3] /\ get Nat.eqb f 2 = Ok [11; 12]
  /\ get Nat.eqb f 9 = Err KeyError.
Proof.
  vm_compute. repeat split; try reflexivity.
  repeat constructor; simpl; intuition discriminate.
Qed.

(** C02 is false of the code: the copy made by the constructor is shallow. *)
Theorem C02_refuted :
  exists (h : heap nat nat) (d : dict nat nat) (ops : list (hop nat nat)),
    let o2 := hnew (K := nat) (V := nat) d true in
    let '(h1, o2) := hforce Nat.eqb Nat.eqb h o2 in
    let '(h2, _) := hrun Nat.eqb Nat.eqb (h1, hnew d true) ops in
    (exists k, hget Nat.eqb h2 o2 k <> hget Nat.eqb h1 o2 k) /\
    (exists k v s, hget Nat.eqb h2 o2 k = Ok s /\ In v s /\
       forall s', hinv_get Nat.eqb Nat.eqb h2 o2 v = Ok s' -> ~ In k s').
Proof. exact C02_refuted_lemma. Qed.
Print Assumptions C02_refuted.

(** C02, what holds: operations for keys whose set object is not shared with
    the other dictionary (in particular keys it does not have) leave both
    views of the other dictionary unchanged.  Missing for the full claim:
    keys with a shared set object. *)
Theorem C02_partial : forall K V (keqb : K -> K -> bool) (veqb : V -> V -> bool),
  (forall x y, reflect (x = y) (keqb x y)) -> (forall x y, reflect (x = y) (veqb x y)) ->
  forall (h : heap K V) (o1 o2 : hobj K V) ops h' o1',
  (forall a, In a (vcells o2) -> a < length (hv h)) -> (forall a, In a (kcells o2) -> a < length (hk h)) ->
  (forall op k a, In op ops -> hop_key op = Some k -> dget keqb (hf o1) k = Some a -> ~ In a (vcells o2)) ->
  (forall a, In a (kcells o1) -> ~ In a (kcells o2)) ->
  hrun keqb veqb (h, o1) ops = (h', o1') ->
  (forall k, hget keqb h' o2 k = hget keqb h o2 k) /\
  (forall v, hinv_get keqb veqb h' o2 v = hinv_get keqb veqb h o2 v).
Proof. exact @C02_partial_lemma. Qed.
Print Assumptions C02_partial.

Example C02_partial_nonvacuous :
  let d := [(1, 0)] in
  let o := hnew (K := nat) (V := nat) d true in
  let h := MkHeap [[10]] [] in
  let ops := [HAdd 2 11; HReadInv; HAdd 2 12; HRemove 2 11] in
  (forall op k a, In op ops -> hop_key op = Some k -> dget Nat.eqb (hf o) k = Some a -> ~ In a (vcells o)) /\
  hget Nat.eqb (fst (hrun Nat.eqb Nat.eqb (h, o) ops)) (snd (hrun Nat.eqb Nat.eqb (h, o) ops)) 2 = Ok [12] /\
  hget Nat.eqb (fst (hrun Nat.eqb Nat.eqb (h, o) ops)) o 1 = Ok [10].
Proof.
  vm_compute. split; [|auto]. intros op k a [<-|[<-|[<-|[<-|[]]]]] H; inversion H; subst; discriminate.
Qed.

(** C03: treaps are sets. *)
Theorem C03_treap_is_set : forall l : list (nat * Z),
  let t := insert_all TNull l in
  (forall x, in_treap t x = true <-> In x (map fst l)) /\
  bst t /\ heap_ordered t /\
  tsize t = count_distinct (map fst l) /\
  (forall arr, length arr = tsize t ->
     exists arr', treap_to_arr t arr = Ok arr' /\ length arr' = tsize t /\ NoDup arr' /\
                  (forall x, In x arr' <-> In x (map fst l))).
Proof. exact C03_lemma. Qed.
Print Assumptions C03_treap_is_set.

Example C03_nonvacuous :
  let t := insert_all TNull [(5, 3%Z); (2, 9%Z); (7, 1%Z); (5, 20%Z); (3, 9%Z)] in
  tsize t = 4 /\ treap_to_arr t [0; 0; 0; 0] = Ok [5; 3; 2; 7].
Proof. vm_compute. auto. Qed.

(** C04 is false of the code: the loop never ends, on any non-empty array. *)
Theorem C04_refuted : exists arr, forall fuel rnd t, treap_from_arr fuel rnd arr <> Ok t.
Proof. exact C04_refuted_exists. Qed.
Print Assumptions C04_refuted.

Theorem C04_diverges_on_every_nonempty_array : forall arr, arr <> [] -> forall fuel rnd,
  treap_from_arr fuel rnd arr = Err OutOfFuel.
Proof. exact C04_refuted_lemma. Qed.
Print Assumptions C04_diverges_on_every_nonempty_array.
