(** Specification of treaps: structural predicates on trees, independent of
    the update functions. *)
From Coq Require Import List Arith ZArith.
From Verif Require Import Base Treap.
Import ListNotations.

(** All keys of a tree, in preorder. *)
Fixpoint elems (t : treap) : list nat :=
  match t with
  | TNull => []
  | TNode l k _ _ r => k :: elems l ++ elems r
  end.

(** Binary search tree: smaller keys left, larger keys right. *)
Fixpoint bst (t : treap) : Prop :=
  match t with
  | TNull => True
  | TNode l k _ _ r =>
      (forall x, In x (elems l) -> x < k) /\ (forall x, In x (elems r) -> k < x) /\
      bst l /\ bst r
  end.

(** Priorities never increase towards the leaves. *)
Fixpoint heap_le (p : Z) (t : treap) : Prop :=
  match t with
  | TNull => True
  | TNode l _ h _ r => (h <= p)%Z /\ heap_le h l /\ heap_le h r
  end.

Definition heap_ordered (t : treap) : Prop :=
  match t with
  | TNull => True
  | TNode l _ h _ r => heap_le h l /\ heap_le h r
  end.

(** The size stored in each node is the number of nodes below it. *)
Fixpoint sized (t : treap) : Prop :=
  match t with
  | TNull => True
  | TNode l k _ n r => n = S (length (elems l) + length (elems r)) /\ sized l /\ sized r
  end.

(** The number of different values in a list. *)
Definition count_distinct (l : list nat) : nat := length (nodup Nat.eq_dec l).
