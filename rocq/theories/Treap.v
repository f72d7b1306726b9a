(** Model of switss/utils/treaps.pyx.

    Nodes are values instead of heap cells, so in-place updates become
    rebuilding; memory leaks of dropped nodes are not visible
    here (see HeapTreap.v).  The value
    of [rand()] (treaps.pyx 8-9) is an argument: any integer.  C integers do
    not overflow in the model. *)
From Coq Require Import List Arith ZArith Bool.
From Verif Require Import Base.
Import ListNotations.

(** treaps.pxd, struct TNode: left, right, tree_key, heap_key, size. *)
Inductive treap :=
| TNull
| TNode (l : treap) (key : nat) (heap : Z) (size : nat) (r : treap).

Definition tsize (t : treap) : nat :=
  match t with TNull => 0 | TNode _ _ _ n _ => n end.

(** treaps.pyx 11-22 (for a node that is not NULL). *)
Definition mk_node (l : treap) (k : nat) (h : Z) (r : treap) : treap :=
  TNode l k h (tsize r + tsize l + 1) r.

(** treaps.pyx 24-32 *)
Fixpoint in_treap (t : treap) (key : nat) : bool :=
  match t with
  | TNull => false
  | TNode l k _ _ r =>
      if key =? k then true
      else if key <? k then in_treap l key else in_treap r key
  end.

(** treaps.pyx 34-51 *)
Fixpoint split_treap (t : treap) (key : nat) : treap * treap :=
  match t with
  | TNull => (TNull, TNull)
  | TNode l k h _ r =>
      if key =? k then (l, r)
      else if key <? k then
        let (rec_left, rec_right) := split_treap l key in
        (rec_left, mk_node rec_right k h r)
      else
        let (rec_left, rec_right) := split_treap r key in
        (mk_node l k h rec_left, rec_right)
  end.

(** treaps.pyx 53-78; the new node has key [nk], priority [nh], size 1 and no
    children. *)
Fixpoint insert (t : treap) (nk : nat) (nh : Z) : treap :=
  match t with
  | TNull => TNode TNull nk nh 1 TNull
  | TNode l k h n r =>
      if k =? nk then t
      else if (h >? nh)%Z then
        if nk <? k then mk_node (insert l nk nh) k h r
        else mk_node l k h (insert r nk nh)
      else
        let (new_left, new_right) := split_treap t nk in
        mk_node new_left nk nh new_right
  end.

(** treaps.pyx 80-88; [rnd] is what rand() returned. *)
Definition add_to_treap (t : treap) (key : nat) (rnd : Z) : treap :=
  insert t key rnd.

(** treaps.pyx 108-115: write the keys in preorder from position [idx] on;
    returns the array and the next position.  A write outside the array is
    [OutOfBounds]. *)
Fixpoint fill_array (t : treap) (arr : list nat) (idx : nat) : res (list nat * nat) :=
  match t with
  | TNull => Ok (arr, idx)
  | TNode l k _ _ r =>
      if idx <? length arr then
        let* (arr1, i1) := fill_array l (upd arr idx k) (S idx) in
        fill_array r arr1 i1
      else Err OutOfBounds
  end.

(** treaps.pyx 104-106 *)
Definition treap_to_arr (t : treap) (arr : list nat) : res (list nat) :=
  let* (arr', _) := fill_array t arr 0 in Ok arr'.

(** treaps.pyx 97-102.  The loop variable [i] is never incremented, as in the
    source.  [fuel] bounds the number of loop iterations, [rnd n] is the
    priority drawn in iteration n. *)
Fixpoint treap_from_arr_loop (fuel : nat) (rnd : nat -> Z) (arr : list nat)
    (arr_size i : nat) (t : treap) : res treap :=
  match fuel with
  | O => Err OutOfFuel
  | S f =>
      if i <? arr_size then
        match nth_error arr i with
        | Some x => treap_from_arr_loop f rnd arr arr_size i
                      (add_to_treap t x (rnd f))
        | None => Err OutOfBounds
        end
      else Ok t
  end.

Definition treap_from_arr (fuel : nat) (rnd : nat -> Z) (arr : list nat) : res treap :=
  treap_from_arr_loop fuel rnd arr (length arr) 0 TNull.

(** A client that inserts a sequence of (key, priority) pairs, as
    strongconnect and maximal_end_components do. *)
Fixpoint insert_all (t : treap) (l : list (nat * Z)) : treap :=
  match l with
  | [] => t
  | (k, h) :: r => insert_all (add_to_treap t k h) r
  end.
