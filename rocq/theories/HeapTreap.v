(** Model of switss/utils/treaps.pyx and stack.pyx with explicit memory.
    [rand()] is an argument as in Treap.v. *)
From Coq Require Import List Arith ZArith Bool.
From Verif Require Import Base Graph Heap.
Import ListNotations.
Local Open Scope nat_scope.

(** The fields of a TNode. *)
Definition tnode (p : addr) : M (nat * Z * nat * addr * addr) :=
  let! b := load p in match b with BNode k h n l r => ret (k, h, n, l, r) | _ => ub BadAccess end.

(** treaps.pyx 15-20: the size of a child, 0 for NULL. *)
Definition size_of (p : addr) : M nat :=
  if p =? null then ret 0 else let! (_, _, n, _, _) := tnode p in ret n.

(** treaps.pyx 11-22 *)
Definition c_update_size (p : addr) : M unit :=
  if p =? null then ret tt
  else
    let! (k, h, _, l, r) := tnode p in
    let! rs := size_of r in
    let! ls := size_of l in
    store p (BNode k h (rs + ls + 1) l r).

Definition set_left (p q : addr) : M unit := let! (k, h, n, _, r) := tnode p in store p (BNode k h n q r).
Definition set_right (p q : addr) : M unit := let! (k, h, n, l, _) := tnode p in store p (BNode k h n l q).

(** treaps.pyx 24-32 *)
Fixpoint c_in (fuel : nat) (p : addr) (key : nat) : M bool :=
  match fuel with
  | O => nofuel
  | S f =>
      if p =? null then ret false
      else
        let! (k, _, _, l, r) := tnode p in
        if key =? k then ret true
        else if key <? k then c_in f l key
        else c_in f r key
  end.
Definition c_in_treap (p : addr) (key : nat) : M bool := fueled (fun f => c_in f p key).

(** treaps.pyx 34-51 *)
Fixpoint c_split (fuel : nat) (p : addr) (key : nat) : M (addr * addr) :=
  match fuel with
  | O => nofuel
  | S f =>
      if p =? null then ret (null, null)
      else
        let! (k, _, _, l, r) := tnode p in
        if key =? k then ret (l, r)
        else if key <? k then
          let! (rl, rr) := c_split f l key in
          let! _ := set_left p rr in
          let! _ := c_update_size p in
          ret (rl, p)
        else
          let! (rl, rr) := c_split f r key in
          let! _ := set_right p rl in
          let! _ := c_update_size p in
          ret (p, rr)
  end.

(** treaps.pyx 53-78 *)
Fixpoint c_insert (fuel : nat) (p new : addr) : M addr :=
  match fuel with
  | O => nofuel
  | S f =>
      if p =? null then ret new
      else
        let! (k, h, _, l, r) := tnode p in
        let! (nk, nh, _, _, _) := tnode new in
        if k =? nk then ret p
        else if (h >? nh)%Z then
          let! _ := (if nk <? k
                     then let! q := c_insert f l new in set_left p q
                     else let! q := c_insert f r new in set_right p q) in
          let! _ := c_update_size p in
          ret p
        else
          let! (nl, nr) := c_split (S f) p nk in
          let! _ := set_left new nl in
          let! _ := set_right new nr in
          let! _ := c_update_size new in
          ret new
  end.

(** treaps.pyx 80-88; [rnd] is what rand() returned. *)
Definition c_add (p : addr) (key : nat) (rnd : Z) : M addr :=
  let! new := malloc (BNode key rnd 1 null null) in
  fueled (fun f => c_insert f p new).

(** treaps.pyx 90-95 *)
Fixpoint c_free (fuel : nat) (p : addr) : M unit :=
  match fuel with
  | O => nofuel
  | S f =>
      if p =? null then ret tt
      else
        let! (_, _, _, l, r) := tnode p in
        let! _ := c_free f l in
        let! _ := c_free f r in
        free p
  end.
Definition c_free_treap (p : addr) : M unit := fueled (fun f => c_free f p).

(** treaps.pyx 108-115 *)
Fixpoint c_fill (fuel : nat) (p arr : addr) (idx : nat) : M nat :=
  match fuel with
  | O => nofuel
  | S f =>
      if p =? null then ret idx
      else
        let! (k, _, _, l, r) := tnode p in
        let! _ := set_int arr idx k in
        let! idx := c_fill f l arr (S idx) in
        c_fill f r arr idx
  end.

(** treaps.pyx 104-106 *)
Definition c_treap_to_arr (p arr : addr) : M unit := let! _ := fueled (fun f => c_fill f p arr 0) in ret tt.

(** stack.pyx 12-16 *)
Definition c_push (s : addr) (x : nat) : M addr := malloc (BStack x s).

(** stack.pyx 18-21 *)
Definition c_pop (s : addr) : M (addr * nat) :=
  let! b := load s in
  match b with
  | BStack x btm => let! _ := free s in ret (btm, x)
  | _ => ub BadAccess
  end.

(** stack.pyx 23-29 *)
Fixpoint c_freestack (fuel : nat) (s : addr) : M unit :=
  match fuel with
  | O => nofuel
  | S f =>
      if s =? null then ret tt
      else
        let! b := load s in
        match b with
        | BStack _ btm => let! _ := free s in c_freestack f btm
        | _ => ub BadAccess
        end
  end.
Definition c_free_stack (s : addr) : M unit := fueled (fun f => c_freestack f s).

(** stack.pyx 31-35 *)
Definition c_ts_push (s t : addr) : M addr := malloc (BTStack t s).

(** stack.pyx 37-40 *)
Definition c_ts_pop (s : addr) : M (addr * addr) :=
  let! b := load s in
  match b with
  | BTStack t btm => let! _ := free s in ret (btm, t)
  | _ => ub BadAccess
  end.

(** stack.pyx 42-49 *)
Fixpoint c_freetstack (fuel : nat) (s : addr) : M unit :=
  match fuel with
  | O => nofuel
  | S f =>
      if s =? null then ret tt
      else
        let! b := load s in
        match b with
        | BTStack t btm =>
            let! _ := c_free_treap t in
            let! _ := free s in
            c_freetstack f btm
        | _ => ub BadAccess
        end
  end.
Definition c_free_tstack (s : addr) : M unit := fueled (fun f => c_freetstack f s).
