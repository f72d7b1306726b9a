(** Programs that use treaps, stacks and graphs through their functions: any
    sequence of calls, afterwards everything is given back.  No code of /repo
    is modelled here; the functions called are those of HeapTreap.v and
    HeapGraph.v. *)
From Coq Require Import List Arith ZArith QArith Bool.
From Verif Require Import Base Num Matrix Graph Heap HeapTreap HeapGraph.
Import ListNotations.
Local Open Scope nat_scope.

(** ** Treaps *)

(** Calls: add a key with the priority that rand() returns, look up a key,
    list the keys (as graph.pyx 143-145 does: an array of as many elements as
    the size field says). *)
Inductive tcall := TAdd (key : nat) (rnd : Z) | TIn (key : nat) | TKeys.
Inductive tans := ADone | ABool (b : bool) | AKeys (l : list nat).

Definition c_tcall (p : addr) (c : tcall) : M (addr * tans) :=
  match c with
  | TAdd k h => let! q := c_add p k h in ret (q, ADone)
  | TIn k => let! b := c_in_treap p k in ret (p, ABool b)
  | TKeys =>
      if p =? null then ret (p, AKeys [])
      else
        let! (_, _, n, _, _) := tnode p in
        let! arr := malloc (BInts (repeat None n)) in
        let! _ := c_treap_to_arr p arr in
        let! l := foldH (fun l i => let! x := get_int arr i in ret (l ++ [x])) (seq 0 n) [] in
        let! _ := free arr in
        ret (p, AKeys l)
  end.

Definition c_tsession (calls : list tcall) : M (list tans) :=
  let! (p, l) := foldH (fun st c => let '(p, l) := st in let! (p, a) := c_tcall p c in ret (p, l ++ [a])) calls (null, []) in
  let! _ := c_free_treap p in
  ret l.

(** ** Stacks *)
Inductive scall := SPush (x : nat) | SPop.

(** Returns the popped values. *)
Definition c_ssession (calls : list scall) : M (list nat) :=
  let! (s, l) := foldH (fun st c => let '(s, l) := st in
                          match c with
                          | SPush x => let! s := c_push s x in ret (s, l)
                          | SPop => let! (s, x) := c_pop s in ret (s, l ++ [x])
                          end) calls (null, []) in
  let! _ := c_free_stack s in
  ret l.

(** ** Graphs *)
Inductive gcall :=
| GNeigh (fwd : bool) (n : nat) (act : option nat)                         (* successors, predecessors *)
| GReach (fromset : list nat) (dir : direction) (blocklist : list nat)     (* reachable *)
| GMec (rnd : nat -> Z).                                                   (* maximal_end_components *)
Inductive gans :=
| ANeigh (l : list sap)
| AMask (l : list nat)
| AMec (comp : list nat) (proper : list bool) (k : nat).

Definition c_gcall (g : cgraph) (c : gcall) : M gans :=
  match c with
  | GNeigh fwd n act => let! l := c_neighbours fwd g n act in ret (ANeigh l)
  | GReach fs d bl => let! l := c_reachable g fs d bl in ret (AMask l)
  | GMec rnd => let! (comp, proper, k) := c_mec rnd g in ret (AMec comp proper k)
  end.

Definition c_gcalls (g : cgraph) (calls : list gcall) : M (list gans) :=
  foldH (fun l c => let! a := c_gcall g c in ret (l ++ [a])) calls [].

(** Construct, call, and let the garbage collector remove the graph. *)
Definition c_gsession (P : mat) (inv : nat -> option (nat * nat)) (calls : list gcall) : M (list gans) :=
  let! g := c_graph P inv in
  let! l := c_gcalls g calls in
  let! _ := c_dealloc g in
  ret l.
