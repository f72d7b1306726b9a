(** The memory of the C part of the program (treaps.pyx, stack.pyx,
    graph.pyx): malloc, free, and typed blocks.  No code of /repo is modelled
    here.

    Simplifications: malloc never fails and never hands out an address twice,
    so every use of a freed block is noticed (malloc(0) gives a fresh block
    without elements); a block is only accessed with the type it was allocated
    with; C integers do not overflow.  A block of a single struct is
    initialised when it is allocated (the code assigns all of its fields
    directly after malloc); the elements of arrays start uninitialised. *)
From Coq Require Import List Arith ZArith QArith Bool.
From Verif Require Import Base Graph.
Import ListNotations.
Local Open Scope nat_scope.

(** Addresses; 0 is NULL. *)
Definition addr := nat.
Definition null : addr := 0.

(** graph.pyx 15-18: struct Node. *)
Record cnode := MkC { c_preds : addr; c_succs : addr; c_pn : nat; c_sn : nat }.

(** graph.pyx 20-22: struct TarjanNode; the fields are initialised one by
    one.  Index -1 is [Some None]. *)
Record ctarjan := MkT { k_idx : option (option nat); k_low : option nat; k_on : option bool }.

(** What malloc is called for.  [None] is an uninitialised element. *)
Inductive block :=
| BNode (key : nat) (heap : Z) (size : nat) (l r : addr)    (* TNode, treaps.pxd 3-8 *)
| BStack (x : nat) (btm : addr)                             (* IntStack, stack.pyx 4-6 *)
| BTStack (t : addr) (btm : addr)                           (* TreapStack, stack.pyx 8-10 *)
| BInts (a : list (option nat))                             (* int arrays *)
| BPtrs (a : list (option addr))                            (* arrays of TNode* *)
| BTarjans (a : list ctarjan)                               (* arrays of TarjanNode *)
| BSaps (a : list (option sap))                             (* arrays of SAPPair *)
| BNodes (a : list (option cnode)).                         (* arrays of Node *)

(** The cell at an address: a live block, or [None] for NULL and for what has
    been freed. *)
Definition mem := list (option block).
Definition mem0 : mem := [None].

(** Undefined behaviour: access through NULL, a freed or a foreign pointer;
    free of something that is not a live block; access outside of an array;
    use of an uninitialised value. *)
Inductive fault := BadAccess | BadFree | Bounds | Uninit.

Inductive mres (A : Type) :=
| Done (a : A) (m : mem)
| Fault (f : fault)
| Raised (e : exn) (m : mem)
| NoFuel.
Arguments Done {A}. Arguments Fault {A}. Arguments Raised {A}. Arguments NoFuel {A}.

Definition M (A : Type) := mem -> mres A.
Definition ret {A} (a : A) : M A := fun m => Done a m.
Definition mbind {A B} (c : M A) (k : A -> M B) : M B := fun m =>
  match c m with Done a m' => k a m' | Fault f => Fault f | Raised e m' => Raised e m' | NoFuel => NoFuel end.
Definition ub {A} (f : fault) : M A := fun _ => Fault f.
Definition raise {A} (e : exn) : M A := fun m => Raised e m.
Definition nofuel {A} : M A := fun _ => NoFuel.

Notation "'let!' x := c 'in' k" := (mbind c (fun x => k))
  (at level 200, x pattern, c at level 100, k at level 200, right associativity).

Fixpoint foldH {A S} (f : S -> A -> M S) (l : list A) (s : S) : M S :=
  match l with
  | [] => ret s
  | x :: r => let! s' := f s x in foldH f r s'
  end.

(** A loop [for i in range(n)] without other state. *)
Definition loop (n : nat) (f : nat -> M unit) : M unit := foldH (fun _ i => f i) (seq 0 n) tt.

Definition malloc (b : block) : M addr := fun m => Done (length m) (m ++ [Some b]).

Definition free (p : addr) : M unit := fun m =>
  if p =? null then Done tt m
  else match nth_error m p with
       | Some (Some _) => Done tt (upd m p None)
       | _ => Fault BadFree
       end.

Definition load (p : addr) : M block := fun m =>
  match nth_error m p with
  | Some (Some b) => Done b m
  | _ => Fault BadAccess
  end.

(** Overwriting a live block. *)
Definition store (p : addr) (b : block) : M unit := fun m =>
  match nth_error m p with
  | Some (Some _) => Done tt (upd m p (Some b))
  | _ => Fault BadAccess
  end.

(** A bound for recursions and loops along pointers: more steps than there
    are cells cannot be done without running in a circle. *)
Definition fueled {A} (f : nat -> M A) : M A := fun m => f (S (length m)) m.

(** Element access for the array types. *)
Definition elem {A} (a : list (option A)) (i : nat) : M A :=
  match nth_error a i with None => ub Bounds | Some None => ub Uninit | Some (Some x) => ret x end.

Definition get_int (p : addr) (i : nat) : M nat :=
  let! b := load p in match b with BInts a => elem a i | _ => ub BadAccess end.
Definition set_int (p : addr) (i : nat) (x : nat) : M unit :=
  let! b := load p in
  match b with
  | BInts a => if i <? length a then store p (BInts (upd a i (Some x))) else ub Bounds
  | _ => ub BadAccess
  end.

Definition get_ptr (p : addr) (i : nat) : M addr :=
  let! b := load p in match b with BPtrs a => elem a i | _ => ub BadAccess end.
Definition set_ptr (p : addr) (i : nat) (x : addr) : M unit :=
  let! b := load p in
  match b with
  | BPtrs a => if i <? length a then store p (BPtrs (upd a i (Some x))) else ub Bounds
  | _ => ub BadAccess
  end.

Definition get_sap (p : addr) (i : nat) : M sap :=
  let! b := load p in match b with BSaps a => elem a i | _ => ub BadAccess end.
Definition set_sap (p : addr) (i : nat) (x : sap) : M unit :=
  let! b := load p in
  match b with
  | BSaps a => if i <? length a then store p (BSaps (upd a i (Some x))) else ub Bounds
  | _ => ub BadAccess
  end.

Definition get_node (p : addr) (i : nat) : M cnode :=
  let! b := load p in match b with BNodes a => elem a i | _ => ub BadAccess end.
Definition set_node (p : addr) (i : nat) (x : cnode) : M unit :=
  let! b := load p in
  match b with
  | BNodes a => if i <? length a then store p (BNodes (upd a i (Some x))) else ub Bounds
  | _ => ub BadAccess
  end.

(** TarjanNode: whole entries, and single fields that must be initialised. *)
Definition get_tj (p : addr) (i : nat) : M ctarjan :=
  let! b := load p in
  match b with
  | BTarjans a => match nth_error a i with None => ub Bounds | Some x => ret x end
  | _ => ub BadAccess
  end.
Definition set_tj (p : addr) (i : nat) (x : ctarjan) : M unit :=
  let! b := load p in
  match b with
  | BTarjans a => if i <? length a then store p (BTarjans (upd a i x)) else ub Bounds
  | _ => ub BadAccess
  end.
Definition field {A} (x : option A) : M A := match x with Some y => ret y | None => ub Uninit end.

(** Number of live blocks. *)
Definition live (m : mem) : nat := length (filter (fun c => match c with Some _ => true | None => false end) m).

(** NULL is no block. *)
Definition mem_ok (m : mem) : Prop := nth_error m 0 = Some None.

(** Every block that was live is still there, unchanged. *)
Definition keeps (m m' : mem) : Prop := forall a b, nth_error m a = Some (Some b) -> nth_error m' a = Some (Some b).
