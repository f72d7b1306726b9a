(** Model of switss/utils/graph.pyx: construction, neighbour queries and
    reachability (strongly connected and end components are in Scc.v and
    Mec.v).  C arrays are lists, an access outside of an array is
    [Err OutOfBounds].  HeapGraph.v models the same code with pointers,
    malloc and free. *)
From Coq Require Import List Arith ZArith QArith Bool.
From Verif Require Import Base Num Matrix.
Import ListNotations.
Local Open Scope nat_scope.

(** graph.pyx 13: SAPPair = (state, action, float probability). *)
Definition sap := (nat * nat * Q)%type.
Definition sap_state (x : sap) : nat := fst (fst x).
Definition sap_action (x : sap) : nat := snd (fst x).

(** graph.pyx 15-18: Node; the counters are the list lengths. *)
Record gnode := MkNode { preds : list sap; succs : list sap }.
Definition node0 : gnode := MkNode [] [].

(** graph.pyx 29-31: the node array. *)
Definition graph := list gnode.

(** graph.pyx 46-64: append to the successor array of [from] and to the
    predecessor array of [to].  [prob] is a C float: the conversion rounds to
    single precision. *)
Definition add_successor (g : graph) (from action : nat) (prob : Q) (to : nat) : res graph :=
  match nth_error g from with
  | None => Err OutOfBounds
  | Some nf =>
      let g1 := upd g from (MkNode (preds nf) (succs nf ++ [(to, action, f32 prob)])) in
      match nth_error g1 to with
      | None => Err OutOfBounds
      | Some nt => Ok (upd g1 to (MkNode (preds nt ++ [(from, action, f32 prob)]) (succs nt)))
      end
  end.

(** graph.pyx 33-41; [inv] is index_by_state_action.inv (a missing row index
    raises KeyError). *)
Definition mk_graph (P : mat) (inv : nat -> option (nat * nat)) : res graph :=
  foldM (fun g e => let '((i, d), p) := e in
           let* (s, a) := of_opt KeyError (inv i) in
           add_successor g s a p d)
        (mitems P) (repeat node0 (mcols P)).

(** graph.pyx 66-70 and 72-76 *)
Definition filter_action (act : option nat) (l : list sap) : list sap :=
  filter (fun x => match act with None => true | Some a => a =? sap_action x end) l.

Definition successors (g : graph) (n : nat) (act : option nat) : res (list sap) :=
  let* nd := of_opt OutOfBounds (nth_error g n) in Ok (filter_action act (succs nd)).

Definition predecessors (g : graph) (n : nat) (act : option nat) : res (list sap) :=
  let* nd := of_opt OutOfBounds (nth_error g n) in Ok (filter_action act (preds nd)).

(** graph.pyx 344-350: push every neighbour that is neither reached nor on
    the stack. *)
Definition push_neighbours (mask : list bool) (ns : list sap) (stack : list nat) (instack : list bool)
  : list nat * list bool :=
  fold_left (fun st x =>
               let '(stk, ins) := st in
               let n := sap_state x in
               if negb (nth n mask false) && negb (nth n ins false)
               then (n :: stk, upd ins n true) else (stk, ins))
            ns (stack, instack).

(** graph.pyx 330-350: the main loop. *)
Fixpoint reach_loop (fuel : nat) (g : graph) (forward : bool) (block : list bool)
    (stack : list nat) (instack mask : list bool) : res (list bool) :=
  match fuel with
  | O => Err OutOfFuel
  | S f =>
      match stack with
      | [] => Ok mask
      | c :: stk =>
          match nth_error g c with
          | None => Err OutOfBounds
          | Some nd =>
              let instack := upd instack c false in
              let mask := upd mask c true in
              if nth c block false then reach_loop f g forward block stk instack mask
              else
                let ns := if forward then succs nd else preds nd in
                let '(stk', instack') := push_neighbours mask ns stk instack in
                reach_loop f g forward block stk' instack' mask
          end
      end
  end.

(** graph.pyx 323-328: setting mask bits (a write outside is out of
    bounds). *)
Definition mark_all (l : list nat) (m : list bool) : res (list bool) :=
  foldM (fun m i => if i <? length m then Ok (upd m i true) else Err OutOfBounds) l m.

(** The two legal values of the direction argument, anything else. *)
Inductive direction := Forward | Backward | OtherDirection.

(** graph.pyx 298-360.  [fuel] bounds the main loop. *)
Definition reachable_fuel (fuel : nat) (g : graph) (fromset : list nat) (dir : direction)
    (blocklist : list nat) : res (list bool) :=
  let* _ := assert_ (0 <? length fromset) in
  let* _ := assert_ (match dir with OtherDirection => false | _ => true end) in
  let zeros := repeat false (length g) in
  let* instack := mark_all fromset zeros in
  let* block := mark_all blocklist zeros in
  reach_loop fuel g (match dir with Forward => true | _ => false end) block
             (rev fromset) instack zeros.

(** With enough fuel (the bound is justified in GraphProofs.v). *)
Definition reachable (g : graph) (fromset : list nat) (dir : direction) (blocklist : list nat)
  : res (list bool) :=
  reachable_fuel (S (length g + length fromset)) g fromset dir blocklist.
