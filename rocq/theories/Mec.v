(** Model of switss/utils/graph.pyx 180-296: maximal end components.
    [rnd] as in Scc.v; the initial srand() has no effect on the model, the
    random numbers are arbitrary.  [fuel] bounds the worklist loop.
    With pointers, malloc and free: HeapGraph.v. *)
From Coq Require Import List Arith ZArith QArith Bool.
From Verif Require Import Base Num Matrix Treap Graph Scc.
Import ListNotations.
Local Open Scope nat_scope.

(** State of the loop 208-258: treap_stack, ret, mec_counter,
    singleton_mecs_treap, number of rand() calls. *)
Record mecst := MkMec { m_stk : list treap; m_ret : list nat; m_cnt : nat; m_single : treap; m_rc : nat }.

(** graph.pyx 195-199: add all nodes. *)
Definition all_nodes (rnd : nat -> Z) (rc N : nat) : treap * nat :=
  fold_left (fun st i => let '(t, rc) := st in (add_to_treap t i (rnd rc), S rc)) (seq 0 N) (TNull, rc).

(** graph.pyx 237-247: distribute the nodes to new treaps. *)
Definition split_nodes (rnd : nat -> Z) (sccs : list nat) (arr : list nat) (k rc : nat)
  : res (list treap * nat) :=
  foldM (fun st u => let '(news, rc) := st in
           let i := nth u sccs 0 - 1 in
           match nth_error news i with
           | None => Err OutOfBounds
           | Some t => Ok (upd news i (add_to_treap t u (rnd rc)), S rc)
           end) arr (repeat TNull k, rc).

(** One iteration of the loop 208-258 on a popped treap; an access to the
    size of a NULL treap is OutOfBounds. *)
Definition mec_step (g : graph) (rnd : nat -> Z) (s : mecst) (t : treap) (rest : list treap) : res mecst :=
  match t with
  | TNull => Err OutOfBounds
  | TNode _ _ _ _ _ =>
      let* arr := treap_to_arr t (repeat 0 (tsize t)) in
      let* (sccs, compcount, rc) := strongly_connected g rnd (m_rc s) t in
      if compcount =? 1 then
        let* ret := foldM (fun r u => if u <? length r then Ok (upd r u (m_cnt s)) else Err OutOfBounds) arr (m_ret s) in
        let '(single, rc) := if tsize t =? 1 then (add_to_treap (m_single s) (m_cnt s) (rnd rc), S rc)
                             else (m_single s, rc) in
        Ok (MkMec rest ret (S (m_cnt s)) single rc)
      else
        let* (news, rc) := split_nodes rnd sccs arr compcount rc in
        Ok (MkMec (rev news ++ rest) (m_ret s) (m_cnt s) (m_single s) rc)
  end.

Fixpoint mec_loop (fuel : nat) (g : graph) (rnd : nat -> Z) (s : mecst) : res mecst :=
  match fuel with
  | O => Err OutOfFuel
  | S f => match m_stk s with
           | [] => Ok s
           | t :: rest => let* s' := mec_step g rnd s t rest in mec_loop f g rnd s'
           end
  end.

(** graph.pyx 277-282: the two action treaps of a node. *)
Definition loop_actions (rnd : nat -> Z) (i : nat) (ss : list sap) (rc : nat) : treap * treap * nat :=
  fold_left (fun st x => let '(all, non, rc) := st in
               let all := add_to_treap all (sap_action x) (rnd rc) in
               if sap_state x =? i then (all, non, S rc)
               else (all, add_to_treap non (sap_action x) (rnd (S rc)), S (S rc)))
            ss (TNull, TNull, rc).

(** graph.pyx 269-292, one node. *)
Definition proper_step (g : graph) (rnd : nat -> Z) (ret : list nat) (single : treap)
    (st : list bool * nat) (i : nat) : res (list bool * nat) :=
  let '(proper, rc) := st in
  let c := nth i ret 0 in
  if negb (in_treap single c) then
    if c <? length proper then Ok (upd proper c true, rc) else Err OutOfBounds
  else
    let '(all, non, rc) := loop_actions rnd i (succs (nth i g node0)) rc in
    let set := match non with TNull => true | _ => negb (tsize non =? tsize all) end in
    if set then if c <? length proper then Ok (upd proper c true, rc) else Err OutOfBounds
    else Ok (proper, rc).

(** graph.pyx 180-296: (components, proper flags, number of components). *)
Definition mec_fuel (fuel : nat) (g : graph) (rnd : nat -> Z) : res (list nat * list bool * nat) :=
  let N := length g in
  let '(t, rc) := all_nodes rnd 0 N in
  let* s := mec_loop fuel g rnd (MkMec [t] (repeat 0 N) 0 TNull rc) in
  let* (proper, _) := foldM (proper_step g rnd (m_ret s) (m_single s)) (seq 0 N)
                            (repeat false (m_cnt s), m_rc s) in
  Ok (m_ret s, proper, m_cnt s).

Definition maximal_end_components (g : graph) (rnd : nat -> Z) : res (list nat * list bool * nat) :=
  mec_fuel (2 * length g + 1) g rnd.
