(** Model of switss/utils/graph.pyx 89-174: Tarjan's algorithm on the
    subgraph given by a set of states (a treap).

    [rnd k] is the value of the k-th call of rand(); the counter is part of
    the state.  The C stack of recursive calls is bounded by [fuel].
    With pointers, malloc and free: HeapGraph.v. *)
From Coq Require Import List Arith ZArith QArith Bool.
From Verif Require Import Base Num Matrix Treap Graph.
Import ListNotations.
Local Open Scope nat_scope.

(** graph.pyx 20-24 (TarjanNode: index, lowlink, onstack) as three arrays,
    index -1 is None; the stack, the counters [i] and [scc_counter], the
    array [sccs] and the number of rand() calls so far. *)
Record tj := MkTj {
  t_idx : list (option nat); t_low : list nat; t_on : list bool;
  t_stk : list nat; t_cnt : nat; t_scc : list nat; t_num : nat; t_rc : nat }.

(** graph.pyx 100-106: actions of a state with a successor outside. *)
Definition bad_actions (rnd : nat -> Z) (sub : treap) (ss : list sap) (rc : nat) : treap * nat :=
  fold_left (fun st x => let '(t, rc) := st in
               if in_treap sub (sap_state x) then (t, rc)
               else (add_to_treap t (sap_action x) (rnd rc), S rc)) ss (TNull, rc).

(** graph.pyx 124-128: pop until [v]; popping an empty stack is an access to
    NULL. *)
Fixpoint pop_until (v num : nat) (stk : list nat) (on : list bool) (scc : list nat)
  : res (list nat * list bool * list nat) :=
  match stk with
  | [] => Err OutOfBounds
  | w :: r =>
      let on := upd on w false in
      let scc := upd scc w num in
      if w =? v then Ok (r, on, scc) else pop_until v num r on scc
  end.

Definition set_low (s : tj) (v l : nat) : tj :=
  MkTj (t_idx s) (upd (t_low s) v l) (t_on s) (t_stk s) (t_cnt s) (t_scc s) (t_num s) (t_rc s).

(** graph.pyx 96-98 *)
Definition enter (s : tj) (v : nat) : tj :=
  MkTj (upd (t_idx s) v (Some (t_cnt s))) (upd (t_low s) v (t_cnt s)) (upd (t_on s) v true)
       (v :: t_stk s) (S (t_cnt s)) (t_scc s) (t_num s) (t_rc s).

(** graph.pyx 123-129 *)
Definition leave (s : tj) (v : nat) : res tj :=
  let* iv := of_opt OutOfBounds (nth v (t_idx s) None) in
  if nth v (t_low s) 0 =? iv then
    let* (stk, on, scc) := pop_until v (t_num s) (t_stk s) (t_on s) (t_scc s) in
    Ok (MkTj (t_idx s) (t_low s) on stk (t_cnt s) scc (S (t_num s)) (t_rc s))
  else Ok s.

(** graph.pyx 108-120, one iteration; [rec] is the recursive call. *)
Definition visit_succ (rec : tj -> nat -> res tj) (bad : treap) (v : nat) (s : tj) (x : sap) : res tj :=
  let w := sap_state x in
  if in_treap bad (sap_action x) then Ok s
  else match nth_error (t_idx s) w with
       | None => Err OutOfBounds
       | Some None =>
           let* s' := rec s w in
           Ok (set_low s' v (Nat.min (nth v (t_low s') 0) (nth w (t_low s') 0)))
       | Some (Some iw) =>
           if nth w (t_on s) false
           then Ok (set_low s v (Nat.min (nth v (t_low s) 0) iw))
           else Ok s
       end.

(** graph.pyx 89-132 *)
Fixpoint strongconnect (fuel : nat) (g : graph) (rnd : nat -> Z) (sub : treap) (s : tj) (v : nat) : res tj :=
  match fuel with
  | O => Err OutOfFuel
  | S f =>
      match nth_error g v with
      | None => Err OutOfBounds
      | Some nd =>
          let s := enter s v in
          let '(bad, rc) := bad_actions rnd sub (succs nd) (t_rc s) in
          let s := MkTj (t_idx s) (t_low s) (t_on s) (t_stk s) (t_cnt s) (t_scc s) (t_num s) rc in
          let* s := foldM (visit_succ (strongconnect f g rnd sub) bad v) (succs nd) s in
          leave s v
      end
  end.

(** graph.pyx 136-174: returns the array [sccs] and the number of components
    (and the rand counter). *)
Definition scc_init (N rc : nat) : tj :=
  MkTj (repeat None N) (repeat 0 N) (repeat false N) [] 0 (repeat 0 N) 1 rc.

Definition strongly_connected (g : graph) (rnd : nat -> Z) (rc : nat) (sub : treap)
  : res (list nat * nat * nat) :=
  let N := length g in
  let* arr := treap_to_arr sub (repeat 0 (tsize sub)) in
  let* s := foldM (fun s v =>
              match nth_error (t_idx s) v with
              | None => Err OutOfBounds
              | Some None => strongconnect (S N) g rnd sub s v
              | Some (Some _) => Ok s
              end) arr (scc_init N rc) in
  Ok (t_scc s, t_num s - 1, t_rc s).
