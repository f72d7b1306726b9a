(** Model of switss/utils/graph.pyx with explicit memory: every malloc, free
    and access to allocated memory of the class Graph.

    Numpy arrays belong to python and are lists here (an index outside raises
    IndexError); state indices are natural numbers, so negative indices are
    not modelled.  [rnd k] is the k-th value of rand(), counted in [rc].
    [fuel] as in Graph.v, Scc.v and Mec.v. *)
From Coq Require Import List Arith ZArith QArith Bool.
From Verif Require Import Base Num Matrix Graph Heap HeapTreap.
Import ListNotations.
Local Open Scope nat_scope.

(** graph.pyx 29-31: the fields of a Graph. *)
Record cgraph := MkCG { cg_nodes : addr; cg_count : nat }.

(** graph.pyx 46-64 *)
Definition c_add_successor (nodes : addr) (from action : nat) (prob : Q) (to : nat) : M unit :=
  let! nf := get_node nodes from in
  let n := S (c_sn nf) in
  let! _ := set_node nodes from (MkC (c_preds nf) (c_succs nf) (c_pn nf) n) in
  let! new := malloc (BSaps (repeat None n)) in
  let! _ := loop (n - 1) (fun i => let! x := get_sap (c_succs nf) i in set_sap new i x) in
  let! _ := set_sap new (n - 1) (to, action, f32 prob) in
  let! _ := free (c_succs nf) in
  let! _ := set_node nodes from (MkC (c_preds nf) new (c_pn nf) n) in
  let! nt := get_node nodes to in
  let n := S (c_pn nt) in
  let! _ := set_node nodes to (MkC (c_preds nt) (c_succs nt) n (c_sn nt)) in
  let! new := malloc (BSaps (repeat None n)) in
  let! _ := loop (n - 1) (fun i => let! x := get_sap (c_preds nt) i in set_sap new i x) in
  let! _ := set_sap new (n - 1) (from, action, f32 prob) in
  let! _ := free (c_preds nt) in
  set_node nodes to (MkC new (c_succs nt) n (c_sn nt)).

(** graph.pyx 362-369 *)
Definition c_dealloc (g : cgraph) : M unit :=
  let! _ := loop (cg_count g) (fun i =>
    let! nd := get_node (cg_nodes g) i in
    let! _ := free (c_preds nd) in
    free (c_succs nd)) in
  free (cg_nodes g).

(** graph.pyx 33-41, both arguments given.  If the constructor raises, python
    deallocates the object. *)
Definition c_graph (P : mat) (inv : nat -> option (nat * nat)) : M cgraph :=
  let! nodes := malloc (BNodes (repeat None (mcols P))) in
  let g := MkCG nodes (mcols P) in
  let! _ := loop (mcols P) (fun i => set_node nodes i (MkC null null 0 0)) in
  let! _ := foldH (fun _ e => let '((i, d), p) := e in
              match inv i with
              | None => let! _ := c_dealloc g in raise KeyError
              | Some (s, a) => c_add_successor nodes s a p d
              end) (mitems P) tt in
  ret g.

(** graph.pyx 66-76; [fwd] tells successors from predecessors.  The
    generators read while they run; here the list they produce. *)
Definition c_neighbours (fwd : bool) (g : cgraph) (n : nat) (act : option nat) : M (list sap) :=
  let! nd := get_node (cg_nodes g) n in
  foldH (fun l i =>
           let! x := get_sap (if fwd then c_succs nd else c_preds nd) i in
           ret (if match act with None => true | Some a => a =? sap_action x end then l ++ [x] else l))
        (seq 0 (if fwd then c_sn nd else c_pn nd)) [].

(** graph.pyx 124-128 *)
Fixpoint c_pop_until (fuel : nat) (v num : nat) (stk tnodes sccs : addr) : M addr :=
  match fuel with
  | O => nofuel
  | S f =>
      let! (stk, w) := c_pop stk in
      let! tw := get_tj tnodes w in
      let! _ := set_tj tnodes w (MkT (k_idx tw) (k_low tw) (Some false)) in
      let! _ := set_int sccs w num in
      if w =? v then ret stk else c_pop_until f v num stk tnodes sccs
  end.

(** graph.pyx 117 and 120: lower the low link of [v]. *)
Definition c_lower (tnodes : addr) (v l : nat) : M unit :=
  let! tv := get_tj tnodes v in
  let! lv := field (k_low tv) in
  set_tj tnodes v (MkT (k_idx tv) (Some (Nat.min lv l)) (k_on tv)).

(** graph.pyx 102-106 *)
Definition c_bad_actions (rnd : nat -> Z) (nd : cnode) (treap : addr) (rc : nat) : M (addr * nat) :=
  foldH (fun st j => let '(bad, rc) := st in
           let! x := get_sap (c_succs nd) j in
           let! b := c_in_treap treap (sap_state x) in
           if b : bool then ret (bad, rc)
           else let! bad := c_add bad (sap_action x) (rnd rc) in ret (bad, S rc))
        (seq 0 (c_sn nd)) (null, rc).

(** graph.pyx 108-120, one iteration. *)
Definition c_visit (rec : nat -> addr -> nat -> nat -> nat -> M (nat * nat * addr * nat)) (nd : cnode) (bad tnodes : addr)
    (v : nat) (st : nat * nat * addr * nat) (j : nat) : M (nat * nat * addr * nat) :=
  let '(i, cnt, stk, rc) := st in
  let! x := get_sap (c_succs nd) j in
  let w := sap_state x in
  let! b := c_in_treap bad (sap_action x) in
  if b : bool then ret st
  else
    let! tw := get_tj tnodes w in
    let! iw := field (k_idx tw) in
    match iw with
    | None =>
        let! st := rec w stk i cnt rc in
        let! tw := get_tj tnodes w in
        let! lw := field (k_low tw) in
        let! _ := c_lower tnodes v lw in
        ret st
    | Some iw =>
        let! on := field (k_on tw) in
        if on : bool then let! _ := c_lower tnodes v iw in ret st else ret st
    end.

(** graph.pyx 89-132; returns i, scc_counter and stack, and the number of
    calls of rand(). *)
Fixpoint c_strongconnect (fuel : nat) (rnd : nat -> Z) (nodes tnodes sccs treap : addr)
    (v : nat) (stk : addr) (i cnt rc : nat) : M (nat * nat * addr * nat) :=
  match fuel with
  | O => nofuel
  | S f =>
      let! _ := set_tj tnodes v (MkT (Some (Some i)) (Some i) (Some true)) in
      let! stk := c_push stk v in
      let! nd := get_node nodes v in
      let! (bad, rc) := c_bad_actions rnd nd treap rc in
      let! (i, cnt, stk, rc) := foldH (c_visit (c_strongconnect f rnd nodes tnodes sccs treap) nd bad tnodes v)
                                      (seq 0 (c_sn nd)) (S i, cnt, stk, rc) in
      let! tv := get_tj tnodes v in
      let! lv := field (k_low tv) in
      let! iv := field (k_idx tv) in
      let! (stk, cnt) :=
        (if match iv with Some x => lv =? x | None => false end
         then let! stk := fueled (fun f => c_pop_until f v cnt stk tnodes sccs) in ret (stk, S cnt)
         else ret (stk, cnt)) in
      let! _ := c_free_treap bad in
      ret (i, cnt, stk, rc)
  end.

(** graph.pyx 136-174 *)
Definition c_scc (rnd : nat -> Z) (g : cgraph) (treap sccs : addr) (rc : nat) : M (nat * nat) :=
  let N := cg_count g in
  let! (_, _, n, _, _) := tnode treap in
  let! arr := malloc (BInts (repeat None n)) in
  let! _ := c_treap_to_arr treap arr in
  let! _ := loop N (fun j => set_int sccs j 0) in
  let! tnodes := malloc (BTarjans (repeat (MkT None None None) N)) in
  let! _ := loop N (fun j => let! t := get_tj tnodes j in set_tj tnodes j (MkT (Some None) (k_low t) (k_on t))) in
  let! (_, cnt, stk, rc) := foldH (fun st j => let '(i, cnt, stk, rc) := st in
      let! u := get_int arr j in
      let! t := get_tj tnodes u in
      let! iu := field (k_idx t) in
      match iu with
      | None => c_strongconnect (S N) rnd (cg_nodes g) tnodes sccs treap u stk i cnt rc
      | Some _ => ret st
      end) (seq 0 n) (0, 1, null, rc) in
  let! _ := free tnodes in
  let! _ := free arr in
  let! _ := c_free_stack stk in
  ret (cnt - 1, rc).

(** State of the loop 207-255: treap_stack, ret, mec_counter,
    singleton_mecs_treap, subg_arr, number of rand() calls. *)
Record cmec := MkCM { cm_stk : addr; cm_ret : list nat; cm_cnt : nat; cm_single : addr; cm_arr : addr; cm_rc : nat }.

(** An assignment to an element of a numpy array. *)
Definition np_set {A} (l : list A) (i : nat) (x : A) : M (list A) := if i <? length l then ret (upd l i x) else raise IndexError.
Definition np_get {A} (l : list A) (i : nat) : M A := match nth_error l i with Some x => ret x | None => raise IndexError end.

(** graph.pyx 208-255 *)
Definition c_mec_step (rnd : nat -> Z) (g : cgraph) (sccs : addr) (s : cmec) : M cmec :=
  let! (stk, t) := c_ts_pop (cm_stk s) in
  let! (_, _, n, _, _) := tnode t in
  let! arr := malloc (BInts (repeat None n)) in
  let! _ := c_treap_to_arr t arr in
  let! (compcount, rc) := c_scc rnd g t sccs (cm_rc s) in
  if compcount =? 1 then
    let! r := foldH (fun r j => let! u := get_int arr j in np_set r u (cm_cnt s)) (seq 0 n) (cm_ret s) in
    let! (single, rc) := (if n =? 1 then let! q := c_add (cm_single s) (cm_cnt s) (rnd rc) in ret (q, S rc)
                          else ret (cm_single s, rc)) in
    let! _ := c_free_treap t in
    ret (MkCM stk r (S (cm_cnt s)) single arr rc)
  else
    let! news := malloc (BPtrs (repeat None compcount)) in
    let! _ := loop compcount (fun j => set_ptr news j null) in
    let! rc := foldH (fun rc j =>
        let! u := get_int arr j in
        let! c := get_int sccs u in
        if c =? 0 then ub Bounds
        else
          let! q := get_ptr news (c - 1) in
          let! u := get_int arr j in
          let! q := c_add q u (rnd rc) in
          let! _ := set_ptr news (c - 1) q in
          ret (S rc)) (seq 0 n) rc in
    let! stk := foldH (fun stk j => let! q := get_ptr news j in c_ts_push stk q) (seq 0 compcount) stk in
    let! _ := c_free_treap t in
    let! _ := free news in
    ret (MkCM stk (cm_ret s) (cm_cnt s) (cm_single s) arr rc).

(** graph.pyx 207 *)
Fixpoint c_mec_loop (fuel : nat) (rnd : nat -> Z) (g : cgraph) (sccs : addr) (s : cmec) : M cmec :=
  match fuel with
  | O => nofuel
  | S f => if cm_stk s =? null then ret s
           else let! s := c_mec_step rnd g sccs s in c_mec_loop f rnd g sccs s
  end.

(** graph.pyx 270-292 *)
Definition c_proper_step (rnd : nat -> Z) (g : cgraph) (r : list nat) (single : addr) (st : list bool * nat) (i : nat)
  : M (list bool * nat) :=
  let '(proper, rc) := st in
  let! c := np_get r i in
  let! b := c_in_treap single c in
  if negb b then let! proper := np_set proper c true in ret (proper, rc)
  else
    let! nd := get_node (cg_nodes g) i in
    let! (all, non, rc) := foldH (fun st j => let '(all, non, rc) := st in
        let! x := get_sap (c_succs nd) j in
        let! all := c_add all (sap_action x) (rnd rc) in
        if sap_state x =? i then ret (all, non, S rc)
        else let! non := c_add non (sap_action x) (rnd (S rc)) in ret (all, non, S (S rc)))
      (seq 0 (c_sn nd)) (null, null, rc) in
    let! proper :=
      (if non =? null then np_set proper c true
       else
         let! (_, _, n1, _, _) := tnode non in
         let! (_, _, n2, _, _) := tnode all in
         if negb (n1 =? n2) then np_set proper c true else ret proper) in
    let! _ := c_free_treap non in
    let! _ := c_free_treap all in
    ret (proper, rc).

(** graph.pyx 180-296: (components, proper flags, number of components). *)
Definition c_mec_fuel (fuel : nat) (rnd : nat -> Z) (g : cgraph) : M (list nat * list bool * nat) :=
  let N := cg_count g in
  let! sccs := malloc (BInts (repeat None N)) in
  let! (t, rc) := foldH (fun st i => let '(t, rc) := st in let! t := c_add t i (rnd rc) in ret (t, S rc)) (seq 0 N) (null, 0) in
  let! stk := c_ts_push null t in
  let! s := c_mec_loop fuel rnd g sccs (MkCM stk (repeat 0 N) 0 null null rc) in
  let! _ := free (cm_arr s) in
  let! _ := c_free_tstack (cm_stk s) in
  let! _ := free sccs in
  let! (proper, _) := foldH (c_proper_step rnd g (cm_ret s) (cm_single s)) (seq 0 N) (repeat false (cm_cnt s), cm_rc s) in
  let! _ := c_free_treap (cm_single s) in
  ret (cm_ret s, proper, cm_cnt s).

Definition c_mec (rnd : nat -> Z) (g : cgraph) : M (list nat * list bool * nat) := c_mec_fuel (2 * cg_count g + 1) rnd g.

(** graph.pyx 330-350: the main loop. *)
Fixpoint c_reach_loop (fuel : nat) (g : cgraph) (forward : bool) (mask instack block stk : addr) : M addr :=
  match fuel with
  | O => nofuel
  | S f =>
      if stk =? null then ret stk
      else
        let! (stk, c) := c_pop stk in
        let! nd := get_node (cg_nodes g) c in
        let! _ := set_int instack c 0 in
        let! _ := set_int mask c 1 in
        let! b := get_int block c in
        let! stk :=
          (if negb (b =? 0) then ret stk
           else
             foldH (fun stk j =>
                      let! x := get_sap (if forward then c_succs nd else c_preds nd) j in
                      let n := sap_state x in
                      let! r := get_int mask n in
                      if negb (r =? 0) then ret stk
                      else
                        let! s := get_int instack n in
                        if negb (s =? 0) then ret stk
                        else let! _ := set_int instack n 1 in c_push stk n)
                   (seq 0 (if forward then c_sn nd else c_pn nd)) stk) in
        c_reach_loop f g forward mask instack block stk
  end.

(** graph.pyx 298-360 *)
Definition c_reachable_fuel (fuel : nat) (g : cgraph) (fromset : list nat) (dir : direction) (blocklist : list nat) : M (list nat) :=
  let N := cg_count g in
  let! _ := (if 0 <? length fromset then ret tt else raise AssertionError) in
  let! _ := (match dir with OtherDirection => raise AssertionError | _ => ret tt end) in
  let! mask := malloc (BInts (repeat None N)) in
  let! instack := malloc (BInts (repeat None N)) in
  let! block := malloc (BInts (repeat None N)) in
  let! _ := loop N (fun i => let! _ := set_int mask i 0 in let! _ := set_int instack i 0 in set_int block i 0) in
  let! stk := foldH (fun stk i => let! _ := set_int instack i 1 in c_push stk i) fromset null in
  let! _ := foldH (fun _ i => set_int block i 1) blocklist tt in
  let! stk := c_reach_loop fuel g (match dir with Forward => true | _ => false end) mask instack block stk in
  let! r := foldH (fun r i => let! x := get_int mask i in ret (r ++ [x])) (seq 0 N) [] in
  let! _ := free block in
  let! _ := free mask in
  let! _ := free instack in
  let! _ := c_free_stack stk in
  ret r.

Definition c_reachable (g : cgraph) (fromset : list nat) (dir : direction) (blocklist : list nat) : M (list nat) :=
  c_reachable_fuel (S (cg_count g + length fromset)) g fromset dir blocklist.
