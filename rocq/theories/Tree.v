(** Model of switss/problem/tree_algo.py, of the combination counter of
    switss/utils/tree_decomp.pyx and of switss/utils/graph_utils.py.
    The tree decomposition itself is modelled in TreeDecomp.v; here it is an
    arbitrary function. *)
From Coq Require Import String List Arith ZArith QArith Bool.
From Verif Require Import Base Num Matrix InvDict Graph Amdp ReachForm Milp Subsystem Formulations Problems.
Import ListNotations.
Local Open Scope nat_scope.

Definition is_success (r : presult) : bool := match pr_status r with Success => true | Failed _ => false end.

(** tree_algo.py 49-57: the result of min_witnesses_from_tree_decomp is -1
    after a timeout. *)
Definition tree_final (TW : rform -> Q -> Q -> res Z) (rf : rform) (t u : Q) : gen :=
  match TW rf t u with
  | Err e => MkGen [] (Some e)
  | Ok z => MkGen ((if Z.eqb z (-1) then [failure NotSolved] else []) ++ [MkPRes Success None (Some (inject_Z z)) None]) None
  end.

(** tree_algo.py 25-57.  [kub] is known_upper_bound; [SB], [S] are the solvers
    used by the heuristic; mode and labels are ignored. *)
Definition tree_iter (SB : solver) (S : nat -> solver) (TW : rform -> Q -> Q -> res Z) (kub : option Q)
    (rf : rform) (t : Q) (md : mode) (labels : option (list string)) : gen :=
  match a_kind (rf_sys rf) with
  | KMdp => MkGen [] (Some AssertionError)
  | KDtmc =>
      match kub with
      | Some u => tree_final TW rf t u
      | None =>
          let qs := qs_heur SB S 5 all_ones_init inverse_result in
          match (let* rmax := solve qs rf t Max None in let* rmin := solve qs rf t Min None in Ok (rmax, rmin)) with
          | Err e => MkGen [] (Some e)
          | Ok (rmax, rmin) =>
              let pre := if negb (is_success rmin) || negb (is_success rmax) then [failure Infeasible] else [] in
              match pr_value rmax, pr_value rmin with
              | Some a, Some b =>
                  let u := if Qlt_bool b a then b else a in
                  if Qeq_bool u 0 then MkGen pre (Some AssertionError)
                  else let g := tree_final TW rf t u in MkGen (pre ++ g_items g) (g_exn g)
              | _, _ => MkGen pre (Some TypeError)
              end
          end
      end
  end.

(** tree_decomp.pyx 109-121: the loop starting at position [i]. *)
Fixpoint inc_from (i : nat) (it pps : list nat) : list nat :=
  if nth i it 0 =? nth i pps 0 then
    let it := upd it i 0 in
    match i with O => it | S i' => inc_from i' it pps end
  else upd it i (S (nth i it 0)).
Definition increase_iterator (it pps : list nat) : list nat :=
  match length pps with O => it | S i => inc_from i it pps end.

(** The values of points_iterator in the rounds of the loop of handle_subsys
    (tree_decomp.pyx 510-520, 231-238): it starts with zeros; the number of
    rounds is the product of the numbers of points. *)
Definition rounds (pps : list nat) : nat := fold_left Nat.mul pps 1.
Fixpoint visit (n : nat) (it pps : list nat) : list (list nat) :=
  match n with O => [] | S n' => it :: visit n' (increase_iterator it pps) pps end.
Definition visited (pps : list nat) : list (list nat) := visit (rounds pps) (repeat 0 (length pps)) pps.

(** graph_utils.py 10-16: number of vertices and edges.  A row index that is
    not a vertex is an error of graph_tool. *)
Definition underlying_graph (P : mat) : res (nat * list (nat * nat)) :=
  let* es := mapM (fun e : (nat * nat) * Q => if fst (fst e) <? mcols P then Ok (fst e) else Err ValueError) (mitems P) in
  Ok (mcols P, es).

(** 21-25: vertices outside the partition have label 0. *)
Definition label_parts (n : nat) (partition : list (list nat)) : res (list nat) :=
  foldM (fun l pv => foldM (fun l v => if v <? n then Ok (upd l v (fst pv)) else Err ValueError) (snd pv) l)
    (combine (seq 0 (length partition)) partition) (repeat 0 n).

(** 18-36: edges of the quotient, labeling, interface. *)
Definition quotient (G : nat * list (nat * nat)) (partition : list (list nat)) : res (list (nat * nat) * list nat * list bool) :=
  let* lab := label_parts (fst G) partition in
  let step := fun acc e =>
    let '(qe, itf) := acc in
    let ls := nth (fst e) lab 0 in
    let lt := nth (snd e) lab 0 in
    if ls =? lt then (qe, itf)
    else (if existsb (pair_eqb (ls, lt)) qe then qe else (qe ++ [(ls, lt)])%list, upd itf (snd e) true) in
  let '(qe, itf) := fold_left step (snd G) ([], repeat false (fst G)) in
  Ok (qe, lab, itf).

(** 38-60: [interface]; the name node_map is undefined, so the first entry
    between the sets raises NameError. *)
Definition interface (ns1 ns2 : list nat) (P : mat) : res mat :=
  foldM (fun (acc : mat) (e : (nat * nat) * Q) =>
    if existsb (Nat.eqb (fst (fst e))) ns1 && existsb (Nat.eqb (snd (fst e))) ns2 then Err NameError else Ok acc)
    (mitems P) (mzero (length ns1) (length ns2)).
