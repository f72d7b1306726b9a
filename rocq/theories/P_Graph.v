(** Properties C05, C06: neighbour queries and reachability. *)
From Coq Require Import List Arith ZArith QArith Bool.
From Verif Require Import Base Num Matrix Graph GraphSpec GraphProofs.
Import ListNotations.
Local Open Scope nat_scope.

(** C05: neighbour queries report every stored entry once, filtered by
    action; probabilities are rounded to single precision ([f32]). *)
Theorem C05_neighbours_mirror_matrix : forall P inv g, mk_graph P inv = Ok g -> forall s, s < mcols P -> forall act,
  let keep := filter (fun x : nat * nat * Q => match act with None => true | Some a => snd (fst x) =? a end) in
  successors g s act = Ok (map (fun x => (fst x, f32 (snd x))) (keep (out_triples P inv s))) /\
  predecessors g s act = Ok (map (fun x => (fst x, f32 (snd x))) (keep (in_triples P inv s))).
Proof. exact C05_lemma. Qed.
Print Assumptions C05_neighbours_mirror_matrix.

(** The graph is built exactly if every stored entry has an indexed row and
    both ends are states. *)
Theorem C05_graph_builds : forall P inv,
  (exists g, mk_graph P inv = Ok g) <->
  (forall i d p, In ((i, d), p) (mitems P) -> d < mcols P /\ exists s a, inv i = Some (s, a) /\ s < mcols P).
Proof. exact C05_builds_lemma. Qed.
Print Assumptions C05_graph_builds.

(** A system with three states and two actions in state 0. *)
Definition exP : mat := mat_of_rows 3 [[0; 1#3; 2#3]; [1#2; 1#2; 0]; [0; 1; 0]; [0; 0; 1]]%Q.
Definition exInv (i : nat) : option (nat * nat) :=
  nth_error [(0, 0); (0, 1); (1, 0); (2, 0)] i.

Example C05_nonvacuous : exists g, mk_graph exP exInv = Ok g /\
  successors g 0 (Some 1) = Ok [(0, 1, (1#2)%Q); (1, 1, (1#2)%Q)] /\
  predecessors g 1 None = Ok [(0, 0, (11184811#33554432)%Q); (0, 1, (1#2)%Q); (1, 0, 1%Q)].
Proof. eexists. split; [vm_compute; reflexivity|]. vm_compute. auto. Qed.

(** C06: the mask is exact, in both directions. *)
Theorem C06_reachable_exact : forall P inv g fromset dir blocklist, mk_graph P inv = Ok g ->
  fromset <> [] -> dir <> OtherDirection ->
  (forall s, In s fromset -> s < mcols P) -> (forall s, In s blocklist -> s < mcols P) ->
  exists mask, reachable g fromset dir blocklist = Ok mask /\ length mask = mcols P /\
    forall n, nth n mask false = true <->
      reach_avoid (fun s t => match dir with Forward => edge P inv s t | _ => edge P inv t s end)
                  (fun s => In s fromset) (fun s => In s blocklist) n.
Proof. exact C06_lemma. Qed.
Print Assumptions C06_reachable_exact.

(** The search ends: more steps give the same result. *)
Theorem C06_reachable_terminates : forall P inv g fromset dir blocklist fuel, mk_graph P inv = Ok g ->
  fromset <> [] -> dir <> OtherDirection ->
  (forall s, In s fromset -> s < mcols P) -> (forall s, In s blocklist -> s < mcols P) ->
  mcols P + length fromset < fuel ->
  reachable_fuel fuel g fromset dir blocklist = reachable g fromset dir blocklist.
Proof. exact C06_terminates_lemma. Qed.
Print Assumptions C06_reachable_terminates.

Theorem C06_bad_arguments_rejected : forall g dir blocklist fromset,
  fromset = [] \/ dir = OtherDirection -> reachable g fromset dir blocklist = Err AssertionError.
Proof. exact reachable_rejects. Qed.
Print Assumptions C06_bad_arguments_rejected.

Example C06_nonvacuous : exists g, mk_graph exP exInv = Ok g /\
  reachable g [1] Backward [] = Ok [true; true; false] /\
  reachable g [0] Forward [] = Ok [true; true; true] /\
  reachable g [0] Forward [0] = Ok [true; false; false].
Proof. eexists. split; [vm_compute; reflexivity|]. vm_compute. auto. Qed.
