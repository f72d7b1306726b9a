(** Model of reading systems from storm: from_stormpy of switss/model/amdp.py
    242-254, from_stormpy_model and choice_model_from_stormpy of
    switss/model/mdp.py 185-279, from_stormpy_model of switss/model/dtmc.py
    143-160.

    A sparse storm model is the list of its states; a state has labels and
    actions, an action has labels and transitions (destination and
    probability).  As in storm, [state.id] is the position of the state,
    [action.id] the position of the action among those of its state, and
    [get_choice_index] numbers all actions in that order; [nr_states] and
    [nr_choices] are the numbers of states and actions.  Models without a choice
    labelling are models all of whose actions have no labels (storm itself
    decides what [choice_labeling] is then). *)
From Coq Require Import String List Arith ZArith QArith Bool.
From Verif Require Import Base Num Matrix InvDict Amdp.
Import ListNotations.
Local Open Scope nat_scope.

Record storm_action := MkAction { ac_labels : list string; ac_trans : list (nat * Q) }.
Record storm_state := MkState { st_labels : list string; st_actions : list storm_action }.
Definition storm := list storm_state.

Definition numbered {A : Type} (l : list A) : list (nat * A) := combine (seq 0 (List.length l)) l.
Definition nr_states (sm : storm) : nat := List.length sm.
Definition nr_choices (sm : storm) : nat := List.length (flat_map st_actions sm).

(** The local variables P, index_by_state_action, label_to_actions,
    label_to_states and max_index. *)
Record conv := MkConv { c_P : mat; c_idx : dict (nat * nat) nat; c_al : dict string (list (nat * nat)); c_sl : dict string (list nat); c_max : nat }.
(** [d[l].add(x)] for every [l], where [d] is a [defaultdict(set)]. *)
Definition add_state_labels (d : dict string (list nat)) (ls : list string) (s : nat) : dict string (list nat) :=
  fold_left (fun d l => side_add String.eqb Nat.eqb d l s) ls d.
Definition add_action_labels (d : dict string (list (nat * nat))) (ls : list string) (sa : nat * nat) : dict string (list (nat * nat)) :=
  fold_left (fun d l => side_add String.eqb pair_eqb d l sa) ls d.
(** [for transition in action.transitions: P[i,transition.column] = transition.value()] *)
Definition set_row (P : mat) (i : nat) (ts : list (nat * Q)) : res mat := foldM (fun P t => mset P i (fst t) (snd t)) ts P.

(** mdp.py 210-225 *)
Definition conv_action (sid : nat) (st : conv) (e : nat * storm_action) : res conv :=
  let (aid, ac) := e in
  let* (i, idx, mx) := match dget pair_eqb (c_idx st) (sid, aid) with
                       | Some i => Ok (i, c_idx st, c_max st)
                       | None => let* idx := bput pair_eqb Nat.eqb (c_idx st) (sid, aid) (c_max st) in Ok (c_max st, idx, S (c_max st))
                       end in
  let al := add_action_labels (c_al st) (ac_labels ac) (sid, aid) in
  let* P := set_row (c_P st) i (ac_trans ac) in
  Ok (MkConv P idx al (c_sl st) mx).
(** mdp.py 203-225 *)
Definition conv_state (st : conv) (e : nat * storm_state) : res conv :=
  let (sid, s) := e in
  foldM (conv_action sid) (numbered (st_actions s)) (MkConv (c_P st) (c_idx st) (c_al st) (add_state_labels (c_sl st) (st_labels s) sid) (c_max st)).
(** mdp.py 191-227 *)
Definition conv_mdp (sm : storm) : res conv :=
  foldM conv_state (numbered sm) (MkConv (mzero (nr_choices sm) (nr_states sm)) [] [] [] 0).

(** mdp.py 258-277; [N] and [C] are the numbers of states and choices. *)
Definition choice_action (N C sid : nat) (st : conv) (e : nat * storm_action) : res conv :=
  let (aid, ac) := e in
  let* (i, idx, mx) := match dget pair_eqb (c_idx st) (sid, aid) with
                       | Some i => Ok (i, c_idx st, c_max st)
                       | None => let* idx := bput pair_eqb Nat.eqb (c_idx st) (sid, aid) (c_max st) in
                                 let* idx := bput pair_eqb Nat.eqb idx (N + c_max st, C + c_max st) (C + c_max st) in
                                 Ok (c_max st, idx, S (c_max st))
                       end in
  let sl := add_state_labels (c_sl st) (ac_labels ac) (N + mx) in
  let sl := add_state_labels sl ["choice"%string] (N + mx) in
  let* P := set_row (c_P st) (C + i) (ac_trans ac) in
  let* P := mset P i (N + i) 1 in
  Ok (MkConv P idx (c_al st) sl mx).
(** mdp.py 250-277 *)
Definition choice_state (N C : nat) (st : conv) (e : nat * storm_state) : res conv :=
  let (sid, s) := e in
  let sl := add_state_labels (c_sl st) ["state"%string] sid in
  foldM (choice_action N C sid) (numbered (st_actions s)) (MkConv (c_P st) (c_idx st) (c_al st) (add_state_labels sl (st_labels s) sid) (c_max st)).
(** mdp.py 238-279 *)
Definition conv_choice (sm : storm) : res conv :=
  let N := nr_states sm in
  let C := nr_choices sm in
  foldM (choice_state N C) (numbered sm) (MkConv (mzero (C + C) (N + C)) [] [] [] 0).

(** dtmc.py 145-160 *)
Definition conv_dtmc (sm : storm) : res mat :=
  foldM (fun P (e : nat * storm_state) => foldM (fun P ac => set_row P (fst e) (ac_trans ac)) (st_actions (snd e)) P) (numbered sm) (mzero (nr_states sm) (nr_states sm)).

(** amdp.py 253: [cls.from_stormpy_model(stormpy_model,choice_model)].  The
    method of DTMC takes one argument beside the class, so the call with two
    raises TypeError.  amdp.py 254: [cls( ** res)]. *)
Definition from_stormpy (k : kind) (sm : storm) (choice_model : bool) : res amdp :=
  match k with
  | KMdp => let* st := (if choice_model then conv_choice sm else conv_mdp sm) in mk_mdp (c_P st) (c_idx st) (c_al st) (c_sl st) None
  | KDtmc => Err TypeError
  end.
(** [DTMC( ** DTMC.from_stormpy_model(sm))], which a caller may write instead. *)
Definition dtmc_of_storm (sm : storm) : res amdp := let* P := conv_dtmc sm in mk_dtmc P None [] None.
