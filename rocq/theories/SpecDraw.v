(** Specification: which drawing shows a system. *)
From Coq Require Import String List Arith NArith QArith Bool Ascii.
From Verif Require Import Base Num Matrix Amdp ReachForm SpecPrism SpecForm Draw.
Import ListNotations.
Local Open Scope string_scope.
Local Open Scope nat_scope.

(** Action [a] in state [s] leads to [d] with probability [p]. *)
Definition transition (m : amdp) (s a d : nat) (p : Q) : Prop :=
  exists i, a_inv m i = Some (s, a) /\ In ((i, d), p) (mitems (a_P m)).
Definition enabled (m : amdp) (s a : nat) : Prop := exists d p, transition m s a d p.
(** The state has an action, or some action leads to it. *)
Definition touched (m : amdp) (s : nat) : Prop := (exists a, enabled m s a) \/ exists s' a p, transition m s' a s p.

(** What is drawn as a node. *)
Inductive thing := TState (s : nat) | TPair (s a : nat).

(** States are called by their number, pairs by state and action; different
    things have different names. *)
Definition naming (name : thing -> list ascii) : Prop :=
  (forall x y, name x = name y -> x = y) /\
  (forall s, decimal (name (TState s)) (N.of_nat s)) /\
  (forall s a, name (TPair s a) = (name (TState s) ++ "-"%char :: name (TState a))%list).

Definition nodes (dg : list stmt) : list (list ascii) := flat_map (fun x => match x with NodeS t _ => [t] | _ => [] end) dg.
Definition ends (dg : list stmt) : list (list ascii * list ascii) := flat_map (fun x => match x with EdgeS t h _ => [(t, h)] | _ => [] end) dg.

(** [node s at]: state [s] is to be drawn with attributes [at], and so on.
    One node for every state and every pair, one edge from every state to each
    of its pairs and one for every transition; nothing else, nothing twice. *)
Record shows_mdp (m : amdp) (name : thing -> list ascii) (node : nat -> attrs -> Prop) (pnode pedge : nat -> nat -> attrs -> Prop)
    (tedge : nat -> nat -> nat -> Q -> attrs -> Prop) (dg : list stmt) : Prop := {
  sm_nodes : forall t at_, In (NodeS t at_) dg <->
    (exists s, touched m s /\ t = name (TState s) /\ node s at_) \/ (exists s a, enabled m s a /\ t = name (TPair s a) /\ pnode s a at_);
  sm_node_once : NoDup (nodes dg);
  sm_state : forall s, touched m s -> In (name (TState s)) (nodes dg);
  sm_pair : forall s a, enabled m s a -> In (name (TPair s a)) (nodes dg);
  sm_edges : forall t h at_, In (EdgeS t h at_) dg <->
    (exists s a, enabled m s a /\ t = name (TState s) /\ h = name (TPair s a) /\ pedge s a at_) \/
    (exists s a d p, transition m s a d p /\ t = name (TPair s a) /\ h = name (TState d) /\ tedge s a d p at_);
  sm_edge_once : NoDup (ends dg);
  sm_choice : forall s a, enabled m s a -> In (name (TState s), name (TPair s a)) (ends dg);
  sm_trans : forall s a d p, transition m s a d p -> In (name (TPair s a), name (TState d)) (ends dg) }.

(** Markov chains: one node for every state, one edge for every transition. *)
Record shows_dtmc (m : amdp) (name : thing -> list ascii) (node : nat -> attrs -> Prop)
    (tedge : nat -> nat -> Q -> attrs -> Prop) (dg : list stmt) : Prop := {
  sd_nodes : forall t at_, In (NodeS t at_) dg <-> exists s, touched m s /\ t = name (TState s) /\ node s at_;
  sd_node_once : NoDup (nodes dg);
  sd_state : forall s, touched m s -> In (name (TState s)) (nodes dg);
  sd_edges : forall t h at_, In (EdgeS t h at_) dg <->
    exists s a d p, transition m s a d p /\ t = name (TState s) /\ h = name (TState d) /\ tedge s d p at_;
  sd_edge_once : NoDup (ends dg);
  sd_trans : forall s a d p, transition m s a d p -> In (name (TState s), name (TState d)) (ends dg) }.

(** Every state has an action. *)
Definition all_touched (m : amdp) : Prop := forall s, s < a_N m -> touched m s.

(** Styles that never raise. *)
Definition total_config (k : kind) (v : vconfig) : Prop :=
  match k, v with
  | KMdp, VMdp sm tm am =>
      (forall s l, exists at_, sm s l = Ok at_) /\ (forall s a d p, exists at_, tm s a d p = Ok at_) /\
      (forall s a l, exists aa na ea, am s a l = Ok aa /\ dget String.eqb aa "node" = Some na /\ dget String.eqb aa "edge" = Some ea)
  | KDtmc, VDtmc sm tm => (forall s l, exists at_, sm s l = Ok at_) /\ (forall s d p, exists at_, tm s d p = Ok at_)
  | _, _ => False
  end.

(** Reduced forms: copies of states and pairs look like the originals, target
    and fail have styles of their own; a transition looks like the original
    one unless it leads to target or fail.  [cols], [rows] are the returned
    maps from the old to the new states and pairs, [N] is the number of new
    states. *)
Section Copies.
  Context (m : amdp) (cols : dict nat nat) (rows : dict (nat * nat) (nat * nat)) (v vt vf : vconfig).
  Let N := a_N m.

  Definition copy_node (s' : nat) (at_ : attrs) : Prop :=
    (exists s, In (s, s') cols /\ v_state v s (labels_by_state m s') = Ok at_) \/
    (s' = N - 2 /\ v_state vt s' (labels_by_state m s') = Ok at_) \/ (s' = N - 1 /\ v_state vf s' (labels_by_state m s') = Ok at_).
  Definition copy_pair (what : string) (s' a' : nat) (at_ : attrs) : Prop :=
    exists aa, dget String.eqb aa what = Some at_ /\
      ((exists s a, In ((s, a), (s', a')) rows /\ v_action v s a (labels_by_action m (s', a')) = Ok aa) \/
       (s' = N - 2 /\ v_action vt s' a' (labels_by_action m (s', a')) = Ok aa) \/ (s' = N - 1 /\ v_action vf s' a' (labels_by_action m (s', a')) = Ok aa)).
  Definition copy_trans (s' a' d' : nat) (p : Q) (at_ : attrs) : Prop :=
    (exists s a d, In ((s, a), (s', a')) rows /\ In (d, d') cols /\ v_trans v s a d p = Ok at_) \/
    (d' = N - 2 /\ v_trans vt s' a' d' p = Ok at_) \/ (d' = N - 1 /\ v_trans vf s' a' d' p = Ok at_).
  Definition copy_chain (s' d' : nat) (p : Q) (at_ : attrs) : Prop :=
    (exists s d, In (s, s') cols /\ In (d, d') cols /\ v_chain v s d p = Ok at_) \/
    (d' = N - 2 /\ v_chain vt s' d' p = Ok at_) \/ (d' = N - 1 /\ v_chain vf s' d' p = Ok at_).
End Copies.

(** Subsystems: removed states are grey and unlabelled; the others look as in
    the supersystem, with the weight [c] of their entry [i] below the label. *)
Definition text_of (s : string) : list ascii := list_ascii_of_string s.
Definition weighted (name : thing -> list ascii) (fmt : Q -> list ascii) (label : list ascii) (i : nat) (c : Q) : list ascii :=
  ((match label with [] => [] | _ => label ++ ["010"%char] end) ++ text_of "c[" ++ name (TState i) ++ text_of "]=" ++ fmt c)%list.

Section SubLook.
  Context (m : amdp) (v : vconfig) (name : thing -> list ascii) (fmt : Q -> list ascii) (keep : nat -> bool).
  (** [sweight s i c]: state [s] is to show entry [i], which is [c]. *)
  Context (sweight : nat -> nat -> Q -> Prop) (pweight : nat -> nat -> nat -> Q -> Prop).
  Let N := a_N m.

  Definition look_node (s : nat) (at_ : attrs) : Prop :=
    exists base, v_state v s (labels_by_state m s) = Ok base /\
    if (s <? N - 2) && negb (keep s) then at_ = [("label", []); ("color", text_of "azure3"); ("style", text_of "filled")]
    else (forall k, k <> "label" -> dget String.eqb at_ k = dget String.eqb base k) /\
         ((exists i c l, s < N - 2 /\ sweight s i c /\ dget String.eqb base "label" = Some l /\ dget String.eqb at_ "label" = Some (weighted name fmt l i c)) \/
          ((N - 2 <= s \/ forall i c, ~ sweight s i c) /\ dget String.eqb at_ "label" = dget String.eqb base "label")).

  Definition look_pair (s a : nat) (at_ : attrs) : Prop :=
    exists aa base, v_action v s a (labels_by_action m (s, a)) = Ok aa /\ dget String.eqb aa "node" = Some base /\
      let l := match dget String.eqb base "label" with Some l => l | None => [] end in
      (forall k, k <> "label" -> k <> "shape" -> dget String.eqb at_ k = dget String.eqb base k) /\
      ((exists i c, s < N - 2 /\ keep s = true /\ pweight s a i c /\ dget String.eqb at_ "label" = Some (weighted name fmt l i c) /\ dget String.eqb at_ "shape" = Some (text_of "rectangle")) \/
       ((N - 2 <= s \/ keep s = false \/ forall i c, ~ pweight s a i c) /\ dget String.eqb at_ "label" = Some l /\ dget String.eqb at_ "shape" = dget String.eqb base "shape")).
End SubLook.

(** Dictionaries of python have no key twice. *)
Definition real_dicts (v : vconfig) : Prop :=
  forall s a l aa, v_action v s a l = Ok aa -> NoDup (map fst aa) /\ forall k b, dget String.eqb aa k = Some b -> NoDup (map fst b).

(** Styles have a label. *)
Definition labels_states (v : vconfig) : Prop := forall s l at_, v_state v s l = Ok at_ -> exists t, dget String.eqb at_ "label" = Some t.

(** The entries to be shown: at states if the certificate has an entry for
    every state, or there is one action per state; at pairs if it has an entry
    for every pair. *)
Definition state_weight (m : amdp) (form : mode) (cert : list Q) (s i : nat) (c : Q) : Prop :=
  nth_error cert i = Some c /\
  match form, a_kind m with
  | Min, _ => i = s
  | Max, KDtmc => a_inv m i = Some (s, 0)
  | _, _ => False
  end.
Definition pair_weight (m : amdp) (form : mode) (cert : list Q) (s a i : nat) (c : Q) : Prop :=
  nth_error cert i = Some c /\ form = Max /\ a_inv m i = Some (s, a).
