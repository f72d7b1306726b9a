(** Model of switss/model/amdp.py, mdp.py 11-33 and dtmc.py 10-40: systems.

    The matrix argument is already a [dok_matrix] (cast_dok_matrix, casting.py
    4-18, only changes the representation).  Visualisation attributes are left
    out.  The label dictionaries are values: the sharing of set objects with
    the caller is the subject of AliasDict.v.  Rewards are a list; asking for a
    missing one raises IndexError. *)
From Coq Require Import String List Arith ZArith QArith Bool.
From Verif Require Import Base Num Matrix InvDict Graph Mec.
Import ListNotations.
Local Open Scope nat_scope.

Inductive kind := KMdp | KDtmc.

(** amdp.py 39-58: the attributes of a system.  [C], [N] are the shape of
    [a_P]. *)
Record amdp := MkAmdp {
  a_kind : kind;
  a_P : mat;
  a_idx : dict (nat * nat) nat;
  a_rew : option (list Q);
  a_alab : idict string (nat * nat);
  a_slab : idict string nat;
  a_graph : graph }.

Definition a_C (m : amdp) : nat := mrows (a_P m).
Definition a_N (m : amdp) : nat := mcols (a_P m).

(** index_by_state_action and index_by_state_action.inv; None = KeyError. *)
Definition a_row (m : amdp) (sa : nat * nat) : option nat := dget pair_eqb (a_idx m) sa.
Definition a_inv (m : amdp) (i : nat) : option (nat * nat) := binv Nat.eqb (a_idx m) i.

(** amdp.py 60-81.  The assertion message of the reward check refers to an
    undefined name, so a negative reward raises NameError. *)
Definition check_correctness (P : mat) (rew : option (list Q)) : res unit :=
  let* _ := foldM (fun _ i => assert_ (Qeq_bool (np_round9 (row_sum P i)) 1)) (seq 0 (mrows P)) tt in
  let* _ := foldM (fun _ (e : nat * nat * Q) => assert_ (Qle_bool 0 (snd e) && Qle_bool (snd e) 1)) (mitems P) tt in
  match rew with
  | None => Ok tt
  | Some r => foldM (fun _ i => match nth_error r i with
                                | None => Err IndexError
                                | Some q => if Qle_bool 0 q then Ok tt else Err NameError
                                end) (seq 0 (mrows P)) tt
  end.

(** amdp.py 20-58. *)
Definition mk_abstract (k : kind) (P : mat) (idx : dict (nat * nat) nat)
    (alab : idict string (nat * nat)) (slab : idict string nat) (rew : option (list Q)) : res amdp :=
  let* b := mk_bidict pair_eqb Nat.eqb idx in
  let* _ := check_correctness P rew in
  let* g := mk_graph P (binv Nat.eqb b) in
  Ok (MkAmdp k P b rew alab slab g).

(** mdp.py 11-33. *)
Definition mk_mdp (P : mat) (idx : dict (nat * nat) nat) (alab : dict string (list (nat * nat)))
    (slab : dict string (list nat)) (rew : option (list Q)) : res amdp :=
  mk_abstract KMdp P idx (mk_idict alab true) (mk_idict slab true) rew.

(** dtmc.py 10-40; other keyword arguments (label_to_actions) are ignored. *)
Definition mk_dtmc (P : mat) (idx : option (dict (nat * nat) nat)) (slab : dict string (list nat))
    (rew : option (list Q)) : res amdp :=
  let* _ := assert_ (mrows P =? mcols P) in
  let* idx' := match idx with
               | None => Ok (map (fun i => ((i, 0), i)) (seq 0 (mrows P)))
               | Some d => let* _ := foldM (fun _ k => assert_ (snd k =? 0)) (dkeys d) tt in Ok d
               end in
  mk_abstract KDtmc P idx' (mk_idict [] true) (mk_idict slab true) rew.

(** [type(system)(P=.., index_by_state_action=.., label_to_states=..,
    label_to_actions=.., reward_vector=..)] as used by
    reachability_form.py 426 and subsystem.py 157. *)
Definition mk_kind (k : kind) (P : mat) (idx : dict (nat * nat) nat) (alab : dict string (list (nat * nat)))
    (slab : dict string (list nat)) (rew : option (list Q)) : res amdp :=
  match k with KMdp => mk_mdp P idx alab slab rew | KDtmc => mk_dtmc P (Some idx) slab rew end.

(** amdp.py 84-117: label queries ([get] of a default dictionary never
    raises). *)
Definition states_by_label (m : amdp) (l : string) : list nat :=
  match dget String.eqb (fwd (a_slab m)) l with Some s => s | None => [] end.
Definition labels_by_state (m : amdp) (s : nat) : list string :=
  match inv_get String.eqb Nat.eqb (a_slab m) s with Ok l => l | Err _ => [] end.
Definition actions_by_label (m : amdp) (l : string) : list (nat * nat) :=
  match dget String.eqb (fwd (a_alab m)) l with Some s => s | None => [] end.
Definition labels_by_action (m : amdp) (sa : nat * nat) : list string :=
  match inv_get String.eqb pair_eqb (a_alab m) sa with Ok l => l | Err _ => [] end.

(** amdp.py 120-131: a non-default InvertibleDict. *)
Definition actions_by_state (m : amdp) : res (idict nat nat) :=
  foldM (fun d i => let* (s, a) := of_opt KeyError (a_inv m i) in Ok (add Nat.eqb Nat.eqb d s a))
        (seq 0 (a_C m)) (mk_idict [] false).

(** amdp.py 133-141. *)
Definition add_label (m : amdp) (s : nat) (l : string) : amdp :=
  MkAmdp (a_kind m) (a_P m) (a_idx m) (a_rew m) (a_alab m) (InvDict.add String.eqb Nat.eqb (a_slab m) l s) (a_graph m).

(** [system.labels_by_state.add(s, l)] for a user of the library (for instance
    bin/switss 149-151): amdp.py 92-97, the inverse of the state labels. *)
Definition add_label_inv (m : amdp) (s : nat) (l : string) : amdp :=
  MkAmdp (a_kind m) (a_P m) (a_idx m) (a_rew m) (a_alab m) (inv_add String.eqb Nat.eqb (a_slab m) s l) (a_graph m).

(** amdp.py 144-157 *)
Definition reachable_mask (m : amdp) (from : list nat) (dir : direction) (block : list nat) : res (list bool) :=
  reachable (a_graph m) from dir block.

(** amdp.py 193-199 *)
Definition a_mecs (m : amdp) (rnd : nat -> Z) : res (list nat * list bool * nat) :=
  maximal_end_components (a_graph m) rnd.
