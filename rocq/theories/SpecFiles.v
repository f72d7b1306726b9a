(** Specification: what it means that a system was saved and loaded. *)
From Coq Require Import String List Arith ZArith QArith Qabs Bool Ascii.
From Verif Require Import Base Matrix InvDict SpecSystem SpecBuilt Amdp.
Import ListNotations.
Local Open Scope nat_scope.

(** The label names known to a system, also those no state carries. *)
Definition label_names (m : amdp) : list string := dkeys (fwd (a_slab m)).

(** Names without quotes and line ends. *)
Definition plain (l : string) : Prop :=
  forall c, In c (list_ascii_of_string l) -> c <> """"%char /\ c <> "010"%char /\ c <> "013"%char.

(** All probabilities have at most six decimals. *)
Definition six_decimals (m : amdp) : Prop := forall i d, exists k : Z, (mget (a_P m) i d == k # 1000000)%Q.

(** [m'] has the states, state-action pairs and state labels of [m], and its
    probabilities are related to those of [m] by [R]. *)
Definition same_up_to (R : Q -> Q -> Prop) (m m' : amdp) : Prop :=
  a_kind m' = a_kind m /\ a_N m' = a_N m /\ a_C m' = a_C m /\
  (forall s a, (exists i, i < a_C m /\ a_inv m i = Some (s, a)) <-> (exists i, i < a_C m' /\ a_inv m' i = Some (s, a))) /\
  (forall s a i i', i < a_C m -> i' < a_C m' -> a_inv m i = Some (s, a) -> a_inv m' i' = Some (s, a) ->
     forall d, R (mget (a_P m) i d) (mget (a_P m') i' d)) /\
  (forall l s, has_label m' l s <-> has_label m l s).

Definition same_system : amdp -> amdp -> Prop := same_up_to Qeq.

(** Six decimals, at most half a unit of the last place away. *)
Definition rounded (p q : Q) : Prop := (exists k : Z, (q == k # 1000000)%Q) /\ (Qabs (p - q) <= 1 # 2000000)%Q.
