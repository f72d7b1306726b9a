(** Specification: what a transition matrix with an index of its rows means. *)
From Coq Require Import List Arith ZArith QArith Qabs Qreals Reals Bool.
From Verif Require Import Base Num Matrix SpecMdp.
Import ListNotations.
Local Open Scope nat_scope.

(** What every [dok_matrix] satisfies: one entry per position, inside the
    shape, no stored zeros. *)
Definition wf_mat (P : mat) : Prop :=
  NoDup (map fst (mitems P)) /\
  forall i d p, In ((i, d), p) (mitems P) -> i < mrows P /\ d < mcols P /\ ~ (p == 0)%Q.

(** Sum of a row. *)
Definition row_total (P : mat) (i : nat) : Q := sumQ (map (mget P i) (seq 0 (mcols P))).

(** Up to nine decimals one. *)
Definition near_one (q : Q) : Prop := (Qabs (q - 1) <= 1 # 2000000000)%Q.

(** Documented conditions on the arguments of a system: [idx] gives the row of
    each state-action pair. *)
Definition valid_system (P : mat) (idx : dict (nat * nat) nat) (rew : option (list Q)) : Prop :=
  NoDup (map snd idx) /\
  (forall i, i < mrows P -> near_one (row_total P i)) /\
  (forall i d p, In ((i, d), p) (mitems P) -> (0 <= p)%Q /\ (p <= 1)%Q) /\
  (forall r, rew = Some r -> forall i, i < mrows P -> exists q, nth_error r i = Some q /\ (0 <= q)%Q) /\
  (forall i d p, In ((i, d), p) (mitems P) -> exists s a, In ((s, a), i) idx /\ s < mcols P).

(** The Markov decision process described by a matrix: rows are state-action
    pairs, [inv i] the pair of row [i]. *)
Definition sys_mdp (P : mat) (inv : nat -> option (nat * nat)) : mdp :=
  MkMdp (mcols P) (mrows P)
        (fun i => match inv i with Some (s, _) => s | None => mcols P end)
        (fun i d => Q2R (mget P i d)).

(** Rows sum to exactly one, and every state has a row: systems to which the
    probabilistic reading applies. *)
Definition proper_system (P : mat) (inv : nat -> option (nat * nat)) : Prop :=
  wf_mat P /\
  (forall i, i < mrows P -> (row_total P i == 1)%Q) /\
  (forall s, s < mcols P -> exists i a, i < mrows P /\ inv i = Some (s, a)).

(** Rows sum to exactly one. *)
Definition exact_rows (P : mat) : Prop := forall i, i < mrows P -> (row_total P i == 1)%Q.
