(** Specification: Markov decision processes over the reals, schedulers and
    reachability probabilities.  Independent of the model of the code. *)
From Coq Require Import List Arith Reals.
Import ListNotations.
Local Open Scope R_scope.

Fixpoint sumn (n : nat) (f : nat -> R) : R :=
  match n with O => 0 | S m => sumn m f + f m end.

(** States are [0 .. nS-1].  State-action pairs ("rows") are [0 .. nA-1], row
    [r] belongs to state [src r] and leads to state [d] with probability
    [prob r d]. *)
Record mdp := MkMdp { nS : nat; nA : nat; src : nat -> nat; prob : nat -> nat -> R }.

Definition wf_mdp (M : mdp) : Prop :=
  (forall r, (r < nA M)%nat -> (src M r < nS M)%nat) /\
  (forall r d, (r < nA M)%nat -> (d < nS M)%nat -> 0 <= prob M r d) /\
  (forall r, (r < nA M)%nat -> sumn (nS M) (prob M r) = 1) /\
  (forall s, (s < nS M)%nat -> exists r, (r < nA M)%nat /\ src M r = s).

(** History dependent randomised schedulers.  A history is the list of the
    states visited and rows taken so far, latest first; [sigma h s r] is the
    probability of choosing row [r] in state [s] after [h]. *)
Definition scheduler := list (nat * nat) -> nat -> nat -> R.

Definition valid_scheduler (M : mdp) (sigma : scheduler) : Prop :=
  forall h s, (s < nS M)%nat ->
    (forall r, (r < nA M)%nat -> 0 <= sigma h s r) /\
    (forall r, (r < nA M)%nat -> src M r <> s -> sigma h s r = 0) /\
    sumn (nA M) (sigma h s) = 1.

(** Probability of visiting a state of [T] within [n] steps, starting in [s]
    with history [h]. *)
Fixpoint reach (M : mdp) (T : nat -> bool) (sigma : scheduler) (n : nat) (h : list (nat * nat)) (s : nat) : R :=
  if T s then 1 else
  match n with
  | O => 0
  | S m => sumn (nA M) (fun r => sigma h s r *
             sumn (nS M) (fun d => prob M r d * reach M T sigma m ((s, r) :: h) d))
  end.

(** [p] is the probability of eventually visiting [T] from [s]. *)
Definition Pr (M : mdp) (T : nat -> bool) (sigma : scheduler) (s : nat) (p : R) : Prop :=
  is_lub (fun x => exists n, x = reach M T sigma n [] s) p.

Definition is_glb (E : R -> Prop) (m : R) : Prop :=
  (forall x, E x -> m <= x) /\ (forall b, (forall x, E x -> b <= x) -> b <= m).

(** Minimal and maximal probability over all schedulers. *)
Definition IsPrMin (M : mdp) (T : nat -> bool) (s : nat) (v : R) : Prop :=
  is_glb (fun p => exists sigma, valid_scheduler M sigma /\ Pr M T sigma s p) v.

Definition IsPrMax (M : mdp) (T : nat -> bool) (s : nat) (v : R) : Prop :=
  is_lub (fun p => exists sigma, valid_scheduler M sigma /\ Pr M T sigma s p) v.
