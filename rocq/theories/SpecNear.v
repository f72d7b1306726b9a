(** Systems whose probabilities are close to the numbers of a form. *)
From Coq Require Import List Arith QArith Qreals Reals.
From Verif Require Import Base Num Matrix SpecMdp SpecSystem SpecEc Amdp ReachForm.
Import ListNotations.
Local Open Scope nat_scope.

(** [M] has the states, rows and transitions of the form; its probabilities
    differ by at most [delta] from the numbers in the matrix. *)
Definition near (rf : rform) (M : mdp) (delta : R) : Prop :=
  nS M = a_N (rf_sys rf) /\ nA M = a_C (rf_sys rf) /\
  (forall i, i < nA M -> exists a, a_inv (rf_sys rf) i = Some (src M i, a)) /\
  (forall i d, i < nA M -> d < nS M ->
     (Rabs (Q2R (mget (a_P (rf_sys rf)) i d) - prob M i d) <= delta)%R /\ ((0 < mget (a_P (rf_sys rf)) i d)%Q <-> (0 < prob M i d)%R)).

(** The system in which every row is divided by its sum. *)
Definition normalised (rf : rform) : mdp :=
  MkMdp (a_N (rf_sys rf)) (a_C (rf_sys rf))
    (fun i => match a_inv (rf_sys rf) i with Some (s, _) => s | None => a_N (rf_sys rf) end)
    (fun i d => (Q2R (mget (a_P (rf_sys rf)) i d) / Q2R (row_total (a_P (rf_sys rf)) i))%R).
