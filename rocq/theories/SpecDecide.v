(** Specification: answers to the LP of the bounds, and labels, used for the
    statements on whether the heuristic finds a witness. *)
From Coq Require Import String List Arith ZArith QArith Bool.
From Verif Require Import Base Num SpecLp SpecLabel SpecBuilt Amdp Milp.
Import ListNotations.

(** The answer to the LP of the bounds: correct, or undetermined. *)
Definition bound_answer (lp : milp) (r : sresult) : Prop := exact_answer lp r \/ sr_status r = NotSolved \/ sr_status r = Undefined.

(** No labels, or labels of inner states. *)
Definition inner_opt (m : amdp) (labels : option (list string)) : Prop := match labels with Some ls => inner_labels m ls | None => True end.

(** Every label belongs to some state. *)
Definition used_labels (m : amdp) (labels : option (list string)) : Prop := match labels with Some ls => forall l, In l ls -> exists s, has_label m l s | None => True end.

(** One non-negative weight for every indicator. *)
Definition weighting (ind : dict nat (list nat)) (obj : list (nat * Q)) : Prop := map fst obj = dkeys ind /\ forall s w, In (s, w) obj -> (0 <= w)%Q.
(** One weight in (0, 1e9] for every indicator. *)
Definition positive_weighting (ind : dict nat (list nat)) (obj : list (nat * Q)) : Prop := map fst obj = dkeys ind /\ forall s w, In (s, w) obj -> (0 < w <= 1000000000#1)%Q.
