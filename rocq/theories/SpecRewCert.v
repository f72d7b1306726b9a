(** What certificates of reward forms claim. *)
From Verif Require Import Base ReachForm Certificates.

(** Bounds from above on the minimum are left out: see the refutation. *)
Definition rew_certifiable (md : mode) (s : fsense) : Prop :=
  match md, s with
  | Min, (FGe | FGt) => True
  | Max, (FLe | FLt | FGe | FGt) => True
  | _, _ => False
  end.

(** The certificate has one entry for each pair of a state and an action. *)
Definition state_action_form (md : mode) (s : fsense) : Prop := md = Max /\ (s = FGe \/ s = FGt).
