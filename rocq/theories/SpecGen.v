(** What a generated certificate claims. *)
From Coq Require Import List Arith QArith Reals Bool.
From Verif Require Import Base Num Matrix SpecMdp SpecSystem SpecEc SpecForm SpecProb SccSpec Amdp ReachForm Certificates.
Local Open Scope R_scope.

(** The extremal probability of the mode, from the initial state. *)
Definition extremal (rf : rform) (md : mode) (p : R) : Prop :=
  match md with Min => PrMinForm rf (rf_init rf) p | Max => PrMaxForm rf (rf_init rf) p | OtherMode => False end.

(** The claim "p is <=, <, >= or > t". *)
Definition claim (s : fsense) (p t : R) : Prop :=
  match s with FLe => p <= t | FLt => p < t | FGe => t <= p | FGt => t < p | FOther => False end.

(** The claim with <= or >=, off by at most [e]. *)
Definition claim_near (s : fsense) (p t e : R) : Prop :=
  match s with FLe | FLt => p <= t + e | FGe | FGt => t - e <= p | FOther => False end.

Definition strict_sense (s : fsense) : Prop := s = FLt \/ s = FGt.

(** Bounds on Pr-min from above have certificates only if no state is in an end
    component. *)
Definition certifiable (rf : rform) (md : mode) (s : fsense) : Prop :=
  match md, s with
  | OtherMode, _ => False
  | _, FOther => False
  | Min, (FLe | FLt) => forall st, (st < a_N (rf_sys rf) - 2)%nat -> ~ in_some_ec (a_P (rf_sys rf)) (a_inv (rf_sys rf)) st
  | _, _ => True
  end.
