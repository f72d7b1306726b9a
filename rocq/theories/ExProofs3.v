(** Witnesses about linear programs of forms. *)
From Coq Require Import String List Arith ZArith QArith Qreals Reals Bool Lia Lra.
From Coq Require Lqa.
From Verif Require Import Base Num Matrix SpecMdp SpecSystem SpecEc SpecForm SpecBuilt SpecProb Amdp ReachForm BuiltFacts
  Milp SpecLp LpExists RfLps RfLpProofs Examples ExProofs2.
Import ListNotations.
Local Open Scope nat_scope.

Lemma C29_refuted_lemma : exists rf lp S y v s, built_form rf /\ exact_rows (a_P (rf_sys rf)) /\ max_y_lp rf = Ok lp /\ exact_answer lp (S lp) /\
  max_y_state_action S rf = Ok y /\ max_y_state S rf = Ok v /\ s < rf_N rf /\
  ~ (nth s v 0 == sum_to (rf_C rf) (fun i => if belongs (a_inv (rf_sys rf)) i s then nth i y 0 else 0))%Q.
Proof.
  assert (Hi : rf_init ec2rf < rf_N ec2rf) by (vm_compute; lia).
  destruct (C55_y_lemma ec2rf ec2rf_built exact_ec2 Hi) as (lp & E & (r & HR) & H).
  destruct (H (fun _ => r) HR) as (y & Ey & _ & Ly & _).
  destruct (C29_sum_lemma ec2rf ec2rf_built Hi (fun _ => r) y Ey Ly) as (v & Ev & _ & Hv).
  exists ec2rf, lp, (fun _ => r), y, v, (rf_init ec2rf). split; [apply ec2rf_built|]. split; [apply exact_ec2|]. split; [auto|]. split; [auto|]. split; [auto|]. split; [auto|].
  split; [auto|]. intros Hq. specialize (Hv _ Hi). rewrite Nat.eqb_refl in Hv. Lqa.lra.
Qed.
