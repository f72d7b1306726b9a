(** Witness for C18. *)
From Coq Require Import String List Arith ZArith QArith Bool Lia.
From Verif Require Import Base Num Matrix Amdp ReachForm SpecBuilt FarkCache Examples.
Import ListNotations.
Local Open Scope nat_scope.

Lemma C18_refuted_lemma : exists rf t1 t2 st1 M a st2 r,
  built_form rf /\ do_call rf cinit (CallZ t1) = (st1, Ok (M, a)) /\ do_call rf st1 (CallZ t2) = (st2, r) /\
  exists i, ~ (nth i (cell st2 a) 0 == nth i (cell st1 a) 0)%Q.
Proof.
  exists toy2rf, (1#2)%Q, (1#3)%Q. do 5 eexists. split; [apply toy2rf_built|]. split; [vm_compute; reflexivity|].
  split; [vm_compute; reflexivity|]. exists 7. vm_compute. discriminate.
Qed.
