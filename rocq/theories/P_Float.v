(** C54: rows in double precision. *)
From Coq Require Import List ZArith Bool Reals Lra.
From Flocq Require Import Core BinarySingleNaN.
From Verif Require Import FloatRow SpecFloatRow FloatProofs FloatFinal.
Import ListNotations.
Local Open Scope R_scope.

(** Missing for C54: the full statement is false, see the two refutations.

    Materialising a row is accepted by the constructor exactly if the sum of
    the kept entries, computed in double precision, does not exceed one. *)
Theorem C54_subsys_row_partial : forall ps pt,
  forallb entry_ok ps = true -> entry_ok pt = true ->
  row_ok (subsys_row ps pt) = Bleb (dadd pt (dsum ps)) d1.
Proof. exact subsys_row_iff. Qed.
Print Assumptions C54_subsys_row_partial.

(** A subsystem row that loses more probability than rounding can invent is
    accepted. *)
Theorem C54_lossy_row_partial : forall ps pt,
  forallb entry_ok (ps ++ [pt]) = true -> (Z.of_nat (length ps) < 2 ^ 49)%Z ->
  exact_sum (ps ++ [pt]) <= 1 - INR (length ps + 1) * bpow radix2 (-52) ->
  row_ok (subsys_row ps pt) = true.
Proof. exact lossy_accepted. Qed.
Print Assumptions C54_lossy_row_partial.

(** Reducing keeps accepted rows accepted. *)
Theorem C54_reduce_row_partial : forall ps pt,
  row_ok (ps ++ [pt]) = true -> row_ok (reduce_row ps pt) = true.
Proof. exact reduce_accepted. Qed.
Print Assumptions C54_reduce_row_partial.

(** Reducing adds a transition to fail exactly if the sum of the kept entries
    in double precision is below one, and its probability differs from the one
    that is lost by at most the rounding errors of the additions. *)
Theorem C54_reduce_fail_partial : forall ps pt,
  forallb entry_ok ps = true -> entry_ok pt = true ->
  Bltb d0 (reduce_fail ps pt) = Bltb (dadd pt (dsum ps)) d1 /\
  (exact_sum (ps ++ [pt]) <= 3 / 2 -> (Z.of_nat (length ps) < 2 ^ 49)%Z ->
   Rabs (dval (reduce_fail ps pt) - (1 - exact_sum (ps ++ [pt]))) <= INR (length ps + 2) * bpow radix2 (-52)).
Proof. exact (fun ps pt H1 H2 => conj (fail_pos ps pt H1 H2) (fail_err ps pt H1 H2)). Qed.
Print Assumptions C54_reduce_fail_partial.

(** A row with exact sum one that the constructor accepts, and whose
    materialised copy with all successors kept it rejects. *)
Theorem C54_subsystem_refuted : exists ps pt,
  exact_sum (ps ++ [pt]) = 1 /\ row_ok (ps ++ [pt]) = true /\ row_ok (subsys_row ps pt) = false.
Proof. exact sub_refuted. Qed.
Print Assumptions C54_subsystem_refuted.

(** A row with exact sum one, all successors kept, that gets a transition to
    fail of positive probability. *)
Theorem C54_reduce_refuted : exists ps pt,
  exact_sum (ps ++ [pt]) = 1 /\ row_ok (ps ++ [pt]) = true /\
  Bltb d0 (reduce_fail ps pt) = true /\ reduce_row ps pt = ps ++ [pt; reduce_fail ps pt].
Proof. exact red_refuted. Qed.
Print Assumptions C54_reduce_refuted.

(** The doubles 0.33, 0.56 and 0.11 (target): accepted, and rejected when
    materialised. *)
Example C54_decimals : let dec n := ddiv (dmake n 0) (dmake 100 0) in
  row_ok [dec 33; dec 56; dec 11]%Z = true /\ row_ok (subsys_row [dec 33; dec 56]%Z (dec 11%Z)) = false.
Proof. split; vm_compute; reflexivity. Qed.
(** A row losing a quarter meets the hypotheses of the partial theorems. *)
Example C54_quarter : forallb entry_ok ([dmake 1 (-1)] ++ [dmake 1 (-2)])%Z = true /\
  exact_sum ([dmake 1 (-1)] ++ [dmake 1 (-2)])%Z <= 1 - INR (length [dmake 1 (-1)]%Z + 1) * bpow radix2 (-52) /\
  row_ok (subsys_row [dmake 1 (-1)] (dmake 1 (-2)))%Z = true.
Proof.
  split; [vm_compute; reflexivity|]. split; [|vm_compute; reflexivity]. cbn [app exact_sum length]. unfold dval. repeat dcalc. unfold SF2R, F2R. cbn -[IZR]. lra.
Qed.
Example C54_accepted : row_ok ([dmake 1 (-1)] ++ [dmake 1 (-1)])%Z = true /\
  reduce_row [dmake 1 (-1)]%Z (dmake 1 (-1)%Z) = [dmake 1 (-1); dmake 1 (-1)]%Z.
Proof. split; [vm_compute; reflexivity|]. unfold reduce_row. replace (Bltb d0 (dmake 1 (-1))) with true by (vm_compute; reflexivity). replace (Bltb d0 (reduce_fail [dmake 1 (-1)]%Z (dmake 1 (-1)%Z))) with false by (vm_compute; reflexivity). reflexivity. Qed.
