(** Model of the row computations in IEEE double precision: the checks of
    switss/model/amdp.py 70-76, the row of a subsystem in
    switss/problem/subsystem.py 128-156 and the row of a reduced system in
    switss/model/reachability_form.py 411-421.

    A double is a binary64 number of Flocq (one NaN), operations round to
    nearest, ties to even.  A row is the list of its entries in the order in
    which they are added up ([P.sum] and [not_to_fail] use the order of the
    row; an entry that is set to zero is not stored, which changes neither the
    sum nor the checks). *)
From Coq Require Import List ZArith Bool.
From Flocq Require Import Core.Core IEEE754.BinarySingleNaN.
Import ListNotations.
Local Open Scope Z_scope.

Definition dprec : Prec_gt_0 53 := eq_refl.
Definition demax : Prec_lt_emax 53 1024 := eq_refl.
Definition double := binary_float 53 1024.
Definition dadd : double -> double -> double := @Bplus 53 1024 dprec demax mode_NE.
Definition dsub : double -> double -> double := @Bminus 53 1024 dprec demax mode_NE.
Definition dmul : double -> double -> double := @Bmult 53 1024 dprec demax mode_NE.
Definition ddiv : double -> double -> double := @Bdiv 53 1024 dprec demax mode_NE.
Definition drint : double -> double := @Bnearbyint 53 1024 demax mode_NE.
(** The double nearest to m * 2^e. *)
Definition dmake (m e : Z) : double := @binary_normalize 53 1024 dprec demax mode_NE m e false.
Definition d0 : double := B754_zero false.
Definition d1 : double := dmake 1 0.
Definition d1e9 : double := dmake 1000000000 0.

(** np.sum, and [+=] from a zero of np.zeros. *)
Definition dsum (l : list double) : double := fold_left dadd l d0.
(** np.round(x,9): multiply, rint, divide. *)
Definition dround9 (x : double) : double := ddiv (drint (dmul x d1e9)) d1e9.

(** amdp.py 71-76: the row sums to one up to nine decimals and all entries are
    between zero and one. *)
Definition sum_ok (row : list double) : bool := Beqb (dround9 (dsum row)) d1.
Definition entry_ok (p : double) : bool := Bleb d0 p && Bleb p d1.
Definition row_ok (row : list double) : bool := sum_ok row && forallb entry_ok row.

(** subsystem.py 128-156: [ps] are the probabilities of going to states of the
    subsystem, [pt] that of going to the target. *)
Definition subsys_row (ps : list double) (pt : double) : list double :=
  ps ++ [pt; dsub d1 (dadd pt (dsum ps))].
(** reachability_form.py 411-421: [ps] are the probabilities of going to kept
    states. *)
Definition reduce_fail (ps : list double) (pt : double) : double := dsub d1 (dadd pt (dsum ps)).
Definition reduce_row (ps : list double) (pt : double) : list double :=
  ps ++ (if Bltb d0 pt then [pt] else []) ++ (if Bltb d0 (reduce_fail ps pt) then [reduce_fail ps pt] else []).
