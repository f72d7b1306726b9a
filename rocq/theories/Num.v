(** Number vocabulary of the model: rounding of rationals. *)
From Coq Require Import List ZArith QArith Qround Bool.
Import ListNotations.
Local Open Scope Q_scope.

(** Round to the nearest integer, ties to even: what [np.round] (before
    rescaling), ["%f"] formatting and conversion to single precision do, on
    exact values. *)
Definition qround (q : Q) : Z :=
  let f := Qfloor q in
  let r := q - inject_Z f in
  if Qle_bool r (1#2) then
    if Qle_bool (1#2) r then (if Z.even f then f else f + 1)%Z else f
  else (f + 1)%Z.

(** [np.round(x, 9)]: round half to even at nine decimals. *)
Definition np_round9 (x : Q) : Q := qround (x * inject_Z (10^9)) # (10^9).

(** Conversion of a positive double to a C [float] (24 significant bits,
    nearest even); the ranges of subnormal and overflowing values are not
    modelled.  Used by graph.pyx 13 and 46, which store probabilities as
    [float]. *)
Definition f32 (q : Q) : Q :=
  match Qnum q with
  | Zpos n =>
      let e0 := (Z.log2 (Zpos n) - Z.log2 (Zpos (Qden q)))%Z in
      let pow2 (k : Z) : Q :=
        match k with
        | Z0 => 1
        | Zpos _ => inject_Z (2 ^ k)
        | Zneg p => 1 # Z.to_pos (2 ^ Zpos p)
        end in
      let e := if Qle_bool (pow2 e0) q then e0 else (e0 - 1)%Z in
      Qred (inject_Z (qround (q * pow2 (23 - e)%Z)) * pow2 (e - 23)%Z)
  | _ => q
  end.

Definition sumQ (l : list Q) : Q := fold_right Qplus 0 l.

Definition Qlt_bool (x y : Q) : bool := negb (Qle_bool y x).
