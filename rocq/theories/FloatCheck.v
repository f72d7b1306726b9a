(** Model of check_farkas_certificate (switss/certification/certificates.py
    70-124) and of the matrices it uses (switss/model/reachability_form.py 52,
    495-571) in IEEE double precision.

    The form is given twice: [rf] carries its graph (states, rows, end
    components) and [pd i d] is the double stored at row [i] and column [d]
    (zero if nothing is stored).  The columns are those of the inner states and
    the one of goal.  No fused multiply-add is used. *)
From Coq Require Import List Arith ZArith QArith Bool.
From Flocq Require Import Core.Core IEEE754.BinarySingleNaN.
From Verif Require Import Base Num Matrix Graph Amdp ReachForm Milp Certificates FloatRow.
Import ListNotations.
Local Open Scope nat_scope.

Definition dopp : double -> double := @Bopp 53 1024.

(** reachability_form.py 52 and 562-571: one row of I - P.  The constructor has
    already looked up the state of the row. *)
Definition fA_row (rf : rform) (pd : nat -> nat -> double) (i : nat) : list double :=
  match rf_inv rf i with
  | Some (s, _) => map (fun d => dsub (if s =? d then d1 else d0) (pd i d)) (seq 0 (rf_N rf))
  | None => []
  end.
Definition fA (rf : rform) (pd : nat -> nat -> double) : list (list double) := map (fA_row rf pd) (seq 0 (rf_C rf)).
(** 53: the column of goal. *)
Definition fto_target (rf : rform) (pd : nat -> nat -> double) : list double := map (fun i => pd i (rf_N rf)) (seq 0 (rf_C rf)).

(** 495-526 *)
Definition ffark_z (rf : rform) (pd : nat -> nat -> double) (t : double) : res (list (list double) * list double) :=
  if rf_init rf <? rf_N rf then
    Ok (fA rf pd ++ [map (fun d => if d =? rf_init rf then dopp d1 else dopp d0) (seq 0 (rf_N rf))], fto_target rf pd ++ [dopp t])
  else Err IndexError.
(** 528-560 *)
Definition ffark_y (rf : rform) (pd : nat -> nat -> double) (t : double) : res (list (list double) * list double) :=
  if rf_init rf <? S (rf_N rf) then
    Ok (map (fun d => map (fun row => nth d row d0) (fA rf pd)) (seq 0 (rf_N rf)) ++ [map dopp (fto_target rf pd)],
        upd (map (fun k => if k =? rf_init rf then d1 else d0) (seq 0 (S (rf_N rf)))) (rf_N rf) (dopp t))
  else Err IndexError.

(** The entries of a row that a sparse matrix stores. *)
Definition stored (row : list double) : list (nat * double) :=
  filter (fun e => negb (Beqb (snd e) d0)) (combine (seq 0 (length row)) row).
(** scipy's product of a sparse matrix with a vector: for every row, products
    are added to a zero, in the order in which the entries are stored.
    [arr k] brings the stored entries of row [k] into that order. *)
Definition fdot (v : list double) (es : list (nat * double)) : double :=
  fold_left (fun acc e => dadd acc (dmul (snd e) (nth (fst e) v d0))) es d0.
Definition fmat_vec (arr : nat -> list (nat * double) -> list (nat * double)) (A : list (list double)) (v : list double) : list double :=
  map (fun k => fdot v (arr k (stored (nth k A [])))) (seq 0 (length A)).

(** certificates.py 51-68 *)
Definition fright_constraint_set (rf : rform) (pd : nat -> nat -> double) (md : mode) (s : fsense) (t : double)
  : res (list (list double) * list double * nat) :=
  let* f := right_form md s in
  match f with
  | FormY => let* (A, b) := ffark_y rf pd t in Ok (A, b, rf_C rf)
  | FormZ => let* (A, b) := ffark_z rf pd t in Ok (A, b, rf_N rf)
  end.

(** 100-111 *)
Fixpoint fec_entries_zero (rf : rform) (upper : bool) (v : list double) (l : list nat) : res bool :=
  match l with
  | [] => Ok true
  | idx :: r =>
      let* s := if upper then let* (s, _) := of_opt KeyError (rf_inv rf idx) in Ok s else Ok idx in
      let* e := in_proper_ec rf s in
      if e then
        let* q := of_opt IndexError (nth_error v idx) in
        if Beqb q d0 then fec_entries_zero rf upper v r else Ok false
      else fec_entries_zero rf upper v r
  end.

(** 116 and 120 *)
Definition fall_ge (tol : double) (r b : list double) : bool := forallb (fun p => Bleb (snd p) (dadd (fst p) tol)) (combine r b).
Definition fall_le (tol : double) (r b : list double) : bool := forallb (fun p => Bleb (dsub (fst p) tol) (snd p)) (combine r b).

(** 70-124 *)
Definition fcheck (arr : nat -> list (nat * double) -> list (nat * double)) (rf : rform) (pd : nat -> nat -> double)
  (md : mode) (s : fsense) (t : double) (v : list double) (tol : double) : res bool :=
  let* _ := assert_ (Bleb d0 t && Bleb t d1) in
  let* (A, b, D) := fright_constraint_set rf pd md s t in
  let N := length A in
  let* _ := assert_ (length v =? D) in
  let* z := match md with Min => fec_entries_zero rf (is_upper s) v (seq 0 D) | _ => Ok true end in
  if z then
    let r := fmat_vec arr A v in
    let last_r := nth (N - 1) r d0 in
    let last_b := nth (N - 1) b d0 in
    match s with
    | FLe => Ok (fall_ge tol r b)
    | FLt => Ok (fall_ge tol r b && Bltb last_b (dadd last_r tol))
    | FGe => Ok (fall_le tol r b)
    | FGt => Ok (fall_le tol r b && Bltb (dsub last_r tol) last_b)
    | FOther => Err AssertionError
    end
  else Ok false.
