(** Model of the caching in reachability_form.py 58-62 and 495-560: the
    attributes __fark_z_matr, __fark_z_rhs, __fark_y_matr, __fark_y_rhs.  The
    right-hand sides are numpy arrays returned by reference: [heap] holds the
    array objects, an address is a position in it. *)
From Coq Require Import String List Arith ZArith QArith Bool.
From Verif Require Import Base Num Matrix Amdp ReachForm.
Import ListNotations.
Local Open Scope nat_scope.

Record cstate := MkC {
  heap : list (list Q);
  zmatr : option (list (list Q)); zrhs : option nat;
  ymatr : option (list (list Q)); yrhs : option nat }.

Definition cinit : cstate := MkC [] None None None None.

Definition cell (st : cstate) (a : nat) : list Q := nth a (heap st) [].

(** 495-526.  In the first call the right-hand side is stored before writing
    delta[self.initial] can raise. *)
Definition call_z (rf : rform) (st : cstate) (t : Q) : cstate * res (list (list Q) * nat) :=
  match zmatr st, zrhs st with
  | Some M, Some a => (MkC (upd (heap st) a (upd (cell st a) (rf_C rf) (-t)%Q)) (zmatr st) (zrhs st) (ymatr st) (yrhs st), Ok (M, a))
  | _, _ =>
      let a := length (heap st) in
      let h := heap st ++ [rf_to_target rf ++ [(-t)%Q]] in
      if rf_init rf <? rf_N rf then
        let M := rf_A rf ++ [unit_vec (rf_N rf) (rf_init rf) (-1)] in
        (MkC h (Some M) (Some a) (ymatr st) (yrhs st), Ok (M, a))
      else (MkC h (zmatr st) (Some a) (ymatr st) (yrhs st), Err IndexError)
  end.

(** 528-560.  In the first call the array is stored before writing
    rhs[self.initial] can raise. *)
Definition call_y (rf : rform) (st : cstate) (t : Q) : cstate * res (list (list Q) * nat) :=
  match ymatr st, yrhs st with
  | Some M, Some a => (MkC (upd (heap st) a (upd (cell st a) (rf_N rf) (-t)%Q)) (zmatr st) (zrhs st) (ymatr st) (yrhs st), Ok (M, a))
  | _, _ =>
      let a := length (heap st) in
      if rf_init rf <? S (rf_N rf) then
        let M := map (column (rf_A rf)) (seq 0 (rf_N rf)) ++ [map Qopp (rf_to_target rf)] in
        let h := heap st ++ [upd (unit_vec (S (rf_N rf)) (rf_init rf) 1) (rf_N rf) (-t)%Q] in
        (MkC h (zmatr st) (zrhs st) (Some M) (Some a), Ok (M, a))
      else (MkC (heap st ++ [unit_vec (S (rf_N rf)) 0 0]) (zmatr st) (zrhs st) (ymatr st) (Some a), Err IndexError)
  end.

Inductive fcall := CallZ (t : Q) | CallY (t : Q).

Definition do_call (rf : rform) (st : cstate) (c : fcall) : cstate * res (list (list Q) * nat) :=
  match c with CallZ t => call_z rf st t | CallY t => call_y rf st t end.

Definition calls (rf : rform) (st : cstate) (l : list fcall) : cstate :=
  fold_left (fun st c => fst (do_call rf st c)) l st.
