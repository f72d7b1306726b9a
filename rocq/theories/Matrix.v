(** scipy sparse matrices and bidicts, as far as the model needs them.
    Not code of /repo; behaviour of [scipy.sparse.dok_matrix] and
    [bidict.bidict] as used by it. *)
From Coq Require Import List Arith QArith Bool.
From Verif Require Import Base Num.
Import ListNotations.
Local Open Scope nat_scope.

(** [dok_matrix]: shape and insertion ordered stored entries. *)
Record mat := MkMat { mrows : nat; mcols : nat; mitems : dict (nat * nat) Q }.

Definition mzero (r c : nat) : mat := MkMat r c [].

(** [M[i,j]] for indices inside the shape. *)
Definition mget (m : mat) (i j : nat) : Q :=
  match dget pair_eqb (mitems m) (i, j) with Some q => q | None => 0%Q end.

(** [M[i,j] = q]: IndexError outside the shape; a zero is not stored and
    deletes an existing entry. *)
Definition mset (m : mat) (i j : nat) (q : Q) : res mat :=
  if (i <? mrows m) && (j <? mcols m) then
    Ok (MkMat (mrows m) (mcols m)
          (if Qeq_bool q 0 then ddel pair_eqb (mitems m) (i, j)
           else dset pair_eqb (mitems m) (i, j) q))
  else Err IndexError.

(** [M.sum(axis=1)[i]] *)
Definition row_sum (m : mat) (i : nat) : Q :=
  sumQ (map snd (filter (fun e => fst (fst e) =? i) (mitems m))).

(** A dense list of rows as dok_matrix (used for examples only). *)
Definition mat_of_rows (c : nat) (rows : list (list Q)) : mat :=
  MkMat (length rows) c
    (flat_map (fun ir => let '(i, r) := ir in
       flat_map (fun jq => let '(j, q) := jq in
                   if Qeq_bool q 0 then [] else [((i, j), q)])
         (combine (seq 0 (length r)) r))
       (combine (seq 0 (length rows)) rows)).

(** [bidict]: a dictionary whose values are unique.  [bput] is
    [b[k] = v]; assigning a value that belongs to another key raises. *)
Section Bidict.
  Context {K V : Type} (keqb : K -> K -> bool) (veqb : V -> V -> bool).

  Definition binv (b : dict K V) (v : V) : option K :=
    dget veqb (map (fun kv => (snd kv, fst kv)) b) v.

  Definition bput (b : dict K V) (k : K) (v : V) : res (dict K V) :=
    match binv b v with
    | Some k' => if keqb k k' then Ok b else Err ValueDuplicationError
    | None => Ok (dset keqb b k v)
    end.

  (** [bidict(d)] *)
  Definition mk_bidict (d : dict K V) : res (dict K V) :=
    foldM (fun b kv => bput b (fst kv) (snd kv)) d [].

  (** [del b.inv[v]] *)
  Definition bdel_inv (b : dict K V) (v : V) : res (dict K V) :=
    match binv b v with
    | Some k => Ok (ddel keqb b k)
    | None => Err KeyError
    end.
End Bidict.
