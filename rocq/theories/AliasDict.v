(** Model of switss/utils/invertible_dict.py with explicit set objects.

    InvDict.v models one dictionary; here python sets are cells of a heap, a
    dictionary maps a key to a cell, and several InvertibleDict objects can
    refer to the same cell, because [__init__] copies the dictionary but not
    the sets in it (line 33, [d.copy()]). *)
From Coq Require Import List Arith Bool.
From Verif Require Import Base InvDict.
Import ListNotations.

Section Alias.
  Context {K V : Type} (keqb : K -> K -> bool) (veqb : V -> V -> bool).

  (** One object together with its inverse: [hf] is [__d], [hb] the [__d] of
      [__i]. *)
  Record hobj := MkObj { hf : dict K nat; hb : option (dict V nat); hd : bool }.

  (** Heap: cells holding sets of values, cells holding sets of keys. *)
  Record heap := MkHeap { hv : list (list V); hk : list (list K) }.

  (** invertible_dict.py 20-35: the new object refers to the cells of the
      given dictionary. *)
  Definition hnew (d : dict K nat) (df : bool) : hobj := MkObj d None df.

  (** "if key not in d: d[key] = set()" and "d[key].add(item)" on one side;
      invertible_dict.py 46-55. *)
  Definition cell_add {A B} (aeqb : A -> A -> bool) (beqb : B -> B -> bool)
      (cells : list (list B)) (d : dict A nat) (k : A) (v : B) : list (list B) * dict A nat :=
    match dget aeqb d k with
    | Some a => (upd cells a (sadd beqb (nth a cells []) v), d)
    | None => (cells ++ [[v]], dset aeqb d k (length cells))
    end.

  Definition cell_rem {A B} (aeqb : A -> A -> bool) (beqb : B -> B -> bool)
      (cells : list (list B)) (d : dict A nat) (k : A) (v : B) : res (list (list B)) :=
    match dget aeqb d k with
    | Some a => if smem beqb v (nth a cells []) then Ok (upd cells a (srem beqb (nth a cells []) v))
                else Err KeyError
    | None => Err KeyError
    end.

  Definition deref {A B} (cells : list (list B)) (d : dict A nat) : dict A (list B) :=
    map (fun ka => (fst ka, nth (snd ka) cells [])) d.

  (** invertible_dict.py 90-109: the inverse gets fresh cells. *)
  Definition hforce (h : heap) (o : hobj) : heap * hobj :=
    match hb o with
    | Some _ => (h, o)
    | None =>
        let i := invert veqb keqb (deref (hv h) (hf o)) in
        (MkHeap (hv h) (hk h ++ map snd i),
         MkObj (hf o) (Some (combine (map fst i) (seq (length (hk h)) (length i)))) (hd o))
    end.

  Definition hadd (h : heap) (o : hobj) (k : K) (v : V) : heap * hobj :=
    let '(cv, f') := cell_add keqb veqb (hv h) (hf o) k v in
    match hb o with
    | None => (MkHeap cv (hk h), MkObj f' None (hd o))
    | Some i => let '(ck, i') := cell_add veqb keqb (hk h) i v k in
                (MkHeap cv ck, MkObj f' (Some i') (hd o))
    end.

  (** invertible_dict.py 57-65; after the asserts only the removal from the
      inverse can raise, and then the first removal has already happened. *)
  Definition hremove (h : heap) (o : hobj) (k : K) (v : V) : heap * hobj * option exn :=
    match dget keqb (hf o) k with
    | None => (h, o, Some AssertionError)
    | Some a =>
        if smem veqb v (nth a (hv h) []) then
          let cv := upd (hv h) a (srem veqb (nth a (hv h) []) v) in
          match hb o with
          | None => (MkHeap cv (hk h), o, None)
          | Some i => match cell_rem veqb keqb (hk h) i v k with
                      | Ok ck => (MkHeap cv ck, o, None)
                      | Err e => (MkHeap cv (hk h), o, Some e)
                      end
          end
        else (h, o, Some AssertionError)
    end.

  (** [o[k]] and [o.inv[v]] (the latter when the inverse exists). *)
  Definition hget (h : heap) (o : hobj) (k : K) : res (list V) :=
    match dget keqb (hf o) k with
    | Some a => Ok (nth a (hv h) [])
    | None => if hd o then Ok [] else Err KeyError
    end.

  Definition hinv_get (h : heap) (o : hobj) (v : V) : res (list K) :=
    let '(h', o') := hforce h o in
    match hb o' with
    | Some i => match dget veqb i v with
                | Some a => Ok (nth a (hk h') [])
                | None => if hd o then Ok [] else Err KeyError
                end
    | None => Err AttributeError
    end.

  (** Client operations on one object. *)
  Inductive hop := HAdd (k : K) (v : V) | HRemove (k : K) (v : V) | HReadInv.

  Definition hop_key (o : hop) : option K :=
    match o with HAdd k _ | HRemove k _ => Some k | HReadInv => None end.

  Definition hstep (st : heap * hobj) (op : hop) : heap * hobj :=
    let '(h, o) := st in
    match op with
    | HAdd k v => hadd h o k v
    | HRemove k v => fst (hremove h o k v)
    | HReadInv => hforce h o
    end.

  Definition hrun (st : heap * hobj) (ops : list hop) : heap * hobj := fold_left hstep ops st.
End Alias.
Arguments hobj K V : clear implicits.
Arguments heap K V : clear implicits.
Arguments hop K V : clear implicits.
