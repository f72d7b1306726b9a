(** Model of switss/utils/invertible_dict.py.

    An [InvertibleDict] object and the object returned by its [inv] property
    refer to each other; the pair is modelled as one value with two views.
    Keys and values are hashable python objects: any types with a boolean
    equality.  Sharing of the mutable sets with the caller is not modelled
    here (see AliasDict.v). *)
From Coq Require Import List Bool.
From Verif Require Import Base.
Import ListNotations.

Section InvDict.
  Context {K V : Type} (keqb : K -> K -> bool) (veqb : V -> V -> bool).

  (** invertible_dict.py 20-35, [__init__]: [fwd] is [self.__d], [bwd] is
      [self.__i] (None until the inverse has been asked for), [dflt] is
      [is_default]. *)
  Record idict := MkIDict {
    fwd : dict K (list V);
    bwd : option (dict V (list K));
    dflt : bool }.

  Definition mk_idict (d : dict K (list V)) (df : bool) : idict :=
    MkIDict d None df.

  (** The body of [add] on one side: "if key not in d: d[key] = set()" and
      "d[key].add(item)".  invertible_dict.py 46-55. *)
  Definition side_add {A B} (aeqb : A -> A -> bool) (beqb : B -> B -> bool)
      (d : dict A (list B)) (k : A) (v : B) : dict A (list B) :=
    let d' := if dmem aeqb d k then d else dset aeqb d k [] in
    match dget aeqb d' k with
    | Some s => dset aeqb d' k (sadd beqb s v)
    | None => d'
    end.

  (** Removal on one side, after the asserts.  invertible_dict.py 62-65. *)
  Definition side_rem {A B} (aeqb : A -> A -> bool) (beqb : B -> B -> bool)
      (d : dict A (list B)) (k : A) (v : B) : res (dict A (list B)) :=
    match dget aeqb d k with
    | Some s => if smem beqb v s then Ok (dset aeqb d k (srem beqb s v))
                else Err KeyError
    | None => Err KeyError
    end.

  (** invertible_dict.py 90-109, the [inv] property: build the inverse by
      running over all items, if it does not exist yet. *)
  Definition invert {A B} (beqb : B -> B -> bool) (aeqb : A -> A -> bool)
      (d : dict A (list B)) : dict B (list A) :=
    fold_left (fun acc kv =>
                 fold_left (fun acc v => side_add beqb aeqb acc v (fst kv))
                           (snd kv) acc) d [].

  Definition force_inv (f : idict) : idict :=
    match bwd f with
    | Some _ => f
    | None => MkIDict (fwd f) (Some (invert veqb keqb (fwd f))) (dflt f)
    end.

  (** invertible_dict.py 46-55 on the object itself. *)
  Definition add (f : idict) (k : K) (v : V) : idict :=
    MkIDict (side_add keqb veqb (fwd f) k v)
            (option_map (fun i => side_add veqb keqb i v k) (bwd f)) (dflt f).

  (** invertible_dict.py 57-65 on the object itself; both asserts come
      first. *)
  Definition remove (f : idict) (k : K) (v : V) : res idict :=
    let* _ := assert_ (dmem keqb (fwd f) k) in
    let* _ := assert_ (match dget keqb (fwd f) k with
                       | Some s => smem veqb v s | None => false end) in
    let* d' := side_rem keqb veqb (fwd f) k v in
    match bwd f with
    | None => Ok (MkIDict d' None (dflt f))
    | Some i => let* i' := side_rem veqb keqb i v k in
                Ok (MkIDict d' (Some i') (dflt f))
    end.

  (** The same methods called on the inverse ([f.inv.add], [f.inv.remove]):
      the inverse object's own dictionary is [bwd], its inverse is [fwd]. *)
  Definition inv_add (f : idict) (v : V) (k : K) : idict :=
    let f := force_inv f in
    match bwd f with
    | Some i => MkIDict (side_add keqb veqb (fwd f) k v)
                        (Some (side_add veqb keqb i v k)) (dflt f)
    | None => f
    end.

  Definition inv_remove (f : idict) (v : V) (k : K) : res idict :=
    let f := force_inv f in
    match bwd f with
    | Some i =>
        let* _ := assert_ (dmem veqb i v) in
        let* _ := assert_ (match dget veqb i v with
                           | Some s => smem keqb k s | None => false end) in
        let* i' := side_rem veqb keqb i v k in
        let* d' := side_rem keqb veqb (fwd f) k v in
        Ok (MkIDict d' (Some i') (dflt f))
    | None => Err AttributeError
    end.

  (** invertible_dict.py 37-40, [__getitem__], on either view; a missing key
      of a default dictionary gives a fresh empty set, of a non-default one
      raises. *)
  Definition get (f : idict) (k : K) : res (list V) :=
    match dget keqb (fwd f) k with
    | Some s => Ok s
    | None => if dflt f then Ok [] else Err KeyError
    end.

  Definition inv_get (f : idict) (v : V) : res (list K) :=
    match bwd (force_inv f) with
    | Some i => match dget veqb i v with
                | Some s => Ok s
                | None => if dflt f then Ok [] else Err KeyError
                end
    | None => Err AttributeError
    end.

  (** Operation language: everything a client can do to the pair. *)
  Inductive op :=
  | OAdd (k : K) (v : V) | ORemove (k : K) (v : V) | OReadInv
  | OInvAdd (v : V) (k : K) | OInvRemove (v : V) (k : K).

  (** One operation; an exception leaves the objects as they are when it is
      raised by one of the asserts, and is reported. *)
  Definition step (f : idict) (o : op) : idict * option exn :=
    match o with
    | OAdd k v => (add f k v, None)
    | ORemove k v => match remove f k v with
                     | Ok f' => (f', None) | Err e => (f, Some e) end
    | OReadInv => (force_inv f, None)
    | OInvAdd v k => (inv_add f v k, None)
    | OInvRemove v k => match inv_remove f v k with
                        | Ok f' => (f', None)
                        | Err e => (force_inv f, Some e) end
    end.

  Fixpoint run (f : idict) (os : list op) : idict :=
    match os with
    | [] => f
    | o :: r => run (fst (step f o)) r
    end.
End InvDict.
Arguments idict K V : clear implicits.
Arguments op K V : clear implicits.
