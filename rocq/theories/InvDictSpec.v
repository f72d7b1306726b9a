(** Specification of the invertible dictionary: a client-visible relation
    between keys and values that operations change one pair at a time.
    Independent of the model's state. *)
From Coq Require Import List.
From Verif Require Import Base InvDict.
Import ListNotations.

Section Spec.
  Context {K V : Type}.

  (** The relation a python dictionary of sets stands for. *)
  Definition dict_rel (d : dict K (list V)) (k : K) (v : V) : Prop :=
    exists s, In (k, s) d /\ In v s.

  (** Meaning of an operation on the relation: adding makes exactly one pair
      true, removing makes exactly one pair false, on either view. *)
  Definition spec_step (R : K -> V -> Prop) (o : op K V) : K -> V -> Prop :=
    match o with
    | OAdd k v | OInvAdd v k => fun k' v' => (k' = k /\ v' = v) \/ R k' v'
    | ORemove k v | OInvRemove v k => fun k' v' => R k' v' /\ ~ (k' = k /\ v' = v)
    | OReadInv => R
    end.

  Fixpoint spec_run (R : K -> V -> Prop) (os : list (op K V)) : K -> V -> Prop :=
    match os with
    | [] => R
    | o :: r => spec_run (spec_step R o) r
    end.

  (** Keys a dictionary knows after a history: the initial ones and those of
      every add. *)
  Definition adds_key (k : K) (o : op K V) : Prop :=
    match o with OAdd k' _ | OInvAdd _ k' => k = k' | _ => False end.

  (** The exception an operation must raise: a remove of a pair that is not
      in the relation raises AssertionError, nothing else raises. *)
  Definition spec_raises (R : K -> V -> Prop) (o : op K V) (e : option exn) : Prop :=
    match o with
    | ORemove k v | OInvRemove v k =>
        (R k v /\ e = None) \/ (~ R k v /\ e = Some AssertionError)
    | _ => e = None
    end.
End Spec.
