(** Specification: what the command render draws. *)
From Coq Require Import String List Arith NArith QArith Bool Ascii Sorted.
From Verif Require Import Base Num Matrix Amdp SpecBuilt Draw SpecDraw Cli SpecCli.
Import ListNotations.
Local Open Scope string_scope.
Local Open Scope nat_scope.

(** The labels that decide the colour: all, or those given.  They are given as
    one text, separated by commas. *)
Definition selection := option (list string).
Definition no_comma (l : string) : Prop := ~ In ","%char (list_ascii_of_string l).
Definition selects (sel : selection) (coloring : option string) : Prop :=
  match sel with
  | None => coloring = None
  | Some ls => ls <> [] /\ Forall no_comma ls /\ coloring = Some (String.concat "," ls)
  end.
Definition counts (sel : selection) (l : string) : Prop := match sel with None => True | Some ls => In l ls end.

(** The alphabetical list of the labels of a state that count. *)
Definition alphabetical (ls : list string) : Prop := StronglySorted (fun x y => String.compare x y = Lt) ls.
Definition key (m : amdp) (sel : selection) (s : nat) (ls : list string) : Prop :=
  alphabetical ls /\ forall l, In l ls <-> has_label m l s /\ counts sel l.
Definition same_key (m : amdp) (sel : selection) (s t : nat) : Prop := forall l, counts sel l -> (has_label m l s <-> has_label m l t).

(** A state is filled with the colour of its key and shows its number, the
    number written as [name] does, and below all of its labels. *)
Definition painted (colour : list string -> list ascii) (m : amdp) (sel : selection) (number : nat -> list ascii) (s : nat) (at_ : attrs) : Prop :=
  dget String.eqb at_ "style" = Some (list_ascii_of_string "filled") /\
  (exists ls, key m sel s ls /\ dget String.eqb at_ "color" = Some (colour ls)) /\
  exists ls, (forall l, In l ls <-> has_label m l s) /\
    dget String.eqb at_ "label" = Some (list_ascii_of_string "State " ++ number s ++ "010"%char :: list_ascii_of_string (String.concat "," ls))%list.

(** An action shows its number and below its labels. *)
Definition boxed (m : amdp) (number : nat -> list ascii) (s a : nat) (at_ : attrs) : Prop :=
  dget String.eqb at_ "shape" = Some (list_ascii_of_string "rectangle") /\
  exists ls, (forall l, In l ls <-> In (s, a) (actions_by_label m l)) /\
    dget String.eqb at_ "label" = Some (number a ++ "010"%char :: list_ascii_of_string (String.concat "" ls))%list.

(** The drawing of a system of either kind, for given looks of its states. *)
Definition shows (prob : Q -> list ascii) (m : amdp) (name : thing -> list ascii) (node : nat -> attrs) (dg : list stmt) : Prop :=
  let tedge p (at_ : attrs) := at_ = [("color", list_ascii_of_string "black"); ("label", prob p); ("fontsize", list_ascii_of_string "18pt")] in
  match a_kind m with
  | KMdp => exists pnode pedge, (forall s a, boxed m (fun n => name (TState n)) s a (pnode s a)) /\
      shows_mdp m name (fun s at_ => at_ = node s) (fun s a at_ => at_ = pnode s a) (fun s a at_ => at_ = pedge s a) (fun _ _ _ p => tedge p) dg
  | KDtmc => shows_dtmc m name (fun s at_ => at_ = node s) (fun _ _ p => tedge p) dg
  end.

(** Where the picture goes, without its extension. *)
Definition picture_path (a : args) : string := or_default (output a) (modelpath a ++ "-render").
