(** Specification: how prism reads its arguments and label declarations. *)
From Coq Require Import String List Arith NArith ZArith Bool Ascii.
Import ListNotations.
Local Open Scope nat_scope.

Definition chars := list ascii.

(** The text consists of the fields, with one separator between any two; no
    field contains the separator. *)
Inductive fields (sep : ascii) : chars -> list chars -> Prop :=
| field_last : forall x, ~ In sep x -> fields sep x [x]
| field_more : forall x r l, ~ In sep x -> fields sep r l -> fields sep (x ++ sep :: r) (x :: l).

(** The number a sequence of digits denotes. *)
Inductive decimal : chars -> N -> Prop :=
| dec_one : forall d, (d < 10)%N -> decimal [ascii_of_N (48 + d)] d
| dec_more : forall t n d, decimal t n -> (d < 10)%N -> decimal (t ++ [ascii_of_N (48 + d)]) (10 * n + d)%N.
Inductive integer : chars -> Z -> Prop :=
| int_pos : forall t n, decimal t n -> integer t (Z.of_N n)
| int_neg : forall t n, decimal t n -> (0 < n)%N -> integer ("-"%char :: t) (- Z.of_N n).

(** [name=number] *)
Definition assigns (t : chars) (nv : chars * Z) : Prop :=
  exists v, fields "="%char t [fst nv; v] /\ integer v (snd nv).

(** The argument of [-const]: assignments separated by commas. *)
Definition constants (t : chars) (l : list (chars * Z)) : Prop :=
  exists fs, fields ","%char t fs /\ Forall2 assigns fs l.

(** A name prism accepts contains no comma, equality sign or quote. *)
Definition name_ok (n : chars) : Prop := forall c, In c n -> c <> ","%char /\ c <> "="%char /\ c <> """"%char.

(** [label "name" = expr;], where spaces do not matter before the name and
    around the equality sign. *)
Definition blanks (t : chars) : Prop := forall c, In c t -> c = " "%char.
Definition declares (t : chars) (name expr : chars) : Prop :=
  exists b1 b2 b3, blanks b1 /\ b1 <> [] /\ blanks b2 /\ blanks b3 /\ ~ In """"%char name /\
    t = list_ascii_of_string "label" ++ b1 ++ """"%char :: name ++ """"%char :: b2 ++ "="%char :: b3 ++ expr ++ [";"%char].

(** The text before a line starts one. *)
Definition line_start (before : chars) : Prop := before = [] \/ exists p, before = p ++ ["010"%char] \/ before = p ++ ["013"%char].

(** A label is declared on a line of its own. *)
Definition declared (file : chars) (name expr : chars) : Prop :=
  exists before t after, file = before ++ t ++ "010"%char :: after /\ line_start before /\ declares t name expr.
