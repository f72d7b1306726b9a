(** Model of the command render of the command line tool, bin/switss 157-172
    and 326-333.

    The drawing is that of Draw.v.  Arbitrary functions: the colour of a tuple
    of labels (color_from_hash, graphviz_utils.py 27-39: one of the 143 names of
    GRAPHVIZ_COLORS), [str(round(p,10))], the text in the language of graphviz
    (graphviz.Digraph.source) and the picture made from it by the program dot.
    [graph.render(output, cleanup=True)] of the library graphviz saves the text
    in the file [output], runs dot, which writes [output.svg], and removes
    [output].  [--view] opens the picture in addition: not modelled. *)
From Coq Require Import String List Arith ZArith QArith Bool Ascii.
From Verif Require Import Base Num Matrix InvDict Graph Amdp Files Draw Cli.
Import ListNotations.
Local Open Scope string_scope.
Local Open Scope nat_scope.

Record painter := MkPainter {
  p_colour : list string -> text;       (* color_from_hash *)
  p_prob : Q -> text;                   (* str(round(p,10)) *)
  p_source : list stmt -> text;         (* Digraph.source *)
  p_dot : text -> text }.               (* the program dot *)

(** [tuple(sorted(labels))] of a set (equal elements occur once). *)
Fixpoint sort_in (x : string) (l : list string) : list string :=
  match l with
  | [] => [x]
  | y :: r => match String.compare x y with Lt => x :: l | Eq => l | Gt => y :: sort_in x r end
  end.
Definition sorted (l : list string) : list string := fold_right sort_in [] l.

(** Lines 161-165: the state map for [--coloring], the names of the labels
    separated by commas. *)
Definition coloured (P : painter) (names : list string) : state_style := fun s labels =>
  Ok [("color", p_colour P (sorted (filter (fun l => existsb (String.eqb l) labels) names)));
      ("label", (str "State " ++ show_nat s ++ LF :: join_str (str ",") labels)%list); ("style", str "filled")].

(** The standard styles (graphviz_utils.py 41-53) sort the labels, too. *)
Definition p_formats (P : painter) : formats := MkFormats (fun l => p_colour P (sorted l)) (p_prob P) (p_prob P).

(** Removing a file. *)
Definition erase (p : string) (w : world) : world := MkWorld (fun q => if String.eqb q p then None else w_fs w q) (w_out w).

(** Line 159. *)
Definition render_output (a : args) : string := match output a with Some o => o | None => modelpath a ++ "-render" end.

(** Lines 157-172; a system read from files has the standard styles. *)
Definition render_cmd (P : painter) (a : args) (coloring : option string) (w : world) : io unit :=
  iobind (load_model a w) (fun m w =>
  let v := std_config (p_formats P) (a_kind m) in
  let sm := match coloring with None => None | Some c => Some (coloured P (split ","%char c)) end in
  iobind (lift (digraph m v sm None false) w) (fun dg w =>
  let o := render_output a in
  let w := write o (FText (p_source P dg)) w in
  let w := write (o ++ ".svg") (FText (p_dot P (p_source P dg))) w in
  Done tt (erase o w))).

(** Lines 329-333, as for the other commands. *)
Definition render (P : painter) (a : args) (coloring : option string) (w : world) : outcome :=
  match render_cmd P a coloring w with
  | Done _ w => Exited w
  | Raised (Py AttributeError) w => Usage w
  | Raised e w => Traceback e w
  end.
