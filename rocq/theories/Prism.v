(** Model of the calls of prism: prism_to_tra of switss/prism/prism.py 41-87 and
    from_prism_model of switss/model/amdp.py 218-241.

    The program prism is an oracle: a function from the arguments of the call
    and the contents of the temporary file to the exported files, or a failure
    (CalledProcessError).  That prism is in the path and that the model file
    exists is assumed.  Texts are sequences of characters, as in Files.v. *)
From Coq Require Import String List Arith ZArith Bool Ascii.
From Verif Require Import Base Num Matrix Amdp Files.
Import ListNotations.
Local Open Scope nat_scope.

(** Arguments with names and values: a dictionary (as documented), or another
    collection of pairs (as in the examples), in the order of iteration. *)
Inductive given (V : Type) :=
| Dictionary (items : list (text * V))
| Pairs (items : list (text * V)).
Arguments Dictionary {V} items.
Arguments Pairs {V} items.

(** [str(i)] of an integer *)
Definition show_Z (z : Z) : text :=
  if (z <? 0)%Z then "-"%char :: show (Z.to_N (- z)) else show (Z.to_N z).

(** [for (C,i) in given]: iterating over a dictionary gives its keys, and
    unpacking a string gives its characters, of which there have to be two.
    [show_v] is [str] on the values; on a character it is the identity. *)
Definition unpack {V} (show_v : V -> text) (g : given V) : res (list (text * text)) :=
  match g with
  | Pairs l => Ok (map (fun e => (fst e, show_v (snd e))) l)
  | Dictionary l => mapM (fun e : text * V => match fst e with [a; b] => Ok ([a], [b]) | _ => Err ValueError end) l
  end.
Definition glength {V} (g : given V) : nat := match g with Pairs l => length l | Dictionary l => length l end.

(** [sep.join(..)] *)
Fixpoint join_with (sep : ascii) (l : list text) : text :=
  match l with
  | [] => []
  | [x] => x
  | x :: r => x ++ sep :: join_with sep r
  end.

(** prism.py 65 *)
Definition const_strings (consts : given Z) : res (list text) :=
  if 0 <? glength consts then
    let* l := unpack show_Z consts in
    Ok [str "-const"; join_with ","%char (map (fun e => fst e ++ EQUALS :: snd e) l)]
  else Ok [].

(** prism.py 73 *)
Definition label_string (name expr : text) : text := str "label """ ++ name ++ str """ = " ++ expr ++ str ";".

(** prism.py 65-79: the call and the contents of the temporary file [tmp]. *)
Definition prism_call (tmp model dest : text) (consts : given Z) (labels : given text) : res (list text * text) :=
  let* cs := const_strings consts in
  let* ls := unpack (fun e => e) labels in
  let file := fold_left (fun file e => file ++ label_string (fst e) (snd e) ++ [LF]) ls model in
  Ok ([str "prism"; tmp] ++ cs ++ [str "-exportmodel"; dest ++ str ".tra,sta,lab"], file).

(** What a call of prism does. *)
Inductive outcome := Exported (tra lab : text) | CallFailed.

(** prism.py 41-87: [None] is the value False, otherwise the exported files. *)
Definition prism_to_tra (run : list text -> text -> outcome) (tmp model dest : text) (consts : given Z) (labels : given text) : res (option (text * text)) :=
  let* (args, file) := prism_call tmp model dest consts labels in
  match run args file with
  | Exported tra lab => Ok (Some (tra, lab))
  | CallFailed => Ok None
  end.

(** amdp.py 218-241.  [dir] is the name of the temporary directory. *)
Definition from_prism_model (k : kind) (run : list text -> text -> outcome) (dir tmp model : text) (consts : given Z) (labels : given text) : res amdp :=
  let* r := prism_to_tra run tmp model (dir ++ str "/model") consts labels in
  match r with
  | Some (tra, lab) => from_file k lab tra
  | None => Err AssertionError
  end.
