(** Model of reading and writing systems: save and _load_transition_matrix of
    switss/model/mdp.py 118-182 and dtmc.py 101-141, parse_label_file of
    switss/prism/prism.py 7-39, from_file of switss/model/amdp.py 202-216.

    A file is the sequence of its characters; characters are those with codes
    below 256, and encoding and decoding are taken to be inverse to each other.
    Numbers are exact: ["%f"] rounds to six decimals, [float] reads the decimal
    number exactly.  [int] reads digits; [float] reads digits with an optional
    sign, point and exponent; both raise ValueError on all other strings (python
    also reads underscores, signs of integers, infinities and nan).
    Probabilities are not negative (checked by the
    constructor), so ["%f"] needs no sign. *)
From Coq Require Import String List Arith NArith ZArith QArith Bool Ascii.
From Verif Require Import Base Num Matrix InvDict Amdp.
Import ListNotations.
Local Open Scope nat_scope.

Definition text := list ascii.
Definition str (s : string) : text := list_ascii_of_string s.
Definition unstr (t : text) : string := string_of_list_ascii t.

Definition LF : ascii := "010"%char.
Definition CR : ascii := "013"%char.
Definition SP : ascii := " "%char.
Definition QUOTE : ascii := """"%char.
Definition EQUALS : ascii := "="%char.
Definition COLON : ascii := ":"%char.
Definition DOT : ascii := "."%char.

(** ** Numbers *)

Definition is_digit (c : ascii) : bool := (48 <=? nat_of_ascii c) && (nat_of_ascii c <=? 57).
Definition digit (d : N) : ascii := ascii_of_N (48 + d).
Definition value (c : ascii) : N := (N_of_ascii c - 48)%N.

(** ["%d"] *)
Fixpoint show_fuel (fuel : nat) (n : N) : text :=
  match fuel with
  | O => []
  | S f => if (n <? 10)%N then [digit n] else show_fuel f (n / 10) ++ [digit (n mod 10)]
  end.
Definition show (n : N) : text := show_fuel (S (N.size_nat n)) n.
Definition show_nat (n : nat) : text := show (N.of_nat n).

(** [int(..)] *)
Definition read_digits (t : text) : N := fold_left (fun a c => (10 * a + value c)%N) t 0%N.
Definition read_int (t : text) : res nat :=
  match t with [] => Err ValueError | _ => if forallb is_digit t then Ok (N.to_nat (read_digits t)) else Err ValueError end.

(** ["%f"] *)
Definition pad6 (k : N) : text := map (fun e => digit (k / 10 ^ e mod 10)) [5; 4; 3; 2; 1; 0]%N.
Definition show_f (q : Q) : text :=
  let k := Z.to_N (qround (q * inject_Z (10 ^ 6))) in show (k / 10 ^ 6) ++ DOT :: pad6 (k mod 10 ^ 6).

(** [float(..)] *)
Fixpoint cut_dot (t : text) : text * option text :=
  match t with
  | [] => ([], None)
  | c :: r => if Ascii.eqb c DOT then ([], Some r) else let (a, b) := cut_dot r in (c :: a, b)
  end.
Definition read_unsigned (t : text) : res Q :=
  let (a, b) := cut_dot t in
  let f := match b with Some f => f | None => [] end in
  if forallb is_digit a && forallb is_digit f && negb (length (a ++ f) =? 0) then
    Ok (Z.of_N (read_digits (a ++ f)) # Z.to_pos (10 ^ Z.of_nat (length f)))
  else Err ValueError.
Definition take_sign (t : text) : bool * text :=
  match t with
  | [] => (false, [])
  | c :: r => if Ascii.eqb c "-"%char then (true, r) else if Ascii.eqb c "+"%char then (false, r) else (false, t)
  end.
Fixpoint cut_exp (t : text) : text * option text :=
  match t with
  | [] => ([], None)
  | c :: r => if Ascii.eqb c "e"%char || Ascii.eqb c "E"%char then ([], Some r) else let (a, b) := cut_exp r in (c :: a, b)
  end.
Definition read_exp (t : text) : res Z :=
  let (neg, d) := take_sign t in
  match d with
  | [] => Err ValueError
  | _ => if forallb is_digit d then Ok (if neg then (- Z.of_N (read_digits d))%Z else Z.of_N (read_digits d)) else Err ValueError
  end.
Definition read_float (t : text) : res Q :=
  let (neg, t) := take_sign t in
  let (m, e) := cut_exp t in
  let* q := read_unsigned m in
  let* q := match e with
            | None => Ok q
            | Some e => let* x := read_exp e in Ok (q * Qpower 10 x)%Q
            end in
  Ok (if neg then (- q)%Q else q).

(** ** Text *)

(** [str.split()] *)
Definition is_space (c : ascii) : bool :=
  let n := nat_of_ascii c in
  ((9 <=? n) && (n <=? 13)) || ((28 <=? n) && (n <=? 32)) || (n =? 133) || (n =? 160).
Fixpoint words_from (cur : text) (t : text) : list text :=
  match t with
  | [] => match cur with [] => [] | _ => [cur] end
  | c :: r => if is_space c then match cur with [] => words_from [] r | _ => cur :: words_from [] r end
              else words_from (cur ++ [c]) r
  end.
Definition words (t : text) : list text := words_from [] t.

(** Opening a file for reading translates line ends. *)
Fixpoint universal (t : text) : text :=
  match t with
  | [] => []
  | c :: r => if Ascii.eqb c CR then
                match r with
                | d :: r' => if Ascii.eqb d LF then universal r else LF :: universal r
                | [] => [LF]
                end
              else c :: universal r
  end.

(** The lines of a file, each with its line end. *)
Fixpoint lines_from (cur : text) (t : text) : list text :=
  match t with
  | [] => match cur with [] => [] | _ => [cur] end
  | c :: r => if Ascii.eqb c LF then (cur ++ [LF]) :: lines_from [] r else lines_from (cur ++ [c]) r
  end.
Definition read_lines (t : text) : list text := lines_from [] (universal t).

(** [" ".join(..)] *)
Fixpoint join (l : list text) : text :=
  match l with
  | [] => []
  | [x] => x
  | x :: r => x ++ SP :: join r
  end.

(** ** Writing *)

(** mdp.py 118-127 and dtmc.py 101-109: the .tra file. *)
Definition save_tra (m : amdp) : res text :=
  let nnz := length (mitems (a_P m)) in
  match a_kind m with
  | KMdp =>
      foldM (fun t (e : nat * nat * Q) =>
               let '((i, d), p) := e in
               if Qlt_bool 0 p then
                 let* (s, a) := of_opt KeyError (a_inv m i) in
                 Ok (t ++ join [show_nat s; show_nat a; show_nat d; show_f p] ++ [LF])
               else Ok t)
            (mitems (a_P m)) (join [show_nat (a_N m); show_nat (a_C m); show_nat nnz] ++ [LF])
  | KDtmc =>
      foldM (fun t (e : nat * nat * Q) =>
               let '((i, d), p) := e in
               let* (s, _) := of_opt KeyError (a_inv m i) in
               Ok (t ++ join [show_nat s; show_nat d; show_f p] ++ [LF]))
            (mitems (a_P m)) (join [show_nat (a_N m); show_nat nnz] ++ [LF])
  end.

(** [list.index] *)
Fixpoint index_of (l : string) (ls : list string) : res nat :=
  match ls with
  | [] => Err ValueError
  | x :: r => if String.eqb l x then Ok 0 else let* k := index_of l r in Ok (S k)
  end.

(** mdp.py 129-137 and dtmc.py 111-119: the .lab file. *)
Definition save_lab (m : amdp) : res text :=
  let names := dkeys (fwd (a_slab m)) in
  let header := map (fun il : nat * string => show_nat (fst il) ++ EQUALS :: QUOTE :: str (snd il) ++ [QUOTE]) (combine (seq 0 (length names)) names) in
  let* items := of_opt AttributeError (bwd (force_inv String.eqb Nat.eqb (a_slab m))) in
  foldM (fun t (e : nat * list string) =>
           match snd e with
           | [] => Ok t
           | ls => let* ids := mapM (fun l => index_of l names) ls in
                   Ok (t ++ (show_nat (fst e) ++ COLON :: SP :: join (map show_nat ids)) ++ [LF])
           end)
        items (join header ++ [LF]).

(** ** Reading *)

(** prism.py 19, 23: the matches of [([0-9]+)="(.* ?)"] in one line (the
    pattern has no space).  A digit run followed by ["="] and a quote starts a
    match, the next quote of the line ends it; without one there is no further
    match in the line. *)
Inductive mark_state := MOut (ds : text) | MEq (ds : text) | MIn (ds label : text).
Fixpoint marks (st : mark_state) (t : text) : list (text * text) :=
  match t with
  | [] => []
  | c :: r =>
      match st with
      | MOut ds => if is_digit c then marks (MOut (ds ++ [c])) r
                   else if Ascii.eqb c EQUALS then match ds with [] => marks (MOut []) r | _ => marks (MEq ds) r end
                   else marks (MOut []) r
      | MEq ds => if Ascii.eqb c QUOTE then marks (MIn ds []) r
                  else if is_digit c then marks (MOut [c]) r else marks (MOut []) r
      | MIn ds l => if Ascii.eqb c QUOTE then (ds, l) :: marks (MOut []) r
                    else if Ascii.eqb c LF then [] else marks (MIn ds (l ++ [c])) r
      end
  end.

(** prism.py 20, 30: the first match of [([0-9]+):([\W,0-9]+)].  The second
    group is the longest sequence without word characters other than digits. *)
Definition is_word (c : ascii) : bool :=
  let n := nat_of_ascii c in
  is_digit c || ((65 <=? n) && (n <=? 90)) || (n =? 95) || ((97 <=? n) && (n <=? 122)) ||
  (n =? 170) || (n =? 178) || (n =? 179) || (n =? 181) || (n =? 185) || (n =? 186) || ((188 <=? n) && (n <=? 190)) ||
  ((192 <=? n) && (n <=? 214)) || ((216 <=? n) && (n <=? 246)) || (248 <=? n).
Fixpoint take_nonword (t : text) : text :=
  match t with
  | [] => []
  | c :: r => if is_digit c || negb (is_word c) then c :: take_nonword r else []
  end.
Fixpoint line_match (ds : text) (t : text) : option (text * text) :=
  match t with
  | [] => None
  | c :: r => if is_digit c then line_match (ds ++ [c]) r
              else if Ascii.eqb c COLON then
                match ds, take_nonword r with
                | _ :: _, _ :: _ => Some (ds, take_nonword r)
                | _, _ => line_match [] r
                end
              else line_match [] r
  end.

(** prism.py 7-39: the first component of the result.  Assigning a label id or
    a label again replaces the entry. *)
Definition parse_label_file (file : text) : res (dict string (list nat)) :=
  match read_lines file with
  | [] => Err IndexError
  | first :: rest =>
      let* (ids, sets) := foldM (fun (st : dict nat string * dict string (list nat)) (mk : text * text) =>
          let* k := read_int (fst mk) in
          let label := unstr (snd mk) in
          Ok (dset Nat.eqb (fst st) k label, dset String.eqb (snd st) label [])) (marks (MOut []) first) ([], []) in
      foldM (fun sets line =>
          let* (g1, g2) := of_opt AttributeError (line_match [] line) in
          let* s := read_int g1 in
          foldM (fun sets w =>
              let* k := read_int w in
              let* label := of_opt KeyError (dget Nat.eqb ids k) in
              let* cur := of_opt KeyError (dget String.eqb sets label) in
              Ok (dset String.eqb sets label (sadd Nat.eqb cur s))) (words g2) sets) rest sets
  end.

(** [line_split[k]] *)
Definition field (l : list text) (k : nat) : res text := of_opt IndexError (nth_error l k).
Definition int_field (l : list text) (k : nat) : res nat := let* w := field l k in read_int w.

(** [P.resize]: entries outside the new shape are dropped. *)
Definition mresize (P : mat) (r c : nat) : mat :=
  MkMat r c (filter (fun e : nat * nat * Q => (fst (fst e) <? r) && (snd (fst e) <? c)) (mitems P)).

(** mdp.py 142-182 *)
Record load_state := MkLoad { l_P : mat; l_idx : dict (nat * nat) nat; l_acts : dict string (list (nat * nat)); l_max : nat }.
Definition load_line (st : load_state) (line : text) : res load_state :=
  let ws := words line in
  let* s := int_field ws 0 in
  let* a := int_field ws 1 in
  let* d := int_field ws 2 in
  let* w := field ws 3 in
  let* p := read_float w in
  let acts := match ws with
              | [_; _; _; _; l] => side_add String.eqb pair_eqb (l_acts st) (unstr l) (s, a)
              | _ => l_acts st
              end in
  let* (i, idx, mx) := match dget pair_eqb (l_idx st) (s, a) with
                       | Some i => Ok (i, l_idx st, l_max st)
                       | None => let* idx := bput pair_eqb Nat.eqb (l_idx st) (s, a) (l_max st) in Ok (l_max st, idx, S (l_max st))
                       end in
  let* P := mset (l_P st) i d p in
  Ok (MkLoad P idx acts mx).
Definition load_mdp (file : text) : res load_state :=
  let (first, rest) := match read_lines file with [] => ([], []) | x :: r => (x, r) end in
  let ws := words first in
  let* n := int_field ws 0 in
  let* c := int_field ws 1 in
  foldM load_line rest (MkLoad (mresize (mzero 1 1) c n) [] [] 0).

(** dtmc.py 123-141 *)
Definition load_dtmc (file : text) : res mat :=
  foldM (fun P line =>
      let ws := words line in
      match ws with
      | [w; _] => let* n := read_int w in Ok (mresize P n n)
      | _ => let* s := int_field ws 0 in
             let* d := int_field ws 1 in
             let* w := field ws 2 in
             let* p := read_float w in
             mset P s d p
      end) (read_lines file) (mzero 1 1).

(** amdp.py 202-216 *)
Definition from_file (k : kind) (lab tra : text) : res amdp :=
  let* sl := parse_label_file lab in
  match k with
  | KMdp => let* st := load_mdp tra in mk_mdp (l_P st) (l_idx st) (l_acts st) sl None
  | KDtmc => let* P := load_dtmc tra in mk_dtmc P None sl None
  end.

(** [system.save(path)] followed by [cls.from_file(path + ".lab", path + ".tra")]. *)
Definition save_and_load (m : amdp) : res amdp :=
  let* tra := save_tra m in
  let* lab := save_lab m in
  from_file (a_kind m) lab tra.
