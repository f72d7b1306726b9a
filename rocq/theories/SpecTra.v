(** Specification: explicit models in prism's file format, and the systems they
    describe.  The grammar is independent of the functions that read files. *)
From Coq Require Import String List Arith NArith ZArith QArith Bool Ascii.
From Verif Require Import Base Num Matrix SpecSystem SpecBuilt SpecFiles SpecPrism Amdp.
Import ListNotations.
Local Open Scope nat_scope.

Definition SPACE : ascii := " "%char.
Definition natural (t : chars) (n : nat) : Prop := decimal t (N.of_nat n).

(** Decimal numbers: sign, digits with an optional point, optional exponent. *)
Inductive sign : chars -> Z -> Prop :=
| sign_none : sign [] 1
| sign_plus : sign ["+"%char] 1
| sign_minus : sign ["-"%char] (-1).
Inductive mantissa : chars -> N -> nat -> Prop :=
| mant_int : forall t n, decimal t n -> mantissa t n 0
| mant_point : forall a f n, decimal (a ++ f) n -> mantissa (a ++ "."%char :: f) n (length f).
Inductive exponent : chars -> Z -> Prop :=
| exp_none : exponent [] 0
| exp_some : forall c s sv t n, c = "e"%char \/ c = "E"%char -> sign s sv -> decimal t n -> exponent (c :: s ++ t) (sv * Z.of_N n).
Definition number (t : chars) (q : Q) : Prop :=
  exists s sv m n k e x, t = s ++ m ++ e /\ sign s sv /\ mantissa m n k /\ exponent e x /\
    (q == inject_Z (sv * Z.of_N n) * Qpower 10 (x - Z.of_nat k))%Q.

(** Words of printable characters. *)
Definition word (t : chars) : Prop := t <> [] /\ forall c, In c t -> 33 <= nat_of_ascii c <= 126.

(** Every line ends with a line feed. *)
Definition lines (ls : list chars) : chars := concat (map (fun l => l ++ ["010"%char]) ls).

(** A transition: source, action, destination, probability, and the name of
    the action. *)
Record entry := Entry { e_src : nat; e_act : nat; e_dst : nat; e_prob : Q; e_name : option chars }.
Definition name_words (o : option chars) : list chars := match o with Some l => [l] | None => [] end.
Definition mdp_row (t : chars) (e : entry) : Prop :=
  exists s a d p, fields SPACE t ([s; a; d; p] ++ name_words (e_name e)) /\ natural s (e_src e) /\ natural a (e_act e) /\ natural d (e_dst e) /\ number p (e_prob e) /\
    (forall l, e_name e = Some l -> word l).
Definition dtmc_row (t : chars) (e : entry) : Prop :=
  e_act e = 0 /\
  exists s d p, fields SPACE t ([s; d; p] ++ name_words (e_name e)) /\ natural s (e_src e) /\ natural d (e_dst e) /\ number p (e_prob e) /\
    (forall l, e_name e = Some l -> word l).

(** Transition files of decision processes with [N] states and [C] choices, and
    of chains with [N] states. *)
Definition mdp_file (f : chars) (N C : nat) (es : list entry) : Prop :=
  exists h ts n c t T, f = lines (h :: ts) /\ fields SPACE h [n; c; t] /\ natural n N /\ natural c C /\ natural t T /\ Forall2 mdp_row ts es.
Definition dtmc_file (f : chars) (N : nat) (es : list entry) : Prop :=
  exists h ts n t T, f = lines (h :: ts) /\ fields SPACE h [n; t] /\ natural n N /\ natural t T /\ Forall2 dtmc_row ts es.

(** Label files: numbered names in the first line, then for states the numbers
    of their labels. *)
Definition mark_word (t : chars) (il : nat * string) : Prop :=
  exists d, natural d (fst il) /\ plain (snd il) /\ t = d ++ "="%char :: """"%char :: list_ascii_of_string (snd il) ++ [""""%char].
Inductive header : chars -> list (nat * string) -> Prop :=
| header_nil : header [] []
| header_one : forall t il, mark_word t il -> header t [il]
| header_more : forall t il r l, mark_word t il -> header r l -> header (t ++ SPACE :: r) (il :: l).
Definition lab_row (t : chars) (r : nat * list nat) : Prop :=
  exists d rest ws, natural d (fst r) /\ t = d ++ ":"%char :: SPACE :: rest /\ fields SPACE rest ws /\ Forall2 natural ws (snd r).
Definition lab_file (f : chars) (names : list (nat * string)) (rows : list (nat * list nat)) : Prop :=
  exists h ts, f = lines (h :: ts) /\ header h names /\ Forall2 lab_row ts rows.

(** Every number of a label is declared, once. *)
Definition declared_once (names : list (nat * string)) (rows : list (nat * list nat)) : Prop :=
  NoDup (map fst names) /\ forall s ids k, In (s, ids) rows -> In k ids -> In k (map fst names).
Definition labelled (names : list (nat * string)) (rows : list (nat * list nat)) (l : string) (s : nat) : Prop :=
  exists k ids, In (k, l) names /\ In (s, ids) rows /\ In k ids.

(** States in range, one line per transition. *)
Definition well_formed (N : nat) (es : list entry) : Prop :=
  (forall e, In e es -> e_src e < N /\ e_dst e < N) /\ NoDup (map (fun e => (e_src e, e_act e, e_dst e)) es).

(** The state-action pairs that occur. *)
Definition pairs (es : list entry) (ps : list (nat * nat)) : Prop :=
  NoDup ps /\ forall s a, In (s, a) ps <-> exists e, In e es /\ e_src e = s /\ e_act e = a.

(** The probability the file gives a transition, and the sum for a pair. *)
Definition given_prob (es : list entry) (s a d : nat) : Q :=
  sumQ (map e_prob (filter (fun e => (e_src e =? s) && (e_act e =? a) && (e_dst e =? d)) es)).
Definition given_sum (N : nat) (es : list entry) (s a : nat) : Q := sumQ (map (given_prob es s a) (seq 0 N)).

Definition probabilities (es : list entry) : Prop := forall e, In e es -> (0 <= e_prob e)%Q /\ (e_prob e <= 1)%Q.

(** The system has the states, pairs, probabilities and labels of the files. *)
Definition described (m : amdp) (k : kind) (N C : nat) (es : list entry) (names : list (nat * string)) (rows : list (nat * list nat)) : Prop :=
  a_kind m = k /\ a_N m = N /\ a_C m = C /\ a_rew m = None /\
  (forall s a, (exists i, i < C /\ a_inv m i = Some (s, a)) <-> exists e, In e es /\ e_src e = s /\ e_act e = a) /\
  (forall i s a d, i < C -> a_inv m i = Some (s, a) -> d < N -> (mget (a_P m) i d == given_prob es s a d)%Q) /\
  (forall l s, has_label m l s <-> labelled names rows l s).
Definition action_names (m : amdp) (es : list entry) : Prop :=
  forall l s a, In (s, a) (actions_by_label m l) <-> exists e, In e es /\ e_src e = s /\ e_act e = a /\ e_name e = Some (list_ascii_of_string l).
