(** Specification of the programs of HeapClient.v: what the calls answer, in
    terms of lists of keys and of the stored matrix. *)
From Coq Require Import List Arith ZArith QArith Bool.
From Verif Require Import Base Num Matrix Graph GraphSpec SccSpec Heap HeapClient.
Import ListNotations.
Local Open Scope nat_scope.

(** [keys]: those added so far, latest first. *)
Fixpoint tspec (keys : list nat) (calls : list tcall) (ans : list tans) : Prop :=
  match calls, ans with
  | [], [] => True
  | TAdd k _ :: cs, ADone :: l => tspec (k :: keys) cs l
  | TIn k :: cs, ABool b :: l => (b = true <-> In k keys) /\ tspec keys cs l
  | TKeys :: cs, AKeys r :: l => (NoDup r /\ forall x, In x r <-> In x keys) /\ tspec keys cs l
  | _, _ => False
  end.

(** How often a key is added that is there already. *)
Fixpoint again (keys : list nat) (calls : list tcall) : nat :=
  match calls with
  | [] => 0
  | TAdd k _ :: cs => (if in_dec Nat.eq_dec k keys then 1 else 0) + again (k :: keys) cs
  | _ :: cs => again keys cs
  end.

(** The popped values of a stack that holds [l]; [None] if there is nothing
    to pop. *)
Fixpoint sspec (l : list nat) (calls : list scall) : option (list nat) :=
  match calls with
  | [] => Some []
  | SPush x :: cs => sspec (x :: l) cs
  | SPop :: cs => match l with
                  | [] => None
                  | x :: r => match sspec r cs with Some o => Some (x :: o) | None => None end
                  end
  end.

(** Legal calls: indices below the number of states (and what the assertions
    of reachable demand); for end components at least one state. *)
Definition gvalid (P : mat) (c : gcall) : Prop :=
  match c with
  | GNeigh _ n _ => n < mcols P
  | GReach fs d bl => fs <> [] /\ d <> OtherDirection /\ (forall s, In s fs -> s < mcols P) /\ (forall s, In s bl -> s < mcols P)
  | GMec _ => 0 < mcols P
  end.

Definition gspec (P : mat) (inv : nat -> option (nat * nat)) (c : gcall) (a : gans) : Prop :=
  match c, a with
  | GNeigh fwd n act, ANeigh l =>
      l = map (fun x => (fst x, f32 (snd x)))
              (filter (fun x : nat * nat * Q => match act with None => true | Some b => snd (fst x) =? b end)
                      (if fwd then out_triples P inv n else in_triples P inv n))
  | GReach fs d bl, AMask l =>
      length l = mcols P /\
      forall n, n < mcols P ->
        (nth n l 0 = 1 /\ reach_avoid (fun s t => match d with Forward => edge P inv s t | _ => edge P inv t s end)
                                      (fun s => In s fs) (fun s => In s bl) n) \/
        (nth n l 0 = 0 /\ ~ reach_avoid (fun s t => match d with Forward => edge P inv s t | _ => edge P inv t s end)
                                        (fun s => In s fs) (fun s => In s bl) n)
  | GMec _, AMec comp proper k =>
      length comp = mcols P /\ length proper = k /\
      (forall n, n < mcols P -> nth n comp 0 < k) /\
      (forall c, c < k -> exists n, n < mcols P /\ nth n comp 0 = c) /\
      (forall u v, u < mcols P -> v < mcols P ->
         (nth u comp 0 = nth v comp 0 <-> u = v \/ exists X B, end_component P inv X B /\ X u /\ X v)) /\
      ((forall n, n < mcols P -> exists b d, pair_edge P inv n b d) ->
       forall n, n < mcols P -> (nth (nth n comp 0) proper false = true <-> in_some_ec P inv n))
  | _, _ => False
  end.

(** Blocks lost by the calls of maximal_end_components: at least as many as
    there are components, if there are several. *)
Definition gloss (a : gans) : nat := match a with AMec _ _ k => if 2 <=? k then k else 0 | _ => 0 end.
Definition glosses (l : list gans) : nat := fold_right (fun a n => gloss a + n) 0 l.

(** Answers of calls that lose nothing. *)
Definition no_loss (a : gans) : Prop := match a with AMec comp _ k => k = 1 /\ 2 <= length comp | _ => True end.

(** The matrix and the index fit together: every entry belongs to states.  (A
    row without index is allowed, it raises KeyError.) *)
Definition indices_ok (P : mat) (inv : nat -> option (nat * nat)) : Prop :=
  forall i d p, In ((i, d), p) (mitems P) -> d < mcols P /\ forall s a, inv i = Some (s, a) -> s < mcols P.

(** A call with an index that is no state (of a kind that python passes on
    unchecked), or end components of nothing. *)
Definition gwild (P : mat) (c : gcall) : Prop :=
  match c with
  | GNeigh _ n _ => mcols P <= n
  | GReach fs d bl => fs <> [] /\ d <> OtherDirection /\ exists s, (In s fs \/ In s bl) /\ mcols P <= s
  | GMec _ => mcols P = 0
  end.
