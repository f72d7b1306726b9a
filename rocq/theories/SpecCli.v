(** Specification for the command line tool. *)
From Coq Require Import String List Arith ZArith QArith Bool.
From Verif Require Import Base Num Matrix InvDict SpecSystem SpecBuilt SpecReduce SpecFiles SpecForm SccSpec SpecSub Amdp ReachForm Files Cli.
Import ListNotations.
Local Open Scope nat_scope.
Local Open Scope string_scope.

(** The two files at [p] describe the system [m]. *)
Definition stored (w : world) (k : kind) (p : string) (m : amdp) : Prop :=
  exists lab tra, w_fs w (p ++ ".lab") = Some (FText lab) /\ w_fs w (p ++ ".tra") = Some (FText tra) /\ from_file k lab tra = Ok m.

(** Nothing but these files changes. *)
Definition changes_only (ps : list string) (w w' : world) : Prop := forall p, ~ In p ps -> w_fs w' p = w_fs w p.

(** A system that can be reduced (property C12). *)
Definition reducible (m : amdp) (il tl ntl nfl : string) (init : nat) : Prop :=
  every_state_acts m /\ marks_states m tl /\ only_state m il init /\ init < a_N m /\ can_reach m tl init /\
  unused m ntl /\ unused m nfl /\ ntl <> nfl.

(** Where the commands write: [--output] or [--certificate] if given, else a
    name made from that of the model; one number per subsystem. *)
Definition or_default (o : option string) (d : string) : string := match o with Some x => x | None => d end.
Definition form_path (a : args) : string := or_default (output a) (modelpath a ++ "-rf").
Definition results_path (a : args) : string := or_default (certificate a) (modelpath a ++ ".certificates.json").

Definition part_path (E : env) (a : args) (iteration : json) : string := or_default (output a) (modelpath a ++ "-subsys") ++ "-" ++ e_fmt E iteration.

(** Arguments for a later command on the form that [rf] writes. *)
Definition on_output (a a' : args) : Prop :=
  modeltype a' = modeltype a /\ modelpath a' = form_path a /\ initial_label a' = initial_label a /\
  target_label_rf a' = target_label_rf a /\ fail_label_rf a' = fail_label_rf a.

Definition has_pair (m : amdp) (s a : nat) : Prop := exists i, i < a_C m /\ a_inv m i = Some (s, a).
Definition pair_prob (m : amdp) (s a d : nat) (q : Q) : Prop :=
  exists i, i < a_C m /\ a_inv m i = Some (s, a) /\ (mget (a_P m) i d == q)%Q.

(** The mapping file: four lists of equal length, that is, a list of pairs of
    pairs. *)
Definition column (j : json) (k : string) (l : list nat) : Prop := getitem j k = Ok (JArr (map jnat l)).
Definition mapping_file (j : json) (rows : list ((nat * nat) * (nat * nat))) : Prop :=
  column j "states" (map (fun e => fst (fst e)) rows) /\ column j "actions" (map (fun e => snd (fst e)) rows) /\
  column j "rfstates" (map (fun e => fst (snd e)) rows) /\ column j "rfactions" (map (fun e => snd (snd e)) rows).

(** [rows] is a bijection between the pairs of relevant states of [m] and the
    pairs of the states of [m'] before the last two, which keeps actions,
    labels and, before a target, probabilities. *)
Definition copies (m : amdp) (init : nat) (tl : string) (m' : amdp) (rows : list ((nat * nat) * (nat * nat))) : Prop :=
  NoDup (map fst rows) /\ NoDup (map snd rows) /\
  (forall s a, In (s, a) (map fst rows) <-> relevant m init tl s /\ has_pair m s a) /\
  (forall s a, In (s, a) (map snd rows) <-> s < a_N m' - 2 /\ has_pair m' s a) /\
  (forall s a s' a', In ((s, a), (s', a')) rows -> a' = a /\ (forall l, has_label m' l s' <-> has_label m l s)) /\
  (forall s a s' a' d b d' b', In ((s, a), (s', a')) rows -> In ((d, b), (d', b')) rows ->
     (s = d <-> s' = d') /\ (~ has_label m tl s -> forall q, pair_prob m s a d q <-> pair_prob m' s' a' d' q)).

(** A file of certificates that certify and subsystem can read: one method with
    its mode, and for every instance iteration, threshold and certificate. *)
Record cinst := MkCinst { en_iteration : json; en_threshold : Q; en_cert : list Q }.
Definition certificates_file (j : json) (md : string) (es : list cinst) : Prop :=
  (exists me, getitem j "method" = Ok me /\ getitem me "mode" = Ok (JStr md)) /\
  exists l, getitem j "instances" = Ok (JArr l) /\
    Forall2 (fun x e => getitem x "iteration" = Ok (en_iteration e) /\ getitem x "threshold" = Ok (JNum (en_threshold e)) /\
                        getitem x "certificate" = Ok (JArr (map JNum (en_cert e)))) l es.

(** When certify is to accept a certificate of "at least t": the Farkas
    constraints hold up to the tolerance, and in mode min the entries of states
    in end components are zero. *)
Definition accepted (m : amdp) (init : nat) (md : string) (t : Q) (v : list Q) (tol : Q) : Prop :=
  let n := a_N m - 2 in let c := a_C m - 2 in
  if String.eqb md "min" then
    (forall s, s < n -> in_some_ec (a_P m) (a_inv m) s -> (entry v s == 0)%Q) /\
    (forall i s a, i < c -> a_inv m i = Some (s, a) ->
       (entry v s <= sum_to n (fun d => mget (a_P m) i d * entry v d) + mget (a_P m) i n + tol)%Q) /\
    (t <= entry v init + tol)%Q
  else
    (forall s, s < n ->
       (sum_to c (fun i => if belongs (a_inv m) i s then entry v i else 0) - sum_to c (fun i => mget (a_P m) i s * entry v i)
          <= (if Nat.eqb s init then 1 else 0) + tol)%Q) /\
    (t <= sum_to c (fun i => mget (a_P m) i n * entry v i) + tol)%Q.

(** A certificate that can be checked at all. *)
Definition checkable (m : amdp) (md : string) (e : cinst) : Prop :=
  (0 <= en_threshold e)%Q /\ (en_threshold e <= 1)%Q /\
  length (en_cert e) = if String.eqb md "min" then a_N m - 2 else a_C m - 2.

Definition verdicts (es : list cinst) (bs : list bool) : list line :=
  map (fun x => Verdict (en_iteration (fst x)) (JNum (en_threshold (fst x))) (snd x)) (combine es bs).

(** The state of the file system and the output at the end, also after an
    exception. *)
Definition final (o : outcome) : world := match o with Exited w | Usage w | Traceback _ w => w end.

(** The instances and the mode of a file of certificates, whatever else it
    contains. *)
Definition file_mode (j : json) (md : string) : Prop := exists me, getitem j "method" = Ok me /\ getitem me "mode" = Ok (JStr md).
Definition file_certificate (j : json) (v : list Q) : Prop :=
  exists i l x c, getitem j "instances" = Ok i /\ elements i = Ok l /\ In x l /\ getitem x "certificate" = Ok c /\ as_vector c = Ok v.

(** The two files of a system are the same in both worlds. *)
Definition keeps (p : string) (w w' : world) : Prop :=
  w_fs w' (p ++ ".lab") = w_fs w (p ++ ".lab") /\ w_fs w' (p ++ ".tra") = w_fs w (p ++ ".tra").

(** [m'] is [m] with the label [l] on the states [S]. *)
Definition with_label (m : amdp) (l : string) (S : nat -> Prop) (m' : amdp) : Prop :=
  a_kind m' = a_kind m /\ a_N m' = a_N m /\ a_C m' = a_C m /\
  (forall s a, has_pair m' s a <-> has_pair m s a) /\
  (forall s a d q, pair_prob m' s a d q <-> pair_prob m s a d q) /\
  (forall l' s, has_label m' l' s <-> has_label m l' s \/ (l' = l /\ S s)).

(** The states a certificate selects. *)
Definition selected (m : amdp) (md : string) (v : list Q) (s : nat) : Prop :=
  s < a_N m - 2 /\
  if String.eqb md "min" then (0 < entry v s)%Q
  else exists i a, i < a_C m - 2 /\ a_inv m i = Some (s, a) /\ (0 < entry v i)%Q.
