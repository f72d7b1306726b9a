(** Specification: curves of a benchmark run. *)
From Coq Require Import String List Arith ZArith QArith.
From Verif Require Import Base BenchRun.
Import ListNotations.
Local Open Scope nat_scope.

(** The height at which the value [v] is drawn: failures may be replaced by a
    given value; optionally in units of 1000. *)
Definition height (timeout_val : option Q) (normalize : bool) (v y : Q) : Prop :=
  exists x, (((v == -1)%Q /\ timeout_val = Some x) \/ ((~ (v == -1)%Q \/ timeout_val = None) /\ x = v)) /\
    (y == if normalize then x / 1000 else x)%Q.

(** Points of the values with number [idx]. *)
Definition draws_values (run : list rentry) (timeout_val : option Q) (normalize : bool) (idx : nat) (pts : list (Q * option Q)) : Prop :=
  Forall2 (fun e p => fst p = e_thr e /\ exists v y, nth_error (e_values e) idx = Some (Some v) /\ snd p = Some y /\ height timeout_val normalize v y) run pts.

(** Points of the last times of each entry; between zero and one they are drawn
    as one if [cap]. *)
Definition time_height (timeout_val : option Q) (cap : bool) (t y : Q) : Prop :=
  ((t == -1)%Q /\ timeout_val = Some y) \/
  ((~ (t == -1)%Q \/ timeout_val = None) /\ (((0 <= t <= 1)%Q /\ cap = true /\ y = 1%Q) \/ ((~ (0 <= t <= 1)%Q \/ cap = false) /\ y = t))).
Definition draws_times (run : list rentry) (times : rentry -> list Q) (timeout_val : option Q) (cap : bool) (pts : list (Q * option Q)) : Prop :=
  Forall2 (fun e p => fst p = e_thr e /\ exists l t y, times e = (l ++ [t])%list /\ snd p = Some y /\ time_height timeout_val cap t y) run pts.

(** Every entry has [k] values, all numbers. *)
Definition even_run (k : nat) (run : list rentry) : Prop := forall e, In e run -> length (e_values e) = k /\ ~ In None (e_values e).
