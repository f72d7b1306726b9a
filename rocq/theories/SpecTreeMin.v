(** Specification for the tree decomposition: least number of states of a
    witnessing subsystem, exact linear solvers, sets of states that are
    plausible as subsystems. *)
From Coq Require Import String List Arith ZArith QArith Bool.
From Verif Require Import Base Num Matrix SpecSystem SpecMdp SpecForm SpecBuilt SpecProb SpecSub SpecMilp SpecTree Amdp ReachForm.
Import ListNotations.
Local Open Scope nat_scope.

(** [k] is the least number of states of a subsystem reaching the threshold. *)
Definition min_witness (rf : rform) (t : Q) (k : nat) : Prop :=
  let n := a_N (rf_sys rf) - 2 in
  (exists keep, witness rf Min t keep /\ count keep n = k) /\ forall keep, witness rf Min t keep -> k <= count keep n.

(** Row [s] of the matrix belongs to state [s]. *)
Definition row_is_state (m : amdp) : Prop := forall s, s < a_N m -> a_inv m s = Some (s, 0).

(** [A x = b] for lists. *)
Definition dot (r x : list Q) : Q := sumQ (map (fun p => fst p * snd p)%Q (combine r x)).
Definition solves (A : list (list Q)) (b x : list Q) : Prop := length x = length b /\ Forall2 (fun r c => dot r x == c)%Q A b.

(** Every square system with a regular matrix is solved exactly. *)
Definition regular (n : nat) (A : list (list Q)) : Prop :=
  length A = n /\ (forall r, In r A -> length r = n) /\
  forall x, length x = n -> Forall (fun r => dot r x == 0)%Q A -> Forall (fun q => q == 0)%Q x.
Definition exact_linear (LS : list (list Q) -> list Q -> list Q) : Prop :=
  forall n A b, regular n A -> length b = n -> solves A b (LS A b).

(** Sets of states that can be a subsystem without useless states, looking at
    single transitions only: the initial state is kept, some kept state leads
    to target, each other kept state has a kept predecessor, and each kept state
    leads to target or to a kept state. *)
Definition leads (m : amdp) (u v : nat) : Prop := (0 < mget (a_P m) u v)%Q.
Definition plausible (rf : rform) (keep : nat -> bool) : Prop :=
  let m := rf_sys rf in let n := a_N m - 2 in
  keep (rf_init rf) = true /\
  (exists u, u < n /\ keep u = true /\ leads m u n) /\
  (forall v, v < n -> keep v = true -> v <> rf_init rf -> exists u, u < n /\ keep u = true /\ leads m u v) /\
  (forall u, u < n -> keep u = true -> leads m u n \/ exists v, v < n /\ keep v = true /\ leads m u v).

(** Whether a set is plausible depends on its having state [v]. *)
Definition toggle (keep : nat -> bool) (v u : nat) : bool := if u =? v then negb (keep u) else keep u.
Definition matters (rf : rform) (v : nat) : Prop := exists keep, plausible rf keep /\ ~ plausible rf (toggle keep v).

(** [order] is a topological order of the graph with vertices [0..k-1] and
    edges [es]. *)
Definition topological (k : nat) (es : list (nat * nat)) (order : list nat) : Prop :=
  NoDup order /\ (forall i, In i order <-> i < k) /\ forall i j, In (i, j) es -> exists a b c, order = a ++ i :: b ++ j :: c.

(** Edges between different parts of a partition. *)
Definition part_edge (rf : rform) (ps : list (list nat)) (i j : nat) : Prop :=
  i <> j /\ exists v w, In v (nth i ps []) /\ In w (nth j ps []) /\ leads (rf_sys rf) v w.

(** Everything the tree algorithm asks for: a chain in reachability form, its
    states partitioned into a tree of parts, an exact solver for linear
    equations, correct topological orders, and a positive threshold. *)
Definition tree_call (LS : list (list Q) -> list Q -> list Q) (TS : nat -> list (nat * nat) -> res (list nat)) (rf : rform) (ps : list (list nat)) (t : Q) : Prop :=
  built_form rf /\ exact_rows (a_P (rf_sys rf)) /\ a_kind (rf_sys rf) = KDtmc /\ row_is_state (rf_sys rf) /\ rf_init rf < a_N (rf_sys rf) - 2 /\
  partition_of (a_N (rf_sys rf) - 2) ps /\ In (rf_init rf) (nth 0 ps []) /\
  (forall i i' j, part_edge rf ps i j -> part_edge rf ps i' j -> i = i') /\
  (forall j, 0 < j -> j < length ps -> exists i, part_edge rf ps i j) /\
  exact_linear LS /\
  (forall es, (forall i j, In (i, j) es <-> part_edge rf ps i j) -> exists order, TS (length ps) es = Ok order /\ topological (length ps) es order) /\
  (0 < t)%Q.
