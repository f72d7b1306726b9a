(** Specification: real points of the polytopes of certificates, groups of
    variables. *)
From Coq Require Import String List Arith ZArith QArith Qreals Reals Bool.
From Verif Require Import Base Num Matrix SccSpec SpecMdp SpecEc SpecSystem SpecForm SpecBuilt SpecProb SpecSub SpecLp Amdp ReachForm Milp.
Import ListNotations.
Local Open Scope nat_scope.

(** Number of variables: states or state-action pairs other than those of
    target and fail. *)
Definition cert_dim (rf : rform) (md : mode) : nat :=
  match md with Max => a_C (rf_sys rf) - 2 | _ => a_N (rf_sys rf) - 2 end.

(** The constraints of [z_constraints] and [y_constraints] for real points. *)
Definition polytope (rf : rform) (md : mode) (t : Q) (x : nat -> R) : Prop :=
  let m := rf_sys rf in let P := a_P m in let N := a_N m - 2 in let C := a_C m - 2 in
  match md with
  | Min =>
      (forall i s a, i < C -> a_inv m i = Some (s, a) ->
         (x s <= sumn N (fun d => Q2R (mget P i d) * x d) + Q2R (mget P i N))%R) /\
      (Q2R t <= x (rf_init rf))%R
  | Max =>
      (forall s, s < N ->
         (sumn C (fun i => if belongs (a_inv m) i s then x i else 0) - sumn C (fun i => Q2R (mget P i s) * x i)
            <= if s =? rf_init rf then 1 else 0)%R) /\
      (Q2R t <= sumn C (fun i => Q2R (mget P i N) * x i))%R
  | OtherMode => False
  end.

(** Variable [v] belongs to label [l]: the state, or the state of the pair,
    has the label. *)
Definition labelled_var (m : amdp) (md : mode) (l : string) (v : nat) : Prop :=
  match md with
  | Max => v < a_C m /\ exists s a, a_inv m v = Some (s, a) /\ has_label m l s
  | _ => has_label m l v
  end.

(** [gs] are the groups that should be minimised: without labels the single
    states (in mode max: the sets of pairs of one state, if [by_state]), with
    labels the sets of states (pairs) having the label, once per label.  In
    mode max labels without states give no group. *)
Definition grouping (rf : rform) (md : mode) (labels : option (list string)) (by_state : bool) (gs : list (list nat)) : Prop :=
  let m := rf_sys rf in
  match labels with
  | None =>
      if match md with Max => by_state | _ => false end then
        exists ss, NoDup ss /\ (forall s, In s ss <-> s < a_N m - 2) /\
          Forall2 (fun s G => NoDup G /\ forall i, In i G <-> i < a_C m - 2 /\ belongs (a_inv m) i s = true) ss gs
      else gs = map (fun i => [i]) (seq 0 (cert_dim rf md))
  | Some ls =>
      exists ks, NoDup ks /\ (forall l, In l ks <-> In l ls /\ (md = Max -> exists s, has_label m l s)) /\
        Forall2 (fun l G => NoDup G /\ forall v, In v G <-> labelled_var m md l v) ks gs
  end.

(** Number of indicators that are one. *)
Fixpoint ones (l : list nat) (x : nat -> R) : nat :=
  match l with
  | [] => 0
  | j :: r => (if Req_EM_T (x j) 1 then 1 else 0) + ones r x
  end.

(** The subsystem of the states [keep] reaches the threshold: minimal (maximal)
    probability, everything that leaves [keep] going to fail. *)
Definition witness (rf : rform) (md : mode) (t : Q) (keep : nat -> bool) : Prop :=
  let R := restrict (form_mdp rf) keep in
  exists p, match md with Max => IsPrMax | _ => IsPrMin end R (is_goal R) (rf_init rf) p /\ (Q2R t <= p)%R.

(** Some variable of the group is positive. *)
Definition touches (cert : list Q) (G : list nat) : bool := existsb (fun v => Qlt_bool 0 (nth v cert 0%Q)) G.

(** Average and sum of the values of a group. *)
Definition avg (e : list Q) (G : list nat) : Q := (sumQ (map (fun v => nth v e 0) G) / inject_Z (Z.of_nat (length G)))%Q.
Definition tot (e : list Q) (G : list nat) : Q := sumQ (map (fun v => nth v e 0) G)%Q.

(** If the answer is "optimal", the vector is a solution; in particular it has
    one entry per variable. *)
Definition sound_answer (m : milp) (r : sresult) : Prop := sr_status r = Optimal -> length (sr_vec r) = length (mi_vars m) /\ feasible m (vec (sr_vec r)).
Definition sized (S : solver) : Prop := forall lp, sr_status (S lp) = Optimal -> length (sr_vec (S lp)) = length (mi_vars lp).
