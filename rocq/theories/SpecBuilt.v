(** Which objects can exist: systems and forms returned by a constructor. *)
From Coq Require Import String List Arith ZArith QArith Bool.
From Verif Require Import Base Num Matrix InvDict SpecSystem Amdp ReachForm.
Import ListNotations.
Local Open Scope nat_scope.

(** Arguments that are python dictionaries and sets, and a dok_matrix. *)
Definition good_args (P : mat) (idx : dict (nat * nat) nat) (al : dict string (list (nat * nat))) (sl : dict string (list nat)) : Prop :=
  wf_mat P /\ NoDup (map fst idx) /\ (NoDup (map fst al) /\ forall l s, In (l, s) al -> NoDup s) /\
  NoDup (map fst sl) /\ (forall l s, In (l, s) sl -> NoDup s).

Definition constructed (m : amdp) : Prop :=
  exists P idx al sl rew, good_args P idx al sl /\
    (mk_mdp P idx al sl rew = Ok m \/ mk_dtmc P (Some idx) sl rew = Ok m \/ mk_dtmc P None sl rew = Ok m).

(** Labels may be added later, by the method or through the dictionary of the
    labels of states. *)
Inductive built : amdp -> Prop :=
| built_new : forall m, constructed m -> built m
| built_label : forall m s l, built m -> built (add_label m s l)
| built_label_inv : forall m s l, built m -> built (add_label_inv m s l).

(** Forms built with the consistency check. *)
Definition built_form (rf : rform) : Prop :=
  exists rnd m il tl fl, built m /\ mk_rf rnd m il tl fl false = Ok rf.

(** Forms built with or without the check. *)
Definition built_any (rf : rform) : Prop :=
  exists rnd m il tl fl ign, built m /\ mk_rf rnd m il tl fl ign = Ok rf.

Definition has_label (m : amdp) (l : string) (s : nat) : Prop := In s (states_by_label m l).

(** Decidable version of [good_args] for concrete examples. *)
Fixpoint nodupb {A} (eqb : A -> A -> bool) (l : list A) : bool :=
  match l with [] => true | x :: r => negb (existsb (eqb x) r) && nodupb eqb r end.
Definition good_args_b (P : mat) (idx : dict (nat * nat) nat) (al : dict string (list (nat * nat))) (sl : dict string (list nat)) : bool :=
  nodupb pair_eqb (map fst (mitems P)) &&
  forallb (fun e : nat * nat * Q => (fst (fst e) <? mrows P) && (snd (fst e) <? mcols P) && negb (Qeq_bool (snd e) 0)) (mitems P) &&
  nodupb pair_eqb (map fst idx) && nodupb String.eqb (map fst al) && forallb (fun x : string * list (nat * nat) => nodupb pair_eqb (snd x)) al &&
  nodupb String.eqb (map fst sl) && forallb (fun x : string * list nat => nodupb Nat.eqb (snd x)) sl.
