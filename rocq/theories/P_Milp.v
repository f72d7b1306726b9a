(** Properties C35-C37: linear models. *)
From Coq Require Import List Arith ZArith QArith Qreals Reals Bool Lia Lra.
From Verif Require Import Base SpecMdp Milp SpecLp MilpProofs.
Import ListNotations.
Local Open Scope nat_scope.

(** C35.  [sumn n (fun j => A i j * x j)] is row [i] applied to [x]. *)
Theorem C35_feasible_set : forall A n b opt domains s o bounds m, s <> OtherSense -> (forall row, In row A -> length row = n) ->
  from_coefficients A n b opt domains s o bounds = Ok m ->
  length (mi_vars m) = n /\ mi_dir m = o /\
  (forall x, objective m x = sumn n (fun j => Q2R (nth j opt 0%Q) * x j)%R) /\
  forall x, feasible m x <->
      (forall i, i < length A -> rel s (sumn n (fun j => Q2R (nth j (nth i A []) 0%Q) * x j)%R) (Q2R (nth i b 0%Q))) /\
      (forall j, j < n -> sat_dom (nth j domains OtherDomain) (fst (bound_at bounds j)) (snd (bound_at bounds j)) (x j)).
Proof. exact C35_lemma. Qed.
Print Assumptions C35_feasible_set.

(** When the model is built. *)
Theorem C35_defined : forall A n b opt domains s o bounds, s <> OtherSense -> (forall row, In row A -> length row = n) ->
  ((exists m, from_coefficients A n b opt domains s o bounds = Ok m) <->
   o <> OtherObjective /\ length A <= length b /\ n <= length opt /\ n <= length domains /\ (forall bs, bounds = Some bs -> n <= length bs) /\
   (forall j, j < n -> nth j domains OtherDomain <> OtherDomain)).
Proof. exact C35_built_lemma. Qed.
Print Assumptions C35_defined.

Example C35_nonvacuous : exists m,
  from_coefficients [[2; 1]; [4; -1]; [0; 3]]%Q 2 [10; 8; 2]%Q [1; 1]%Q [DInteger; DReal] SLe Maximise (Some [(Some 0, None); (None, Some 5)]%Q) = Ok m.
Proof. eexists. vm_compute. reflexivity. Qed.

(** C36 is false: coefficients of an earlier objective stay. *)
Theorem C36_objective_replaced_refuted : exists m m1 m2 e1 e2 x, set_objective m e1 = Ok m1 /\ set_objective m1 e2 = Ok m2 /\ NoDup (map fst e2) /\
  objective m2 x <> lin e2 x.
Proof. exact C36_refuted_lemma. Qed.
Print Assumptions C36_objective_replaced_refuted.

(** It holds if the new objective mentions every variable that got a non-zero
    coefficient before. *)
Theorem C36_objective_replaced_partial : forall es m m1 e m2, mi_obj m = None ->
  foldM set_objective es m = Ok m1 -> set_objective m1 e = Ok m2 -> NoDup (map fst e) ->
  (forall e' v q, In e' es -> In (v, q) e' -> In v (map fst e) \/ (q == 0)%Q) ->
  forall x, objective m2 x = lin e x.
Proof. exact C36_partial_seq. Qed.
Print Assumptions C36_objective_replaced_partial.

Example C36_nonvacuous : exists m1 m2,
  foldM set_objective [[(0, 0%Q); (1, 2%Q)]; [(1, 5%Q)]] c36_model = Ok m1 /\ set_objective m1 [(1, 3%Q)] = Ok m2 /\ objective m2 (fun _ => 1%R) = 3%R.
Proof. do 2 eexists. split; [reflexivity|]. split; [reflexivity|]. unfold objective; simpl. unfold Q2R; simpl. lra. Qed.

(** C37 is false: the number returned by add_constraint is not a key of the
    dictionary it is removed from. *)
Theorem C37_removable_refuted : exists m l s r m' i, add_constraint m l s r = Ok (m', i) /\ remove_constraint m' (CInt i) = Err KeyError.
Proof. exact C37_refuted_ex. Qed.
Print Assumptions C37_removable_refuted.

(** Removal by the returned number fails for every model. *)
Theorem C37_number_never_removable : forall o m0 ops l s r m' i, milp_new o = Ok m0 ->
  add_constraint (fold_left do_cop ops m0) l s r = Ok (m', i) -> remove_constraint m' (CInt i) = Err KeyError.
Proof. exact C37_refuted_all. Qed.
Print Assumptions C37_number_never_removable.

(** Removing by the name "c<i>" works as documented, at any later time. *)
Theorem C37_removable_partial : forall o m0 ops0 l s r m' i ops, milp_new o = Ok m0 ->
  add_constraint (fold_left do_cop ops0 m0) l s r = Ok (m', i) -> ~ In (RemC (CName i)) ops ->
  let m1 := fold_left do_cop ops m' in
  exists m2, remove_constraint m1 (CName i) = Ok m2 /\ mi_vars m2 = mi_vars m1 /\ mi_obj m2 = mi_obj m1 /\
    forall k c, In (k, c) (mi_constrs m2) <-> In (k, c) (mi_constrs m1) /\ k <> CName i.
Proof. exact C37_partial_all. Qed.
Print Assumptions C37_removable_partial.

Example C37_nonvacuous : exists m0 m' i m2, milp_new Minimise = Ok m0 /\
  add_constraint (fold_left do_cop [AddC [] SGe 1%Q; AddC [] SLe 2%Q; RemC (CName 0)] m0) [] SLe 3%Q = Ok (m', i) /\
  remove_constraint m' (CName i) = Ok m2 /\ i = 2.
Proof. do 4 eexists. repeat split. Qed.
