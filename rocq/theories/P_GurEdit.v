(** Property C112: editing the constraints of Gurobi models.  [post] keeps the
    ledger of the calls: what each number given out by add_constraint stands
    for; [meets n x d]: the values [x] of the [n] variables satisfy [d]. *)
From Coq Require Import List Arith ZArith QArith Qreals Reals Bool Lia Lra.
From Verif Require Import Base Num Milp SpecLp Gurobi GurEdit SpecGurEdit GurEditProofs.
Import ListNotations.
Local Open Scope nat_scope.

(** After any calls the solutions are those of the demands that have not been
    removed, numbers are never given out twice, and exactly the numbers of
    present constraints can be edited.  Missing: that add_to_constraint adds to
    the coefficient; by [post] it replaces it, see C112_adds_refuted. *)
Theorem C112_edits_partial : forall o m0 ops, milp_new o = Ok m0 -> let m := fold_left do_edit ops m0 in let n := fst (fold_left post ops (0, [])) in let ds := snd (fold_left post ops (0, [])) in
  length (mi_vars m) = n /\
  (forall x, feasible m x <-> (forall j v, nth_error (mi_vars m) j = Some v -> sat_var v (x j)) /\ forall i d, nth_error ds i = Some (Some d) -> meets n x d) /\
  (forall l s r m' i, g_add_constraint m l s r = Ok (m', i) -> i = length ds) /\
  (forall i, (exists m', g_remove_constraint m i = Ok m') <-> exists d, nth_error ds i = Some (Some d)) /\
  (forall i q v, (exists m', g_add_to_constraint m i q v = Ok m') <-> v < n /\ exists d, nth_error ds i = Some (Some d)) /\
  (forall i m', g_remove_constraint m i = Ok m' -> mi_vars m' = mi_vars m /\ mi_obj m' = mi_obj m /\ mi_dir m' = mi_dir m) /\
  (forall i q v m', g_add_to_constraint m i q v = Ok m' -> mi_vars m' = mi_vars m /\ mi_obj m' = mi_obj m /\ mi_dir m' = mi_dir m).
Proof. exact C112_edits_lemma. Qed.
Print Assumptions C112_edits_partial.

(** The claim that add_to_constraint adds [q * x_v] to the left hand side is
    false: the coefficient is replaced. *)
Theorem C112_adds_refuted : exists o m0 ops n d i q v x m', milp_new o = Ok m0 /\ fold_left post ops (0, []) = (n, [Some d]) /\ i = 0 /\ v < n /\
  g_add_to_constraint (fold_left do_edit ops m0) i q v = Ok m' /\ feasible m' x /\
  ~ SpecLp.rel (d_sense d) (dot n (d_coef d) x + Q2R q * x v)%R (Q2R (d_rhs d)).
Proof. exact C112_adds_lemma. Qed.
Print Assumptions C112_adds_refuted.

(** It holds if the constraint did not have the variable. *)
Theorem C112_adds_partial : forall o m0 ops i d q v m', milp_new o = Ok m0 -> let m := fold_left do_edit ops m0 in let n := fst (fold_left post ops (0, [])) in let ds := snd (fold_left post ops (0, [])) in
  nth_error ds i = Some (Some d) -> (d_coef d v == 0)%Q -> g_add_to_constraint m i q v = Ok m' ->
  forall x, feasible m' x <-> (forall j w, nth_error (mi_vars m) j = Some w -> sat_var w (x j)) /\ SpecLp.rel (d_sense d) (dot n (d_coef d) x + Q2R q * x v)%R (Q2R (d_rhs d)) /\ forall j d', j <> i -> nth_error ds j = Some (Some d') -> meets n x d'.
Proof. exact C112_new_lemma. Qed.
Print Assumptions C112_adds_partial.

(** Two variables and three constraints, the first of which repeats a variable;
    the second is removed, the first changed, a removed one cannot be edited,
    and the next constraint has number 3. *)
Definition edits_ex : list edit :=
  [EVar DReal None None; EVar DBinary None None; EAdd [(0, 1%Q); (0, 2%Q)] SLe 6%Q; EAdd [(1, 1%Q)] SGe 1%Q; EAdd [(0, 1%Q); (1, 1%Q)] SEq 2%Q;
   ERemove 1; ECoef 0 4%Q 1; ECoef 1 4%Q 1; EAdd [] SLe 1%Q; ERemove 7].
Example C112_nonvacuous : let m := fold_left do_edit edits_ex (MkMilp Minimise [] [] 0 None) in let st := fold_left post edits_ex (0, []) in
  milp_new Minimise = Ok (MkMilp Minimise [] [] 0 None) /\ fst st = 2 /\
  (exists d e, snd st = [Some d; None; Some e] /\ (d_coef d 0 == 3)%Q /\ d_coef d 1 = 4%Q /\ (d_coef e 0 == 1)%Q /\ (d_coef e 2 == 0)%Q) /\
  mi_constrs m = [(CName 0, MkConstr [(0, 3%Q); (1, 4%Q)] SLe 6%Q); (CName 2, MkConstr [(0, 1%Q); (1, 1%Q)] SEq 2%Q)] /\
  (exists m', g_add_constraint m [(1, 1%Q)] SLe 1%Q = Ok (m', 3)) /\ g_remove_constraint m 1 = Err TypeError /\ g_add_to_constraint m 0 1%Q 2 = Err IndexError.
Proof.
  split; [reflexivity|]. split; [reflexivity|]. split; [do 2 eexists; split; [reflexivity|]; repeat split|]. split; [vm_compute; reflexivity|]. split; [eexists; vm_compute; reflexivity|]. split; vm_compute; reflexivity.
Qed.

(** A third variable is new in the constraint with number 2. *)
Example C112_adds_nonvacuous : exists d m', nth_error (snd (fold_left post (edits_ex ++ [EVar DReal None None]) (0, []))) 2 = Some (Some d) /\ (d_coef d 2 == 0)%Q /\
  g_add_to_constraint (fold_left do_edit (edits_ex ++ [EVar DReal None None]) (MkMilp Minimise [] [] 0 None)) 2 5%Q 2 = Ok m'.
Proof. do 2 eexists. split; [reflexivity|]. split; [reflexivity|]. vm_compute. reflexivity. Qed.
