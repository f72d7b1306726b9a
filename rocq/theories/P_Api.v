(** Property C105: the documented ways to build linear models. *)
From Coq Require Import String List Arith ZArith QArith Qreals Reals Bool Lia Lra.
From Verif Require Import Base Num SpecMdp Milp SpecLp SolverApi SpecApi SolverApiProofs.
Import ListNotations.
Local Open Scope nat_scope.

(** C105, coefficients: lists, lists of lists, arrays and sparse matrices give
    the intended model. *)
Theorem C105_forms_partial : forall A b opt n M bv ov ds s o bounds, s <> OtherSense -> is_matrix A n M -> is_vector b bv -> is_vector opt ov ->
  ((exists m, milp_from_objects A b opt ds s o bounds = Ok m) <->
   o <> OtherObjective /\ length M <= length bv /\ n <= length ov /\ n <= length ds /\ (forall bs, bounds = Some bs -> n <= length bs) /\
   (forall j, j < n -> dom_of (nth j ds ""%string) <> OtherDomain)) /\
  forall m, milp_from_objects A b opt ds s o bounds = Ok m ->
  length (mi_vars m) = n /\ mi_dir m = o /\
  (forall x, objective m x = sumn n (fun j => Q2R (nth j ov 0%Q) * x j)%R) /\
  forall x, feasible m x <->
      (forall i, i < length M -> rel s (sumn n (fun j => Q2R (nth j (nth i M []) 0%Q) * x j)%R) (Q2R (nth i bv 0%Q))) /\
      (forall j, j < n -> sat_dom (dom_of (nth j ds ""%string)) (fst (bound_at bounds j)) (snd (bound_at bounds j)) (x j)).
Proof. exact C105_forms_lemma. Qed.
Print Assumptions C105_forms_partial.

(** The strings that name domains. *)
Theorem C105_domains : forall s, (dom_of s = DReal <-> s = "real"%string) /\ (dom_of s = DInteger <-> s = "integer"%string) /\ (dom_of s = DBinary <-> s = "binary"%string) /\
  (dom_of s = OtherDomain <-> s <> "real"%string /\ s <> "integer"%string /\ s <> "binary"%string).
Proof. exact dom_of_names. Qed.
Print Assumptions C105_domains.

(** LP.from_coefficients makes the same model with real variables, unless the
    matrix is a list of lists. *)
Theorem C105_lp_partial : forall A b opt n M bv ov s o, (forall l, A <> ORows l) -> is_matrix A n M -> is_vector b bv -> is_vector opt ov ->
  lp_from_objects A b opt s o = milp_from_objects A b opt (repeat "real"%string n) s o None.
Proof. exact lp_same. Qed.
Print Assumptions C105_lp_partial.

(** A list of lists, which the documentation allows, raises. *)
Theorem C105_lp_rows_refuted : exists A b opt n M bv ov m, is_matrix A n M /\ is_vector b bv /\ is_vector opt ov /\
  milp_from_objects A b opt (repeat "real"%string n) SLe Minimise None = Ok m /\ lp_from_objects A b opt SLe Minimise = Err AttributeError.
Proof.
  exists (ORows [[2; 1]; [4; -1]]%Q), (OList [10; 8]%Q), (OList [1; 1]%Q), 2, [[2; 1]; [4; -1]]%Q, [10; 8]%Q, [1; 1]%Q. eexists.
  split; [split; [|split; [reflexivity|discriminate]]|split; [split; [reflexivity|discriminate]|split; [split; [reflexivity|discriminate]|split; [vm_compute; reflexivity|reflexivity]]]].
  intros row [<-|[<-|[]]]; reflexivity.
Qed.
Print Assumptions C105_lp_rows_refuted.

(** "If None, no objective function will be set": it raises, always. *)
Theorem C105_no_objective_refuted : exists A b ds m, milp_from_objects A b (OList [0; 0]%Q) ds SLe Minimise None = Ok m /\ forall s o bounds, milp_from_objects A b ONone ds s o bounds = Err TypeError.
Proof. exists (ORows [[2; 1]; [4; -1]]%Q), (OList [10; 8]%Q), ["real"; "real"]%string. eexists. split; [vm_compute; reflexivity|reflexivity]. Qed.
Print Assumptions C105_no_objective_refuted.

(** C105, by hand: with one list of domains the model is the intended one, if
    no expression mentions a variable twice. *)
Theorem C105_hand_partial : forall o ds cs obj, o <> OtherObjective -> (forall d, In d ds -> dom_of d <> OtherDomain) ->
  (forall l s r, In (l, s, r) cs -> s <> OtherSense /\ (forall v q, In (v, q) l -> v < length ds) /\ NoDup (map fst l)) ->
  (forall v q, In (v, q) obj -> v < length ds) -> NoDup (map fst obj) ->
  exists m, by_hand o [VStrs ds] cs obj = Ok (m, returned (seq 0 (length ds))) /\ length (mi_vars m) = length ds /\ mi_dir m = o /\
    (forall x, objective m x = lin obj x) /\
    forall x, feasible m x <-> (forall l s r, In (l, s, r) cs -> rel s (lin l x) (Q2R r)) /\ forall j, j < length ds -> sat_dom (dom_of (nth j ds ""%string)) None None (x j).
Proof. exact by_hand_lemma. Qed.
Print Assumptions C105_hand_partial.

(** The call in the documentation of MILP, one argument per variable, raises
    (unless there is exactly one argument). *)
Theorem C105_hand_refuted : exists args o cs obj, args = [VStr "integer"; VStr "real"] /\ (exists r, by_hand o [VStrs ["integer"; "real"]%string] cs obj = Ok r) /\
  by_hand o args cs obj = Err TypeError /\ forall m args, length args <> 1 -> call_add_variables m args = Err TypeError.
Proof.
  eexists. exists Maximise, [([(0%nat, 2); (1%nat, 1)], SLe, 10)]%Q, [(0%nat, 1); (1%nat, 1)]%Q. split; [reflexivity|]. split; [eexists; vm_compute; reflexivity|]. split; [reflexivity|]. exact call_many.
Qed.
Print Assumptions C105_hand_refuted.

(** LP.add_variables raises for every number of variables. *)
Theorem C105_lp_hand_refuted : exists m, milp_new Maximise = Ok m /\ lp_add_variables m 2 = Err TypeError /\
  forall m k, lp_add_variables m k = Err (if k =? 1 then AssertionError else TypeError).
Proof. eexists. split; [reflexivity|]. split; [reflexivity|]. exact lp_add_lemma. Qed.
Print Assumptions C105_lp_hand_refuted.

(** A variable that occurs twice in a constraint counts only with its last
    coefficient. *)
Theorem C105_twice_refuted : exists ds cs obj m i x, by_hand Minimise [VStrs ds] cs obj = Ok (m, i) /\ feasible m x /\
  exists l r, In (l, SLe, r) cs /\ (forall v q, In (v, q) l -> v < length ds) /\ ~ (lin l x <= Q2R r)%R.
Proof.
  exists ["real"]%string, [([(0%nat, 1); (0%nat, 1)], SLe, 1)]%Q, [(0%nat, 1)]%Q. do 2 eexists. exists (fun _ => 1%R). split; [reflexivity|]. split.
  - split; simpl.
    + intros [|[|j]] v E; try discriminate. injection E as <-. split; [exact I|split; [exact I|discriminate]].
    + intros k c [E|[]]. injection E as <- <-. unfold sat_constr, rel; simpl. unfold Q2R; simpl. lra.
  - exists [(0%nat, 1); (0%nat, 1)]%Q, 1%Q. split; [left; reflexivity|]. split; [intros v q [E|[E|[]]]; injection E as <- <-; simpl; lia|]. simpl. unfold Q2R; simpl. lra.
Qed.
Print Assumptions C105_twice_refuted.

(** The example of the documentation of MILP, with a list. *)
Example C105_nonvacuous : exists m i, by_hand Maximise [VStrs ["integer"; "real"]%string]
    [([(0%nat, 2); (1%nat, 1)], SLe, 10); ([(0%nat, 4); (1%nat, -1)], SLe, 8); ([(0%nat, -8); (1%nat, 2)], SLe, 2); ([(0%nat, 1)], SGe, 0); ([(1%nat, 1)], SGe, 0)]%Q [(0%nat, 1); (1%nat, 1)]%Q = Ok (m, i) /\
  unpack2 i = Ok (0, 1) /\
  (exists m, milp_from_objects (OArr2 2 [[2; 1]; [4; -1]; [-8; 2]; [-1; 0]; [0; -1]]%Q) (OArr1 [10; 8; 2; 0; 0]%Q) (OArr1 [1; 1]%Q) ["integer"; "real"]%string SLe Maximise None = Ok m) /\
  is_matrix (OArr2 2 [[2; 1]; [4; -1]]%Q) 2 [[2; 1]; [4; -1]]%Q /\ is_vector (OArr1 [10; 8]%Q) [10; 8]%Q /\ is_vector (ORows [[10]; [8]]%Q) [10; 8]%Q /\ is_vector (OArr2 2 [[10; 1]; [8; 2]]%Q) [10; 8]%Q.
Proof.
  do 2 eexists. split; [vm_compute; reflexivity|]. split; [reflexivity|]. split; [eexists; vm_compute; reflexivity|].
  split; [split; [intros row [<-|[<-|[]]]; reflexivity|split; reflexivity]|]. split; [split; [reflexivity|discriminate]|].
  split; [split; [exists 1; intros row [<-|[<-|[]]]; reflexivity|split; [repeat constructor|discriminate]]|]. split; [intros row [<-|[<-|[]]]; reflexivity|repeat constructor].
Qed.
