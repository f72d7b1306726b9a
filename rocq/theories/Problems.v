(** Model of switss/problem/problemform.py, problemresult.py, milpexact.py,
    qsheur.py and qsheurparams.py for reachability forms and the PuLP back
    end.  Timeouts only influence the answers of the solver, which is
    arbitrary. *)
From Coq Require Import String List Arith ZArith QArith Bool.
From Verif Require Import Base Num Matrix InvDict Graph Amdp ReachForm Milp RfLps Subsystem Formulations.
Import ListNotations.
Local Open Scope nat_scope.

(** problemresult.py 3-31; the status is "success" or a solver status. *)
Inductive pstatus := Success | Failed (s : status).
Record presult := MkPRes {
  pr_status : pstatus;
  pr_sub : option subsystem;
  pr_value : option Q;
  pr_cert : option (list Q) }.

(** A generator: the values it yields and the exception that ends it, if
    any. *)
Record gen := MkGen { g_items : list presult; g_exn : option exn }.
Definition failure (s : status) : presult := MkPRes (Failed s) None None None.
Definition gcons (x : presult) (g : gen) : gen := MkGen (x :: g_items g) (g_exn g).

(** problemform.py 79-95: [it] is _solveiter.  The asserts are executed when
    solveiter is called. *)
Definition solveiter (it : rform -> Q -> mode -> option (list string) -> gen)
    (rf : rform) (t : Q) (md : mode) (labels : option (list string)) : res gen :=
  let* _ := assert_ (Qle_bool 0 t) in
  let* _ := assert_ (Qle_bool t 1) in
  let* _ := assert_ (match md with OtherMode => false | _ => true end) in
  Ok (it rf t md labels).

(** problemform.py 49-53: [deque(.., maxlen=1).pop()]. *)
Definition solve (it : rform -> Q -> mode -> option (list string) -> gen)
    (rf : rform) (t : Q) (md : mode) (labels : option (list string)) : res presult :=
  let* g := solveiter it rf t md labels in
  match g_exn g with
  | Some e => Err e
  | None => match rev (g_items g) with
            | [] => Err IndexError
            | x :: _ => Ok x
            end
  end.

(** milpexact.py 56-75.  [SB] is the solver of the upper bounds, [S] the
    solver of the model. *)
Definition milp_exact (SB S : solver) (rf : rform) (t : Q) (md : mode) (labels : option (list string)) : gen :=
  match
    (let* c := construct_milp SB rf t md labels false None in
     match c with
     | None => Ok (failure Infeasible)
     | Some (m, _) =>
         let r := S m in
         match sr_status r with
         | Optimal =>
             let* n := certificate_size rf md in
             let cert := firstn n (sr_vec r) in
             let* w := mk_subsystem rf cert md false in
             Ok (MkPRes Success (Some w) (Some (sr_val r)) (Some cert))
         | s => Ok (failure s)
         end
     end)
  with
  | Ok x => MkGen [x] None
  | Err e => MkGen [] (Some e)
  end.

(** Initializers and updaters (qsheurparams.py): given the form, the mode and
    the map from indicators to groups. *)
Definition initializer := rform -> mode -> dict nat (list nat) -> res (list (nat * Q)).
Definition extra := (list (nat * Q) * csense * Q)%type.
Definition updater := rform -> mode -> dict nat (list nat) -> list Q -> res (list (nat * Q) * list extra).

(** qsheur.py 101-122, the loop; [S] may answer differently in every round.
    The second component is not part of the code: it records the models given
    to the solver and its answers. *)
Fixpoint qs_loop (S : nat -> solver) (up : list Q -> res (list (nat * Q) * list extra)) (rf : rform) (md : mode) (n : nat)
    (rounds : nat) (i : nat) (m : milp) (obj : list (nat * Q)) : gen * list (milp * sresult) :=
  match rounds with
  | O => (MkGen [] None, [])
  | Datatypes.S rounds' =>
      match set_objective m obj with
      | Err e => (MkGen [] (Some e), [])
      | Ok m =>
          let r := S i m in
          match sr_status r with
          | Optimal =>
              let cert := firstn n (sr_vec r) in
              match mk_subsystem rf cert md false with
              | Err e => (MkGen [] (Some e), [(m, r)])
              | Ok w =>
                  let k := length (filter (Qlt_bool 0) (skipn n (sr_vec r))) in
                  let rest := match (let* (obj, cs) := up (sr_vec r) in let* m := add_constraints m cs in Ok (obj, m)) with
                              | Err e => (MkGen [] (Some e), [])
                              | Ok (obj, m) => qs_loop S up rf md n rounds' (Datatypes.S i) m obj
                              end in
                  (gcons (MkPRes Success (Some w) (Some (inject_Z (Z.of_nat k))) (Some cert)) (fst rest), (m, r) :: snd rest)
              end
          | s => (MkGen [failure s] None, [(m, r)])
          end
      end
  end.

(** qsheur.py 80-122 *)
Definition qs_run (SB : solver) (S : nat -> solver) (iterations : nat) (ini : initializer) (up : updater)
    (rf : rform) (t : Q) (md : mode) (labels : option (list string)) : gen * list (milp * sresult) :=
  match construct_milp SB rf t md labels true None with
  | Err e => (MkGen [] (Some e), [])
  | Ok None => (MkGen [failure Infeasible] None, [])
  | Ok (Some (m, ind)) =>
      match (let* n := certificate_size rf md in let* obj := ini rf md ind in Ok (n, obj)) with
      | Err e => (MkGen [] (Some e), [])
      | Ok (n, obj) => qs_loop S (up rf md ind) rf md n iterations 0 m obj
      end
  end.
Definition qs_heur (SB : solver) (S : nat -> solver) (iterations : nat) (ini : initializer) (up : updater)
    (rf : rform) (t : Q) (md : mode) (labels : option (list string)) : gen :=
  fst (qs_run SB S iterations ini up rf t md labels).

(** numpy's min and max of a list of numbers; the list is never empty here. *)
Definition qmin (a b : Q) : Q := if Qle_bool a b then a else b.
Definition qmax (a b : Q) : Q := if Qle_bool a b then b else a.
Definition e8 : Q := 100000000 # 1.
Definition e9 : Q := 1000000000 # 1.

Definition at_ (v : list Q) (i : nat) : res Q := of_opt IndexError (nth_error v i).

(** 117-129 *)
Definition all_ones_init : initializer := fun _ _ ind => Ok (all_ones ind).

(** 131-152: InverseResultUpdater; all weights are one. *)
Definition inverse_result : updater := fun _ _ ind last =>
  let* vs := mapM (fun g => at_ last (fst g)) ind in
  let c := qmin (fold_left qmax (map Qinv (filter (fun q => negb (Qeq_bool q 0)) vs)) (qmax 0 e8)) e9 in
  Ok (map (fun gv => (fst (fst gv), if Qlt_bool 0 (snd gv) then (1 * qmin (/ snd gv) c)%Q else c)) (combine ind vs), []).

(** 154-167: InverseResultFixedZerosUpdater *)
Definition fixed_zeros : updater := fun _ _ ind last =>
  let* vs := mapM (fun g => at_ last (fst g)) ind in
  Ok (map (fun gv => (fst (fst gv), if Qlt_bool 0 (snd gv) then (1 / snd gv)%Q else 0%Q)) (combine ind vs),
      map (fun gv => ([(fst (fst gv), 1%Q)], SEq, 0%Q)) (filter (fun gv => Qeq_bool (snd gv) 0) (combine ind vs))).

(** 215-224 (initialize of InverseReachabilityInitializer); an empty group
    divides by zero. *)
Definition inverse_average (pr : list Q) (ind : dict nat (list nat)) : res (list (nat * Q)) :=
  mapM (fun g =>
      let* vs := mapM (at_ pr) (snd g) in
      match vs with
      | [] => Err ZeroDivisionError
      | _ => let w := (sumQ vs / inject_Z (Z.of_nat (length vs)))%Q in
             Ok (fst g, (1 * qmin e9 (if Qlt_bool 0 w then 1 / w else e9))%Q)
      end) ind.

(** 201-224 *)
Definition inverse_reachability (S : solver) : initializer := fun rf md ind =>
  let* pr := match md with Min => max_z_state S rf | _ => max_z_state_action S rf end in
  inverse_average pr ind.

(** 244-252 and 273-281 *)
Definition inverse_sum (e : list Q) (ind : dict nat (list nat)) : res (list (nat * Q)) :=
  mapM (fun g =>
      let* vs := mapM (at_ e) (snd g) in
      let w := sumQ vs in
      Ok (fst g, if Qlt_bool 0 w then (1 * qmin e9 (1 / w))%Q else e8)) ind.

(** 229-252 *)
Definition inverse_frequency (S : solver) : initializer := fun rf md ind =>
  let* e := match md with Min => max_y_state S rf | _ => max_y_state_action S rf end in
  inverse_sum e ind.

(** 256-281 *)
Definition inverse_combined (S : solver) : initializer := fun rf md ind =>
  let* e := match md with Min => max_y_state S rf | _ => max_y_state_action S rf end in
  let* pr := match md with Min => max_z_state S rf | _ => max_z_state_action S rf end in
  if length e =? length pr then inverse_sum (map (fun p => (fst p * snd p)%Q) (combine e pr)) ind
  else Err ValueError.
