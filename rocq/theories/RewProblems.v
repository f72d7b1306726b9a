(** Model of formulations.py, problemform.py, milpexact.py, qsheur.py and
    qsheurparams.py applied to reward reachability forms, with the PuLP back
    end.  The Subsystem objects made from a reward form are represented by
    those of the underlying reachability form: subsystem.py 17-74 only use
    [supersystem.system], which is the same object; what [subsys] does with
    them is [rr_subsys] below. *)
From Coq Require Import String List Arith ZArith QArith Bool.
From Verif Require Import Base Num Matrix InvDict Graph Amdp ReachForm Milp RfLps Subsystem Formulations Problems RewardForm.
Import ListNotations.
Local Open Scope nat_scope.

(** formulations.py 82-106.  Line 87 reads [rf.index_by_state_action], which
    reward forms do not have (reward_reachability_form.py 20 stores it under a
    private name); the loop is entered unless the certificate is empty. *)
Definition rr_groups_from_labels (rr : rrform) (md : mode) (labels : option (list string)) (group_actions : bool)
  : res (list (list nat)) :=
  let* n := certificate_size (rr_rf rr) md in
  match labels with
  | None =>
      if match md with Max => group_actions | _ => false end then
        if n =? 0 then Ok [] else Err AttributeError
      else Ok (map (fun i => [i]) (seq 0 n))
  | Some _ => groups_from_labels (rr_rf rr) md labels group_actions
  end.

(** formulations.py 202-216: a reward form is no ReachabilityForm, so the
    bounds are always computed. *)
Definition rr_choose_bounds (S : solver) (rr : rrform) (A : list (list Q)) (n : nat) (b : list Q)
    (known : option (list Q)) : res (option (option (list Q))) :=
  if rr_is_ec_free rr then
    let* (st, u) := compute_upper_bounds S A n b in
    Ok match st with
       | Infeasible => None
       | Optimal => Some (Some u)
       | _ => Some known
       end
  else Ok (Some known).

(** formulations.py 231-241 *)
Definition rr_variable_bounds (rr : rrform) (md : mode) (ub : option (list Q)) (n : nat) : res (list (option Q * option Q)) :=
  mapM (fun v =>
      let ec := match md with Min => rr_in_proper_ec rr v | _ => false end in
      let* u := if ec then Ok (Some 0%Q) else
                match ub with
                | Some u => let* q := of_opt IndexError (nth_error u v) in Ok (Some q)
                | None => Ok None
                end in
      Ok (Some 0%Q, u)) (seq 0 n).

(** formulations.py 162-255; None is the result (None, None). *)
Definition rr_construct_milp (S : solver) (rr : rrform) (t : Q) (md : mode) (labels : option (list string)) (relaxed : bool)
    (known : option (list Q)) : res (option (milp * dict nat (list nat))) :=
  let* (A, b) := rr_fark_constraints rr t md in
  let* n := certificate_size (rr_rf rr) md in
  let* c := rr_choose_bounds S rr A n b known in
  match c with
  | None => Ok None
  | Some ub =>
      let* _ := assert_ (negb (negb relaxed && match md, ub with Max, None => true | _, _ => false end)) in
      let* groups := rr_groups_from_labels rr md labels (match md with Max => negb relaxed | _ => false end) in
      let* bounds := rr_variable_bounds rr md ub n in
      let* m := from_coefficients A n b (repeat 0%Q n) (repeat DReal n) SLe Minimise (Some bounds) in
      let* (m, ind) := add_indicator_constraints m ub groups (if relaxed then DReal else DBinary) in
      let* m := set_objective m (all_ones ind) in
      Ok (Some (m, ind))
  end.

(** milpexact.py 56-75 *)
Definition rr_milp_exact (SB S : solver) (rr : rrform) (t : Q) (md : mode) (labels : option (list string)) : gen :=
  match
    (let* c := rr_construct_milp SB rr t md labels false None in
     match c with
     | None => Ok (failure Infeasible)
     | Some (m, _) =>
         let r := S m in
         match sr_status r with
         | Optimal =>
             let* n := certificate_size (rr_rf rr) md in
             let cert := firstn n (sr_vec r) in
             let* w := mk_subsystem (rr_rf rr) cert md false in
             Ok (MkPRes Success (Some w) (Some (sr_val r)) (Some cert))
         | s => Ok (failure s)
         end
     end)
  with
  | Ok x => MkGen [x] None
  | Err e => MkGen [] (Some e)
  end.

(** Initializers and updaters for reward forms. *)
Definition rr_initializer := rrform -> mode -> dict nat (list nat) -> res (list (nat * Q)).
Definition rr_updater := rrform -> mode -> dict nat (list nat) -> list Q -> res (list (nat * Q) * list extra).

(** qsheur.py 80-122 *)
Definition rr_qs_run (SB : solver) (S : nat -> solver) (iterations : nat) (ini : rr_initializer) (up : rr_updater)
    (rr : rrform) (t : Q) (md : mode) (labels : option (list string)) : gen * list (milp * sresult) :=
  match rr_construct_milp SB rr t md labels true None with
  | Err e => (MkGen [] (Some e), [])
  | Ok None => (MkGen [failure Infeasible] None, [])
  | Ok (Some (m, ind)) =>
      match (let* n := certificate_size (rr_rf rr) md in let* obj := ini rr md ind in Ok (n, obj)) with
      | Err e => (MkGen [] (Some e), [])
      | Ok (n, obj) => qs_loop S (up rr md ind) (rr_rf rr) md n iterations 0 m obj
      end
  end.
Definition rr_qs_heur (SB : solver) (S : nat -> solver) (iterations : nat) (ini : rr_initializer) (up : rr_updater)
    (rr : rrform) (t : Q) (md : mode) (labels : option (list string)) : gen :=
  fst (rr_qs_run SB S iterations ini up rr t md labels).

(** qsheurparams.py 117-129, 131-152, 154-167: these do not use the form. *)
Definition rr_all_ones_init : rr_initializer := fun _ _ ind => Ok (all_ones ind).
Definition rr_inverse_result : rr_updater := fun rr => inverse_result (rr_rf rr).
Definition rr_fixed_zeros : rr_updater := fun rr => fixed_zeros (rr_rf rr).

(** qsheurparams.py 201-224 *)
Definition rr_inverse_reachability (S : solver) : rr_initializer := fun rr md ind =>
  let* pr := match md with Min => rr_max_z_state S rr | _ => rr_max_z_state_action S rr end in
  inverse_average pr ind.

(** qsheurparams.py 229-252 *)
Definition rr_inverse_frequency (S : solver) : rr_initializer := fun rr md ind =>
  let* e := match md with Min => rr_max_y_state S rr | _ => rr_max_y_state_action S rr end in
  inverse_sum e ind.

(** qsheurparams.py 256-281 *)
Definition rr_inverse_combined (S : solver) : rr_initializer := fun rr md ind =>
  let* e := match md with Min => rr_max_y_state S rr | _ => rr_max_y_state_action S rr end in
  let* pr := match md with Min => rr_max_z_state S rr | _ => rr_max_z_state_action S rr end in
  if length e =? length pr then inverse_sum (map (fun p => (fst p * snd p)%Q) (combine e pr)) ind
  else Err ValueError.

(** problemform.py 79-95: no upper bound for the threshold. *)
Definition rr_solveiter (it : rrform -> Q -> mode -> option (list string) -> gen)
    (rr : rrform) (t : Q) (md : mode) (labels : option (list string)) : res gen :=
  let* _ := assert_ (Qle_bool 0 t) in
  let* _ := assert_ (match md with OtherMode => false | _ => true end) in
  Ok (it rr t md labels).

(** problemform.py 49-53 *)
Definition rr_solve (it : rrform -> Q -> mode -> option (list string) -> gen)
    (rr : rrform) (t : Q) (md : mode) (labels : option (list string)) : res presult :=
  let* g := rr_solveiter it rr t md labels in
  match g_exn g with
  | Some e => Err e
  | None => match rev (g_items g) with
            | [] => Err IndexError
            | x :: _ => Ok x
            end
  end.

(** subsystem.py 82-127 for a subsystem whose supersystem is a reward form:
    line 127 reads [reach_form.fail_label], which reward forms do not have. *)
Definition rr_subsys (sub : subsystem) : res rform :=
  let m := rf_sys (sub_super sub) in
  let* mask := subsystem_mask sub in
  let* (n2o, _, nN) := number_states m mask in
  let* (index, _, nC) := number_rows m mask n2o in
  let fail := S nN in
  let target := nN in
  let* index := bput pair_eqb Nat.eqb index (fail, 0) (S nC) in
  let* _ := bput pair_eqb Nat.eqb index (target, 0) nC in
  Err AttributeError.
