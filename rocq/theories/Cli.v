(** Model of the command line tool bin/switss: load_model, gen_rf and the
    commands rf, minimize, certify, subsystem and info (render: RenderCmd.v).

    What argparse hands over is the record [args]; its defaults (lines 288-328)
    are in [default_args].  The file system maps paths to contents; a file holds
    the text of a .tra or .lab file or a json document (the text of json
    documents is not modelled; reading one kind as the other raises ValueError).
    Of the printed text only the verdicts on certificates are recorded.
    Numbers of json documents are exact.  Solvers, the random numbers of the
    treaps, the conversion ["%s"] of json values, [int] and [float] of
    parameters and [copy.deepcopy] are arbitrary functions (record [env]). *)
From Coq Require Import String List Arith ZArith QArith Bool Ascii.
From Verif Require Import Base Num Matrix InvDict Graph Mec Amdp ReachForm Reduce Milp Formulations Subsystem Problems Gurobi Certificates Files.
Import ListNotations.
Local Open Scope nat_scope.
Local Open Scope string_scope.

(** ** Values *)

Inductive json := JNull | JBool (b : bool) | JNum (q : Q) | JStr (s : string) | JArr (l : list json) | JObj (d : list (string * json)).
Inductive file := FText (t : text) | FJson (j : json).
Definition fsys := string -> option file.
Definition store (fs : fsys) (p : string) (f : file) : fsys := fun q => if String.eqb q p then Some f else fs q.

(** Line 137: iteration, threshold and verdict; line 103: the verdict. *)
Inductive line := Verdict (iteration threshold : json) (valid : bool) | Checked (valid : bool).
Record world := MkWorld { w_fs : fsys; w_out : list line }.

(** Exceptions: those of the library, and open() of a path that is not there. *)
Inductive cexn := Py (e : exn) | NoSuchFile (path : string).
Inductive io (A : Type) := Done (a : A) (w : world) | Raised (e : cexn) (w : world).
Arguments Done {A}. Arguments Raised {A}.
Definition iobind {A B} (x : io A) (f : A -> world -> io B) : io B :=
  match x with Done a w => f a w | Raised e w => Raised e w end.
Definition lift {A} (r : res A) (w : world) : io A := match r with Ok a => Done a w | Err e => Raised (Py e) w end.
Definition say (l : line) (w : world) : world := MkWorld (w_fs w) (w_out w ++ [l])%list.
Definition write (p : string) (f : file) (w : world) : world := MkWorld (store (w_fs w) p f) (w_out w).
Fixpoint each {A} (f : A -> world -> io unit) (l : list A) (w : world) : io unit :=
  match l with [] => Done tt w | x :: r => iobind (f x w) (fun _ w => each f r w) end.

(** open(path) for reading. *)
Definition open_text (p : string) (w : world) : io text :=
  match w_fs w p with
  | None => Raised (NoSuchFile p) w
  | Some (FText t) => Done t w
  | Some (FJson _) => Raised (Py ValueError) w
  end.
Definition open_json (p : string) (w : world) : io json :=
  match w_fs w p with
  | None => Raised (NoSuchFile p) w
  | Some (FJson j) => Done j w
  | Some (FText _) => Raised (Py ValueError) w
  end.

(** [x[key]], [for .. in x], and the uses of numbers and modes of a document:
    True and False count as numbers; a mode that is not one of the two strings
    fails the asserts.  [np.array] of anything but a list of numbers raises
    here; in the code it is used first and raises later. *)
Definition getitem (j : json) (k : string) : res json :=
  match j with
  | JObj d => of_opt KeyError (dget String.eqb d k)
  | _ => Err TypeError
  end.
Definition elements (j : json) : res (list json) :=
  match j with
  | JArr l => Ok l
  | JObj d => Ok (map (fun e => JStr (fst e)) d)
  | JStr s => Ok (map (fun c => JStr (unstr [c])) (str s))
  | _ => Err TypeError
  end.
Definition as_number (j : json) : res Q :=
  match j with JNum q => Ok q | JBool true => Ok 1%Q | JBool false => Ok 0%Q | _ => Err TypeError end.
Definition as_vector (j : json) : res (list Q) :=
  match j with JArr l => mapM as_number l | _ => Err TypeError end.
Definition as_mode (j : json) : mode :=
  match j with
  | JStr s => if String.eqb s "min" then Min else if String.eqb s "max" then Max else OtherMode
  | _ => OtherMode
  end.
Definition jnat (n : nat) : json := JNum (inject_Z (Z.of_nat n)).

(** ** Arguments (lines 268-329) *)

Record args := MkArgs {
  modeltype : kind; modelpath : string;
  initial_label : string; target_label : string; target_label_rf : string; fail_label_rf : string;
  output : option string; certificate : option string;
  method_args : list string; solve_args : list string; solve_iter_args : list string;
  tolerance : Q; subsys_label : string }.
Definition default_tolerance : Q := 1 # 100000.
Definition default_args (k : kind) (path : string) : args :=
  MkArgs k path "init" "target" "rf_target" "rf_fail" None None [] [] [] default_tolerance "subsystem".

Record env := MkEnv {
  e_rnd : nat -> Z;                     (* rand() in the treaps *)
  e_fmt : json -> string;               (* "%s" *)
  e_int : string -> res Z;              (* int(..) *)
  e_float : string -> res Q;            (* float(..) *)
  e_deepcopy : amdp -> res amdp;        (* copy.deepcopy *)
  e_bound : solver;                     (* the solver of upper bounds, always cbc *)
  e_init : solver;                      (* the solver used by initializers *)
  e_solver : string -> nat -> solver }. (* the chosen solver, in each round *)

(** ** load_model, gen_rf (lines 21-36) *)

Definition load_model (a : args) (w : world) : io amdp :=
  iobind (open_text (modelpath a ++ ".lab") w) (fun lab w =>
  iobind (lift (parse_label_file lab) w) (fun _ w =>
  iobind (open_text (modelpath a ++ ".tra") w) (fun tra w =>
  lift (from_file (modeltype a) lab tra) w))).

Definition gen_rf (E : env) (m : amdp) (a : args) : res rform :=
  mk_rf (e_rnd E) m (initial_label a) (target_label_rf a) (fail_label_rf a) false.

(** [system.save(path)], mdp.py 118-137, dtmc.py 101-119: the .tra file is
    written first.  An exception leaves the file written so far; here, nothing
    of it. *)
Definition save_system (m : amdp) (p : string) (w : world) : io unit :=
  iobind (lift (save_tra m) w) (fun t w =>
  let w := write (p ++ ".tra") (FText t) w in
  iobind (lift (save_lab m) w) (fun l w =>
  Done tt (write (p ++ ".lab") (FText l) w))).

(** ** rf (lines 38-61) *)

Definition mapping_json (rows : dict (nat * nat) (nat * nat)) : json :=
  JObj [("states", JArr (map (fun e => jnat (fst (fst e))) rows));
        ("actions", JArr (map (fun e => jnat (snd (fst e))) rows));
        ("rfstates", JArr (map (fun e => jnat (fst (snd e))) rows));
        ("rfactions", JArr (map (fun e => jnat (snd (snd e))) rows))].

Definition rf_output (a : args) : string := match output a with Some o => o | None => modelpath a ++ "-rf" end.
Definition rf_cmd (E : env) (a : args) (w : world) : io unit :=
  iobind (load_model a w) (fun m w =>
  iobind (lift (reduce (e_rnd E) m (initial_label a) (target_label a) (target_label_rf a) (fail_label_rf a)) w) (fun r w =>
  let '(rf, _, rows) := r in
  let w := write (rf_output a ++ ".mapping.json") (FJson (mapping_json rows)) w in
  save_system (rf_sys rf) (rf_output a) w)).

(** ** minimize (lines 18-19, 63-119) *)

(** [param.split("=")]; [dict] of lists that do not all have two elements
    raises ValueError. *)
Fixpoint split_on (c : ascii) (cur : text) (t : text) : list text :=
  match t with
  | [] => [cur]
  | x :: r => if Ascii.eqb x c then cur :: split_on c [] r else split_on c (cur ++ [x])%list r
  end.
Definition split (c : ascii) (s : string) : list string := map unstr (split_on c [] (str s)).
Inductive pval := VStr (s : string) | VInt (z : Z) | VInit (s : string) | VUpd (s : string) | VFloat (q : Q) | VList (l : list string).
Definition params_to_dict (ps : list string) : res (dict string pval) :=
  let* kvs := mapM (fun p => match split EQUALS p with [k; v] => Ok (k, v) | _ => Err ValueError end) ps in
  Ok (fold_left (fun d kv => dset String.eqb d (fst kv) (VStr (snd kv))) kvs []).

(** 72-84, 89-95: conversion of one parameter. *)
Definition initializers : list string := ["AllOnesInitializer"; "InverseFrequencyInitializer"; "InverseReachabilityInitializer"].
Definition updaters : list string := ["InverseResultUpdater"].
Definition memb (s : string) (l : list string) : bool := existsb (String.eqb s) l.
Definition convert_method (E : env) (kv : string * pval) : res (string * pval) :=
  match kv with
  | (k, VStr v) =>
      if String.eqb k "iterations" then let* z := e_int E v in Ok (k, VInt z)
      else if String.eqb k "initializertype" then if memb v initializers then Ok (k, VInit v) else Err KeyError
      else if String.eqb k "updatertype" then if memb v updaters then Ok (k, VUpd v) else Err KeyError
      else Ok kv
  | _ => Ok kv
  end.
Definition convert_solve (E : env) (kv : string * pval) : res (string * pval) :=
  match kv with
  | (k, VStr v) =>
      if String.eqb k "threshold" then let* q := e_float E v in Ok (k, VFloat q)
      else if String.eqb k "labels" then Ok (k, VList (split ","%char v))
      else if String.eqb k "timeout" then let* z := e_int E v in Ok (k, VInt z)
      else Ok kv
  | _ => Ok kv
  end.

(** 70, 85: the constructors (milpexact.py 39-46, qsheur.py 44-66); an
    unexpected keyword raises TypeError. *)
Inductive method := Exact (solver : string) | QS (iterations : Z) (ini upd solver : string).
Definition keys_in (d : dict string pval) (ks : list string) : bool := forallb (fun k => memb k ks) (dkeys d).
Definition get_str (d : dict string pval) (k : string) (df : string) : string :=
  match dget String.eqb d k with Some (VStr s) | Some (VInit s) | Some (VUpd s) => s | _ => df end.
Definition get_int (d : dict string pval) (k : string) (df : Z) : Z :=
  match dget String.eqb d k with Some (VInt z) => z | _ => df end.
Definition mk_method (name : string) (d : dict string pval) : res method :=
  if String.eqb name "QSHeur" then
    if keys_in d ["iterations"; "initializertype"; "updatertype"; "solver"] then
      Ok (QS (get_int d "iterations" 3) (get_str d "initializertype" "AllOnesInitializer") (get_str d "updatertype" "InverseResultUpdater") (get_str d "solver" "cbc"))
    else Err TypeError
  else if keys_in d ["solver"] then Ok (Exact (get_str d "solver" "cbc")) else Err TypeError.

(** details: milpexact.py 48-54, qsheur.py 68-79 *)
Definition details (m : method) : json :=
  match m with
  | Exact s => JObj [("type", JStr "MILPExact"); ("solver", JStr s)]
  | QS it i u s => JObj [("type", JStr "QSHeur"); ("solver", JStr s); ("iterations", JNum (inject_Z it)); ("initializertype", JStr i); ("updatertype", JStr u)]
  end.

(** _solveiter of the two methods; milp.py 67: an unknown name of a solver is
    noticed when the model is solved. *)
Definition solvers : list string := ["gurobi"; "cbc"; "glpk"; "cplex"].
Definition initializer_of (E : env) (name : string) : initializer :=
  if String.eqb name "InverseFrequencyInitializer" then inverse_frequency (e_init E)
  else if String.eqb name "InverseReachabilityInitializer" then inverse_reachability (e_init E)
  else all_ones_init.
Definition method_iter (E : env) (me : method) (rf : rform) (t : Q) (md : mode) (labels : option (list string)) : gen :=
  match me with
  | Exact s =>
      if String.eqb s "gurobi" then g_milp_exact (e_bound E) (e_solver E s 0) rf t md labels
      else if memb s solvers then milp_exact (e_bound E) (e_solver E s 0) rf t md labels
      else match construct_milp (e_bound E) rf t md labels false None with
           | Err e => MkGen [] (Some e)
           | Ok None => MkGen [failure Infeasible] None
           | Ok (Some _) => MkGen [] (Some AssertionError)
           end
  | QS it i _ s =>
      let n := Z.to_nat it in
      if String.eqb s "gurobi" then fst (g_qs_run (e_bound E) (e_solver E s) n (initializer_of E i) inverse_result rf t md labels)
      else if memb s solvers then qs_heur (e_bound E) (e_solver E s) n (initializer_of E i) inverse_result rf t md labels
      else match construct_milp (e_bound E) rf t md labels true None with
           | Err e => MkGen [] (Some e)
           | Ok None => MkGen [failure Infeasible] None
           | Ok (Some (m, ind)) =>
               match initializer_of E i rf md ind with
               | Err e => MkGen [] (Some e)
               | Ok obj => if Nat.eqb n 0 then MkGen [] None
                           else match set_objective m obj with Err e => MkGen [] (Some e) | Ok _ => MkGen [] (Some AssertionError) end
               end
           end
  end.

(** 110, 113: the keyword arguments of solve and solveiter; the timeout has no
    influence on the model of the solvers. *)
Definition solve_keywords : list string := ["threshold"; "mode"; "labels"; "timeout"].
Definition call_solver {A} (f : Q -> mode -> option (list string) -> res A) (d : dict string pval) : res A :=
  if keys_in d solve_keywords then
    match dget String.eqb d "threshold", dget String.eqb d "mode" with
    | Some (VFloat t), Some (VStr md) =>
        f t (as_mode (JStr md)) (match dget String.eqb d "labels" with Some (VList l) => Some l | _ => None end)
    | _, _ => Err TypeError
    end
  else Err TypeError.

(** 100-107: process_result.  [result.subsystem] is None for failed results. *)
Definition process_result (E : env) (a : args) (rf : rform) (mp sp : dict string pval) (idx : nat) (r : presult) (w : world) : io json :=
  iobind (lift (let* sub := of_opt AttributeError (pr_sub r) in subsystem_mask sub) w) (fun _ w =>
  iobind (lift (let* md := of_opt KeyError (dget String.eqb mp "mode") in
                let* t := of_opt KeyError (dget String.eqb sp "threshold") in
                match md, t, pr_cert r with
                | VStr md, VFloat t, Some v => let* b := check_farkas rf (as_mode (JStr md)) FGe t v (tolerance a) in Ok (t, v, b)
                | _, _, _ => Err TypeError
                end) w) (fun tvb w =>
  let '(t, v, b) := tvb in
  Done (JObj [("iteration", jnat idx); ("threshold", JNum t); ("certificate", JArr (map JNum v))]) (say (Checked b) w))).
Fixpoint process_all (E : env) (a : args) (rf : rform) (mp sp : dict string pval) (idx : nat) (rs : list presult) (e : option exn) (w : world) : io (list json) :=
  match rs with
  | [] => match e with None => Done [] w | Some e => Raised (Py e) w end
  | r :: rest =>
      iobind (process_result E a rf mp sp idx r w) (fun j w =>
      iobind (process_all E a rf mp sp (S idx) rest e w) (fun js w => Done (j :: js) w))
  end.

Definition min_output (a : args) : string := match certificate a with Some o => o | None => modelpath a ++ ".certificates.json" end.
Definition minimize_cmd (E : env) (a : args) (w : world) : io unit :=
  iobind (load_model a w) (fun m w =>
  iobind (lift (assert_ (negb (Nat.eqb (length (method_args a)) 0))) w) (fun _ w =>
  iobind (lift (assert_ (negb (Nat.eqb (length (solve_args a)) 0) || negb (Nat.eqb (length (solve_iter_args a)) 0))) w) (fun _ w =>
  iobind (lift (gen_rf E m a) w) (fun rf w =>
  let name := nth 0 (method_args a) "" in
  iobind (lift (if memb name ["QSHeur"; "MILPExact"] then Ok tt else Err KeyError) w) (fun _ w =>
  iobind (lift (let* mp := params_to_dict (tl (method_args a)) in mapM (convert_method E) mp) w) (fun mp w =>
  iobind (lift (mk_method name mp) w) (fun me w =>
  iobind (lift (let* p1 := params_to_dict (solve_args a) in let* p2 := params_to_dict (solve_iter_args a) in
                mapM (convert_solve E) (fold_left (fun d kv => dset String.eqb d (fst kv) (snd kv)) p2 p1)) w) (fun sp w =>
  iobind (if negb (Nat.eqb (length (solve_iter_args a)) 0) then
            iobind (lift (call_solver (solveiter (method_iter E me) rf) sp) w) (fun g w => process_all E a rf mp sp 0 (g_items g) (g_exn g) w)
          else
            iobind (lift (call_solver (solve (method_iter E me) rf) sp) w) (fun r w => process_all E a rf mp sp 0 [r] None w)) (fun js w =>
  Done tt (write (min_output a) (FJson (JObj [("method", details me); ("instances", JArr js)])) w)))))))))).

(** ** certify (lines 121-137) *)

Record instance := MkInst { in_method : json; in_iteration : json; in_threshold : json; in_cert : list Q }.
(** 128-129, one round of the generator unpack_results. *)
Definition unpack (info : json) (j : json) : res instance :=
  let* c := getitem j "certificate" in
  let* v := as_vector c in
  let* me := getitem info "method" in
  let* it := getitem j "iteration" in
  let* t := getitem j "threshold" in
  Ok (MkInst me it t v).
(** 121-127 *)
Definition load_results (a : args) (w : world) : io (json * list json) :=
  match certificate a with
  | None => Raised (Py AssertionError) w
  | Some p => iobind (open_json p w) (fun info w =>
              iobind (lift (let* i := getitem info "instances" in elements i) w) (fun l w => Done (info, l) w))
  end.
Definition certify_one (a : args) (rf : rform) (info : json) (j : json) (w : world) : io unit :=
  iobind (lift (unpack info j) w) (fun i w =>
  iobind (lift (let* md := getitem (in_method i) "mode" in
                let* t := as_number (in_threshold i) in
                check_farkas rf (as_mode md) FGe t (in_cert i) (tolerance a)) w) (fun b w =>
  Done tt (say (Verdict (in_iteration i) (in_threshold i) b) w))).
Definition certify_cmd (E : env) (a : args) (w : world) : io unit :=
  iobind (load_model a w) (fun m w =>
  iobind (lift (gen_rf E m a) w) (fun rf w =>
  iobind (load_results a w) (fun r w =>
  each (certify_one a rf (fst r)) (snd r) w))).

(** ** subsystem (lines 139-153) *)

(** 149-151: [sys.labels_by_state.add(s, label)] for the states of the mask. *)
Definition label_mask (m : amdp) (mask : list bool) (l : string) : amdp :=
  fold_left (fun m (e : nat * bool) => if snd e then add_label_inv m (fst e) l else m) (combine (seq 0 (length mask)) mask) m.

Definition subsys_output (E : env) (a : args) (iteration : json) : string :=
  (match output a with Some o => o | None => modelpath a ++ "-subsys" end) ++ "-" ++ e_fmt E iteration.
Definition subsystem_one (E : env) (a : args) (rf : rform) (info : json) (j : json) (w : world) : io unit :=
  iobind (lift (unpack info j) w) (fun i w =>
  iobind (lift (let* md := getitem (in_method i) "mode" in
                let* ss := mk_subsystem rf (in_cert i) (as_mode md) false in
                let* sys := e_deepcopy E (rf_sys rf) in
                let* mask := subsystem_mask ss in
                Ok (label_mask sys mask (subsys_label a))) w) (fun sys w =>
  save_system sys (subsys_output E a (in_iteration i)) w)).
Definition subsystem_cmd (E : env) (a : args) (w : world) : io unit :=
  iobind (load_model a w) (fun m w =>
  iobind (lift (assert_ (negb (dmem String.eqb (fwd (a_slab m)) (subsys_label a)))) w) (fun _ w =>
  iobind (lift (gen_rf E m a) w) (fun rf w =>
  iobind (load_results a w) (fun r w =>
  each (subsystem_one E a rf (fst r)) (snd r) w)))).

(** ** info (lines 155-156) *)
Definition info_cmd (E : env) (a : args) (w : world) : io unit := iobind (load_model a w) (fun _ w => Done tt w).

(** ** Lines 329-333 *)
Inductive command := CRf | CInfo | CMinimize | CCertify | CSubsystem.
Inductive outcome :=
| Exited (w : world)                      (* normal end *)
| Usage (w : world)                       (* parser.error("too few arguments") *)
| Traceback (e : cexn) (w : world).       (* uncaught exception *)
Definition switss (E : env) (c : command) (a : args) (w : world) : outcome :=
  match (match c with CRf => rf_cmd | CInfo => info_cmd | CMinimize => minimize_cmd | CCertify => certify_cmd | CSubsystem => subsystem_cmd end) E a w with
  | Done _ w => Exited w
  | Raised (Py AttributeError) w => Usage w
  | Raised e w => Traceback e w
  end.

(** What [copy.deepcopy] does with a system: its graph is an object of a
    Cython class with pointers, for which Cython generates a __reduce_cython__
    that raises TypeError (graph.pyx 29-42; no __reduce__ is defined there). *)
Definition cython_deepcopy (m : amdp) : res amdp := Err TypeError.
