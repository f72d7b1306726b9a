(** Model of benchmarks.run (switss/benchmarks/benchmarks.py 14-138).  Times,
    console output and json files are left out; [debug] is kept because its
    output reads the last count. *)
From Coq Require Import String List Arith ZArith QArith Qround Bool.
From Verif Require Import Base Num Matrix InvDict Graph Amdp ReachForm Milp Problems.
Import ListNotations.
Local Open Scope nat_scope.

(** One element of data["run"]: threshold and values. *)
Definition entry := (Q * list (option Q))%type.

(** numpy.arange(start, stop, step) in exact arithmetic: ceil((stop-start)/step)
    values.  A zero step raises ZeroDivisionError (ValueError if the range is
    empty, not distinguished). *)
Definition arange (start stop step : Q) : res (list Q) :=
  if Qeq_bool step 0 then Err ZeroDivisionError
  else Ok (map (fun i => (start + inject_Z (Z.of_nat i) * step)%Q) (seq 0 (Z.to_nat (Qceiling ((stop - start) / step))))).

(** How the loop over the results of one threshold ends (111-131). *)
Inductive inner :=
| Finished (values : list (option Q))
| StopNow
| StopWith (values : list (option Q)).

Fixpoint results_loop (stop_on_timeout : bool) (items : list presult) (values : list (option Q)) : inner :=
  match items with
  | [] => Finished values
  | r :: rest =>
      match pr_status r with
      | Failed Infeasible => StopNow
      | Failed _ =>
          let values := (values ++ [Some (-1)%Q])%list in
          if stop_on_timeout then StopWith values else results_loop stop_on_timeout rest values
      | Success => results_loop stop_on_timeout rest (values ++ [pr_value r])%list
      end
  end.

(** 106-138; [it] is the _solveiter of the method.  The exception at the end
    of a generator is raised only if the loop gets there. *)
Fixpoint thresholds_loop (it : rform -> Q -> mode -> option (list string) -> gen) (rf : rform) (md : mode) (labels : option (list string))
    (stop_on_timeout debug : bool) (ths : list Q) (data : list entry) : res (list entry) :=
  match ths with
  | [] => Ok data
  | thr :: rest =>
      let* g := solveiter it rf thr md labels in
      match results_loop stop_on_timeout (g_items g) [] with
      | StopNow => Ok data
      | StopWith values => Ok (data ++ [(thr, values)])%list
      | Finished values =>
          match g_exn g with
          | Some e => Err e
          | None =>
              if debug && match values with [] => true | _ => false end then Err IndexError
              else thresholds_loop it rf md labels stop_on_timeout debug rest (data ++ [(thr, values)])%list
          end
      end
  end.

(** 89-138, one method *)
Definition bench_one (it : rform -> Q -> mode -> option (list string) -> gen) (rf : rform) (md : mode) (from to step : Q)
    (debug : bool) (labels : option (list string)) (stop_on_timeout : bool) : res (list entry) :=
  let* ths := arange from (if Qlt_bool (to + step) 1 then to + step else 1)%Q step in
  thresholds_loop it rf md labels stop_on_timeout debug ths [].

(** 73-87, several methods and modes *)
Definition bench_many (its : list (rform -> Q -> mode -> option (list string) -> gen)) (rf : rform) (mds : list mode) (from to step : Q)
    (debug : bool) (labels : option (list string)) (stop_on_timeout : bool) : res (list (list entry)) :=
  mapM (fun mm => bench_one (fst mm) rf (snd mm) from to step debug labels stop_on_timeout) (list_prod its mds).
