(** Model of benchmarks.run with times and json files (switss/benchmarks/benchmarks.py
    14-138) and of benchmarks.render (140-240).  Console output and the look of
    plots are left out. *)
From Coq Require Import String List Arith ZArith QArith Bool.
From Verif Require Import Base Num ReachForm Milp Problems Benchmarks.
Import ListNotations.
Local Open Scope nat_scope.

(** benchmarks.py 126, 135: an element of data["run"]. *)
Record rentry := MkEntry { e_thr : Q; e_values : list (option Q); e_wall : list Q; e_proc : list Q }.

(** benchmarks.py 92: method.details, in order, the first key being "type";
    here the type is separate. *)
Record details := MkDetails { d_type : string; d_params : list (string * string) }.
Record rdata := MkData { r_method : details; r_mode : mode; r_run : list rentry }.

(** benchmarks.py 110-131.  [clock j] is the pair of times that are read when
    result [j] arrives, minus those read at the start of the threshold. *)
Inductive tinner :=
| TFinished (v : list (option Q)) (w p : list Q)
| TStopNow
| TStopWith (v : list (option Q)) (w p : list Q).
Fixpoint timed_results (clock : nat -> Q * Q) (stop_on_timeout : bool) (items : list presult) (j : nat)
    (v : list (option Q)) (w p : list Q) : tinner :=
  match items with
  | [] => TFinished v w p
  | r :: rest =>
      let w := (w ++ [fst (clock j)])%list in
      let p := (p ++ [snd (clock j)])%list in
      match pr_status r with
      | Failed Infeasible => TStopNow
      | Failed _ =>
          let v := (v ++ [Some (-1)%Q])%list in
          if stop_on_timeout then TStopWith v w p else timed_results clock stop_on_timeout rest (S j) v w p
      | Success => timed_results clock stop_on_timeout rest (S j) (v ++ [pr_value r])%list w p
      end
  end.

(** benchmarks.py 106-138; [clock i] belongs to threshold [i]. *)
Fixpoint timed_thresholds (clock : nat -> nat -> Q * Q) (it : rform -> Q -> mode -> option (list string) -> gen) (rf : rform) (md : mode)
    (labels : option (list string)) (stop_on_timeout debug : bool) (ths : list Q) (i : nat) (data : list rentry) : res (list rentry) :=
  match ths with
  | [] => Ok data
  | thr :: rest =>
      let* g := solveiter it rf thr md labels in
      match timed_results (clock i) stop_on_timeout (g_items g) 0 [] [] [] with
      | TStopNow => Ok data
      | TStopWith v w p => Ok (data ++ [MkEntry thr v w p])%list
      | TFinished v w p =>
          match g_exn g with
          | Some e => Err e
          | None =>
              if debug && match v with [] => true | _ => false end then Err IndexError
              else timed_thresholds clock it rf md labels stop_on_timeout debug rest (S i) (data ++ [MkEntry thr v w p])%list
          end
      end
  end.

(** problemform.py 106-108 *)
Fixpoint join (sep : string) (l : list string) : string :=
  match l with [] => "" | [x] => x | x :: r => x ++ sep ++ join sep r end%string.
Definition method_repr (d : details) : string :=
  (d_type d ++ "(" ++ join "," (map (fun kv => fst kv ++ "=" ++ snd kv) (d_params d)) ++ ")")%string.

(** str(mode); the name of a mode that is neither is not kept. *)
Definition mode_str (md : mode) : string := match md with Min => "min" | Max => "max" | OtherMode => "other" end.

(** benchmarks.py 98-104, the name of the file in json_dir *)
Definition json_name (d : details) (md : mode) : string := (method_repr d ++ "-" ++ mode_str md ++ ".json")%string.

(** Files of json_dir; writing replaces. *)
Definition folder := dict string rdata.

Record bmethod := MkMethod { m_details : details; m_iter : rform -> Q -> mode -> option (list string) -> gen }.
Record bargs := MkArgs { b_from : Q; b_to : Q; b_step : Q; b_debug : bool; b_json : bool; b_labels : option (list string); b_stop : bool }.

(** benchmarks.py 88-138: print_json is called before each return. *)
Definition run_one (clock : nat -> nat -> Q * Q) (rf : rform) (me : bmethod) (md : mode) (a : bargs) (fs : folder) : res rdata * folder :=
  match (let* ths := arange (b_from a) (if Qlt_bool (b_to a + b_step a) 1 then b_to a + b_step a else 1)%Q (b_step a) in
         timed_thresholds clock (m_iter me) rf md (b_labels a) (b_stop a) (b_debug a) ths 0 []) with
  | Err e => (Err e, fs)
  | Ok r => let d := MkData (m_details me) md r in
            (Ok d, if b_json a then dset String.eqb fs (json_name (m_details me) md) d else fs)
  end.

(** benchmarks.py 73-87; the clock of each run is separate. *)
Fixpoint run_pairs (clock : nat -> nat -> nat -> Q * Q) (rf : rform) (a : bargs) (k : nat) (l : list (bmethod * mode)) (fs : folder) : res (list rdata) * folder :=
  match l with
  | [] => (Ok [], fs)
  | (me, md) :: rest =>
      match run_one (clock k) rf me md a fs with
      | (Err e, fs) => (Err e, fs)
      | (Ok d, fs) =>
          match run_pairs clock rf a (S k) rest fs with
          | (Err e, fs) => (Err e, fs)
          | (Ok ds, fs) => (Ok (d :: ds), fs)
          end
      end
  end.
Definition run_many (clock : nat -> nat -> nat -> Q * Q) (rf : rform) (mes : list bmethod) (mds : list mode) (a : bargs) (fs : folder) : res (list rdata) * folder :=
  run_pairs clock rf a 0 (list_prod mes mds) fs.

(** ** render *)

Inductive plotmode := ProcTime | WallTime | AllStates | LastStates | OtherPlot.

(** python's l[i] with negative indices *)
Definition pynth {A} (l : list A) (i : Z) : res A :=
  if (i <? 0)%Z then (if (Z.of_nat (length l) + i <? 0)%Z then Err IndexError else of_opt IndexError (nth_error l (Z.to_nat (Z.of_nat (length l) + i))))
  else of_opt IndexError (nth_error l (Z.to_nat i)).

(** python's max; None cannot be compared. *)
Definition pymax (l : list (option Q)) : res (option Q) :=
  match l with
  | [] => Err ValueError
  | x :: r => foldM (fun m y => match y, m with Some a, Some b => Ok (Some (if Qlt_bool b a then a else b)) | _, _ => Err TypeError end) r x
  end.

(** One call of ax.plot: the index in the label (None: no index), the number of
    the marker, the points. *)
Record curve := MkCurve { c_index : option Z; c_marker : nat; c_points : list (Q * option Q) }.

(** benchmarks.py 195: the value that is drawn for one entry. *)
Definition drawn_value (timeout_val : option Q) (normalize : bool) (v : option Q) : res (option Q) :=
  let v := match timeout_val with
           | Some tv => match v with Some q => if Qeq_bool q (-1) then Some tv else v | None => v end
           | None => v
           end in
  if normalize then match v with Some q => Ok (Some (q / 1000)%Q) | None => Err TypeError end else Ok v.

(** benchmarks.py 206-212: the time that is drawn for one entry. *)
Definition drawn_time (timeout_val : option Q) (cap : bool) (q : Q) : Q :=
  match timeout_val with
  | Some tv => if Qeq_bool q (-1) then tv else if Qle_bool 0 q && Qle_bool q 1 && cap then 1%Q else q
  | None => if Qle_bool 0 q && Qle_bool q 1 && cap then 1%Q else q
  end.

Record rargs := MkRArgs { ra_normalize : bool; ra_range : option (list Z); ra_timeout : option Q; ra_cap : bool; ra_plot_no : nat; ra_markers : nat }.

(** benchmarks.py 185-198; lists of points are made value by value, then
    normalised. *)
Definition state_curve (run : list rentry) (a : rargs) (count : nat) (idx : Z) : res curve :=
  let* ys := mapM (fun e => pynth (e_values e) idx) run in
  let* ys := mapM (drawn_value (ra_timeout a) (ra_normalize a)) ys in
  Ok (MkCurve (if count =? 1 then None else Some (idx + 1)%Z) (Z.to_nat (idx mod Z.of_nat (ra_markers a))) (combine (map e_thr run) ys)).

Definition time_curve (run : list rentry) (a : rargs) (wall : bool) (count : nat) (idx : Z) : res curve :=
  let* ts := mapM (fun e => pynth (if wall then e_wall e else e_proc e) idx) run in
  Ok (MkCurve (if count =? 1 then None else Some (idx + 1)%Z) (Z.to_nat (idx mod Z.of_nat (ra_markers a)))
        (combine (map e_thr run) (map (fun q => Some (drawn_time (ra_timeout a) (ra_cap a) q)) ts))).

(** benchmarks.py 175-220.  [ra_markers] is the length of the list of markers
    (3 by default, not 0).  Curves drawn before an exception are not kept. *)
Definition render (run : list rentry) (pm : plotmode) (a : rargs) : res (list curve) :=
  let* _ := assert_ (match pm with OtherPlot => false | _ => true end) in
  let* _ := assert_ ((1 <=? ra_plot_no a) && (ra_plot_no a <=? 3)) in
  let* e0 := of_opt IndexError (nth_error run 0) in
  let count := length (e_values e0) in
  match pm with
  | AllStates | LastStates =>
      let* ms := mapM (fun e => pymax (e_values e)) run in
      let* _ := pymax ms in
      let range := match ra_range a with Some l => l | None => map Z.of_nat (seq 0 count) end in
      let range := match pm with LastStates => filter (fun i => (i =? Z.of_nat count - 1)%Z) range | _ => range end in
      mapM (state_curve run a count) range
  | _ =>
      let wall := match pm with WallTime => true | _ => false end in
      match ra_range a with
      | Some l => mapM (time_curve run a wall count) l
      | None => mapM (time_curve run a wall 1) [(-1)%Z]
      end
  end.
