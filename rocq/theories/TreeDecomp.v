(** Model of switss/utils/tree_decomp.pyx: the tree decomposition used by
    the tree algorithm.

    Parameters standing for libraries:
    - [LS A b]: the answer of LAPACK's dgesv for the system [A x = b];
    - [TS n es]: topological order of the quotient graph (graph_tool);
    - [HULL dim kp]: the points kept by scipy's ConvexHull part (lines 335-388),
      only used if a part has several input states;
    - [expired p i]: whether the time is up when model number [i] of part [p] is
      handled.
    Printing and the drawing functions are left out, and so is "old stuff"
    (658-684). *)
From Coq Require Import List Arith ZArith QArith Bool.
From Verif Require Import Base Num Matrix Amdp ReachForm Tree.
Import ListNotations.
Local Open Scope nat_scope.

(** reachability_form.py 42: the matrix without the last two rows and columns. *)
Definition rf_P (rf : rform) : mat :=
  MkMat (rf_C rf) (rf_N rf)
    (filter (fun e : (nat * nat) * Q => (fst (fst e) <? rf_C rf) && (snd (fst e) <? rf_N rf)) (mitems (a_P (rf_sys rf)))).

(** 36-39: number of states, and probabilities of input states. *)
Definition point : Type := nat * list (nat * Q).

(** 94-106, 87-92: the sum of the chosen points.  An index outside an array is
    an error of C. *)
Definition add_points (p1 p2 : point) : point := (fst p1 + fst p2, (snd p1 ++ snd p2)%list).
Definition get_point (sucs : list (list point)) (it : list nat) : res point :=
  foldM (fun p si => let* q := of_opt OutOfBounds (nth_error (fst si) (snd si)) in Ok (add_points p q)) (combine sucs it) (0, []).

(** 123-128 *)
Definition state_prob (p : point) (s : nat) : Q :=
  match dget Nat.eqb (snd p) s with Some q => q | None => (-1)%Q end.

(** 155-181: the states of a part and of the interface to its successors, in
    increasing order, with the properties of the states (as functions of the
    state). *)
Record part := MkPart { pv_vs : list nat; pv_in : nat -> bool; pv_out : nat -> bool; pv_target : nat -> bool }.

Definition out_nb (es : list (nat * nat)) (vs : list nat) (v : nat) : list nat :=
  filter (fun d => existsb (Nat.eqb d) vs) (map snd (filter (fun e => fst e =? v) es)).
Definition in_nb (es : list (nat * nat)) (vs : list nat) (v : nat) : list nat :=
  filter (fun d => existsb (Nat.eqb d) vs) (map fst (filter (fun e => snd e =? v) es)).

Definition partition_graph (G : nat * list (nat * nat)) (part_id : nat) (suc_ps : list nat) (lab : list nat) (itf : list bool) (rf : rform) : part :=
  let lb := fun v => nth v lab 0 in
  let it := fun v => nth v itf false in
  let vs := filter (fun v => (lb v =? part_id) || (existsb (Nat.eqb (lb v)) suc_ps && it v)) (seq 0 (fst G)) in
  let has_out_suc := fun v => existsb (fun i => it i && negb (lb i =? part_id)) (out_nb (snd G) vs v) in
  MkPart vs
    (fun v => (it v && (lb v =? part_id)) || (rf_init rf =? v))
    (fun v => it v && negb (lb v =? part_id))
    (fun v => Qlt_bool 0 (nth v (rf_to_target rf) 0%Q) || has_out_suc v).

(** 418-459.  The formula is a list of disjunctions: [Imp i js] is
    "x_i => x_j | ...", [Some_of js] is "x_j | ...", [All_of js] is
    "x_j & ...". *)
Inductive clause := Imp (i : nat) (js : list nat) | Some_of (js : list nat) | All_of (js : list nat).

Definition subsys_formula (es : list (nat * nat)) (pv : part) : list clause :=
  (flat_map (fun i =>
     let outs := Imp i (out_nb es (pv_vs pv) i) in
     let ins := Imp i (in_nb es (pv_vs pv) i) in
     if pv_out pv i then []
     else match pv_in pv i, pv_target pv i with
          | false, false => [outs; ins]
          | false, true => [ins]
          | true, false => [outs]
          | true, true => []
          end) (pv_vs pv)
   ++ [Some_of (filter (pv_in pv) (pv_vs pv)); Some_of (filter (pv_target pv) (pv_vs pv))]
   ++ (match filter (pv_out pv) (pv_vs pv) with [] => [] | os => [All_of os] end))%list.

(** An empty disjunction is a syntax error of the BDD package. *)
Definition well_formed (c : clause) : bool :=
  match c with Imp _ js => negb (length js =? 0) | Some_of js => negb (length js =? 0) | All_of js => negb (length js =? 0) end.
Definition sat_clause (x : nat -> bool) (c : clause) : bool :=
  match c with Imp i js => negb (x i) || existsb x js | Some_of js => existsb x js | All_of js => forallb x js end.
Definition sat_formula (x : nat -> bool) (f : list clause) : bool := forallb (sat_clause x) f.

(** Assignments as lists of true variables. *)
Fixpoint subsets (l : list nat) : list (list nat) :=
  match l with
  | [] => [[]]
  | x :: r => (subsets r ++ map (cons x) (subsets r))%list
  end.
Definition mem (l : list nat) (v : nat) : bool := existsb (Nat.eqb v) l.
Definition flip (l : list nat) (v : nat) : nat -> bool := fun u => if u =? v then negb (mem l v) else mem l u.

(** The variables the formula depends on. *)
Definition in_support (vs : list nat) (f : list clause) (v : nat) : bool :=
  existsb (fun l => xorb (sat_formula (mem l) f) (sat_formula (flip l v) f)) (subsets vs).

(** 261-273: the sets of states of the models, and whether all variables are
    assigned: pick_iter of the BDD package assigns exactly the variables the
    formula depends on.  The order in which the models are enumerated is
    simplified. *)
Definition models (es : list (nat * nat)) (pv : part) : res (list (list nat) * bool) :=
  let f := subsys_formula es pv in
  if forallb well_formed f then
    Ok (filter (fun l => sat_formula (mem l) f) (subsets (pv_vs pv)), forallb (in_support (pv_vs pv) f) (pv_vs pv))
  else Err ValueError.

(** graph_tool's shortest_distance, line 200; unreachable states have no
    distance. *)
Fixpoint bfs (fuel : nat) (es : list (nat * nat)) (k : nat) (front : list nat) (d : list (option nat)) : list (option nat) :=
  match fuel with
  | O => d
  | S fuel' =>
      let next := nodup Nat.eq_dec (map snd (filter (fun e => mem front (fst e) && match nth (snd e) d (Some 0) with None => true | Some _ => false end) es)) in
      bfs fuel' es (S k) next (fold_left (fun d v => upd d v (Some (S k))) next d)
  end.
Definition distances (G : nat * list (nat * nat)) (s : nat) : list (option nat) :=
  bfs (fst G) (snd G) 0 [s] (upd (repeat None (fst G)) s (Some 0)).

(** 130-136 and 619-644: the system (I - P_sub) x = target. *)
Definition reach_matrix (P : mat) (states : list nat) : list (list Q) :=
  map (fun i => map (fun j => ((if i =? j then 1 else 0) - mget P i j)%Q) states) states.

(** 555-568: right-hand side. *)
Definition reach_rhs (rf : rform) (pv : part) (pt : point) (states : list nat) : list Q :=
  map (fun s =>
    if pv_out pv s then let p := state_prob pt s in if Qle_bool 0 p then p else 0%Q
    else if pv_target pv s then nth s (rf_to_target rf) 0%Q
    else 0%Q) states.

(** 542-552: least distance of an input state, at most 100000. *)
Definition min_dist (dist : list (option nat)) (ins : list nat) : nat :=
  fold_left (fun m s => match nth s dist None with Some d => Nat.min m d | None => m end) ins (100 * 1000).

(** 463-604: the points of the subsystem [states]. *)
Definition handle_subsys (LS : list (list Q) -> list Q -> list Q) (rf : rform) (P : mat) (pv : part) (dist : list (option nat)) (sucs : list (list point))
    (ub : nat) (thr : Q) (states : list nat) : res (list point) :=
  let pps := map (@length point) sucs in
  let ins := filter (pv_in pv) states in
  foldM (fun acc it =>
    let* pt := get_point sucs it in
    let tot := length (filter (fun s => negb (pv_out pv s)) states) + fst pt in
    if ub <? tot + min_dist dist ins then Ok acc
    else
      let x := LS (reach_matrix P states) (reach_rhs rf pv pt states) in
      let probs := filter (fun sp => pv_in pv (fst sp)) (combine states x) in
      if Qlt_bool (sumQ (map snd probs)) (f32 thr) then Ok acc
      else Ok (acc ++ [(tot, probs)])%list) (visited pps) [].

(** 299-310: points ordered by number of states, as arrays over the input
    states. *)
Definition add_k_point (ins : list nat) (kp : dict nat (list (list Q))) (p : point) : dict nat (list (list Q)) :=
  let row := map (fun s => match dget Nat.eqb (snd p) s with Some q => q | None => 0%Q end) ins in
  match dget Nat.eqb kp (fst p) with
  | None => dset Nat.eqb kp (fst p) [row]
  | Some rows => dset Nat.eqb kp (fst p) (rows ++ [row])%list
  end.

Fixpoint insert_nat (k : nat) (l : list nat) : list nat :=
  match l with [] => [k] | x :: r => if k <=? x then k :: l else x :: insert_nat k r end.
Definition sorted_keys (kp : dict nat (list (list Q))) : list nat := fold_right insert_nat [] (dkeys kp).

Definition max_list (l : list Q) : Q :=
  match l with [] => 0%Q | x :: r => fold_left (fun a b => if Qlt_bool a b then b else a) r x end.

(** 327-333: one input state. *)
Definition keep_best (v : nat) (kp : dict nat (list (list Q))) : list point :=
  snd (fold_left (fun (acc : Q * list point) k =>
    let best := max_list (concat (match dget Nat.eqb kp k with Some rows => rows | None => [] end)) in
    if Qlt_bool (fst acc) best then (best, (snd acc ++ [(k, [(v, best)])])%list) else acc) (sorted_keys kp) (0%Q, [])).

(** 335-388: several input states; without points there is no hull to close. *)
Definition reduce_points (HULL : nat -> dict nat (list (list Q)) -> res (list (nat * list Q))) (ins : list nat) (kp : dict nat (list (list Q))) : res (list point) :=
  match ins with
  | [v] => Ok (keep_best v kp)
  | _ =>
      match kp with
      | [] => Err AttributeError
      | _ => let* ps := HULL (length ins) kp in Ok (map (fun kq => (fst kq, combine ins (snd kq))) ps)
      end
  end.

(** 261-312: the loop over the models; [i] is the number of models seen so
    far.  Reading an unassigned variable raises KeyError. *)
Fixpoint models_loop (expired : nat -> bool) (h : list nat -> res (list point)) (assigned : bool) (ins : list nat) (i : nat) (ms : list (list nat))
    (kp : dict nat (list (list Q))) : res (option (dict nat (list (list Q)))) :=
  match ms with
  | [] => Ok (Some kp)
  | states :: r =>
      if expired i then Ok None
      else if negb assigned then Err KeyError
      else let* ps := h states in models_loop expired h assigned ins (S i) r (fold_left (add_k_point ins) ps kp)
  end.

(** 220-388: one part.  [None] stands for the return value -1 after a
    timeout.  The array of successor points is freed once per successor
    (320-323): with several successors this is an error of C. *)
Definition handle_part (LS : list (list Q) -> list Q -> list Q) (HULL : nat -> dict nat (list (list Q)) -> res (list (nat * list Q))) (expired : nat -> nat -> bool)
    (rf : rform) (P : mat) (G : nat * list (nat * nat)) (dist : list (option nat)) (qe : list (nat * nat)) (lab : list nat) (itf : list bool)
    (ub : nat) (thr : Q) (known : dict nat (list point)) (part_id : nat) : res (option (list point)) :=
  let suc_ps := map snd (filter (fun e => fst e =? part_id) qe) in
  let pv := partition_graph G part_id suc_ps lab itf rf in
  let* sucs := mapM (fun p => of_opt KeyError (dget Nat.eqb known p)) suc_ps in
  let ins := filter (pv_in pv) (pv_vs pv) in
  let* (ms, assigned) := models (snd G) pv in
  let* o := models_loop (expired part_id) (handle_subsys LS rf P pv dist sucs ub thr) assigned ins 0 ms [] in
  match o with
  | None => Ok None
  | Some kp =>
      let* _ := if 1 <? length suc_ps then Err OutOfBounds else Ok tt in
      let* ps := reduce_points HULL ins kp in
      Ok (Some ps)
  end.

(** 391 *)
Definition min_states (ps : list point) : res nat :=
  match map fst ps with
  | [] => Err ValueError
  | k :: r => Ok (fold_left Nat.min r k)
  end.

Fixpoint parts_loop (h : dict nat (list point) -> nat -> res (option (list point))) (order : list nat) (known : dict nat (list point)) : res (option (dict nat (list point))) :=
  match order with
  | [] => Ok (Some known)
  | p :: r =>
      let* o := h known p in
      match o with
      | None => Ok None
      | Some ps => parts_loop h r (dset Nat.eqb known p ps)
      end
  end.

(** 184-391 *)
Definition min_witnesses (LS : list (list Q) -> list Q -> list Q) (TS : nat -> list (nat * nat) -> res (list nat))
    (HULL : nat -> dict nat (list (list Q)) -> res (list (nat * list Q))) (expired : nat -> nat -> bool)
    (rf : rform) (partition : list (list nat)) (thr : Q) (known_upper_bound : option nat) : res Z :=
  let P := rf_P rf in
  let ub := match known_upper_bound with Some u => u | None => mrows P end in
  let* G := underlying_graph P in
  let* _ := if rf_init rf <? fst G then Ok tt else Err ValueError in
  let dist := distances G (rf_init rf) in
  let* (qe, lab, itf) := quotient G partition in
  let* order := TS (length partition) qe in
  let* o := parts_loop (handle_part LS HULL expired rf P G dist qe lab itf ub thr) (rev order) [] in
  match o with
  | None => Ok (-1)%Z
  | Some known =>
      match order with
      | [] => Err IndexError
      | root :: _ =>
          let* ps := of_opt KeyError (dget Nat.eqb known root) in
          let* k := min_states ps in
          Ok (Z.of_nat k)
      end
  end.
