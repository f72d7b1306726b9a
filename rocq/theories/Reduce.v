(** Model of switss/model/reachability_form.py, lines 250-431: reduction of a
    system to reachability form.  The visualisation styles (line 367,
    __adapt_style) are in Draw.v; [list(set)[0]] of a set with one element is
    that element. *)
From Coq Require Import String List Arith ZArith QArith Bool.
From Verif Require Import Base Num Matrix InvDict Graph Mec Amdp ReachForm.
Import ListNotations.
Local Open Scope nat_scope.

(** 303-316, one round: [rim] is reachable_index_mapping, [next] is nextidx,
    [rows], [cols] are to_rf_rows, to_rf_cols. *)
Definition number_step (m : amdp) (mask : list bool)
    (st : dict nat nat * nat * dict (nat * nat) (nat * nat) * dict nat nat) (i : nat)
  : res (dict nat nat * nat * dict (nat * nat) (nat * nat) * dict nat nat) :=
  let '(rim, next, rows, cols) := st in
  let* (s, a) := of_opt KeyError (a_inv m i) in
  let* b := of_opt IndexError (nth_error mask s) in
  if b then
    let '(rim, next) := if dmem Nat.eqb rim s then (rim, next) else (dset Nat.eqb rim s next, S next) in
    let* idx := of_opt KeyError (dget Nat.eqb rim s) in
    let* rows := bput pair_eqb pair_eqb rows (s, a) (idx, a) in
    let* cols := bput Nat.eqb Nat.eqb cols s idx in
    Ok (rim, next, rows, cols)
  else Ok st.

Definition numbering (m : amdp) (mask : list bool) : res (dict (nat * nat) (nat * nat) * dict nat nat) :=
  let* (_, rows, cols) := foldM (number_step m mask) (seq 0 (a_C m)) ([], 0, [], []) in Ok (rows, cols).

(** 338-347, one row of the new matrix; [successors] yields single precision
    probabilities, the entries are copied from the matrix. *)
Definition copy_row (m : amdp) (cols : dict nat nat) (P : mat) (newidx s a : nat) : res mat :=
  let* idx := of_opt KeyError (a_row m (s, a)) in
  let* ss := successors (a_graph m) s None in
  foldM (fun P d => match dget Nat.eqb cols d with
                    | Some nd => mset P newidx nd (mget (a_P m) idx d)
                    | None => Ok P
                    end)
        (map sap_state (filter (fun x => sap_action x =? a) ss)) P.

(** 338-347 *)
Definition new_rows (m : amdp) (target : list bool) (rows : dict (nat * nat) (nat * nat)) (cols : dict nat nat)
  : res (mat * dict (nat * nat) nat * list Q) :=
  foldM (fun st (e : nat * ((nat * nat) * (nat * nat))) =>
      let '(P, index, to_target) := st in
      let '(newidx, ((s, a), (ns, na))) := e in
      let* index := bput pair_eqb Nat.eqb index (ns, na) newidx in
      let* t := of_opt IndexError (nth_error target s) in
      if t then Ok (P, index, upd to_target newidx 1%Q)
      else let* P := copy_row m cols P newidx s a in Ok (P, index, to_target))
    (combine (seq 0 (length rows)) rows)
    (mzero (length rows) (length cols), [], repeat 0%Q (length rows)).

(** label_to_xs[l].add(x), a defaultdict(set) *)
Definition lab_add {B} (beqb : B -> B -> bool) (d : dict string (list B)) (l : string) (x : B) : dict string (list B) :=
  side_add String.eqb beqb d l x.

(** 393-409, one round *)
Definition copy_labels (m : amdp) (index : dict (nat * nat) nat) (mapping : dict (nat * nat) (nat * nat))
    (st : dict string (list (nat * nat)) * dict string (list nat) * option (list Q)) (idx : nat)
  : res (dict string (list (nat * nat)) * dict string (list nat) * option (list Q)) :=
  let '(al, sl, rew) := st in
  let* (s, a) := of_opt KeyError (binv Nat.eqb index idx) in
  let* (ss, sa) := of_opt KeyError (binv pair_eqb mapping (s, a)) in
  let sl := fold_left (fun d l => lab_add Nat.eqb d l s) (labels_by_state m ss) sl in
  let al := fold_left (fun d l => lab_add pair_eqb d l (s, a)) (labels_by_action m (ss, sa)) al in
  match a_rew m, rew with
  | Some r, Some v =>
      let* sys_idx := of_opt KeyError (a_row m (ss, sa)) in
      let* q := of_opt IndexError (nth_error r sys_idx) in
      Ok (al, sl, Some (upd v idx q))
  | _, _ => Ok (al, sl, rew)
  end.

(** 372-431 *)
Definition initialize_system (P : mat) (index : dict (nat * nat) nat) (to_target : list Q)
    (mapping : dict (nat * nat) (nat * nat)) (m : amdp) (tl fl : string) : res amdp :=
  let C := mrows P in let N := mcols P in
  let* icompl := bput pair_eqb Nat.eqb index (N, 0) C in
  let* icompl := bput pair_eqb Nat.eqb icompl (S N, 0) (S C) in
  let rew := match a_rew m with None => None | Some _ => Some (repeat 0%Q (C + 2)) end in
  let* (al, sl, rew) := foldM (copy_labels m index mapping) (seq 0 C) ([], [], rew) in
  let sl := lab_add Nat.eqb sl fl (S N) in
  let sl := lab_add Nat.eqb sl tl N in
  let* (ntf, Pc) := foldM (fun st (e : nat * nat * Q) =>
      let '(ntf, Pc) := st in
      let '((idx, dest), p) := e in
      let* o := of_opt IndexError (nth_error ntf idx) in
      let* Pc := mset Pc idx dest p in
      Ok (upd ntf idx (o + p)%Q, Pc)) (mitems P) (repeat 0%Q C, mzero (C + 2) (N + 2)) in
  let* Pc := foldM (fun Pc (e : nat * Q) =>
      let '(idx, pt) := e in
      let* Pc := if Qlt_bool 0 pt then mset Pc idx N pt else Ok Pc in
      let* o := of_opt IndexError (nth_error ntf idx) in
      let pf := (1 - (pt + o))%Q in
      if Qlt_bool 0 pf then mset Pc idx (S N) pf else Ok Pc)
    (combine (seq 0 (length to_target)) to_target) Pc in
  let* Pc := mset Pc C N 1%Q in
  let* Pc := mset Pc (S C) (S N) 1%Q in
  mk_kind (a_kind m) Pc icompl al sl rew.

(** 250-369.  The keys of states_by_label are those of the underlying
    dictionary. *)
Definition reduce (rnd : nat -> Z) (m : amdp) (il tl ntl nfl : string)
  : res (rform * dict nat nat * dict (nat * nat) (nat * nat)) :=
  let* _ := assert_ (negb (dmem String.eqb (fwd (a_slab m)) ntl)) in
  let* _ := assert_ (negb (dmem String.eqb (fwd (a_slab m)) nfl)) in
  let targets := states_by_label m tl in
  let* _ := assert_ (0 <? length targets) in
  let* init := single_state m il in
  let* bwd := reachable_mask m targets Backward [] in
  let* fwd := reachable_mask m [init] Forward targets in
  let mask := zip_bool andb bwd fwd in
  let* (rows, cols) := numbering m mask in
  let* tmask := foldM (fun l t => if t <? length l then Ok (upd l t true) else Err IndexError) targets (repeat false (a_N m)) in
  let* (P, index, to_target) := new_rows m tmask rows cols in
  let* sys := initialize_system P index to_target rows m ntl nfl in
  let* rf := mk_rf rnd sys il ntl nfl true in
  Ok (rf, cols, rows).
