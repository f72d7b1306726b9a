(** Model of the drawings: MDP.digraph (switss/model/mdp.py 36-116),
    DTMC.digraph (switss/model/dtmc.py 42-98), the styles of
    switss/utils/graphviz_utils.py 27-111, the styles of reachability forms
    (switss/model/reachability_form.py 60-63, 86-112, 367, 433-473) and
    Subsystem.digraph (switss/problem/subsystem.py 176-223).

    A graphviz.Digraph is the list of statements written to it; the layout is
    graphviz's.  Attributes are dictionaries from names to texts.  Three
    formatting functions are parameters: the colour derived from md5
    (color_from_hash, 27-39), [str(round(p,10))] and ["{:.5f}".format].  Python
    functions given as styles may raise; they are taken to return new
    dictionaries (Subsystem.digraph writes into what the action map returns,
    subsystem.py 211, 218), and not to look at the order of the labels, which
    python does not fix. *)
From Coq Require Import String List Arith ZArith QArith Bool Ascii.
From Verif Require Import Base Num Matrix InvDict Graph Mec Amdp Files ReachForm Reduce RewardForm Subsystem RewProblems.
Import ListNotations.
Local Open Scope string_scope.
Local Open Scope nat_scope.

Definition attrs := dict string text.
Definition state_style := nat -> list string -> res attrs.
Definition action_style := nat -> nat -> list string -> res (dict string attrs).
Definition trans_style := nat -> nat -> nat -> Q -> res attrs.
Definition chain_style := nat -> nat -> Q -> res attrs.

(** graphviz_utils.py 102-111: VisualizationConfig (three functions) and
    DTMCVisualizationConfig (no action map, transitions without action). *)
Inductive vconfig :=
| VMdp (sm : state_style) (tm : trans_style) (am : action_style)
| VDtmc (sm : state_style) (tm : chain_style).

Definition v_state (v : vconfig) : state_style := match v with VMdp sm _ _ => sm | VDtmc sm _ => sm end.
(** Calling a function with too many arguments, or None, raises TypeError. *)
Definition v_action (v : vconfig) : action_style := match v with VMdp _ _ am => am | VDtmc _ _ => fun _ _ _ => Err TypeError end.
Definition v_trans (v : vconfig) : trans_style := match v with VMdp _ tm _ => tm | VDtmc _ _ => fun _ _ _ _ => Err TypeError end.
Definition v_chain (v : vconfig) : chain_style := match v with VMdp _ _ _ => fun _ _ _ => Err TypeError | VDtmc _ tm => tm end.
(** [type(a) == type(b)] *)
Definition same_class (a b : vconfig) : bool := match a, b with VMdp _ _ _, VMdp _ _ _ | VDtmc _ _, VDtmc _ _ => true | _, _ => false end.

Record formats := MkFormats { f_color : list string -> text; f_prob : Q -> text; f_fix5 : Q -> text }.

Fixpoint join_str (sep : text) (l : list string) : text :=
  match l with [] => [] | [x] => str x | x :: r => (str x ++ sep ++ join_str sep r)%list end.

(** graphviz_utils.py 41-53 *)
Definition std_state_map (f : formats) : state_style := fun s labels =>
  Ok [("style", str "filled"); ("color", f_color f labels);
      ("label", (str "State " ++ show_nat s ++ LF :: join_str (str ",") labels)%list); ("fontsize", str "18pt")].
(** 55-83 *)
Definition std_trans (f : formats) (p : Q) : attrs := [("color", str "black"); ("label", f_prob f p); ("fontsize", str "18pt")].
Definition std_trans_map_mdp (f : formats) : trans_style := fun _ _ _ p => Ok (std_trans f p).
Definition std_trans_map_dtmc (f : formats) : chain_style := fun _ _ p => Ok (std_trans f p).
(** 85-100 *)
Definition std_action (a : nat) (labels : list string) : dict string attrs :=
  [("node", [("label", (show_nat a ++ LF :: join_str [] labels)%list); ("color", str "black"); ("shape", str "rectangle"); ("fontsize", str "18pt")]);
   ("edge", [("color", str "black"); ("dir", str "none")])].
Definition std_action_map : action_style := fun _ a labels => Ok (std_action a labels).
Definition std_config (f : formats) (k : kind) : vconfig :=
  match k with KMdp => VMdp (std_state_map f) (std_trans_map_mdp f) std_action_map | KDtmc => VDtmc (std_state_map f) (std_trans_map_dtmc f) end.

(** Statements of a Digraph: [dg.attr('graph', size=..)], [dg.node], [dg.edge]. *)
Inductive stmt :=
| GraphS (a : attrs)
| NodeS (name : text) (a : attrs)
| EdgeS (tail head : text) (a : attrs).

(** mdp.py 97-102 and dtmc.py 88-92: the loop over the two states of a
    transition; [seen] is existing_nodes. *)
Definition draw_state (m : amdp) (sm : state_style) (st : list nat * list stmt) (s : nat) : res (list nat * list stmt) :=
  let '(seen, dg) := st in
  if smem Nat.eqb s seen then Ok st else
  let* a := sm s (labels_by_state m s) in
  Ok (sadd Nat.eqb seen s, (dg ++ [NodeS (show_nat s) a])%list).

(** mdp.py 107 *)
Definition pair_name (s a : nat) : text := (show_nat s ++ "-"%char :: show_nat a)%list.

(** mdp.py 93-114, one round; [rows] is existing_state_action_pairs. *)
Definition draw_mdp_step (m : amdp) (sm : state_style) (tm : trans_style) (am : action_style)
    (st : list nat * list nat * list stmt) (e : nat * nat * Q) : res (list nat * list nat * list stmt) :=
  let '(seen, rows, dg) := st in
  let '((i, d), p) := e in
  let* (s, a) := of_opt KeyError (a_inv m i) in
  let* (seen, dg) := foldM (draw_state m sm) [s; d] (seen, dg) in
  let* ta := tm s a d p in
  let* aa := am s a (labels_by_action m (s, a)) in
  let* (rows, dg) :=
    if smem Nat.eqb i rows then Ok (rows, dg) else
    let* na := of_opt KeyError (dget String.eqb aa "node") in
    let* ea := of_opt KeyError (dget String.eqb aa "edge") in
    Ok (sadd Nat.eqb rows i, (dg ++ [NodeS (pair_name s a) na; EdgeS (show_nat s) (pair_name s a) ea])%list) in
  Ok (seen, rows, (dg ++ [EdgeS (pair_name s a) (show_nat d) ta])%list).

(** mdp.py 36-116 *)
Definition draw_mdp (m : amdp) (sm : state_style) (tm : trans_style) (am : action_style) (small : bool) : res (list stmt) :=
  let dg := if small then [GraphS [("size", str "4,6")]] else [] in
  let* (_, _, dg) := foldM (draw_mdp_step m sm tm am) (mitems (a_P m)) ([], [], dg) in Ok dg.

(** dtmc.py 86-96, one round. *)
Definition draw_dtmc_step (m : amdp) (sm : state_style) (tm : chain_style)
    (st : list nat * list stmt) (e : nat * nat * Q) : res (list nat * list stmt) :=
  let '((i, d), p) := e in
  let* (s, _) := of_opt KeyError (a_inv m i) in
  let* (seen, dg) := foldM (draw_state m sm) [s; d] st in
  let* ta := tm s d p in
  Ok (seen, (dg ++ [EdgeS (show_nat s) (show_nat d) ta])%list).

(** dtmc.py 42-98 *)
Definition draw_dtmc (m : amdp) (sm : state_style) (tm : chain_style) : res (list stmt) :=
  let* (_, dg) := foldM (draw_dtmc_step m sm tm) (mitems (a_P m)) ([], []) in Ok dg.

(** [system.digraph(state_map=.., action_map=.., small=..)]: missing functions
    are taken from [system.visualization]; DTMC.digraph ignores the action map
    and [small]. *)
Definition or_else {A} (o : option A) (d : A) : A := match o with Some x => x | None => d end.
Definition digraph (m : amdp) (v : vconfig) (sm : option state_style) (am : option action_style) (small : bool) : res (list stmt) :=
  match a_kind m with
  | KMdp => draw_mdp m (or_else sm (v_state v)) (v_trans v) (or_else am (v_action v)) small
  | KDtmc => draw_dtmc m (or_else sm (v_state v)) (v_chain v)
  end.

(** A reachability form with its styles: [sf_vis] is the attribute
    [visualization] of its system; after [reduce] it is made of functions that
    look up the current styles of target and fail (reachability_form.py
    436-473). *)
Record styled := MkStyled {
  sf_rf : rform;
  sf_target : vconfig;
  sf_fail : vconfig;
  sf_vis : vconfig -> vconfig -> vconfig }.

Definition current_vis (sf : styled) : vconfig := sf_vis sf (sf_target sf) (sf_fail sf).

(** reachability_form.py 89-97, 103-111: the default styles. *)
Definition special_style (f : formats) (k : kind) (color label : string) : vconfig :=
  let sm : state_style := fun _ _ => Ok [("color", str color); ("style", str "filled"); ("label", str label)] in
  match k with
  | KMdp => VMdp sm (std_trans_map_mdp f) (fun _ _ _ => Ok [("node", [("shape", str "point")]); ("edge", [("dir", str "none")])])
  | KDtmc => VDtmc sm (std_trans_map_dtmc f)
  end.

(** reachability_form.py 60-63: a form built from a system with visualisation
    [v]. *)
Definition style_form (f : formats) (rf : rform) (v : vconfig) : styled :=
  let k := a_kind (rf_sys rf) in
  MkStyled rf (special_style f k "green" (rf_targetl rf)) (special_style f k "red" (rf_faill rf)) (fun _ _ => v).

(** reachability_form.py 86-98 and 100-112 with a style. *)
Definition set_target_style (sf : styled) (v : vconfig) : res styled :=
  let* _ := assert_ (same_class v (current_vis sf)) in Ok (MkStyled (sf_rf sf) v (sf_fail sf) (sf_vis sf)).
Definition set_fail_style (sf : styled) (v : vconfig) : res styled :=
  let* _ := assert_ (same_class v (current_vis sf)) in Ok (MkStyled (sf_rf sf) (sf_target sf) v (sf_vis sf)).

(** reachability_form.py 433-473; [cols], [rows] are to_rf_cols, to_rf_rows,
    of which the inverses are passed. *)
Definition adapt_style (N : nat) (cols : dict nat nat) (rows : dict (nat * nat) (nat * nat)) (v : vconfig) (vt vf : vconfig) : vconfig :=
  let old s := of_opt KeyError (binv Nat.eqb cols s) in
  let old_pair s a := of_opt KeyError (binv pair_eqb rows (s, a)) in
  let sm : state_style := fun s labels =>
    if s =? N - 2 then v_state vt s labels else if s =? N - 1 then v_state vf s labels
    else let* s0 := old s in v_state v s0 labels in
  let am : action_style := fun s a labels =>
    if s =? N - 2 then v_action vt s a labels else if s =? N - 1 then v_action vf s a labels
    else let* (s0, a0) := old_pair s a in v_action v s0 a0 labels in
  let tmd : chain_style := fun s d p =>
    if d =? N - 2 then v_chain vt s d p else if d =? N - 1 then v_chain vf s d p
    else let* s0 := old s in let* d0 := old d in v_chain v s0 d0 p in
  let tmm : trans_style := fun s a d p =>
    if d =? N - 2 then v_trans vt s a d p else if d =? N - 1 then v_trans vf s a d p
    else let* (s0, a0) := old_pair s a in let* d0 := old d in v_trans v s0 a0 d0 p in
  match v with VDtmc _ _ => VDtmc sm tmd | VMdp _ _ _ => VMdp sm tmm am end.

(** reachability_form.py 250-369 for a system with visualisation [v]. *)
Definition reduce_styled (f : formats) (rnd : nat -> Z) (m : amdp) (v : vconfig) (il tl ntl nfl : string) : res (styled * dict nat nat * dict (nat * nat) (nat * nat)) :=
  let* (rf, cols, rows) := reduce rnd m il tl ntl nfl in
  let k := a_kind (rf_sys rf) in
  Ok (MkStyled rf (special_style f k "green" (rf_targetl rf)) (special_style f k "red" (rf_faill rf)) (adapt_style (a_N (rf_sys rf)) cols rows v), cols, rows).

(** [form.system.digraph()] *)
Definition draw_form (sf : styled) : res (list stmt) := digraph (rf_sys (sf_rf sf)) (current_vis sf) None None false.

(** [{**a, **b}] *)
Definition merge {V} (a b : dict string V) : dict string V := fold_left (fun d e => dset String.eqb d (fst e) (snd e)) b a.

(** subsystem.py 197-200, 216-219: the label with the weight. *)
Definition weight_label (f : formats) (label : text) (i : nat) (c : Q) : text :=
  let w := (str "c[" ++ show_nat i ++ str "]=" ++ f_fix5 f c)%list in
  match label with [] => w | _ => (label ++ LF :: w)%list end.

(** subsystem.py 176-223.  [subkind] is what evaluating [self.subsys.system]
    gives (the class of the system, or an exception); [v] is the visualisation
    of the system of the supersystem. *)
Section SubDraw.
  Context (f : formats) (sub : subsystem) (v : vconfig) (subkind : res kind) (show_weights : bool).

  (** 186-203 *)
  Definition sub_state_map : state_style := fun s labels =>
    let* mask := subsystem_mask sub in
    let is_fail := s =? S (length mask) in
    let is_target := s =? length mask in
    let* inside := if is_fail || is_target then Ok false else of_opt IndexError (nth_error mask s) in
    let* sm := v_state v s labels in
    let* weights := if show_weights then
                      match sub_form sub with
                      | Min => Ok true
                      | _ => let* k := subkind in Ok (match k with KDtmc => true | KMdp => false end)
                      end
                    else Ok false in
    if negb (inside || is_fail || is_target) then Ok [("label", []); ("color", str "azure3"); ("style", str "filled")]
    else if weights && inside then
      let* label := of_opt KeyError (dget String.eqb sm "label") in
      let* c := of_opt IndexError (nth_error (sub_cert sub) s) in
      Ok (merge sm [("label", weight_label f label s c)])
    else Ok sm.

  (** 205-220 *)
  Definition sub_action_map : action_style := fun s a labels =>
    let* mask := subsystem_mask sub in
    let special := (s =? length mask) || (s =? S (length mask)) in
    let* inside := if special then Ok false else of_opt IndexError (nth_error mask s) in
    let weights := show_weights && match sub_form sub with Max => true | _ => false end && inside in
    let* am := v_action v s a labels in
    let* n := of_opt KeyError (dget String.eqb am "node") in
    let node := merge [("label", [])] n in
    let am := dset String.eqb am "node" node in
    let* am :=
      if weights then
        let* i := of_opt KeyError (a_row (rf_sys (sub_super sub)) (s, a)) in
        let* c := of_opt IndexError (nth_error (sub_cert sub) i) in
        let* label := of_opt KeyError (dget String.eqb node "label") in
        Ok (dset String.eqb am "node" (merge node [("label", weight_label f label i c); ("shape", str "rectangle")]))
      else Ok am in
    Ok (merge (std_action a labels) am).

  (** 222 *)
  Definition sub_draw (small : bool) : res (list stmt) :=
    digraph (rf_sys (sub_super sub)) v (Some sub_state_map) (Some sub_action_map) small.
End SubDraw.

(** For reachability forms and for reward forms. *)
Definition rf_subkind (rnd : nat -> Z) (sub : subsystem) : res kind := let* r := subsys rnd sub in Ok (a_kind (rf_sys r)).
Definition rr_subkind (sub : subsystem) : res kind := let* r := rr_subsys sub in Ok (a_kind (rf_sys r)).
Definition sub_digraph (f : formats) (rnd : nat -> Z) (sub : subsystem) (v : vconfig) (show_weights small : bool) : res (list stmt) :=
  sub_draw f sub v (rf_subkind rnd sub) show_weights small.
Definition rr_sub_digraph (f : formats) (sub : subsystem) (v : vconfig) (show_weights small : bool) : res (list stmt) :=
  sub_draw f sub v (rr_subkind sub) show_weights small.
