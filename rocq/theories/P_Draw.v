(** Properties C79-C82: drawings. *)
From Coq Require Import String List Arith NArith ZArith QArith Bool Ascii Lia.
From Verif Require Import Base Num Matrix InvDict Graph Amdp Files SpecSystem SpecBuilt SpecPrism SpecForm SpecSub
  ReachForm Reduce Subsystem RewardForm RewProblems SpecRewSub Examples ExProofs2 ExProofs4 ExProofs5 Draw SpecDraw DrawProofs2 DrawProofs4 ExDraw RewFinal ExReward.
Import ListNotations.
Local Open Scope string_scope.
Local Open Scope nat_scope.

(** C79.  The drawing shows exactly the transitions of the system: one node for
    every state that occurs in one, one for every pair, one edge for every
    transition, named apart and with the attributes the styles give. *)
Theorem C79_draw_mdp : forall m sm tm am small, built m -> a_kind m = KMdp ->
  (forall s, touched m s -> exists at_, sm s (labels_by_state m s) = Ok at_) ->
  (forall s a d p, transition m s a d p -> exists at_, tm s a d p = Ok at_) ->
  (forall s a, enabled m s a -> exists aa na ea, am s a (labels_by_action m (s, a)) = Ok aa /\ dget String.eqb aa "node" = Some na /\ dget String.eqb aa "edge" = Some ea) ->
  exists dg, digraph m (VMdp sm tm am) None None small = Ok dg /\ exists name, naming name /\
    shows_mdp m name (fun s at_ => sm s (labels_by_state m s) = Ok at_)
      (fun s a at_ => exists aa, am s a (labels_by_action m (s, a)) = Ok aa /\ dget String.eqb aa "node" = Some at_)
      (fun s a at_ => exists aa, am s a (labels_by_action m (s, a)) = Ok aa /\ dget String.eqb aa "edge" = Some at_)
      (fun s a d p at_ => tm s a d p = Ok at_) dg.
Proof. exact C79_mdp_lemma. Qed.
Print Assumptions C79_draw_mdp.

Theorem C79_draw_dtmc : forall m sm tm small, built m -> a_kind m = KDtmc ->
  (forall s, touched m s -> exists at_, sm s (labels_by_state m s) = Ok at_) ->
  (forall s a d p, transition m s a d p -> exists at_, tm s d p = Ok at_) ->
  exists dg, digraph m (VDtmc sm tm) None None small = Ok dg /\ exists name, naming name /\
    shows_dtmc m name (fun s at_ => sm s (labels_by_state m s) = Ok at_) (fun s d p at_ => tm s d p = Ok at_) dg.
Proof. exact C79_dtmc_lemma. Qed.
Print Assumptions C79_draw_dtmc.

(** The standard styles can be used for every system. *)
Theorem C79_draw_standard : forall f m small, built m -> exists dg, digraph m (std_config f (a_kind m)) None None small = Ok dg /\ exists name, naming name /\
  match a_kind m with
  | KMdp => shows_mdp m name (fun s at_ => Ok at_ = std_state_map f s (labels_by_state m s))
      (fun s a at_ => dget String.eqb (std_action a (labels_by_action m (s, a))) "node" = Some at_) (fun s a at_ => dget String.eqb (std_action a (labels_by_action m (s, a))) "edge" = Some at_)
      (fun s a d p at_ => at_ = std_trans f p) dg
  | KDtmc => shows_dtmc m name (fun s at_ => Ok at_ = std_state_map f s (labels_by_state m s)) (fun s d p at_ => at_ = std_trans f p) dg
  end.
Proof. exact C79_std_lemma. Qed.
Print Assumptions C79_draw_standard.

(** The states drawn are those that have an action or are led to. *)
Theorem C79_drawn_states : forall m s, built m -> s < a_N m -> (touched m s <->
  (exists a i, i < a_C m /\ a_inv m i = Some (s, a)) \/ exists i p, In ((i, s), p) (mitems (a_P m))).
Proof. exact C79_touched_lemma. Qed.
Print Assumptions C79_drawn_states.

Example C79_nonvacuous : built red1 /\ a_kind red1 = KMdp /\ (exists dg, digraph red1 (std_config exf KMdp) None None true = Ok dg /\ length (nodes dg) = 12 /\ length (ends dg) = 18) /\
  built ch3 /\ a_kind ch3 = KDtmc.
Proof. split; [exact red1_built|]. split; [vm_compute; reflexivity|]. split; [exact ex_draw|]. split; [exact ch3_built|vm_compute; reflexivity]. Qed.

(** C80.  In the drawing of a reduced form the copies look like the originals,
    with the styles set for target and fail. *)
Theorem C80_reduced_mdp : forall f rnd m v il tl ntl nfl sf cols rows vt vf sf1 sf2, built m -> a_kind m = KMdp ->
  reduce_styled f rnd m v il tl ntl nfl = Ok (sf, cols, rows) -> set_target_style sf vt = Ok sf1 -> set_fail_style sf1 vf = Ok sf2 ->
  total_config KMdp v -> total_config KMdp vt -> total_config KMdp vf ->
  let m' := rf_sys (sf_rf sf2) in
  exists dg, draw_form sf2 = Ok dg /\ exists name, naming name /\
    shows_mdp m' name (copy_node m' cols v vt vf) (copy_pair m' rows v vt vf "node") (copy_pair m' rows v vt vf "edge") (copy_trans m' cols rows v vt vf) dg.
Proof. exact C80_mdp_lemma. Qed.
Print Assumptions C80_reduced_mdp.

Theorem C80_reduced_dtmc : forall f rnd m v il tl ntl nfl sf cols rows vt vf sf1 sf2, built m -> a_kind m = KDtmc ->
  reduce_styled f rnd m v il tl ntl nfl = Ok (sf, cols, rows) -> set_target_style sf vt = Ok sf1 -> set_fail_style sf1 vf = Ok sf2 ->
  total_config KDtmc v -> total_config KDtmc vt -> total_config KDtmc vf ->
  let m' := rf_sys (sf_rf sf2) in
  exists dg, draw_form sf2 = Ok dg /\ exists name, naming name /\ shows_dtmc m' name (copy_node m' cols v vt vf) (copy_chain m' cols v vt vf) dg.
Proof. exact C80_dtmc_lemma. Qed.
Print Assumptions C80_reduced_dtmc.

(** Styles of the right class can be set, and those set by default never
    raise. *)
Theorem C80_styles : forall f rnd m v il tl ntl nfl sf cols rows, built m -> total_config (a_kind m) v -> reduce_styled f rnd m v il tl ntl nfl = Ok (sf, cols, rows) ->
  total_config (a_kind m) (sf_target sf) /\ total_config (a_kind m) (sf_fail sf) /\
  forall vt vf, total_config (a_kind m) vt -> total_config (a_kind m) vf -> exists sf1 sf2, set_target_style sf vt = Ok sf1 /\ set_fail_style sf1 vf = Ok sf2.
Proof. exact C80_default_lemma. Qed.
Print Assumptions C80_styles.

Example C80_nonvacuous : built red1 /\ exists sf sf1 sf2 dg, reduce_styled exf exrnd red1 (std_config exf KMdp) "init" "goal" "rf_target" "rf_fail" = Ok (sf, red1cols, red1rows) /\
  set_target_style sf (blue_mdp exf) = Ok sf1 /\ set_fail_style sf1 (blue_mdp exf) = Ok sf2 /\ draw_form sf2 = Ok dg /\ In (NodeS (str "3") [("color", str "blue")]) dg /\
  exists a, In (NodeS (str "2") a) dg /\ dget String.eqb a "label" = Some (str "State 4" ++ LF :: str "grey,goal")%list.
Proof. split; [exact red1_built|exact ex_reduced]. Qed.

(** C81.  In the drawing of a subsystem the states that are not chosen are grey
    and the others look as in the system, with the entry of the certificate
    below the label: at states for certificates of form min and for Markov
    chains, at actions for form max.  Missing: chains whose rows are not in
    the order of the states, subsystems that cannot be built, reward forms. *)
Theorem C81_subsystem_mdp_partial : forall f rnd rf cert form ign sub v show small, built_form rf -> mk_subsystem rf cert form ign = Ok sub -> let m := rf_sys rf in
  a_kind m = KMdp -> total_config KMdp v -> real_dicts v -> (show = true -> form = Min -> labels_states v) -> (show = true -> form = Max -> exists rf', subsys rnd sub = Ok rf') ->
  exists dg, sub_digraph f rnd sub v show small = Ok dg /\ exists name node pnode pedge, naming name /\
    shows_mdp m name node pnode pedge (fun s a d p at_ => v_trans v s a d p = Ok at_) dg /\
    (forall s at_, touched m s -> node s at_ -> look_node m v name (f_fix5 f) (chosen m form cert) (fun s i c => show = true /\ state_weight m form cert s i c) s at_) /\
    (forall s a at_, enabled m s a -> pnode s a at_ -> look_pair m v name (f_fix5 f) (chosen m form cert) (fun s a i c => show = true /\ pair_weight m form cert s a i c) s a at_) /\
    (forall s a at_, enabled m s a -> pedge s a at_ -> exists aa, v_action v s a (labels_by_action m (s, a)) = Ok aa /\ dget String.eqb aa "edge" = Some at_).
Proof. exact C81_mdp_lemma. Qed.
Print Assumptions C81_subsystem_mdp_partial.

Theorem C81_subsystem_dtmc_partial : forall f rnd rf cert form ign sub v show small, built_form rf -> mk_subsystem rf cert form ign = Ok sub -> let m := rf_sys rf in
  a_kind m = KDtmc -> total_config KDtmc v -> (show = true -> labels_states v) ->
  (show = true -> form = Max -> (exists rf', subsys rnd sub = Ok rf') /\ forall s, s < a_N m - 2 -> a_inv m s = Some (s, 0)) ->
  exists dg, sub_digraph f rnd sub v show small = Ok dg /\ exists name node, naming name /\
    shows_dtmc m name node (fun s d p at_ => v_chain v s d p = Ok at_) dg /\
    (forall s at_, touched m s -> node s at_ -> look_node m v name (f_fix5 f) (chosen m form cert) (fun s i c => show = true /\ state_weight m form cert s i c) s at_).
Proof. exact C81_dtmc_lemma. Qed.
Print Assumptions C81_subsystem_dtmc_partial.

(** Reward forms: without weights or in form min. *)
Theorem C81_reward_mdp_partial : forall f rr cert form ign sub v show small, reward_form rr -> mk_subsystem (rr_rf rr) cert form ign = Ok sub -> let m := rf_sys (rr_rf rr) in
  a_kind m = KMdp -> total_config KMdp v -> real_dicts v -> (show = true -> form = Min /\ labels_states v) ->
  exists dg, rr_sub_digraph f sub v show small = Ok dg /\ exists name node pnode pedge, naming name /\
    shows_mdp m name node pnode pedge (fun s a d p at_ => v_trans v s a d p = Ok at_) dg /\
    (forall s at_, touched m s -> node s at_ -> look_node m v name (f_fix5 f) (chosen m form cert) (fun s i c => show = true /\ state_weight m form cert s i c) s at_) /\
    (forall s a at_, enabled m s a -> pnode s a at_ -> look_pair m v name (f_fix5 f) (chosen m form cert) (fun s a i c => show = true /\ pair_weight m form cert s a i c) s a at_) /\
    (forall s a at_, enabled m s a -> pedge s a at_ -> exists aa, v_action v s a (labels_by_action m (s, a)) = Ok aa /\ dget String.eqb aa "edge" = Some at_).
Proof. exact C81_reward_mdp_lemma. Qed.
Print Assumptions C81_reward_mdp_partial.

Theorem C81_reward_dtmc_partial : forall f rr cert form ign sub v show small, reward_form rr -> mk_subsystem (rr_rf rr) cert form ign = Ok sub -> let m := rf_sys (rr_rf rr) in
  a_kind m = KDtmc -> total_config KDtmc v -> (show = true -> form = Min /\ labels_states v) ->
  exists dg, rr_sub_digraph f sub v show small = Ok dg /\ exists name node, naming name /\
    shows_dtmc m name node (fun s d p at_ => v_chain v s d p = Ok at_) dg /\
    (forall s at_, touched m s -> node s at_ -> look_node m v name (f_fix5 f) (chosen m form cert) (fun s i c => show = true /\ state_weight m form cert s i c) s at_).
Proof. exact C81_reward_dtmc_lemma. Qed.
Print Assumptions C81_reward_dtmc_partial.

(** With weights and form max the drawing raises whenever the subsystem cannot
    be built, and always for reward forms. *)
Theorem C81_raises_partial : (forall f rnd rf cert ign sub v small e, built_form rf -> mk_subsystem rf cert Max ign = Ok sub -> total_config (a_kind (rf_sys rf)) v ->
    subsys rnd sub = Err e -> sub_digraph f rnd sub v true small = Err e) /\
  (forall f rr cert ign sub v small, reward_form rr -> mk_subsystem (rr_rf rr) cert Max ign = Ok sub -> total_config (a_kind (rf_sys (rr_rf rr))) v ->
    rr_sub_digraph f sub v true small = Err AttributeError).
Proof. split; [exact C81_raises_lemma|exact C81_reward_raises_lemma]. Qed.
Print Assumptions C81_raises_partial.

(** A Markov chain whose rows are permuted: a state shows the entry of another
    state. *)
Theorem C81_subsystem_refuted : forall f, exists rnd rf cert sub v dg name s at_, built_form rf /\ cert_point rf Max (1#2) cert /\ mk_subsystem rf cert Max false = Ok sub /\ (exists rf', subsys rnd sub = Ok rf') /\
  total_config KDtmc v /\ labels_states v /\ a_kind (rf_sys rf) = KDtmc /\ naming name /\ sub_digraph f rnd sub v true false = Ok dg /\ touched (rf_sys rf) s /\ In (NodeS (name (TState s)) at_) dg /\
  ~ look_node (rf_sys rf) v name (f_fix5 f) (chosen (rf_sys rf) Max cert) (state_weight (rf_sys rf) Max cert) s at_.
Proof. exact C81_refuted_lemma. Qed.
Print Assumptions C81_subsystem_refuted.

Example C81_nonvacuous : built_form ec1rf /\ mk_subsystem ec1rf [1; 0; 0; 1#2]%Q Max false = Ok ec1sub /\ subsys exrnd ec1sub = Ok ec1sub_rf /\ a_kind (rf_sys ec1rf) = KMdp /\
  built_form ec2rf /\ mk_subsystem ec2rf [1#2; 0]%Q Min false = Ok ec2sub /\ built_form ch3rf /\ a_kind (rf_sys ch3rf) = KDtmc /\ (forall s, s < 3 -> a_inv (rf_sys ch3rf) s = Some (s, 0)) /\ reward_form rw1rr /\
  total_config KMdp (std_config exf KMdp) /\ real_dicts (std_config exf KMdp) /\ labels_states (std_config exf KMdp).
Proof.
  split; [apply ec1rf_built|]. split; [apply ec1sub_ok|]. split; [apply ec1sub_ok|]. split; [vm_compute; reflexivity|]. split; [apply ec2rf_built|]. split; [apply ec2sub_ok|]. split; [exact ch3rf_built|]. split; [vm_compute; reflexivity|].
  split; [intros [|[|[|s]]] H; [vm_compute; reflexivity..|lia]|]. split; [exact rw1rr_ok|]. apply std_total.
Qed.

(** C82.  The styles of target and fail are used in every drawing of the form:
    true after a reduction (C80); a form built directly is drawn as its system
    is, whatever styles are set. *)
Theorem C82_direct_partial : forall f rf v vt vf sf1 sf2, set_target_style (style_form f rf v) vt = Ok sf1 -> set_fail_style sf1 vf = Ok sf2 ->
  draw_form sf2 = digraph (rf_sys rf) v None None false.
Proof. exact C82_partial_lemma. Qed.
Print Assumptions C82_direct_partial.

Theorem C82_styles_refuted : forall f, exists rf v vt sf1 dg, built_form rf /\ total_config (a_kind (rf_sys rf)) v /\ total_config (a_kind (rf_sys rf)) vt /\
  set_target_style (style_form f rf v) vt = Ok sf1 /\ draw_form sf1 = Ok dg /\
  exists name, naming name /\ touched (rf_sys rf) (a_N (rf_sys rf) - 2) /\
  forall at_, In (NodeS (name (TState (a_N (rf_sys rf) - 2))) at_) dg -> v_state vt (a_N (rf_sys rf) - 2) (labels_by_state (rf_sys rf) (a_N (rf_sys rf) - 2)) <> Ok at_.
Proof. exact C82_refuted_lemma. Qed.
Print Assumptions C82_styles_refuted.

Example C82_nonvacuous : exists sf1 sf2, set_target_style (style_form exf ch3rf (std_config exf KDtmc)) (blue exf) = Ok sf1 /\ set_fail_style sf1 (blue exf) = Ok sf2.
Proof. do 2 eexists. split; reflexivity. Qed.
