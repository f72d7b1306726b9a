(** Examples about drawings. *)
From Coq Require Import String List Arith NArith ZArith QArith Bool Ascii Lia.
From Verif Require Import Base BaseFacts Num Matrix InvDict Graph Amdp Files FilesProofs SpecSystem SpecBuilt SpecPrism SpecForm SpecSub
  ReachForm BuiltFacts Reduce Subsystem Examples ExProofs2 ExProofs4 ExProofs5 Draw SpecDraw DrawProofs DrawProofs2 DrawProofs3 DrawProofs4.
Import ListNotations.
Local Open Scope string_scope.
Local Open Scope nat_scope.

Definition exf : formats := MkFormats (fun l => join_str (str "+") l) (fun q => if Qeq_bool q 1 then str "1.0" else str "0.5") (fun q => if Qeq_bool q 1 then str "1.00000" else str "0.50000").

(** Row 0 belongs to state 1, row 1 to state 0. *)
Definition swP : mat := mat_of_rows 4 [[0; 0; 1; 0]; [0; 1#2; 0; 1#2]; [0; 0; 1; 0]; [0; 0; 0; 1]]%Q.
Definition swI : dict (nat * nat) nat := [((0, 0), 1); ((1, 0), 0); ((2, 0), 2); ((3, 0), 3)].
Definition swL : dict string (list nat) := [("init", [0]); ("target", [2]); ("fail", [3])].
Definition swm : amdp := get dummy_amdp (mk_dtmc swP (Some swI) swL None).
Definition swrf : rform := get dummy_rf (mk_rf exrnd swm "init" "target" "fail" false).
Lemma sw_built : built swm.
Proof. apply built_new. exists swP, swI, [], swL, None. split; [apply good_args_ok; vm_compute; reflexivity|]. right; left. vm_compute. reflexivity. Qed.
Lemma swrf_built : built_form swrf.
Proof. exists exrnd, swm, "init", "target", "fail". split; [apply sw_built|vm_compute; reflexivity]. Qed.
Definition swsub : subsystem := get dummy_sub (mk_subsystem swrf [1#2; 1]%Q Max false).
Lemma swsub_ok : mk_subsystem swrf [1#2; 1]%Q Max false = Ok swsub /\ exists rf', subsys exrnd swsub = Ok rf'.
Proof. split; [vm_compute; reflexivity|]. eexists. vm_compute. reflexivity. Qed.

Lemma sw_point : cert_point swrf Max (1#2) [1#2; 1]%Q.
Proof.
  split; [split; [|vm_compute; discriminate]|split; [reflexivity|]].
  - intros s Hs. change (s < 2) in Hs. destruct s as [|[|s]]; [| |lia]; vm_compute; discriminate.
  - intros i Hi. change (i < 2) in Hi. destruct i as [|[|i]]; [| |lia]; vm_compute; discriminate.
Qed.

Definition sw_attrs (f : formats) : attrs :=
  [("style", str "filled"); ("color", f_color f ["init"]); ("label", (str "State 0" ++ LF :: str "init" ++ LF :: str "c[0]=" ++ f_fix5 f (1#2))%list); ("fontsize", str "18pt")].

Definition sw_base (f : formats) : attrs :=
  [("style", str "filled"); ("color", f_color f ["init"]); ("label", (str "State 0" ++ LF :: str "init")%list); ("fontsize", str "18pt")].

Lemma sw_drawn : forall f, exists dg, sub_digraph f exrnd swsub (std_config f KDtmc) true false = Ok dg /\ In (NodeS (the_name (TState 0)) (sw_attrs f)) dg.
Proof. intros f. eexists. split; [vm_compute; reflexivity|]. vm_compute. auto 10. Qed.

Lemma sw_wrong : forall f, ~ look_node (rf_sys swrf) (std_config f KDtmc) the_name (f_fix5 f) (chosen (rf_sys swrf) Max [1#2; 1]%Q) (fun s i c => true = true /\ state_weight (rf_sys swrf) Max [1#2; 1]%Q s i c) 0 (sw_attrs f).
Proof.
  intros f (base & EB & L). assert (B : v_state (std_config f KDtmc) 0 (labels_by_state (rf_sys swrf) 0) = Ok (sw_base f)) by (vm_compute; reflexivity). rewrite B in EB. injection EB as <-. clear B.
  assert (K : (0 <? a_N (rf_sys swrf) - 2) && negb (chosen (rf_sys swrf) Max [1#2; 1]%Q 0) = false) by (vm_compute; reflexivity). rewrite K in L. clear K. destruct L as [_ [(i & c & l & _ & (_ & EC & EI) & EL & ET)|[[X|X] _]]].
  - destruct i as [|[|i]]; [vm_compute in EI; discriminate EI| |destruct i; discriminate EC]. assert (EL' : dget String.eqb (sw_base f) "label" = Some (str "State 0" ++ LF :: str "init")%list) by (vm_compute; reflexivity). assert (Some l = Some (str "State 0" ++ LF :: str "init")%list) as E3 by (rewrite <- EL; exact EL').
    assert (l = str "State 0" ++ LF :: str "init")%list as -> by (inversion E3; reflexivity). clear -ET. vm_compute in ET. discriminate ET.
  - vm_compute in X. lia.
  - apply (X 1 1%Q). split; [reflexivity|]. split; [reflexivity|]. vm_compute. reflexivity.
Qed.

Lemma C81_refuted_lemma : forall f, exists rnd rf cert sub v dg name s at_, built_form rf /\ cert_point rf Max (1#2) cert /\ mk_subsystem rf cert Max false = Ok sub /\ (exists rf', subsys rnd sub = Ok rf') /\
  total_config KDtmc v /\ labels_states v /\ a_kind (rf_sys rf) = KDtmc /\ naming name /\ sub_digraph f rnd sub v true false = Ok dg /\ touched (rf_sys rf) s /\ In (NodeS (name (TState s)) at_) dg /\
  ~ look_node (rf_sys rf) v name (f_fix5 f) (chosen (rf_sys rf) Max cert) (state_weight (rf_sys rf) Max cert) s at_.
Proof.
  intros f. destruct (sw_drawn f) as (dg & E & I). exists exrnd, swrf, [1#2; 1]%Q, swsub, (std_config f KDtmc), dg, the_name, 0, (sw_attrs f).
  split; [exact swrf_built|]. split; [exact sw_point|]. split; [apply swsub_ok|]. split; [apply swsub_ok|]. destruct (std_total f KDtmc) as (T & _ & LS). split; [exact T|]. split; [exact LS|]. split; [reflexivity|].
  split; [exact the_naming|]. split; [exact E|]. split; [left; exists 0, 1, (1#2)%Q, 1; split; [vm_compute; reflexivity|vm_compute; auto]|]. split; [exact I|].
  intros (base & EB & L). apply (sw_wrong f). exists base. split; [exact EB|]. destruct (_ && _); [exact L|]. destruct L as [L1 L2]. split; [exact L1|]. destruct L2 as [(i & c & l & A & B & C)|[A B]].
  - left. exists i, c, l. auto.
  - right. split; [|exact B]. destruct A as [A|A]; [left; exact A|]. right. intros i c [_ H]. exact (A i c H).
Qed.

(** A style for the target that does not show. *)
Definition blue (f : formats) : vconfig := VDtmc (fun _ _ => Ok [("color", str "blue")]) (std_trans_map_dtmc f).
Lemma C82_refuted_lemma : forall f, exists rf v vt sf1 dg, built_form rf /\ total_config (a_kind (rf_sys rf)) v /\ total_config (a_kind (rf_sys rf)) vt /\
  set_target_style (style_form f rf v) vt = Ok sf1 /\ draw_form sf1 = Ok dg /\
  exists name, naming name /\ touched (rf_sys rf) (a_N (rf_sys rf) - 2) /\
  forall at_, In (NodeS (name (TState (a_N (rf_sys rf) - 2))) at_) dg -> v_state vt (a_N (rf_sys rf) - 2) (labels_by_state (rf_sys rf) (a_N (rf_sys rf) - 2)) <> Ok at_.
Proof.
  intros f. exists ch3rf, (std_config f KDtmc), (blue f). do 2 eexists. split; [exact ch3rf_built|]. assert (K : a_kind (rf_sys ch3rf) = KDtmc) by (vm_compute; reflexivity). rewrite K. split; [apply (std_total f KDtmc)|]. split; [split; intros; eexists; reflexivity|]. clear K.
  split; [reflexivity|]. split; [vm_compute; reflexivity|]. exists the_name. split; [exact the_naming|]. split; [left; exists 0, 3, 1%Q, 3; split; [vm_compute; reflexivity|vm_compute; auto 10]|].
  intros at_ I H. injection H as <-. vm_compute in I. repeat (destruct I as [I|I]; [discriminate I|]). exact I.
Qed.

(** A drawing of a decision process and its reduced form. *)
Lemma ex_draw : exists dg, digraph red1 (std_config exf KMdp) None None true = Ok dg /\ length (nodes dg) = 12 /\ length (ends dg) = 18.
Proof. eexists. split; [vm_compute; reflexivity|]. vm_compute. auto. Qed.
Definition blue_mdp (f : formats) : vconfig := VMdp (fun _ _ => Ok [("color", str "blue")]) (std_trans_map_mdp f) std_action_map.
Lemma ex_reduced : exists sf sf1 sf2 dg, reduce_styled exf exrnd red1 (std_config exf KMdp) "init" "goal" "rf_target" "rf_fail" = Ok (sf, red1cols, red1rows) /\
  set_target_style sf (blue_mdp exf) = Ok sf1 /\ set_fail_style sf1 (blue_mdp exf) = Ok sf2 /\ draw_form sf2 = Ok dg /\ In (NodeS (str "3") [("color", str "blue")]) dg /\
  exists a, In (NodeS (str "2") a) dg /\ dget String.eqb a "label" = Some (str "State 4" ++ LF :: str "grey,goal")%list.
Proof.
  unfold reduce_styled. rewrite red1_reduce. cbn [bind]. do 4 eexists. split; [reflexivity|]. split; [reflexivity|]. split; [reflexivity|]. split; [vm_compute; reflexivity|]. split; [vm_compute; auto 30|].
  eexists. split; [vm_compute; auto 30|vm_compute; reflexivity].
Qed.
