(** Proofs about drawings: the final statements. *)
From Coq Require Import String List Arith NArith ZArith QArith Bool Ascii Lia.
From Verif Require Import Base BaseFacts Num Matrix MatFacts InvDict Graph GraphProofs Amdp Files FilesProofs SpecSystem SpecBuilt SpecPrism SpecForm PrismProofs
  ReachForm ReachFormProofs BuiltFacts Reduce Subsystem SpecSub SubProofs1 SubProofs2 SubProofs4 RewardForm RewProblems SpecRewSub RewFinal Draw SpecDraw DrawProofs DrawProofs2 DrawProofs3.
Import ListNotations.
Local Open Scope string_scope.
Local Open Scope nat_scope.

Lemma touched_N : forall m s, sys_ok m -> touched m s -> s < a_N m.
Proof.
  intros m s OK [(a & d & p & i & E & K)|(s0 & a & p & i & E & K)]; destruct (item_inv m OK _ _ _ K) as (s1 & a1 & E1 & L1 & L2); [|exact L2].
  rewrite E in E1. injection E1 as <- <-. exact L1.
Qed.

Section Final.
  Context (f : formats) (rf : rform) (BF : built_form rf) (cert : list Q) (form : mode) (ign : bool) (sub : subsystem) (MK : mk_subsystem rf cert form ign = Ok sub).
  Context (v : vconfig) (subkind : res kind) (show small : bool).
  Let m := rf_sys rf.
  Let keep := chosen m form cert.
  Hypothesis TV : total_config (a_kind m) v.
  Hypothesis LS : show = true -> form = Min \/ a_kind m = KDtmc -> labels_states v.
  Hypothesis SK : show = true -> form = Max -> subkind = Ok (a_kind m).

  Lemma draw_sub_mdp : a_kind m = KMdp -> real_dicts v ->
    exists dg, sub_draw f sub v subkind show small = Ok dg /\ exists name node pnode pedge, naming name /\
      shows_mdp m name node pnode pedge (fun s a d p at_ => v_trans v s a d p = Ok at_) dg /\
      (forall s at_, touched m s -> node s at_ -> look_node m v name (f_fix5 f) keep (fun s i c => show = true /\ state_weight m form cert s i c) s at_) /\
      (forall s a at_, enabled m s a -> pnode s a at_ -> look_pair m v name (f_fix5 f) keep (fun s a i c => show = true /\ pair_weight m form cert s a i c) s a at_) /\
      (forall s a at_, enabled m s a -> pedge s a at_ -> exists aa, v_action v s a (labels_by_action m (s, a)) = Ok aa /\ dget String.eqb aa "edge" = Some at_).
  Proof.
    intros K RD. pose proof (co_ok rf BF) as OK. fold m in OK.
    assert (RS : show = true -> form = Max -> a_kind m = KDtmc -> forall s, s < a_N m - 2 -> a_inv m s = Some (s, 0)) by (intros _ _ E; rewrite K in E; discriminate E).
    pose proof (state_map_ok f rf BF cert form ign sub MK v subkind show TV LS SK RS) as SM. pose proof (action_map_ok f rf BF cert form ign sub MK v subkind show TV RD LS SK RS) as AM. fold m in SM, AM.
    assert (TT : forall s a d p, exists at_, v_trans v s a d p = Ok at_). { rewrite K in TV. destruct v; [apply TV|destruct TV]. }
    assert (SD : sub_draw f sub v subkind show small = draw_mdp m (node_map f sub v subkind show) (v_trans v) (action_map f sub v show) small).
    { unfold sub_draw, digraph. rewrite (proj1 (mask_ok _ _ _ _ _ BF MK)). cbn [sub_super]. fold m. rewrite K. reflexivity. }
    rewrite SD. destruct (draw_mdp_total m OK (node_map f sub v subkind show) (v_trans v) (action_map f sub v show) small) as (dg & E).
    - split; [|split].
      + intros s T. apply (touched_N m s OK) in T. destruct (SM s T) as (x & Hx & _). eauto.
      + intros s a d p _. apply TT.
      + intros s a T. destruct (AM s a T K) as (aa & na & ea & E1 & E2 & E3 & _). eauto 8.
    - exists dg. split; [exact E|]. exists the_name. do 3 eexists. split; [exact the_naming|]. split; [exact (draw_mdp_shows m OK _ _ _ small dg E)|]. split; [|split].
      + intros s at_ T Hn. apply (touched_N m s OK) in T. destruct (SM s T) as (x & Hx & HL). hnf in Hn. rewrite Hx in Hn. injection Hn as <-. exact HL.
      + intros s a at_ T Hn. destruct (AM s a T K) as (aa & na & ea & E1 & E2 & E3 & HL & _). destruct Hn as (aa' & F1 & F2). rewrite E1 in F1. injection F1 as <-. rewrite E2 in F2. injection F2 as <-. exact HL.
      + intros s a at_ T Hn. destruct (AM s a T K) as (aa & na & ea & E1 & E2 & E3 & _ & HE). destruct Hn as (aa' & F1 & F2). rewrite E1 in F1. injection F1 as <-. rewrite E3 in F2. injection F2 as <-. exact HE.
  Qed.

  Lemma draw_sub_dtmc : a_kind m = KDtmc -> (show = true -> form = Max -> forall s, s < a_N m - 2 -> a_inv m s = Some (s, 0)) ->
    exists dg, sub_draw f sub v subkind show small = Ok dg /\ exists name node, naming name /\
      shows_dtmc m name node (fun s d p at_ => v_chain v s d p = Ok at_) dg /\
      (forall s at_, touched m s -> node s at_ -> look_node m v name (f_fix5 f) keep (fun s i c => show = true /\ state_weight m form cert s i c) s at_).
  Proof.
    intros K RS. pose proof (co_ok rf BF) as OK. fold m in OK.
    pose proof (state_map_ok f rf BF cert form ign sub MK v subkind show TV LS SK (fun a b _ => RS a b)) as SM. fold m in SM.
    assert (TT : forall s d p, exists at_, v_chain v s d p = Ok at_). { rewrite K in TV. destruct v; [destruct TV|apply TV]. }
    assert (SD : sub_draw f sub v subkind show small = draw_dtmc m (node_map f sub v subkind show) (v_chain v)).
    { unfold sub_draw, digraph. rewrite (proj1 (mask_ok _ _ _ _ _ BF MK)). cbn [sub_super]. fold m. rewrite K. reflexivity. }
    rewrite SD. destruct (draw_dtmc_total m OK (node_map f sub v subkind show) (v_chain v)) as (dg & E).
    - split.
      + intros s T. apply (touched_N m s OK) in T. destruct (SM s T) as (x & Hx & _). eauto.
      + intros s a d p _. apply TT.
    - exists dg. split; [exact E|]. exists the_name. eexists. split; [exact the_naming|]. split; [exact (draw_dtmc_shows m OK _ _ dg (dtmc_zero m (co_built rf BF) K) E)|].
      intros s at_ T Hn. apply (touched_N m s OK) in T. destruct (SM s T) as (x & Hx & HL). hnf in Hn. rewrite Hx in Hn. injection Hn as <-. exact HL.
  Qed.

  (** If the kind is needed and evaluating it raises, so does the drawing. *)
  Lemma draw_sub_raises : forall e, show = true -> form = Max -> subkind = Err e -> sub_draw f sub v subkind show small = Err e.
  Proof.
    clear LS SK. intros e SH FM SE. pose proof (co_ok rf BF) as OK. fold m in OK. destruct (mask_ok _ _ _ _ _ BF MK) as (ES & mask & EM & HM). pose proof MK as MK2. rewrite ES in MK2, EM. pose proof (mask_length _ _ _ _ _ EM MK2) as LM. rewrite <- ES in EM. fold m in HM, LM.
    destruct (co_form rf BF) as (_ & HN & HC & Hi & _ & _ & _ & ((a1 & p1 & _ & L1) & _) & _). fold m in HN, HC, Hi, L1.
    assert (SM : forall s l, s < a_N m -> sub_state_map f sub v subkind show s l = Err e).
    { intros s l L. unfold sub_state_map. rewrite EM. cbn [bind]. rewrite LM.
      destruct (tot_state (a_kind m) v s l TV) as (base & EB).
      assert (EI : exists b, (if (s =? S (a_N m - 2)) || (s =? a_N m - 2) then Ok false else of_opt IndexError (nth_error mask s)) = Ok b).
      { destruct (Nat.eqb_spec s (S (a_N m - 2))); [cbn; eauto|]. destruct (Nat.eqb_spec s (a_N m - 2)); [cbn; eauto|]. cbn [orb]. rewrite HM by (unfold a_N in *; lia). cbn. eauto. }
      destruct EI as (b & EI). cbv zeta. rewrite EI. cbn [bind]. rewrite EB. cbn [bind]. rewrite SH, ES. cbn [sub_form]. rewrite FM, SE. reflexivity. }
    assert (IT : exists i d p r, mitems (a_P m) = ((i, d), p) :: r). { destruct (mitems (a_P m)) as [|[[i d] p] r]; [destruct L1|eauto]. }
    destruct IT as (i & d & p & r & IT). assert (HI : In ((i, d), p) (mitems (a_P m))) by (rewrite IT; left; reflexivity). destruct (item_inv m OK i d p HI) as (s & a & EI & Ls & _).
    unfold sub_draw, digraph. rewrite ES. cbn [sub_super]. rewrite <- ES. fold m. destruct (a_kind m); cbn [or_else].
    - unfold draw_mdp. rewrite IT. cbn [foldM]. unfold draw_mdp_step at 1. rewrite EI. cbn [of_opt bind foldM]. unfold draw_state at 1. cbn [smem existsb]. rewrite (SM s _ Ls). reflexivity.
    - unfold draw_dtmc. rewrite IT. cbn [foldM]. unfold draw_dtmc_step at 1. rewrite EI. cbn [of_opt bind foldM]. unfold draw_state at 1. cbn [smem existsb]. rewrite (SM s _ Ls). reflexivity.
  Qed.
End Final.

Lemma rf_subkind_ok : forall rnd rf cert form ign sub rf', built_form rf -> mk_subsystem rf cert form ign = Ok sub -> subsys rnd sub = Ok rf' -> rf_subkind rnd sub = Ok (a_kind (rf_sys rf)).
Proof.
  intros rnd rf cert form ign sub rf' BF MK E. unfold rf_subkind. rewrite E. cbn [bind]. destruct (C30_lemma rnd rf cert form ign sub rf' BF MK E) as (I & _). rewrite (in_kind _ _ _ _ _ I). reflexivity.
Qed.

Lemma C81_mdp_lemma : forall f rnd rf cert form ign sub v show small, built_form rf -> mk_subsystem rf cert form ign = Ok sub -> let m := rf_sys rf in
  a_kind m = KMdp -> total_config KMdp v -> real_dicts v -> (show = true -> form = Min -> labels_states v) -> (show = true -> form = Max -> exists rf', subsys rnd sub = Ok rf') ->
  exists dg, sub_digraph f rnd sub v show small = Ok dg /\ exists name node pnode pedge, naming name /\
    shows_mdp m name node pnode pedge (fun s a d p at_ => v_trans v s a d p = Ok at_) dg /\
    (forall s at_, touched m s -> node s at_ -> look_node m v name (f_fix5 f) (chosen m form cert) (fun s i c => show = true /\ state_weight m form cert s i c) s at_) /\
    (forall s a at_, enabled m s a -> pnode s a at_ -> look_pair m v name (f_fix5 f) (chosen m form cert) (fun s a i c => show = true /\ pair_weight m form cert s a i c) s a at_) /\
    (forall s a at_, enabled m s a -> pedge s a at_ -> exists aa, v_action v s a (labels_by_action m (s, a)) = Ok aa /\ dget String.eqb aa "edge" = Some at_).
Proof.
  intros f rnd rf cert form ign sub v show small BF MK m K TV RD LS SK. apply (draw_sub_mdp f rf BF cert form ign sub MK v (rf_subkind rnd sub) show small); auto.
  - fold m. rewrite K. exact TV.
  - intros SH [F|F]; [auto|]. fold m in F. rewrite K in F. discriminate F.
  - intros SH F. destruct (SK SH F) as (rf' & E). exact (rf_subkind_ok _ _ _ _ _ _ _ BF MK E).
Qed.

Lemma C81_dtmc_lemma : forall f rnd rf cert form ign sub v show small, built_form rf -> mk_subsystem rf cert form ign = Ok sub -> let m := rf_sys rf in
  a_kind m = KDtmc -> total_config KDtmc v -> (show = true -> labels_states v) ->
  (show = true -> form = Max -> (exists rf', subsys rnd sub = Ok rf') /\ forall s, s < a_N m - 2 -> a_inv m s = Some (s, 0)) ->
  exists dg, sub_digraph f rnd sub v show small = Ok dg /\ exists name node, naming name /\
    shows_dtmc m name node (fun s d p at_ => v_chain v s d p = Ok at_) dg /\
    (forall s at_, touched m s -> node s at_ -> look_node m v name (f_fix5 f) (chosen m form cert) (fun s i c => show = true /\ state_weight m form cert s i c) s at_).
Proof.
  intros f rnd rf cert form ign sub v show small BF MK m K TV LS SK. apply (draw_sub_dtmc f rf BF cert form ign sub MK v (rf_subkind rnd sub) show small); auto.
  - fold m. rewrite K. exact TV.
  - intros SH F. destruct (SK SH F) as ((rf' & E) & _). exact (rf_subkind_ok _ _ _ _ _ _ _ BF MK E).
  - intros SH F. apply (SK SH F).
Qed.

Lemma C81_raises_lemma : forall f rnd rf cert ign sub v small e, built_form rf -> mk_subsystem rf cert Max ign = Ok sub -> total_config (a_kind (rf_sys rf)) v ->
  subsys rnd sub = Err e -> sub_digraph f rnd sub v true small = Err e.
Proof.
  intros f rnd rf cert ign sub v small e BF MK TV E. apply (draw_sub_raises f rf BF cert Max ign sub MK v _ true small TV e eq_refl eq_refl). unfold rf_subkind. rewrite E. reflexivity.
Qed.

Lemma C81_reward_raises_lemma : forall f rr cert ign sub v small, reward_form rr -> mk_subsystem (rr_rf rr) cert Max ign = Ok sub -> total_config (a_kind (rf_sys (rr_rf rr))) v ->
  rr_sub_digraph f sub v true small = Err AttributeError.
Proof.
  intros f rr cert ign sub v small RR MK TV. apply (draw_sub_raises f (rr_rf rr) (proj1 RR) cert Max ign sub MK v _ true small TV _ eq_refl eq_refl).
  unfold rr_subkind. rewrite (C66_final rr cert Max ign sub RR MK). reflexivity.
Qed.

Lemma C81_reward_mdp_lemma : forall f rr cert form ign sub v show small, reward_form rr -> mk_subsystem (rr_rf rr) cert form ign = Ok sub -> let m := rf_sys (rr_rf rr) in
  a_kind m = KMdp -> total_config KMdp v -> real_dicts v -> (show = true -> form = Min /\ labels_states v) ->
  exists dg, rr_sub_digraph f sub v show small = Ok dg /\ exists name node pnode pedge, naming name /\
    shows_mdp m name node pnode pedge (fun s a d p at_ => v_trans v s a d p = Ok at_) dg /\
    (forall s at_, touched m s -> node s at_ -> look_node m v name (f_fix5 f) (chosen m form cert) (fun s i c => show = true /\ state_weight m form cert s i c) s at_) /\
    (forall s a at_, enabled m s a -> pnode s a at_ -> look_pair m v name (f_fix5 f) (chosen m form cert) (fun s a i c => show = true /\ pair_weight m form cert s a i c) s a at_) /\
    (forall s a at_, enabled m s a -> pedge s a at_ -> exists aa, v_action v s a (labels_by_action m (s, a)) = Ok aa /\ dget String.eqb aa "edge" = Some at_).
Proof.
  intros f rr cert form ign sub v show small RR MK m K TV RD LS. apply (draw_sub_mdp f (rr_rf rr) (proj1 RR) cert form ign sub MK v (rr_subkind sub) show small); auto.
  - fold m. rewrite K. exact TV.
  - intros SH _. apply (LS SH).
  - intros SH F. destruct (LS SH) as (F' & _). rewrite F in F'. discriminate F'.
Qed.

Lemma C81_reward_dtmc_lemma : forall f rr cert form ign sub v show small, reward_form rr -> mk_subsystem (rr_rf rr) cert form ign = Ok sub -> let m := rf_sys (rr_rf rr) in
  a_kind m = KDtmc -> total_config KDtmc v -> (show = true -> form = Min /\ labels_states v) ->
  exists dg, rr_sub_digraph f sub v show small = Ok dg /\ exists name node, naming name /\
    shows_dtmc m name node (fun s d p at_ => v_chain v s d p = Ok at_) dg /\
    (forall s at_, touched m s -> node s at_ -> look_node m v name (f_fix5 f) (chosen m form cert) (fun s i c => show = true /\ state_weight m form cert s i c) s at_).
Proof.
  intros f rr cert form ign sub v show small RR MK m K TV LS. apply (draw_sub_dtmc f (rr_rf rr) (proj1 RR) cert form ign sub MK v (rr_subkind sub) show small); auto.
  - fold m. rewrite K. exact TV.
  - intros SH _. apply (LS SH).
  - intros SH F. destruct (LS SH) as (F' & _). rewrite F in F'. discriminate F'.
  - intros SH F. destruct (LS SH) as (F' & _). rewrite F in F'. discriminate F'.
Qed.

(** The standard styles. *)
Lemma std_total : forall f k, total_config k (std_config f k) /\ real_dicts (std_config f k) /\ labels_states (std_config f k).
Proof.
  intros f k. split; [|split].
  - destruct k; cbn; (split; [intros; eexists; reflexivity|]); [split; [intros; eexists; reflexivity|]; intros; do 3 eexists; split; [reflexivity|split; reflexivity]|intros; eexists; reflexivity].
  - intros s a l aa E. destruct k; [|discriminate E]. injection E as <-. split.
    + repeat constructor; cbn; intuition discriminate.
    + intros kk b G. apply (dget_In String.eqb String.eqb_spec) in G. destruct G as [G|[G|[]]]; injection G as _ <-; repeat constructor; cbn; intuition discriminate.
  - intros s l at_ E. destruct k; injection E as <-; eexists; reflexivity.
Qed.

Lemma C79_std_lemma : forall f m small, built m -> exists dg, digraph m (std_config f (a_kind m)) None None small = Ok dg /\ exists name, naming name /\
  match a_kind m with
  | KMdp => shows_mdp m name (fun s at_ => Ok at_ = std_state_map f s (labels_by_state m s))
      (fun s a at_ => dget String.eqb (std_action a (labels_by_action m (s, a))) "node" = Some at_) (fun s a at_ => dget String.eqb (std_action a (labels_by_action m (s, a))) "edge" = Some at_)
      (fun s a d p at_ => at_ = std_trans f p) dg
  | KDtmc => shows_dtmc m name (fun s at_ => Ok at_ = std_state_map f s (labels_by_state m s)) (fun s d p at_ => at_ = std_trans f p) dg
  end.
Proof.
  intros f m small B. destruct (a_kind m) eqn:K; cbn [std_config].
  - destruct (C79_mdp_lemma m (std_state_map f) (std_trans_map_mdp f) std_action_map small B K) as (dg & E & name & NA & SH).
    + intros; eexists; reflexivity.
    + intros; eexists; reflexivity.
    + intros; do 3 eexists; split; [reflexivity|split; reflexivity].
    + exists dg. split; [exact E|]. exists name. split; [exact NA|]. revert SH. apply shows_mdp_ext.
      * intros s a _. split; congruence.
      * intros s x a _. split; [intros (aa & E1 & E2); injection E1 as <-; exact E2|intros H; eexists; split; [reflexivity|exact H]].
      * intros s x a _. split; [intros (aa & E1 & E2); injection E1 as <-; exact E2|intros H; eexists; split; [reflexivity|exact H]].
      * intros s x d q a _. unfold std_trans_map_mdp. split; congruence.
  - destruct (C79_dtmc_lemma m (std_state_map f) (std_trans_map_dtmc f) small B K) as (dg & E & name & NA & SH).
    + intros; eexists; reflexivity.
    + intros; eexists; reflexivity.
    + exists dg. split; [exact E|]. exists name. split; [exact NA|]. revert SH. apply shows_dtmc_ext.
      * intros s a _. split; congruence.
      * intros s x d q a _. unfold std_trans_map_dtmc. split; congruence.
Qed.
