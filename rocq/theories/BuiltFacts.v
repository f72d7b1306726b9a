(** Constructed objects satisfy the invariants used in the proofs. *)
From Coq Require Import String List Arith ZArith QArith Qreals Reals Bool Lia Lra.
From Verif Require Import Base BaseFacts Num Matrix MatFacts InvDict InvDictProofs Graph GraphSpec GraphProofs Scc SccSpec Mec MecProofs
  SpecMdp SpecSystem SpecEc SpecForm SpecBuilt SumFacts Amdp AmdpProofs ReachForm ReachFormProofs RfFacts FarkCache FarkProofs.
Import ListNotations.
Local Open Scope nat_scope.

Lemma nodupb_ok : forall A (eqb : A -> A -> bool), (forall a b, reflect (a = b) (eqb a b)) -> forall l, nodupb eqb l = true -> NoDup l.
Proof.
  intros A eqb HP. induction l as [|x l IH]; simpl; intros H; [constructor|]. apply andb_true_iff in H. destruct H as [H1 H2].
  constructor; auto. intros Hin. apply negb_true_iff in H1. assert (existsb (eqb x) l = true); [|congruence].
  apply existsb_exists. exists x. split; auto. destruct (HP x x); auto.
Qed.

Lemma good_args_ok : forall P idx al sl, good_args_b P idx al sl = true -> good_args P idx al sl.
Proof.
  intros P idx al sl H. unfold good_args_b in H. rewrite !andb_true_iff in H. destruct H as ((((((H1 & H2) & H3) & H5) & H6) & H7) & H4).
  split; [|split; [|split; [split|split]]].
  - split; [apply (nodupb_ok _ _ pair_eqbP); auto|]. intros i d p Hin. rewrite forallb_forall in H2. specialize (H2 _ Hin). simpl in H2.
    rewrite !andb_true_iff, !Nat.ltb_lt, negb_true_iff in H2. destruct H2 as ((A & B) & C). split; [auto|]. split; [auto|].
    intros E. apply Qeq_bool_iff in E. congruence.
  - apply (nodupb_ok _ _ pair_eqbP); auto.
  - apply (nodupb_ok _ String.eqb String.eqb_spec); auto.
  - intros l s Hin. rewrite forallb_forall in H6. specialize (H6 _ Hin). apply (nodupb_ok _ _ pair_eqbP); auto.
  - apply (nodupb_ok _ String.eqb String.eqb_spec); auto.
  - intros l s Hin. rewrite forallb_forall in H4. specialize (H4 _ Hin). apply (nodupb_ok _ _ Nat.eqb_spec); auto.
Qed.

(** Both views of the labels agree. *)
Definition labs_ok (m : amdp) : Prop :=
  describes String.eqb Nat.eqb (a_slab m) (fun l s => In s (states_by_label m l)) /\ dflt (a_slab m) = true /\
  describes String.eqb pair_eqb (a_alab m) (fun l x => In x (actions_by_label m l)) /\ dflt (a_alab m) = true.

(** A Markov chain has one row per state. *)
Definition kind_ok (m : amdp) : Prop :=
  a_kind m = KDtmc -> a_C m = a_N m /\ (forall s a i, In ((s, a), i) (a_idx m) -> a = 0) /\ fwd (a_alab m) = [].

Lemma mk_idict_describes : forall (K V : Type) (keqb : K -> K -> bool) (veqb : V -> V -> bool), (forall a b, reflect (a = b) (keqb a b)) ->
  forall d df, NoDup (map fst d) -> describes keqb veqb (mk_idict d df) (fun k v => In v (match dget keqb d k with Some s => s | None => [] end)).
Proof.
  intros K V keqb veqb HP d df HN. split; [exact HN|]. split; [|exact I]. intros k v. unfold has. simpl. destruct (dget keqb d k).
  - split; [intros (s & E & H); inversion E; subst; auto|intros H; eauto].
  - split; [intros (s & E & _); discriminate|intros []].
Qed.

Lemma mk_abstract_labs_ok : forall k P idx al sl rew m, NoDup (map fst idx) -> NoDup (map fst al) -> NoDup (map fst sl) ->
  mk_abstract k P idx (mk_idict al true) (mk_idict sl true) rew = Ok m -> labs_ok m.
Proof.
  intros k P idx al sl rew m HN HA HS H. apply mk_abstract_inv in H; auto. destruct H as (_ & _ & _ & _ & EA & ES & _).
  unfold labs_ok, states_by_label, actions_by_label. rewrite EA, ES. split; [|split; [auto|split; [|auto]]].
  - apply (mk_idict_describes _ _ String.eqb Nat.eqb String.eqb_spec); auto.
  - apply (mk_idict_describes _ _ String.eqb pair_eqb String.eqb_spec); auto.
Qed.

Lemma constructed_ok : forall m, constructed m -> sys_ok m /\ labs_ok m /\ kind_ok m.
Proof.
  intros m (P & idx & al & sl & rew & (WF & KN & (AN & AS) & SN & LS) & H).
  assert (LS' : forall l s, dget String.eqb sl l = Some s -> NoDup s).
  { intros l s E. eapply LS. eapply (dget_In String.eqb); eauto. intros; apply String.eqb_spec. }
  destruct H as [H|[H|H]].
  - unfold mk_mdp in H. split; [eapply mk_abstract_sys_ok; [ | | |exact H]; auto|]. split; [eapply mk_abstract_labs_ok; [ | | |exact H]; auto|].
    apply mk_abstract_inv in H; auto. destruct H as (E & _). unfold kind_ok. rewrite E. discriminate.
  - assert (HD : exists m, mk_dtmc P (Some idx) sl rew = Ok m) by eauto. apply C10_dtmc_lemma in HD; [|auto|intros d E; inversion E; subst; auto].
    destruct HD as (D1 & _ & D2).
    unfold mk_dtmc in H. apply bind_ok in H. destruct H as (u & _ & H). apply bind_ok in H. destruct H as (d & E & H). 
    apply bind_ok in E. destruct E as (u' & _ & E). inversion E; subst d. split; [eapply mk_abstract_sys_ok; [ | | |exact H]; auto|].
    split; [eapply mk_abstract_labs_ok; [ | | |exact H]; auto; constructor|].
    apply mk_abstract_inv in H; auto. destruct H as (_ & EP & EI & _ & EA & _). intros _. unfold a_C, a_N. rewrite EP, EI, EA. auto.
  - assert (HD : exists m, mk_dtmc P None sl rew = Ok m) by eauto. apply C10_dtmc_lemma in HD; [|auto|discriminate].
    destruct HD as (D1 & _).
    unfold mk_dtmc in H. apply bind_ok in H. destruct H as (u & _ & H). cbn [bind] in H. 
    pose proof (proj1 (diag_nodup (mrows P))) as DN. split; [eapply mk_abstract_sys_ok; [ | | |exact H]; auto|].
    split; [eapply mk_abstract_labs_ok; [ | | |exact H]; auto; constructor|].
    apply mk_abstract_inv in H; auto. destruct H as (_ & EP & EI & _ & EA & _). intros _. unfold a_C, a_N. rewrite EP, EI, EA. split; auto. split; auto.
    intros s a i Hin. apply in_map_iff in Hin. destruct Hin as (j & Ej & _). inversion Ej; auto.
Qed.

Lemma sadd_nodup : forall A (eqb : A -> A -> bool), (forall a b, reflect (a = b) (eqb a b)) -> forall l x, NoDup l -> NoDup (sadd eqb l x).
Proof.
  intros A eqb HP l x H. unfold sadd. destruct (smem eqb x l) eqn:E; auto.
  apply NoDup_rev in H. assert (NoDup (rev (l ++ [x]))); [|apply NoDup_rev in H0; rewrite rev_involutive in H0; auto].
  rewrite rev_app_distr. simpl. constructor; auto. rewrite <- in_rev. apply (smem_false eqb HP); auto.
Qed.

Lemma side_add_sets : forall (A B : Type) (aeqb : A -> A -> bool) (beqb : B -> B -> bool), (forall a b, reflect (a = b) (aeqb a b)) ->
  (forall a b, reflect (a = b) (beqb a b)) -> forall d k v, (forall k' s, dget aeqb d k' = Some s -> NoDup s) ->
  forall k' s, dget aeqb (side_add aeqb beqb d k v) k' = Some s -> NoDup s.
Proof.
  intros A B aeqb beqb HA HB d k v H k' s. unfold side_add, dmem. destruct (dget aeqb d k) as [s0|] eqn:E.
  - rewrite E, dget_dset by auto. destruct (HA k k'); [|apply H]. intros E'. inversion E'; subst. apply sadd_nodup; auto. eapply H; eauto.
  - rewrite dget_dset_same by auto. rewrite dget_dset by auto. destruct (HA k k').
    + intros E'. inversion E'; subst. apply sadd_nodup; auto. constructor.
    + rewrite dget_dset_other by auto. apply H.
Qed.

Lemma add_facts : forall m s l, sys_ok m -> labs_ok m -> kind_ok m ->
  sys_ok (add_label m s l) /\ labs_ok (add_label m s l) /\ kind_ok (add_label m s l).
Proof.
  intros m s l S L K.
  assert (S' : forall k' x, dget String.eqb (side_add String.eqb Nat.eqb (fwd (a_slab m)) l s) k' = Some x -> NoDup x).
  { apply side_add_sets; [apply String.eqb_spec|apply Nat.eqb_spec|]. intros k' x E.
    destruct S as (_ & _ & _ & _ & S). specialize (S k'). unfold states_by_label in S. rewrite E in S. auto. }
  split; [|split; [|exact K]].
  - destruct S as (A & B & C & D & E). split; [exact A|]. split; [exact B|]. split; [exact C|]. split; [exact D|].
    intros l'. unfold states_by_label. simpl. destruct (dget String.eqb (side_add String.eqb Nat.eqb (fwd (a_slab m)) l s) l') eqn:E'; [eapply S'; eauto|constructor].
  - destruct L as (L1 & L2 & L3 & L4). split; [|split; [exact L2|split; [exact L3|exact L4]]].
    eapply describes_ext; [apply add_describes; [apply String.eqb_spec|apply Nat.eqb_spec|exact L1]|].
    intros l' s'. unfold states_by_label at 2. simpl.
    pose proof (side_add_has String.eqb Nat.eqb String.eqb_spec Nat.eqb_spec (fwd (a_slab m)) l s l' s') as HH.
    assert (G : forall d, has String.eqb d l' s' <-> In s' (match dget String.eqb d l' with Some x => x | None => [] end)).
    { intros d. unfold has. destruct (dget String.eqb d l'); [split; [intros (x & E & I); inversion E; subst; auto|eauto]|split; [intros (x & E & _); discriminate|intros []]]. }
    rewrite (G (side_add _ _ _ _ _)) in HH. rewrite (G (fwd (a_slab m))) in HH. symmetry. exact HH.
Qed.

Definition forced (m : amdp) : amdp :=
  MkAmdp (a_kind m) (a_P m) (a_idx m) (a_rew m) (a_alab m) (force_inv String.eqb Nat.eqb (a_slab m)) (a_graph m).

Lemma forced_states : forall m l, states_by_label (forced m) l = states_by_label m l.
Proof. intros m l. unfold states_by_label, forced. cbn [a_slab]. rewrite force_fwd. reflexivity. Qed.

Lemma forced_facts : forall m, sys_ok m -> labs_ok m -> kind_ok m -> sys_ok (forced m) /\ labs_ok (forced m) /\ kind_ok (forced m).
Proof.
  intros m S L K. split; [|split; [|exact K]].
  - destruct S as (A & B & C & D & E). split; [exact A|]. split; [exact B|]. split; [exact C|]. split; [exact D|].
    intros l. rewrite forced_states. apply E.
  - destruct L as (L1 & L2 & L3 & L4). split; [|split; [rewrite <- L2; apply force_dflt|split; [exact L3|exact L4]]].
    eapply describes_ext; [apply force_describes; [apply String.eqb_spec|apply Nat.eqb_spec|exact L1]|].
    intros l s. rewrite forced_states. tauto.
Qed.

Lemma add_label_inv_eq : forall m s l, add_label_inv m s l = add_label (forced m) s l.
Proof. intros m s l. unfold add_label_inv, add_label, forced. cbn [a_kind a_P a_idx a_rew a_alab a_slab a_graph]. rewrite inv_add_eq. reflexivity. Qed.

Lemma built_facts : forall m, built m -> sys_ok m /\ labs_ok m /\ kind_ok m.
Proof.
  intros m H. induction H as [m H|m s l H (S & L & K)|m s l H (S & L & K)]; [apply constructed_ok; auto|apply add_facts; auto|].
  rewrite add_label_inv_eq. destruct (forced_facts m S L K) as (S' & L' & K'). apply add_facts; auto.
Qed.

Lemma built_ok : forall m, built m -> sys_ok m. Proof. intros m H. apply built_facts; auto. Qed.

Lemma labels_state_iff : forall m, labs_ok m -> forall l s, In l (labels_by_state m s) <-> In s (states_by_label m l).
Proof.
  intros m (L1 & L2 & _) l s. rewrite <- (inv_get_describes String.eqb Nat.eqb String.eqb_spec Nat.eqb_spec _ _ l s L1).
  unfold labels_by_state. destruct (inv_get String.eqb Nat.eqb (a_slab m) s) as [x|e].
  - split; [eauto|]. intros (x' & E & H). inversion E; subst; auto.
  - split; [intros []|intros (x & E & _); discriminate].
Qed.
Lemma labels_action_iff : forall m, labs_ok m -> forall l x, In l (labels_by_action m x) <-> In x (actions_by_label m l).
Proof.
  intros m (_ & _ & L1 & L2) l s. rewrite <- (inv_get_describes String.eqb pair_eqb String.eqb_spec pair_eqbP _ _ l s L1).
  unfold labels_by_action. destruct (inv_get String.eqb pair_eqb (a_alab m) s) as [x|e].
  - split; [eauto|]. intros (x' & E & H). inversion E; subst; auto.
  - split; [intros []|intros (x & E & _); discriminate].
Qed.

Lemma built_any_ok : forall rf, built_any rf -> rf_ok rf.
Proof. intros rf (rnd & m & il & tl & fl & ign & HB & H). apply mk_rf_ok in H; [tauto|apply built_ok; auto]. Qed.

Lemma built_form_any : forall rf, built_form rf -> built_any rf.
Proof. intros rf (rnd & m & il & tl & fl & HB & H). exists rnd, m, il, tl, fl, false. auto. Qed.

Lemma built_form_ok : forall rf, built_form rf -> rf_ok rf /\
  in_reach_form (a_P (rf_sys rf)) (a_inv (rf_sys rf)) (labelled (rf_sys rf)) (rf_init rf) (rf_initl rf) (rf_targetl rf) (rf_faill rf).
Proof.
  intros rf (rnd & m & il & tl & fl & HB & H). pose proof (built_ok m HB) as HO. apply mk_rf_ok in H; auto.
  destruct H as (RO & <- & <- & <- & <- & HC). split; auto. specialize (HC eq_refl). apply consistency_iff in HC; auto. destruct HC as (init & HC).
  rewrite (form_init rf init RO HC). auto.
Qed.

(** C11 *)
Lemma C11_lemma : forall m il tl fl, built m ->
  (assert_consistency m il tl fl = Ok tt <-> exists init, in_reach_form (a_P m) (a_inv m) (has_label m) init il tl fl).
Proof. intros. apply consistency_iff. apply built_ok; auto. Qed.
Lemma C11_built_lemma : forall rnd m il tl fl, built m ->
  ((exists rf, mk_rf rnd m il tl fl false = Ok rf) <-> exists init, in_reach_form (a_P m) (a_inv m) (has_label m) init il tl fl).
Proof. intros. apply mk_rf_iff. apply built_ok; auto. Qed.
Lemma C11_contents_lemma : forall rnd m il tl fl rf, built m -> mk_rf rnd m il tl fl false = Ok rf ->
  rf_sys rf = m /\ in_reach_form (a_P m) (a_inv m) (has_label m) (rf_init rf) il tl fl.
Proof.
  intros rnd m il tl fl rf HB H. assert (BF : built_form rf) by (exists rnd, m, il, tl, fl; auto).
  destruct (built_form_ok rf BF) as [_ HR]. apply mk_rf_ok in H; [|apply built_ok; auto]. destruct H as (_ & <- & <- & <- & <- & _). auto.
Qed.

(** C09, second half *)
Lemma C09_free_lemma : forall rf, built_form rf ->
  (is_ec_free rf = true <-> forall s, s < a_N (rf_sys rf) - 2 -> ~ in_some_ec (a_P (rf_sys rf)) (a_inv (rf_sys rf)) s).
Proof. intros rf H. destruct (built_form_ok rf H) as [RO RF]. apply (is_ec_free_iff rf (rf_init rf)); auto. Qed.
Lemma C09_state_lemma : forall rf, built_form rf -> forall s, s < a_N (rf_sys rf) - 2 ->
  exists b, in_proper_ec rf s = Ok b /\ (b = true <-> in_some_ec (a_P (rf_sys rf)) (a_inv (rf_sys rf)) s).
Proof. intros rf H s Hs. destruct (built_form_ok rf H) as [RO RF]. apply (in_proper_ec_ok rf (rf_init rf)); auto. Qed.

(** C16 *)
Lemma C16_z_lemma : forall rf t z A b, built_any rf -> fark_z rf t = Ok (A, b) -> length z = a_N (rf_sys rf) - 2 ->
  (Forall2 Qle (mat_vec A z) b <-> z_constraints (a_P (rf_sys rf)) (a_inv (rf_sys rf)) (rf_init rf) t z).
Proof. intros rf t z A b H E L. apply fark_z_meaning; auto. apply built_any_ok; auto. Qed.
Lemma C16_y_lemma : forall rf t y A b, built_any rf -> fark_y rf t = Ok (A, b) -> length y = a_C (rf_sys rf) - 2 ->
  (Forall2 Qle (mat_vec A y) b <-> y_constraints (a_P (rf_sys rf)) (a_inv (rf_sys rf)) (rf_init rf) t y).
Proof. intros rf t z A b H E L. apply fark_y_meaning; auto. apply built_any_ok; auto. Qed.
Lemma C16_defined_lemma : forall rf t, built_any rf -> 
  ((exists Ab, fark_z rf t = Ok Ab) <-> rf_init rf < a_N (rf_sys rf) - 2) /\ ((exists Ab, fark_y rf t = Ok Ab) <-> rf_init rf <= a_N (rf_sys rf) - 2).
Proof.
  intros rf t H. split.
  - rewrite <- (fark_z_ok rf t). split; [intros ([A b] & E); eauto|intros (A & b & E); eauto].
  - rewrite <- (fark_y_ok rf t). split; [intros ([A b] & E); eauto|intros (A & b & E); eauto].
Qed.

Lemma C17_built : forall rf, built_any rf -> forall l t,
  let st := calls rf cinit l in
  (let '(st', r) := do_call rf st (CallZ t) in
     match r with Ok (M, a) => Ok (M, cell st' a) | Err e => Err e end = fark_z rf t) /\
  (let '(st', r) := do_call rf st (CallY t) in
     match r with Ok (M, a) => Ok (M, cell st' a) | Err e => Err e end = fark_y rf t).
Proof. intros rf H l t. exact (C17_lemma rf (built_any_ok rf H) l t). Qed.

Lemma C18_built : forall rf, built_any rf -> forall l1 t st M a,
  (do_call rf (calls rf cinit l1) (CallZ t) = (st, Ok (M, a)) ->
   forall l2, (forall t', In (CallZ t') l2 -> t' = t) -> cell (calls rf st l2) a = cell st a) /\
  (do_call rf (calls rf cinit l1) (CallY t) = (st, Ok (M, a)) ->
   forall l2, (forall t', In (CallY t') l2 -> t' = t) -> cell (calls rf st l2) a = cell st a).
Proof.
  intros rf H l1 t st M a. pose proof (built_any_ok rf H) as RO. split; intros HC.
  - eapply C18_z_lemma; eauto.
  - eapply C18_y_lemma; eauto.
Qed.
