(** groups_from_labels. *)
From Coq Require Import String List Arith ZArith QArith Qreals Reals Bool Lia Lra.
From Verif Require Import Base BaseFacts Num Matrix MatFacts InvDict InvDictProofs SpecMdp SpecSystem SpecForm SpecBuilt SpecSub SpecMilp Amdp ReachForm ReachFormProofs RfFacts BuiltFacts RfBridge Milp LpExists Formulations.
Import ListNotations.
Local Open Scope nat_scope.

Section Collect.
  Context {K V : Type} (keqb : K -> K -> bool) (veqb : V -> V -> bool).
  Hypothesis KP : forall a b, reflect (a = b) (keqb a b).
  Hypothesis VP : forall a b, reflect (a = b) (veqb a b).

  Definition collect (L : list (K * V)) (d : dict K (list V)) : dict K (list V) :=
    fold_left (fun d kv => side_add keqb veqb d (fst kv) (snd kv)) L d.

  Lemma collect_app : forall L1 L2 d, collect (L1 ++ L2) d = collect L2 (collect L1 d).
  Proof. intros. apply fold_left_app. Qed.

  Lemma collect_facts : forall L d, NoDup (dkeys d) -> (forall k s, dget keqb d k = Some s -> NoDup s) ->
    NoDup (dkeys (collect L d)) /\ (forall k s, dget keqb (collect L d) k = Some s -> NoDup s) /\
    (forall k v, has keqb (collect L d) k v <-> has keqb d k v \/ In (k, v) L) /\
    (forall k, In k (dkeys (collect L d)) <-> In k (dkeys d) \/ exists v, In (k, v) L).
  Proof.
    induction L as [|[k v] L IH]; intros d N S; cbn [collect fold_left].
    - split; [auto|]. split; [auto|]. split; [intros k v; cbn [In]; tauto|]. intros k. split; [auto|]. intros [H|(v & [])]; auto.
    - destruct (IH (side_add keqb veqb d k v)) as (A & B & C & D); [apply side_add_nodup; auto|apply side_add_sets; auto|]. split; [exact A|]. split; [exact B|]. split.
      + intros k' v'. cbn [In]. unfold collect in C. cbn [fst snd]. rewrite C, side_add_has by auto. split.
        * intros [[[-> ->]|H]|H]; auto.
        * intros [H|[H|H]]; auto. injection H as -> ->. auto.
      + intros k'. unfold collect in D. cbn [fst snd]. rewrite D, side_add_keys by auto. cbn [In]. split.
        * intros [[->|H]|(v' & H)]; eauto.
        * intros [H|(v' & [H|H])]; eauto. injection H as -> ->. auto.
  Qed.

  Lemma collect_empty : forall L, let d := collect L [] in
    NoDup (map fst d) /\ (forall k, In k (map fst d) <-> exists v, In (k, v) L) /\
    Forall2 (fun k G => NoDup G /\ forall v, In v G <-> In (k, v) L) (map fst d) (dvals d).
  Proof.
    intros L d. destruct (collect_facts L [] (NoDup_nil _)) as (A & B & C & D); [intros; discriminate|]. fold d in A, B, C, D. split; [exact A|]. split.
    { intros k. change (In k (dkeys d) <-> exists v, In (k, v) L). rewrite D. split; [intros [[]|H]; auto|auto]. }
    assert (F : forall e : dict K (list V), (forall k G, In (k, G) e -> In (k, G) d) -> Forall2 (fun k G => NoDup G /\ forall v, In v G <-> In (k, v) L) (map fst e) (dvals e)).
    { induction e as [|[k G] e IH]; intros HE; [constructor|]. cbn [map fst dvals snd]. constructor.
      - assert (EG : dget keqb d k = Some G) by (apply In_dget; auto; apply HE; left; auto). split; [eapply B; eauto|].
        intros v. specialize (C k v). assert (has keqb [] k v -> False) by (intros (x & E & _); discriminate).
        split; intros H1; [|].
        + destruct (proj1 C) as [X|X]; [exists G; auto|contradiction|auto].
        + destruct (proj2 C (or_intror H1)) as (G' & E' & H'). congruence.
      - apply IH. intros k' G' H. apply HE. right; auto. }
    apply F. auto.
  Qed.

  Lemma foldM_collect : forall (A : Type) (step : idict K V -> A -> res (idict K V)) (Lf : A -> list (K * V)) l g g',
    (forall x g g', In x l -> step g x = Ok g' -> fwd g' = collect (Lf x) (fwd g)) -> foldM step l g = Ok g' -> fwd g' = collect (flat_map Lf l) (fwd g).
  Proof.
    intros A step Lf. induction l as [|x l IH]; intros g g' HS H; cbn [foldM flat_map] in *.
    - injection H as <-. reflexivity.
    - apply bind_ok in H. destruct H as (g1 & E & H). rewrite (IH g1 g'); auto; [|intros; eapply HS; eauto; right; auto]. rewrite (HS x g g1); auto; [|left; auto]. symmetry. apply collect_app.
  Qed.
End Collect.

Lemma Forall2_map_r : forall A B C (P : A -> B -> Prop) (f : C -> B) l1 l2, Forall2 (fun a c => P a (f c)) l1 l2 -> Forall2 P l1 (map f l2).
Proof. intros A B C P f l1 l2 H. induction H; constructor; auto. Qed.
Lemma Forall2_impl_in : forall A B (P Q : A -> B -> Prop) l1 l2, (forall a b, In a l1 -> P a b -> Q a b) -> Forall2 P l1 l2 -> Forall2 Q l1 l2.
Proof. intros A B P Q l1 l2 HI H. induction H; constructor; [apply HI; [left|]; auto|]. apply IHForall2. intros; apply HI; [right|]; auto. Qed.

Section Groups.
  Variable rf : rform.
  Hypothesis BF : built_form rf.
  Let m := rf_sys rf.
  Let RO : rf_ok rf := br_ro rf BF.
  Let SO : sys_ok m := ro_sys rf RO.

  Definition act_pairs : list (nat * nat) := map (fun i => match a_inv m i with Some (s, a) => (s, a) | None => (0, 0) end) (seq 0 (a_C m)).

  Lemma acts_ok : exists acts, actions_by_state m = Ok acts /\ fwd acts = collect Nat.eqb Nat.eqb act_pairs [] /\ dflt acts = false.
  Proof.
    assert (TOT : forall i, i < a_C m -> exists s a, a_inv m i = Some (s, a)).
    { intros i Hi. destruct (row_has_entry m SO i Hi) as (d & p & Hin). destruct (entry_indexed m SO _ _ _ Hin) as (_ & _ & s & a & E & _). eauto. }
    assert (G : forall l g, (forall i, In i l -> i < a_C m) -> exists g', foldM (fun d i => let* (s, a) := of_opt KeyError (a_inv m i) in Ok (add Nat.eqb Nat.eqb d s a)) l g = Ok g' /\
      fwd g' = collect Nat.eqb Nat.eqb (map (fun i => match a_inv m i with Some (s, a) => (s, a) | None => (0, 0) end) l) (fwd g) /\ dflt g' = dflt g).
    { induction l as [|i l IH]; intros g Hl; [exists g; auto|]. cbn [foldM map]. destruct (TOT i (Hl i (or_introl eq_refl))) as (s & a & E). rewrite E. cbn [of_opt bind].
      destruct (IH (add Nat.eqb Nat.eqb g s a)) as (g' & E1 & E2 & E3); [intros; apply Hl; right; auto|]. exists g'. split; [exact E1|]. split; [exact E2|exact E3]. }
    destruct (G (seq 0 (a_C m)) (mk_idict [] false)) as (g' & E1 & E2 & E3); [intros i Hi; apply in_seq in Hi; lia|]. exists g'. split; [exact E1|]. split; auto.
  Qed.

  Lemma act_pairs_in : forall s a, In (s, a) act_pairs <-> exists i, i < a_C m /\ a_inv m i = Some (s, a).
  Proof.
    intros s a. unfold act_pairs. rewrite in_map_iff. split.
    - intros (i & E & Hi). apply in_seq in Hi. exists i. split; [lia|]. destruct (row_has_entry m SO i ltac:(unfold a_C in *; lia)) as (d & p & Hin). destruct (entry_indexed m SO _ _ _ Hin) as (_ & _ & s' & a' & E' & _).
      fold m in E'. rewrite E' in *. injection E as -> ->. auto.
    - intros (i & Hi & E). exists i. rewrite E. split; [auto|apply in_seq; lia].
  Qed.

  Lemma row_lt : forall i s a d p, s < a_N m - 2 -> a_inv m i = Some (s, a) -> In ((i, d), p) (mitems (a_P m)) -> i < a_C m - 2.
  Proof.
    intros i s a d p Hs E Hin. destruct (entry_indexed m SO _ _ _ Hin) as (Hi & _). destruct (br_form rf BF) as (_ & _ & HC & _ & _ & _ & _ & [(a1 & p1 & E1 & _) _] & [(a2 & p2 & E2 & _) _] & _).
    change (a_inv (rf_sys rf)) with (a_inv m) in E1, E2. unfold a_N, a_C in *. fold m in HC, E1, E2.
    destruct (Nat.eq_dec i (mrows (a_P m) - 2)) as [->|N1]; [rewrite E1 in E; injection E as <- _; lia|].
    destruct (Nat.eq_dec i (mrows (a_P m) - 1)) as [->|N2]; [rewrite E2 in E; injection E as <- _; lia|]. lia.
  Qed.

  Lemma groups_max_state : forall gs, groups_from_labels rf Max None true = Ok gs -> grouping rf Max None true gs.
  Proof.
    intros gs H. unfold groups_from_labels in H. cbn [certificate_size bind] in H. fold m in H. apply bind_ok in H. destruct H as (g & E & H). injection H as <-.
    set (Lf := fun i => match a_inv m i with Some (s, _) => [(s, i)] | None => [] end).
    assert (EI : forall i, i < a_C m - 2 -> rf_inv rf i = a_inv m i).
    { intros i Hi. rewrite (ro_inv rf RO). fold m. destruct (Nat.eqb_spec i (a_C m - 1)); [lia|]. destruct (Nat.eqb_spec i (a_C m - 2)); [lia|]. reflexivity. }
    assert (EF : fwd g = collect Nat.eqb Nat.eqb (flat_map Lf (seq 0 (a_C m - 2))) []).
    { apply (foldM_collect Nat.eqb Nat.eqb _ _ Lf _ _ _ ) in E; [exact E|]. intros i g0 g1 Hi Es. apply in_seq in Hi. rewrite EI in Es by lia. unfold Lf. destruct (a_inv m i) as [[s a]|]; [|discriminate].
      cbn [of_opt bind] in Es. injection Es as <-. reflexivity. }
    rewrite EF. destruct (collect_empty Nat.eqb Nat.eqb Nat.eqb_spec Nat.eqb_spec (flat_map Lf (seq 0 (a_C m - 2)))) as (A & B & C).
    assert (LI : forall s i, In (s, i) (flat_map Lf (seq 0 (a_C m - 2))) <-> i < a_C m - 2 /\ belongs (a_inv m) i s = true).
    { intros s i. rewrite in_flat_map. unfold Lf, belongs. split.
      - intros (j & Hj & HI). apply in_seq in Hj. destruct (a_inv m j) as [[s' a]|] eqn:Ej; [|contradiction]. destruct HI as [HI|[]]. injection HI as -> ->. split; [lia|]. rewrite Ej. apply Nat.eqb_refl.
      - intros (Hi & HB). exists i. split; [apply in_seq; lia|]. destruct (a_inv m i) as [[s' a]|]; [|discriminate]. apply Nat.eqb_eq in HB. subst. left; auto. }
    cbn [grouping]. exists (map fst (collect Nat.eqb Nat.eqb (flat_map Lf (seq 0 (a_C m - 2))) [])). split; [exact A|]. split.
    - intros s. rewrite B. split.
      + intros (i & Hi). apply LI in Hi. destruct Hi as [Hi HB]. destruct (br_row rf BF i Hi) as (a & Ei & Hs). unfold belongs in HB. change (a_inv (rf_sys rf)) with (a_inv m) in Ei. rewrite Ei in HB. apply Nat.eqb_eq in HB. subst. exact Hs.
      + intros Hs. fold m in Hs. destruct (form_states_act rf (rf_init rf) (br_form rf BF) s) as (a & d & HE).
        { fold m in Hs. unfold a_N in Hs. fold m. lia. }
        destruct HE as (i & p & E2 & E1). pose proof (row_lt i s a d p Hs E1 E2) as Hi. exists i. apply LI. split; [exact Hi|]. unfold belongs. fold m in E1. rewrite E1. apply Nat.eqb_refl.
    - eapply Forall2_impl_in; [|exact C]. intros s G _ (G1 & G2). split; [auto|]. intros i. rewrite G2. apply LI.
  Qed.

  (** The row of an action of a state. *)
  Lemma act_rows : forall acts s a, actions_by_state m = Ok acts -> forall l, get Nat.eqb acts s = Ok l -> (In a l <-> exists i, i < a_C m /\ a_inv m i = Some (s, a)).
  Proof.
    intros acts s a E l G. destruct acts_ok as (acts' & E' & EF & ED). rewrite E in E'. injection E' as <-.
    unfold get in G. destruct (dget Nat.eqb (fwd acts) s) as [l'|] eqn:EG; [|rewrite ED in G; discriminate]. injection G as <-.
    destruct (collect_facts Nat.eqb Nat.eqb Nat.eqb_spec Nat.eqb_spec act_pairs [] (NoDup_nil _)) as (_ & _ & C & _); [intros; discriminate|].
    rewrite <- EF in C. specialize (C s a). rewrite act_pairs_in in C. split.
    - intros H. destruct (proj1 C) as [(x & Ex & _)|H']; [exists l'; auto|discriminate|auto].
    - intros H. destruct (proj2 C (or_intror H)) as (x & Ex & Hx). congruence.
  Qed.

  Lemma groups_max_labels : forall ls ga gs, groups_from_labels rf Max (Some ls) ga = Ok gs -> grouping rf Max (Some ls) ga gs.
  Proof.
    intros ls ga gs H. unfold groups_from_labels in H. cbn [certificate_size bind] in H. fold m in H. apply bind_ok in H. destruct H as (g & E & H). injection H as <-.
    destruct acts_ok as (acts & EA & EF & ED). rewrite EA in E. cbn [bind] in E.
    set (rows := fun s => filter (fun i => belongs (a_inv m) i s) (seq 0 (a_C m))).
    set (af := fun s => match get Nat.eqb acts s with Ok l => l | Err _ => [] end).
    set (rw := fun s a => match a_row m (s, a) with Some i => i | None => 0 end).
    set (Lf := fun l => flat_map (fun s => map (fun a => (l, rw s a)) (af s)) (states_by_label m l)).
    assert (EC : fwd g = collect String.eqb Nat.eqb (flat_map Lf ls) []).
    { apply (foldM_collect String.eqb Nat.eqb _ _ Lf) in E; [exact E|]. intros l g0 g1 _ E1. unfold Lf.
      apply (foldM_collect String.eqb Nat.eqb _ _ (fun s => map (fun a => (l, rw s a)) (af s))) in E1; [exact E1|]. intros s g2 g3 _ E2.
      apply bind_ok in E2. destruct E2 as (al & Eal & E2). unfold af. rewrite Eal.
      apply (foldM_collect String.eqb Nat.eqb _ _ (fun a => [(l, rw s a)])) in E2.
      { rewrite E2. f_equal. }
      intros a g4 g5 _ E3. unfold rw. destruct (a_row m (s, a)) as [i|]; [|discriminate]. cbn [of_opt bind] in E3. injection E3 as <-. reflexivity. }
    (* every labelled state has actions: otherwise an exception *)
    assert (ST : forall l s, In l ls -> In s (states_by_label m l) -> exists al, get Nat.eqb acts s = Ok al).
    { clear EC. intros l s Hl Hs. revert E. generalize (mk_idict (K := string) (V := nat) [] false). revert Hl. induction ls as [|l0 ls' IH]; intros Hl g0 E; [destruct Hl|].
      cbn [foldM] in E. apply bind_ok in E. destruct E as (g1 & E1 & E). destruct Hl as [->|Hl]; [|eapply IH; eauto].
      clear E IH. revert g0 E1. induction (states_by_label m l) as [|s0 ss IHs]; intros g0 E1; [destruct Hs|]. cbn [foldM] in E1. apply bind_ok in E1. destruct E1 as (g2 & E2 & E1).
      destruct Hs as [->|Hs]; [|eapply IHs; eauto]. apply bind_ok in E2. destruct E2 as (al & Eal & _). eauto. }
    assert (RW : forall s a i, i < a_C m -> a_inv m i = Some (s, a) -> rw s a = i).
    { intros s a i Hi Ei. unfold rw. rewrite (proj2 (row_inv m SO (s, a) i) Ei). reflexivity. }
    assert (LI : forall l v, In l ls -> (In (l, v) (flat_map Lf ls) <-> labelled_var m Max l v)).
    { intros l v Hl. rewrite in_flat_map. unfold Lf. cbn [labelled_var]. split.
      - intros (l' & Hl' & HI). apply in_flat_map in HI. destruct HI as (s & Hs & HI). apply in_map_iff in HI. destruct HI as (a & Ea & Ha). injection Ea as -> <-.
        destruct (ST l s Hl' Hs) as (al & Eal). unfold af in Ha. rewrite Eal in Ha. apply (act_rows acts s a EA al Eal) in Ha. destruct Ha as (i & Hi & Ei). rewrite (RW s a i Hi Ei).
        split; [auto|]. exists s, a. split; [auto|]. exact Hs.
      - intros (Hv & s & a & Ev & Hs). exists l. split; [auto|]. apply in_flat_map. exists s. split; [exact Hs|]. apply in_map_iff. exists a. split; [rewrite (RW s a v Hv Ev); auto|].
        destruct (ST l s Hl Hs) as (al & Eal). unfold af. rewrite Eal. apply (act_rows acts s a EA al Eal). eauto. }
    rewrite EC. destruct (collect_empty String.eqb Nat.eqb String.eqb_spec Nat.eqb_spec (flat_map Lf ls)) as (A & B & C).
    assert (KI : forall l v, In (l, v) (flat_map Lf ls) -> In l ls).
    { intros l v HI. apply in_flat_map in HI. destruct HI as (l' & Hl' & HI). unfold Lf in HI. apply in_flat_map in HI. destruct HI as (s & Hs & HI). apply in_map_iff in HI. destruct HI as (a & Ea & _). injection Ea as -> _. auto. }
    cbn [grouping]. exists (map fst (collect String.eqb Nat.eqb (flat_map Lf ls) [])). split; [exact A|]. split.
    - intros l. rewrite B. split.
      + intros (v & Hv). pose proof (KI l v Hv) as Hl. split; [auto|]. intros _. apply LI in Hv; auto. destruct Hv as (_ & s & a & _ & Hs). eauto.
      + intros (Hl & HS). destruct (HS eq_refl) as (s & Hs). destruct (ST l s Hl Hs) as (al & Eal).
        assert (exists a, In a al) as (a & Ha).
        { pose proof Eal as Eg. unfold get in Eg. destruct (dget Nat.eqb (fwd acts) s) as [l'|] eqn:EG; [|rewrite ED in Eg; discriminate].
          destruct (collect_facts Nat.eqb Nat.eqb Nat.eqb_spec Nat.eqb_spec act_pairs [] (NoDup_nil _)) as (_ & _ & _ & D); [intros; discriminate|].
          assert (In s (dkeys (fwd acts))) as Hk by (apply (dget_Some_key Nat.eqb Nat.eqb_spec); eauto). rewrite EF in Hk. apply D in Hk. destruct Hk as [[]|(a & Ha)].
          exists a. apply (act_rows acts s a EA al Eal). apply act_pairs_in. exact Ha. }
        apply (act_rows acts s a EA al Eal) in Ha. destruct Ha as (i & Hi & Ei). exists i. apply LI; auto. split; [auto|]. exists s, a. auto.
    - eapply Forall2_impl_in; [|exact C]. intros l G HG (G1 & G2). split; [auto|]. intros v. rewrite G2. apply LI. apply B in HG. destruct HG as (w & Hw). eapply KI; eauto.
  Qed.

  Lemma groups_min_labels : forall ls ga gs, groups_from_labels rf Min (Some ls) ga = Ok gs -> grouping rf Min (Some ls) ga gs.
  Proof.
    intros ls ga gs H. unfold groups_from_labels in H. cbn [certificate_size bind] in H. fold m in H. injection H as <-.
    assert (G : forall l (d : dict string (list nat)), NoDup (dkeys d) -> (forall k G, In (k, G) d -> G = states_by_label m k) ->
      let d' := fold_left (fun g l => dset String.eqb g l (states_by_label m l)) l d in
      NoDup (dkeys d') /\ (forall k G, In (k, G) d' -> G = states_by_label m k) /\ forall k, In k (dkeys d') <-> In k (dkeys d) \/ In k l).
    { induction l as [|l0 l IH]; intros d N HD; cbn [fold_left]; [cbn [In]; split; [auto|split; [auto|tauto]]|].
      destruct (IH (dset String.eqb d l0 (states_by_label m l0))) as (A & B & C).
      - apply (dset_nodup String.eqb String.eqb_spec); auto.
      - intros k G HI. apply LpExists.dset_in in HI. destruct HI as [HI|[E1 [E2|E2]]]; [auto|cbn [fst snd] in *; congruence|]. cbn [fst snd] in *. apply String.eqb_eq in E2. congruence.
      - split; [auto|]. split; [auto|]. intros k. rewrite C. rewrite (dset_keys_in String.eqb String.eqb_spec). cbn [In]. split; [intros [[->|X]|X]; auto|intros [X|[X|X]]; auto]. }
    destruct (G ls [] (NoDup_nil _)) as (A & B & C); [intros k G0 []|]. cbv zeta in A, B, C. revert A B C.
    generalize (fold_left (fun g l => dset String.eqb g l (states_by_label m l)) ls []). intros d A B C.
    cbn [grouping]. exists (map fst d). split; [exact A|]. split.
    - intros l. change (In l (dkeys d) <-> In l ls /\ (Min = Max -> exists s, has_label (rf_sys rf) l s)). rewrite C. cbn [dkeys map In]. split; [intros [[]|X]; split; [auto|discriminate]|tauto].
    - clear A C. unfold dvals. induction d as [|[k S] d IH]; [constructor|]. cbn [map fst snd]. constructor.
      + rewrite (B k S (or_introl eq_refl)). split; [|intros v; reflexivity]. destruct SO as (_ & _ & _ & _ & HN). apply HN.
      + apply IH. intros. apply B. right; auto.
  Qed.

  Lemma groups_ok : forall md labels ga gs, groups_from_labels rf md labels ga = Ok gs -> grouping rf md labels ga gs.
  Proof.
    intros md [ls|] ga gs H.
    - destruct md; [apply groups_min_labels; auto|apply groups_max_labels; auto|discriminate].
    - destruct md; [|destruct ga; [apply groups_max_state; auto|]|discriminate]; unfold groups_from_labels in H; cbn [certificate_size bind] in H; injection H as <-; reflexivity.
  Qed.

  Lemma groups_none_total : forall md ga, md <> OtherMode -> exists gs, groups_from_labels rf md None ga = Ok gs.
  Proof.
    intros md ga Hm. unfold groups_from_labels. destruct md; cbn [certificate_size bind]; [eauto| |congruence]. destruct ga; [|eauto].
    assert (T : forall l g, (forall i, In i l -> i < rf_C rf) -> exists g', foldM (fun g i => let* (s, _) := of_opt KeyError (rf_inv rf i) in Ok (add Nat.eqb Nat.eqb g s i)) l g = Ok g').
    { induction l as [|i l IH]; intros g Hl; [eexists; reflexivity|]. cbn [foldM]. destruct (br_row rf BF i (Hl i (or_introl eq_refl))) as (a & Ei & _).
      rewrite (ro_inv rf RO). pose proof (Hl i (or_introl eq_refl)) as Hi. unfold rf_C in Hi. destruct (Nat.eqb_spec i (a_C (rf_sys rf) - 1)); [lia|]. destruct (Nat.eqb_spec i (a_C (rf_sys rf) - 2)); [lia|].
      cbn [orb]. rewrite Ei. cbn [of_opt bind]. apply IH. intros; apply Hl; right; auto. }
    destruct (T (seq 0 (a_C (rf_sys rf) - 2)) (mk_idict [] false)) as (g' & E); [intros i Hi; apply in_seq in Hi; unfold rf_C; lia|]. rewrite E. cbn [bind]. eauto.
  Qed.
End Groups.
