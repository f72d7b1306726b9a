(** Proofs about drawings: systems. *)
From Coq Require Import String List Arith NArith ZArith QArith Bool Ascii Lia.
From Verif Require Import Base BaseFacts Num Matrix MatFacts InvDict Graph GraphProofs Amdp Files FilesProofs SpecSystem SpecBuilt SpecPrism PrismProofs
  ReachForm ReachFormProofs BuiltFacts Draw SpecDraw.
Import ListNotations.
Local Open Scope string_scope.
Local Open Scope nat_scope.

Definition the_name (x : thing) : text := match x with TState s => show_nat s | TPair s a => pair_name s a end.

Lemma show_nat_inj : forall a b, show_nat a = show_nat b -> a = b.
Proof. intros a b H. pose proof (read_show a) as A. rewrite H, (read_show b) in A. congruence. Qed.

Lemma show_no_dash : forall n, ~ In "-"%char (show_nat n).
Proof.
  intros n H. destruct (show_ok (N.of_nat n)) as (_ & D & _). rewrite forallb_forall in D. apply D in H. discriminate.
Qed.

Lemma split_dash : forall t1 t2 u1 u2 : text, ~ In "-"%char t1 -> ~ In "-"%char u1 ->
  (t1 ++ "-"%char :: t2 = u1 ++ "-"%char :: u2)%list -> t1 = u1 /\ t2 = u2.
Proof.
  induction t1 as [|c t1 IH]; intros t2 [|d u1] u2 A B E; cbn in E.
  - injection E as <-. auto.
  - injection E as <- _. exfalso. apply B. left. reflexivity.
  - injection E as -> _. exfalso. apply A. left. reflexivity.
  - injection E as <- E. destruct (IH t2 u1 u2) as [<- <-]; auto; intros H; [apply A|apply B]; right; auto.
Qed.

Lemma the_naming : naming the_name.
Proof.
  split; [|split].
  - intros [s|s a] [s'|s' a'] E; cbn [the_name] in E; unfold pair_name in *.
    + apply show_nat_inj in E. congruence.
    + exfalso. apply (show_no_dash s). rewrite E. apply in_or_app. right. left. reflexivity.
    + exfalso. apply (show_no_dash s'). rewrite <- E. apply in_or_app. right. left. reflexivity.
    + apply split_dash in E; try apply show_no_dash. destruct E as [E1 E2]. apply show_nat_inj in E1. apply show_nat_inj in E2. congruence.
  - intros s. apply show_dec.
  - intros s a. reflexivity.
Qed.

(** Events in the order in which they are drawn. *)
Inductive event := EvState (s : nat) | EvPair (i : nat) | EvChoice (i : nat) | EvTrans (i d : nat) (p : Q).

Ltac same K1 := cbn [the_name]; match type of K1 with In ?x _ => match goal with |- In ?y _ => replace y with x by congruence; exact K1 end end.

Section Draw.
  Context (m : amdp) (Hsys : sys_ok m).
  Context (sm : state_style) (tm : trans_style) (am : action_style) (tc : chain_style).

  Lemma m_bid : bid_ok (a_idx m).
  Proof. destruct Hsys as (_ & A & (B & _) & _). split; auto. Qed.

  Lemma inv_inj : forall i j k, a_inv m i = Some k -> a_inv m j = Some k -> i = j.
  Proof. intros i j k A B. apply (binv_inj pair_eqb Nat.eqb pair_eqbP Nat.eqb_spec (a_idx m) i j k m_bid A B). Qed.

  Lemma item_inv : forall i d p, In ((i, d), p) (mitems (a_P m)) -> exists s a, a_inv m i = Some (s, a) /\ s < a_N m /\ d < a_N m.
  Proof.
    intros i d p H. destruct Hsys as ((_ & W) & A & (B & _ & _ & _ & V) & _). destruct (V i d p H) as (s & a & I & L). exists s, a.
    split; [|split; [exact L|apply (W i d p H)]]. unfold a_inv. apply (binv_dget pair_eqb Nat.eqb pair_eqbP Nat.eqb_spec); [apply m_bid|].
    apply (In_dget pair_eqb pair_eqbP); auto.
  Qed.

  Inductive emits : event -> stmt -> Prop :=
  | em_state : forall s a, sm s (labels_by_state m s) = Ok a -> emits (EvState s) (NodeS (show_nat s) a)
  | em_pair : forall i s a aa na, a_inv m i = Some (s, a) -> am s a (labels_by_action m (s, a)) = Ok aa -> dget String.eqb aa "node" = Some na ->
      emits (EvPair i) (NodeS (pair_name s a) na)
  | em_choice : forall i s a aa ea, a_inv m i = Some (s, a) -> am s a (labels_by_action m (s, a)) = Ok aa -> dget String.eqb aa "edge" = Some ea ->
      emits (EvChoice i) (EdgeS (show_nat s) (pair_name s a) ea)
  | em_trans : forall i d p s a ta, a_inv m i = Some (s, a) -> tm s a d p = Ok ta -> emits (EvTrans i d p) (EdgeS (pair_name s a) (show_nat d) ta).

  Inductive emitc : event -> stmt -> Prop :=
  | ec_state : forall s a, sm s (labels_by_state m s) = Ok a -> emitc (EvState s) (NodeS (show_nat s) a)
  | ec_trans : forall i d p s a ta, a_inv m i = Some (s, a) -> tc s d p = Ok ta -> emitc (EvTrans i d p) (EdgeS (show_nat s) (show_nat d) ta).

  Definition tin (pre : list (nat * nat * Q)) (x : nat) : Prop :=
    exists i d p s a, In ((i, d), p) pre /\ a_inv m i = Some (s, a) /\ (x = s \/ x = d).

  Section Inv.
    Context (emit : event -> stmt -> Prop).
    Hypothesis emit_state : forall s a, sm s (labels_by_state m s) = Ok a -> emit (EvState s) (NodeS (show_nat s) a).

    (** [evs] so far, [dg] after the optional graph statement. *)
    Definition log_ok (seen : list nat) (evs : list event) (dg : list stmt) : Prop :=
      Forall2 emit evs dg /\ NoDup evs /\ forall s, In (EvState s) evs <-> In s seen.

    Lemma nodup_snoc : forall (l : list event) x, NoDup l -> ~ In x l -> NoDup (l ++ [x])%list.
    Proof. intros l x A B. apply NoDup_snoc_iff. auto. Qed.

    Lemma draw_states_ok : forall l seen dg0 dg evs seen' dg', log_ok seen evs dg -> foldM (draw_state m sm) l (seen, (dg0 ++ dg)%list) = Ok (seen', dg') ->
      exists evs' dg1, dg' = (dg0 ++ dg1)%list /\ log_ok seen' evs' dg1 /\ (forall s, In s seen' <-> In s seen \/ In s l) /\
        (forall e, (forall s, e <> EvState s) -> (In e evs' <-> In e evs)).
    Proof.
      induction l as [|x l IH]; intros seen dg0 dg evs seen' dg' L E; cbn [foldM] in E.
      - injection E as <- <-. exists evs, dg. split; [reflexivity|]. split; [exact L|]. split; [intros s; cbn; tauto|reflexivity].
      - apply bind_ok in E. destruct E as ([seen1 dg1] & E1 & E). unfold draw_state in E1. destruct (smem Nat.eqb x seen) eqn:M.
        + injection E1 as <- <-. destruct (IH _ _ _ _ _ _ L E) as (evs' & dg2 & A & B & C & D). exists evs', dg2. split; [exact A|]. split; [exact B|]. split; [|exact D].
          intros s. rewrite C. cbn. apply (smem_In Nat.eqb Nat.eqb_spec) in M. split; [tauto|]. intros [K|[<-|K]]; auto.
        + apply bind_ok in E1. destruct E1 as (a & Ea & E1). injection E1 as <- <-. rewrite <- app_assoc in E.
          destruct L as (L1 & L2 & L3). apply (smem_false Nat.eqb Nat.eqb_spec) in M.
          assert (L' : log_ok (sadd Nat.eqb seen x) (evs ++ [EvState x])%list (dg ++ [NodeS (show_nat x) a])%list).
          { split; [|split].
            - apply Forall2_app; [exact L1|]. constructor; [|constructor]. apply emit_state. exact Ea.
            - apply nodup_snoc; [exact L2|]. rewrite L3. exact M.
            - intros s. rewrite in_app_iff, L3, (sadd_In Nat.eqb Nat.eqb_spec). cbn. split; [intros [K|[K|[]]]; [auto|injection K as ->; auto]|intros [->|K]; auto]. }
          destruct (IH _ _ _ _ _ _ L' E) as (evs' & dg2 & A & B & C & D). exists evs', dg2. split; [exact A|]. split; [exact B|]. split.
          * intros s. rewrite C, (sadd_In Nat.eqb Nat.eqb_spec). cbn. intuition congruence.
          * intros e He. rewrite (D e He), in_app_iff. cbn. split; [intros [K|[K|[]]]; [auto|exfalso; apply (He x); congruence]|auto].
    Qed.
  End Inv.

  (** * Markov decision processes *)
  Definition mdp_inv (dg0 : list stmt) (pre : list (nat * nat * Q)) (st : list nat * list nat * list stmt) : Prop :=
    let '(seen, rows, dg) := st in
    exists evs dg1, dg = (dg0 ++ dg1)%list /\ log_ok emits seen evs dg1 /\
      (forall s, In s seen <-> tin pre s) /\
      (forall i, In i rows <-> exists d p, In ((i, d), p) pre) /\
      (forall i, In (EvPair i) evs <-> In i rows) /\ (forall i, In (EvChoice i) evs <-> In i rows) /\
      (forall i d p, In (EvTrans i d p) evs <-> In ((i, d), p) pre).

  Lemma tin_snoc : forall pre i d p s a x, a_inv m i = Some (s, a) -> (tin (pre ++ [((i, d), p)])%list x <-> tin pre x \/ x = s \/ x = d).
  Proof.
    intros pre i d p s a x E. split.
    - intros (i' & d' & p' & s' & a' & H & E' & K). rewrite in_app_iff in H. cbn in H. destruct H as [H|[H|[]]].
      + left. exists i', d', p', s', a'. auto.
      + injection H as <- <- <-. right. rewrite E in E'. injection E' as <- <-. exact K.
    - intros [(i' & d' & p' & s' & a' & H & E' & K)|K].
      + exists i', d', p', s', a'. rewrite in_app_iff. auto.
      + exists i, d, p, s, a. rewrite in_app_iff. cbn. auto.
  Qed.

  Lemma items_nodup : forall pre x post, mitems (a_P m) = (pre ++ x :: post)%list -> forall q, ~ In (fst x, q) pre.
  Proof.
    intros pre x post E q H. destruct Hsys as ((W & _) & _). rewrite E, map_app in W. cbn in W. apply NoDup_remove_2 in W. apply W.
    apply in_or_app. left. change (fst x) with (fst (fst x, q)). apply in_map. exact H.
  Qed.

  Lemma mdp_step_ok : forall dg0 pre x st st', mdp_inv dg0 pre st -> draw_mdp_step m sm tm am st x = Ok st' ->
    (exists post, mitems (a_P m) = (pre ++ x :: post)%list) -> mdp_inv dg0 (pre ++ [x])%list st'.
  Proof.
    intros dg0 pre [[i d] p] [[seen rows] dg] st' (evs & dg1 & -> & L & I1 & I2 & I3 & I4 & I5) E (post & Hpost).
    unfold draw_mdp_step in E. apply bind_ok in E. destruct E as ([s a] & E1 & E). destruct (a_inv m i) as [k|] eqn:EI; [|discriminate]. cbn in E1. injection E1 as ->.
    apply bind_ok in E. destruct E as ([seen1 dg2] & E2 & E).
    destruct (draw_states_ok emits em_state _ _ _ _ _ _ _ L E2) as (evs1 & dg3 & -> & L1 & S1 & O1). clear E2.
    apply bind_ok in E. destruct E as (ta & E3 & E). apply bind_ok in E. destruct E as (aa & E4 & E).
    apply bind_ok in E. destruct E as ([rows1 dg4] & E5 & E). injection E as <-.
    assert (K : exists evs2 dg5, dg4 = (dg0 ++ dg5)%list /\ log_ok emits seen1 evs2 dg5 /\ (forall j, In j rows1 <-> j = i \/ In j rows) /\
                (forall j, In (EvPair j) evs2 <-> In j rows1) /\ (forall j, In (EvChoice j) evs2 <-> In j rows1) /\
                (forall j e q, In (EvTrans j e q) evs2 <-> In (EvTrans j e q) evs)).
    { assert (O : forall e, (forall s0, e <> EvState s0) -> (In e evs1 <-> In e evs)) by exact O1.
      destruct (smem Nat.eqb i rows) eqn:M.
      - injection E5 as <- <-. apply (smem_In Nat.eqb Nat.eqb_spec) in M. exists evs1, dg3. split; [reflexivity|]. split; [exact L1|].
        split; [intros j; split; [tauto|intros [->|K]; auto]|]. split; [intros j; rewrite O by discriminate; apply I3|]. split; [intros j; rewrite O by discriminate; apply I4|].
        intros j e q. apply O. discriminate.
      - apply bind_ok in E5. destruct E5 as (na & N1 & E5). apply bind_ok in E5. destruct E5 as (ea & N2 & E5). injection E5 as <- <-.
        apply (smem_false Nat.eqb Nat.eqb_spec) in M. destruct (dget String.eqb aa "node") as [na'|] eqn:G1; [|discriminate]. injection N1 as ->.
        destruct (dget String.eqb aa "edge") as [ea'|] eqn:G2; [|discriminate]. injection N2 as ->.
        exists (evs1 ++ [EvPair i; EvChoice i])%list, (dg3 ++ [NodeS (pair_name s a) na; EdgeS (show_nat s) (pair_name s a) ea])%list.
        split; [rewrite app_assoc; reflexivity|]. destruct L1 as (A1 & A2 & A3). split; [split; [|split]|].
        + apply Forall2_app; [exact A1|]. constructor; [econstructor; eauto|]. constructor; [econstructor; eauto|]. constructor.
        + change [EvPair i; EvChoice i] with ([EvPair i] ++ [EvChoice i])%list. rewrite app_assoc. apply nodup_snoc.
          * apply nodup_snoc; [exact A2|]. rewrite O by discriminate. rewrite I3. exact M.
          * rewrite in_app_iff. cbn. intros [K|[K|[]]]; [|discriminate]. apply O in K; [|discriminate]. apply I4 in K. auto.
        + intros x. rewrite in_app_iff. cbn. rewrite <- A3. intuition discriminate.
        + split; [intros j; apply (sadd_In Nat.eqb Nat.eqb_spec)|].
          split; [|split].
          * intros j. rewrite in_app_iff, (sadd_In Nat.eqb Nat.eqb_spec), O, I3 by discriminate. cbn. split; [intros [K|[K|[K|[]]]]; try discriminate; auto; injection K as ->; auto|intros [->|K]; auto].
          * intros j. rewrite in_app_iff, (sadd_In Nat.eqb Nat.eqb_spec), O, I4 by discriminate. cbn. split; [intros [K|[K|[K|[]]]]; try discriminate; auto; injection K as ->; auto|intros [->|K]; auto].
          * intros j e q. rewrite in_app_iff, O by discriminate. cbn. intuition discriminate. }
    destruct K as (evs2 & dg5 & -> & (B1 & B2 & B3) & R1 & P1 & P2 & P3).
    exists (evs2 ++ [EvTrans i d p])%list, (dg5 ++ [EdgeS (pair_name s a) (show_nat d) ta])%list. split; [rewrite app_assoc; reflexivity|].
    split; [split; [|split]|split; [|split; [|split; [|split]]]].
    - apply Forall2_app; [exact B1|]. constructor; [|constructor]. econstructor; eauto.
    - apply nodup_snoc; [exact B2|]. rewrite P3, I5. apply (items_nodup _ _ _ Hpost).
    - intros x. rewrite in_app_iff, B3. cbn. intuition discriminate.
    - intros x. rewrite (tin_snoc _ _ _ _ _ _ _ EI), S1, I1. cbn. intuition.
    - intros j. rewrite R1, I2. setoid_rewrite in_app_iff. cbn. split.
      + intros [->|(d' & p' & K)]; eauto.
      + intros (d' & p' & [K|[K|[]]]); [eauto|]. injection K as <- _ _. auto.
    - intros j. rewrite in_app_iff, P1. cbn. intuition discriminate.
    - intros j. rewrite in_app_iff, P2. cbn. intuition discriminate.
    - intros j e q. rewrite !in_app_iff, P3, I5. cbn. split; (intros [K|[K|[]]]; [auto|right; left; congruence]).
  Qed.

  (** The styles give something for everything that is drawn. *)
  Definition styles_total : Prop :=
    (forall s, touched m s -> exists at_, sm s (labels_by_state m s) = Ok at_) /\
    (forall s a d p, transition m s a d p -> exists at_, tm s a d p = Ok at_) /\
    (forall s a, enabled m s a -> exists aa na ea, am s a (labels_by_action m (s, a)) = Ok aa /\ dget String.eqb aa "node" = Some na /\ dget String.eqb aa "edge" = Some ea).

  Lemma draw_state_total : forall l st, (forall s, In s l -> exists at_, sm s (labels_by_state m s) = Ok at_) -> exists st', foldM (draw_state m sm) l st = Ok st'.
  Proof.
    induction l as [|x l IH]; intros [seen dg] H; cbn [foldM]; [eauto|]. unfold draw_state at 1. destruct (smem Nat.eqb x seen).
    - cbn. apply IH. intros s K. apply H. right; auto.
    - destruct (H x (or_introl eq_refl)) as (a & ->). cbn. apply IH. intros s K. apply H. right; auto.
  Qed.

  Lemma touched_src : forall i d p s a, In ((i, d), p) (mitems (a_P m)) -> a_inv m i = Some (s, a) -> touched m s /\ touched m d /\ transition m s a d p /\ enabled m s a.
  Proof.
    intros i d p s a H E. assert (T : transition m s a d p) by (exists i; auto). split; [left; exists a, d, p; auto|]. split; [right; exists s, a, p; auto|]. split; [exact T|exists d, p; exact T].
  Qed.

  Lemma draw_mdp_total : forall small, styles_total -> exists dg, draw_mdp m sm tm am small = Ok dg.
  Proof.
    intros small (T1 & T2 & T3). unfold draw_mdp.
    destruct (foldM_ok _ _ (draw_mdp_step m sm tm am) (fun _ _ => True) (mitems (a_P m)) ([], [], if small then [GraphS [("size", str "4,6")]] else []) I) as ([[seen rows] dg] & E & _).
    - intros pre [[i d] p] [[seen rows] dg] _ (post & Hpost). assert (H : In ((i, d), p) (mitems (a_P m))) by (rewrite Hpost; apply in_or_app; right; left; reflexivity).
      destruct (item_inv i d p H) as (s & a & E & _). destruct (touched_src _ _ _ _ _ H E) as (A & B & C & D). unfold draw_mdp_step. rewrite E. cbn [of_opt bind].
      destruct (draw_state_total [s; d] (seen, dg)) as ([seen1 dg1] & E1).
      { intros x [<-|[<-|[]]]; auto. }
      rewrite E1. cbn [bind]. destruct (T2 s a d p C) as (ta & ->). cbn [bind]. destruct (T3 s a D) as (aa & na & ea & -> & G1 & G2). cbn [bind].
      destruct (smem Nat.eqb i rows); [cbn [bind]; eauto|]. rewrite G1, G2. cbn. eauto.
    - rewrite E. cbn. eauto.
  Qed.

  Lemma f2_in_l : forall (A B : Type) (R : A -> B -> Prop) l l', Forall2 R l l' -> forall x, In x l -> exists y, In y l' /\ R x y.
  Proof. induction 1 as [|x y l l' H F IH]; [intros z []|intros z [K|K]]; [subst; exists y; cbn; auto|]. destruct (IH z K) as (w & A1 & B1). exists w. cbn. auto. Qed.
  Lemma f2_in_r : forall (A B : Type) (R : A -> B -> Prop) l l', Forall2 R l l' -> forall y, In y l' -> exists x, In x l /\ R x y.
  Proof. induction 1 as [|x y l l' H F IH]; [intros z []|intros z [K|K]]; [subst; exists x; cbn; auto|]. destruct (IH z K) as (w & A1 & B1). exists w. cbn. auto. Qed.

  Lemma in_nodes : forall dg t, In t (nodes dg) <-> exists a, In (NodeS t a) dg.
  Proof.
    intros dg t. unfold nodes. rewrite in_flat_map. split.
    - intros ([?|t' a|? ? ?] & H & K); cbn in K; try tauto. destruct K as [->|[]]. eauto.
    - intros (a & H). exists (NodeS t a). cbn. auto.
  Qed.
  Lemma in_ends : forall dg t h, In (t, h) (ends dg) <-> exists a, In (EdgeS t h a) dg.
  Proof.
    intros dg t h. unfold ends. rewrite in_flat_map. split.
    - intros ([?|? ?|t' h' a] & H & K); cbn in K; try tauto. destruct K as [K|[]]. injection K as -> ->. eauto.
    - intros (a & H). exists (EdgeS t h a). cbn. auto.
  Qed.

  (** Distinct events have distinct names. *)
  Lemma nodes_once : forall (emit : event -> stmt -> Prop) evs dg, (forall e e' t a a', In e evs -> In e' evs -> emit e (NodeS t a) -> emit e' (NodeS t a') -> e = e') ->
    Forall2 emit evs dg -> NoDup evs -> NoDup (nodes dg).
  Proof.
    intros emit evs dg U F. induction F as [|e x evs dg H F IH]; intros ND; [constructor|]. apply NoDup_cons_iff in ND. destruct ND as [N1 N2].
    assert (I : NoDup (nodes dg)) by (apply IH; [|exact N2]; intros e1 e2 t a a' K1 K2; apply U; right; auto).
    unfold nodes in *. cbn [flat_map]. destruct x as [?|t a|? ? ?]; cbn; try exact I. constructor; [|exact I]. intros K. apply (in_nodes dg t) in K.
    destruct K as (a' & K). destruct (f2_in_r _ _ _ _ _ F _ K) as (e' & K1 & K2). apply N1. replace e with e'; [exact K1|]. apply (U e' e t a' a); cbn; auto.
  Qed.
  Lemma ends_once : forall (emit : event -> stmt -> Prop) evs dg, (forall e e' t h a a', In e evs -> In e' evs -> emit e (EdgeS t h a) -> emit e' (EdgeS t h a') -> e = e') ->
    Forall2 emit evs dg -> NoDup evs -> NoDup (ends dg).
  Proof.
    intros emit evs dg U F. induction F as [|e x evs dg H F IH]; intros ND; [constructor|]. apply NoDup_cons_iff in ND. destruct ND as [N1 N2].
    assert (I : NoDup (ends dg)) by (apply IH; [|exact N2]; intros e1 e2 t h a a' K1 K2; apply U; right; auto).
    unfold ends in *. cbn [flat_map]. destruct x as [?|? ?|t h a]; cbn; try exact I. constructor; [|exact I]. intros K. apply (in_ends dg t h) in K.
    destruct K as (a' & K). destruct (f2_in_r _ _ _ _ _ F _ K) as (e' & K1 & K2). apply N1. replace e with e'; [exact K1|]. apply (U e' e t h a' a); cbn; auto.
  Qed.

  Lemma key_prob : forall i d p q, In ((i, d), p) (mitems (a_P m)) -> In ((i, d), q) (mitems (a_P m)) -> p = q.
  Proof. intros i d p q A B. destruct Hsys as (W & _). rewrite <- (mget_In _ _ _ _ W A), <- (mget_In _ _ _ _ W B). reflexivity. Qed.

  Lemma tin_touched : forall s, tin (mitems (a_P m)) s <-> touched m s.
  Proof.
    intros s. split.
    - intros (i & d & p & s' & a & H & E & K). destruct (touched_src _ _ _ _ _ H E) as (A & B & _). destruct K as [->| ->]; auto.
    - intros [(a & d & p & i & E & H)|(s' & a & p & i & E & H)]; [exists i, d, p, s, a|exists i, s, p, s', a]; auto.
  Qed.

  Definition st_node (s : nat) (at_ : attrs) : Prop := sm s (labels_by_state m s) = Ok at_.
  Definition st_pnode (s a : nat) (at_ : attrs) : Prop := exists aa, am s a (labels_by_action m (s, a)) = Ok aa /\ dget String.eqb aa "node" = Some at_.
  Definition st_pedge (s a : nat) (at_ : attrs) : Prop := exists aa, am s a (labels_by_action m (s, a)) = Ok aa /\ dget String.eqb aa "edge" = Some at_.
  Definition st_tedge (s a d : nat) (p : Q) (at_ : attrs) : Prop := tm s a d p = Ok at_.

  Lemma draw_mdp_shows : forall small dg, draw_mdp m sm tm am small = Ok dg -> shows_mdp m the_name st_node st_pnode st_pedge st_tedge dg.
  Proof.
    intros small dg E. unfold draw_mdp in E. set (dg0 := if small then [GraphS [("size", str "4,6")]] else []) in E.
    apply bind_ok in E. destruct E as ([[seen rows] dg'] & E & E'). injection E' as ->.
    assert (IV : mdp_inv dg0 (mitems (a_P m)) (seen, rows, dg)).
    { refine (foldM_inv _ _ (draw_mdp_step m sm tm am) (mdp_inv dg0) (mitems (a_P m)) ([], [], dg0) (seen, rows, dg) _ _ E).
      - exists [], []. split; [rewrite app_nil_r; reflexivity|]. split; [split; [constructor|split; [constructor|reflexivity]]|].
        split; [intros s; split; [intros []|intros (i & d & p & s' & a & [] & _)]|]. split; [intros i; split; [intros []|intros (d & p & [])]|].
        split; [reflexivity|]. split; [reflexivity|]. reflexivity.
      - intros pre x s1 s2 A B C. apply (mdp_step_ok dg0 pre x s1 s2 A B C). }
    destruct IV as (evs & dg1 & -> & (F & ND & S1) & I1 & I2 & I3 & I4 & I5). clear E.
    assert (N0 : nodes (dg0 ++ dg1)%list = nodes dg1) by (unfold dg0; destruct small; reflexivity).
    assert (E0 : ends (dg0 ++ dg1)%list = ends dg1) by (unfold dg0; destruct small; reflexivity).
    assert (IN : forall t a, In (NodeS t a) (dg0 ++ dg1)%list <-> In (NodeS t a) dg1).
    { intros t a. unfold dg0; destruct small; cbn; [|reflexivity]. split; [intros [K|K]; [discriminate|exact K]|auto]. }
    assert (IE : forall t h a, In (EdgeS t h a) (dg0 ++ dg1)%list <-> In (EdgeS t h a) dg1).
    { intros t h a. unfold dg0; destruct small; cbn; [|reflexivity]. split; [intros [K|K]; [discriminate|exact K]|auto]. }
    assert (ST : forall s, touched m s <-> In (EvState s) evs) by (intros s; rewrite S1, I1, tin_touched; reflexivity).
    assert (EN : forall i s a, a_inv m i = Some (s, a) -> (enabled m s a <-> In i rows)).
    { intros i s a EI. rewrite I2. split.
      - intros (d & p & j & E1 & H). rewrite (inv_inj i j (s, a) EI E1). eauto.
      - intros (d & p & H). exists d, p, i. auto. }
    destruct the_naming as (NI & _).
    constructor.
    - intros t a. rewrite IN. split.
      + intros H. destruct (f2_in_r _ _ _ _ _ F _ H) as (e & K1 & K2). inversion K2; subst.
        * left. exists s. rewrite ST. unfold st_node. auto.
        * right. exists s, a0. split; [apply (EN i s a0); [assumption|]; apply I3; exact K1|]. split; [reflexivity|]. exists aa. auto.
      + intros [(s & T & -> & K)|(s & a' & T & -> & aa & K & G)].
        * apply ST in T. destruct (f2_in_l _ _ _ _ _ F _ T) as (x & K1 & K2). inversion K2; subst. unfold st_node in K. same K1.
        * assert (T' := T). destruct T' as (d & p & i & EI & H). apply (EN i s a' EI) in T. apply I3 in T.
          destruct (f2_in_l _ _ _ _ _ F _ T) as (x & K1 & K2). inversion K2; subst. same K1.
    - rewrite N0. apply (nodes_once emits evs dg1); [|exact F|exact ND]. intros e e' t a a' _ _ K K'. inversion K; subst; inversion K'; subst.
      + f_equal. symmetry. apply show_nat_inj. assumption.
      + exfalso. assert (X : TState s = TPair s0 a0) by (apply NI; cbn [the_name]; congruence). discriminate.
      + exfalso. assert (X : TState s0 = TPair s a0) by (apply NI; cbn [the_name]; congruence). discriminate.
      + assert (X : TPair s a0 = TPair s0 a1) by (apply NI; cbn [the_name]; congruence). injection X as <- <-. f_equal. apply (inv_inj _ _ (s, a0)); assumption.
    - intros s T. rewrite N0. apply in_nodes. apply ST in T. destruct (f2_in_l _ _ _ _ _ F _ T) as (x & K1 & K2). inversion K2; subst. cbn. eauto.
    - intros s a T. rewrite N0. apply in_nodes. assert (T' := T). destruct T' as (d & p & i & EI & H). apply (EN i s a EI) in T. apply I3 in T.
      destruct (f2_in_l _ _ _ _ _ F _ T) as (x & K1 & K2). inversion K2; subst. match goal with H : a_inv m i = Some (?s', ?a'), H2 : a_inv m i = Some (?s2, ?a2) |- _ => assert (s' = s2) by congruence; assert (a' = a2) by congruence; subst end. cbn. eauto.
    - intros t h a. rewrite IE. split.
      + intros H. destruct (f2_in_r _ _ _ _ _ F _ H) as (e & K1 & K2). inversion K2; subst.
        * left. exists s, a0. split; [apply (EN i s a0); [assumption|]; apply I4; exact K1|]. split; [reflexivity|]. split; [reflexivity|]. exists aa. auto.
        * right. exists s, a0, d, p. apply I5 in K1. split; [exists i; auto|]. unfold st_tedge. auto.
      + intros [(s & a' & T & -> & -> & aa & K & G)|(s & a' & d & p & (i & EI & H) & -> & -> & K)].
        * assert (T' := T). destruct T' as (d & p & i & EI & H). apply (EN i s a' EI) in T. apply I4 in T.
          destruct (f2_in_l _ _ _ _ _ F _ T) as (x & K1 & K2). inversion K2; subst. same K1.
        * apply I5 in H. destruct (f2_in_l _ _ _ _ _ F _ H) as (x & K1 & K2). inversion K2; subst. unfold st_tedge in K. same K1.
    - rewrite E0. apply (ends_once emits evs dg1); [|exact F|exact ND]. intros e e' t h a a' X1 X2 K K'. inversion K; subst; inversion K'; subst.
      + assert (X : TPair s a0 = TPair s0 a1) by (apply NI; cbn [the_name]; congruence). injection X as <- <-. f_equal. apply (inv_inj _ _ (s, a0)); assumption.
      + exfalso. assert (X : TState s = TPair s0 a1) by (apply NI; cbn [the_name]; congruence). discriminate.
      + exfalso. assert (X : TState s0 = TPair s a0) by (apply NI; cbn [the_name]; congruence). discriminate.
      + assert (X : TPair s a0 = TPair s0 a1) by (apply NI; cbn [the_name]; congruence). injection X as <- <-. assert (i = i0) by (apply (inv_inj _ _ (s, a0)); assumption). subst i0.
        assert (d = d0) by (apply show_nat_inj; congruence). subst d0. f_equal. apply I5 in X1, X2. apply (key_prob i d); assumption.
    - intros s a T. rewrite E0. apply in_ends. assert (T' := T). destruct T' as (d & p & i & EI & H). apply (EN i s a EI) in T. apply I4 in T.
      destruct (f2_in_l _ _ _ _ _ F _ T) as (x & K1 & K2). inversion K2; subst. match goal with H : a_inv m i = Some (?s', ?a'), H2 : a_inv m i = Some (?s2, ?a2) |- _ => assert (s' = s2) by congruence; assert (a' = a2) by congruence; subst end. cbn. eauto.
    - intros s a d p (i & EI & H). rewrite E0. apply in_ends. apply I5 in H. destruct (f2_in_l _ _ _ _ _ F _ H) as (x & K1 & K2). inversion K2; subst. match goal with H : a_inv m i = Some (?s', ?a'), H2 : a_inv m i = Some (?s2, ?a2) |- _ => assert (s' = s2) by congruence; assert (a' = a2) by congruence; subst end. cbn. eauto.
  Qed.

  (** * Markov chains *)
  Definition dtmc_inv (pre : list (nat * nat * Q)) (st : list nat * list stmt) : Prop :=
    exists evs, log_ok emitc (fst st) evs (snd st) /\ (forall s, In s (fst st) <-> tin pre s) /\
      (forall i d p, In (EvTrans i d p) evs <-> In ((i, d), p) pre).

  Lemma dtmc_step_ok : forall pre x st st', dtmc_inv pre st -> draw_dtmc_step m sm tc st x = Ok st' ->
    (exists post, mitems (a_P m) = (pre ++ x :: post)%list) -> dtmc_inv (pre ++ [x])%list st'.
  Proof.
    intros pre [[i d] p] [seen dg] st' (evs & L & I1 & I5) E (post & Hpost). cbn [fst snd] in *.
    unfold draw_dtmc_step in E. apply bind_ok in E. destruct E as ([s a] & E1 & E). destruct (a_inv m i) as [k|] eqn:EI; [|discriminate]. cbn in E1. injection E1 as ->.
    apply bind_ok in E. destruct E as ([seen1 dg2] & E2 & E).
    destruct (draw_states_ok emitc ec_state _ _ [] _ _ _ _ L E2) as (evs1 & dg3 & -> & (B1 & B2 & B3) & S1 & O1). clear E2. cbn [app] in *.
    apply bind_ok in E. destruct E as (ta & E3 & E). injection E as <-.
    exists (evs1 ++ [EvTrans i d p])%list. cbn [fst snd]. split; [split; [|split]|split].
    - apply Forall2_app; [exact B1|]. constructor; [|constructor]. econstructor; eauto.
    - apply nodup_snoc; [exact B2|]. rewrite O1, I5 by discriminate. apply (items_nodup _ _ _ Hpost).
    - intros x. rewrite in_app_iff, B3. cbn. intuition discriminate.
    - intros x. rewrite (tin_snoc _ _ _ _ _ _ _ EI), S1, I1. cbn. intuition.
    - intros j e q. rewrite !in_app_iff, O1, I5 by discriminate. cbn. split; (intros [K|[K|[]]]; [auto|right; left; congruence]).
  Qed.

  Definition chain_total : Prop :=
    (forall s, touched m s -> exists at_, sm s (labels_by_state m s) = Ok at_) /\
    (forall s a d p, transition m s a d p -> exists at_, tc s d p = Ok at_).

  Lemma draw_dtmc_total : chain_total -> exists dg, draw_dtmc m sm tc = Ok dg.
  Proof.
    intros (T1 & T2). unfold draw_dtmc.
    destruct (foldM_ok _ _ (draw_dtmc_step m sm tc) (fun _ _ => True) (mitems (a_P m)) ([], []) I) as ([seen dg] & E & _).
    - intros pre [[i d] p] [seen dg] _ (post & Hpost). assert (H : In ((i, d), p) (mitems (a_P m))) by (rewrite Hpost; apply in_or_app; right; left; reflexivity).
      destruct (item_inv i d p H) as (s & a & E & _). destruct (touched_src _ _ _ _ _ H E) as (A & B & C & D). unfold draw_dtmc_step. rewrite E. cbn [of_opt bind].
      destruct (draw_state_total [s; d] (seen, dg)) as ([seen1 dg1] & E1).
      { intros x [<-|[<-|[]]]; auto. }
      rewrite E1. cbn [bind]. destruct (T2 s a d p C) as (ta & ->). cbn [bind]. eauto.
    - rewrite E. cbn. eauto.
  Qed.

  Definition st_cedge (s d : nat) (p : Q) (at_ : attrs) : Prop := tc s d p = Ok at_.

  Lemma draw_dtmc_shows : forall dg, (forall s a i, a_inv m i = Some (s, a) -> a = 0) -> draw_dtmc m sm tc = Ok dg -> shows_dtmc m the_name st_node st_cedge dg.
  Proof.
    intros dg A0 E. unfold draw_dtmc in E. apply bind_ok in E. destruct E as ([seen dg'] & E & E'). injection E' as ->.
    assert (IV : dtmc_inv (mitems (a_P m)) (seen, dg)).
    { refine (foldM_inv _ _ (draw_dtmc_step m sm tc) dtmc_inv (mitems (a_P m)) ([], []) (seen, dg) _ _ E).
      - exists []. split; [split; [constructor|split; [constructor|reflexivity]]|].
        split; [intros s; split; [intros []|intros (i & d & p & s' & a & [] & _)]|]. reflexivity.
      - intros pre x s1 s2 A B C. apply (dtmc_step_ok pre x s1 s2 A B C). }
    destruct IV as (evs & (F & ND & S1) & I1 & I5). cbn [fst snd] in *. clear E.
    assert (ST : forall s, touched m s <-> In (EvState s) evs) by (intros s; rewrite S1, I1, tin_touched; reflexivity).
    constructor.
    - intros t a. split.
      + intros H. destruct (f2_in_r _ _ _ _ _ F _ H) as (e & K1 & K2). inversion K2; subst. exists s. rewrite ST. unfold st_node. auto.
      + intros (s & T & -> & K). apply ST in T. destruct (f2_in_l _ _ _ _ _ F _ T) as (x & K1 & K2). inversion K2; subst. unfold st_node in K. same K1.
    - apply (nodes_once emitc evs dg); [|exact F|exact ND]. intros e e' t a a' _ _ K K'. inversion K; subst; inversion K'; subst. f_equal. symmetry. apply show_nat_inj. assumption.
    - intros s T. apply in_nodes. apply ST in T. destruct (f2_in_l _ _ _ _ _ F _ T) as (x & K1 & K2). inversion K2; subst. cbn. eauto.
    - intros t h a. split.
      + intros H. destruct (f2_in_r _ _ _ _ _ F _ H) as (e & K1 & K2). inversion K2; subst.
        exists s, a0, d, p. apply I5 in K1. split; [exists i; auto|]. unfold st_cedge. auto.
      + intros (s & a' & d & p & (i & EI & H) & -> & -> & K).
        apply I5 in H. destruct (f2_in_l _ _ _ _ _ F _ H) as (x & K1 & K2). inversion K2; subst. unfold st_cedge in K. same K1.
    - apply (ends_once emitc evs dg); [|exact F|exact ND]. intros e e' t h a a' X1 X2 K K'. inversion K; subst; inversion K'; subst.
      assert (s = s0) by (apply show_nat_inj; congruence). subst s0. assert (d = d0) by (apply show_nat_inj; congruence). subst d0.
      assert (a0 = 0) by (eapply A0; eassumption). assert (a1 = 0) by (eapply A0; eassumption). subst a0 a1. assert (i = i0) by (apply (inv_inj _ _ (s, 0)); assumption). subst i0.
      f_equal. apply I5 in X1, X2. apply (key_prob i d); assumption.
    - intros s a d p (i & EI & H). apply in_ends. apply I5 in H. destruct (f2_in_l _ _ _ _ _ F _ H) as (x & K1 & K2). inversion K2; subst. match goal with H : a_inv m i = Some (?s', ?a'), H2 : a_inv m i = Some (?s2, ?a2) |- _ => assert (s' = s2) by congruence; assert (a' = a2) by congruence; subst end. cbn. eauto.
  Qed.
End Draw.
