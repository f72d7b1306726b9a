(** Proofs about reachability forms (ReachForm.v). *)
From Coq Require Import String List Arith ZArith QArith Qabs Qreals Reals Bool Lia Lra.
From Verif Require Import Base BaseFacts Num Matrix MatFacts InvDict Graph GraphSpec GraphProofs Scc SccSpec SccProofs Mec MecProofs
  SpecMdp SpecSystem SpecEc SpecForm SumFacts Amdp AmdpProofs ReachForm.
Import ListNotations.
Local Open Scope nat_scope.

(** What every constructed system satisfies. *)
Definition sys_ok (m : amdp) : Prop :=
  wf_mat (a_P m) /\ NoDup (map fst (a_idx m)) /\ valid_system (a_P m) (a_idx m) (a_rew m) /\
  mk_graph (a_P m) (a_inv m) = Ok (a_graph m) /\
  (forall l, NoDup (states_by_label m l)).

Definition labelled (m : amdp) (l : string) (s : nat) : Prop := In s (states_by_label m l).

Lemma mk_abstract_sys_ok : forall k P idx al sl rew m, wf_mat P -> NoDup (map fst idx) ->
  (forall l s, dget String.eqb (fwd sl) l = Some s -> NoDup s) ->
  mk_abstract k P idx al sl rew = Ok m -> sys_ok m.
Proof.
  intros k P idx al sl rew m WF HN HL H.
  assert (V : valid_system P idx rew) by (eapply mk_abstract_iff; eauto).
  apply mk_abstract_inv in H; auto. destruct H as (A & B & C & D & E & F & G & _).
  unfold sys_ok. rewrite B, C, D. split; [|split; [|split; [|split]]]; auto.
  - unfold a_inv. rewrite C. auto.
  - intros l. unfold states_by_label. rewrite F. destruct (dget String.eqb (fwd sl) l) eqn:El; eauto. constructor.
Qed.

Section Sys.
  Variable m : amdp.
  Hypothesis OK : sys_ok m.
  Let P := a_P m.
  Let inv := a_inv m.

  Lemma ok_wf : wf_mat P. Proof. apply OK. Qed.
  Lemma ok_bid : bid_ok (a_idx m). Proof. split; apply OK. Qed.
  Lemma ok_graph : mk_graph P inv = Ok (a_graph m). Proof. apply OK. Qed.

  Lemma inv_inj : forall i j k, inv i = Some k -> inv j = Some k -> i = j.
  Proof. intros i j k H1 H2. eapply (binv_inj pair_eqb Nat.eqb pair_eqbP Nat.eqb_spec); eauto. apply ok_bid. Qed.

  Lemma row_inv : forall k i, a_row m k = Some i <-> inv i = Some k.
  Proof. intros k i. symmetry. apply binv_dget. apply pair_eqbP. apply Nat.eqb_spec. apply ok_bid. Qed.

  (** Every row has an entry, hence an index. *)
  Lemma row_has_entry : forall i, i < mrows P -> exists d p, In ((i, d), p) (mitems P).
  Proof.
    intros i Hi. destruct OK as (_ & _ & (_ & B & _) & _). specialize (B i Hi).
    destruct (existsb (fun e : nat * nat * Q => fst (fst e) =? i) (mitems P)) eqn:E.
    - apply existsb_exists in E. destruct E as ([[i' d] p] & Hin & E). simpl in E. apply Nat.eqb_eq in E. subst. eauto.
    - exfalso. unfold near_one in B. fold P in B. rewrite row_total_sum in B by apply ok_wf. unfold row_sum in B.
      assert (Ef : filter (fun e : nat * nat * Q => fst (fst e) =? i) (mitems P) = []).
      { destruct (filter _ (mitems P)) as [|x l] eqn:Ef; auto. assert (In x (x :: l)) by (left; auto). rewrite <- Ef in H. apply filter_In in H.
        assert (existsb (fun e : nat * nat * Q => fst (fst e) =? i) (mitems P) = true) by (apply existsb_exists; exists x; auto). congruence. }
      rewrite Ef in B. simpl in B. apply B. reflexivity.
  Qed.

  Lemma entry_indexed : forall i d p, In ((i, d), p) (mitems P) -> i < mrows P /\ d < mcols P /\ exists s a, inv i = Some (s, a) /\ s < mcols P.
  Proof.
    intros i d p Hin. pose proof (proj2 ok_wf _ _ _ Hin) as (A & B & _). split; [auto|]. split; auto.
    destruct OK as (_ & _ & (_ & _ & _ & _ & D) & _). destruct (D _ _ _ Hin) as (s & a & H & Hs). exists s, a. split; auto.
    apply In_binv; auto. apply Nat.eqb_spec. apply ok_bid.
  Qed.

  Lemma row_idx : forall i, i < mrows P -> exists s a, inv i = Some (s, a) /\ s < mcols P.
  Proof. intros i Hi. destruct (row_has_entry i Hi) as (d & p & H). apply entry_indexed in H. tauto. Qed.

  Lemma edge_bound : forall s d, edge P inv s d -> s < mcols P /\ d < mcols P.
  Proof.
    intros s d (i & a & p & Hin & E). apply entry_indexed in Hin. destruct Hin as (_ & Hd & s' & a' & E' & Hs). split; auto. congruence.
  Qed.

  Lemma reach_avoid_rtc : forall (E : nat -> nat -> Prop) x y, reach_avoid E (fun s => s = x) (fun _ => False) y <-> rtc E x y.
  Proof.
    intros E x y. split.
    - induction 1 as [s ->|s t H IH _ He]; [constructor|].
      clear H. induction IH; [econstructor; [eauto|constructor]|econstructor; eauto].
    - assert (G : forall a b, rtc E a b -> reach_avoid E (fun s => s = x) (fun _ => False) a -> reach_avoid E (fun s => s = x) (fun _ => False) b).
      { induction 1; auto. intros Ha. apply IHrtc. eapply ra_step; eauto. }
      intros H. apply (G x y H). apply ra_start; auto.
  Qed.

  Lemma rtc_flip : forall (E : nat -> nat -> Prop) x y, rtc (fun a b => E b a) x y <-> rtc E y x.
  Proof.
    assert (G : forall (E : nat -> nat -> Prop) x y, rtc (fun a b => E b a) x y -> rtc E y x).
    { intros E x y. induction 1; [constructor|]. clear H0. 
      induction IHrtc; [econstructor; [eauto|constructor]|econstructor; eauto]. }
    intros E x y. split; [apply G|]. intros H. apply (G (fun a b => E b a)). exact H.
  Qed.

  Lemma mask_spec : forall x dir, x < mcols P -> dir <> OtherDirection ->
    exists mask, reachable_mask m [x] dir [] = Ok mask /\ length mask = mcols P /\
      forall n, nth n mask false = true <-> match dir with Forward => rtc (edge P inv) x n | _ => rtc (edge P inv) n x end.
  Proof.
    intros x dir Hx Hd. unfold reachable_mask.
    destruct (C06_lemma P inv (a_graph m) [x] dir [] ok_graph) as (mask & E & L & H); auto; try discriminate.
    - intros s [<-|[]]; auto.
    - intros s [].
    - exists mask. split; [auto|]. split; [auto|]. intros n. rewrite H.
      assert (EX : forall E : nat -> nat -> Prop, reach_avoid E (fun s => In s [x]) (fun s => In s []) n <-> rtc E x n).
      { intros E0. rewrite <- reach_avoid_rtc. split; intros R.
        - induction R as [s [->|[]]|s t R1 IH Hb He]; [apply ra_start; auto|eapply ra_step; eauto].
        - induction R as [s ->|s t R1 IH Hb He]; [apply ra_start; left; auto|eapply ra_step; eauto]. }
      rewrite EX. destruct dir; [tauto| |congruence]. apply rtc_flip.
  Qed.

  Lemma graph_len : length (a_graph m) = mcols P.
  Proof. destruct (mk_graph_spec P inv _ ok_graph) as [H _]. exact H. Qed.

  Lemma mask_out : forall x dir, mcols P <= x -> exists e, reachable_mask m [x] dir [] = Err e.
  Proof.
    intros x dir Hx. unfold reachable_mask, reachable, reachable_fuel. cbn [length Nat.ltb Nat.leb bind assert_].
    destruct dir; cbn [bind assert_]; eauto; unfold mark_all; cbn [foldM]; rewrite repeat_length;
      rewrite graph_len; rewrite (proj2 (Nat.ltb_ge _ _) Hx); simpl; eauto.
  Qed.

  Lemma flat_map_single : forall (f : nat * nat * Q -> list (nat * nat * Q)) l k0 p0 x, NoDup (map fst l) -> In (k0, p0) l -> f (k0, p0) = [x] ->
    (forall k p, In (k, p) l -> k <> k0 -> f (k, p) = []) -> flat_map f l = [x].
  Proof.
    intros f l k0 p0 x. induction l as [|[k p] l IH]; intros HN Hin Hf Hr; [contradiction|].
    inversion HN as [|? ? Hn HN']; subst. simpl. destruct Hin as [E|Hin].
    - inversion E; subst. rewrite Hf. assert (G : flat_map f l = []); [|rewrite G; auto].
      assert (forall k p, In (k, p) l -> f (k, p) = []).
      { intros k p H. apply Hr; [right; auto|]. intros ->. apply Hn. apply in_map_iff. exists (k0, p). auto. }
      clear -H. induction l as [|[k p] l IH]; auto. simpl. rewrite (H k p) by (left; auto). apply IH. intros; apply H; right; auto.
    - rewrite (Hr k p) by (try (left; auto); intros ->; apply Hn; apply in_map_iff; exists (k0, p0); auto). simpl. apply IH; auto.
      intros; apply Hr; auto; right; auto.
  Qed.

  Lemma succ_triples : forall s, s < mcols P -> successors (a_graph m) s None = Ok (map (fun x => (fst x, f32 (snd x))) (out_triples P inv s)).
  Proof.
    intros s Hs. destruct (C05_lemma P inv _ ok_graph s Hs None) as [E _]. rewrite E. f_equal. f_equal.
    clear. induction (out_triples P inv s); simpl; auto. f_equal; auto.
  Qed.

  Lemma absorbing_iff : forall s r c, check_absorbing m s (Some r) (Some c) = Ok tt <-> s = c /\ only_loop P inv s r.
  Proof.
    intros s r c. unfold check_absorbing. split.
    - intros H. inv_ok H. assert (Hs : s < mcols P).
      { unfold successors in Hok. inv_ok Hok. unfold of_opt in Hok1. destruct (nth_error (a_graph m) s) eqn:E; [|discriminate].
        rewrite <- graph_len. apply nth_error_Some. congruence. }
      rewrite (succ_triples s Hs) in Hok. inversion Hok; subst a. destruct (out_triples P inv s) as [|[[d a] p] [|]] eqn:EO; try (simpl in Hok0; discriminate).
      simpl map in Hok0. cbn iota in Hok0. apply bind_ok in Hok0. destruct Hok0 as (u1 & K1 & Hok0).
      apply assert_ok in K1. apply Nat.eqb_eq in K1. unfold sap_state in K1. simpl in K1. subst d.
      apply bind_ok in Hok0. destruct Hok0 as (i & K2 & Hok0). unfold of_opt in K2. unfold sap_state, sap_action in K2. simpl in K2.
      destruct (a_row m (s, a)) as [i'|] eqn:Er; [|discriminate]. inversion K2; subst. apply bind_ok in Hok0. destruct Hok0 as (u2 & K3 & K4).
      apply assert_ok in K3. apply Nat.eqb_eq in K3. subst i. apply assert_ok in K4. apply Nat.eqb_eq in K4. split; auto.
      apply row_inv in Er. 
      assert (G : forall i' d' a' p', inv i' = Some (s, a') -> In ((i', d'), p') (mitems P) -> (d', a', p') = (s, a, p)).
      { intros i' d' a' p' E Hin. assert (Hin2 : In (d', a', p') (out_triples P inv s)).
        { apply in_flat_map. exists ((i', d'), p'). split; auto. rewrite E, Nat.eqb_refl. left; auto. }
        rewrite EO in Hin2. destruct Hin2 as [<-|[]]; auto. }
      split.
      + exists a, p. split; auto. assert (Hin : In (s, a, p) (out_triples P inv s)) by (rewrite EO; left; auto).
        apply in_flat_map in Hin. destruct Hin as ([[i' d'] p'] & Hin & Hx). destruct (inv i') as [[s' a']|] eqn:Ei; [|contradiction].
        destruct (Nat.eqb_spec s' s); [|contradiction]. destruct Hx as [Hx|[]]. inversion Hx; subst.
        assert (i' = r) by (eapply inv_inj; eauto). subst. auto.
      + intros i' d a' p' E Hin. specialize (G i' d a' p' E Hin). inversion G; subst. split; auto. eapply inv_inj; eauto.
    - intros [<- [(a & p & E & Hin) Hall]].
      assert (Hs : s < mcols P). { apply entry_indexed in Hin. tauto. }
      rewrite (succ_triples s Hs). cbn [bind].
      assert (EO : out_triples P inv s = [(s, a, p)]).
      { unfold out_triples. apply flat_map_single with (k0 := (r, s)) (p0 := p); auto.
        - apply ok_wf.
        - rewrite E, Nat.eqb_refl. auto.
        - intros [i d] p' Hin' Hne. destruct (inv i) as [[s' a']|] eqn:Ei; auto. destruct (Nat.eqb_spec s' s); auto. subst.
          destruct (Hall _ _ _ _ Ei Hin'); subst. congruence. }
      rewrite EO. simpl map. cbn iota. unfold sap_state, sap_action. simpl fst. simpl snd. rewrite Nat.eqb_refl. cbn [assert_ bind].
      rewrite (proj2 (row_inv (s, a) r) E). cbn [of_opt bind]. rewrite Nat.eqb_refl. reflexivity.
  Qed.

  Lemma single_iff : forall l s, single_state m l = Ok s <-> forall t, labelled m l t <-> t = s.
  Proof.
    intros l s. unfold single_state, labelled. destruct OK as (_ & _ & _ & _ & HN). specialize (HN l).
    destruct (states_by_label m l) as [|a [|b r]].
    - split; [discriminate|]. intros H. exfalso. apply (proj2 (H s) eq_refl).
    - split.
      + intros E; inversion E; subst. intros t; simpl; intuition.
      + intros H. f_equal. apply (H a). left; auto.
    - split; [discriminate|]. intros H. exfalso. inversion HN; subst. assert (a = s) by (apply H; left; auto). assert (b = s) by (apply H; right; left; auto).
      subst. apply H2. left; auto.
  Qed.

  Lemma zip_all : forall f a b, forallb (fun b => b) (zip_bool f a b) = true <-> forall n, n < length a -> n < length b -> f (nth n a false) (nth n b false) = true.
  Proof.
    intros f. unfold zip_bool. induction a as [|x a IH]; intros [|y b]; simpl; split; intros H; auto; try (intros; lia).
    - apply andb_true_iff in H. destruct H as [H1 H2]. rewrite IH in H2. intros [|n] Ha Hb; auto. apply H2; lia.
    - apply andb_true_iff. split; [apply (H 0); lia|]. apply IH. intros n Ha Hb. apply (H (S n)); lia.
  Qed.

  Lemma fail_mask_nth : forall f N n, n < N -> nth n (map (fun i => i =? f) (seq 0 N)) false = (n =? f).
  Proof. intros. rewrite (nth_indep _ false (0 =? f)) by (rewrite map_length, seq_length; auto).
    rewrite (map_nth (fun i => i =? f)). rewrite seq_nth; auto. Qed.

  Lemma minus_some : forall a b c, minus a b = Some c -> b <= a /\ c = a - b.
  Proof. unfold minus. intros a b c H. destruct (Nat.leb_spec b a); inversion H; auto. Qed.

  Lemma absorbing_none : forall s c, check_absorbing m s None c <> Ok tt.
  Proof.
    intros s c H. unfold check_absorbing in H. inv_ok H. destruct a as [|x [|]]; try discriminate.
    inv_ok Hok0. inv_ok Hok2. inv_ok Hok3. discriminate.
  Qed.
  Lemma absorbing_none2 : forall s c, check_absorbing m s c None <> Ok tt.
  Proof.
    intros s c H. unfold check_absorbing in H. inv_ok H. destruct a as [|x [|]]; try discriminate.
    inv_ok Hok0. inv_ok Hok2. inv_ok Hok3. discriminate.
  Qed.

  Lemma loop_absorbing : forall s i, only_loop P inv s i -> forall t, rtc (edge P inv) s t -> t = s.
  Proof.
    intros s i [_ H] t R. remember s as u. revert Hequ. induction R; auto. intros ->. destruct H0 as (i' & a & p & Hin & E).
    destruct (H _ _ _ _ E Hin); subst. auto.
  Qed.

  Lemma seqb_neq : forall a b, negb (String.eqb a b) = true <-> a <> b.
  Proof. intros. rewrite negb_true_iff. apply String.eqb_neq. Qed.

  Lemma consistency_iff : forall il tl fl, assert_consistency m il tl fl = Ok tt <->
    exists init, in_reach_form P inv (labelled m) init il tl fl.
  Proof.
    intros il tl fl. unfold assert_consistency, in_reach_form. cbv zeta. split.
    - intros H. apply bind_ok in H. destruct H as (u0 & K0 & H). apply assert_ok in K0. rewrite !andb_true_iff, !seqb_neq in K0.
      apply bind_ok in H. destruct H as (init & KI & H). apply bind_ok in H. destruct H as (target & KT & H). apply bind_ok in H. destruct H as (fail & KF & H).
      rewrite single_iff in KI, KT, KF. 
      apply bind_ok in H. destruct H as ([] & A1 & H). apply bind_ok in H. destruct H as ([] & A2 & H).
      destruct (minus (a_C m) 2) as [r2|] eqn:M1; [|exfalso; eapply absorbing_none; eauto].
      destruct (minus (a_N m) 2) as [c2|] eqn:M2; [|exfalso; eapply absorbing_none2; eauto].
      destruct (minus (a_C m) 1) as [r1|] eqn:M3; [|exfalso; eapply absorbing_none; eauto].
      destruct (minus (a_N m) 1) as [c1|] eqn:M4; [|exfalso; eapply absorbing_none2; eauto].
      apply minus_some in M1. apply minus_some in M2. apply minus_some in M3. apply minus_some in M4.
      destruct M1 as [B1 ->], M2 as [B2 ->], M3 as [B3 ->], M4 as [B4 ->].
      change (a_N m) with (mcols P) in *. change (a_C m) with (mrows P) in *.
      rewrite absorbing_iff in A1, A2. destruct A1 as [-> L1], A2 as [-> L2].
      apply bind_ok in H. destruct H as (fm & F1 & H). apply bind_ok in H. destruct H as (u3 & F2 & H). apply assert_ok in F2.
      apply bind_ok in H. destruct H as (bm & F3 & H). apply assert_ok in H. rename F2 into Hok5. rename H into Hok6.
      destruct (Nat.lt_ge_cases init (mcols P)) as [Hi|Hi]; [|destruct (mask_out init Forward Hi) as (e & E); congruence].
      destruct (mask_spec init Forward Hi) as (mk1 & E1 & Le1 & S1); [discriminate|].
      destruct (mask_spec (mcols P - 2) Backward) as (mk2 & E2 & Le2 & S2); [lia|discriminate|].
      assert (fm = mk1) by congruence. assert (bm = mk2) by congruence. subst fm bm.
      rewrite zip_all in Hok5, Hok6. rewrite map_length, seq_length in *.
      exists init. split; [tauto|]. split; [auto|]. split; [auto|]. split; [auto|]. split; [auto|]. split; [auto|]. split; [auto|].
      split; [auto|]. split; [auto|]. split; intros s Hs Hne.
      + apply S1. specialize (Hok5 s). rewrite fail_mask_nth in Hok5 by auto. rewrite (proj2 (Nat.eqb_neq _ _) Hne) in Hok5.
        rewrite orb_false_r in Hok5. apply Hok5; lia.
      + apply S2. specialize (Hok6 s). rewrite fail_mask_nth in Hok6 by auto. rewrite (proj2 (Nat.eqb_neq _ _) Hne) in Hok6.
        rewrite xorb_false_r in Hok6. apply Hok6; lia.
    - intros (init & (D1 & D2 & D3) & HN & HC & Hi & LI & LT & LF & L1 & L2 & R1 & R2).
      rewrite (proj2 (seqb_neq il tl) D1), (proj2 (seqb_neq il fl) D2), (proj2 (seqb_neq tl fl) D3). cbn [andb assert_ bind].
      rewrite (proj2 (single_iff il init) LI). cbn [bind]. rewrite (proj2 (single_iff tl _) LT). cbn [bind]. rewrite (proj2 (single_iff fl _) LF). cbn [bind].
      assert (M : forall a b, b <= a -> minus a b = Some (a - b)) by (intros a b H; unfold minus; rewrite (proj2 (Nat.leb_le _ _) H); auto).
      change (a_N m) with (mcols P). change (a_C m) with (mrows P). rewrite !M by lia.
      rewrite (proj2 (absorbing_iff _ _ _)) by auto. cbn [bind]. rewrite (proj2 (absorbing_iff _ _ _)) by auto. cbn [bind].
      destruct (mask_spec init Forward Hi) as (mk1 & -> & Le1 & S1); [discriminate|].
      destruct (mask_spec (mcols P - 2) Backward) as (mk2 & -> & Le2 & S2); [lia|discriminate|]. cbn [bind].
      rewrite (proj2 (zip_all _ _ _)). 2:{ intros n H1 _. rewrite fail_mask_nth by lia. destruct (Nat.eqb_spec n (mcols P - 1)); [apply orb_true_r|].
        rewrite orb_false_r. apply S1. apply R1; lia. }
      cbn [bind assert_].
      rewrite (proj2 (zip_all _ _ _)); auto. intros n H1 _. rewrite fail_mask_nth by lia. destruct (Nat.eqb_spec n (mcols P - 1)).
      + rewrite xorb_true_r, negb_true_iff. subst n. destruct (nth (mcols P - 1) mk2 false) eqn:E; auto. apply S2 in E.
        apply (loop_absorbing _ _ L2) in E. lia.
      + rewrite xorb_false_r. apply S2. apply R2; lia.
  Qed.
End Sys.
