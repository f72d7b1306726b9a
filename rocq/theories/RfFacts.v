(** Proofs about reachability forms, continued: the constructed object, end
    components, Farkas constraints, the Markov decision process it denotes. *)
From Coq Require Import String List Arith ZArith QArith Qabs Qreals Reals Bool Lia Lra.
From Verif Require Import Base BaseFacts Num Matrix MatFacts InvDict Graph GraphSpec GraphProofs Scc SccSpec SccProofs Mec MecProofs
  SpecMdp SpecSystem SpecEc SpecForm SumFacts Amdp AmdpProofs ReachForm ReachFormProofs.
Import ListNotations.
Local Open Scope nat_scope.

Lemma ddel_incl : forall (d : dict (nat * nat) nat) k x, In x (ddel pair_eqb d k) -> In x d.
Proof. induction d as [|[k' v] d IH]; simpl; intros k x H; auto. destruct (pair_eqb k k'); auto. destruct H; eauto. Qed.

Lemma ddel_bid : forall (d : dict (nat * nat) nat) k, bid_ok d -> bid_ok (ddel pair_eqb d k).
Proof.
  intros d k [H1 H2]. split; [apply (ddel_nodup pair_eqb); auto; apply pair_eqbP|]. clear H1.
  induction d as [|[k' v] d IH]; simpl; auto. inversion H2; subst. destruct (pair_eqb k k'); auto. simpl. constructor; auto.
  intros Hin. apply H1. apply in_map_iff in Hin. destruct Hin as (x & E & Hx). apply ddel_incl in Hx. apply in_map_iff. eauto.
Qed.

Lemma bdel_inv_ok : forall (d : dict (nat * nat) nat) v b, bid_ok d -> bdel_inv pair_eqb Nat.eqb d v = Ok b ->
  bid_ok b /\ (exists k, binv Nat.eqb d v = Some k) /\ binv Nat.eqb b v = None /\ forall w, w <> v -> binv Nat.eqb b w = binv Nat.eqb d w.
Proof.
  intros d v b HB H. unfold bdel_inv in H. destruct (binv Nat.eqb d v) as [k|] eqn:E; [|discriminate]. inversion H; subst b.
  pose proof (ddel_bid d k HB) as HB'. split; auto. split; [eauto|].
  assert (BD : forall b w k', bid_ok b -> binv Nat.eqb b w = Some k' <-> dget pair_eqb b k' = Some w).
  { intros. apply binv_dget; auto. apply pair_eqbP. apply Nat.eqb_spec. }
  assert (G : forall w k', binv Nat.eqb (ddel pair_eqb d k) w = Some k' <-> k' <> k /\ binv Nat.eqb d w = Some k').
  { intros w k'. rewrite !BD by auto. rewrite (dget_ddel pair_eqb pair_eqbP) by apply HB. destruct (pair_eqbP k k').
    - subst. split; [discriminate|]. intros [A _]; congruence.
    - split; [intros A; split; auto|tauto]. }
  split.
  - destruct (binv Nat.eqb (ddel pair_eqb d k) v) eqn:E2; auto. apply G in E2. destruct E2. congruence.
  - intros w Hw. destruct (binv Nat.eqb d w) as [k'|] eqn:E2.
    + apply G. split; auto. intros ->. apply Hw. exact (binv_inj pair_eqb Nat.eqb pair_eqbP Nat.eqb_spec d _ _ _ HB E2 E).
    + destruct (binv Nat.eqb (ddel pair_eqb d k) w) eqn:E3; auto. apply G in E3. destruct E3; congruence.
Qed.

Lemma bdel_inv_some : forall (d : dict (nat * nat) nat) v k, binv Nat.eqb d v = Some k -> exists b, bdel_inv pair_eqb Nat.eqb d v = Ok b.
Proof. intros d v k H. unfold bdel_inv. rewrite H. eauto. Qed.

Definition Arow_spec (P : mat) (n i s : nat) : list Q := map (fun d => ((if s =? d then 1 else 0) - mget P i d)%Q) (seq 0 n).

Lemma mapM_seq : forall B (f : nat -> res B) n k l, mapM f (seq k n) = Ok l -> length l = n /\ forall i d, i < n -> f (k + i) = Ok (nth i l d).
Proof.
  induction n; intros k l H; simpl in H.
  - inversion H; subst. split; auto. intros; lia.
  - apply bind_ok in H. destruct H as (y & E & H). apply bind_ok in H. destruct H as (ys & E2 & H). inversion H; subst.
    destruct (IHn _ _ E2) as [L G]. split; simpl; [lia|]. intros [|i] d Hi.
    + rewrite Nat.add_0_r. auto.
    + rewrite <- Nat.add_succ_comm. apply G. lia.
Qed.

Lemma mapM_total : forall A B (f : A -> res B) l, (forall x, In x l -> exists y, f x = Ok y) -> exists r, mapM f l = Ok r.
Proof.
  induction l as [|a l IH]; intros H; simpl; [eauto|]. destruct (H a) as (y & ->); [left; auto|]. cbn [bind].
  destruct IH as (r & ->); [intros; apply H; right; auto|]. simpl; eauto.
Qed.

(** Everything known about a constructed form. *)
Record rf_ok (rf : rform) : Prop := {
  ro_sys : sys_ok (rf_sys rf);
  ro_C : 2 <= a_C (rf_sys rf);
  ro_N : 2 <= a_N (rf_sys rf);
  ro_init : labelled (rf_sys rf) (rf_initl rf) (rf_init rf);
  ro_bid : bid_ok (rf_idx rf);
  ro_inv : forall i, rf_inv rf i = if (i =? a_C (rf_sys rf) - 1) || (i =? a_C (rf_sys rf) - 2) then None else a_inv (rf_sys rf) i;
  ro_row : forall i, i < rf_C rf -> exists s a, a_inv (rf_sys rf) i = Some (s, a) /\ s < rf_N rf /\
             nth i (rf_A rf) [] = Arow_spec (a_P (rf_sys rf)) (rf_N rf) i s;
  ro_lenA : length (rf_A rf) = rf_C rf;
  ro_tt : rf_to_target rf = map (fun i => mget (a_P (rf_sys rf)) i (rf_N rf)) (seq 0 (rf_C rf));
  ro_mec : exists rnd mecs k, a_mecs (rf_sys rf) rnd = Ok (mecs, rf_proper rf, k) /\ rf_state_to_mec rf = firstn (rf_N rf) mecs /\ rf_nmecs rf = (Z.of_nat k - 2)%Z }.

Lemma mk_rf_ok : forall rnd m il tl fl ign rf, sys_ok m -> mk_rf rnd m il tl fl ign = Ok rf ->
  rf_ok rf /\ rf_sys rf = m /\ rf_initl rf = il /\ rf_targetl rf = tl /\ rf_faill rf = fl /\
  (ign = false -> assert_consistency m il tl fl = Ok tt).
Proof.
  intros rnd m il tl fl ign rf HO H. unfold mk_rf in H. apply bind_ok in H. destruct H as ([] & HC & H).
  destruct (states_by_label m il) as [|init rest] eqn:EL; [discriminate|].
  destruct (Nat.ltb_spec (a_C m) 2); [discriminate|]. destruct (Nat.ltb_spec (a_N m) 2); [discriminate|].
  apply bind_ok in H. destruct H as (idx1 & D1 & H). apply bind_ok in H. destruct H as (idx2 & D2 & H).
  apply bind_ok in H. destruct H as (A & HA & H). apply bind_ok in H. destruct H as ([[mecs proper] k] & HM & H).
  inversion H; subst rf; clear H. simpl.
  destruct (bdel_inv_ok _ _ _ (ok_bid m HO) D1) as (B1 & _ & N1 & O1). destruct (bdel_inv_ok _ _ _ B1 D2) as (B2 & _ & N2 & O2).
  assert (HI : forall i, binv Nat.eqb idx2 i = if (i =? a_C m - 1) || (i =? a_C m - 2) then None else a_inv m i).
  { intros i. destruct (Nat.eqb_spec i (a_C m - 1)); [subst; auto|]. rewrite O2 by auto. destruct (Nat.eqb_spec i (a_C m - 2)); [subst; auto|]. apply O1; auto. }
  apply mapM_seq in HA. destruct HA as [LA HA].
  split; [|split; [|split; [|split; [|split]]]]; auto.
  - constructor; unfold rf_C, rf_N; simpl; auto.
    + unfold labelled. rewrite EL. left; auto.
    + intros i Hi. specialize (HA i [] Hi). simpl in HA. unfold A_row in HA. rewrite HI in HA.
      destruct (Nat.eqb_spec i (a_C m - 1)); [lia|]. destruct (Nat.eqb_spec i (a_C m - 2)); [lia|]. simpl orb in HA. cbn iota in HA.
      destruct (a_inv m i) as [[s a]|]; [|discriminate]. cbn [of_opt bind] in HA. destruct (Nat.ltb_spec s (a_N m - 2)); [|discriminate].
      exists s, a. split; [auto|]. split; [auto|]. injection HA as HA. symmetry. exact HA.
    + exists rnd, mecs, k. auto.
  - intros ->. auto.
Qed.

(** The constructor succeeds on every consistent system. *)
Lemma mk_rf_iff : forall rnd m il tl fl, sys_ok m ->
  (exists rf, mk_rf rnd m il tl fl false = Ok rf) <-> exists init, in_reach_form (a_P m) (a_inv m) (labelled m) init il tl fl.
Proof.
  intros rnd m il tl fl HO. split.
  - intros (rf & H). apply mk_rf_ok in H; auto. destruct H as (_ & _ & _ & _ & _ & H). apply consistency_iff; auto.
  - intros HF. pose proof (proj2 (consistency_iff m HO il tl fl) HF) as HC. unfold mk_rf. rewrite HC. cbn [bind].
    destruct HF as (init & HD & HN & HCC & Hi & LI & LT & LF & L1 & L2 & R1 & R2).
    assert (HL : In init (states_by_label m il)) by (apply LI; auto).
    destruct (states_by_label m il) as [|x rest]; [contradiction|].
    change (a_C m) with (mrows (a_P m)). change (a_N m) with (mcols (a_P m)).
    destruct (Nat.ltb_spec (mrows (a_P m)) 2); [lia|]. destruct (Nat.ltb_spec (mcols (a_P m)) 2); [lia|].
    destruct L1 as [(a1 & p1 & E1 & I1) U1]. destruct L2 as [(a2 & p2 & E2 & I2) U2].
    destruct (bdel_inv_some (a_idx m) _ _ E1) as (idx1 & D1). rewrite D1. cbn [bind].
    destruct (bdel_inv_ok _ _ _ (ok_bid m HO) D1) as (B1 & _ & N1 & O1).
    destruct (bdel_inv_some idx1 (mrows (a_P m) - 1) (mcols (a_P m) - 1, a2)) as (idx2 & D2).
    { rewrite O1 by lia. exact E2. }
    rewrite D2. cbn [bind]. destruct (bdel_inv_ok _ _ _ B1 D2) as (B2 & _ & N2 & O2).
    destruct (mapM_total _ _ (A_row (a_P m) (mcols (a_P m) - 2) (binv Nat.eqb idx2)) (seq 0 (mrows (a_P m) - 2))) as (A & HA).
    { clear Hi. intros i Hi. apply in_seq in Hi. unfold A_row. rewrite O2, O1 by lia. destruct (row_idx m HO i) as (s & a & E & Hs); [lia|]. 
      change (binv Nat.eqb (a_idx m) i) with (a_inv m i). rewrite E. cbn [of_opt bind].
      destruct (row_has_entry m HO i) as (d & p & Hin); [lia|].
      destruct (Nat.ltb_spec s (mcols (a_P m) - 2)); [eauto|]. exfalso.
      assert (s = mcols (a_P m) - 2 \/ s = mcols (a_P m) - 1) as [-> | ->] by lia.
      - destruct (U1 _ _ _ _ E Hin). lia.
      - destruct (U2 _ _ _ _ E Hin). lia. }
    rewrite HA. cbn [bind].
    destruct (C08_lemma _ _ _ (ok_graph m HO)) with (rnd := rnd) as (comp & proper & k & EM & _); [lia|].
    unfold a_mecs. rewrite EM. cbn [bind]. eauto.
Qed.

Lemma count_true_le : forall l, (0 <= count_true l)%Z.
Proof. intros. unfold count_true. lia. Qed.

Lemma NoDup_two : forall (l : list nat) a b, NoDup l -> In a l -> In b l -> a <> b -> length l = 2 -> forall x, In x l -> x = a \/ x = b.
Proof.
  intros l a b HN Ha Hb Hab HL x Hx. destruct l as [|u [|v [|w r]]]; try discriminate. simpl in *. intuition congruence.
Qed.

(** Number of proper components. *)
Lemma count_true_two : forall l a b, a < length l -> b < length l -> a <> b -> nth a l false = true -> nth b l false = true ->
  (count_true l = 2%Z <-> forall c, c < length l -> nth c l false = true -> c = a \/ c = b).
Proof.
  intros l a b Ha Hb Hab Na Nb.
  assert (E : count_true l = Z.of_nat (length (filter (fun c => nth c l false) (seq 0 (length l))))).
  { unfold count_true. f_equal. clear. assert (G : forall l k, length (filter (fun b : bool => b) l) = length (filter (fun c => nth (c - k) l false) (seq k (length l)))).
    { induction l0 as [|x l0 IH]; intros k; simpl; auto. rewrite Nat.sub_diag. 
      assert (EQ : filter (fun c => nth (c - k) (x :: l0) false) (seq (S k) (length l0)) = filter (fun c => nth (c - S k) l0 false) (seq (S k) (length l0))).
      { apply filter_ext_in. intros c Hc. apply in_seq in Hc. replace (c - k) with (S (c - S k)) by lia. reflexivity. }
      simpl in EQ. rewrite EQ. destruct x; simpl; rewrite (IH (S k)); auto. }
    rewrite (G l 0). f_equal. apply filter_ext. intros c. rewrite Nat.sub_0_r. auto. }
  rewrite E. set (L := filter (fun c => nth c l false) (seq 0 (length l))).
  assert (HN : NoDup L) by (apply NoDup_filter, seq_NoDup).
  assert (HI : forall c, In c L <-> c < length l /\ nth c l false = true).
  { intros c. unfold L. rewrite filter_In, in_seq. intuition lia. }
  split.
  - intros HL c Hc Nc. apply (NoDup_two L); auto; try (apply HI; auto). lia.
  - intros H. assert (incl L [a; b]). { intros c Hc. apply HI in Hc. destruct (H c) as [-> | ->]; simpl; tauto. }
    assert (incl [a; b] L). { intros c [<- | [<- | []]]; apply HI; auto. }
    apply NoDup_incl_length in H0; auto. apply NoDup_incl_length in H1. simpl in *. lia.
    repeat constructor; simpl; intuition.
Qed.

Lemma only_loop_ec : forall P inv s i, only_loop P inv s i -> in_some_ec P inv s.
Proof.
  intros P inv s i [(a & p & E & Hin) H]. exists (fun x => x = s), (fun x b => x = s /\ b = a). split; auto.
  split; [|split; [|split]].
  - eauto.
  - intros x ->. eauto.
  - intros x b [-> ->]. split; [auto|]. split. { exists s, i, p. auto. }
    intros d (i' & p' & Hin' & E'). eapply H; eauto.
  - intros x y -> ->. constructor.
Qed.

Lemma ec_loop_only : forall P inv X B s i, end_component P inv X B -> only_loop P inv s i -> X s -> forall t, X t -> t = s.
Proof.
  intros P inv X B s i (_ & _ & H3 & H4) [_ HL] Hs t Ht. specialize (H4 s t Hs Ht).
  remember s as u. revert Hequ. clear Hs. induction H4 as [|x y z (b & Hb & (i' & p & Hin & E)) R IH]; auto. intros ->.
  destruct (HL _ _ _ _ E Hin); subst. auto.
Qed.

(** ** End components of a form *)
Section Ec.
  Variables (rf : rform) (init : nat).
  Hypothesis RO : rf_ok rf.
  Let m := rf_sys rf.
  Hypothesis RFM : in_reach_form (a_P m) (a_inv m) (labelled m) init (rf_initl rf) (rf_targetl rf) (rf_faill rf).

  Lemma form_init : rf_init rf = init.
  Proof. pose proof (ro_init rf RO) as H. destruct RFM as (_ & _ & _ & _ & LI & _). apply LI; auto. Qed.

  Lemma form_states_act : forall n, n < mcols (a_P m) -> exists a d, pair_edge (a_P m) (a_inv m) n a d.
  Proof.
    intros n Hn. destruct RFM as (_ & HN & _ & _ & _ & _ & _ & L1 & L2 & _ & R2).
    destruct (Nat.eq_dec n (mcols (a_P m) - 1)) as [->|Hne].
    { destruct L2 as [(a & p & E & Hin) _]. exists a. eexists. exists (mrows (a_P m) - 1), p. eauto. }
    specialize (R2 n Hn Hne). inversion R2; subst.
    - destruct L1 as [(a & p & E & Hin) _]. exists a. eexists. exists (mrows (a_P m) - 2), p. eauto.
    - destruct H as (i & a & p & Hin & E). exists a, y, i, p. auto.
  Qed.

  Lemma nth_firstn : forall A (l : list A) n i d, i < n -> nth i (firstn n l) d = nth i l d.
  Proof. induction l; intros [|n] [|i] d H; simpl; auto; try lia. apply IHl. lia. Qed.

  Lemma in_proper_ec_ok : forall s, s < rf_N rf -> exists b, in_proper_ec rf s = Ok b /\ (b = true <-> in_some_ec (a_P m) (a_inv m) s).
  Proof.
    intros s Hs. destruct (ro_mec rf RO) as (rnd & mecs & k & EM & E1 & E2). fold m in EM. unfold a_mecs in EM.
    assert (HN : 0 < mcols (a_P m)). { pose proof (ro_N rf RO). fold m in H. unfold a_N in H. lia. }
    assert (HNs : s < mcols (a_P m)). { unfold rf_N, a_N in Hs. fold m in Hs. lia. }
    destruct (C08_lemma _ _ _ (ok_graph m (ro_sys rf RO)) HN rnd) as (comp & proper & k' & EM' & LC & LP & HB & _).
    assert (comp = mecs /\ proper = rf_proper rf /\ k' = k) as (-> & -> & ->) by (rewrite EM in EM'; inversion EM'; auto). clear EM'.
    pose proof (C09_lemma _ _ _ (ok_graph m (ro_sys rf RO)) HN rnd form_states_act _ _ _ EM s HNs) as HP.
    unfold in_proper_ec. rewrite E1. rewrite (nth_error_nth' _ 0) by (rewrite firstn_length; lia). cbn [of_opt bind].
    rewrite nth_firstn by auto. specialize (HB s HNs).
    rewrite (nth_error_nth' _ false) by congruence. cbn [of_opt]. eexists; split; [reflexivity|]. congruence.
  Qed.

  Lemma is_ec_free_iff : is_ec_free rf = true <-> forall s, s < rf_N rf -> ~ in_some_ec (a_P m) (a_inv m) s.
  Proof.
    destruct (ro_mec rf RO) as (rnd & mecs & k & EM & E1 & E2). fold m in EM. unfold a_mecs in EM.
    pose proof RFM as (_ & HN2 & HC2 & _ & _ & _ & _ & L1 & L2 & _ & _).
    assert (HN : 0 < mcols (a_P m)) by lia.
    destruct (C08_lemma _ _ _ (ok_graph m (ro_sys rf RO)) HN rnd) as (comp & proper & k' & EM' & LC & LP & HB & HU & HE).
    assert (comp = mecs /\ proper = rf_proper rf /\ k' = k) as (-> & -> & ->) by (rewrite EM in EM'; inversion EM'; auto). clear EM'.
    pose proof (C09_lemma _ _ _ (ok_graph m (ro_sys rf RO)) HN rnd form_states_act _ _ _ EM) as HP.
    set (g := mcols (a_P m) - 2) in *. set (f := mcols (a_P m) - 1) in *.
    assert (Hg : g < mcols (a_P m)) by (unfold g; lia). assert (Hf : f < mcols (a_P m)) by (unfold f; lia).
    unfold is_ec_free, nr_of_proper_mecs. rewrite Z.eqb_eq.
    assert (Cg : nth (nth g mecs 0) (rf_proper rf) false = true) by (apply HP; auto; eapply only_loop_ec; eauto).
    assert (Cf : nth (nth f mecs 0) (rf_proper rf) false = true) by (apply HP; auto; eapply only_loop_ec; eauto).
    assert (Hdiff : forall s, s < mcols (a_P m) -> (s <> g -> nth s mecs 0 <> nth g mecs 0) /\ (s <> f -> nth s mecs 0 <> nth f mecs 0)).
    { intros s Hs. split; intros Hne E; apply HE in E; auto; destruct E as [E|(X & B & HX & Xs & Xg)]; auto; apply Hne.
      - eapply (ec_loop_only _ _ X B g); eauto.
      - eapply (ec_loop_only _ _ X B f); eauto. }
    assert (Hgf : nth g mecs 0 <> nth f mecs 0). { apply (Hdiff g Hg). unfold g, f. lia. }
    transitivity (count_true (rf_proper rf) = 2%Z); [lia|].
    rewrite (count_true_two _ (nth g mecs 0) (nth f mecs 0)); auto; try (rewrite LP; apply HB; auto).
    unfold rf_N, a_N. fold m. fold g. split.
    - intros H s Hs Hec. assert (Hs' : s < mcols (a_P m)) by (unfold g in Hs; lia).
      apply HP in Hec; auto. apply H in Hec; [|rewrite LP; apply HB; auto].
      destruct Hec as [E|E]; apply (Hdiff s Hs') in E; auto; unfold f, g in *; lia.
    - intros H c Hc Nc. rewrite LP in Hc. destruct (HU c Hc) as (n & Hn & <-).
      apply HP in Nc; auto. destruct (Nat.lt_ge_cases n g) as [Hlt|Hge]; [exfalso; eapply H; eauto|].
      assert (n = g \/ n = f) as [-> | ->] by (unfold f, g in *; lia); auto.
  Qed.
End Ec.
