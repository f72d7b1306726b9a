(** Reduction, first part: matrix writes and the numbering of kept states. *)
From Coq Require Import String List Arith ZArith QArith Bool Lia.
From Verif Require Import Base BaseFacts Num Matrix MatFacts InvDict InvDictProofs Graph GraphSpec SpecSystem Amdp AmdpProofs ReachForm ReachFormProofs BuiltFacts Reduce.
Import ListNotations.
Local Open Scope nat_scope.

Lemma nodup_app_l : forall A (l r : list A), NoDup (l ++ r) -> NoDup l.
Proof. intros A l r. induction l as [|x l IH]; intros H; [constructor|]. inversion H; subst. constructor; auto. intros Hx. apply H2. apply in_app_iff; auto. Qed.

Lemma mset_step : forall P i j q, wf_mat P -> i < mrows P -> j < mcols P -> ~ (q == 0)%Q ->
  (forall q', In ((i, j), q') (mitems P) -> q' = q) ->
  exists P', mset P i j q = Ok P' /\ mrows P' = mrows P /\ mcols P' = mcols P /\ wf_mat P' /\
    forall x, In x (mitems P') <-> x = ((i, j), q) \/ In x (mitems P).
Proof.
  intros P i j q (WN & WB) Hi Hj Hq HF. unfold mset.
  destruct (Nat.ltb_spec i (mrows P)); [|lia]. destruct (Nat.ltb_spec j (mcols P)); [|lia]. simpl.
  destruct (Qeq_bool q 0) eqn:E. { exfalso. apply Hq. apply Qeq_bool_iff; auto. }
  eexists. split; [reflexivity|]. simpl. split; [auto|]. split; [auto|].
  assert (HI : forall x, In x (dset pair_eqb (mitems P) (i, j) q) <-> x = ((i, j), q) \/ In x (mitems P)).
  { destruct (dget pair_eqb (mitems P) (i, j)) as [q0|] eqn:E0.
    - pose proof (dget_In pair_eqb pair_eqbP _ _ _ E0) as I0. specialize (HF _ I0). subst q0.
      rewrite (dset_same_val pair_eqb pair_eqbP _ _ _ E0). intros x. split; [auto|]. intros [->|]; auto.
    - apply (dget_None pair_eqb pair_eqbP) in E0. rewrite (dset_fresh pair_eqb pair_eqbP) by auto. intros x. rewrite in_app_iff. simpl. intuition. }
  split; [|exact HI]. split.
  - apply (dset_nodup pair_eqb pair_eqbP). exact WN.
  - simpl. intros i' d' p' Hin. apply HI in Hin. destruct Hin as [E0|Hin]; [inversion E0; subst; auto|eapply WB; eauto].
Qed.

Lemma wf_zero : forall r c, wf_mat (mzero r c).
Proof. intros. split; [constructor|intros ? ? ? []]. Qed.

Lemma bput_fresh : forall (K V : Type) (keqb : K -> K -> bool) (veqb : V -> V -> bool), (forall a b, reflect (a = b) (keqb a b)) ->
  (forall a b, reflect (a = b) (veqb a b)) -> forall b k v, ~ In k (map fst b) -> ~ In v (map snd b) -> bput keqb veqb b k v = Ok (b ++ [(k, v)]).
Proof.
  intros K V keqb veqb HK HV b k v Hk Hv. unfold bput. apply (binv_None veqb HV) in Hv. rewrite Hv.
  f_equal. apply (dset_fresh keqb HK). exact Hk.
Qed.

Lemma bput_same : forall (K V : Type) (keqb : K -> K -> bool) (veqb : V -> V -> bool), (forall a b, reflect (a = b) (keqb a b)) ->
  (forall a b, reflect (a = b) (veqb a b)) -> forall b k v, bid_ok b -> In (k, v) b -> bput keqb veqb b k v = Ok b.
Proof.
  intros K V keqb veqb HK HV b k v Hb Hin. unfold bput. rewrite (In_binv veqb HV _ _ _ Hb Hin). destruct (HK k k); congruence.
Qed.

Lemma bid_snoc : forall (K V : Type) (b : dict K V) k v, bid_ok b -> ~ In k (map fst b) -> ~ In v (map snd b) -> bid_ok (b ++ [(k, v)]).
Proof. intros K V b k v (A & B) Hk Hv. split; rewrite map_app; simpl; apply NoDup_snoc_iff; auto. Qed.

(** The state-action pairs of kept states in row order. *)
Definition kpairs (m : amdp) (mask : list bool) (l : list nat) : list (nat * nat) :=
  flat_map (fun i => match a_inv m i with Some (s, a) => if nth s mask false then [(s, a)] else [] | None => [] end) l.

Section Num.
  Variable m : amdp.
  Hypothesis OK : sys_ok m.
  Variable mask : list bool.
  Hypothesis ML : length mask = a_N m.

  Definition num_inv (l : list nat) (st : dict nat nat * nat * dict (nat * nat) (nat * nat) * dict nat nat) : Prop :=
    let '(rim, next, rows, cols) := st in
    rim = cols /\ next = length cols /\ map snd cols = seq 0 (length cols) /\ NoDup (map fst cols) /\
    map fst rows = kpairs m mask l /\
    (forall s a s' a', In ((s, a), (s', a')) rows -> a' = a /\ In (s, s') cols) /\
    (forall s, In s (map fst cols) -> exists a, In (s, a) (kpairs m mask l)) /\ NoDup (map fst rows).

  Lemma kpairs_nodup : forall l, NoDup l -> NoDup (kpairs m mask l).
  Proof.
    induction 1 as [|i l Hi _ IH]; [constructor|]. simpl.
    destruct (a_inv m i) as [[s a]|] eqn:E; auto. destruct (nth s mask false) eqn:Em; auto. simpl. constructor; auto.
    intros Hin. apply in_flat_map in Hin. destruct Hin as (j & Hj & Hin). destruct (a_inv m j) as [[s' a']|] eqn:Ej; [|contradiction].
    destruct (nth s' mask false); [|contradiction]. destruct Hin as [Eq|[]]. inversion Eq; subst. apply Hi.
    rewrite (inv_inj m OK i j _ E Ej). auto.
  Qed.

  Lemma numbering_ok : exists rows cols, numbering m mask = Ok (rows, cols) /\
    num_inv (seq 0 (a_C m)) (cols, length cols, rows, cols).
  Proof.
    unfold numbering.
    destruct (foldM_ok _ _ (number_step m mask) num_inv (seq 0 (a_C m)) ([], 0, [], [])) as (st & E & HI).
    - simpl. split; [auto|]. split; [auto|]. split; [auto|]. split; [constructor|]. split; [auto|]. split; [intros ? ? ? ? []|]. split; [intros ? []|constructor].
    - intros pre i (((rim, next), rows), cols) HI (post & Hsplit). cbn [num_inv] in HI.
      destruct HI as (-> & -> & HS & HN & HR & HP & HC & HRN).
      assert (Hi : i < a_C m). { assert (In i (seq 0 (a_C m))) by (rewrite Hsplit, in_app_iff; simpl; auto). apply in_seq in H. lia. }
      destruct (row_idx m OK i Hi) as (s & a & Ei & Hs).
      assert (Hk : kpairs m mask (pre ++ [i]) = kpairs m mask pre ++ (if nth s mask false then [(s, a)] else [])).
      { unfold kpairs. rewrite flat_map_app. simpl. rewrite app_nil_r, Ei. auto. }
      unfold number_step. rewrite Ei. cbn [of_opt bind].
      destruct (nth_error mask s) as [b|] eqn:Eb. 2:{ apply nth_error_None in Eb. rewrite ML in Eb. change (mcols (a_P m)) with (a_N m) in Hs. lia. }
      cbn [of_opt bind]. apply nth_error_nth with (d := false) in Eb. rewrite Eb in Hk.
      destruct b. 2:{ eexists. split; [reflexivity|]. cbn [num_inv]. rewrite Hk, app_nil_r. repeat (split; [auto; fail|]). auto. }
      assert (KN : NoDup (kpairs m mask (pre ++ [i]))).
      { apply kpairs_nodup. pose proof (seq_NoDup (a_C m) 0) as ND. rewrite Hsplit in ND.
        replace (pre ++ i :: post) with ((pre ++ [i]) ++ post) in ND by (rewrite <- app_assoc; auto). apply nodup_app_l in ND. auto. }
      rewrite Hk in KN. apply NoDup_snoc_iff in KN. destruct KN as [KN1 KN2].
      assert (BC : bid_ok cols). { split; [auto|]. rewrite HS. apply seq_NoDup. }
      assert (RK : ~ In (s, a) (map fst rows)) by (rewrite HR; auto).
      assert (Main : forall cols' idx, (forall x, In x cols -> In x cols') -> bid_ok cols' -> In (s, idx) cols' ->
         (forall s1 v, In (s1, v) cols -> v = idx -> s1 = s) ->
         bput pair_eqb pair_eqb rows (s, a) (idx, a) = Ok (rows ++ [((s, a), (idx, a))]) /\
         (forall s0 a0 s' a', In ((s0, a0), (s', a')) (rows ++ [((s, a), (idx, a))]) -> a' = a0 /\ In (s0, s') cols')).
      { intros cols' idx Hsub HB Hin HU. split.
        - apply bput_fresh; [apply pair_eqbP|apply pair_eqbP|auto|]. intros Hv. apply in_map_iff in Hv. destruct Hv as ([[s1 a1] [v1 w1]] & Ev & Hv).
          simpl in Ev. inversion Ev; subst. destruct (HP _ _ _ _ Hv) as [-> Hc]. rewrite (HU _ _ Hc eq_refl) in Hv.
          apply RK. apply in_map_iff. exists ((s, a1), (idx, a1)). auto.
        - intros s0 a0 s' a' Hin'. apply in_app_iff in Hin'. destruct Hin' as [Hin'|[Eq|[]]].
          + destruct (HP _ _ _ _ Hin'); auto.
          + inversion Eq; subst. auto. }
      destruct (dmem Nat.eqb cols s) eqn:Ed.
      + apply (dmem_true Nat.eqb Nat.eqb_spec) in Ed. apply (dget_Some_key Nat.eqb Nat.eqb_spec) in Ed. destruct Ed as [idx Ed].
        rewrite Ed. cbn [of_opt bind]. pose proof (dget_In Nat.eqb Nat.eqb_spec _ _ _ Ed) as Hin.
        destruct (Main cols idx) as [M1 M2]; auto.
        { intros s1 v Hv Ev; subst. pose proof (In_binv Nat.eqb Nat.eqb_spec _ _ _ BC Hv). pose proof (In_binv Nat.eqb Nat.eqb_spec _ _ _ BC Hin). congruence. }
        rewrite M1. cbn [bind]. rewrite (bput_same _ _ Nat.eqb Nat.eqb Nat.eqb_spec Nat.eqb_spec _ _ _ BC Hin). cbn [bind].
        eexists. split; [reflexivity|]. cbn [num_inv]. rewrite Hk.
        split; [auto|]. split; [auto|]. split; [auto|]. split; [auto|]. split; [rewrite map_app, HR; auto|]. split; [auto|].
        split; [|rewrite map_app; apply NoDup_snoc_iff; auto].
        intros s0 Hs0. destruct (HC _ Hs0) as [a0 Ha0]. exists a0. apply in_app_iff; auto.
      + assert (Ed' : ~ In s (map fst cols)). { intros Hin. apply (dmem_true Nat.eqb Nat.eqb_spec) in Hin. congruence. }
        rewrite (dset_fresh Nat.eqb Nat.eqb_spec) by auto.
        assert (NV : ~ In (length cols) (map snd cols)). { rewrite HS. intros Hin. apply in_seq in Hin. lia. }
        assert (BC' : bid_ok (cols ++ [(s, length cols)])) by (apply bid_snoc; auto).
        assert (Hin : In (s, length cols) (cols ++ [(s, length cols)])) by (rewrite in_app_iff; simpl; auto).
        rewrite (In_dget Nat.eqb Nat.eqb_spec _ _ _ (proj1 BC') Hin). cbn [of_opt bind].
        destruct (Main (cols ++ [(s, length cols)]) (length cols)) as [M1 M2]; auto.
        { intros x Hx. apply in_app_iff; auto. }
        { intros s1 v Hv Ev; subst. exfalso. apply NV. apply in_map_iff. eexists; split; [|eauto]. auto. }
        rewrite M1. cbn [bind]. rewrite (bput_fresh _ _ Nat.eqb Nat.eqb Nat.eqb_spec Nat.eqb_spec) by auto. cbn [bind].
        eexists. split; [reflexivity|]. cbn [num_inv]. rewrite Hk, app_length. simpl.
        split; [auto|]. split; [lia|]. split. { rewrite map_app, HS. simpl. rewrite Nat.add_1_r. rewrite seq_S. auto. }
        split; [apply BC'|]. split; [rewrite map_app, HR; auto|]. split; [auto|]. split; [|rewrite map_app; apply NoDup_snoc_iff; auto].
        intros s0 Hs0. rewrite map_app, in_app_iff in Hs0. destruct Hs0 as [Hs0|[Hs0|[]]].
        * destruct (HC _ Hs0) as [a0 Ha0]. exists a0. apply in_app_iff; auto.
        * simpl in Hs0. subst s0. exists a. apply in_app_iff; simpl; auto.
    - rewrite E. destruct st as (((rim, next), rows), cols). cbn [bind]. exists rows, cols. split; auto.
      pose proof HI as HI'. cbn [num_inv] in HI'. destruct HI' as (-> & -> & _). exact HI.
  Qed.
End Num.
