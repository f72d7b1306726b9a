(** Subsystems: the constructor's arguments, the resulting form, masks. *)
From Coq Require Import String List Arith ZArith QArith Bool Lia.
From Coq Require Lqa.
From Verif Require Import Base BaseFacts Num Matrix MatFacts InvDict InvDictProofs Graph GraphSpec GraphProofs Mec MecProofs SpecMdp SpecSystem SpecForm SpecBuilt
  Amdp AmdpProofs ReachForm ReachFormProofs RfFacts BuiltFacts Reduce ReduceProofs1 ReduceProofs3 Subsystem SpecSub SubProofs1.
Import ListNotations.
Local Open Scope nat_scope.

Lemma mk_kind_inv : forall k P idx sl rew m', good_args P idx [] sl -> mk_kind k P idx [] sl rew = Ok m' ->
  constructed m' /\ a_kind m' = k /\ a_P m' = P /\ a_idx m' = idx /\ fwd (a_slab m') = sl /\ fwd (a_alab m') = [].
Proof.
  intros k P idx sl rew m' G H. destruct k; simpl in H.
  - split; [exists P, idx, [], sl, rew; auto|]. unfold mk_mdp in H. apply mk_abstract_inv in H; [|apply G]. destruct H as (A & B & C & _ & D & E & _). rewrite D, E. auto.
  - split; [exists P, idx, [], sl, rew; auto|]. unfold mk_dtmc in H. apply bind_ok in H. destruct H as (u & _ & H). apply bind_ok in H. destruct H as (d & E & H).
    apply bind_ok in E. destruct E as (u' & _ & E). inversion E; subst d. apply mk_abstract_inv in H; [|apply G]. destruct H as (A & B & C & _ & D & F & _). rewrite D, F. auto.
Qed.

Lemma sum_to_two : forall n f, (sum_to (n + 2) f == sum_to n f + f n + f (S n))%Q.
Proof. intros n f. unfold sum_to. replace (n + 2) with (S (S n)) by lia. rewrite seq_S, map_app, sumQ_app, seq_S, map_app, sumQ_app. simpl. Lqa.lra. Qed.
Lemma sum_to_zero : forall n f, (forall x, x < n -> (f x == 0)%Q) -> (sum_to n f == 0)%Q.
Proof.
  intros n f H. unfold sum_to. assert (G : forall l, (forall x, In x l -> x < n) -> (sumQ (map f l) == 0)%Q).
  { induction l as [|x l IH]; intros HL; simpl; [reflexivity|]. rewrite IH by (intros; apply HL; simpl; auto). rewrite H by (apply HL; simpl; auto). reflexivity. }
  apply G. intros x Hx. apply in_seq in Hx. lia.
Qed.
Lemma sum_to_le : forall n f g, (forall x, x < n -> (f x <= g x)%Q) -> (sum_to n f <= sum_to n g)%Q.
Proof.
  intros n f g H. unfold sum_to. assert (G : forall l, (forall x, In x l -> x < n) -> (sumQ (map f l) <= sumQ (map g l))%Q).
  { induction l as [|x l IH]; intros HL; simpl; [Lqa.lra|]. pose proof (H x (HL x (or_introl eq_refl))). specialize (IH (fun y Hy => HL y (or_intror Hy))). Lqa.lra. }
  apply G. intros x Hx. apply in_seq in Hx. lia.
Qed.
Lemma sum_to_ge : forall n f x, (forall x, x < n -> (0 <= f x)%Q) -> x < n -> (f x <= sum_to n f)%Q.
Proof.
  intros n f x H Hx. assert (E : (f x == sum_to n (fun d => if x =? d then f d else 0%Q))%Q).
  { unfold sum_to. rewrite (sumQ_ext _ _ (fun d => (if d =? x then f x else 0) + 0)%Q). 
    - rewrite sumQ_seq_single by auto. assert (Z : (sumQ (map (fun _ : nat => 0%Q) (seq 0 n)) == 0)%Q) by (apply (sum_to_zero n (fun _ => 0%Q)); reflexivity). rewrite Z. ring.
    - intros d _. rewrite (Nat.eqb_sym d x). destruct (Nat.eqb_spec x d); [subst|]; ring. }
  rewrite E. apply sum_to_le. intros d Hd. destruct (x =? d); [Lqa.lra|auto].
Qed.

Section Ind.
  Variable rf : rform.
  Hypothesis BF : built_form rf.
  Let m := rf_sys rf.
  Let n := a_N m - 2.
  Let c := a_C m - 2.
  Variable keep : nat -> bool.
  Let ST := kept_states m keep.
  Let RW := kept_rows m keep.
  Let nN := length ST.
  Let nC := length RW.
  Variables (P : mat) (index : dict (nat * nat) nat) (sl : dict string (list nat)).
  Hypothesis F : filled rf keep P index sl.

  Let Snth := S_nth rf keep : forall x s, nth_error ST x = Some s -> x < nN /\ s < n /\ keep s = true.
  Let Rnth := R_nth rf BF keep : forall j i, nth_error RW j = Some i -> j < nC /\ i < c /\ exists s a, a_inv m i = Some (s, a) /\ s < n /\ keep s = true.
  Let OK := co_ok rf BF : sys_ok m.

  Lemma row_at : forall j, j < nC -> exists i s a x, nth_error RW j = Some i /\ a_inv m i = Some (s, a) /\ nth_error ST x = Some s.
  Proof.
    intros j Hj. destruct (nth_error RW j) as [i|] eqn:E. 2:{ apply nth_error_None in E. unfold nC in Hj. lia. }
    destruct (Rnth j i E) as (_ & Hi & s & a & Es & Hs & Hk). destruct (S_pos rf keep s Hs Hk) as (x & Ex & _). exists i, s, a, x. auto.
  Qed.

  Lemma filled_exact : exact_rows P.
  Proof.
    intros j Hj. rewrite (fi_rows _ _ _ _ _ F) in Hj. change (j < nC + 2) in Hj. unfold row_total. rewrite (fi_cols _ _ _ _ _ F). change (length (kept_states (rf_sys rf) keep)) with nN.
    change (sum_to (nN + 2) (mget P j) == 1)%Q. rewrite sum_to_two.
    destruct (Nat.lt_ge_cases j nC) as [L|L].
    - destruct (row_at j L) as (i & s & a & x & Ej & _). pose proof (fi_fail _ _ _ _ _ F j i Ej) as EF. pose proof (fi_target _ _ _ _ _ F j i Ej) as ET.
      change (mget P j nN == mget (a_P m) i n)%Q in ET. change (mget P j (S nN) == 1 - (mget (a_P m) i n + sum_to nN (mget P j)))%Q in EF. rewrite EF, ET. ring.
    - rewrite sum_to_zero.
      + rewrite !(fi_last _ _ _ _ _ F) by auto. change (length (kept_states (rf_sys rf) keep)) with nN. change (length (kept_rows (rf_sys rf) keep)) with nC.
        assert (j = nC \/ j = 1 + nC) as [-> | ->] by lia.
        * rewrite !Nat.eqb_refl. destruct (Nat.eqb_spec nC (1 + nC)); [lia|]. destruct (Nat.eqb_spec (S nN) nN); [lia|]. simpl. reflexivity.
        * destruct (Nat.eqb_spec (1 + nC) nC); [lia|]. rewrite !Nat.eqb_refl. destruct (Nat.eqb_spec nN (1 + nN)); [lia|]. simpl. reflexivity.
      + intros x Hx. rewrite (fi_last _ _ _ _ _ F) by auto. change (length (kept_states (rf_sys rf) keep)) with nN.
        destruct (Nat.eqb_spec x nN); [lia|]. destruct (Nat.eqb_spec x (1 + nN)); [lia|]. rewrite !andb_false_r. reflexivity.
  Qed.

  Lemma filled_args : good_args P index [] sl.
  Proof.
    split; [apply F|]. split; [apply (fi_bid _ _ _ _ _ F)|]. split; [split; [constructor|intros ? ? []]|]. apply (fi_sets _ _ _ _ _ F).
  Qed.

  Lemma filled_inv : forall j x a, binv Nat.eqb index j = Some (x, a) <-> In ((x, a), j) index.
  Proof. intros. split; [apply (binv_In Nat.eqb Nat.eqb_spec)|apply (In_binv Nat.eqb Nat.eqb_spec)]. apply F. Qed.

  Lemma filled_induced : forall m', mk_kind (a_kind m) P index [] sl None = Ok m' ->
    constructed m' /\ induced m keep m' (rf_targetl rf) (rf_faill rf) /\ fwd (a_alab m') = [] /\
    (forall l x, has_label m' l x -> x <= S nN).
  Proof.
    intros m' H. apply mk_kind_inv in H; [|apply filled_args]. destruct H as (HC & HK & HP & HI & HL & HA). split; [auto|].
    assert (EN : a_N m' = nN + 2) by (unfold a_N; rewrite HP; apply (fi_cols _ _ _ _ _ F)).
    assert (EC : a_C m' = nC + 2) by (unfold a_C; rewrite HP; apply (fi_rows _ _ _ _ _ F)).
    assert (EL : forall l x, has_label m' l x <-> has String.eqb sl l x). { intros l x. unfold has_label, states_by_label. rewrite HL. symmetry. apply has_get. }
    destruct (co_form rf BF) as ((D1 & D2 & D3) & HN2 & _ & _ & LI & LT & LF & _). fold m in LT, LF, LI, HN2. change (mcols (a_P m)) with (a_N m) in *.
    split; [|split; [auto|]].
    - constructor; auto.
      + intros j i s a Ej Es. destruct (Rnth j i Ej) as (_ & _ & s' & a' & Es' & Hs & Hk). fold m in Es'. rewrite Es in Es'. inversion Es'; subst s' a'.
        destruct (S_pos rf keep s Hs Hk) as (x & Ex & _). exists x. split; [exact Ex|]. unfold a_inv. rewrite HI. apply filled_inv. apply (fi_index _ _ _ _ _ F). left. exists i, s. auto.
      + rewrite EC, EN. unfold a_inv. rewrite HI. apply filled_inv. apply (fi_index _ _ _ _ _ F). right. right. split; [unfold nN, ST, m; lia|]. split; auto. unfold nC, RW, m. lia.
      + rewrite EC, EN. unfold a_inv. rewrite HI. apply filled_inv. apply (fi_index _ _ _ _ _ F). right. left. split; [unfold nN, ST, m; lia|]. split; auto. unfold nC, RW, m. lia.
      + rewrite HP. intros. eapply (fi_prob _ _ _ _ _ F); eauto.
      + rewrite HP, EN. intros j i Ej. replace (nN + 2 - 2) with nN by lia. apply (fi_target _ _ _ _ _ F j i Ej).
      + rewrite HP, EN, EC. rewrite (fi_last _ _ _ _ _ F); change (length (kept_states (rf_sys rf) keep)) with nN; change (length (kept_rows (rf_sys rf) keep)) with nC; [|lia].
        replace (nN + 2 - 2) with nN by lia. replace (nC + 2 - 2) with nC by lia. rewrite !Nat.eqb_refl. reflexivity.
      + rewrite HP, EN, EC. rewrite (fi_last _ _ _ _ _ F); change (length (kept_states (rf_sys rf) keep)) with nN; change (length (kept_rows (rf_sys rf) keep)) with nC; [|lia].
        replace (nN + 2 - 1) with (1 + nN) by lia. replace (nC + 2 - 1) with (1 + nC) by lia. rewrite !Nat.eqb_refl, orb_true_r. reflexivity.
      + rewrite HP. apply filled_exact.
      + intros x s l Ex. destruct (Snth x s Ex) as (Hx & Hs & _). rewrite EL, (fi_labels _ _ _ _ _ F). change (length (kept_states (rf_sys rf) keep)) with nN. split.
        * intros [[_ E]|[(_ & _ & E)|(_ & _ & s' & E & Hl)]]; [lia|lia|]. change (nth_error (kept_states m keep) x = Some s') in E. rewrite Ex in E. inversion E; subst s'. exact Hl.
        * intros Hl. right. right. split; [intros ->; apply LF in Hl; unfold n in Hs; lia|]. split; [intros ->; apply LT in Hl; unfold n in Hs; lia|]. exists s. auto.
      + intros x. rewrite EL, (fi_labels _ _ _ _ _ F), EN. change (length (kept_states (rf_sys rf) keep)) with nN. split.
        * intros [[E _]|[(_ & _ & E)|(_ & E & _)]]; [congruence|lia|congruence].
        * intros ->. right. left. split; [auto|]. split; [auto|lia].
      + intros x. rewrite EL, (fi_labels _ _ _ _ _ F), EN. change (length (kept_states (rf_sys rf) keep)) with nN. split.
        * intros [[_ E]|[(E & _)|(E & _)]]; [lia|congruence|congruence].
        * intros ->. left. split; auto. lia.
    - intros l x Hl. apply EL in Hl. apply (fi_labels _ _ _ _ _ F) in Hl. change (length (kept_states (rf_sys rf) keep)) with nN in Hl.
      destruct Hl as [[_ E]|[(_ & _ & E)|(_ & _ & s' & E & _)]]; [lia|lia|]. apply Snth in E. lia.
  Qed.

  Lemma old_pos : forall i d, (0 <= mget (a_P m) i d)%Q.
  Proof.
    intros i d. unfold mget. destruct (dget pair_eqb (mitems (a_P m)) (i, d)) eqn:E; [|Lqa.lra].
    apply (dget_In pair_eqb pair_eqbP) in E. destruct OK as (_ & _ & (_ & _ & V & _) & _). apply V in E. apply E.
  Qed.

  Lemma dtmc_same : a_kind m = KDtmc -> nC = nN.
  Proof.
    intros HK. destruct (built_facts m (co_built rf BF)) as (_ & _ & KD). destruct (KD HK) as (_ & KA & _).
    assert (K0 : forall i s a, a_inv m i = Some (s, a) -> a = 0). { intros i s a E. apply (binv_In Nat.eqb Nat.eqb_spec) in E. eapply KA; eauto. }
    assert (SRC : forall i, In i RW -> exists s, a_inv m i = Some (s, 0) /\ row_src m i = s /\ In s ST).
    { intros i Hi. apply In_nth_error in Hi. destruct Hi as (j & Ej). destruct (Rnth j i Ej) as (_ & _ & s & a & Es & Hs & Hk). exists s.
      rewrite <- (K0 _ _ _ Es). split; [exact Es|]. split; [apply (co_row_src rf _ _ _ Es)|]. apply (S_In rf keep). auto. }
    assert (ND : NoDup (map (row_src m) RW)).
    { pose proof (R_nodup rf keep) as ND. fold m in ND. fold RW in ND. revert SRC. clear - ND OK. induction ND as [|i l Hi ND IH]; intros SRC; simpl; constructor.
      - intros Hin. apply in_map_iff in Hin. destruct Hin as (i' & E & Hin). destruct (SRC i) as (s & E1 & E2 & _); [left; auto|]. destruct (SRC i') as (s' & E3 & E4 & _); [right; auto|].
        assert (EQ : s' = s) by congruence. clear E2 E4 E. subst s'. rewrite (inv_inj m OK _ _ _ E3 E1) in Hin. auto.
      - apply IH. intros i' H'. apply SRC. right; auto. }
    apply Nat.le_antisymm.
    - unfold nC, nN. rewrite <- (map_length (row_src m) RW). apply NoDup_incl_length; [auto|]. intros s Hs. apply in_map_iff in Hs. destruct Hs as (i & <- & Hi).
      destruct (SRC i Hi) as (s & _ & -> & H). auto.
    - unfold nC, nN. rewrite <- (map_length (row_src m) RW). apply NoDup_incl_length; [apply (S_nodup rf keep)|]. intros s Hs. apply (S_In rf keep) in Hs. destruct Hs as [Hs Hk].
      change (s < n) in Hs. destruct (form_states_act rf (rf_init rf) (co_form rf BF) s) as (a & d & i & p & Hin & E). { change (mcols (a_P (rf_sys rf))) with (a_N m). unfold n in Hs. lia. }
      apply in_map_iff. exists i. split; [apply (co_row_src rf _ _ _ E)|]. apply (R_In rf keep). change (a_C (rf_sys rf) - 2) with c. rewrite (co_row_src rf _ _ _ E). split; [|exact Hk].
      destruct (Nat.lt_ge_cases i c) as [|L]; auto. assert (Hi : i < a_C m) by (apply (entry_indexed m OK i d p Hin)).
      pose proof (co_rows_last rf BF keep i s a Hi L E) as HL. change (n <= s) in HL. lia.
  Qed.

  Lemma filled_exists : exact_rows (a_P m) -> exists m', mk_kind (a_kind m) P index [] sl None = Ok m'.
  Proof.
    intros EX. pose proof (fi_wf _ _ _ _ _ F) as WF.
    assert (KS : forall j i, nth_error RW j = Some i -> (mget (a_P m) i n + sum_to nN (mget P j) <= 1)%Q).
    { intros j i Ej. destruct (Rnth j i Ej) as (_ & Hi & _). specialize (EX i). unfold row_total in EX. change (mrows (a_P m)) with (a_C m) in EX.
      rewrite <- EX by (unfold c in Hi; lia). change (mcols (a_P m)) with (a_N m). pose proof (ro_N rf (co_ro rf BF)) as HN. fold m in HN. replace (a_N m) with (n + 2) by (unfold n; lia).
      fold (sum_to (n + 2) (mget (a_P m) i)). rewrite sum_to_two. pose proof (old_pos i (S n)).
      assert (E1 : (sum_to nN (mget P j) == sumQ (map (mget (a_P m) i) ST))%Q).
      { apply sum_nth. intros x s Ex. rewrite (fi_prob _ _ _ _ _ F j i x s Ej Ex). reflexivity. }
      assert (E2 : (sumQ (map (mget (a_P m) i) ST) <= sum_to n (mget (a_P m) i))%Q).
      { unfold ST, kept_states. rewrite sum_filter. apply (sum_to_le n). intros d _. destruct (keep d); [Lqa.lra|apply old_pos]. }
      Lqa.lra. }
    assert (POS : forall j x, (0 <= mget P j x)%Q).
    { intros j x. destruct (Nat.lt_ge_cases j nC) as [L|L].
      - destruct (row_at j L) as (i & s & a & y & Ej & _). destruct (Nat.lt_ge_cases x nN) as [Lx|Lx].
        + destruct (nth_error ST x) as [s0|] eqn:Ex. 2:{ apply nth_error_None in Ex. unfold nN in Lx. lia. } rewrite (fi_prob _ _ _ _ _ F j i x s0 Ej Ex). apply old_pos.
        + destruct (Nat.eq_dec x nN) as [->|]. { pose proof (fi_target _ _ _ _ _ F j i Ej) as ET. change (mget P j nN == mget (a_P m) i n)%Q in ET. rewrite ET. apply old_pos. }
          destruct (Nat.eq_dec x (1 + nN)) as [->|]. { pose proof (fi_fail _ _ _ _ _ F j i Ej) as ET. change (mget P j (1 + nN) == 1 - (mget (a_P m) i n + sum_to nN (mget P j)))%Q in ET. rewrite ET. specialize (KS j i Ej). Lqa.lra. }
          rewrite mget_none; [Lqa.lra|]. intros p Hp. apply WF in Hp. destruct Hp as (_ & Hp & _). rewrite (fi_cols _ _ _ _ _ F) in Hp. change (x < nN + 2) in Hp. lia.
      - rewrite (fi_last _ _ _ _ _ F) by auto. destruct (_ || _); Lqa.lra. }
    assert (V : valid_system P index None).
    { split; [apply F|]. split; [|split; [|split]].
      - intros j Hj. unfold near_one. rewrite (filled_exact j Hj). setoid_replace (1 - 1)%Q with 0%Q by ring. simpl. unfold Qle; simpl; lia.
      - intros j x p Hin. rewrite <- (mget_In P j x p WF Hin). split; [apply POS|]. pose proof (proj2 WF _ _ _ Hin) as (Hj & Hx & _).
        rewrite <- (filled_exact j Hj). apply (sum_to_ge (mcols P) (mget P j) x); auto.
      - discriminate.
      - intros j x p Hin. pose proof (proj2 WF _ _ _ Hin) as (Hj & Hx & _). rewrite (fi_cols _ _ _ _ _ F) in *. rewrite (fi_rows _ _ _ _ _ F) in Hj.
        change (length (kept_states (rf_sys rf) keep)) with nN in *. change (length (kept_rows (rf_sys rf) keep)) with nC in *.
        destruct (Nat.lt_ge_cases j nC) as [L|L].
        + destruct (row_at j L) as (i & s & a & y & Ej & Es & Ey). exists y, a. split; [apply (fi_index _ _ _ _ _ F); left; exists i, s; auto|]. apply Snth in Ey. lia.
        + assert (j = nC \/ j = 1 + nC) as [-> | ->] by lia.
          * exists nN, 0. split; [apply (fi_index _ _ _ _ _ F); right; right; auto|lia].
          * exists (1 + nN), 0. split; [apply (fi_index _ _ _ _ _ F); right; left; auto|lia]. }
    destruct (a_kind m) eqn:EK.
    - apply (C10_mdp_lemma P index [] sl None WF); [apply F|exact V].
    - apply (C10_dtmc_lemma P (Some index) sl None WF); [intros d E; inversion E; subst; apply F|]. split.
      + rewrite (fi_cols _ _ _ _ _ F), (fi_rows _ _ _ _ _ F). pose proof (dtmc_same EK) as E. unfold nC, nN, RW, ST, m in E. lia.
      + split; [exact V|]. intros x a j Hin. apply (fi_index _ _ _ _ _ F) in Hin. destruct Hin as [(i & s & _ & Es & _)|[(_ & -> & _)|(_ & -> & _)]]; auto.
        destruct (built_facts m (co_built rf BF)) as (_ & _ & KD). destruct (KD EK) as (_ & KA & _). apply (binv_In Nat.eqb Nat.eqb_spec) in Es. eapply KA; eauto.
  Qed.
End Ind.

(** ** The mask *)
Lemma Qlt_positive : forall q, Qlt_bool 0 q = positive q.
Proof. reflexivity. Qed.

Lemma mask_ok : forall rf cert form ign sub, built_form rf -> mk_subsystem rf cert form ign = Ok sub ->
  sub = MkSub rf cert form ign /\ exists mask, subsystem_mask sub = Ok mask /\
  forall s, s < a_N (rf_sys rf) - 2 -> nth_error mask s = Some (chosen (rf_sys rf) form cert s).
Proof.
  intros rf cert form ign sub BF H. unfold mk_subsystem in H. apply bind_ok in H. destruct H as (u1 & A1 & H). apply bind_ok in H. destruct H as (u2 & A2 & H).
  apply bind_ok in H. destruct H as (u3 & A3 & H). inversion H; subst sub. clear H. split; [auto|]. apply assert_ok in A1, A2, A3.
  unfold subsystem_mask. cbn [sub_form sub_cert sub_super]. destruct form; [| |discriminate].
  - apply Nat.eqb_eq in A3. eexists. split; [reflexivity|]. intros s Hs. rewrite nth_error_map. unfold chosen. unfold entry.
    destruct (nth_error cert s) eqn:E; [|apply nth_error_None in E; lia]. simpl. rewrite (nth_error_nth _ _ _ E). auto.
  - apply Nat.eqb_eq in A2. set (m := rf_sys rf) in *.
    match goal with |- exists mask, foldM ?f _ _ = _ /\ _ =>
      destruct (foldM_ok _ _ f (fun pre mask => length mask = a_N m - 2 /\ forall s, s < a_N m - 2 ->
        nth s mask false = existsb (fun i => belongs (a_inv m) i s && positive (entry cert i)) pre) (seq 0 (a_C m - 2)) (repeat false (a_N m - 2))) as (mask & E & H1 & H2) end.
    + split; [apply repeat_length|]. intros s Hs. simpl. destruct (nth_in_or_default s (repeat false (a_N m - 2)) false) as [Hin|E]; auto. apply repeat_spec in Hin. auto.
    + intros pre i mask (HL & HM) Hp. pose proof (prefix_in _ _ _ _ Hp) as Hi. apply in_seq in Hi.
      destruct (nth_error cert i) as [q|] eqn:E. 2:{ apply nth_error_None in E. lia. } cbn [of_opt bind].
      assert (Eq : entry cert i = q) by (apply nth_error_nth; auto).
      destruct (co_row rf BF i) as (s & a & Es & Hs); [fold m; lia|]. fold m in Es, Hs.
      assert (X : forall s', existsb (fun i0 => belongs (a_inv m) i0 s' && positive (entry cert i0)) (pre ++ [i]) =
        existsb (fun i0 => belongs (a_inv m) i0 s' && positive (entry cert i0)) pre || ((s =? s') && positive q)).
      { intros s'. rewrite existsb_app. simpl. unfold belongs at 2. rewrite Es, Eq, orb_false_r. auto. }
      rewrite Qlt_positive. destruct (positive q) eqn:EP.
      * rewrite Es. cbn [of_opt bind]. destruct (Nat.ltb_spec s (length mask)); [|lia]. eexists. split; [reflexivity|]. split; [rewrite upd_length; auto|].
        intros s' Hs'. rewrite X, nth_upd, <- HM by auto. destruct (Nat.ltb_spec s (length mask)); [|lia]. rewrite !andb_true_r. destruct (s =? s'); [rewrite orb_true_r|rewrite orb_false_r]; auto.
      * eexists. split; [reflexivity|]. split; [auto|]. intros s' Hs'. rewrite X, <- HM by auto. rewrite andb_false_r, orb_false_r. auto.
    + exists mask. split; [exact E|]. intros s Hs. unfold chosen. fold m. rewrite <- H2 by auto. apply nth_error_nth'. lia.
Qed.

(** ** The materialised subsystem *)
Lemma subsys_ok : forall rnd rf cert form ign sub, built_form rf -> mk_subsystem rf cert form ign = Ok sub ->
  exists P index sl, filled rf (chosen (rf_sys rf) form cert) P index sl /\
    subsys rnd sub = (let* model := mk_kind (a_kind (rf_sys rf)) P index [] sl None in mk_rf rnd model (rf_initl rf) (rf_targetl rf) (rf_faill rf) ign).
Proof.
  intros rnd rf cert form ign sub BF H. destruct (mask_ok _ _ _ _ _ BF H) as (-> & mask & EM & HM).
  apply (subsys_core rf BF (chosen (rf_sys rf) form cert) mask HM rnd cert form ign EM).
Qed.

Lemma init_found : forall rf keep m' il, in_reach_form (a_P (rf_sys rf)) (a_inv (rf_sys rf)) (has_label (rf_sys rf)) (rf_init rf) il (rf_targetl rf) (rf_faill rf) ->
  induced (rf_sys rf) keep m' (rf_targetl rf) (rf_faill rf) -> (forall l x, has_label m' l x -> x < length (kept_states (rf_sys rf) keep) \/ l = rf_targetl rf \/ l = rf_faill rf) ->
  forall x, has_label m' il x <-> nth_error (kept_states (rf_sys rf) keep) x = Some (rf_init rf).
Proof.
  intros rf keep m' il HF HI HB x. destruct HF as ((D1 & D2 & D3) & _ & _ & _ & LI & _). split.
  - intros Hl. destruct (HB _ _ Hl) as [Hx|[E|E]]; [|congruence|congruence]. destruct (nth_error (kept_states (rf_sys rf) keep) x) as [s|] eqn:Ex; [|apply nth_error_None in Ex; lia].
    apply (in_labels _ _ _ _ _ HI x s il Ex) in Hl. apply LI in Hl. congruence.
  - intros Ex. apply (in_labels _ _ _ _ _ HI x _ il Ex). apply LI. auto.
Qed.

Record materialised (rf : rform) (form : mode) (cert : list Q) (rf' : rform) : Prop := {
  ma_induced : induced (rf_sys rf) (chosen (rf_sys rf) form cert) (rf_sys rf') (rf_targetl rf) (rf_faill rf);
  ma_init : nth_error (kept_states (rf_sys rf) (chosen (rf_sys rf) form cert)) (rf_init rf') = Some (rf_init rf);
  ma_cons : constructed (rf_sys rf');
  ma_any : built_any rf';
  ma_alab : forall l, actions_by_label (rf_sys rf') l = [] }.

Lemma subsys_materialised : forall rnd rf cert form ign sub rf', built_form rf -> mk_subsystem rf cert form ign = Ok sub -> subsys rnd sub = Ok rf' ->
  materialised rf form cert rf' /\ (ign = false -> built_form rf').
Proof.
  intros rnd rf cert form ign sub rf' BF H HS. destruct (subsys_ok rnd _ _ _ _ _ BF H) as (P & index & sl & F & E). rewrite E in HS. clear E.
  apply bind_ok in HS. destruct HS as (m' & Em & HS). pose proof Em as Em0. apply (filled_induced rf BF _ _ _ _ F) in Em. destruct Em as (HC & HI & HA & HB).
  pose proof (built_new _ HC) as HBu. pose proof (mk_rf_ok _ _ _ _ _ _ _ (built_ok _ HBu) HS) as (RO & E1 & E2 & E3 & E4 & _).
  assert (INIT : forall x, has_label m' (rf_initl rf) x <-> nth_error (kept_states (rf_sys rf) (chosen (rf_sys rf) form cert)) x = Some (rf_init rf)).
  { apply init_found; [apply co_form; auto|auto|]. intros l x Hl.
    apply (mk_kind_inv _ _ _ _ _ _ (filled_args rf _ _ _ _ F)) in Em0. destruct Em0 as (_ & _ & _ & _ & EL & _).
    unfold has_label, states_by_label in Hl. rewrite EL in Hl. apply has_get in Hl. apply (fi_labels _ _ _ _ _ F) in Hl. destruct Hl as [[-> _]|[(_ & -> & _)|(_ & _ & s & Ex & _)]]; auto.
    left. apply nth_error_Some. congruence. }
  split; [constructor|].
  - rewrite E1. auto.
  - apply INIT. rewrite <- E1, <- E2. apply RO.
  - rewrite E1. auto.
  - exists rnd, m', (rf_initl rf), (rf_targetl rf), (rf_faill rf), ign. auto.
  - intros l. unfold actions_by_label. rewrite E1, HA. auto.
  - intros ->. exists rnd, m', (rf_initl rf), (rf_targetl rf), (rf_faill rf). auto.
Qed.

(** With the consistency check switched off the subsystem always exists if the
    initial state is chosen. *)
Lemma mk_rf_ignore : forall rnd m il tl fl, sys_ok m -> 2 <= a_C m -> 2 <= a_N m -> (exists s, has_label m il s) ->
  (forall i s a, i < a_C m - 2 -> a_inv m i = Some (s, a) -> s < a_N m - 2) -> exists rf, mk_rf rnd m il tl fl true = Ok rf.
Proof.
  intros rnd m il tl fl HO HC HN (s0 & HL) HR. unfold mk_rf. cbn [bind]. unfold has_label in HL. destruct (states_by_label m il) as [|x rest]; [contradiction|].
  destruct (Nat.ltb_spec (a_C m) 2); [lia|]. destruct (Nat.ltb_spec (a_N m) 2); [lia|].
  destruct (row_idx m HO (a_C m - 2)) as (s1 & a1 & E1 & _); [unfold a_C in *; lia|]. destruct (row_idx m HO (a_C m - 1)) as (s2 & a2 & E2 & _); [unfold a_C in *; lia|].
  destruct (bdel_inv_some (a_idx m) _ _ E1) as (idx1 & D1). rewrite D1. cbn [bind].
  destruct (bdel_inv_ok _ _ _ (ok_bid m HO) D1) as (B1 & _ & N1 & O1).
  destruct (bdel_inv_some idx1 (a_C m - 1) (s2, a2)) as (idx2 & D2). { rewrite O1 by lia. exact E2. }
  rewrite D2. cbn [bind]. destruct (bdel_inv_ok _ _ _ B1 D2) as (B2 & _ & N2 & O2).
  destruct (mapM_total _ _ (A_row (a_P m) (a_N m - 2) (binv Nat.eqb idx2)) (seq 0 (a_C m - 2))) as (A & HA).
  { intros i Hi. apply in_seq in Hi. unfold A_row. rewrite O2, O1 by lia. destruct (row_idx m HO i) as (s & a & E & Hs); [unfold a_C in *; lia|].
    change (binv Nat.eqb (a_idx m) i) with (a_inv m i). rewrite E. cbn [of_opt bind]. destruct (Nat.ltb_spec s (a_N m - 2)); [eauto|].
    assert (s < a_N m - 2) by (eapply HR; [|eauto]; lia). lia. }
  rewrite HA. cbn [bind].
  destruct (C08_lemma _ _ _ (ok_graph m HO)) with (rnd := rnd) as (comp & proper & k & EM & _); [unfold a_N in *; lia|].
  unfold a_mecs. rewrite EM. cbn [bind]. eauto.
Qed.

Lemma subsys_exists : forall rnd rf cert form sub, built_form rf -> exact_rows (a_P (rf_sys rf)) -> mk_subsystem rf cert form true = Ok sub ->
  rf_init rf < a_N (rf_sys rf) - 2 -> chosen (rf_sys rf) form cert (rf_init rf) = true -> exists rf', subsys rnd sub = Ok rf'.
Proof.
  intros rnd rf cert form sub BF EX H Hi HK. destruct (subsys_ok rnd _ _ _ _ _ BF H) as (P & index & sl & F & E). rewrite E. clear E.
  destruct (filled_exists rf BF _ _ _ _ F EX) as (m' & Em). rewrite Em. cbn [bind]. 
  pose proof Em as Em0. apply (filled_induced rf BF _ _ _ _ F) in Em. destruct Em as (HC & HI & HA & HB).
  apply mk_rf_ignore.
  - apply built_ok. apply built_new. auto.
  - rewrite (in_C _ _ _ _ _ HI). lia.
  - rewrite (in_N _ _ _ _ _ HI). lia.
  - destruct (S_pos rf _ _ Hi HK) as (x & Ex & _). exists x. apply (in_labels _ _ _ _ _ HI x _ _ Ex). apply (co_form rf BF). auto.
  - intros j x a Hj Ex. rewrite (in_C _ _ _ _ _ HI) in Hj. rewrite (in_N _ _ _ _ _ HI).
    destruct (row_at rf BF (chosen (rf_sys rf) form cert) j) as (i & s & a' & y & Ej & Es & _); [lia|].
    destruct (in_row _ _ _ _ _ HI j i s a' Ej Es) as (y' & Ey & Ey'). rewrite Ex in Ey'. inversion Ey'; subst.
    assert (y' < length (kept_states (rf_sys rf) (chosen (rf_sys rf) form cert))) by (apply nth_error_Some; congruence). lia.
Qed.
