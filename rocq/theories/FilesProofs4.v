(** Proofs about reading and writing: systems. *)
From Coq Require Import String List Arith NArith ZArith QArith Qabs Qround Bool Ascii Lia.
From Coq Require Lqa.
From Verif Require Import Base BaseFacts Num Matrix MatFacts InvDict SpecSystem SpecBuilt SpecFiles Amdp AmdpProofs ReachFormProofs BuiltFacts Files FilesProofs FilesProofs2 FilesProofs3.
Import ListNotations.
Local Open Scope nat_scope.

(** ** Rounding to six decimals *)
Lemma qround_near : forall q, (Qabs (q - inject_Z (qround q)) <= 1 # 2)%Q.
Proof.
  intros q. unfold qround. pose proof (Qfloor_le q) as A. pose proof (Qlt_floor q) as B. rewrite inject_Z_plus in B. change (inject_Z 1) with 1%Q in B.
  destruct (Qle_bool (q - inject_Z (Qfloor q)) (1 # 2)) eqn:E1.
  - apply Qle_bool_iff in E1. destruct (Qle_bool (1 # 2) (q - inject_Z (Qfloor q))) eqn:E2.
    + apply Qle_bool_iff in E2. destruct (Z.even (Qfloor q)); apply Qabs_Qle_condition; rewrite ?inject_Z_plus; change (inject_Z 1) with 1%Q; split; Lqa.lra.
    + apply Qabs_Qle_condition. split; Lqa.lra.
  - assert (~ (q - inject_Z (Qfloor q) <= 1 # 2)%Q) by (intros X; apply Qle_bool_iff in X; congruence). apply Qabs_Qle_condition. rewrite inject_Z_plus. change (inject_Z 1) with 1%Q. split; Lqa.lra.
Qed.
Lemma qround_int : forall z, qround (inject_Z z) = z.
Proof.
  intros z. pose proof (qround_near (inject_Z z)) as H. apply Qabs_Qle_condition in H. destruct H as [H1 H2].
  unfold inject_Z, Qminus, Qplus, Qopp, Qle in *. simpl in *. lia.
Qed.
Lemma qround_ext : forall p q, (p == q)%Q -> qround p = qround q.
Proof.
  intros p q E. unfold qround. rewrite (Qfloor_comp p q E). set (f := Qfloor q).
  assert (X : Qle_bool (p - inject_Z f) (1 # 2) = Qle_bool (q - inject_Z f) (1 # 2)).
  { apply eq_true_iff_eq. rewrite !Qle_bool_iff. split; intros; Lqa.lra. }
  assert (Y : Qle_bool (1 # 2) (p - inject_Z f) = Qle_bool (1 # 2) (q - inject_Z f)).
  { apply eq_true_iff_eq. rewrite !Qle_bool_iff. split; intros; Lqa.lra. }
  rewrite X, Y. auto.
Qed.
Lemma mk6 : forall z, ((z # 1000000) == inject_Z z * (1 # 1000000))%Q.
Proof. intros z. unfold Qeq, inject_Z, Qmult. simpl. lia. Qed.
Lemma r6_near : forall q, rounded q (r6 q).
Proof.
  intros q. unfold r6. split; [eexists; reflexivity|]. pose proof (qround_near (q * inject_Z (10 ^ 6))) as H. apply Qabs_Qle_condition in H. apply Qabs_Qle_condition.
  rewrite mk6. change (inject_Z (10 ^ 6)) with 1000000%Q in *. set (z := inject_Z (qround (q * 1000000))) in *. clearbody z. split; Lqa.lra.
Qed.
Lemma r6_ext : forall p q, (p == q)%Q -> r6 p = r6 q.
Proof. intros p q E. unfold r6. f_equal. apply qround_ext. rewrite E. reflexivity. Qed.
Lemma r6_exact : forall q k, (q == k # 1000000)%Q -> (r6 q == q)%Q.
Proof.
  intros q k E. unfold r6. replace (qround (q * inject_Z (10 ^ 6))) with k; [symmetry; auto|]. symmetry. rewrite <- (qround_int k). apply qround_ext.
  rewrite E, mk6. change (inject_Z (10 ^ 6)) with 1000000%Q. field.
Qed.
Lemma r6_0 : (r6 0 == 0)%Q. Proof. reflexivity. Qed.
Lemma r6_bounds : forall q, (0 <= q)%Q -> (q <= 1)%Q -> (0 <= r6 q)%Q /\ (r6 q <= 1)%Q.
Proof.
  intros q A B. unfold r6. assert (0 <= qround (q * inject_Z (10 ^ 6)))%Z. { apply qround_nonneg. apply Qmult_le_0_compat; [auto|discriminate]. }
  assert (qround (q * inject_Z (10 ^ 6)) <= 1000000)%Z.
  { pose proof (qround_near (q * inject_Z (10 ^ 6))) as H1. apply Qabs_Qle_condition in H1. destruct H1 as [H1 _]. change (inject_Z (10 ^ 6)) with 1000000%Q in *. set (z := qround (q * 1000000)) in *. clearbody z.
    assert (H0 : (inject_Z z <= (1 # 2) + 1000000)%Q). { set (y := inject_Z z) in *. clearbody y. clear - H1 B. Lqa.lra. } clear - H0. unfold Qle, inject_Z, Qplus in H0. simpl in H0. lia. }
  set (z := qround _) in *. clearbody z. unfold Qle. simpl. lia.
Qed.

(** Sums of rounded entries. *)
Definition sum6 (m : amdp) (i : nat) : Q := sumQ (map (fun d => r6 (mget (a_P m) i d)) (seq 0 (a_N m))).
Lemma sum6_int : forall (f : nat -> Q) l, exists z, (sumQ (map (fun d => r6 (f d)) l) == z # 1000000)%Q.
Proof.
  intros f. induction l as [|x l (z & IH)]; [exists 0%Z; reflexivity|]. cbn [map]. unfold r6 at 1. cbn [sumQ fold_right]. fold (sumQ (map (fun d => r6 (f d)) l)). 
  exists (qround (f x * inject_Z (10 ^ 6)) + z)%Z. rewrite IH. set (y := qround (f x * inject_Z (10 ^ 6))). rewrite (mk6 y), (mk6 z), (mk6 (y + z)), inject_Z_plus. ring.
Qed.
Lemma near_one6 : forall m i, near_one (sum6 m i) <-> (sum6 m i == 1)%Q.
Proof.
  intros m i. unfold sum6. destruct (sum6_int (mget (a_P m) i) (seq 0 (a_N m))) as (z & E). unfold near_one. rewrite E. split.
  - intros H. apply Qabs_Qle_condition in H. destruct H as [A B]. unfold Qle, Qminus, Qplus, Qopp in A, B. simpl in A, B. assert (z = 1000000%Z) by lia. subst. reflexivity.
  - intros H. rewrite H. apply Qabs_Qle_condition. split; Lqa.lra.
Qed.

Lemma sumQ_zero : forall (f : nat -> Q) l, (forall d, In d l -> (f d == 0)%Q) -> (sumQ (map f l) == 0)%Q.
Proof.
  intros f. induction l as [|x l IH]; intros H; [reflexivity|]. cbn [map sumQ fold_right]. fold (sumQ (map f l)). rewrite (H x) by (left; auto). rewrite IH by (intros; apply H; right; auto). reflexivity.
Qed.

Lemma nodup_map_inj : forall (X Y : Type) (f : X -> Y) l, (forall x y, In x l -> In y l -> f x = f y -> x = y) -> NoDup l -> NoDup (map f l).
Proof.
  intros X Y f. induction l as [|x l IH]; intros H N; [constructor|]. inversion N; subst. cbn [map]. constructor.
  - intros E. apply in_map_iff in E. destruct E as (y & E & Hy). apply H in E; [|right; auto|left; auto]. congruence.
  - apply IH; auto. intros y z Hy Hz. apply H; right; auto.
Qed.

Section Back.
  Variable m : amdp.
  Hypothesis B : built m.
  Let OK : sys_ok m := built_ok m B.
  Let P := a_P m.
  Hypothesis PL : forall l, In l (label_names m) -> plain l.

  Lemma row_entry : forall i, i < a_C m -> exists d p, In ((i, d), p) (mitems P).
  Proof.
    intros i Hi. destruct OK as (WF & KN & (V1 & V2 & V3 & V4 & V5) & _). specialize (V2 i Hi).
    destruct (existsb (fun e : nat * nat * Q => fst (fst e) =? i) (mitems P)) eqn:E.
    - apply existsb_exists in E. destruct E as ([[j d] p] & H1 & H2). simpl in H2. apply Nat.eqb_eq in H2. subst j. eauto.
    - exfalso. assert (Z : (row_total (a_P m) i == 0)%Q).
      { unfold row_total. apply sumQ_zero. intros d _. destruct (Qeq_dec (mget (a_P m) i d) 0) as [|N]; auto. exfalso. apply mget_nonzero in N.
        assert (X : existsb (fun e : nat * nat * Q => fst (fst e) =? i) (mitems P) = true); [|congruence]. apply existsb_exists. exists ((i, d), mget (a_P m) i d). split; [auto|]. apply Nat.eqb_refl. }
      unfold near_one in V2. rewrite Z in V2. vm_compute in V2. congruence.
  Qed.
  Lemma row_pair : forall i, i < a_C m -> exists s a, a_inv m i = Some (s, a) /\ s < a_N m.
  Proof. intros i Hi. destruct (row_entry i Hi) as (d & p & H). destruct (item_facts m OK i d p H) as (_ & _ & _ & _ & X). auto. Qed.
  Lemma pair_inj : forall i j, i < a_C m -> j < a_C m -> pair_of m i = pair_of m j -> i = j.
  Proof.
    intros i j Hi Hj E. destruct (row_pair i Hi) as (s & a & E1 & _). destruct (row_pair j Hj) as (s' & a' & E2 & _). unfold pair_of in E. rewrite E1, E2 in E. rewrite E in E1. apply (inv_inj m OK i j _ E1 E2).
  Qed.
  Lemma mget_bounds : forall i d, (0 <= mget P i d)%Q /\ (mget P i d <= 1)%Q.
  Proof.
    intros i d. destruct (Qeq_dec (mget P i d) 0) as [E|N]; [rewrite E; split; Lqa.lra|]. apply mget_nonzero in N. destruct (item_facts m OK _ _ _ N) as (_ & _ & X & Y & _). split; Lqa.lra.
  Qed.

  (** A matrix whose rows are the rounded rows of [m]. *)
  Section Rounded.
    Variable P' : mat.
    Variable rho : nat -> nat.
    Variable idx' : dict (nat * nat) nat.
    Hypothesis WF' : wf_mat P'.
    Hypothesis CR' : mrows P' = a_C m.
    Hypothesis NC' : mcols P' = a_N m.
    Hypothesis BID : bid_ok idx'.
    Hypothesis RL : forall k, k < a_C m -> rho k < a_C m.
    Hypothesis RI : forall k, k < a_C m -> In (pair_of m (rho k), k) idx'.
    Hypothesis RE : forall k d, k < a_C m -> (mget P' k d == r6 (mget P (rho k) d))%Q.
    Hypothesis RS : forall i, i < a_C m -> exists k, k < a_C m /\ rho k = i.

    Lemma total6 : forall k, k < a_C m -> (row_total P' k == sum6 m (rho k))%Q.
    Proof. intros k Hk. unfold row_total, sum6. rewrite NC'. apply sumQ_ext. intros d _. apply RE. auto. Qed.
    Lemma valid6 : (forall i, i < a_C m -> (sum6 m i == 1)%Q) -> valid_system P' idx' None.
    Proof.
      intros S1. split; [apply BID|]. split; [|split; [|split]].
      - intros k Hk. rewrite CR' in Hk. unfold near_one. rewrite (total6 k Hk). apply near_one6. apply S1. auto.
      - intros k d p H. pose proof (mget_In P' k d p WF' H) as E. destruct (proj2 WF' k d p H) as (Hk & _ & _). rewrite CR' in Hk. pose proof (RE k d Hk) as X. rewrite E in X.
        destruct (mget_bounds (rho k) d) as [Y1 Y2]. destruct (r6_bounds _ Y1 Y2) as [Z1 Z2]. rewrite X. auto.
      - intros r X. discriminate.
      - intros k d p H. destruct (proj2 WF' k d p H) as (Hk & _ & _). rewrite CR' in Hk. destruct (row_pair (rho k) (RL k Hk)) as (s & a & E & L). pose proof (RI k Hk) as X. unfold pair_of in X. rewrite E in X.
        exists s, a. split; [auto|]. rewrite NC'. auto.
    Qed.
    Lemma check6 : (exists i, i < a_C m /\ ~ (sum6 m i == 1)%Q) -> check_correctness P' None = Err AssertionError.
    Proof.
      intros (i & Hi & HS). unfold check_correctness. destruct (RS i Hi) as (k & Hk & Ek).
      assert (G : forall l, (exists k, In k l /\ Qeq_bool (np_round9 (row_sum P' k)) 1 = false) -> foldM (fun _ i => assert_ (Qeq_bool (np_round9 (row_sum P' i)) 1)) l tt = Err AssertionError).
      { induction l as [|x l IH]; intros (y & Hy & Ey); [destruct Hy|]. cbn [foldM]. destruct (Qeq_bool (np_round9 (row_sum P' x)) 1) eqn:Ex; [|reflexivity]. cbn [assert_ bind]. apply IH. exists y.
        destruct Hy as [->|Hy]; [congruence|auto]. }
      rewrite G; [reflexivity|]. exists k. split; [apply in_seq; lia|]. destruct (Qeq_bool (np_round9 (row_sum P' k)) 1) eqn:E; auto. exfalso. apply HS. rewrite <- Ek. apply near_one6. apply round9_one in E.
      unfold near_one in *. rewrite <- (total6 k Hk), (row_total_sum P' k WF'). auto.
    Qed.
    Lemma abstract6 : forall k al sl, (exists i, i < a_C m /\ ~ (sum6 m i == 1)%Q) -> mk_abstract k P' idx' al sl None = Err AssertionError.
    Proof. intros k al sl H. unfold mk_abstract. rewrite (mk_bidict_ok pair_eqb Nat.eqb pair_eqbP Nat.eqb_spec) by auto. cbn [bind]. rewrite check6 by auto. reflexivity. Qed.
    Lemma inv6 : forall k s a, k < a_C m -> (binv Nat.eqb idx' k = Some (s, a) <-> a_inv m (rho k) = Some (s, a)).
    Proof.
      intros k s a Hk. pose proof (RI k Hk) as X. apply (In_binv Nat.eqb Nat.eqb_spec) in X; [|auto]. rewrite X. destruct (row_pair (rho k) (RL k Hk)) as (s0 & a0 & E & _). unfold pair_of. rewrite E. tauto.
    Qed.
    Lemma same6 : forall m' sl, a_kind m' = a_kind m -> a_P m' = P' -> a_idx m' = idx' -> a_slab m' = mk_idict sl true ->
      (forall l s, In s (match dget String.eqb sl l with Some c => c | None => [] end) <-> has_label m l s) -> same_up_to (fun p q => (q == r6 p)%Q) m m'.
    Proof.
      intros m' sl E1 E2 E3 E4 HL. assert (EC : a_C m' = a_C m) by (unfold a_C at 1; rewrite E2; auto). unfold same_up_to. rewrite EC. split; [auto|]. split; [unfold a_N at 1; rewrite E2; auto|]. split; [auto|].
      assert (IV : forall k s a, k < a_C m -> (a_inv m' k = Some (s, a) <-> a_inv m (rho k) = Some (s, a))). { intros k s a Hk. unfold a_inv at 1. rewrite E3. apply inv6. auto. }
      split; [|split].
      - intros s a. split.
        + intros (i & Hi & E). destruct (RS i Hi) as (k & Hk & <-). exists k. split; auto. apply IV; auto.
        + intros (k & Hk & E). exists (rho k). split; auto. apply IV; auto.
      - intros s a i k Hi Hk Ei Ek d. apply IV in Ek; auto. pose proof (inv_inj m OK _ _ _ Ei Ek) as ->. rewrite E2. apply RE. auto.
      - intros l s. unfold has_label at 1, states_by_label. rewrite E4. apply HL.
    Qed.
  End Rounded.

  Definition trip (e : nat * nat * Q) : triple := let '((i, d), p) := e in ((pair_of m i, d), r6 p).
  Definition dtrip (e : nat * nat * Q) : nat * nat * Q := let '((i, d), p) := e in ((fst (pair_of m i), d), r6 p).

  Lemma trip_nodup : NoDup (map fst (map trip (mitems P))).
  Proof.
    rewrite map_map. destruct OK as ((WN & _) & _). fold P in WN.
    assert (G : forall l, incl l (mitems P) -> NoDup (map fst l) -> NoDup (map (fun x => fst (trip x)) l)); [|apply G; [apply incl_refl|auto]].
    induction l as [|[[i d] p] l IH]; intros HI HN; [constructor|]. cbn [map] in *. inversion HN; subst. constructor; [|apply IH; [intros x Hx; apply HI; right; auto|auto]].
    intros X. apply in_map_iff in X. destruct X as ([[j e] q] & X1 & X2). simpl in X1. inversion X1; subst.
    assert (i < a_C m). { apply (item_facts m OK i d p). apply HI. left. auto. } assert (j < a_C m). { apply (item_facts m OK j d q). apply HI. right. auto. }
    apply pair_inj in H0; auto. subst. apply H1. apply in_map_iff. exists ((i, d), q). auto.
  Qed.
  Lemma fst_inj : a_kind m = KDtmc -> forall i j, i < a_C m -> j < a_C m -> fst (pair_of m i) = fst (pair_of m j) -> i = j.
  Proof.
    intros K i j Hi Hj E. apply pair_inj; auto. destruct (built_facts m B) as (_ & _ & KO). destruct (KO K) as (_ & A0 & _).
    destruct (row_pair i Hi) as (s & a & E1 & _). destruct (row_pair j Hj) as (s' & a' & E2 & _). unfold pair_of in *. rewrite E1, E2 in *. simpl in E. subst s'.
    assert (a = 0). { eapply A0. eapply (binv_In Nat.eqb Nat.eqb_spec). exact E1. } assert (a' = 0). { eapply A0. eapply (binv_In Nat.eqb Nat.eqb_spec). exact E2. } congruence.
  Qed.
  Lemma dtrip_nodup : a_kind m = KDtmc -> NoDup (map fst (map dtrip (mitems P))).
  Proof.
    intros K. rewrite map_map. destruct OK as ((WN & _) & _). fold P in WN.
    assert (G : forall l, incl l (mitems P) -> NoDup (map fst l) -> NoDup (map (fun x => fst (dtrip x)) l)); [|apply G; [apply incl_refl|auto]].
    induction l as [|[[i d] p] l IH]; intros HI HN; [constructor|]. cbn [map] in *. inversion HN; subst. constructor; [|apply IH; [intros x Hx; apply HI; right; auto|auto]].
    intros X. apply in_map_iff in X. destruct X as ([[j e] q] & X1 & X2). simpl in X1. inversion X1; subst.
    assert (i < a_C m). { apply (item_facts m OK i d p). apply HI. left. auto. } assert (j < a_C m). { apply (item_facts m OK j d q). apply HI. right. auto. }
    apply (fst_inj K) in H0; auto. subst. apply H1. apply in_map_iff. exists ((i, d), q). auto.
  Qed.

  Lemma load_line_ok : forall st e, In e (mitems P) -> load_line st (mdp_line m e ++ [LF]) = tstep st (trip e).
  Proof.
    intros st [[i d] p] H. destruct (item_facts m OK i d p H) as (_ & _ & P0 & _). unfold load_line. rewrite mdp_line_words. unfold int_field, field. cbn [nth_error of_opt bind]. rewrite !read_show. cbn [bind].
    rewrite read_show_f by (apply Qlt_le_weak; auto). cbn [bind]. unfold tstep, trip. rewrite <- surjective_pairing. reflexivity.
  Qed.

  Lemma load_mdp_ok : a_kind m = KMdp -> exists tra st, save_tra m = Ok tra /\ load_mdp tra = Ok st /\ linv (a_C m) (a_N m) (map trip (mitems P)) st.
  Proof.
    intros K. eexists. destruct (tfold_ok (a_C m) (a_N m) (map (pair_of m) (seq 0 (a_C m)))) with (L := map trip (mitems P)) as (st & E & I).
    - rewrite map_length, seq_length. lia.
    - apply trip_nodup.
    - intros sa d q H. apply in_map_iff in H. destruct H as ([[i d'] p] & E & H). inversion E; subst. destruct (item_facts m OK i d p H) as (L1 & L2 & _). split; auto. apply in_map_iff. exists i. split; auto. apply in_seq. lia.
    - exists st. split; [apply save_mdp_ok; auto|]. split; [|exact I]. unfold load_mdp. rewrite read_file.
      2:{ constructor; [apply clean_list; repeat (constructor; [apply show_clean|]); constructor|]. apply Forall_forall. intros t Ht. apply in_map_iff in Ht. destruct Ht as ([[i d] p] & <- & _).
          unfold mdp_line. apply clean_list. repeat (constructor; [first [apply show_clean|apply show_f_clean]|]). constructor. }
      cbn [map]. rewrite words_join by (repeat (constructor; [apply show_clean|]); constructor). unfold int_field, field. cbn [nth_error of_opt bind]. rewrite !read_show. cbn [bind].
      change (mresize (mzero 1 1) (a_C m) (a_N m)) with (mzero (a_C m) (a_N m)). rewrite <- E.
      assert (G : forall l st, incl l (mitems P) -> foldM load_line (map (fun t => t ++ [LF]) (map (mdp_line m) l)) st = foldM tstep (map trip l) st).
      { induction l as [|e l IH]; intros st0 HI; [reflexivity|]. cbn [map foldM]. rewrite load_line_ok by (apply HI; left; auto). destruct (tstep st0 (trip e)); [|reflexivity]. cbn [bind]. apply IH. intros x Hx. apply HI. right. auto. }
      apply G. apply incl_refl.
  Qed.

  Lemma trip_in : forall i d q, i < a_C m -> (In ((pair_of m i, d), q) (map trip (mitems P)) <-> exists p, In ((i, d), p) (mitems P) /\ q = r6 p).
  Proof.
    intros i d q Hi. rewrite in_map_iff. split.
    - intros ([[j e] p] & E & H). simpl in E. inversion E; subst. assert (j < a_C m) by (apply (item_facts m OK j d p H)). apply pair_inj in H1; auto. subst. eauto.
    - intros (p & H & ->). exists ((i, d), p). auto.
  Qed.

  Lemma back_mdp : a_kind m = KMdp -> exists tra st rho, save_tra m = Ok tra /\ load_mdp tra = Ok st /\ l_acts st = [] /\
    wf_mat (l_P st) /\ mrows (l_P st) = a_C m /\ mcols (l_P st) = a_N m /\ bid_ok (l_idx st) /\ (forall k, k < a_C m -> rho k < a_C m) /\ (forall k, k < a_C m -> In (pair_of m (rho k), k) (l_idx st)) /\
    (forall k d, k < a_C m -> (mget (l_P st) k d == r6 (mget P (rho k) d))%Q) /\ (forall i, i < a_C m -> exists k, k < a_C m /\ rho k = i).
  Proof.
    intros K. destruct (load_mdp_ok K) as (tra & st & E1 & E2 & I). exists tra, st.
    assert (KEYS : forall sa, In sa (map fst (l_idx st)) <-> exists i, i < a_C m /\ sa = pair_of m i).
    { intros sa. rewrite (li_keys _ _ _ _ I). split.
      - intros (d & q & H). apply in_map_iff in H. destruct H as ([[i d'] p] & E & H). inversion E; subst. exists i. split; auto. apply (item_facts m OK i d p H).
      - intros (i & Hi & ->). destruct (row_entry i Hi) as (d & p & H). exists d, (r6 p). apply trip_in; eauto. }
    assert (PND : NoDup (map (pair_of m) (seq 0 (a_C m)))).
    { apply nodup_map_inj; [|apply seq_NoDup]. intros x y Hx Hy E. apply in_seq in Hx. apply in_seq in Hy. apply pair_inj; auto; lia. }
    assert (LEN : length (l_idx st) = a_C m).
    { apply Nat.le_antisymm.
      - rewrite <- (map_length fst). etransitivity; [apply NoDup_incl_length with (l' := map (pair_of m) (seq 0 (a_C m))); [apply I|]|rewrite map_length, seq_length; lia].
        intros sa H. apply KEYS in H. destruct H as (i & Hi & ->). apply in_map_iff. exists i. split; auto. apply in_seq. lia.
      - rewrite <- (map_length fst (l_idx st)). etransitivity; [|apply NoDup_incl_length with (l := map (pair_of m) (seq 0 (a_C m))); [exact PND|]].
        + rewrite map_length, seq_length. lia.
        + intros sa H. apply in_map_iff in H. destruct H as (i & <- & Hi). apply in_seq in Hi. apply KEYS. exists i. split; auto; lia. }
    pose proof (li_snd _ _ _ _ I) as SN. rewrite LEN in SN.
    assert (BID : bid_ok (l_idx st)) by (split; [apply I|rewrite SN; apply seq_NoDup]).
    set (rho := fun k => match binv Nat.eqb (l_idx st) k with Some sa => match a_row m sa with Some i => i | None => 0 end | None => 0 end).
    assert (ROW : forall i, i < a_C m -> a_row m (pair_of m i) = Some i).
    { intros i Hi. destruct (row_pair i Hi) as (s & a & E & _). unfold pair_of. rewrite E. apply (binv_dget pair_eqb Nat.eqb pair_eqbP Nat.eqb_spec) in E; [exact E|]. apply (ok_bid m OK). }
    assert (RK : forall k, k < a_C m -> rho k < a_C m /\ In (pair_of m (rho k), k) (l_idx st)).
    { intros k Hk. assert (In k (map snd (l_idx st))) by (rewrite SN; apply in_seq; lia). apply in_map_iff in H. destruct H as ([sa k'] & E & H). simpl in E. subst k'.
      assert (X : In sa (map fst (l_idx st))) by (apply in_map_iff; exists (sa, k); auto). apply KEYS in X. destruct X as (i & Hi & ->). unfold rho. rewrite (In_binv Nat.eqb Nat.eqb_spec _ _ _ BID H). rewrite ROW by auto. auto. }
    assert (RU : forall i k, i < a_C m -> In (pair_of m i, k) (l_idx st) -> rho k = i). { intros i k Hi H. unfold rho. rewrite (In_binv Nat.eqb Nat.eqb_spec _ _ _ BID H). rewrite ROW by auto. auto. }
    assert (WF' : wf_mat (l_P st)).
    { split; [apply I|]. intros k d q H. rewrite (li_rows _ _ _ _ I), (li_cols _ _ _ _ I). apply (li_items _ _ _ _ I) in H. destruct H as (sa & H1 & H2 & H3). split; [|split; [|auto]].
      - assert (In k (map snd (l_idx st))) by (apply in_map_iff; exists (sa, k); auto). rewrite SN in H. apply in_seq in H. lia.
      - apply in_map_iff in H2. destruct H2 as ([[i d'] p] & E & H2). inversion E; subst. apply (item_facts m OK i d p H2). }
    exists rho. split; [auto|]. split; [auto|]. split; [apply I|]. split; [auto|]. split; [apply I|]. split; [apply I|]. split; [auto|]. split; [apply RK|]. split; [apply RK|]. split.
    - intros k d Hk. destruct (RK k Hk) as [R1 R2].
      destruct (Qeq_dec (mget (l_P st) k d) 0) as [Z|NZ].
      + rewrite Z. destruct (Qeq_dec (mget P (rho k) d) 0) as [Z'|NZ']; [rewrite (r6_ext _ _ Z'); reflexivity|]. apply mget_nonzero in NZ'.
        destruct (Qeq_dec (r6 (mget P (rho k) d)) 0) as [Z2|N2]; [rewrite Z2; reflexivity|]. exfalso.
        assert (X : In ((k, d), r6 (mget P (rho k) d)) (mitems (l_P st))). { apply (li_items _ _ _ _ I). exists (pair_of m (rho k)). split; auto. split; auto. apply trip_in; eauto. }
        apply (mget_In _ _ _ _ WF') in X. rewrite X in Z. auto.
      + apply mget_nonzero in NZ. apply (li_items _ _ _ _ I) in NZ. destruct NZ as (sa & H1 & H2 & H3). pose proof (In_binv Nat.eqb Nat.eqb_spec _ _ _ BID H1) as X1. rewrite (In_binv Nat.eqb Nat.eqb_spec _ _ _ BID R2) in X1. inversion X1; subst sa.
        apply trip_in in H2; auto. destruct H2 as (p & H2 & ->). rewrite (mget_In P _ _ _ (proj1 OK) H2). reflexivity.
    - intros i Hi. assert (X : In (pair_of m i) (map fst (l_idx st))) by (apply KEYS; eauto). apply in_map_iff in X. destruct X as ([sa k] & E & H). simpl in E. subst sa. exists k. split; [|apply RU; auto].
      assert (In k (map snd (l_idx st))) by (apply in_map_iff; exists (pair_of m i, k); auto). rewrite SN in H0. apply in_seq in H0. lia.
  Qed.

  Lemma back_dtmc : a_kind m = KDtmc -> exists tra P' rho, save_tra m = Ok tra /\ load_dtmc tra = Ok P' /\
    wf_mat P' /\ mrows P' = a_C m /\ mcols P' = a_N m /\ (forall k, k < a_C m -> rho k < a_C m) /\ (forall k, k < a_C m -> pair_of m (rho k) = (k, 0)) /\
    (forall k d, k < a_C m -> (mget P' k d == r6 (mget P (rho k) d))%Q) /\ (forall i, i < a_C m -> exists k, k < a_C m /\ rho k = i).
  Proof.
    intros K. destruct (built_facts m B) as (_ & _ & KO). destruct (KO K) as (CN & A0 & _).
    assert (PZ : forall i, i < a_C m -> pair_of m i = (fst (pair_of m i), 0) /\ fst (pair_of m i) < a_C m).
    { intros i Hi. destruct (row_pair i Hi) as (s & a & E & L). unfold pair_of. rewrite E. simpl. rewrite CN. split; auto. f_equal. eapply A0. eapply (binv_In Nat.eqb Nat.eqb_spec). exact E. }
    assert (IT : forall s d q, In ((s, d), q) (map dtrip (mitems P)) <-> exists i p, In ((i, d), p) (mitems P) /\ s = fst (pair_of m i) /\ q = r6 p).
    { intros s d q. rewrite in_map_iff. split; [intros ([[i d'] p] & E & H); inversion E; subst; eauto|intros (i & p & H & -> & ->); exists ((i, d), p); auto]. }
    destruct (dfold_ok (a_N m) (map dtrip (mitems P))) as (P' & E & R1 & R2 & R3 & R4).
    - apply dtrip_nodup. auto.
    - intros s d q H. apply IT in H. destruct H as (i & p & H & -> & _). destruct (item_facts m OK i d p H) as (L1 & L2 & _). split; auto. rewrite <- CN. apply PZ. auto.
    - set (rho := fun k => match a_row m (k, 0) with Some i => i | None => 0 end).
      assert (ROW : forall i, i < a_C m -> rho (fst (pair_of m i)) = i).
      { intros i Hi. unfold rho. destruct (PZ i Hi) as [Ep _]. rewrite <- Ep. destruct (row_pair i Hi) as (s & a & E0 & _). unfold pair_of. rewrite E0. apply (binv_dget pair_eqb Nat.eqb pair_eqbP Nat.eqb_spec) in E0; [unfold a_row; rewrite E0; auto|]. apply (ok_bid m OK). }
      assert (FND : NoDup (map (fun i => fst (pair_of m i)) (seq 0 (a_C m)))).
      { apply nodup_map_inj; [|apply seq_NoDup]. intros x y Hx Hy Ex. apply in_seq in Hx. apply in_seq in Hy. apply (fst_inj K); auto; lia. }
      assert (SURJ : forall k, k < a_C m -> exists i, i < a_C m /\ fst (pair_of m i) = k).
      { intros k Hk. assert (X : incl (seq 0 (a_C m)) (map (fun i => fst (pair_of m i)) (seq 0 (a_C m)))).
        { apply NoDup_length_incl; [exact FND|rewrite map_length; lia|]. intros x Hx. apply in_map_iff in Hx. destruct Hx as (i & <- & Hi). apply in_seq in Hi. apply in_seq. split; [lia|]. apply PZ. lia. }
        specialize (X k ltac:(apply in_seq; lia)). apply in_map_iff in X. destruct X as (i & Ei & Hi). apply in_seq in Hi. exists i. split; [lia|auto]. }
      assert (WF' : wf_mat P'). { split; [auto|]. intros s d q H. apply R4 in H. destruct H as [H1 H2]. rewrite R1, R2. apply IT in H1. destruct H1 as (i & p & H & -> & _). destruct (item_facts m OK i d p H) as (L1 & L2 & _). split; [|auto]. rewrite <- CN. apply PZ. auto. }
      eexists. exists P', rho. split; [apply save_dtmc_ok; auto|]. split.
      { unfold load_dtmc. rewrite read_file.
        2:{ constructor; [apply clean_list; repeat (constructor; [apply show_clean|]); constructor|]. apply Forall_forall. intros t Ht. apply in_map_iff in Ht. destruct Ht as ([[i d] p] & <- & _).
            unfold dtmc_line. apply clean_list. repeat (constructor; [first [apply show_clean|apply show_f_clean]|]). constructor. }
        cbn [map foldM]. rewrite words_join by (repeat (constructor; [apply show_clean|]); constructor). rewrite read_show. cbn [bind]. change (mresize (mzero 1 1) (a_N m) (a_N m)) with (mzero (a_N m) (a_N m)). rewrite <- E.
        assert (G : forall l Q0, incl l (mitems P) -> foldM (fun P line => let ws := words line in
            match ws with [w; _] => let* n := read_int w in Ok (mresize P n n)
            | _ => let* s := int_field ws 0 in let* d := int_field ws 1 in let* w := field ws 2 in let* p := read_float w in mset P s d p end) (map (fun t => t ++ [LF]) (map (dtmc_line m) l)) Q0 =
            foldM (fun P (e : nat * nat * Q) => mset P (fst (fst e)) (snd (fst e)) (snd e)) (map dtrip l) Q0).
        { induction l as [|[[i d] p] l IH]; intros Q0 HI; [reflexivity|]. cbn [map foldM]. cbv zeta. rewrite dtmc_line_words. unfold int_field, field. cbn [nth_error of_opt bind]. rewrite !read_show. cbn [bind].
          destruct (item_facts m OK i d p) as (_ & _ & P0 & _); [apply HI; left; auto|]. rewrite read_show_f by (apply Qlt_le_weak; auto). cbn [bind]. unfold dtrip at 1 2 3. cbn [fst snd].
          destruct (mset Q0 (fst (pair_of m i)) d (r6 p)); [|reflexivity]. cbn [bind]. apply IH. intros x Hx. apply HI. right. auto. }
        apply G. apply incl_refl. }
      split; [auto|]. split; [lia|]. split; [auto|].
      assert (RK : forall k, k < a_C m -> rho k < a_C m /\ pair_of m (rho k) = (k, 0)). { intros k Hk. destruct (SURJ k Hk) as (i & Hi & <-). rewrite ROW by auto. split; auto. apply PZ. auto. }
      split; [apply RK|]. split; [apply RK|]. split.
      + intros k d Hk. destruct (RK k Hk) as [Q1 Q2].
        destruct (Qeq_dec (mget P' k d) 0) as [Z|NZ].
        * rewrite Z. destruct (Qeq_dec (mget P (rho k) d) 0) as [Z'|NZ']; [rewrite (r6_ext _ _ Z'); reflexivity|]. apply mget_nonzero in NZ'.
          destruct (Qeq_dec (r6 (mget P (rho k) d)) 0) as [Z2|N2]; [rewrite Z2; reflexivity|]. exfalso.
          assert (X : In ((k, d), r6 (mget P (rho k) d)) (mitems P')). { apply R4. split; auto. apply IT. exists (rho k), (mget P (rho k) d). rewrite Q2. auto. }
          apply (mget_In _ _ _ _ WF') in X. rewrite X in Z. auto.
        * apply mget_nonzero in NZ. apply R4 in NZ. destruct NZ as (H1 & H2). apply IT in H1. destruct H1 as (i & p & H & Ek & Ep). rewrite Ep.
          assert (i < a_C m) by (apply (item_facts m OK i d p H)). assert (rho k = i) by (rewrite Ek; apply ROW; auto). rewrite H1. rewrite (mget_In P _ _ _ (proj1 OK) H). reflexivity.
      + intros i Hi. exists (fst (pair_of m i)). split; [apply PZ; auto|apply ROW; auto].
  Qed.

  (** ** The whole round trip *)
  Lemma back_ok : 
    ((exists i, i < a_C m /\ ~ (sum6 m i == 1)%Q) /\ save_and_load m = Err AssertionError) \/
    ((forall i, i < a_C m -> (sum6 m i == 1)%Q) /\
     exists m', save_and_load m = Ok m' /\ built m' /\ same_up_to (fun p q => (q == r6 p)%Q) m m' /\ a_rew m' = None /\ forall l, actions_by_label m' l = []).
  Proof.
    destruct (labels_ok m (proj1 (proj2 (built_facts m B))) PL) as (lab & sets & L1 & L2 & L3 & L4 & L5).
    assert (DEC : (exists i, i < a_C m /\ ~ (sum6 m i == 1)%Q) \/ (forall i, i < a_C m -> (sum6 m i == 1)%Q)).
    { induction (a_C m) as [|n IH]; [right; intros; lia|]. destruct (Qeq_dec (sum6 m n) 1) as [E|N]; [|left; exists n; split; auto]. destruct IH as [(i & H1 & H2)|H]; [left; exists i; split; auto; lia|].
      right. intros i Hi. destruct (Nat.eq_dec i n) as [->|]; auto. apply H. lia. }
    unfold save_and_load. destruct (a_kind m) eqn:K.
    - destruct (back_mdp K) as (tra & st & rho & T1 & T2 & T3 & WF' & CR' & NC' & BID & RL & RI & RE & RS). rewrite T1. cbn [bind]. rewrite L1. cbn [bind]. unfold from_file. rewrite L2. cbn [bind]. rewrite T2. cbn [bind]. rewrite T3. unfold mk_mdp.
      destruct DEC as [BAD|GOOD]; [left; split; [auto|eapply abstract6; eauto]|right]. split; [auto|].
      assert (V : valid_system (l_P st) (l_idx st) None) by (eapply valid6; eauto).
      destruct (proj2 (mk_abstract_iff KMdp (l_P st) (l_idx st) (mk_idict [] true) (mk_idict sets true) None WF' (proj1 BID)) V) as (m' & E). exists m'. split; [exact E|].
      assert (BU : built m'). { apply built_new. exists (l_P st), (l_idx st), [], sets, None. split; [|left; exact E]. split; [auto|]. split; [apply BID|]. split; [split; [constructor|intros l s []]|]. split; auto. }
      split; [exact BU|]. apply mk_abstract_inv in E; [|apply BID]. destruct E as (F1 & F2 & F3 & F4 & F5 & F6 & _).
      split; [eapply same6; eauto; congruence|]. split; [auto|]. intros l. unfold actions_by_label. rewrite F5. reflexivity.
    - destruct (back_dtmc K) as (tra & P' & rho & T1 & T2 & WF' & CR' & NC' & RL & RI & RE & RS). rewrite T1. cbn [bind]. rewrite L1. cbn [bind]. unfold from_file. rewrite L2. cbn [bind]. rewrite T2. cbn [bind]. unfold mk_dtmc.
      assert (SQ : mrows P' =? mcols P' = true). { apply Nat.eqb_eq. rewrite CR', NC'. apply (proj2 (proj2 (built_facts m B)) K). } rewrite SQ. cbn [assert_ bind]. set (idx' := map (fun i => ((i, 0), i)) (seq 0 (mrows P'))).
      assert (BID : bid_ok idx') by (split; apply diag_nodup).
      assert (RI' : forall k, k < a_C m -> In (pair_of m (rho k), k) idx'). { intros k Hk. rewrite RI by auto. apply in_map_iff. exists k. split; auto. apply in_seq. lia. }
      destruct DEC as [BAD|GOOD]; [left; split; [auto|eapply abstract6; eauto]|right]. split; [auto|].
      assert (V : valid_system P' idx' None) by (eapply valid6; eauto).
      destruct (proj2 (mk_abstract_iff KDtmc P' idx' (mk_idict [] true) (mk_idict sets true) None WF' (proj1 BID)) V) as (m' & E). exists m'. split; [exact E|].
      assert (BU : built m'). { apply built_new. exists P', idx', [], sets, None. split.
        - split; [auto|]. split; [apply BID|]. split; [split; [constructor|intros l s []]|]. split; auto.
        - right; right. unfold mk_dtmc. rewrite SQ. cbn [assert_ bind]. exact E. }
      split; [exact BU|]. apply mk_abstract_inv in E; [|apply BID]. destruct E as (F1 & F2 & F3 & F4 & F5 & F6 & _).
      split; [eapply same6; eauto; congruence|]. split; [auto|]. intros l. unfold actions_by_label. rewrite F5. reflexivity.
  Qed.
End Back.
