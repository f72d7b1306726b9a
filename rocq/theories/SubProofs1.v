(** Subsystems: the constructed system is the induced one. *)
From Coq Require Import String List Arith ZArith QArith Bool Lia.
From Coq Require Lqa.
From Verif Require Import Base BaseFacts Num Matrix MatFacts InvDict InvDictProofs Graph GraphSpec GraphProofs Mec SpecMdp SpecSystem SpecForm SpecBuilt
  Amdp AmdpProofs ReachForm ReachFormProofs RfFacts BuiltFacts Reduce ReduceProofs1 ReduceProofs3 Subsystem SpecSub.
Import ListNotations.
Local Open Scope nat_scope.

(** ** Lists *)
Definition enum (l : list nat) : dict nat nat := combine (seq 0 (length l)) l.

Lemma enum_snoc : forall l a, enum (l ++ [a]) = enum l ++ [(length l, a)].
Proof.
  intros l a. unfold enum.
  assert (G : forall l k, combine (seq k (length (l ++ [a]))) (l ++ [a]) = combine (seq k (length l)) l ++ [(k + length l, a)]); [|apply G].
  clear l. induction l as [|b l IH]; intros k; simpl; [rewrite Nat.add_0_r; auto|]. rewrite IH, Nat.add_succ_r. auto.
Qed.
Lemma enum_fst : forall l, map fst (enum l) = seq 0 (length l).
Proof. intros l. unfold enum. generalize 0 as k. induction l; intros k; simpl; [auto|]. f_equal. auto. Qed.
Lemma enum_snd : forall l, map snd (enum l) = l.
Proof. intros l. unfold enum. generalize 0 as k. induction l; intros k; simpl; [auto|]. f_equal. auto. Qed.
Lemma enum_bid : forall l, NoDup l -> bid_ok (enum l).
Proof. intros l H. split; [rewrite enum_fst; apply seq_NoDup|rewrite enum_snd; auto]. Qed.
Lemma enum_In : forall l x s, In (x, s) (enum l) <-> nth_error l x = Some s.
Proof.
  intros l x s. unfold enum.
  assert (G : forall l k, In (x, s) (combine (seq k (length l)) l) <-> k <= x /\ nth_error l (x - k) = Some s).
  { clear l. induction l as [|b l IH]; intros k; simpl.
    - split; [intros []|]. intros [_ H]. destruct (x - k); discriminate.
    - rewrite IH. split.
      + intros [E|[H1 H2]]. { inversion E; subst. rewrite Nat.sub_diag. auto. }
        split; [lia|]. replace (x - k) with (S (x - S k)) by lia. auto.
      + intros [H1 H2]. destruct (Nat.eq_dec k x). { left. subst. rewrite Nat.sub_diag in H2. simpl in H2. congruence. }
        right. split; [lia|]. replace (x - k) with (S (x - S k)) in H2 by lia. auto. }
  rewrite G. rewrite Nat.sub_0_r. split; [tauto|]. intros H. split; [lia|auto].
Qed.
Lemma enum_inv : forall l s x, NoDup l -> (binv Nat.eqb (enum l) s = Some x <-> nth_error l x = Some s).
Proof.
  intros l s x H. rewrite <- enum_In. split; [apply (binv_In Nat.eqb Nat.eqb_spec)|apply (In_binv Nat.eqb Nat.eqb_spec)]. apply enum_bid; auto.
Qed.

Lemma filter_snoc : forall A (f : A -> bool) l x, filter f (l ++ [x]) = filter f l ++ (if f x then [x] else []).
Proof. intros A f l x. rewrite filter_app. simpl. destruct (f x); auto. Qed.
Lemma filter_nodup : forall A (f : A -> bool) l, NoDup l -> NoDup (filter f l).
Proof. intros A f l H. induction H; simpl; [constructor|]. destruct (f x); auto. constructor; auto. rewrite filter_In. tauto. Qed.
Lemma nodup_nth : forall A (l : list A) i j x, NoDup l -> nth_error l i = Some x -> nth_error l j = Some x -> i = j.
Proof.
  intros A l i j x H E1 E2. apply (proj1 (NoDup_nth_error l) H); [apply nth_error_Some; congruence|congruence].
Qed.
Lemma prefix_nodup : forall A (l : list A) pre x, NoDup l -> (exists post, l = pre ++ x :: post) -> NoDup (pre ++ [x]).
Proof.
  intros A l pre x H (post & E). rewrite E in H. replace (pre ++ x :: post) with ((pre ++ [x]) ++ post) in H by (rewrite <- app_assoc; auto).
  apply nodup_app_l in H. auto.
Qed.
Lemma prefix_in : forall A (l : list A) pre x, (exists post, l = pre ++ x :: post) -> In x l.
Proof. intros A l pre x (post & ->). apply in_app_iff. simpl. auto. Qed.

Lemma foldM_map : forall A B St (f : St -> B -> res St) (g : A -> B) l s, foldM f (map g l) s = foldM (fun s x => f s (g x)) l s.
Proof. intros A B St f g. induction l as [|x l IH]; intros s; simpl; [auto|]. destruct (f s (g x)); simpl; auto. Qed.
Lemma foldM_ext : forall A St (f g : St -> A -> res St) l s, (forall s x, f s x = g s x) -> foldM f l s = foldM g l s.
Proof. intros A St f g l. induction l as [|x l IH]; intros s H; simpl; [auto|]. rewrite H. destruct (g s x); simpl; auto. Qed.

Lemma sum_nth : forall (h g : nat -> Q) l, (forall x s, nth_error l x = Some s -> (h x == g s)%Q) -> (sumQ (map h (seq 0 (length l))) == sumQ (map g l))%Q.
Proof.
  intros h g l H. assert (G : forall l k, (forall x s, nth_error l x = Some s -> (h (k + x)%nat == g s)%Q) -> (sumQ (map h (seq k (length l))) == sumQ (map g l))%Q).
  { clear. induction l as [|b l IH]; intros k H; simpl; [reflexivity|]. rewrite <- (H 0 b) by auto. rewrite Nat.add_0_r. rewrite IH; [reflexivity|].
    intros x s E. rewrite <- (H (S x) s) by auto. rewrite Nat.add_succ_r. reflexivity. }
  apply G. auto.
Qed.
Lemma sum_filter : forall (g : nat -> Q) f l, (sumQ (map g (filter f l)) == sumQ (map (fun d => if f d then g d else 0%Q) l))%Q.
Proof. intros g f. induction l as [|x l IH]; simpl; [reflexivity|]. destruct (f x); simpl; rewrite IH; [reflexivity|ring]. Qed.

(** ** Matrix writes *)
Definition nz (q : Q) : Q := if Qeq_bool q 0 then 0%Q else q.
Lemma nz_eq : forall q, (nz q == q)%Q.
Proof. intros q. unfold nz. destruct (Qeq_bool q 0) eqn:E; [apply Qeq_bool_iff in E; rewrite E|]; reflexivity. Qed.
Lemma nz_id : forall q, ~ (q == 0)%Q -> nz q = q.
Proof. intros q H. unfold nz. destruct (Qeq_bool q 0) eqn:E; [apply Qeq_bool_iff in E; tauto|auto]. Qed.

Lemma mset_get : forall P i j q, wf_mat P -> i < mrows P -> j < mcols P ->
  exists P', mset P i j q = Ok P' /\ mrows P' = mrows P /\ mcols P' = mcols P /\ wf_mat P' /\
    mget P' i j = nz q /\ forall i' j', (i', j') <> (i, j) -> mget P' i' j' = mget P i' j'.
Proof.
  intros P i j q (WN & WB) Hi Hj. unfold mset, nz.
  destruct (Nat.ltb_spec i (mrows P)); [|lia]. destruct (Nat.ltb_spec j (mcols P)); [|lia]. simpl.
  eexists. split; [reflexivity|]. simpl. split; [auto|]. split; [auto|].
  destruct (Qeq_bool q 0) eqn:E.
  - assert (K : forall x, In x (ddel pair_eqb (mitems P) (i, j)) -> In x (mitems P)).
    { intros x. clear. induction (mitems P) as [|[k v] d IH]; simpl; auto. destruct (pair_eqb (i, j) k); auto. intros [|]; auto. }
    split; [|split].
    + split; [apply (ddel_nodup pair_eqb pair_eqbP); exact WN|]. intros i' d' p' Hin. apply K in Hin. eapply WB; eauto.
    + unfold mget; simpl. rewrite (dget_ddel pair_eqb pair_eqbP) by exact WN. destruct (pair_eqbP (i, j) (i, j)); congruence.
    + intros i' j' Hne. unfold mget; simpl. rewrite (dget_ddel pair_eqb pair_eqbP) by exact WN. destruct (pair_eqbP (i, j) (i', j')); congruence.
  - split; [|split].
    + split; [apply (dset_nodup pair_eqb pair_eqbP); exact WN|]. simpl. intros i' d' p' Hin.
      apply (In_dget pair_eqb pair_eqbP) in Hin; [|apply (dset_nodup pair_eqb pair_eqbP); exact WN].
      rewrite (dget_dset pair_eqb pair_eqbP) in Hin. destruct (pair_eqbP (i, j) (i', d')) as [E'|].
      * inversion E'; inversion Hin; subst. split; [auto|]. split; [auto|]. intros Eq. apply Qeq_bool_iff in Eq. congruence.
      * apply (dget_In pair_eqb pair_eqbP) in Hin. eapply WB; eauto.
    + unfold mget; simpl. rewrite (dget_dset_same pair_eqb pair_eqbP). auto.
    + intros i' j' Hne. unfold mget; simpl. rewrite (dget_dset_other pair_eqb pair_eqbP) by congruence. auto.
Qed.

Definition pget (l : dict (nat * nat) Q) (i d : nat) : Q := match dget pair_eqb l (i, d) with Some q => q | None => 0%Q end.
Lemma pget_snoc : forall l i d p i' d', NoDup (map fst (l ++ [((i, d), p)])) ->
  pget (l ++ [((i, d), p)]) i' d' = if pair_eqb (i, d) (i', d') then p else pget l i' d'.
Proof.
  intros l i d p i' d' H. rewrite map_app in H. simpl in H. apply NoDup_snoc_iff in H. destruct H as [_ H].
  rewrite <- (dset_fresh pair_eqb pair_eqbP) by exact H. unfold pget. rewrite (dget_dset pair_eqb pair_eqbP). destruct (pair_eqb (i, d) (i', d')); auto.
Qed.

(** Sum of a row up to a column after one write. *)
Lemma sum_to_write : forall n f g x p, x < n -> (f x == 0)%Q -> (g x == p)%Q -> (forall y, y <> x -> (g y == f y)%Q) -> (sum_to n g == sum_to n f + p)%Q.
Proof.
  intros n f g x p Hx F G H. unfold sum_to. rewrite (sumQ_ext _ g (fun d => (if d =? x then p else 0) + f d)%Q).
  - rewrite sumQ_seq_single by auto. ring.
  - intros y _. destruct (Nat.eqb_spec y x); [subst; rewrite F, G; ring|rewrite H by auto; ring].
Qed.
Lemma sum_to_ext : forall n f g, (forall x, x < n -> (f x == g x)%Q) -> (sum_to n f == sum_to n g)%Q.
Proof. intros n f g H. unfold sum_to. apply sumQ_ext. intros x Hx. apply in_seq in Hx. apply H. lia. Qed.

Section Core.
  Variable rf : rform.
  Hypothesis BF : built_form rf.
  Let m := rf_sys rf.
  Let n := a_N m - 2.
  Let c := a_C m - 2.
  Variables (keep : nat -> bool) (mask : list bool).
  Hypothesis MS : forall s, s < n -> nth_error mask s = Some (keep s).
  Let S := kept_states m keep.
  Let R := kept_rows m keep.
  Let nN := length S.
  Let nC := length R.

  Lemma co_ro : rf_ok rf. Proof. apply built_form_ok; auto. Qed.
  Lemma co_ok : sys_ok m. Proof. apply co_ro. Qed.
  Lemma co_built : built m.
  Proof. destruct BF as (rnd & m0 & il & tl & fl & HB & H). apply mk_rf_ok in H; [|apply built_ok; auto]. destruct H as (_ & E & _). unfold m. rewrite E. auto. Qed.
  Lemma co_form : in_reach_form (a_P m) (a_inv m) (has_label m) (rf_init rf) (rf_initl rf) (rf_targetl rf) (rf_faill rf).
  Proof. apply built_form_ok; auto. Qed.
  Lemma co_row : forall i, i < c -> exists s a, a_inv m i = Some (s, a) /\ s < n.
  Proof. intros i Hi. destruct (ro_row rf co_ro i Hi) as (s & a & H1 & H2 & _). exists s, a. auto. Qed.
  Lemma co_row_src : forall i s a, a_inv m i = Some (s, a) -> row_src m i = s.
  Proof. intros i s a H. unfold row_src. rewrite H. auto. Qed.
  Lemma co_rows_last : forall i s a, i < a_C m -> c <= i -> a_inv m i = Some (s, a) -> n <= s.
  Proof.
    intros i s a Hi Hc E. destruct co_form as (_ & HN & HC & _ & _ & _ & _ & ((a1 & p1 & L1 & _) & _) & ((a2 & p2 & L2 & _) & _) & _).
    unfold a_C in *. unfold c, n, a_C, a_N in *. destruct (Nat.eq_dec i (mrows (a_P m) - 2)) as [->|]; [rewrite L1 in E; inversion E; lia|].
    replace i with (mrows (a_P m) - 1) in E by lia. rewrite L2 in E. inversion E. lia.
  Qed.

  Lemma S_nodup : NoDup S. Proof. apply filter_nodup, seq_NoDup. Qed.
  Lemma R_nodup : NoDup R. Proof. apply filter_nodup, seq_NoDup. Qed.
  Lemma S_In : forall s, In s S <-> s < n /\ keep s = true.
  Proof. intros s. unfold S, kept_states. rewrite filter_In, in_seq. fold n. intuition lia. Qed.
  Lemma R_In : forall i, In i R <-> i < c /\ keep (row_src m i) = true.
  Proof. intros s. unfold R, kept_rows. rewrite filter_In, in_seq. fold c. intuition lia. Qed.
  Lemma S_pos : forall s, s < n -> keep s = true -> exists x, nth_error S x = Some s /\ x < nN.
  Proof.
    intros s Hs Hk. destruct (In_nth_error S s) as (x & E); [apply S_In; auto|]. exists x. split; auto. apply nth_error_Some. congruence.
  Qed.
  Lemma S_nth : forall x s, nth_error S x = Some s -> x < nN /\ s < n /\ keep s = true.
  Proof. intros x s E. split; [apply nth_error_Some; congruence|]. apply S_In. eapply nth_error_In; eauto. Qed.
  Lemma R_nth : forall j i, nth_error R j = Some i -> j < nC /\ i < c /\ exists s a, a_inv m i = Some (s, a) /\ s < n /\ keep s = true.
  Proof.
    intros j i E. split; [apply nth_error_Some; congruence|]. assert (H : In i R) by (eapply nth_error_In; eauto). apply R_In in H. destruct H as [H1 H2].
    split; auto. destruct (co_row i H1) as (s & a & E1 & E2). rewrite (co_row_src _ _ _ E1) in H2. eauto.
  Qed.

  Lemma number_states_ok : exists sl, number_states m mask = Ok (enum S, sl, nN) /\ sets_ok sl /\
    forall l x, has String.eqb sl l x <-> exists s, nth_error S x = Some s /\ In s (states_by_label m l).
  Proof.
    unfold number_states. fold n.
    destruct (foldM_ok _ _ (fun (st : dict nat nat * dict string (list nat) * nat) i =>
      let '(n2o, sl, nN) := st in
      let* b := of_opt IndexError (nth_error mask i) in
      if b then
        let* n2o := bput Nat.eqb Nat.eqb n2o nN i in
        Ok (n2o, fold_left (fun d l => lab_add Nat.eqb d l nN) (labels_by_state m i) sl, 1 + nN)
      else Ok st)
      (fun pre st => let '(n2o, sl, k) := st in n2o = enum (filter keep pre) /\ k = length (filter keep pre) /\ sets_ok sl /\
         forall l x, has String.eqb sl l x <-> exists s, nth_error (filter keep pre) x = Some s /\ In s (states_by_label m l))
      (seq 0 n) ([], [], 0)) as ([[n2o sl] k] & E & H1 & H2 & H3 & H4).
    - split; [auto|]. split; [auto|]. split; [split; [constructor|intros ? ? []]|]. intros l x. split; [intros (y & E & _); discriminate|].
      intros (s & E & _). destruct x; discriminate.
    - intros pre i [[n2o sl] k] (-> & -> & HS & HL) Hp. pose proof (prefix_in _ _ _ _ Hp) as Hi. apply in_seq in Hi.
      pose proof (prefix_nodup _ _ _ _ (seq_NoDup n 0) Hp) as ND. apply NoDup_snoc_iff in ND. destruct ND as [ND Hni].
      rewrite MS by lia. cbn [of_opt bind]. rewrite filter_snoc. destruct (keep i) eqn:EK.
      + rewrite (bput_fresh _ _ Nat.eqb Nat.eqb Nat.eqb_spec Nat.eqb_spec).
        * cbn [bind]. destruct (lab_fold_spec _ Nat.eqb Nat.eqb_spec (labels_by_state m i) sl (length (filter keep pre)) HS) as [G1 G2].
          eexists. split; [reflexivity|]. split; [rewrite enum_snoc; auto|]. split; [rewrite app_length; simpl; lia|]. split; [exact G1|].
          intros l x. rewrite G2, HL. rewrite (labels_state_iff m) by (apply (built_facts m co_built)). split.
          -- intros [[Hl ->]|(s & E & Hs)].
             ++ exists i. split; auto. rewrite nth_error_app2 by lia. rewrite Nat.sub_diag. auto.
             ++ exists s. split; auto. rewrite nth_error_app1; auto. apply nth_error_Some. congruence.
          -- intros (s & E & Hs). destruct (Nat.lt_ge_cases x (length (filter keep pre))) as [Hx|Hx].
             ++ rewrite nth_error_app1 in E by auto. right. eauto.
             ++ rewrite nth_error_app2 in E by auto. destruct (x - length (filter keep pre)) as [|k] eqn:Ek; [|destruct k; discriminate].
                simpl in E. inversion E; subst. left. split; auto. lia.
        * rewrite enum_fst. intros H. apply in_seq in H. lia.
        * rewrite enum_snd. rewrite filter_In. tauto.
      + rewrite app_nil_r. eexists. split; [reflexivity|]. split; [auto|]. split; [auto|]. split; [auto|]. exact HL.
    - exists sl. subst n2o k. split; [exact E|]. auto.
  Qed.

  Definition core_index (index : dict (nat * nat) nat) : Prop :=
    forall x a j, In ((x, a), j) index <-> exists i s, nth_error R j = Some i /\ a_inv m i = Some (s, a) /\ nth_error S x = Some s.

  Lemma number_rows_ok : exists index al, number_rows m mask (enum S) = Ok (index, al, nC) /\ bid_ok index /\ core_index index.
  Proof.
    unfold number_rows. fold c.
    destruct (foldM_ok _ _ (fun (st : dict (nat * nat) nat * dict (nat * nat) (list string) * nat) i =>
      let '(index, al, nC) := st in
      let* (s, a) := of_opt KeyError (a_inv m i) in
      let* b := of_opt IndexError (nth_error mask s) in
      if b then
        let* ns := of_opt KeyError (binv Nat.eqb (enum S) s) in
        let* index := bput pair_eqb Nat.eqb index (ns, a) nC in
        Ok (index, dset pair_eqb al (ns, a) (labels_by_action m (s, a)), 1 + nC)
      else Ok st)
      (fun pre st => let '(index, al, k) := st in let F := filter (fun i => keep (row_src m i)) pre in k = length F /\ bid_ok index /\
         forall x a j, In ((x, a), j) index <-> exists i s, nth_error F j = Some i /\ a_inv m i = Some (s, a) /\ nth_error S x = Some s)
      (seq 0 c) ([], [], 0)) as ([[index al] k] & E & H1 & H2 & H3).
    - split; [auto|]. split; [split; constructor|]. intros x a j. split; [intros []|]. intros (i & s & E & _). destruct j; discriminate.
    - intros pre i [[index al] k] (-> & HB & HI) Hp. pose proof (prefix_in _ _ _ _ Hp) as Hi. apply in_seq in Hi.
      pose proof (prefix_nodup _ _ _ _ (seq_NoDup c 0) Hp) as ND. apply NoDup_snoc_iff in ND. destruct ND as [ND Hni].
      destruct (co_row i) as (s & a & Es & Hs); [lia|]. rewrite Es. cbn [of_opt bind]. rewrite MS by auto. cbn [of_opt bind].
      cbv zeta. rewrite filter_snoc, (co_row_src _ _ _ Es). set (F := filter (fun i => keep (row_src m i)) pre) in *. destruct (keep s) eqn:EK.
      + destruct (S_pos s Hs EK) as (x & Ex & Hx). rewrite (proj2 (enum_inv S s x S_nodup) Ex). cbn [of_opt bind].
        rewrite (bput_fresh _ _ pair_eqb Nat.eqb pair_eqbP Nat.eqb_spec).
        * cbn [bind]. eexists. split; [reflexivity|]. split; [rewrite app_length; simpl; lia|].
          assert (FR1 : ~ In (x, a) (map fst index)).
          { intros H. apply in_map_iff in H. destruct H as ([[x' a'] j] & E & H). simpl in E. inversion E; subst. apply HI in H.
            destruct H as (i' & s' & Ei & Ea & Ex'). rewrite Ex in Ex'. inversion Ex'; subst s'. pose proof (inv_inj m co_ok _ _ _ Ea Es). subst i'.
            apply nth_error_In in Ei. unfold F in Ei. apply filter_In in Ei. tauto. }
          assert (FR2 : ~ In (length F) (map snd index)).
          { intros H. apply in_map_iff in H. destruct H as ([[x' a'] j] & E & H). simpl in E. subst. apply HI in H. destruct H as (i' & s' & Ei & _).
            assert (length F < length F) by (apply nth_error_Some; congruence). lia. }
          split; [apply bid_snoc; auto|].
          intros x' a' j. rewrite in_app_iff. simpl. rewrite HI. split.
          -- intros [(i' & s' & Ei & Ea & Ex')|[Eq|[]]].
             ++ exists i', s'. split; [|auto]. rewrite nth_error_app1; auto. apply nth_error_Some. congruence.
             ++ inversion Eq; subst. exists i, s. split; [|auto]. rewrite nth_error_app2 by lia. rewrite Nat.sub_diag. auto.
          -- intros (i' & s' & Ei & Ea & Ex'). destruct (Nat.lt_ge_cases j (length F)) as [Hj|Hj].
             ++ rewrite nth_error_app1 in Ei by auto. left. eauto.
             ++ rewrite nth_error_app2 in Ei by auto. destruct (j - length F) as [|k] eqn:Ek; [|destruct k; discriminate].
                simpl in Ei. inversion Ei; subst. right. left. rewrite Es in Ea. inversion Ea; subst.
                rewrite (nodup_nth _ S x x' s' S_nodup Ex Ex'). f_equal. lia.
        * intros H. apply in_map_iff in H. destruct H as ([[x' a'] j] & E & H). simpl in E. inversion E; subst. apply HI in H.
          destruct H as (i' & s' & Ei & Ea & Ex'). rewrite Ex in Ex'. inversion Ex'; subst s'. pose proof (inv_inj m co_ok _ _ _ Ea Es). subst i'.
          apply nth_error_In in Ei. unfold F in Ei. apply filter_In in Ei. tauto.
        * intros H. apply in_map_iff in H. destruct H as ([[x' a'] j] & E & H). simpl in E. subst. apply HI in H. destruct H as (i' & s' & Ei & _).
          assert (length F < length F) by (apply nth_error_Some; congruence). lia.
      + rewrite app_nil_r. eexists. split; [reflexivity|]. split; [auto|]. split; [auto|]. exact HI.
    - exists index, al. cbv zeta in H3. split; [|split; [exact H2|exact H3]]. etransitivity; [exact E|]. rewrite H1. reflexivity.
  Qed.

  Definition full_index (index : dict (nat * nat) nat) : dict (nat * nat) nat := (index ++ [((1 + nN, 0), 1 + nC)]) ++ [((nN, 0), nC)].

  Lemma core_lt : forall index, core_index index -> forall x a j, In ((x, a), j) index -> x < nN /\ j < nC.
  Proof. intros index H x a j Hin. apply H in Hin. destruct Hin as (i & s & E1 & _ & E2). split; apply nth_error_Some; unfold S, R in *; congruence. Qed.

  Lemma full_ok : forall index, bid_ok index -> core_index index ->
    bind (bput pair_eqb Nat.eqb index (1 + nN, 0) (1 + nC)) (fun i => bput pair_eqb Nat.eqb i (nN, 0) nC) = Ok (full_index index) /\ bid_ok (full_index index).
  Proof.
    intros index HB HC. pose proof (core_lt index HC) as LT.
    assert (A1 : ~ In (1 + nN, 0) (map fst index)). { intros H. apply in_map_iff in H. destruct H as ([[x a] j] & E & H). simpl in E. inversion E; subst. apply LT in H. lia. }
    assert (A2 : ~ In (1 + nC) (map snd index)). { intros H. apply in_map_iff in H. destruct H as ([[x a] j] & E & H). simpl in E. inversion E; subst. apply LT in H. lia. }
    pose proof (bid_snoc _ _ _ _ _ HB A1 A2) as HB1.
    assert (A3 : ~ In (nN, 0) (map fst (index ++ [((1 + nN, 0), 1 + nC)]))).
    { rewrite map_app, in_app_iff. simpl. intros [H|[H|[]]]; [|inversion H; lia]. apply in_map_iff in H. destruct H as ([[x a] j] & E & H). simpl in E. inversion E; subst. apply LT in H. lia. }
    assert (A4 : ~ In nC (map snd (index ++ [((1 + nN, 0), 1 + nC)]))).
    { rewrite map_app, in_app_iff. simpl. intros [H|[H|[]]]; [|inversion H; lia]. apply in_map_iff in H. destruct H as ([[x a] j] & E & H). simpl in E. inversion E; subst. apply LT in H. lia. }
    split; [|apply bid_snoc; auto].
    rewrite (bput_fresh _ _ pair_eqb Nat.eqb pair_eqbP Nat.eqb_spec) by auto. cbn [bind].
    rewrite (bput_fresh _ _ pair_eqb Nat.eqb pair_eqbP Nat.eqb_spec) by auto. auto.
  Qed.
  Lemma full_In : forall index k j, In (k, j) (full_index index) <-> In (k, j) index \/ (k = (1 + nN, 0) /\ j = 1 + nC) \/ (k = (nN, 0) /\ j = nC).
  Proof.
    intros index k j. unfold full_index. rewrite !in_app_iff. simpl. split.
    - intros [[?|[E|[]]]|[E|[]]]; auto; inversion E; auto.
    - intros [?|[[-> ->]|[-> ->]]]; auto.
  Qed.
  Lemma full_get : forall index j i s a x, bid_ok index -> core_index index -> nth_error R j = Some i -> a_inv m i = Some (s, a) -> nth_error S x = Some s ->
    dget pair_eqb (full_index index) (x, a) = Some j.
  Proof.
    intros index j i s a x HB HC E1 E2 E3. apply (In_dget pair_eqb pair_eqbP); [apply (full_ok index HB HC)|]. apply full_In. left. apply HC. eauto.
  Qed.

  Section Fill.
    Variable index : dict (nat * nat) nat.
    Hypothesis HB : bid_ok index.
    Hypothesis HC : core_index index.

    Lemma loops_ok : exists P0, bind (mset (mzero (nC + 2) (nN + 2)) (1 + nC) (1 + nN) 1%Q) (fun P => mset P nC nN 1%Q) = Ok P0 /\
      mrows P0 = nC + 2 /\ mcols P0 = nN + 2 /\ wf_mat P0 /\
      (forall j x, mget P0 j x = if ((j =? nC) && (x =? nN)) || ((j =? 1 + nC) && (x =? 1 + nN)) then 1%Q else 0%Q).
    Proof.
      destruct (mset_get (mzero (nC + 2) (nN + 2)) (1 + nC) (1 + nN) 1%Q) as (P1 & E1 & A1 & A2 & A3 & A4 & A5); [apply wf_zero|simpl; lia|simpl; lia|].
      rewrite E1. cbn [bind]. simpl in A1, A2.
      destruct (mset_get P1 nC nN 1%Q) as (P2 & E2 & B1 & B2 & B3 & B4 & B5); [auto|lia|lia|].
      exists P2. split; [exact E2|]. split; [lia|]. split; [lia|]. split; [auto|]. intros j x.
      destruct (Nat.eqb_spec j nC) as [->|H1]; [destruct (Nat.eqb_spec x nN) as [->|H2]; [exact B4|]|].
      - rewrite B5 by congruence. cbn [andb orb].
        destruct (Nat.eqb_spec nC (1 + nC)); [lia|]. cbn [andb]. rewrite A5 by (intros Eq; inversion Eq; lia). reflexivity.
      - rewrite B5 by congruence. cbn [andb orb].
        destruct (Nat.eqb_spec j (1 + nC)) as [->|H2]; [destruct (Nat.eqb_spec x (1 + nN)) as [->|H3]; [exact A4|]|]; cbn [andb];
          rewrite A5 by congruence; reflexivity.
    Qed.

    Variable P0 : mat.
    Hypothesis Z1 : mrows P0 = nC + 2.
    Hypothesis Z2 : mcols P0 = nN + 2.
    Hypothesis Z3 : wf_mat P0.
    Hypothesis Z4 : forall j x, mget P0 j x = if ((j =? nC) && (x =? nN)) || ((j =? 1 + nC) && (x =? 1 + nN)) then 1%Q else 0%Q.

    Lemma copy_ok : exists P ntf, copy_transitions m mask (enum S) (full_index index) P0 (repeat 0%Q nC) = Ok (P, ntf) /\
      mrows P = nC + 2 /\ mcols P = nN + 2 /\ wf_mat P /\ length ntf = nC /\
      (forall j i x s, nth_error R j = Some i -> nth_error S x = Some s -> mget P j x = mget (a_P m) i s) /\
      (forall j x, nC <= j \/ nN <= x -> mget P j x = mget P0 j x) /\
      (forall j, j < nC -> (nth j ntf 0 == sum_to nN (mget P j))%Q).
    Proof.
      unfold copy_transitions. fold n. cbv zeta.
      match goal with |- exists P ntf, foldM ?f _ _ = _ /\ _ =>
        destruct (foldM_ok _ _ f (fun pre (st : mat * list Q) => let '(P, ntf) := st in
           mrows P = nC + 2 /\ mcols P = nN + 2 /\ wf_mat P /\ length ntf = nC /\
           (forall j i x s, nth_error R j = Some i -> nth_error S x = Some s -> mget P j x = pget pre i s) /\
           (forall j x, nC <= j \/ nN <= x -> mget P j x = mget P0 j x) /\
           (forall j, j < nC -> (nth j ntf 0 == sum_to nN (mget P j))%Q)) (mitems (a_P m)) (P0, repeat 0%Q nC)) as ([P ntf] & E & H) end.
      - split; [auto|]. split; [auto|]. split; [auto|]. split; [apply repeat_length|]. split; [|split].
        + intros j i x s Ej Ex. rewrite Z4. apply R_nth in Ej. apply S_nth in Ex. destruct (Nat.eqb_spec j nC); [lia|]. destruct (Nat.eqb_spec j (1 + nC)); [lia|]. auto.
        + auto.
        + intros j Hj. rewrite nth_repeat0. symmetry. unfold sum_to.
          assert (G : forall l, (forall x, In x l -> x < nN) -> (sumQ (map (mget P0 j) l) == 0)%Q).
          { induction l as [|x l IH]; intros HL; simpl; [reflexivity|]. rewrite IH by (intros; apply HL; simpl; auto).
            rewrite Z4. destruct (Nat.eqb_spec j nC); [lia|]. destruct (Nat.eqb_spec j (1 + nC)); [lia|]. reflexivity. }
          apply G. intros x Hx. apply in_seq in Hx. lia.
      - intros pre [[i d] p] [P ntf] (I1 & I2 & I3 & I4 & I5 & I6 & I7) Hp. pose proof (prefix_in _ _ _ _ Hp) as Hin.
        destruct (entry_indexed m co_ok i d p Hin) as (Hi & Hd & s & a & Es & Hs). rewrite Es. cbn [of_opt bind].
        assert (ND : NoDup (map fst (pre ++ [((i, d), p)]))).
        { destruct Hp as (post & Hp). pose proof (proj1 (ok_wf m co_ok)) as ND. rewrite Hp, map_app in ND. simpl in ND.
          replace (map fst pre ++ (i, d) :: map fst post) with ((map fst pre ++ [(i, d)]) ++ map fst post) in ND by (rewrite <- app_assoc; auto).
          apply nodup_app_l in ND. rewrite map_app. auto. }
        assert (SKIP : (forall j x, nth_error R j = Some i -> nth_error S x = Some d -> False) ->
          forall j i' x s', nth_error R j = Some i' -> nth_error S x = Some s' -> mget P j x = pget (pre ++ [((i, d), p)]) i' s').
        { intros HF j i' x s' Ej Ex. rewrite pget_snoc by auto. destruct (pair_eqbP (i, d) (i', s')) as [Eq|]; [inversion Eq; subst; exfalso; eauto|eauto]. }
        destruct ((n <=? d) || (n <=? s)) eqn:EB.
        { eexists. split; [reflexivity|]. repeat (split; [auto; fail|]). split; [|auto]. apply SKIP.
          intros j x Ej Ex. apply S_nth in Ex. apply R_nth in Ej. destruct Ej as (_ & _ & s' & a' & E1 & E2 & _). rewrite Es in E1. inversion E1; subst.
          apply orb_true_iff in EB. rewrite !Nat.leb_le in EB. lia. }
        apply orb_false_iff in EB. rewrite !Nat.leb_gt in EB. destruct EB as [Hdn Hsn].
        rewrite (MS s Hsn), (MS d Hdn). cbn [of_opt bind].
        destruct (keep s && keep d) eqn:EK.
        2:{ eexists. split; [reflexivity|]. repeat (split; [auto; fail|]). split; [|auto]. apply SKIP.
          intros j x Ej Ex. apply S_nth in Ex. apply R_nth in Ej. destruct Ej as (_ & _ & s' & a' & E1 & E2 & E3). rewrite Es in E1. inversion E1; subst.
          apply andb_false_iff in EK. destruct EK; destruct Ex as (_ & _ & Ex); congruence. }
        apply andb_true_iff in EK. destruct EK as [Ks Kd].
        destruct (S_pos s Hsn Ks) as (xs & Exs & Hxs). destruct (S_pos d Hdn Kd) as (xd & Exd & Hxd).
        assert (Hic : i < c). { destruct (Nat.lt_ge_cases i c); auto. pose proof (co_rows_last i s a Hi H Es). lia. }
        destruct (In_nth_error R i) as (j & Ej). { apply R_In. rewrite (co_row_src _ _ _ Es). auto. }
        destruct (R_nth j i Ej) as (Hj & _).
        rewrite (proj2 (enum_inv S s xs S_nodup) Exs), (proj2 (enum_inv S d xd S_nodup) Exd). cbn [of_opt bind].
        rewrite (full_get index j i s a xs HB HC Ej Es Exs). cbn [of_opt bind].
        destruct (mset_get P j xd p) as (P' & EP & M1 & M2 & M3 & M4 & M5); [auto|lia|lia|]. rewrite EP. cbn [bind].
        destruct (nth_error ntf j) as [o|] eqn:Eo. 2:{ apply nth_error_None in Eo. lia. }
        cbn [of_opt bind]. eexists. split; [reflexivity|]. split; [lia|]. split; [lia|]. split; [auto|]. split; [rewrite upd_length; auto|]. split; [|split].
        + intros j' i' x' s' Ej' Ex'. rewrite pget_snoc by auto. destruct (pair_eqbP (i, d) (i', s')) as [Eq|Hne].
          * inversion Eq; subst. rewrite (nodup_nth _ R j' j i' R_nodup Ej' Ej), (nodup_nth _ S x' xd s' S_nodup Ex' Exd). rewrite M4. apply nz_id.
            apply (proj2 (ok_wf m co_ok) _ _ _ Hin).
          * rewrite M5; [eauto|]. intros Eq. inversion Eq; subst. congruence.
        + intros j' x' Hjx. rewrite M5; [auto|]. intros Eq. inversion Eq; subst. lia.
        + intros j' Hj'. destruct (Nat.eq_dec j j') as [<-|Hne].
          * rewrite nth_upd_same by lia. rewrite (sum_to_write nN (mget P j) (mget P' j) xd p); [| auto | | rewrite M4; apply nz_eq|].
            -- rewrite <- I7 by auto. apply nth_error_nth with (d := 0%Q) in Eo. rewrite Eo. reflexivity.
            -- rewrite (I5 j i xd d Ej Exd). unfold pget. rewrite (proj2 (dget_None pair_eqb pair_eqbP pre (i, d))); [reflexivity|].
               rewrite map_app in ND. simpl in ND. apply NoDup_snoc_iff in ND. apply ND.
            -- intros y Hy. rewrite M5 by congruence. reflexivity.
          * rewrite nth_upd_other by auto. rewrite I7 by auto. apply sum_to_ext. intros x Hx. rewrite M5 by congruence. reflexivity.
      - exists P, ntf. split; [exact E|]. exact H.
    Qed.

    Variables (P1 : mat) (ntf : list Q).
    Hypothesis Y1 : mrows P1 = nC + 2.
    Hypothesis Y2 : mcols P1 = nN + 2.
    Hypothesis Y3 : wf_mat P1.
    Hypothesis Y4 : length ntf = nC.

    Lemma combine_map : forall (f : nat -> Q) l, combine l (map f l) = map (fun i => (i, f i)) l.
    Proof. intros f. induction l; simpl; auto. f_equal. auto. Qed.

    Lemma exits_ok : exists P, add_exits rf mask (enum S) (full_index index) nN (1 + nN) P1 ntf = Ok P /\
      mrows P = nC + 2 /\ mcols P = nN + 2 /\ wf_mat P /\
      (forall j x, x < nN \/ nC <= j -> mget P j x = mget P1 j x) /\
      (forall j i, nth_error R j = Some i -> (mget P j nN == mget (a_P m) i n)%Q /\ (mget P j (1 + nN) == 1 - (mget (a_P m) i n + nth j ntf 0))%Q).
    Proof.
      clear Z1 Z2 Z3 Z4. unfold add_exits. fold m. cbv zeta. rewrite (ro_tt rf co_ro). fold m. change (rf_C rf) with c. change (rf_N rf) with n. rewrite map_length, seq_length.
      rewrite combine_map, foldM_map.
      match goal with |- exists P, foldM ?f _ _ = _ /\ _ =>
        destruct (foldM_ok _ _ f (fun pre (P : mat) => 
           mrows P = nC + 2 /\ mcols P = nN + 2 /\ wf_mat P /\
           (forall j x, x < nN \/ nC <= j -> mget P j x = mget P1 j x) /\
           (forall j i, nth_error R j = Some i -> In i pre -> (mget P j nN == mget (a_P m) i n)%Q /\ (mget P j (1 + nN) == 1 - (mget (a_P m) i n + nth j ntf 0))%Q))
           (seq 0 c) P1) as (P & E & H1 & H2 & H3 & H4 & H5) end.
      - split; [auto|]. split; [auto|]. split; [auto|]. split; [auto|]. intros j i _ [].
      - intros pre i P (I1 & I2 & I3 & I4 & I5) Hp. pose proof (prefix_in _ _ _ _ Hp) as Hi. apply in_seq in Hi.
        destruct (co_row i) as (s & a & Es & Hs); [lia|]. rewrite Es. cbn [of_opt bind]. rewrite (MS s Hs). cbn [of_opt bind].
        destruct (keep s) eqn:EK.
        2:{ eexists. split; [reflexivity|]. repeat (split; [auto; fail|]). intros j i' Ej Hin. apply in_app_iff in Hin. destruct Hin as [|[<-|[]]]; [eauto|].
          apply R_nth in Ej. destruct Ej as (_ & _ & s' & a' & E1 & _ & E3). rewrite Es in E1. inversion E1; subst. congruence. }
        destruct (S_pos s Hs EK) as (xs & Exs & Hxs). rewrite (proj2 (enum_inv S s xs S_nodup) Exs). cbn [of_opt bind].
        destruct (In_nth_error R i) as (j & Ej). { apply R_In. rewrite (co_row_src _ _ _ Es). split; [lia|auto]. }
        destruct (R_nth j i Ej) as (Hj & _).
        rewrite (full_get index j i s a xs HB HC Ej Es Exs). cbn [of_opt bind].
        destruct (mset_get P j nN (mget (a_P m) i n)) as (P' & EP & M1 & M2 & M3 & M4 & M5); [auto|lia|lia|]. rewrite EP. cbn [bind].
        destruct (nth_error ntf j) as [o|] eqn:Eo. 2:{ apply nth_error_None in Eo. lia. }
        cbn [of_opt bind]. apply nth_error_nth with (d := 0%Q) in Eo.
        destruct (mset_get P' j (1 + nN) (1 - (mget (a_P m) i n + o))%Q) as (P'' & EP' & L1 & L2 & L3 & L4 & L5); [auto|lia|lia|].
        exists P''. split; [exact EP'|]. split; [lia|]. split; [lia|]. split; [auto|]. split.
        + intros j' x Hjx. rewrite L5, M5; [auto| |]; intros Eq; inversion Eq; subst; lia.
        + intros j' i' Ej' Hin. destruct (Nat.eq_dec j' j) as [->|Hne].
          * rewrite Ej in Ej'. inversion Ej'; subst i'. rewrite L4, (L5 j nN), M4 by (intros Eq; inversion Eq; lia). rewrite !nz_eq, Eo. split; reflexivity.
          * rewrite !L5, !M5 by congruence. apply in_app_iff in Hin. destruct Hin as [Hin|[<-|[]]]; [auto|]. exfalso. apply Hne. eapply nodup_nth; eauto. apply R_nodup.
      - exists P. split; [exact E|]. split; [auto|]. split; [auto|]. split; [auto|]. split; [auto|]. intros j i Ej. apply H5; auto. apply in_seq. apply R_nth in Ej. lia.
    Qed.
  End Fill.

  (** Arguments of the constructor. *)
  Record filled (P : mat) (index : dict (nat * nat) nat) (sl : dict string (list nat)) : Prop := {
    fi_rows : mrows P = nC + 2;
    fi_cols : mcols P = nN + 2;
    fi_wf : wf_mat P;
    fi_bid : bid_ok index;
    fi_index : forall x a j, In ((x, a), j) index <-> (exists i s, nth_error R j = Some i /\ a_inv m i = Some (s, a) /\ nth_error S x = Some s) \/
      (x = 1 + nN /\ a = 0 /\ j = 1 + nC) \/ (x = nN /\ a = 0 /\ j = nC);
    fi_sets : sets_ok sl;
    fi_labels : forall l x, has String.eqb sl l x <->
      (l = rf_faill rf /\ x = 1 + nN) \/ (l <> rf_faill rf /\ l = rf_targetl rf /\ x = nN) \/
      (l <> rf_faill rf /\ l <> rf_targetl rf /\ exists s, nth_error S x = Some s /\ In s (states_by_label m l));
    fi_prob : forall j i x s, nth_error R j = Some i -> nth_error S x = Some s -> mget P j x = mget (a_P m) i s;
    fi_target : forall j i, nth_error R j = Some i -> (mget P j nN == mget (a_P m) i n)%Q;
    fi_fail : forall j i, nth_error R j = Some i -> (mget P j (1 + nN) == 1 - (mget (a_P m) i n + sum_to nN (mget P j)))%Q;
    fi_last : forall j x, nC <= j -> mget P j x = if ((j =? nC) && (x =? nN)) || ((j =? 1 + nC) && (x =? 1 + nN)) then 1%Q else 0%Q }.

  Lemma dset_set : forall (d : dict string (list nat)) l x, sets_ok d -> sets_ok (dset String.eqb d l [x]) /\
    forall l' x', has String.eqb (dset String.eqb d l [x]) l' x' <-> (l' = l /\ x' = x) \/ (l' <> l /\ has String.eqb d l' x').
  Proof.
    intros d l x (H1 & H2). pose proof (dset_nodup String.eqb String.eqb_spec d l [x] H1) as HN. split.
    - split; [exact HN|]. intros l' s Hin. apply (In_dget String.eqb String.eqb_spec) in Hin; [|exact HN].
      rewrite (dget_dset String.eqb String.eqb_spec) in Hin. destruct (String.eqb_spec l l') as [->|].
      + inversion Hin. constructor; [intros []|constructor].
      + apply (dget_In String.eqb String.eqb_spec) in Hin. eapply H2; eauto.
    - intros l' x'. unfold has. rewrite (dget_dset String.eqb String.eqb_spec). destruct (String.eqb_spec l l') as [->|Hne].
      + split.
        * intros (s & E & Hin). inversion E; subst. destruct Hin as [<-|[]]. auto.
        * intros [[_ ->]|[H _]]; [|congruence]. exists [x]. split; auto. left; auto.
      + split.
        * intros H. right. split; auto.
        * intros [[-> _]|[_ H]]; [congruence|auto].
  Qed.

  Lemma subsys_core : forall rnd cert form ign, subsystem_mask (MkSub rf cert form ign) = Ok mask -> exists P index sl, filled P index sl /\
    subsys rnd (MkSub rf cert form ign) =
      (let* model := mk_kind (a_kind m) P index [] sl None in mk_rf rnd model (rf_initl rf) (rf_targetl rf) (rf_faill rf) ign).
  Proof.
    intros rnd cert form ign EM. unfold subsys. cbn [sub_super sub_ignore]. fold m. rewrite EM. cbn [bind].
    destruct number_states_ok as (sl & E1 & SO & SL). rewrite E1. cbn [bind].
    destruct number_rows_ok as (index & al & E2 & HB & HC). rewrite E2. cbn [bind]. cbv zeta.
    destruct (full_ok index HB HC) as [E3 HF]. apply bind_ok in E3. destruct E3 as (i1 & E3 & E4). simpl Nat.add in E3. rewrite E3. cbn [bind]. rewrite E4. cbn [bind].
    destruct loops_ok as (P0 & E5 & Z1 & Z2 & Z3 & Z4). apply bind_ok in E5. destruct E5 as (p1 & E5 & E6). simpl Nat.add in E5.
    replace (nC + 2) with (Datatypes.S (Datatypes.S nC)) in * by lia. replace (nN + 2) with (Datatypes.S (Datatypes.S nN)) in * by lia.
    rewrite E5. cbn [bind]. rewrite E6. cbn [bind].
    destruct (copy_ok index HB HC P0) as (P1 & ntf & E7 & Y1 & Y2 & Y3 & Y4 & Y5 & Y6 & Y7); try lia; auto. rewrite E7. cbn [bind].
    destruct (exits_ok index HB HC P1 ntf Y1 Y2 Y3 Y4) as (P & E8 & X1 & X2 & X3 & X4 & X5). simpl Nat.add in E8. rewrite E8. cbn [bind].
    destruct (dset_set sl (rf_targetl rf) nN SO) as [D1 D2]. destruct (dset_set _ (rf_faill rf) (Datatypes.S nN) D1) as [D3 D4].
    exists P, (full_index index). eexists. split; [|reflexivity]. constructor; auto.
    - intros x a j. rewrite full_In, (HC x a j). split; (intros [H|[H|H]]; [left; exact H|right; left|right; right]).
      + destruct H as [Eq ->]. inversion Eq; auto.
      + destruct H as [Eq ->]. inversion Eq; auto.
      + destruct H as (-> & -> & ->). auto.
      + destruct H as (-> & -> & ->). auto.
    - intros l x. rewrite D4, D2, SL. tauto.
    - intros j i x s Ej Ex. rewrite X4; [eauto|]. left. apply S_nth in Ex. lia.
    - intros j i Ej. apply X5; auto.
    - intros j i Ej. destruct (X5 j i Ej) as [_ H]. rewrite H. rewrite Y7 by (apply R_nth in Ej; lia).
      rewrite (sum_to_ext nN (mget P j) (mget P1 j)); [reflexivity|]. intros x Hx. rewrite X4 by auto. reflexivity.
    - intros j x Hj. rewrite X4, Y6 by auto. apply Z4.
  Qed.
End Core.
