(** Proofs about the command line: forms that are saved and loaded. *)
From Coq Require Import String List Arith ZArith QArith Bool Lia.
From Verif Require Import Base BaseFacts Num Matrix MatFacts InvDict GraphSpec SccSpec SpecSystem SpecForm SpecBuilt SpecFiles Amdp AmdpProofs ReachFormProofs BuiltFacts Files FilesProofs FilesProofs2 FilesProofs3 FilesProofs4 FilesFinal ReduceProofs1 CliProofs1.
Import ListNotations.
Local Open Scope nat_scope.

(** The loops of the last two states are the last entries. *)
Definition loops_last (m : amdp) : Prop :=
  exists pre p q, mitems (a_P m) = pre ++ [((a_C m - 2, a_N m - 2), p); ((a_C m - 1, a_N m - 1), q)] /\ forall i d r, In ((i, d), r) pre -> i < a_C m - 2.

Section Same.
  Variable m m' : amdp.
  Hypothesis B : built m.
  Hypothesis B' : built m'.
  Hypothesis S : same_system m m'.
  Let OK := built_ok m B.
  Let OK' := built_ok m' B'.

  Lemma sm_N : a_N m' = a_N m. Proof. apply S. Qed.
  Lemma sm_C : a_C m' = a_C m. Proof. apply S. Qed.
  Lemma sm_row : forall s a i, i < a_C m -> a_inv m i = Some (s, a) -> exists i', i' < a_C m' /\ a_inv m' i' = Some (s, a).
  Proof. intros s a i Hi E. destruct S as (_ & _ & _ & H & _). apply H. eauto. Qed.
  Lemma sm_row' : forall s a i, i < a_C m' -> a_inv m' i = Some (s, a) -> exists i', i' < a_C m /\ a_inv m i' = Some (s, a).
  Proof. intros s a i Hi E. destruct S as (_ & _ & _ & H & _). apply H. eauto. Qed.
  Lemma sm_p : forall s a i i', i < a_C m -> i' < a_C m' -> a_inv m i = Some (s, a) -> a_inv m' i' = Some (s, a) -> forall d, (mget (a_P m) i d == mget (a_P m') i' d)%Q.
  Proof. intros. destruct S as (_ & _ & _ & _ & H' & _). eapply H'; eauto. Qed.
  Lemma sm_item : forall i i' sa d p, a_inv m i = Some sa -> i' < a_C m' -> a_inv m' i' = Some sa -> In ((i, d), p) (mitems (a_P m)) -> exists p', In ((i', d), p') (mitems (a_P m')).
  Proof.
    intros i i' [s a] d p E Hi' E' H. destruct (item_facts m OK _ _ _ H) as (Hi & _ & P0 & _). pose proof (sm_p s a i i' Hi Hi' E E' d) as X.
    rewrite (mget_In _ _ _ _ (proj1 OK) H) in X. exists (mget (a_P m') i' d). apply mget_nonzero. intros Z. rewrite Z in X. rewrite X in P0. discriminate.
  Qed.
  Lemma sm_edge : forall s d, edge (a_P m) (a_inv m) s d -> edge (a_P m') (a_inv m') s d.
  Proof.
    intros s d (i & a & p & H & E). destruct (item_facts m OK _ _ _ H) as (Hi & _). destruct (sm_row s a i Hi E) as (i' & Hi' & E'). destruct (sm_item i i' _ d p E Hi' E' H) as (p' & H'). exists i', a, p'. auto.
  Qed.
End Same.

Lemma same_sym : forall m m', same_system m m' -> same_system m' m.
Proof.
  intros m m' (A1 & A2 & A3 & A4 & A5 & A6). split; [auto|]. split; [auto|]. split; [auto|]. split; [intros; symmetry; apply A4|]. split; [|intros; symmetry; apply A6].
  intros s a i i' Hi Hi' E E' d. symmetry. eapply A5; eauto.
Qed.

Lemma same_loop : forall m m' s i, built m -> built m' -> same_system m m' -> i < a_C m -> a_inv m' i = a_inv m i -> only_loop (a_P m) (a_inv m) s i -> only_loop (a_P m') (a_inv m') s i.
Proof.
  intros m m' s i B B' SM Hi EI ((a & p & E & H) & U). pose proof (built_ok m B) as OK. pose proof (built_ok m' B') as OK'.
  assert (Hi' : i < a_C m') by (rewrite (sm_C _ _ SM); auto). split.
  - exists a. destruct (sm_item m m' B SM i i (s, a) s p E Hi') as (p' & H'); [congruence|exact H|]. exists p'. split; [congruence|auto].
  - intros j d a' p' Ej Hj. destruct (item_facts m' OK' _ _ _ Hj) as (Lj & _). destruct (sm_row' _ _ SM s a' j Lj Ej) as (k & Hk & Ek).
    destruct (sm_item m' m B' (same_sym _ _ SM) j k (s, a') d p' Ej Hk Ek Hj) as (q & Hq). destruct (U k d a' q Ek Hq) as [-> ->]. split; auto. apply (inv_inj m' OK' j i (s, a')); [auto|]. rewrite EI. auto.
Qed.

Lemma rtc_mono : forall (R R' : nat -> nat -> Prop), (forall x y, R x y -> R' x y) -> forall x y, rtc R x y -> rtc R' x y.
Proof. intros R R' H x y X. induction X; [constructor|econstructor; eauto]. Qed.

Lemma same_form : forall m m' init il tl fl, built m -> built m' -> same_system m m' ->
  a_inv m' (a_C m - 2) = a_inv m (a_C m - 2) -> a_inv m' (a_C m - 1) = a_inv m (a_C m - 1) ->
  in_reach_form (a_P m) (a_inv m) (has_label m) init il tl fl -> in_reach_form (a_P m') (a_inv m') (has_label m') init il tl fl.
Proof.
  intros m m' init il tl fl B B' SM E1 E2 H. unfold in_reach_form in *. change (mcols (a_P m)) with (a_N m) in H. change (mrows (a_P m)) with (a_C m) in H.
  change (mcols (a_P m')) with (a_N m'). change (mrows (a_P m')) with (a_C m'). rewrite (sm_N _ _ SM), (sm_C _ _ SM). cbv zeta in *.
  destruct H as (D & N2 & C2 & LI & HI & HT & HF & L1 & L2 & R1 & R2). destruct SM as (S1 & S2 & S3 & S4 & S5 & S6). assert (SM : same_system m m') by (repeat (split; [assumption|]); assumption).
  split; [auto|]. split; [auto|]. split; [auto|]. split; [auto|]. split; [intros; rewrite S6; auto|]. split; [intros; rewrite S6; auto|]. split; [intros; rewrite S6; auto|].
  split; [eapply (same_loop m m'); eauto; lia|]. split; [eapply (same_loop m m'); eauto; lia|].
  split; intros s H1 H2; (eapply rtc_mono; [apply (sm_edge m m' B SM)|auto]).
Qed.

(** ** The rows of the last two states *)
Lemma tstep_new : forall st sa d q P', dget pair_eqb (l_idx st) sa = None -> binv Nat.eqb (l_idx st) (l_max st) = None -> mset (l_P st) (l_max st) d q = Ok P' ->
  tstep st ((sa, d), q) = Ok (MkLoad P' (l_idx st ++ [(sa, l_max st)]) (l_acts st) (S (l_max st))).
Proof.
  intros st sa d q P' E1 E2 E3. unfold tstep. rewrite E1. unfold bput. rewrite E2. cbn [bind]. rewrite (dset_fresh pair_eqb pair_eqbP); [|apply (dget_None pair_eqb pair_eqbP); auto]. rewrite E3. reflexivity.
Qed.

Lemma Ok_inj : forall A (x y : A), Ok x = Ok y -> x = y.
Proof. intros A x y H. injection H as ->. reflexivity. Qed.
Lemma load_mdp_fold : forall m, built m -> a_kind m = KMdp -> forall tra, save_tra m = Ok tra ->
  load_mdp tra = foldM tstep (map (trip m) (mitems (a_P m))) (MkLoad (mzero (a_C m) (a_N m)) [] [] 0).
Proof.
  intros m B K tra E. rewrite (save_mdp_ok m (built_ok m B) K) in E. apply Ok_inj in E. subst tra. unfold load_mdp. rewrite read_file.
  2:{ constructor; [apply clean_list; repeat (constructor; [apply show_clean|]); constructor|]. apply Forall_forall. intros t Ht. apply in_map_iff in Ht. destruct Ht as ([[i d] p] & <- & _).
      unfold mdp_line. apply clean_list. repeat (constructor; [first [apply show_clean|apply show_f_clean]|]). constructor. }
  cbn [map]. rewrite words_join by (repeat (constructor; [apply show_clean|]); constructor). unfold int_field, field. cbn [nth_error of_opt bind]. rewrite !read_show. cbn [bind].
  change (mresize (mzero 1 1) (a_C m) (a_N m)) with (mzero (a_C m) (a_N m)).
  assert (G : forall l st, incl l (mitems (a_P m)) -> foldM load_line (map (fun t => t ++ [LF]) (map (mdp_line m) l)) st = foldM tstep (map (trip m) l) st).
  { induction l as [|e l IH]; intros st0 HI; [reflexivity|]. cbn [map foldM]. rewrite (load_line_ok m B) by (apply HI; left; auto). destruct (tstep st0 (trip m e)); [|reflexivity]. cbn [bind]. apply IH. intros x Hx. apply HI. right. auto. }
  apply G. apply incl_refl.
Qed.

Section Last.
  Variable m : amdp.
  Hypothesis B : built m.
  Hypothesis C2 : 2 <= a_C m.
  Hypothesis LL : loops_last m.
  Let OK := built_ok m B.

  Lemma pair_Some : forall i, i < a_C m -> a_inv m i = Some (pair_of m i).
  Proof. intros i Hi. destruct (row_pair m B i Hi) as (s & a & E & _). unfold pair_of. rewrite E. auto. Qed.

  Lemma last_idx : forall st, foldM tstep (map (trip m) (mitems (a_P m))) (MkLoad (mzero (a_C m) (a_N m)) [] [] 0) = Ok st ->
    NoDup (map snd (l_idx st)) -> NoDup (map fst (l_idx st)) -> In (pair_of m (a_C m - 2), a_C m - 2) (l_idx st) /\ In (pair_of m (a_C m - 1), a_C m - 1) (l_idx st).
  Proof.
    intros st E _ _. destruct LL as (pre & p & q & EI & HP). rewrite EI, map_app, foldM_app in E. apply bind_ok in E. destruct E as (st1 & E1 & E2).
    pose proof (trip_nodup m B) as ND. rewrite EI, !map_app in ND.
    destruct (tfold_ok (a_C m) (a_N m) (map (pair_of m) (seq 0 (a_C m)))) with (L := map (trip m) pre) as (st1' & E1' & I).
    - rewrite map_length, seq_length. lia.
    - apply nodup_app_l in ND. exact ND.
    - intros sa d r H. apply in_map_iff in H. destruct H as ([[i d'] p'] & X & H). inversion X; subst. assert (H' : In ((i, d), p') (mitems (a_P m))) by (rewrite EI; apply in_or_app; auto). destruct (item_facts m OK i d p' H') as (L1 & L2 & _). split; auto. apply in_map_iff. exists i. split; auto. apply in_seq. lia.
    - rewrite E1 in E1'. injection E1' as <-.
      assert (KEYS : forall sa, In sa (map fst (l_idx st1)) <-> exists i, i < a_C m - 2 /\ sa = pair_of m i).
      { intros sa. rewrite (li_keys _ _ _ _ I). split.
        - intros (d & r & H). apply in_map_iff in H. destruct H as ([[i d'] p'] & X & H). inversion X; subst. exists i. split; auto. eapply HP; eauto.
        - intros (i & Hi & ->). destruct (row_entry m B i) as (d & p' & H); [lia|]. exists d, (r6 p'). rewrite EI in H. apply in_app_iff in H. destruct H as [H|[H|[H|[]]]]; [|inversion H; lia|inversion H; lia].
          apply in_map_iff. exists ((i, d), p'). auto. }
      assert (PND : NoDup (map (pair_of m) (seq 0 (a_C m - 2)))).
      { apply nodup_map_inj; [|apply seq_NoDup]. intros x y Hx Hy X. apply in_seq in Hx. apply in_seq in Hy. apply (pair_inj m B); auto; lia. }
      assert (LEN : length (l_idx st1) = a_C m - 2).
      { apply Nat.le_antisymm.
        - rewrite <- (map_length fst). etransitivity; [apply NoDup_incl_length with (l' := map (pair_of m) (seq 0 (a_C m - 2))); [apply I|]|rewrite map_length, seq_length; lia].
          intros sa H. apply KEYS in H. destruct H as (i & Hi & ->). apply in_map_iff. exists i. split; auto. apply in_seq. lia.
        - rewrite <- (map_length fst (l_idx st1)). etransitivity; [|apply NoDup_incl_length with (l := map (pair_of m) (seq 0 (a_C m - 2))); [exact PND|]].
          + rewrite map_length, seq_length. lia.
          + intros sa H. apply in_map_iff in H. destruct H as (i & <- & Hi). apply in_seq in Hi. apply KEYS. exists i. split; auto; lia. }
      assert (NEW : forall i, i < a_C m -> a_C m - 2 <= i -> ~ In (pair_of m i) (map fst (l_idx st1))).
      { intros i Hi Hi2 X. apply KEYS in X. destruct X as (j & Hj & X). apply (pair_inj m B) in X; lia. }
      cbn [map foldM] in E2. apply bind_ok in E2. destruct E2 as (st2 & E2 & E3). apply bind_ok in E3. destruct E3 as (st3 & E3 & E4). injection E4 as <-. cbn [trip] in E2, E3.
      assert (MX : l_max st1 = a_C m - 2) by (rewrite (li_max _ _ _ _ I); auto).
      assert (G2 : l_idx st2 = l_idx st1 ++ [(pair_of m (a_C m - 2), a_C m - 2)] /\ l_max st2 = a_C m - 1).
      { unfold tstep in E2. rewrite (proj2 (dget_None pair_eqb pair_eqbP _ _)) in E2 by (apply NEW; lia). unfold bput in E2.
        assert (BN : binv Nat.eqb (l_idx st1) (l_max st1) = None) by (apply (binv_None Nat.eqb Nat.eqb_spec); rewrite (li_snd _ _ _ _ I), in_seq; lia).
        rewrite BN in E2. cbn [bind] in E2. apply bind_ok in E2. destruct E2 as (P2 & _ & E2). injection E2 as <-. cbn [l_idx l_max].
        rewrite (dset_fresh pair_eqb pair_eqbP) by (apply NEW; lia). rewrite MX. split; [reflexivity|lia]. }
      destruct G2 as [G2 M2].
      assert (G3 : l_idx st3 = l_idx st2 ++ [(pair_of m (a_C m - 1), a_C m - 1)]).
      { assert (FR : ~ In (pair_of m (a_C m - 1)) (dkeys (l_idx st2))).
        { unfold dkeys. rewrite G2, map_app. intros X. apply in_app_iff in X. destruct X as [X|[X|[]]]; [revert X; apply NEW; lia|]. cbn [fst] in X. apply (pair_inj m B) in X; lia. }
        unfold tstep in E3. rewrite (proj2 (dget_None pair_eqb pair_eqbP _ _)) in E3 by exact FR. unfold bput in E3.
        assert (BN : binv Nat.eqb (l_idx st2) (l_max st2) = None).
        { apply (binv_None Nat.eqb Nat.eqb_spec). rewrite G2, map_app, (li_snd _ _ _ _ I), M2, LEN. intros X. apply in_app_iff in X. destruct X as [X|[X|[]]]; [apply in_seq in X; lia|cbn [snd] in X; lia]. }
        rewrite BN in E3. cbn [bind] in E3. apply bind_ok in E3. destruct E3 as (P3 & _ & E3). injection E3 as <-. cbn [l_idx]. rewrite (dset_fresh pair_eqb pair_eqbP) by exact FR. rewrite M2. reflexivity. }
      rewrite G3, G2. split; apply in_or_app; [left; apply in_or_app; right; left; auto|right; left; auto].
  Qed.

  Lemma reload_rows : forall m', save_and_load m = Ok m' -> built m' -> same_system m m' ->
    (a_kind m = KDtmc -> fst (pair_of m (a_C m - 2)) = a_N m - 2 /\ fst (pair_of m (a_C m - 1)) = a_N m - 1) ->
    a_inv m' (a_C m - 2) = a_inv m (a_C m - 2) /\ a_inv m' (a_C m - 1) = a_inv m (a_C m - 1).
  Proof.
    intros m' E B' SM HD. unfold save_and_load in E. step E as tra Et. step E as lab El. unfold from_file in E. step E as sl Es. pose proof (built_ok m' B') as OK'. destruct (a_kind m) eqn:K.
    - step E as st E0. rewrite (load_mdp_fold m B K tra Et) in E0. destruct (load_mdp_wf tra st) as (_ & N & _); [rewrite (load_mdp_fold m B K tra Et); auto|]. unfold mk_mdp in E. apply mk_abstract_inv in E; [|auto]. destruct E as (_ & _ & F3 & _ & _ & _ & _).
      assert (BI : bid_ok (a_idx m')) by apply (ok_bid m' OK'). assert (EQ : a_idx m' = l_idx st) by auto.
      destruct (last_idx st E0) as [L1 L2]; [rewrite <- EQ; apply BI|rewrite <- EQ; apply BI|]. rewrite <- EQ in L1, L2.
      rewrite !pair_Some by lia. unfold a_inv. split; apply (In_binv Nat.eqb Nat.eqb_spec); auto.
    - step E as P' E0. destruct (HD eq_refl) as [D1 D2]. destruct (built_facts m B) as (_ & _ & KO). destruct (KO K) as (CN & A0 & _).
      assert (Z : forall i, i < a_C m -> snd (pair_of m i) = 0). { intros i Hi. pose proof (pair_Some i Hi) as X. destruct (pair_of m i) as [s a]. cbn [snd]. eapply A0. eapply (binv_In Nat.eqb Nat.eqb_spec). exact X. }
      assert (NI : NoDup (map fst (map (fun i => ((i, 0), i)) (seq 0 (mrows P'))))). { rewrite map_map. cbn [fst]. apply FinFun.Injective_map_NoDup; [intros x y X; inversion X; auto|apply seq_NoDup]. }
      unfold mk_dtmc in E. step E as u Eu. cbn [bind] in E. apply mk_abstract_inv in E; [|exact NI]. destruct E as (_ & F2 & F3 & _).
      assert (RC : mrows P' = a_C m). { change (mrows P') with (mrows P'). rewrite <- (sm_C _ _ SM). unfold a_C. rewrite F2. auto. }
      assert (IV : forall i, i < a_C m -> a_inv m' i = Some (i, 0)). { intros i Hi. unfold a_inv. apply (In_binv Nat.eqb Nat.eqb_spec); [apply (ok_bid m' OK')|]. rewrite F3. apply in_map_iff. exists i. split; auto. apply in_seq. lia. }
      rewrite !IV by lia. rewrite !pair_Some by lia. split; f_equal; [destruct (pair_of m (a_C m - 2)) as [s a] eqn:X|destruct (pair_of m (a_C m - 1)) as [s a] eqn:X]; cbn [fst] in D1, D2; subst s.
      + specialize (Z (a_C m - 2) ltac:(lia)). rewrite X in Z. cbn [snd] in Z. subst a. rewrite CN. auto.
      + specialize (Z (a_C m - 1) ltac:(lia)). rewrite X in Z. cbn [snd] in Z. subst a. rewrite CN. auto.
  Qed.
End Last.

Lemma reload_form : forall m init il tl fl, built m -> (forall l, In l (label_names m) -> plain l) -> six_decimals m -> loops_last m ->
  in_reach_form (a_P m) (a_inv m) (has_label m) init il tl fl ->
  exists m', save_and_load m = Ok m' /\ built m' /\ same_system m m' /\ in_reach_form (a_P m') (a_inv m') (has_label m') init il tl fl.
Proof.
  intros m init il tl fl B PL SD LL H. destruct (C48_roundtrip_lemma m B PL SD) as (m' & E & B' & SM). exists m'. split; [auto|]. split; [auto|]. split; [auto|].
  pose proof H as H0. unfold in_reach_form in H0. cbv zeta in H0. change (mcols (a_P m)) with (a_N m) in H0. change (mrows (a_P m)) with (a_C m) in H0.
  destruct H0 as (_ & N2 & C2 & _ & _ & _ & _ & ((a & p & L1 & _) & _) & ((b & q & L2 & _) & _) & _).
  destruct (reload_rows m B C2 LL m' E B' SM) as [R1 R2]; [|exact (same_form m m' init il tl fl B B' SM R1 R2 H)].
  intros _. unfold pair_of. rewrite L1, L2. auto.
Qed.
