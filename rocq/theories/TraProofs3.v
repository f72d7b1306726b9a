(** Proofs about loading explicit models: the systems. *)
From Coq Require Import String List Arith NArith ZArith QArith Qpower Bool Ascii Lia.
From Coq Require Lqa.
From Verif Require Import Base BaseFacts Num Matrix MatFacts InvDict InvDictProofs SpecSystem SpecBuilt SpecFiles SpecPrism SpecTra Amdp AmdpProofs BuiltFacts Files FilesProofs FilesProofs2 FilesProofs3 FilesProofs4 PrismProofs TraProofs TraProofs2.
Import ListNotations.
Local Open Scope nat_scope.

Lemma load_mdp_eq : forall f N C es, mdp_file f N C es -> exists L, Forall2 of_entry es L /\
  load_mdp f = (let* st := foldM tstep L (MkLoad (mzero C N) [] [] 0) in Ok (with_acts st (fold_left name_add es []))).
Proof.
  intros f N C es (h & ts & n & c & t & T & -> & H & Hn & Hc & Ht & F). destruct (rows_fold ts es F) as (O & L & FL & E). exists L. split; [exact FL|].
  destruct (natural_read _ _ Hn) as [Rn Cn]. destruct (natural_read _ _ Hc) as [Rc Cc]. destruct (natural_read _ _ Ht) as [_ Ct]. destruct (fields_words h _ H) as [W OH]; [repeat (constructor; [assumption|]); constructor|].
  unfold load_mdp. rewrite lines_file, read_file by (constructor; assumption). cbn [map]. rewrite W. unfold int_field, field. cbn [nth_error of_opt bind]. rewrite Rn, Rc. cbn [bind].
  change (MkLoad (mresize (mzero 1 1) C N) [] [] 0) with (with_acts (MkLoad (mzero C N) [] [] 0) []). apply E.
Qed.

Theorem C78_mdp_lemma : forall lab tra names rows N C es ps, lab_file lab names rows -> declared_once names rows -> mdp_file tra N C es -> well_formed N es -> pairs es ps -> length ps <= C ->
  let ok := length ps = C /\ probabilities es /\ (forall s a, In (s, a) ps -> near_one (given_sum N es s a)) in
  (ok -> exists m, from_file KMdp lab tra = Ok m /\ built m /\ described m KMdp N C es names rows /\ action_names m es) /\
  (~ ok -> from_file KMdp lab tra = Err AssertionError).
Proof.
  intros lab tra names rows N C es ps LF [DN DD] MF WE PS PC ok. destruct (lab_file_ok names rows DN DD lab LF) as (sets & L2 & L3 & L4 & L5). destruct (load_mdp_eq tra N C es MF) as (L & FL & EL).
  destruct (L_run N C es ps L WE PS PC FL) as (st & ER & I). rewrite ER in EL. cbn [bind] in EL. set (acts := fold_left name_add es []) in *.
  destruct (names_ok es []) as (A1 & A2 & A3); [constructor|intros l c X; discriminate X|]. fold acts in A1, A2, A3.
  pose proof (st_wf N C es ps L WE PS PC FL st I) as WF. pose proof (st_bid N C L st I) as BID. pose proof (st_valid N C es ps L WE PS PC FL st I) as V. unfold ok_mdp in V. fold ok in V.
  unfold from_file. rewrite L2. cbn [bind]. rewrite EL. cbn [bind with_acts l_P l_idx l_acts]. unfold mk_mdp. split.
  - intros OK. apply V in OK.
    destruct (proj2 (mk_abstract_iff KMdp (l_P st) (l_idx st) (mk_idict acts true) (mk_idict sets true) None WF (proj1 BID)) OK) as (m & E). exists m. split; [exact E|].
    assert (BU : built m). { apply built_new. exists (l_P st), (l_idx st), acts, sets, None. split; [|left; exact E]. split; [auto|]. split; [apply BID|]. split; [split; [exact A1|]|split; [auto|auto]]. intros l s X. eapply A2. apply (In_dget String.eqb String.eqb_spec); [exact A1|exact X]. }
    split; [exact BU|]. apply mk_abstract_inv in E; [|apply BID]. destruct E as (F1 & F2 & F3 & F4 & F5 & F6 & _). apply V in OK. destruct OK as (LC & _).
    assert (IN : forall i s a, a_inv m i = Some (s, a) <-> In ((s, a), i) (l_idx st)). { intros i s a. unfold a_inv. rewrite F3. split; [apply (binv_In Nat.eqb Nat.eqb_spec)|apply (In_binv Nat.eqb Nat.eqb_spec); exact BID]. }
    split.
    + split; [exact F1|]. split; [unfold a_N; rewrite F2; apply I|]. split; [unfold a_C; rewrite F2; apply I|]. split; [exact F4|]. split; [|split].
      * intros s a. rewrite <- (proj2 PS s a), <- (st_keys N C es ps L WE PS FL st I). rewrite in_map_iff. split.
        -- intros (i & Hi & X). apply IN in X. exists ((s, a), i). auto.
        -- intros ([sa i] & E & X). cbn in E. subst sa. exists i. split; [|apply IN; exact X]. pose proof (st_lt N C es ps L WE PS PC FL st I _ _ X). lia.
      * intros i s a d _ X _. apply IN in X. rewrite F2. apply (st_get N C es ps L WE PS PC FL st I s a i d X).
      * intros l s. unfold has_label, states_by_label. rewrite F6. apply L5.
    + intros l s a. unfold actions_by_label. rewrite F5. cbn [mk_idict fwd]. rewrite get_has, A3. split.
      * intros [(c & X & _)|(e & H1 & H2 & H3)]; [discriminate X|]. inversion H2. exists e. auto.
      * intros (e & H1 & <- & <- & H4). right. exists e. auto.
  - intros NOK. apply abstract_fails; [exact WF|exact BID|exact (st_src N C es L WE FL st I)|]. intros X. apply NOK. apply V. exact X.
Qed.

(** ** More pairs than announced *)
Definition pair_eq_dec : forall x y : nat * nat, {x = y} + {x <> y}.
Proof. decide equality; apply Nat.eq_dec. Defined.
Definition count (L : list triple) : nat := length (nodup pair_eq_dec (map (fun t => fst (fst t)) L)).
Lemma nodup_len_snoc : forall l (x : nat * nat), (In x l /\ length (nodup pair_eq_dec (l ++ [x])) = length (nodup pair_eq_dec l)) \/ (~ In x l /\ length (nodup pair_eq_dec (l ++ [x])) = S (length (nodup pair_eq_dec l))).
Proof.
  intros l x. assert (G : forall a b : list (nat * nat), NoDup a -> NoDup b -> (forall y, In y a <-> In y b) -> length a = length b).
  { intros a b Na Nb H. apply Nat.le_antisymm; apply NoDup_incl_length; auto; intros y; apply H. }
  destruct (in_dec pair_eq_dec x l) as [I|I]; [left|right]; (split; [exact I|]).
  - apply G; [apply NoDup_nodup|apply NoDup_nodup|]. intros y. rewrite !nodup_In, in_app_iff. cbn. split; [intros [X|[<-|[]]]; auto|auto].
  - change (S (length (nodup pair_eq_dec l))) with (length (x :: nodup pair_eq_dec l)). apply G; [apply NoDup_nodup|constructor; [rewrite nodup_In; exact I|apply NoDup_nodup]|]. intros y. cbn [In]. rewrite !nodup_In, in_app_iff. cbn. tauto.
Qed.
Lemma first_new : forall C L, C < count L -> exists pre t post, L = pre ++ t :: post /\ count pre = C /\ ~ In (fst (fst t)) (map (fun t => fst (fst t)) pre).
Proof.
  intros C L. induction L as [|t L IH] using rev_ind; intros H; [unfold count in H; cbn in H; lia|]. destruct (le_lt_dec (count L) C) as [LE|LT].
  - exists L, t, []. split; [reflexivity|]. unfold count in *. rewrite map_app in H. cbn [map] in H. destruct (nodup_len_snoc (map (fun t : triple => fst (fst t)) L) (fst (fst t))) as [[X E]|[X E]]; unfold triple in *; rewrite E in H; [lia|]. split; [lia|exact X].
  - destruct (IH LT) as (pre & u & post & -> & A & B). exists pre, u, (post ++ [t]). rewrite <- app_assoc. auto.
Qed.

Lemma nodup_app_left : forall A (a b : list A), NoDup (a ++ b) -> NoDup a.
Proof. induction a as [|x a IH]; intros b H; [constructor|]. cbn [app] in H. apply NoDup_cons_iff in H. destruct H as [H1 H2]. constructor; [intros X; apply H1; apply in_or_app; auto|eauto]. Qed.

Theorem C78_overflow_lemma : forall lab tra names rows N C es ps, lab_file lab names rows -> declared_once names rows -> mdp_file tra N C es -> well_formed N es -> pairs es ps -> C < length ps ->
  from_file KMdp lab tra = Err IndexError.
Proof.
  intros lab tra names rows N C es ps LF [DN DD] MF WE PS PC. destruct (lab_file_ok names rows DN DD lab LF) as (sets & L2 & _). destruct (load_mdp_eq tra N C es MF) as (L & FL & EL).
  unfold from_file. rewrite L2. cbn [bind]. rewrite EL. clear EL.
  assert (CN : C < count L).
  { eapply Nat.lt_le_trans; [exact PC|]. unfold count. apply NoDup_incl_length; [apply PS|]. intros [s a] X. apply nodup_In. apply (proj2 PS) in X. destruct X as (e & He & <- & <-). destruct (of_entry_back es L FL e He) as (q & Hq & _).
    apply in_map_iff. exists (((e_src e, e_act e), e_dst e), q). auto. }
  destruct (first_new C L CN) as (pre & t & post & -> & CP & NI). pose proof (of_entry_keys es _ FL (proj2 WE)) as KN.
  destruct (tfold_ok C N (nodup pair_eq_dec (map (fun t : triple => fst (fst t)) pre))) with (L := pre) as (st & E & I).
  - rewrite <- CP. apply le_n.
  - rewrite map_app in KN. apply nodup_app_left in KN. exact KN.
  - intros [s a] d q X. split; [apply nodup_In; apply in_map_iff; exists (((s, a), d), q); auto|]. destruct (of_entry_in es _ FL s a d q) as (e & He & K & _); [apply in_or_app; auto|]. unfold key in K. inversion K; subst. apply (proj1 WE e He).
  - rewrite foldM_app, E. cbn [bind foldM]. destruct t as [[sa d] q]. cbn [fst] in NI.
    assert (NK : ~ In sa (map fst (l_idx st))). { intros X. apply (li_keys _ _ _ _ I) in X. destruct X as (d' & q' & X). apply NI. apply in_map_iff. exists ((sa, d'), q'). auto. }
    assert (LEN : length (l_idx st) = C).
    { rewrite <- CP. unfold count. rewrite <- (map_length fst (l_idx st)). apply Nat.le_antisymm; apply NoDup_incl_length; [apply I| |apply NoDup_nodup|].
      - intros x X. apply nodup_In. apply (li_keys _ _ _ _ I) in X. destruct X as (d' & q' & X). apply in_map_iff. exists ((x, d'), q'). auto.
      - intros x X. apply nodup_In in X. apply in_map_iff in X. destruct X as ([[y d'] q'] & <- & X). apply (li_keys _ _ _ _ I). eauto. }
    assert (TE : tstep st (sa, d, q) = Err IndexError).
    { unfold tstep. rewrite (proj2 (dget_None pair_eqb pair_eqbP (l_idx st) sa)) by exact NK. unfold bput.
      assert (BN : binv Nat.eqb (l_idx st) (l_max st) = None). { apply (binv_None Nat.eqb Nat.eqb_spec). rewrite (li_snd _ _ _ _ I), in_seq, (li_max _ _ _ _ I). lia. }
      rewrite BN. cbn [bind]. unfold mset. rewrite (li_rows _ _ _ _ I), (li_max _ _ _ _ I), LEN, Nat.ltb_irrefl. reflexivity. }
    rewrite TE. reflexivity.
Qed.

(** ** Chains *)
Lemma dtmc_rows : forall ts es, Forall2 dtmc_row ts es -> Forall one_line ts /\ (forall e, In e es -> e_act e = 0) /\ exists L, Forall2 of_entry es L /\
  forall P, foldM (fun P line =>
      let ws := words line in
      match ws with
      | [w; _] => let* n := read_int w in Ok (mresize P n n)
      | _ => let* s := int_field ws 0 in let* d := int_field ws 1 in let* w := field ws 2 in let* p := read_float w in mset P s d p
      end) (map (fun t => t ++ [LF]) ts) P = foldM (fun P (e : nat * nat * Q) => mset P (fst (fst e)) (snd (fst e)) (snd e)) (map (fun t : triple => ((fst (fst (fst t)), snd (fst t)), snd t)) L) P.
Proof.
  induction 1 as [|t e ts es R F (O & Z & L & FL & IH)].
  - split; [constructor|]. split; [intros e []|]. exists []. split; [constructor|]. reflexivity.
  - destruct R as (Z0 & s & d & p & FF & Hs & Hd & Hp & Hn). destruct (number_read p _ Hp) as (q & Rq & Eq & Cp). destruct (natural_read _ _ Hs) as [Rs Cs]. destruct (natural_read _ _ Hd) as [Rd Cd].
    destruct (fields_words t _ FF) as [W Ot]. { repeat (constructor; [assumption|]). apply names_clean. exact Hn. }
    split; [constructor; auto|]. split; [intros x [<-|X]; auto|]. exists ((((e_src e, e_act e), e_dst e), q) :: L). split; [constructor; [split; [reflexivity|exact Eq]|exact FL]|].
    intros P. cbn [map foldM fst snd]. cbv zeta. rewrite W. cbn [app]. unfold int_field, field. cbn [nth_error of_opt bind]. rewrite Rs, Rd. cbn [bind]. rewrite Rq. cbn [bind].
    destruct (mset P (e_src e) (e_dst e) q) as [P'|x]; cbn [bind]; [apply IH|reflexivity].
Qed.

Theorem C78_dtmc_lemma : forall lab tra names rows N es, lab_file lab names rows -> declared_once names rows -> dtmc_file tra N es -> well_formed N es ->
  let ok := probabilities es /\ (forall s, s < N -> near_one (given_sum N es s 0)) in
  (ok -> exists m, from_file KDtmc lab tra = Ok m /\ built m /\ described m KDtmc N N es names rows) /\
  (~ ok -> from_file KDtmc lab tra = Err AssertionError).
Proof.
  intros lab tra names rows N es HLF [DN DD] (h & ts & n & t & T & -> & H & Hn & Ht & F) WE ok. destruct (lab_file_ok names rows DN DD lab HLF) as (sets & L2 & L3 & L4 & L5).
  destruct (dtmc_rows ts es F) as (O & Z & L & FL & EL). pose proof (proj2 WE) as KN. fold key in KN. change (NoDup (map key es)) in KN.
  destruct (natural_read _ _ Hn) as [Rn Cn]. destruct (natural_read _ _ Ht) as [_ Ct]. destruct (fields_words h _ H) as [W OH]; [repeat (constructor; [assumption|]); constructor|].
  set (LL := map (fun t : triple => ((fst (fst (fst t)), snd (fst t)), snd t)) L) in *.
  assert (IT : forall s d q, In ((s, d), q) LL -> exists e, In e es /\ key e = (s, 0, d) /\ (q == e_prob e)%Q).
  { intros s d q X. apply in_map_iff in X. destruct X as ([[[s' a'] d'] q'] & E & X). cbn in E. inversion E; subst. destruct (of_entry_in es L FL s a' d q X) as (e & He & K & Eq). exists e. split; [exact He|]. split; [|exact Eq]. rewrite K. unfold key in K. inversion K; subst. rewrite (Z e He). reflexivity. }
  assert (BK : forall e, In e es -> exists q, In ((e_src e, e_dst e), q) LL /\ (q == e_prob e)%Q).
  { intros e He. destruct (of_entry_back es L FL e He) as (q & X & Eq). exists q. split; [|exact Eq]. apply in_map_iff. exists (((e_src e, e_act e), e_dst e), q). auto. }
  destruct (dfold_ok N LL) as (P & E & R1 & R2 & R3 & R4).
  - pose proof (of_entry_keys es L FL KN) as KL. assert (A0 : forall x, In x L -> snd (fst (fst x)) = 0). { intros [[[s a] d] q] X. destruct (of_entry_in es L FL s a d q X) as (e & He & K & _). unfold key in K. inversion K; subst. apply (Z e He). }
    unfold LL. rewrite map_map. cbn [fst]. clear -KL A0. induction L as [|[[[s a] d] q] L IH]; [constructor|]. cbn [map] in *. inversion KL; subst. constructor; [|apply IH; [assumption|intros x X; apply A0; right; exact X]].
    cbn [fst snd]. intros X. apply in_map_iff in X. destruct X as ([[[s' a'] d'] q'] & E & X). cbn in E. inversion E; subst. apply H1. pose proof (A0 _ (or_introl eq_refl)) as Y1. pose proof (A0 _ (or_intror X)) as Y2. cbn in Y1, Y2. subst. apply in_map_iff. exists (((s, 0), d), q'). auto.
  - intros s d q X. destruct (IT s d q X) as (e & He & K & _). unfold key in K. inversion K; subst. apply (proj1 WE e He).
  - assert (LD : load_dtmc (lines (h :: ts)) = Ok P).
    { unfold load_dtmc. rewrite lines_file, read_file by (constructor; assumption). cbn [map foldM]. rewrite W. rewrite Rn. cbn [bind]. change (mresize (mzero 1 1) N N) with (mzero N N). rewrite EL. exact E. }
    assert (WF : wf_mat P). { split; [exact R3|]. intros s d q X. apply R4 in X. destruct X as [X1 X2]. rewrite R1, R2. destruct (IT s d q X1) as (e & He & K & _). unfold key in K. inversion K; subst. destruct (proj1 WE e He) as [Y1 Y2]. auto. }
    assert (GET : forall s d, (mget P s d == given_prob es s 0 d)%Q).
    { intros s d. destruct (Qeq_dec (mget P s d) 0) as [Z0|NZ].
      - rewrite Z0. destruct (existsb (fun e => (e_src e =? s) && (e_act e =? 0) && (e_dst e =? d)) es) eqn:X.
        + apply existsb_exists in X. destruct X as (e & He & K). apply key_test in K. unfold key in K. injection K as K1 K2 K3. assert (G0 : (given_prob es s 0 d == e_prob e)%Q) by (rewrite <- K1, <- K3, <- K2; apply gp_in; auto). rewrite G0. destruct (BK e He) as (q & Hq & Eq). rewrite <- Eq.
          destruct (Qeq_dec q 0) as [Z2|N2]; [rewrite Z2; reflexivity|]. exfalso. assert (Y : In ((e_src e, e_dst e), q) (mitems P)) by (apply R4; auto). apply (mget_In _ _ _ _ WF) in Y. rewrite K1, K3 in Y. rewrite Y in Z0. auto.
        + rewrite gp_out; [reflexivity|]. intros e He K. apply key_test in K. assert (Y : existsb (fun e => (e_src e =? s) && (e_act e =? 0) && (e_dst e =? d)) es = true) by (apply existsb_exists; exists e; auto). congruence.
      - apply mget_nonzero in NZ. apply R4 in NZ. destruct NZ as (H1 & H2). destruct (IT s d _ H1) as (e & He & K & Eq). rewrite Eq. unfold key in K. injection K as K1 K2 K3. rewrite <- K1, <- K3, <- K2. symmetry. apply gp_in; auto. }
    assert (TOT : forall s, (row_total P s == given_sum N es s 0)%Q).
    { intros s. unfold row_total, given_sum. rewrite R2. clear -GET. induction (seq 0 N) as [|d l IH]; [reflexivity|]. cbn [map sumQ fold_right]. fold (sumQ (map (mget P s) l)). fold (sumQ (map (given_prob es s 0) l)). rewrite IH, GET. reflexivity. }
    set (idx := map (fun i => ((i, 0), i)) (seq 0 N)). assert (BID : bid_ok idx) by (split; apply diag_nodup).
    assert (II : forall s a i, In ((s, a), i) idx <-> i < N /\ s = i /\ a = 0). { intros s a i. unfold idx. rewrite in_map_iff. split; [intros (x & X & Y); inversion X; subst; apply in_seq in Y; lia|intros (X & -> & ->); exists i; split; [reflexivity|apply in_seq; lia]]. }
    assert (SRC : forall i d p, In ((i, d), p) (mitems P) -> exists s a, In ((s, a), i) idx /\ s < mcols P). { intros i d p X. apply WF in X. rewrite R1, R2 in *. exists i, 0. split; [apply II; lia|lia]. }
    assert (V : ok <-> valid_system P idx None).
    { split.
      - intros (PR & SU). split; [apply BID|]. split; [|split; [|split; [intros r X; discriminate X|exact SRC]]].
        + intros i Hi. rewrite R1 in Hi. apply (near_ext (given_sum N es i 0)); [symmetry; apply TOT|apply SU; exact Hi].
        + intros i d p X. apply R4 in X. destruct X as [X _]. destruct (IT i d p X) as (e & He & _ & Eq). rewrite Eq. apply (PR e He).
      - intros (_ & SU & PR & _ & _). split.
        + intros e He. destruct (BK e He) as (q & Hq & Eq). rewrite <- Eq. destruct (Qeq_dec q 0) as [Z0|NZ]; [rewrite Z0; split; Lqa.lra|]. apply (PR (e_src e) (e_dst e) q). apply R4. auto.
        + intros s Hs. apply (near_ext (row_total P s)); [apply TOT|apply SU; lia]. }
    unfold from_file. rewrite L2. cbn [bind]. rewrite LD. cbn [bind]. unfold mk_dtmc. assert (SQ : mrows P =? mcols P = true) by (apply Nat.eqb_eq; lia). rewrite SQ. cbn [assert_ bind]. rewrite R1. fold idx. split.
    + intros OK. pose proof OK as OK0. apply V in OK. destruct (proj2 (mk_abstract_iff KDtmc P idx (mk_idict [] true) (mk_idict sets true) None WF (proj1 BID)) OK) as (m & EM). exists m. split; [exact EM|].
      assert (BU : built m). { apply built_new. exists P, idx, [], sets, None. split.
        - split; [auto|]. split; [apply BID|]. split; [split; [constructor|intros l s []]|]. split; auto.
        - right; right. unfold mk_dtmc. rewrite SQ. cbn [assert_ bind]. rewrite R1. exact EM. }
      split; [exact BU|]. apply mk_abstract_inv in EM; [|apply BID]. destruct EM as (F1 & F2 & F3 & F4 & F5 & F6 & _).
      assert (IN : forall i s a, a_inv m i = Some (s, a) <-> i < N /\ s = i /\ a = 0). { intros i s a. unfold a_inv. rewrite F3, <- II. split; [apply (binv_In Nat.eqb Nat.eqb_spec)|apply (In_binv Nat.eqb Nat.eqb_spec); exact BID]. }
      split; [exact F1|]. split; [unfold a_N; rewrite F2; exact R2|]. split; [unfold a_C; rewrite F2; exact R1|]. split; [exact F4|]. split; [|split].
      * intros s a. split.
        -- intros (i & Hi & X). apply IN in X. destruct X as (_ & -> & ->). destruct OK0 as [_ SU]. specialize (SU i Hi).
           destruct (existsb (fun e => e_src e =? i) es) eqn:X; [apply existsb_exists in X; destruct X as (e & He & X); apply Nat.eqb_eq in X; exists e; split; [exact He|]; split; [exact X|apply Z; exact He]|].
           exfalso. assert (Z0 : (given_sum N es i 0 == 0)%Q). { unfold given_sum. apply sumQ_zero. intros d _. apply gp_out. intros e He K. unfold key in K. injection K as K1 K2 K3. assert (Y : existsb (fun e => e_src e =? i) es = true) by (apply existsb_exists; exists e; split; [exact He|apply Nat.eqb_eq; exact K1]). congruence. }
           unfold near_one in SU. rewrite Z0 in SU. vm_compute in SU. congruence.
        -- intros (e & He & <- & <-). exists (e_src e). destruct (proj1 WE e He) as [X _]. split; [exact X|]. apply IN. split; [exact X|]. split; [reflexivity|apply Z; exact He].
      * intros i s a d _ X _. apply IN in X. destruct X as (_ & -> & ->). rewrite F2. apply GET.
      * intros l s. unfold has_label, states_by_label. rewrite F6. apply L5.
    + intros NOK. apply abstract_fails; [exact WF|exact BID|exact SRC|]. intros X. apply NOK. apply V. exact X.
Qed.
