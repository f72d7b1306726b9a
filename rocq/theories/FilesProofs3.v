(** Proofs about reading and writing: transition files. *)
From Coq Require Import String List Arith NArith ZArith QArith Qabs Bool Ascii Lia.
From Coq Require Lqa.
From Verif Require Import Base BaseFacts Num Matrix MatFacts InvDict SpecSystem SpecBuilt SpecFiles Amdp AmdpProofs ReachFormProofs BuiltFacts Files FilesProofs FilesProofs2.
Import ListNotations.
Local Open Scope nat_scope.

Definition pair_of (m : amdp) (i : nat) : nat * nat := match a_inv m i with Some sa => sa | None => (0, 0) end.

(** ** Writing *)
Definition mdp_line (m : amdp) (e : nat * nat * Q) : text :=
  let '((i, d), p) := e in join [show_nat (fst (pair_of m i)); show_nat (snd (pair_of m i)); show_nat d; show_f p].
Definition dtmc_line (m : amdp) (e : nat * nat * Q) : text :=
  let '((i, d), p) := e in join [show_nat (fst (pair_of m i)); show_nat d; show_f p].

Section Save.
  Variable m : amdp.
  Hypothesis OK : sys_ok m.

  Lemma item_facts : forall i d p, In ((i, d), p) (mitems (a_P m)) -> i < a_C m /\ d < a_N m /\ (0 < p)%Q /\ (p <= 1)%Q /\ exists s a, a_inv m i = Some (s, a) /\ s < a_N m.
  Proof.
    intros i d p H. destruct OK as (WF & KN & V & _). destruct WF as [WN WI]. destruct (WI i d p H) as (A & B & C). destruct V as (V1 & V2 & V3 & V4 & V5).
    destruct (V3 i d p H) as [D E]. destruct (V5 i d p H) as (s & a & F & G). split; [exact A|]. split; [exact B|]. split. { apply Qle_lteq in D. destruct D as [D|D]; auto. exfalso. apply C. symmetry. auto. }
    split; [auto|]. exists s, a. split; [|exact G]. apply (In_binv Nat.eqb Nat.eqb_spec); [split; auto|auto].
  Qed.

  Lemma save_mdp_ok : a_kind m = KMdp -> save_tra m = Ok (file_of (join [show_nat (a_N m); show_nat (a_C m); show_nat (length (mitems (a_P m)))] :: map (mdp_line m) (mitems (a_P m)))).
  Proof.
    intros K. unfold save_tra. rewrite K.
    assert (G : forall l t, incl l (mitems (a_P m)) -> foldM (fun t (e : nat * nat * Q) => let '((i, d), p) := e in
               if Qlt_bool 0 p then let* (s, a) := of_opt KeyError (a_inv m i) in Ok (t ++ join [show_nat s; show_nat a; show_nat d; show_f p] ++ [LF]) else Ok t) l t =
             Ok (t ++ file_of (map (mdp_line m) l))).
    { induction l as [|[[i d] p] l IH]; intros t H; [cbn; rewrite app_nil_r; auto|]. destruct (item_facts i d p) as (_ & _ & P0 & _ & s & a & E & _); [apply H; left; auto|].
      cbn [foldM]. replace (Qlt_bool 0 p) with true. 2:{ symmetry. unfold Qlt_bool. apply negb_true_iff. destruct (Qle_bool p 0) eqn:X; auto. apply Qle_bool_iff in X. exfalso. apply (Qlt_irrefl 0). eapply Qlt_le_trans; eauto. }
      rewrite E. cbn [of_opt bind]. rewrite IH by (intros x Hx; apply H; right; auto). f_equal. cbn [map]. unfold file_of. cbn [map concat]. unfold mdp_line at 2. unfold pair_of. rewrite E. cbn [fst snd]. rewrite <- !app_assoc. reflexivity. }
    rewrite G by apply incl_refl. reflexivity.
  Qed.
  Lemma save_dtmc_ok : a_kind m = KDtmc -> save_tra m = Ok (file_of (join [show_nat (a_N m); show_nat (length (mitems (a_P m)))] :: map (dtmc_line m) (mitems (a_P m)))).
  Proof.
    intros K. unfold save_tra. rewrite K.
    assert (G : forall l t, incl l (mitems (a_P m)) -> foldM (fun t (e : nat * nat * Q) => let '((i, d), p) := e in
               let* (s, _) := of_opt KeyError (a_inv m i) in Ok (t ++ join [show_nat s; show_nat d; show_f p] ++ [LF])) l t =
             Ok (t ++ file_of (map (dtmc_line m) l))).
    { induction l as [|[[i d] p] l IH]; intros t H; [cbn; rewrite app_nil_r; auto|]. destruct (item_facts i d p) as (_ & _ & P0 & _ & s & a & E & _); [apply H; left; auto|].
      cbn [foldM]. rewrite E. cbn [of_opt bind]. rewrite IH by (intros x Hx; apply H; right; auto). f_equal. cbn [map]. unfold file_of. cbn [map concat]. unfold dtmc_line at 2. unfold pair_of. rewrite E. cbn [fst snd]. rewrite <- !app_assoc. reflexivity. }
    rewrite G by apply incl_refl. reflexivity.
  Qed.

  Lemma clean_list : forall ws, Forall clean ws -> one_line (join ws).
  Proof. intros ws H. apply join_line. intros w Hw. rewrite Forall_forall in H. apply clean_line. apply H. auto. Qed.
  Lemma mdp_line_words : forall i d p, words (mdp_line m ((i, d), p) ++ [LF]) = [show_nat (fst (pair_of m i)); show_nat (snd (pair_of m i)); show_nat d; show_f p].
  Proof. intros. unfold mdp_line. apply words_join. repeat (constructor; [first [apply show_clean|apply show_f_clean]|]). constructor. Qed.
  Lemma dtmc_line_words : forall i d p, words (dtmc_line m ((i, d), p) ++ [LF]) = [show_nat (fst (pair_of m i)); show_nat d; show_f p].
  Proof. intros. unfold dtmc_line. apply words_join. repeat (constructor; [first [apply show_clean|apply show_f_clean]|]). constructor. Qed.
End Save.

(** ** Reading transitions *)
Lemma ddel_fresh : forall (d : dict (nat * nat) Q) k, ~ In k (map fst d) -> ddel pair_eqb d k = d.
Proof.
  induction d as [|[k' v] d IH]; intros k H; [auto|]. cbn [ddel]. destruct (pair_eqbP k k') as [->|N]; [exfalso; apply H; left; auto|]. f_equal. apply IH. intros X. apply H. right. auto.
Qed.
Lemma mset_fresh : forall P i d q, i < mrows P -> d < mcols P -> ~ In (i, d) (map fst (mitems P)) ->
  mset P i d q = Ok (MkMat (mrows P) (mcols P) (if Qeq_bool q 0 then mitems P else mitems P ++ [((i, d), q)])).
Proof.
  intros P i d q A B H. unfold mset. rewrite (proj2 (Nat.ltb_lt _ _) A), (proj2 (Nat.ltb_lt _ _) B). cbn [andb]. rewrite ddel_fresh by auto.
  rewrite (dset_fresh pair_eqb pair_eqbP) by auto. reflexivity.
Qed.

(** Entries of a list of triples. *)
Definition triple : Type := (nat * nat) * nat * Q.

Section LoadMdp.
  Variable C N : nat.
  Definition tstep (st : load_state) (t : triple) : res load_state :=
    let '((sa, d), q) := t in
    let* (i, idx, mx) := match dget pair_eqb (l_idx st) sa with
                         | Some i => Ok (i, l_idx st, l_max st)
                         | None => let* idx := bput pair_eqb Nat.eqb (l_idx st) sa (l_max st) in Ok (l_max st, idx, S (l_max st))
                         end in
    let* P := mset (l_P st) i d q in
    Ok (MkLoad P idx (l_acts st) mx).

  Variable D : list (nat * nat).
  Hypothesis DC : length D <= C.
  Variable L : list triple.
  Hypothesis LN : NoDup (map fst L).
  Hypothesis LD : forall sa d q, In ((sa, d), q) L -> In sa D /\ d < N.

  Record linv (pre : list triple) (st : load_state) : Prop := {
    li_rows : mrows (l_P st) = C; li_cols : mcols (l_P st) = N; li_acts : l_acts st = [];
    li_max : l_max st = length (l_idx st); li_snd : map snd (l_idx st) = seq 0 (length (l_idx st)); li_fst : NoDup (map fst (l_idx st));
    li_keys : forall sa, In sa (map fst (l_idx st)) <-> exists d q, In ((sa, d), q) pre;
    li_nd : NoDup (map fst (mitems (l_P st)));
    li_items : forall k d q, In ((k, d), q) (mitems (l_P st)) <-> exists sa, In (sa, k) (l_idx st) /\ In ((sa, d), q) pre /\ ~ (q == 0)%Q }.

  Lemma in_snoc : forall A (l : list A) x y, In x (l ++ [y]) <-> In x l \/ x = y.
  Proof. intros. rewrite in_app_iff. simpl. split; intros [H|H]; auto. destruct H; auto; tauto. Qed.

  Lemma tstep_ok : forall pre t st, linv pre st -> (exists post, L = pre ++ t :: post) -> exists st', tstep st t = Ok st' /\ linv (pre ++ [t]) st'.
  Proof.
    intros pre [[sa d] q] st I (post & EL).
    assert (IT : In ((sa, d), q) L) by (rewrite EL; apply in_or_app; right; left; auto). destruct (LD sa d q IT) as [HD HN].
    assert (FR : forall q', ~ In ((sa, d), q') pre).
    { intros q' X. rewrite EL, map_app in LN. apply NoDup_remove_2 in LN. apply LN. apply in_or_app. left. apply in_map_iff. exists ((sa, d), q'). auto. }
    assert (SUB : forall sa', In sa' (map fst (l_idx st)) -> In sa' D).
    { intros sa' X. apply (li_keys _ _ I) in X. destruct X as (d' & q' & X). apply (LD sa' d' q'). rewrite EL. apply in_or_app. auto. }
    assert (KL : forall sa' k, In (sa', k) (l_idx st) -> k < length (l_idx st)).
    { intros sa' k X. assert (In k (map snd (l_idx st))) by (apply in_map_iff; exists (sa', k); auto). rewrite (li_snd _ _ I) in H. apply in_seq in H. lia. }
    assert (BID : NoDup (map snd (l_idx st))) by (rewrite (li_snd _ _ I); apply seq_NoDup).
    assert (SND : forall sa1 sa2 k, In (sa1, k) (l_idx st) -> In (sa2, k) (l_idx st) -> sa1 = sa2).
    { clear - BID. induction (l_idx st) as [|[x y] l IH]; intros sa1 sa2 k H1 H2; [destruct H1|]. simpl in BID. inversion BID; subst.
      destruct H1 as [H1|H1], H2 as [H2|H2]; [congruence| | |eauto].
      - inversion H1; subst. exfalso. apply H3. apply in_map_iff. exists (sa2, k). auto.
      - inversion H2; subst. exfalso. apply H3. apply in_map_iff. exists (sa1, k). auto. }
    unfold tstep. destruct (dget pair_eqb (l_idx st) sa) as [i|] eqn:E.
    - (* known pair *)
      assert (Ei : In (sa, i) (l_idx st)) by (apply (dget_In pair_eqb pair_eqbP); auto). pose proof (KL _ _ Ei) as Li.
      assert (LC : length (l_idx st) <= C). { rewrite <- (map_length fst). etransitivity; [|exact DC]. apply NoDup_incl_length; [apply (li_fst _ _ I)|exact SUB]. }
      cbn [bind]. rewrite mset_fresh; [|rewrite (li_rows _ _ I); lia|rewrite (li_cols _ _ I); lia|].
      2:{ intros X. apply in_map_iff in X. destruct X as ([k q'] & X1 & X2). simpl in X1. subst k. apply (li_items _ _ I) in X2. destruct X2 as (sa' & Y1 & Y2 & _).
          rewrite (SND _ _ _ Y1 Ei) in Y2. apply (FR q' Y2). }
      cbn [bind]. eexists. split; [reflexivity|]. constructor; cbn [l_P l_idx l_acts l_max mrows mcols mitems]; try apply I.
      + intros sa'. rewrite (li_keys _ _ I). split; [intros (d' & q' & X); exists d', q'; apply in_snoc; auto|]. intros (d' & q' & X). apply in_snoc in X. destruct X as [X|X]; [eauto|].
        inversion X; subst. apply (li_keys _ _ I). apply in_map_iff. exists (sa, i). auto.
      + destruct (Qeq_bool q 0); [apply I|]. rewrite map_app. cbn [map]. apply NoDup_snoc_iff. split; [apply I|]. simpl. intros X. apply in_map_iff in X. destruct X as ([k q'] & X1 & X2). simpl in X1. subst k.
        apply (li_items _ _ I) in X2. destruct X2 as (sa' & Y1 & Y2 & _). rewrite (SND _ _ _ Y1 Ei) in Y2. apply (FR q' Y2).
      + intros k d' q'. destruct (Qeq_bool q 0) eqn:Eq.
        * rewrite (li_items _ _ I). apply Qeq_bool_iff in Eq. split; intros (sa' & A1 & A2 & A3); exists sa'; (split; [auto|]); (split; [|auto]); [apply in_snoc; auto|]. apply in_snoc in A2. destruct A2 as [A2|A2]; [auto|inversion A2; subst; contradiction].
        * assert (NZ : ~ (q == 0)%Q) by (intros X; apply Qeq_bool_iff in X; congruence). rewrite in_snoc, (li_items _ _ I). split.
          -- intros [(sa' & A1 & A2 & A3)|X]; [exists sa'; split; [auto|]; split; [apply in_snoc; auto|auto]|]. inversion X; subst. exists sa. split; [auto|]. split; [apply in_snoc; auto|auto].
          -- intros (sa' & A1 & A2 & A3). apply in_snoc in A2. destruct A2 as [A2|A2]; [left; eauto|]. right. inversion A2; subst. f_equal. f_equal.
             clear - Ei A1 I. pose proof (li_fst _ _ I) as F. clear I. induction (l_idx st) as [|[x y] l IH]; [destruct Ei|]. simpl in F. inversion F; subst. destruct Ei as [Ei|Ei], A1 as [A1|A1]; [congruence| | |auto].
             ++ inversion Ei; subst. exfalso. apply H1. apply in_map_iff. exists (sa, k). auto.
             ++ inversion A1; subst. exfalso. apply H1. apply in_map_iff. exists (sa, i). auto.
    - (* new pair *)
      apply (dget_None pair_eqb pair_eqbP) in E. unfold dkeys in E.
      assert (LC : length (l_idx st) < C).
      { assert (X : length (sa :: map fst (l_idx st)) <= length D). { apply NoDup_incl_length; [constructor; [auto|apply I]|]. intros x [<-|Hx]; auto. } simpl in X. rewrite map_length in X. lia. }
      unfold bput. assert (BN : binv Nat.eqb (l_idx st) (l_max st) = None). { apply (binv_None Nat.eqb Nat.eqb_spec). rewrite (li_snd _ _ I), in_seq, (li_max _ _ I). lia. }
      rewrite BN. cbn [bind]. rewrite (dset_fresh pair_eqb pair_eqbP) by auto.
      assert (FRK : ~ In (l_max st, d) (map fst (mitems (l_P st)))).
      { intros X. apply in_map_iff in X. destruct X as ([k q'] & X1 & X2). simpl in X1. subst k. apply (li_items _ _ I) in X2. destruct X2 as (sa' & Y1 & _). apply KL in Y1. rewrite (li_max _ _ I) in Y1. lia. }
      rewrite mset_fresh; [|rewrite (li_rows _ _ I), (li_max _ _ I); lia|rewrite (li_cols _ _ I); lia|auto].
      cbn [bind]. eexists. split; [reflexivity|]. constructor; cbn [l_P l_idx l_acts l_max mrows mcols mitems]; try apply I.
      + rewrite app_length, (li_max _ _ I). simpl. lia.
      + rewrite map_app, app_length, (li_snd _ _ I). cbn [map length snd]. rewrite (li_max _ _ I), Nat.add_1_r, seq_S. reflexivity.
      + rewrite map_app. cbn [map fst]. apply NoDup_snoc_iff. split; [apply I|auto].
      + intros sa'. rewrite map_app. cbn [map fst]. rewrite in_snoc, (li_keys _ _ I). split.
        * intros [(d' & q' & X)|X]; [exists d', q'; apply in_snoc; auto|subst; exists d, q; apply in_snoc; auto].
        * intros (d' & q' & X). apply in_snoc in X. destruct X as [X|X]; [eauto|inversion X; auto].
      + destruct (Qeq_bool q 0); [apply I|]. rewrite map_app. cbn [map fst]. apply NoDup_snoc_iff. split; [apply I|auto].
      + intros k d' q'.
        assert (OLD : In ((k, d'), q') (mitems (l_P st)) <-> exists sa', In (sa', k) (l_idx st ++ [(sa, l_max st)]) /\ In ((sa', d'), q') pre /\ ~ (q' == 0)%Q).
        { rewrite (li_items _ _ I). split; intros (sa' & A1 & A2 & A3); exists sa'; (split; [|auto]); [apply in_snoc; auto|]. apply in_snoc in A1. destruct A1 as [A1|A1]; auto. inversion A1; subst.
          exfalso. apply E. apply (li_keys _ _ I). eauto. }
        destruct (Qeq_bool q 0) eqn:Eq.
        * rewrite OLD. apply Qeq_bool_iff in Eq. split; intros (sa' & A1 & A2 & A3); exists sa'; (split; [auto|]); (split; [|auto]); [apply in_snoc; auto|]. apply in_snoc in A2. destruct A2 as [A2|A2]; [auto|inversion A2; subst; contradiction].
        * assert (NZ : ~ (q == 0)%Q) by (intros X; apply Qeq_bool_iff in X; congruence). rewrite in_snoc, OLD. split.
          -- intros [(sa' & A1 & A2 & A3)|X]; [exists sa'; split; [auto|]; split; [apply in_snoc; auto|auto]|]. inversion X; subst. exists sa. split; [apply in_snoc; auto|]. split; [apply in_snoc; auto|auto].
          -- intros (sa' & A1 & A2 & A3). apply in_snoc in A2. destruct A2 as [A2|A2]; [left; eauto|]. right. inversion A2; subst. apply in_snoc in A1. destruct A1 as [A1|A1]; [|inversion A1; auto].
             exfalso. apply E. apply in_map_iff. exists (sa, k). auto.
  Qed.

  Lemma tfold_ok : exists st, foldM tstep L (MkLoad (mzero C N) [] [] 0) = Ok st /\ linv L st.
  Proof.
    apply foldM_ok; [|exact tstep_ok]. constructor; simpl; auto; try constructor.
    - intros []. - intros (d & q & []). - intros []. - intros (sa & [] & _).
  Qed.
End LoadMdp.

Section LoadDtmc.
  Variable N : nat.
  Variable L : list (nat * nat * Q).
  Hypothesis LN : NoDup (map fst L).
  Hypothesis LB : forall s d q, In ((s, d), q) L -> s < N /\ d < N.
  Lemma dfold_ok : exists P, foldM (fun P (e : nat * nat * Q) => mset P (fst (fst e)) (snd (fst e)) (snd e)) L (mzero N N) = Ok P /\ mrows P = N /\ mcols P = N /\ NoDup (map fst (mitems P)) /\
    forall s d q, In ((s, d), q) (mitems P) <-> In ((s, d), q) L /\ ~ (q == 0)%Q.
  Proof.
    apply foldM_ok with (I := fun pre P => mrows P = N /\ mcols P = N /\ NoDup (map fst (mitems P)) /\ forall s d q, In ((s, d), q) (mitems P) <-> In ((s, d), q) pre /\ ~ (q == 0)%Q).
    - simpl. split; [auto|]. split; [auto|]. split; [constructor|]. intros. tauto.
    - intros pre [[s d] q] P (I1 & I2 & I3 & I4) (post & EL). cbn [fst snd]. destruct (LB s d q) as [B1 B2]; [rewrite EL; apply in_or_app; right; left; auto|].
      assert (FR : forall q', ~ In ((s, d), q') pre).
      { intros q' X. rewrite EL, map_app in LN. apply NoDup_remove_2 in LN. apply LN. apply in_or_app. left. apply in_map_iff. exists ((s, d), q'). auto. }
      assert (FI : ~ In (s, d) (map fst (mitems P))). { intros X. apply in_map_iff in X. destruct X as ([k q'] & X1 & X2). simpl in X1. subst. apply I4 in X2. eapply FR. apply X2. }
      rewrite mset_fresh by (auto; lia). eexists. split; [reflexivity|]. cbn [mrows mcols mitems]. split; [auto|]. split; [auto|]. split.
      + destruct (Qeq_bool q 0); [auto|]. rewrite map_app. cbn [map fst]. apply NoDup_snoc_iff. auto.
      + intros s' d' q'. rewrite in_snoc. destruct (Qeq_bool q 0) eqn:Eq.
        * apply Qeq_bool_iff in Eq. rewrite I4. split; [tauto|]. intros [[X|X] Y]; [auto|inversion X; subst; contradiction].
        * assert (NZ : ~ (q == 0)%Q) by (intros X; apply Qeq_bool_iff in X; congruence). rewrite in_snoc, I4. split; [intros [X|X]; [tauto|inversion X; subst; auto]|intros [[X|X] Y]; auto].
  Qed.
End LoadDtmc.
