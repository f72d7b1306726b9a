(** Proofs about loading explicit models: transitions and systems. *)
From Coq Require Import String List Arith NArith ZArith QArith Qpower Bool Ascii Lia.
From Coq Require Lqa.
From Verif Require Import Base BaseFacts Num Matrix MatFacts InvDict InvDictProofs SpecSystem SpecBuilt SpecFiles SpecPrism SpecTra Amdp AmdpProofs BuiltFacts Files FilesProofs FilesProofs2 FilesProofs3 FilesProofs4 PrismProofs TraProofs.
Import ListNotations.
Local Open Scope nat_scope.

(** ** Probabilities of a list of entries *)
Definition key (e : entry) : nat * nat * nat := (e_src e, e_act e, e_dst e).
Lemma key_test : forall e s a d, (e_src e =? s) && (e_act e =? a) && (e_dst e =? d) = true <-> key e = (s, a, d).
Proof. intros. unfold key. rewrite !andb_true_iff, !Nat.eqb_eq. split; [intros [[-> ->] ->]; reflexivity|intros E; inversion E; auto]. Qed.
Lemma gp_out : forall es s a d, (forall e, In e es -> key e <> (s, a, d)) -> (given_prob es s a d == 0)%Q.
Proof.
  intros es s a d H. unfold given_prob. replace (filter _ es) with (@nil entry); [reflexivity|]. symmetry. induction es as [|e es IH]; [reflexivity|]. cbn [filter].
  destruct ((e_src e =? s) && (e_act e =? a) && (e_dst e =? d)) eqn:E; [apply key_test in E; exfalso; apply (H e (or_introl eq_refl) E)|]. apply IH. intros x I. apply H. right. exact I.
Qed.
Lemma gp_in : forall es e, NoDup (map key es) -> In e es -> (given_prob es (e_src e) (e_act e) (e_dst e) == e_prob e)%Q.
Proof.
  induction es as [|x es IH]; intros e N I; [destruct I|]. cbn [map] in N. inversion N; subst. unfold given_prob. cbn [filter].
  destruct ((e_src x =? e_src e) && (e_act x =? e_act e) && (e_dst x =? e_dst e)) eqn:E.
  - apply key_test in E. fold (key e) in E. destruct I as [->|I]; [|exfalso; apply H1; rewrite E; apply in_map; exact I].
    cbn [map sumQ fold_right]. fold (sumQ (map e_prob (filter (fun x => (e_src x =? e_src e) && (e_act x =? e_act e) && (e_dst x =? e_dst e)) es))).
    fold (given_prob es (e_src e) (e_act e) (e_dst e)). rewrite gp_out; [ring|]. intros y Hy K. apply H1. fold (key e) in K. rewrite <- K. apply in_map. exact Hy.
  - destruct I as [->|I]; [|apply (IH e H2 I)]. exfalso. assert (X : (e_src e =? e_src e) && (e_act e =? e_act e) && (e_dst e =? e_dst e) = true) by (apply key_test; reflexivity). congruence.
Qed.

(** ** Lines *)
Definition of_entry (e : entry) (t : triple) : Prop := fst t = ((e_src e, e_act e), e_dst e) /\ (snd t == e_prob e)%Q.
Definition with_acts (st : load_state) (acts : dict string (list (nat * nat))) : load_state := MkLoad (l_P st) (l_idx st) acts (l_max st).
Definition name_add (acts : dict string (list (nat * nat))) (e : entry) : dict string (list (nat * nat)) :=
  match e_name e with Some l => side_add String.eqb pair_eqb acts (unstr l) (e_src e, e_act e) | None => acts end.

Lemma row_words : forall t e, mdp_row t e -> exists q, (q == e_prob e)%Q /\ one_line t /\
  forall st acts, load_line (with_acts st acts) (t ++ [LF]) = (let* st' := tstep st (((e_src e, e_act e), e_dst e), q) in Ok (with_acts st' (name_add acts e))).
Proof.
  intros t e (s & a & d & p & F & Hs & Ha & Hd & Hp & Hn). destruct (number_read p _ Hp) as (q & Rq & Eq & Cp).
  destruct (natural_read _ _ Hs) as [Rs Cs]. destruct (natural_read _ _ Ha) as [Ra Ca]. destruct (natural_read _ _ Hd) as [Rd Cd].
  destruct (fields_words t _ F) as [W O]. { repeat (constructor; [assumption|]). apply names_clean. exact Hn. }
  exists q. split; [exact Eq|]. split; [exact O|]. intros st acts. unfold load_line. rewrite W. cbn [app]. unfold int_field, field. cbn [nth_error of_opt bind]. rewrite Rs, Ra, Rd. cbn [bind]. rewrite Rq. cbn [bind].
  unfold name_add.
  unfold tstep. cbn [l_P l_idx l_max with_acts]. destruct (dget pair_eqb (l_idx st) (e_src e, e_act e)) as [i|].
  - cbn [bind]. destruct (mset (l_P st) i (e_dst e) q); destruct (e_name e); reflexivity.
  - destruct (bput pair_eqb Nat.eqb (l_idx st) (e_src e, e_act e) (l_max st)) as [idx|]; cbn [bind]; [|reflexivity]. destruct (mset (l_P st) (l_max st) (e_dst e) q); destruct (e_name e); reflexivity.
Qed.
Lemma rows_fold : forall ts es, Forall2 mdp_row ts es -> Forall one_line ts /\ exists L, Forall2 of_entry es L /\
  forall st acts, foldM load_line (map (fun t => t ++ [LF]) ts) (with_acts st acts) = (let* st' := foldM tstep L st in Ok (with_acts st' (fold_left name_add es acts))).
Proof.
  induction 1 as [|t e ts es R F (O & L & FL & IH)].
  - split; [constructor|]. exists []. split; [constructor|]. reflexivity.
  - destruct (row_words t e R) as (q & Eq & Ot & W). split; [constructor; auto|]. exists ((((e_src e, e_act e), e_dst e), q) :: L). split; [constructor; [split; [reflexivity|exact Eq]|exact FL]|].
    intros st acts. cbn [map foldM fold_left]. rewrite W. destruct (tstep st (((e_src e, e_act e), e_dst e), q)) as [st'|x]; cbn [bind]; [apply IH|reflexivity].
Qed.

Lemma of_entry_in : forall es L, Forall2 of_entry es L -> forall s a d q, In (((s, a), d), q) L -> exists e, In e es /\ key e = (s, a, d) /\ (q == e_prob e)%Q.
Proof.
  induction 1 as [|e t es L [E1 E2] F IH]; intros s a d q I; [destruct I|]. destruct I as [->|I].
  - cbn in E1, E2. exists e. split; [left; reflexivity|]. split; [unfold key; congruence|exact E2].
  - destruct (IH s a d q I) as (x & A & B & C). exists x. split; [right; exact A|auto].
Qed.
Lemma of_entry_back : forall es L, Forall2 of_entry es L -> forall e, In e es -> exists q, In (((e_src e, e_act e), e_dst e), q) L /\ (q == e_prob e)%Q.
Proof.
  induction 1 as [|x [k q] es L [E1 E2] F IH]; intros e I; [destruct I|]. destruct I as [->|I].
  - cbn in E1, E2. subst k. exists q. split; [left; reflexivity|exact E2].
  - destruct (IH e I) as (y & A & B). exists y. split; [right; exact A|auto].
Qed.
Lemma of_entry_keys : forall es L, Forall2 of_entry es L -> NoDup (map key es) -> NoDup (map fst L).
Proof.
  intros es L F N. assert (E : map fst L = map (fun k => let '(s, a, d) := k in ((s, a), d)) (map key es)).
  { clear N. induction F as [|e [k q] es L [E1 _] F IH]; [reflexivity|]. cbn [map fst] in *. rewrite IH. f_equal. rewrite E1. reflexivity. }
  rewrite E. apply nodup_map_inj; [|exact N]. intros [[s a] d] [[s' a'] d'] _ _ X. exact X.
Qed.

(** ** Action names *)
Lemma names_ok : forall es acts, NoDup (dkeys acts) -> (forall l c, dget String.eqb acts l = Some c -> NoDup c) ->
  NoDup (dkeys (fold_left name_add es acts)) /\ (forall l c, dget String.eqb (fold_left name_add es acts) l = Some c -> NoDup c) /\
  forall l sa, has String.eqb (fold_left name_add es acts) l sa <-> has String.eqb acts l sa \/ exists e, In e es /\ (e_src e, e_act e) = sa /\ e_name e = Some (str l).
Proof.
  induction es as [|e es IH]; intros acts A B.
  - cbn. split; [exact A|]. split; [exact B|]. intros l sa. split; [auto|]. intros [X|(e & [] & _)]; exact X.
  - cbn [fold_left].
    assert (ST : NoDup (dkeys (name_add acts e)) /\ (forall l c, dget String.eqb (name_add acts e) l = Some c -> NoDup c) /\
      forall l sa, has String.eqb (name_add acts e) l sa <-> has String.eqb acts l sa \/ ((e_src e, e_act e) = sa /\ e_name e = Some (str l))).
    { unfold name_add. destruct (e_name e) as [n|].
      - split; [apply (side_add_nodup String.eqb pair_eqb String.eqb_spec); exact A|]. split; [apply side_add_sets; [apply String.eqb_spec|apply pair_eqbP|exact B]|].
        intros l sa. rewrite (side_add_has String.eqb pair_eqb String.eqb_spec pair_eqbP). split.
        + intros [[-> ->]|X]; [right|left; exact X]. split; [reflexivity|]. f_equal. unfold str, unstr. rewrite list_ascii_of_string_of_list_ascii. reflexivity.
        + intros [X|[<- X]]; [right; exact X|left]. split; [|reflexivity]. inversion X. rewrite unstr_str. reflexivity.
      - split; [exact A|]. split; [exact B|]. intros l sa. split; [auto|]. intros [X|[_ X]]; [exact X|discriminate X]. }
    destruct ST as (A' & B' & H'). destruct (IH _ A' B') as (A2 & B2 & H2). split; [exact A2|]. split; [exact B2|]. intros l sa. rewrite H2, H'. split.
    + intros [[X|[X Y]]|(x & X & Y)]; [left; exact X|right; exists e; split; [left; reflexivity|auto]|right; exists x; split; [right; exact X|exact Y]].
    + intros [X|(x & [<-|X] & Y)]; [left; left; exact X|left; right; exact Y|right; exists x; auto].
Qed.
Lemma get_has : forall (d : dict string (list (nat * nat))) l sa, In sa (match dget String.eqb d l with Some c => c | None => [] end) <-> has String.eqb d l sa.
Proof. intros d l sa. unfold has. destruct (dget String.eqb d l) as [c|]; [split; [eauto|intros (c' & X & Y); inversion X; subst; auto]|split; [intros []|intros (c' & X & _); discriminate]]. Qed.

(** Failures of the constructor are assertion errors. *)
Lemma check_fails : forall P, check_correctness P None = Ok tt \/ check_correctness P None = Err AssertionError.
Proof.
  intros P. unfold check_correctness.
  assert (G : forall A (p : A -> bool) l, foldM (fun (_ : unit) x => assert_ (p x)) l tt = Ok tt \/ foldM (fun (_ : unit) x => assert_ (p x)) l tt = Err AssertionError).
  { intros A p. induction l as [|x l IH]; [left; reflexivity|]. cbn [foldM]. destruct (p x); cbn [assert_ bind]; [exact IH|right; reflexivity]. }
  destruct (G nat (fun i => Qeq_bool (np_round9 (row_sum P i)) 1) (seq 0 (mrows P))) as [-> | ->]; cbn [bind]; [|right; reflexivity].
  destruct (G (nat * nat * Q)%type (fun e => Qle_bool 0 (snd e) && Qle_bool (snd e) 1) (mitems P)) as [-> | ->]; cbn [bind]; [left; reflexivity|right; reflexivity].
Qed.
Lemma abstract_fails : forall k P idx al sl, wf_mat P -> bid_ok idx -> (forall i d p, In ((i, d), p) (mitems P) -> exists s a, In ((s, a), i) idx /\ s < mcols P) ->
  ~ valid_system P idx None -> mk_abstract k P idx al sl None = Err AssertionError.
Proof.
  intros k P idx al sl WF B S NV. unfold mk_abstract. rewrite (mk_bidict_ok pair_eqb Nat.eqb pair_eqbP Nat.eqb_spec) by auto. cbn [bind]. destruct (check_fails P) as [E|E]; [|rewrite E; reflexivity].
  exfalso. apply NV. apply check_correctness_iff in E; [|exact WF]. destruct E as (A1 & A2 & A3). split; [apply B|]. split; [exact A1|]. split; [exact A2|]. split; [exact A3|exact S].
Qed.

(** ** Decision processes *)
Section Mdp.
  Variable N C : nat.
  Variable es : list entry.
  Variable ps : list (nat * nat).
  Variable L : list triple.
  Hypothesis WE : well_formed N es.
  Hypothesis PS : pairs es ps.
  Hypothesis PC : length ps <= C.
  Hypothesis FL : Forall2 of_entry es L.

  Let KN : NoDup (map key es) := proj2 WE.
  Lemma L_in : forall sa d q, In ((sa, d), q) L -> In sa ps /\ d < N.
  Proof.
    intros [s a] d q I. destruct (of_entry_in es L FL s a d q I) as (e & H & K & _). unfold key in K. inversion K; subst. split; [apply (proj2 PS); exists e; auto|apply (proj1 WE e H)].
  Qed.
  Lemma L_run : exists st, foldM tstep L (MkLoad (mzero C N) [] [] 0) = Ok st /\ linv C N L st.
  Proof. apply (tfold_ok C N ps PC L); [apply (of_entry_keys es L FL KN)|apply L_in]. Qed.

  Variable st : load_state.
  Hypothesis I : linv C N L st.
  Lemma st_keys : forall sa, In sa (map fst (l_idx st)) <-> In sa ps.
  Proof.
    intros [s a]. rewrite (li_keys _ _ _ _ I). split; [intros (d & q & H); apply (L_in _ _ _ H)|]. intros H. apply (proj2 PS) in H. destruct H as (e & H & <- & <-).
    destruct (of_entry_back es L FL e H) as (q & X & _). eauto.
  Qed.
  Lemma st_len : length (l_idx st) = length ps.
  Proof.
    rewrite <- (map_length fst). apply Nat.le_antisymm; apply NoDup_incl_length; [apply I|intros x; apply st_keys|apply PS|intros x; apply st_keys].
  Qed.
  Lemma st_bid : bid_ok (l_idx st).
  Proof. split; [apply I|rewrite (li_snd _ _ _ _ I); apply seq_NoDup]. Qed.
  Lemma st_lt : forall sa k, In (sa, k) (l_idx st) -> k < length ps.
  Proof. intros sa k H. assert (X : In k (map snd (l_idx st))) by (apply in_map_iff; exists (sa, k); auto). rewrite (li_snd _ _ _ _ I) in X. apply in_seq in X. rewrite st_len in X. lia. Qed.
  Lemma st_row : forall k, k < length ps -> exists sa, In (sa, k) (l_idx st) /\ In sa ps.
  Proof.
    intros k H. assert (X : In k (map snd (l_idx st))) by (rewrite (li_snd _ _ _ _ I), st_len; apply in_seq; lia). apply in_map_iff in X. destruct X as ([sa k'] & E & X). cbn in E. subst k'. exists sa. split; [exact X|].
    apply st_keys. apply in_map_iff. exists (sa, k). auto.
  Qed.
  Lemma st_wf : wf_mat (l_P st).
  Proof.
    split; [apply I|]. intros k d q H. rewrite (li_rows _ _ _ _ I), (li_cols _ _ _ _ I). apply (li_items _ _ _ _ I) in H. destruct H as (sa & H1 & H2 & H3). split; [|split; [|auto]].
    - pose proof (st_lt _ _ H1). lia.
    - apply (L_in _ _ _ H2).
  Qed.
  Lemma st_src : forall i d p, In ((i, d), p) (mitems (l_P st)) -> exists s a, In ((s, a), i) (l_idx st) /\ s < mcols (l_P st).
  Proof.
    intros i d p H. apply (li_items _ _ _ _ I) in H. destruct H as ([s a] & H1 & H2 & _). exists s, a. split; [exact H1|]. rewrite (li_cols _ _ _ _ I).
    destruct (of_entry_in es L FL s a d p H2) as (e & H & K & _). unfold key in K. inversion K; subst. apply (proj1 WE e H).
  Qed.
  Lemma st_get : forall s a k d, In ((s, a), k) (l_idx st) -> (mget (l_P st) k d == given_prob es s a d)%Q.
  Proof.
    intros s a k d Hk. destruct (Qeq_dec (mget (l_P st) k d) 0) as [Z|NZ].
    - rewrite Z. destruct (existsb (fun e => (e_src e =? s) && (e_act e =? a) && (e_dst e =? d)) es) eqn:X.
      + apply existsb_exists in X. destruct X as (e & He & K). apply key_test in K. unfold key in K. inversion K; subst. rewrite gp_in by auto. destruct (of_entry_back es L FL e He) as (q & Hq & Eq). rewrite <- Eq.
        destruct (Qeq_dec q 0) as [Z2|N2]; [rewrite Z2; reflexivity|]. exfalso. assert (Y : In ((k, e_dst e), q) (mitems (l_P st))) by (apply (li_items _ _ _ _ I); eauto).
        apply (mget_In _ _ _ _ st_wf) in Y. rewrite Y in Z. auto.
      + rewrite gp_out; [reflexivity|]. intros e He K. apply key_test in K. assert (Y : existsb (fun e => (e_src e =? s) && (e_act e =? a) && (e_dst e =? d)) es = true) by (apply existsb_exists; exists e; auto). congruence.
    - apply mget_nonzero in NZ. apply (li_items _ _ _ _ I) in NZ. destruct NZ as (sa & H1 & H2 & H3). pose proof (In_binv Nat.eqb Nat.eqb_spec _ _ _ st_bid H1) as X1. rewrite (In_binv Nat.eqb Nat.eqb_spec _ _ _ st_bid Hk) in X1. inversion X1; subst sa.
      destruct (of_entry_in es L FL s a d _ H2) as (e & He & K & Eq). rewrite Eq. unfold key in K. inversion K; subst. symmetry. apply gp_in; auto.
  Qed.
  Lemma st_total : forall s a k, In ((s, a), k) (l_idx st) -> (row_total (l_P st) k == given_sum N es s a)%Q.
  Proof.
    intros s a k Hk. unfold row_total, given_sum. rewrite (li_cols _ _ _ _ I). clear -Hk I WE PS PC FL KN. induction (seq 0 N) as [|d l IH]; [reflexivity|]. cbn [map sumQ fold_right].
    fold (sumQ (map (mget (l_P st) k) l)). fold (sumQ (map (given_prob es s a) l)). rewrite IH, (st_get s a k d Hk). reflexivity.
  Qed.

  Definition ok_mdp : Prop := length ps = C /\ probabilities es /\ forall s a, In (s, a) ps -> near_one (given_sum N es s a).
  Lemma near_ext : forall p q, (p == q)%Q -> near_one p -> near_one q.
  Proof. intros p q E H. unfold near_one in *. rewrite <- E. exact H. Qed.
  Lemma st_valid : ok_mdp <-> valid_system (l_P st) (l_idx st) None.
  Proof.
    split.
    - intros (LC & PR & SU). split; [apply st_bid|]. split; [|split; [|split; [intros r X; discriminate X|exact st_src]]].
      + intros i Hi. rewrite (li_rows _ _ _ _ I), <- LC in Hi. destruct (st_row i Hi) as ([s a] & H1 & H2). apply (near_ext (given_sum N es s a)); [symmetry; apply st_total; exact H1|apply SU; exact H2].
      + intros i d p H. apply (li_items _ _ _ _ I) in H. destruct H as ([s a] & _ & H2 & _). destruct (of_entry_in es L FL s a d p H2) as (e & H & _ & Eq). rewrite Eq. apply (PR e H).
    - intros (_ & SU & PR & _ & _). split; [|split].
      + destruct (Nat.eq_dec (length ps) C) as [E|NE]; [exact E|exfalso]. specialize (SU (length ps)). rewrite (li_rows _ _ _ _ I) in SU. specialize (SU ltac:(lia)).
        assert (Z : (row_total (l_P st) (length ps) == 0)%Q).
        { unfold row_total. apply sumQ_zero. intros d _. destruct (Qeq_dec (mget (l_P st) (length ps) d) 0) as [|NZ]; auto. exfalso. apply mget_nonzero in NZ. apply (li_items _ _ _ _ I) in NZ. destruct NZ as (sa & X & _). apply st_lt in X. lia. }
        unfold near_one in SU. rewrite Z in SU. vm_compute in SU. congruence.
      + intros e He. destruct (of_entry_back es L FL e He) as (q & Hq & Eq). rewrite <- Eq. destruct (Qeq_dec q 0) as [Z|NZ]; [rewrite Z; split; Lqa.lra|].
        assert (X : In (e_src e, e_act e) (map fst (l_idx st))) by (apply st_keys; apply (proj2 PS); exists e; auto). apply in_map_iff in X. destruct X as ([sa k] & E & X). cbn in E. subst sa.
        apply (PR k (e_dst e) q). apply (li_items _ _ _ _ I). eauto.
      + intros s a H. apply st_keys in H. apply in_map_iff in H. destruct H as ([sa k] & E & X). cbn in E. subst sa. apply (near_ext (row_total (l_P st) k)); [apply st_total; exact X|]. apply SU. rewrite (li_rows _ _ _ _ I). pose proof (st_lt _ _ X). lia.
  Qed.
End Mdp.

Definition ok_files (N C : nat) (es : list entry) : Prop := exists ps, pairs es ps /\ length ps = C /\ probabilities es /\ forall s a, In (s, a) ps -> near_one (given_sum N es s a).
