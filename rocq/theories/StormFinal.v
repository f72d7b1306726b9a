(** The statements about reading storm models. *)
From Coq Require Import String List Arith ZArith QArith Bool Lia.
From Coq Require Lqa.
From Verif Require Import Base BaseFacts Num Matrix MatFacts InvDict InvDictProofs SpecSystem SpecBuilt Amdp AmdpProofs ReachFormProofs BuiltFacts GroupProofs Storm SpecStorm FilesProofs3 FilesProofs4 StormProofs.
Import ListNotations.
Local Open Scope nat_scope.

(** ** Rows *)
Lemma prob_cons : forall l t ts d, (prob_to (MkAction l (t :: ts)) d == (if d =? fst t then snd t else 0) + prob_to (MkAction l ts) d)%Q.
Proof.
  intros l t ts d. unfold prob_to. cbn [ac_trans filter]. rewrite (Nat.eqb_sym d). destruct (fst t =? d); cbn [map sumQ fold_right]; [reflexivity|]. unfold sumQ. ring.
Qed.
Lemma prob_out : forall ac d, ~ In d (map fst (ac_trans ac)) -> (prob_to ac d == 0)%Q.
Proof.
  intros [l ts] d. cbn [ac_trans]. induction ts as [|t ts IH]; intros H; [reflexivity|]. rewrite prob_cons. cbn [map In] in H. destruct (Nat.eqb_spec d (fst t)); [exfalso; apply H; auto|]. rewrite IH; [ring|tauto].
Qed.
Lemma prob_in : forall ac d q, NoDup (map fst (ac_trans ac)) -> In (d, q) (ac_trans ac) -> (prob_to ac d == q)%Q.
Proof.
  intros [l ts] d q. cbn [ac_trans]. induction ts as [|t ts IH]; intros N H; [destruct H|]. rewrite prob_cons. cbn [map] in N. inversion N; subst. destruct H as [->|H].
  - cbn [fst snd]. rewrite Nat.eqb_refl. rewrite (prob_out (MkAction l ts)) by auto. ring.
  - destruct (Nat.eqb_spec d (fst t)); [exfalso; subst; apply H2; apply in_map_iff; exists (fst t, q); auto|]. rewrite IH by auto. ring.
Qed.
Lemma prob_sum : forall ac K, (forall d q, In (d, q) (ac_trans ac) -> d < K) -> (sumQ (map (prob_to ac) (seq 0 K)) == sumQ (map snd (ac_trans ac)))%Q.
Proof.
  intros [l ts] K. cbn [ac_trans]. induction ts as [|t ts IH]; intros H.
  - cbn [map sumQ fold_right]. apply sumQ_zero. intros; reflexivity.
  - rewrite (sumQ_ext _ _ (fun d => (if d =? fst t then snd t else 0) + prob_to (MkAction l ts) d)%Q) by (intros; apply prob_cons). rewrite sumQ_seq_single.
    + rewrite IH by (intros d q X; apply (H d q); right; auto). cbn [map sumQ fold_right]. reflexivity.
    + destruct t as [d q]. apply (H d q). left. auto.
Qed.
Lemma mget_row : forall P i ac, wf_mat P -> NoDup (map fst (ac_trans ac)) -> (forall d q, In ((i, d), q) (mitems P) <-> In (d, q) (ac_trans ac) /\ ~ (q == 0)%Q) ->
  forall d, (mget P i d == prob_to ac d)%Q.
Proof.
  intros P i ac WF N H d. destruct (Qeq_dec (mget P i d) 0) as [Z|NZ].
  - rewrite Z. destruct (in_dec Nat.eq_dec d (map fst (ac_trans ac))) as [I|O]; [|rewrite prob_out by auto; reflexivity]. apply in_map_iff in I. destruct I as ([d' q] & E & I). cbn [fst] in E. subst d'.
    rewrite (prob_in ac d q) by auto. destruct (Qeq_dec q 0) as [Zq|Nq]; [rewrite Zq; reflexivity|]. exfalso. assert (X : In ((i, d), q) (mitems P)) by (apply H; auto). apply (mget_In _ _ _ _ WF) in X. rewrite X in Z. auto.
  - apply mget_nonzero in NZ. apply H in NZ. destruct NZ as [NZ _]. rewrite (prob_in ac d _ N NZ). reflexivity.
Qed.

(** ** Flat maps over numbered lists *)
Lemma nodup_flat : forall (A B : Type) (f : nat * A -> list B) L, NoDup (map fst L) -> (forall e, In e L -> NoDup (f e)) ->
  (forall e e' x, In e L -> In e' L -> In x (f e) -> In x (f e') -> fst e = fst e') -> NoDup (flat_map f L).
Proof.
  intros A B f. induction L as [|e L IH]; intros N H D; [constructor|]. cbn [map] in N. inversion N; subst. cbn [flat_map]. apply nodup_app.
  - apply H. left. auto.
  - apply IH; [auto|intros; apply H; right; auto|]. intros a b x Ha Hb. apply D; right; auto.
  - intros x X Y. apply in_flat_map in Y. destruct Y as (e' & Y1 & Y2). apply H2. rewrite (D e e' x); [apply in_map; auto|left; auto|right; auto|auto|auto].
Qed.
Lemma map_flat_map : forall (A B D : Type) (g : B -> D) (f : A -> list B) l, map g (flat_map f l) = flat_map (fun x => map g (f x)) l.
Proof. intros. induction l as [|x l IH]; [reflexivity|]. cbn [flat_map]. rewrite map_app, IH. reflexivity. Qed.
Lemma bput_fresh : forall (b : dict (nat * nat) nat) k v, ~ In k (map fst b) -> ~ In v (map snd b) -> bput pair_eqb Nat.eqb b k v = Ok (b ++ [(k, v)]).
Proof.
  intros b k v H1 H2. unfold bput. rewrite (proj2 (binv_None Nat.eqb Nat.eqb_spec b v) H2). rewrite (dset_fresh pair_eqb pair_eqbP) by exact H1. reflexivity.
Qed.
Lemma collect_sets : forall (V : Type) (veqb : V -> V -> bool) (VP : forall a b, reflect (a = b) (veqb a b)) (L : list (string * V)), let d := collect String.eqb veqb L [] in
  NoDup (map fst d) /\ (forall l s, In (l, s) d -> NoDup s) /\ forall l v, In v (match dget String.eqb d l with Some s => s | None => [] end) <-> In (l, v) L.
Proof.
  intros V veqb VP L d. destruct (collect_facts String.eqb veqb String.eqb_spec VP L [] (NoDup_nil _)) as (A & B & C & D); [intros; discriminate|]. fold d in A, B, C, D. split; [exact A|]. split.
  - intros l s H. apply (B l). apply (In_dget String.eqb String.eqb_spec); auto.
  - intros l v. specialize (C l v). unfold has in C. split.
    + intros H. destruct (dget String.eqb d l) as [s|] eqn:E; [|destruct H]. destruct (proj1 C) as [(s' & X & _)|X]; [eauto|discriminate X|exact X].
    + intros H. destruct (proj2 C (or_intror H)) as (s & E & I). rewrite E. exact I.
Qed.

Section Read.
  Variable sm : storm.
  Hypothesis G : good_storm sm.
  Let N := nr_states sm.
  Let C := nr_choices sm.
  Lemma good_choice : forall k s a ac, nth_error (choices sm) k = Some ((s, a), ac) -> s < N /\ k < C /\ good_action N ac.
  Proof.
    intros k s a ac H. assert (k < C). { unfold C. rewrite <- choices_length. apply nth_error_Some. congruence. } apply nth_error_In in H. apply choices_in in H. destruct H as (st & H1 & H2).
    split; [|split; [auto|]].
    - unfold N, nr_states. apply nth_error_Some. congruence.
    - apply (G st); eapply nth_error_In; eauto.
  Qed.
  Lemma nth_pair : forall k k' sa ac ac', nth_error (choices sm) k = Some (sa, ac) -> nth_error (choices sm) k' = Some (sa, ac') -> k = k'.
  Proof.
    intros k k' sa ac ac' H H'. pose proof (choices_nodup sm) as X. rewrite NoDup_nth_error in X. apply X.
    - rewrite map_length. apply nth_error_Some. congruence.
    - rewrite !nth_error_map, H, H'. reflexivity.
  Qed.
  Lemma pre_nth : forall pre post x k c, choices sm = pre ++ x :: post -> nth_error pre k = Some c -> nth_error (choices sm) k = Some c /\ k < length pre.
  Proof. intros pre post x k c E H. assert (k < length pre) by (apply nth_error_Some; congruence). split; auto. rewrite E, nth_error_app1 by auto. auto. Qed.
  Lemma cur_nth : forall pre post x, choices sm = pre ++ x :: post -> nth_error (choices sm) (length pre) = Some x.
  Proof. intros pre post x E. rewrite E, nth_error_app2, Nat.sub_diag by lia. reflexivity. Qed.
  Lemma k_choice : forall k, k < C -> exists s a ac, nth_error (choices sm) k = Some ((s, a), ac).
  Proof. intros k H. destruct (nth_error (choices sm) k) as [[[s a] ac]|] eqn:E; [eauto|]. apply nth_error_None in E. rewrite choices_length in E. unfold C in H. lia. Qed.

  (** ** Plain models *)
  Definition p_idx (k : nat) (sa : nat * nat) : list ((nat * nat) * nat) := [(sa, k)].
  Definition p_ent (k : nat) (ac : storm_action) : list (nat * nat * Q) := map (fun t => ((k, fst t), snd t)) (ac_trans ac).
  Definition p_al (sa : nat * nat) (ac : storm_action) : list (string * (nat * nat)) := map (fun l => (l, sa)) (ac_labels ac).
  Definition p_sl (k : nat) (ac : storm_action) : list (string * nat) := [].
  Definition p_ss (s : nat) (st : storm_state) : list (string * nat) := map (fun l => (l, s)) (st_labels st).

  Lemma p_ent_nodup : NoDup (map fst (ENT p_ent (choices sm))).
  Proof.
    unfold ENT. rewrite map_flat_map. apply nodup_flat; [apply numbered_nodup| |].
    - intros [k [[s a] ac]] H. apply numbered_nth in H. cbn [fst snd]. unfold p_ent. rewrite map_map. cbn [fst]. apply good_choice in H. destruct H as (_ & _ & H & _).
      rewrite <- (map_map fst (fun d => (k, d))). apply nodup_map_inj; [|exact H]. intros x y _ _ E. congruence.
    - intros [k [[s a] ac]] [k' [[s' a'] ac']] [x d] _ _ H H'. cbn [fst snd] in *. unfold p_ent in *. rewrite map_map in *. apply in_map_iff in H, H'. destruct H as (t & E & _), H' as (t' & E' & _). cbn [fst] in *. congruence.
  Qed.
  Lemma p_ent_in : forall i d q, In ((i, d), q) (ENT p_ent (choices sm)) <-> exists s a ac, nth_error (choices sm) i = Some ((s, a), ac) /\ In (d, q) (ac_trans ac).
  Proof.
    intros i d q. unfold ENT. rewrite in_flat_map. split.
    - intros ([k [[s a] ac]] & H1 & H2). apply numbered_nth in H1. cbn [fst snd] in H2. unfold p_ent in H2. apply in_map_iff in H2. destruct H2 as ([d' q'] & E & H2). cbn [fst snd] in E. inversion E; subst. eauto.
    - intros (s & a & ac & H1 & H2). exists (i, ((s, a), ac)). split; [apply numbered_nth; auto|]. cbn [fst snd]. unfold p_ent. apply in_map_iff. exists (d, q). auto.
  Qed.
  Lemma p_idx_in : forall L sa k, In (sa, k) (IDX p_idx L) <-> exists ac, nth_error L k = Some (sa, ac).
  Proof.
    intros L sa k. unfold IDX. rewrite in_flat_map. split.
    - intros ([k' [sa' ac]] & H1 & H2). apply numbered_nth in H1. cbn [fst snd] in H2. destruct H2 as [H2|[]]. inversion H2; subst. eauto.
    - intros (ac & H). exists (k, (sa, ac)). split; [apply numbered_nth; auto|]. left. reflexivity.
  Qed.

  Lemma plain_lemma : exists m, from_stormpy KMdp sm false = Ok m /\ built m /\ reads sm m.
  Proof.
    destruct (mfold_ok C N (ENT p_ent (choices sm)) p_ent_nodup) as (P & E & R & K & ND & IT).
    { intros i d q H. apply p_ent_in in H. destruct H as (s & a & ac & H1 & H2). apply good_choice in H1. destruct H1 as (_ & L & _ & H & _). split; auto. eapply H; eauto. }
    destruct (loop sm p_idx p_ent p_al p_sl p_ss conv_action conv_state (mzero C N) P E) as (st & L1 & L2 & L3 & L4 & ev & L5 & L6).
    { intros pre post sid aid ac P1 al sl P' EC EP. unfold conv_action. cbn [c_idx c_max c_P c_al c_sl].
      assert (F1 : ~ In (sid, aid) (map fst (IDX p_idx pre))).
      { intros X. apply in_map_iff in X. destruct X as ([sa k] & X1 & X2). cbn [fst] in X1. subst sa. apply p_idx_in in X2. destruct X2 as (ac' & X2). destruct (pre_nth _ _ _ _ _ EC X2) as [X3 X4]. pose proof (nth_pair _ _ _ _ _ X3 (cur_nth _ _ _ EC)). lia. }
      assert (F2 : ~ In (length pre) (map snd (IDX p_idx pre))).
      { intros X. apply in_map_iff in X. destruct X as ([sa k] & X1 & X2). cbn [snd] in X1. subst k. apply p_idx_in in X2. destruct X2 as (ac' & X2). destruct (pre_nth _ _ _ _ _ EC X2) as [X3 X4]. lia. }
      rewrite (proj2 (dget_None pair_eqb pair_eqbP _ _) F1). rewrite bput_fresh by auto. cbn [bind]. rewrite set_row_E. fold (p_ent (length pre) ac). rewrite EP. cbn [bind]. rewrite add_action_labels_E. reflexivity. }
    { intros st sid s. unfold conv_state. rewrite add_state_labels_E. reflexivity. }
    assert (WF : wf_mat P). { split; [exact ND|]. intros i d p H. apply IT in H. destruct H as [H NZ]. apply p_ent_in in H. destruct H as (s & a & ac & H1 & H2). apply good_choice in H1. destruct H1 as (_ & L & _ & H & _). rewrite R, K. split; auto. split; auto. eapply H; eauto. }
    assert (GET : forall k s a ac, nth_error (choices sm) k = Some ((s, a), ac) -> forall d, (mget P k d == prob_to ac d)%Q).
    { intros k s a ac H d. pose proof (good_choice _ _ _ _ H) as (_ & _ & G1 & _). apply mget_row; auto. intros d' q'. rewrite IT, p_ent_in. split.
      - intros [(s' & a' & ac' & X1 & X2) X3]. rewrite H in X1. inversion X1; subst. auto.
      - intros [X1 X2]. split; [eauto|auto]. }
    assert (BID : bid_ok (IDX p_idx (choices sm))).
    { split.
      - unfold IDX. rewrite map_flat_map. apply nodup_flat; [apply numbered_nodup|intros; cbn; constructor; [tauto|constructor]|]. intros [k [sa ac]] [k' [sa' ac']] x H H' X X'. cbn in X, X'. destruct X as [<-|[]], X' as [X'|[]]. subst sa'. apply numbered_nth in H, H'. cbn [fst]. eapply nth_pair; eauto.
      - unfold IDX. rewrite map_flat_map. apply nodup_flat; [apply numbered_nodup|intros; cbn; constructor; [tauto|constructor]|]. intros [k [sa ac]] [k' [sa' ac']] x H H' X X'. cbn in X, X'. cbn [fst]. destruct X as [<-|[]], X' as [X'|[]]. auto. }
    assert (V : valid_system P (IDX p_idx (choices sm)) None).
    { split; [apply BID|]. split; [|split; [|split]].
      - intros i Hi. rewrite R in Hi. destruct (k_choice i Hi) as (s & a & ac & H). pose proof (good_choice _ _ _ _ H) as (_ & _ & G1 & G2 & G3). unfold near_one in *. unfold row_total. rewrite K.
        rewrite (sumQ_ext _ _ (prob_to ac)) by (intros; eapply GET; eauto). rewrite prob_sum; [exact G3|]. intros d q X. apply (G2 d q X).
      - intros i d p H. apply IT in H. destruct H as [H _]. apply p_ent_in in H. destruct H as (s & a & ac & H1 & H2). apply good_choice in H1. destruct H1 as (_ & _ & _ & H & _). apply (H _ _ H2).
      - intros r X. discriminate.
      - intros i d p H. apply IT in H. destruct H as [H _]. apply p_ent_in in H. destruct H as (s & a & ac & H1 & H2). exists s, a. split; [apply p_idx_in; eauto|]. rewrite K. apply (good_choice _ _ _ _ H1). }
    unfold from_stormpy, conv_mdp. fold N C. rewrite L1. cbn [bind]. rewrite L2, L3, L4, L5.
    destruct (collect_sets nat Nat.eqb Nat.eqb_spec ev) as (S1 & S2 & S3). destruct (collect_sets (nat * nat) pair_eqb pair_eqbP (ALL p_al (choices sm))) as (A1 & A2 & A3).
    set (sl := collect String.eqb Nat.eqb ev []) in *. set (al := collect String.eqb pair_eqb (ALL p_al (choices sm)) []) in *. cbv zeta in *.
    destruct (proj2 (mk_abstract_iff KMdp P (IDX p_idx (choices sm)) (mk_idict al true) (mk_idict sl true) None WF (proj1 BID)) V) as (m & Em). exists m. split; [exact Em|].
    split. { apply built_new. exists P, (IDX p_idx (choices sm)), al, sl, None. split; [|left; exact Em]. split; [auto|]. split; [apply BID|]. split; [split; auto|]. split; auto. }
    apply mk_abstract_inv in Em; [|apply BID]. destruct Em as (F1 & F2 & F3 & F4 & F5 & F6 & _). unfold reads, a_N, a_C. rewrite F2, R, K. split; [reflexivity|]. split; [reflexivity|]. split; [|split].
    - intros k s a ac H. split; [|eapply GET; eauto]. unfold a_inv. rewrite F3. apply (In_binv Nat.eqb Nat.eqb_spec); [exact BID|]. apply p_idx_in. eauto.
    - intros l s. unfold has_label, states_by_label. rewrite F6.
      assert (X : In s (match dget String.eqb sl l with Some c => c | None => [] end) <-> exists st, nth_error sm s = Some st /\ In l (st_labels st)); [|exact X].
      rewrite S3, L6. unfold STE. rewrite in_flat_map. split.
      + intros [([s' st'] & H1 & H2)|H].
        * apply numbered_nth in H1. cbn [fst snd] in H2. unfold p_ss in H2. apply in_map_iff in H2. destruct H2 as (l' & E2 & H2). inversion E2; subst. eauto.
        * exfalso. unfold ACT in H. apply in_flat_map in H. destruct H as (e & _ & []).
      + intros (st' & H1 & H2). left. exists (s, st'). split; [apply numbered_nth; auto|]. unfold p_ss. cbn [fst snd]. apply in_map_iff. eauto.
    - intros l s a. unfold actions_by_label. rewrite F5.
      assert (X : In (s, a) (match dget String.eqb al l with Some c => c | None => [] end) <-> exists ac, In ((s, a), ac) (choices sm) /\ In l (ac_labels ac)); [|exact X].
      rewrite A3. unfold ALL. rewrite in_flat_map. split.
      + intros ([sa ac] & H1 & H2). cbn [fst snd] in H2. unfold p_al in H2. apply in_map_iff in H2. destruct H2 as (l' & E2 & H2). inversion E2; subst. eauto.
      + intros (ac & H1 & H2). exists ((s, a), ac). split; auto. cbn [fst snd]. unfold p_al. apply in_map_iff. eauto.
  Qed.

  (** ** Choice models *)
  Definition q_idx (k : nat) (sa : nat * nat) : list ((nat * nat) * nat) := [(sa, k); ((N + k, C + k), C + k)].
  Definition q_ent (k : nat) (ac : storm_action) : list (nat * nat * Q) := map (fun t => ((C + k, fst t), snd t)) (ac_trans ac) ++ [((k, N + k), 1%Q)].
  Definition q_al (sa : nat * nat) (ac : storm_action) : list (string * (nat * nat)) := [].
  Definition q_sl (k : nat) (ac : storm_action) : list (string * nat) := map (fun l => (l, N + S k)) (ac_labels ac ++ ["choice"%string]).
  Definition q_ss (s : nat) (st : storm_state) : list (string * nat) := map (fun l => (l, s)) ("state"%string :: st_labels st).

  Lemma q_ent_at : forall k ac i d q, In ((i, d), q) (q_ent k ac) <-> (i = C + k /\ In (d, q) (ac_trans ac)) \/ (i = k /\ d = N + k /\ q = 1%Q).
  Proof.
    intros k ac i d q. unfold q_ent. rewrite in_snoc, in_map_iff. split.
    - intros [([d' q'] & E & H)|E]; [cbn [fst snd] in E; inversion E; subst; auto|inversion E; subst; auto].
    - intros [[-> H]|(-> & -> & ->)]; [left; exists (d, q); auto|auto].
  Qed.
  Lemma q_ent_in : forall i d q, In ((i, d), q) (ENT q_ent (choices sm)) <-> exists k s a ac, nth_error (choices sm) k = Some ((s, a), ac) /\ ((i = C + k /\ In (d, q) (ac_trans ac)) \/ (i = k /\ d = N + k /\ q = 1%Q)).
  Proof.
    intros i d q. unfold ENT. rewrite in_flat_map. split.
    - intros ([k [[s a] ac]] & H1 & H2). apply numbered_nth in H1. cbn [fst snd] in H2. apply q_ent_at in H2. eauto 8.
    - intros (k & s & a & ac & H1 & H2). exists (k, ((s, a), ac)). split; [apply numbered_nth; auto|]. cbn [fst snd]. apply q_ent_at. auto.
  Qed.
  Lemma q_ent_nodup : NoDup (map fst (ENT q_ent (choices sm))).
  Proof.
    unfold ENT. rewrite map_flat_map. apply nodup_flat; [apply numbered_nodup| |].
    - intros [k [[s a] ac]] H. apply numbered_nth in H. cbn [fst snd]. unfold q_ent. rewrite map_app, map_map. cbn [fst map]. apply good_choice in H. destruct H as (_ & L & H & _). apply NoDup_snoc_iff. split.
      + rewrite <- (map_map fst (fun d => (C + k, d))). apply nodup_map_inj; [|exact H]. intros x y _ _ E. congruence.
      + intros X. apply in_map_iff in X. destruct X as (t & E & _). assert (C + k = k) by congruence. lia.
    - intros [k [[s a] ac]] [k' [[s' a'] ac']] [x d] H H' X X'. cbn [fst snd] in *. apply numbered_nth in H, H'. apply good_choice in H, H'. destruct H as (_ & L & _), H' as (_ & L' & _).
      apply in_map_iff in X, X'. destruct X as ([[i e] q] & E & X), X' as ([[i' e'] q'] & E' & X'). cbn [fst] in *. apply q_ent_at in X, X'. inversion E; inversion E'; subst. destruct X as [[X _]|[X _]], X' as [[X' _]|[X' _]]; lia.
  Qed.
  Lemma q_idx_in : forall L p v, In (p, v) (IDX q_idx L) <-> (exists ac, nth_error L v = Some (p, ac)) \/ (exists k c, nth_error L k = Some c /\ p = (N + k, C + k) /\ v = C + k).
  Proof.
    intros L p v. unfold IDX. rewrite in_flat_map. split.
    - intros ([k' [sa' ac]] & H1 & H2). apply numbered_nth in H1. cbn [fst snd] in H2. destruct H2 as [H2|[H2|[]]]; inversion H2; subst; [left; eauto|right; eauto].
    - intros [(ac & H)|(k & [sa ac] & H & -> & ->)].
      + exists (v, (p, ac)). split; [apply numbered_nth; auto|]. left. reflexivity.
      + exists (k, (sa, ac)). split; [apply numbered_nth; auto|]. right. left. reflexivity.
  Qed.
  Lemma q_bid : bid_ok (IDX q_idx (choices sm)).
  Proof.
    split.
    - unfold IDX. rewrite map_flat_map. apply nodup_flat; [apply numbered_nodup| |].
      + intros [k [[s a] ac]] H. apply numbered_nth in H. apply good_choice in H. destruct H as (L1 & _). cbn. constructor; [|constructor; [tauto|constructor]]. intros [E|[]]. inversion E. lia.
      + intros [k [[s a] ac]] [k' [[s' a'] ac']] x H H' X X'. apply numbered_nth in H, H'. pose proof (good_choice _ _ _ _ H) as (L1 & _). pose proof (good_choice _ _ _ _ H') as (L1' & _). cbn in X, X'. cbn [fst].
        destruct X as [<-|[<-|[]]], X' as [X'|[X'|[]]]; inversion X'; subst; try lia. eapply nth_pair; eauto.
    - unfold IDX. rewrite map_flat_map. apply nodup_flat; [apply numbered_nodup| |].
      + intros [k [[s a] ac]] H. apply numbered_nth in H. apply good_choice in H. destruct H as (_ & L1 & _). cbn. constructor; [|constructor; [tauto|constructor]]. intros [E|[]]. lia.
      + intros [k [[s a] ac]] [k' [[s' a'] ac']] x H H' X X'. apply numbered_nth in H, H'. pose proof (good_choice _ _ _ _ H) as (_ & L1 & _). pose proof (good_choice _ _ _ _ H') as (_ & L1' & _). cbn in X, X'. cbn [fst].
        destruct X as [<-|[<-|[]]], X' as [X'|[X'|[]]]; lia.
  Qed.

  Lemma choice_lemma : exists m, from_stormpy KMdp sm true = Ok m /\ built m /\ choice_system sm m /\
    (forall l s, has_label m l s <-> (exists st, nth_error sm s = Some st /\ (l = "state"%string \/ In l (st_labels st))) \/
                                     (exists k p ac, nth_error (choices sm) k = Some (p, ac) /\ s = N + S k /\ (l = "choice"%string \/ In l (ac_labels ac)))) /\
    forall l, actions_by_label m l = [].
  Proof.
    destruct (mfold_ok (C + C) (N + C) (ENT q_ent (choices sm)) q_ent_nodup) as (P & E & R & K & ND & IT).
    { intros i d q H. apply q_ent_in in H. destruct H as (k & s & a & ac & H1 & H2). apply good_choice in H1. destruct H1 as (_ & L & _ & H & _). destruct H2 as [[-> H2]|(-> & -> & _)]; [|lia]. apply H in H2. lia. }
    destruct (loop sm q_idx q_ent q_al q_sl q_ss (choice_action N C) (choice_state N C) (mzero (C + C) (N + C)) P E) as (st & L1 & L2 & L3 & L4 & ev & L5 & L6).
    { intros pre post sid aid ac P1 al sl P' EC EP. unfold choice_action. cbn [c_idx c_max c_P c_al c_sl]. pose proof (cur_nth _ _ _ EC) as CU. pose proof (good_choice _ _ _ _ CU) as (CN & CC & _).
      assert (KEY : forall p v, In (p, v) (IDX q_idx pre) -> (p <> (sid, aid) /\ v < length pre /\ fst p < N) \/ (exists k, k < length pre /\ p = (N + k, C + k) /\ v = C + k)).
      { intros p v X. apply q_idx_in in X. destruct X as [(ac' & X)|(k & c & X & -> & ->)].
        - destruct p as [s0 a0]. destruct (pre_nth _ _ _ _ _ EC X) as [X3 X4]. left. split; [|split; [auto|]]. + intros Ep. inversion Ep; subst. pose proof (nth_pair _ _ _ _ _ X3 CU). lia. + apply (good_choice _ _ _ _ X3).
        - right. destruct (pre_nth _ _ _ _ _ EC X) as [X3 X4]. eauto. }
      assert (F1 : ~ In (sid, aid) (map fst (IDX q_idx pre))). { intros X. apply in_map_iff in X. destruct X as ([p v] & X1 & X2). cbn [fst] in X1. apply KEY in X2. destruct X2 as [(Y & _)|(k & _ & Y & _)]; [auto|]. rewrite X1 in Y. inversion Y. lia. }
      assert (F2 : ~ In (length pre) (map snd (IDX q_idx pre))). { intros X. apply in_map_iff in X. destruct X as ([p v] & X1 & X2). cbn [snd] in X1. apply KEY in X2. destruct X2 as [(_ & Y & _)|(k & _ & _ & Y)]; lia. }
      rewrite (proj2 (dget_None pair_eqb pair_eqbP _ _) F1). rewrite bput_fresh by auto. cbn [bind]. rewrite bput_fresh.
      2:{ rewrite map_app, in_app_iff. cbn [map fst In]. intros [X|[X|[]]]; [|inversion X; lia]. apply in_map_iff in X. destruct X as ([p v] & X1 & X2). cbn [fst] in X1. apply KEY in X2. destruct X2 as [(_ & _ & Y)|(k & Y1 & Y & _)]; [subst p; cbn [fst] in Y; lia|]. rewrite X1 in Y. inversion Y. lia. }
      2:{ rewrite map_app, in_app_iff. cbn [map snd In]. intros [X|[X|[]]]; [|lia]. apply in_map_iff in X. destruct X as ([p v] & X1 & X2). cbn [snd] in X1. apply KEY in X2. destruct X2 as [(_ & Y & _)|(k & Y1 & _ & Y)]; lia. }
      cbn [bind]. rewrite set_row_E. unfold q_ent in EP. rewrite foldM_app in EP. destruct (foldM msetE (map (fun t => ((C + length pre, fst t), snd t)) (ac_trans ac)) P1) as [P2|]; [|discriminate]. cbn [bind] in EP |- *. cbn [foldM] in EP. unfold msetE in EP. cbn [fst snd] in EP.
      destruct (mset P2 (length pre) (N + length pre) 1) as [P3|]; [|discriminate]. cbn [bind] in EP |- *. inversion EP; subst P3. rewrite !add_state_labels_E. unfold q_idx, q_sl, q_al. rewrite <- !app_assoc, map_app, collect_app. reflexivity. }
    { intros st sid s. unfold choice_state. rewrite !add_state_labels_E. unfold q_ss. rewrite <- collect_app, <- map_app. reflexivity. }
    assert (WF : wf_mat P).
    { split; [exact ND|]. intros i d p H. apply IT in H. destruct H as [H NZ]. apply q_ent_in in H. destruct H as (k & s & a & ac & H1 & H2). apply good_choice in H1. destruct H1 as (_ & L & _ & H & _). rewrite R, K.
      destruct H2 as [[-> H2]|(-> & -> & _)]; [apply H in H2|]; repeat split; auto; lia. }
    assert (GET1 : forall k s a ac, nth_error (choices sm) k = Some ((s, a), ac) -> forall d, (mget P k d == if d =? N + k then 1 else 0)%Q).
    { intros k s a ac H d. pose proof (good_choice _ _ _ _ H) as (_ & LK & _).
      assert (X : forall d' q', In ((k, d'), q') (mitems P) <-> In (d', q') (ac_trans (MkAction [] [(N + k, 1%Q)])) /\ ~ (q' == 0)%Q).
      { intros d' q'. rewrite IT, q_ent_in. cbn [ac_trans In]. split.
        - intros [(k' & s' & a' & ac' & X1 & [[X2 _]|(-> & -> & ->)]) X3]; [lia|]. auto.
        - intros [[X1|[]] X2]. inversion X1; subst. split; [|auto]. exists k, s, a, ac. auto. }
      rewrite (mget_row P k (MkAction [] [(N + k, 1%Q)]) WF ltac:(cbn; constructor; [tauto|constructor]) X d). rewrite prob_cons. cbn [fst snd]. unfold prob_to. cbn [ac_trans filter map sumQ fold_right]. destruct (d =? N + k); reflexivity. }
    assert (GET2 : forall k s a ac, nth_error (choices sm) k = Some ((s, a), ac) -> forall d, (mget P (C + k) d == prob_to ac d)%Q).
    { intros k s a ac H d. pose proof (good_choice _ _ _ _ H) as (_ & LK & G1 & _). apply mget_row; auto. intros d' q'. rewrite IT, q_ent_in. split.
      - intros [(k' & s' & a' & ac' & X1 & [[X2 X4]|(X2 & _)]) X3].
        + assert (k' = k) by lia. subst k'. rewrite H in X1. inversion X1; subst. auto.
        + exfalso. apply good_choice in X1. destruct X1 as (_ & X1 & _). lia.
      - intros [X1 X2]. split; [|auto]. exists k, s, a, ac. auto. }
    assert (V : valid_system P (IDX q_idx (choices sm)) None).
    { split; [apply q_bid|]. split; [|split; [|split]].
      - intros i Hi. rewrite R in Hi. destruct (lt_dec i C) as [Li|Li].
        + destruct (k_choice i Li) as (s & a & ac & H). unfold near_one, row_total. rewrite K.
          rewrite (sumQ_ext _ _ (fun d => (if d =? N + i then 1 else 0) + 0)%Q). 2:{ intros d _. rewrite (GET1 _ _ _ _ H). ring. } rewrite sumQ_seq_single by lia. rewrite (sumQ_zero (fun _ => 0%Q)) by reflexivity. vm_compute. discriminate.
        + destruct (k_choice (i - C) ltac:(lia)) as (s & a & ac & H). replace i with (C + (i - C)) by lia. pose proof (good_choice _ _ _ _ H) as (_ & _ & G1 & G2 & G3). unfold near_one in *. unfold row_total. rewrite K.
          rewrite (sumQ_ext _ _ (prob_to ac)) by (intros; eapply GET2; eauto). rewrite prob_sum; [exact G3|]. intros d q X. apply G2 in X. lia.
      - intros i d p H. apply IT in H. destruct H as [H _]. apply q_ent_in in H. destruct H as (k & s & a & ac & H1 & H2). apply good_choice in H1. destruct H1 as (_ & _ & _ & H & _). destruct H2 as [[_ H2]|(_ & _ & E1)]; [apply (H _ _ H2)|]. rewrite E1. split; vm_compute; discriminate.
      - intros r X. discriminate.
      - intros i d p H. apply IT in H. destruct H as [H _]. apply q_ent_in in H. destruct H as (k & s & a & ac & H1 & H2). pose proof (good_choice _ _ _ _ H1) as (LS & LK & _). rewrite K. destruct H2 as [[-> H2]|(-> & _ & _)].
        + exists (N + k), (C + k). split; [apply q_idx_in; right; eauto|lia].
        + exists s, a. split; [apply q_idx_in; left; eauto|lia]. }
    unfold from_stormpy, conv_choice. fold N C. rewrite L1. cbn [bind]. rewrite L2, L3, L4, L5.
    assert (AE : forall L, ALL q_al L = []) by (clear; unfold ALL, q_al; induction L; auto). rewrite AE. change (collect String.eqb pair_eqb [] []) with (@nil (string * list (nat * nat))).
    destruct (collect_sets nat Nat.eqb Nat.eqb_spec ev) as (S1 & S2 & S3). set (sl := collect String.eqb Nat.eqb ev []) in *. cbv zeta in *.
    destruct (proj2 (mk_abstract_iff KMdp P (IDX q_idx (choices sm)) (mk_idict [] true) (mk_idict sl true) None WF (proj1 q_bid)) V) as (m & Em). exists m. split; [exact Em|].
    split. { apply built_new. exists P, (IDX q_idx (choices sm)), [], sl, None. split; [|left; exact Em]. split; [auto|]. split; [apply q_bid|]. split; [split; [constructor|intros l s []]|]. split; auto. }
    apply mk_abstract_inv in Em; [|apply q_bid]. destruct Em as (F1 & F2 & F3 & F4 & F5 & F6 & _). split; [|split].
    - unfold choice_system, a_N, a_C. rewrite F2, R, K. split; [reflexivity|]. split; [reflexivity|]. intros k s a ac H. split; [|split; [eapply GET1; eauto|split; [|eapply GET2; eauto]]].
      + unfold a_inv. rewrite F3. apply (In_binv Nat.eqb Nat.eqb_spec); [exact q_bid|]. apply q_idx_in. eauto.
      + unfold a_inv. rewrite F3. apply (In_binv Nat.eqb Nat.eqb_spec); [exact q_bid|]. apply q_idx_in. right. eauto.
    - intros l s. unfold has_label, states_by_label. rewrite F6.
      assert (X : In s (match dget String.eqb sl l with Some c => c | None => [] end) <-> (exists st, nth_error sm s = Some st /\ (l = "state"%string \/ In l (st_labels st))) \/
                                     (exists k p ac, nth_error (choices sm) k = Some (p, ac) /\ s = N + S k /\ (l = "choice"%string \/ In l (ac_labels ac)))); [|exact X].
      rewrite S3, L6. unfold STE, ACT. rewrite !in_flat_map. split.
      + intros [([s' st'] & H1 & H2)|([k [p ac]] & H1 & H2)].
        * left. apply numbered_nth in H1. cbn [fst snd] in H2. unfold q_ss in H2. apply in_map_iff in H2. destruct H2 as (l' & E2 & H2). inversion E2; subst. exists st'. split; [auto|]. destruct H2 as [<-|H2]; auto.
        * right. apply numbered_nth in H1. cbn [fst snd] in H2. unfold q_sl in H2. apply in_map_iff in H2. destruct H2 as (l' & E2 & H2). inversion E2; subst. exists k, p, ac. split; [auto|]. split; [auto|]. apply in_snoc in H2. tauto.
      + intros [(st' & H1 & H2)|(k & p & ac & H1 & -> & H2)].
        * left. exists (s, st'). split; [apply numbered_nth; auto|]. unfold q_ss. cbn [fst snd]. apply in_map_iff. exists l. split; auto. destruct H2 as [->|H2]; [left|right]; auto.
        * right. exists (k, (p, ac)). split; [apply numbered_nth; auto|]. unfold q_sl. cbn [fst snd]. apply in_map_iff. exists l. split; auto. apply in_snoc. tauto.
    - intros l. unfold actions_by_label. rewrite F5. reflexivity.
  Qed.
End Read.
