(** Proofs about systems (Amdp.v). *)
From Coq Require Import String List Arith ZArith QArith Qabs Qreals Reals Bool Lia Lra.
From Verif Require Import Base BaseFacts Num Matrix MatFacts InvDict Graph GraphSpec GraphProofs Scc SccSpec SccProofs Mec MecProofs
  SpecMdp SpecSystem SpecEc SumFacts Amdp.
Import ListNotations.
Local Open Scope nat_scope.

Lemma foldM_check : forall A (f : A -> res unit) l, foldM (fun _ x => f x) l tt = Ok tt <-> forall x, In x l -> f x = Ok tt.
Proof.
  induction l as [|a l IH]; simpl; split; intros H; auto.
  - intros x [].
  - inv_ok H. destruct a0. rewrite IH in Hok0. intros x [<-|Hx]; auto.
  - rewrite (H a) by auto. cbn [bind]. apply IH. auto.
Qed.

Lemma assert_iff : forall b, assert_ b = Ok tt <-> b = true.
Proof. destruct b; simpl; split; intros; auto; discriminate. Qed.

Lemma check_correctness_iff : forall P rew, wf_mat P ->
  check_correctness P rew = Ok tt <->
  (forall i, i < mrows P -> near_one (row_total P i)) /\
  (forall i d p, In ((i, d), p) (mitems P) -> (0 <= p)%Q /\ (p <= 1)%Q) /\
  (forall r, rew = Some r -> forall i, i < mrows P -> exists q, nth_error r i = Some q /\ (0 <= q)%Q).
Proof.
  intros P rew WF.
  assert (E1 : foldM (fun _ i => assert_ (Qeq_bool (np_round9 (row_sum P i)) 1)) (seq 0 (mrows P)) tt = Ok tt <->
               forall i, i < mrows P -> near_one (row_total P i)).
  { rewrite foldM_check. split; intros H i Hi.
    - specialize (H i). rewrite assert_iff, round9_one in H. assert (Hin : In i (seq 0 (mrows P))) by (apply in_seq; lia).
      specialize (H Hin). unfold near_one in *. rewrite row_total_sum; auto.
    - apply in_seq in Hi. rewrite assert_iff, round9_one. unfold near_one in *. rewrite <- row_total_sum; auto. apply H. lia. }
  assert (E2 : foldM (fun _ (e : nat * nat * Q) => assert_ (Qle_bool 0 (snd e) && Qle_bool (snd e) 1)) (mitems P) tt = Ok tt <->
               forall i d p, In ((i, d), p) (mitems P) -> (0 <= p)%Q /\ (p <= 1)%Q).
  { rewrite foldM_check. split.
    - intros H i d p Hin. specialize (H _ Hin). rewrite assert_iff, andb_true_iff, !Qle_bool_iff in H. auto.
    - intros H [[i d] p] Hin. rewrite assert_iff, andb_true_iff, !Qle_bool_iff. simpl. eapply H; eauto. }
  unfold check_correctness. split.
  - intros H. inv_ok H. destruct a. inv_ok Hok0. destruct a. pose proof (proj1 E1 Hok) as Hn1. pose proof (proj1 E2 Hok1) as Hn2. split; [|split]; auto.
    intros r -> i Hi. rewrite foldM_check in Hok2. specialize (Hok2 i). assert (Hin : In i (seq 0 (mrows P))) by (apply in_seq; lia).
    specialize (Hok2 Hin). destruct (nth_error r i) as [q|]; [|discriminate]. exists q. split; auto.
    destruct (Qle_bool 0 q) eqn:Eq; [|discriminate]. apply Qle_bool_iff; auto.
  - intros (A & B & C). rewrite (proj2 E1 A). cbn [bind]. rewrite (proj2 E2 B). cbn [bind]. destruct rew as [r|]; auto.
    apply foldM_check. intros i Hi. apply in_seq in Hi. destruct (C r eq_refl i) as (q & -> & Hq); [lia|].
    rewrite (proj2 (Qle_bool_iff 0 q) Hq). auto.
Qed.

Lemma mk_abstract_inv : forall k P idx al sl rew m, NoDup (map fst idx) -> mk_abstract k P idx al sl rew = Ok m ->
  a_kind m = k /\ a_P m = P /\ a_idx m = idx /\ a_rew m = rew /\ a_alab m = al /\ a_slab m = sl /\
  mk_graph P (binv Nat.eqb idx) = Ok (a_graph m) /\ NoDup (map snd idx) /\ check_correctness P rew = Ok tt.
Proof.
  intros k P idx al sl rew m HN H. unfold mk_abstract in H. inv_ok H.
  apply (mk_bidict_iff pair_eqb Nat.eqb pair_eqbP Nat.eqb_spec) in Hok; auto. destruct Hok as [Hv ->].
  inv_ok Hok0. destruct a. inv_ok Hok1. inversion Hok2; subst; simpl. repeat split; auto.
Qed.

Lemma mk_abstract_iff : forall k P idx al sl rew, wf_mat P -> NoDup (map fst idx) ->
  (exists m, mk_abstract k P idx al sl rew = Ok m) <-> valid_system P idx rew.
Proof.
  intros k P idx al sl rew WF HN. unfold valid_system. split.
  - intros (m & H). apply mk_abstract_inv in H; auto. destruct H as (_ & _ & _ & _ & _ & _ & Hg & Hv & Hc).
    apply check_correctness_iff in Hc; auto. destruct Hc as (A & B & C). split; [|split; [|split; [|split]]]; auto.
    assert (exists g, mk_graph P (binv Nat.eqb idx) = Ok g) by eauto. rewrite C05_builds_lemma in H.
    intros i d p Hin. destruct (H i d p Hin) as (_ & s & a & E & Hs). exists s, a. split; auto. eapply binv_In; eauto. apply Nat.eqb_spec.
  - intros (Hv & A & B & C & D). unfold mk_abstract.
    rewrite (mk_bidict_ok pair_eqb Nat.eqb pair_eqbP Nat.eqb_spec) by (split; auto). cbn [bind].
    rewrite (proj2 (check_correctness_iff P rew WF)) by auto. cbn [bind].
    assert (exists g, mk_graph P (binv Nat.eqb idx) = Ok g) as (g & ->).
    { apply C05_builds_lemma. intros i d p Hin. split; [apply (proj2 WF) in Hin; tauto|].
      destruct (D i d p Hin) as (s & a & E & Hs). exists s, a. split; auto. apply In_binv; auto. apply Nat.eqb_spec. split; auto. }
    simpl. eauto.
Qed.

Lemma C10_mdp_lemma : forall P idx al sl rew, wf_mat P -> NoDup (map fst idx) ->
  (exists m, mk_mdp P idx al sl rew = Ok m) <-> valid_system P idx rew.
Proof. intros. unfold mk_mdp. apply mk_abstract_iff; auto. Qed.

Lemma diag_nodup : forall n, NoDup (map fst (map (fun i => ((i, 0), i)) (seq 0 n))) /\ NoDup (map snd (map (fun i : nat => ((i, 0), i)) (seq 0 n))).
Proof.
  intros n. rewrite !map_map. simpl. split.
  - apply FinFun.Injective_map_NoDup; [|apply seq_NoDup]. intros a b E. congruence.
  - rewrite map_id. apply seq_NoDup.
Qed.

Lemma C10_dtmc_lemma : forall P idx sl rew, wf_mat P -> (forall d, idx = Some d -> NoDup (map fst d)) ->
  (exists m, mk_dtmc P idx sl rew = Ok m) <->
  (mrows P = mcols P /\
   match idx with
   | None => valid_system P (map (fun i => ((i, 0), i)) (seq 0 (mrows P))) rew
   | Some d => valid_system P d rew /\ forall s a i, In ((s, a), i) d -> a = 0
   end).
Proof.
  intros P idx sl rew WF HN. unfold mk_dtmc. split.
  - intros (m & H). inv_ok H. destruct a. rewrite assert_iff, Nat.eqb_eq in Hok. split; auto.
    destruct idx as [d|].
    + inv_ok Hok0. inv_ok Hok1. destruct a0. rewrite (foldM_check (nat*nat) (fun k => assert_ (snd k =? 0)) (dkeys d)) in Hok0.
      inversion Hok3; subst. split.
      * eapply mk_abstract_iff; eauto.
      * intros s a0 i Hin. specialize (Hok0 (s, a0)). rewrite assert_iff, Nat.eqb_eq in Hok0. apply Hok0. unfold dkeys. apply in_map_iff. exists ((s, a0), i); auto.
    + cbn [bind] in Hok0. eapply mk_abstract_iff; eauto. apply diag_nodup.
  - intros [E H]. rewrite (proj2 (Nat.eqb_eq _ _) E). cbn [bind assert_]. destruct idx as [d|].
    + destruct H as [H Ha]. 
      rewrite (proj2 (foldM_check (nat*nat) (fun k => assert_ (snd k =? 0)) (dkeys d))).
      * cbn [bind]. apply mk_abstract_iff; auto.
      * intros [s a] Hin. unfold dkeys in Hin. apply in_map_iff in Hin. destruct Hin as ([[s' a'] i] & E' & Hin). simpl in E'. inversion E'; subst.
        apply Ha in Hin. subst. reflexivity.
    + cbn [bind]. apply mk_abstract_iff; auto. apply diag_nodup.
Qed.

(** ** Reading the matrix as a Markov decision process *)
Lemma Q2R_pos : forall q, (0 < q)%Q <-> (0 < Q2R q)%R.
Proof. intros q. rewrite <- RMicromega.Q2R_0. split; [apply Qlt_Rlt|apply Rlt_Qlt]. Qed.
Lemma Q2R_nonneg : forall q, (0 <= q)%Q <-> (0 <= Q2R q)%R.
Proof. intros q. rewrite <- RMicromega.Q2R_0. split; [apply Qle_Rle|apply Rle_Qle]. Qed.

Lemma Q2R_1 : Q2R 1 = 1%R. Proof. apply RMicromega.Q2R_1. Qed.
Lemma Q2R_0 : Q2R 0 = 0%R. Proof. apply RMicromega.Q2R_0. Qed.

Section Bridge.
  Variables (P : mat) (idx : dict (nat * nat) nat) (rew : option (list Q)).
  Hypothesis KN : NoDup (map fst idx).
  Hypothesis V : valid_system P idx rew.
  Hypothesis PS : proper_system P (binv Nat.eqb idx).
  Let inv := binv Nat.eqb idx.
  Let M := sys_mdp P inv.

  Lemma br_wf : wf_mat P. Proof. apply PS. Qed.
  Lemma br_bid : bid_ok idx. Proof. split; auto. apply V. Qed.

  Lemma mget_nonneg : forall i d, (0 <= mget P i d)%Q.
  Proof.
    intros i d. destruct (Qeq_bool (mget P i d) 0) eqn:E. { apply Qeq_bool_iff in E. rewrite E. apply Qle_refl. }
    assert (~ (mget P i d == 0)%Q) by (rewrite <- Qeq_bool_iff; congruence). apply mget_nonzero in H. eapply V; eauto.
  Qed.

  Lemma mget_pos : forall i d, (0 < mget P i d)%Q <-> exists p, In ((i, d), p) (mitems P).
  Proof.
    intros i d. split.
    - intros H. exists (mget P i d). apply mget_nonzero. intros E. rewrite E in H. discriminate H.
    - intros (p & H). rewrite (mget_In P i d p br_wf H). destruct V as (_ & _ & A & _). destruct (A _ _ _ H) as [A1 _].
      apply Qle_lteq in A1. destruct A1; auto. symmetry in H0. apply (proj2 br_wf) in H. tauto.
  Qed.

  Lemma row_indexed : forall i, i < mrows P -> exists s a, inv i = Some (s, a) /\ s < mcols P.
  Proof.
    intros i Hi. destruct PS as (_ & B & _). specialize (B i Hi).
    assert (exists d p, In ((i, d), p) (mitems P)) as (d & p & Hin).
    { destruct (existsb (fun e : nat * nat * Q => fst (fst e) =? i) (mitems P)) eqn:E.
      - apply existsb_exists in E. destruct E as ([[i' d] p] & Hin & E). simpl in E. apply Nat.eqb_eq in E. subst. eauto.
      - exfalso. rewrite row_total_sum in B by apply br_wf. unfold row_sum in B.
        assert (Ef : filter (fun e : nat * nat * Q => fst (fst e) =? i) (mitems P) = []).
        { destruct (filter _ (mitems P)) as [|x l] eqn:Ef; auto. assert (In x (x :: l)) by (left; auto). rewrite <- Ef in H. apply filter_In in H.
          assert (existsb (fun e : nat * nat * Q => fst (fst e) =? i) (mitems P) = true) by (apply existsb_exists; exists x; auto). congruence. }
        rewrite Ef in B. discriminate B. }
    destruct V as (_ & _ & _ & _ & D). destruct (D _ _ _ Hin) as (s & a & Hi' & Hs). exists s, a. split; auto.
    apply In_binv; auto. apply Nat.eqb_spec. apply br_bid.
  Qed.

  Lemma sys_wf : wf_mdp M.
  Proof.
    split; [|split; [|split]]; simpl.
    - intros r Hr. destruct (row_indexed r Hr) as (s & a & E & Hs). rewrite E. auto.
    - intros r d _ _. apply Q2R_nonneg. apply mget_nonneg.
    - intros r Hr. rewrite <- Q2R_sumQ. change (sumQ (map (mget P r) (seq 0 (mcols P)))) with (row_total P r).
      rewrite (Qeq_eqR _ _ (proj1 (proj2 PS) r Hr)). apply Q2R_1.
    - intros s Hs. destruct (proj2 (proj2 PS) s Hs) as (i & a & Hi & E). exists i. split; auto. fold inv in E. rewrite E. auto.
  Qed.

  Lemma row_edge_iff : forall s r d, row_edge M s r d <-> exists a p, inv r = Some (s, a) /\ In ((r, d), p) (mitems P).
  Proof.
    intros s r d. unfold row_edge. simpl. split.
    - intros (Hr & Hs & Hd & Hp). destruct (row_indexed r Hr) as (s' & a & E & _). rewrite E in Hs. subst s'. exists a.
      apply Q2R_pos in Hp. apply mget_pos in Hp. destruct Hp as (p & Hp). exists p. auto.
    - intros (a & p & E & Hin). rewrite E. pose proof (proj2 br_wf _ _ _ Hin) as (A & B & _). split; [|split; [|split]]; auto.
      apply Q2R_pos, mget_pos. eauto.
  Qed.

  Lemma pair_edge_row : forall s a d, pair_edge P inv s a d <-> exists r, inv r = Some (s, a) /\ row_edge M s r d.
  Proof.
    intros s a d. split.
    - intros (i & p & Hin & E). exists i. split; auto. apply row_edge_iff. eauto.
    - intros (r & E & H). apply row_edge_iff in H. destruct H as (a' & p & E' & Hin). assert (a' = a) by congruence. subst. exists r, p. auto.
  Qed.

  Lemma edge_medge : forall s d, edge P inv s d <-> medge M s d.
  Proof.
    intros s d. split.
    - intros (i & a & p & Hin & E). exists i. apply row_edge_iff. eauto.
    - intros (r & H). apply row_edge_iff in H. destruct H as (a & p & E & Hin). exists r, a, p. auto.
  Qed.

  Lemma medge_bound : forall s d, medge M s d -> s < mcols P /\ d < mcols P.
  Proof. intros s d (r & Hr & Hs & Hd & _). split; auto. rewrite <- Hs. apply (proj1 sys_wf); auto. Qed.

  Lemma in_ec_iff : forall s, in_some_ec P inv s <-> in_ec M s.
  Proof.
    intros s. split.
    - intros (X & B & (H1 & H2 & H3 & H4) & Hs).
      exists X, (fun u r => exists a, inv r = Some (u, a) /\ B u a /\ r < mrows P). split; auto.
      assert (GB : forall u a, B u a -> exists r, inv r = Some (u, a) /\ r < mrows P).
      { intros u a Hb. destruct (H3 u a Hb) as (_ & (d & (i & p & Hin & E)) & _). exists i. split; auto. eapply (proj2 br_wf); eauto. }
      split; [|split; [|split]]; auto.
      + intros u Hu. destruct (H2 u Hu) as (a & Ha). destruct (GB u a Ha) as (r & Er & Hr). eauto.
      + intros u r (a & Er & Hb & Hr). destruct (H3 u a Hb) as (Hu & (d & Hd) & Hall). split; [auto|]. split.
        * apply pair_edge_row in Hd. destruct Hd as (r' & Er' & Hd). exists d. replace r with r'; auto.
          eapply (binv_inj pair_eqb Nat.eqb pair_eqbP Nat.eqb_spec); eauto. apply br_bid.
        * intros d' Hd'. apply Hall. apply pair_edge_row. eauto.
      + intros u v Hu Hv. refine (rtc_mono _ _ _ _ _ _ (H4 u v Hu Hv)). intros x y (a & Ha & Hxy).
        apply pair_edge_row in Hxy. destruct Hxy as (r & Er & Hr). exists r. split; auto. exists a. split; [|split]; auto. apply Hr.
    - intros (X & B & (H1 & H2 & H3 & H4) & Hs).
      exists X, (fun u a => exists r, inv r = Some (u, a) /\ B u r). split; auto.
      split; [|split; [|split]]; auto.
      + intros u Hu. destruct (H2 u Hu) as (r & Hb). destruct (H3 u r Hb) as (_ & (d & Hd) & _). apply row_edge_iff in Hd.
        destruct Hd as (a & p & E & _). exists a, r. auto.
      + intros u a (r & Er & Hb). destruct (H3 u r Hb) as (Hu & (d & Hd) & Hall). split; [auto|]. split.
        * exists d. apply pair_edge_row. eauto.
        * intros d' Hd'. apply Hall. apply pair_edge_row in Hd'. destruct Hd' as (r' & Er' & Hd'). replace r with r'; auto.
          eapply (binv_inj pair_eqb Nat.eqb pair_eqbP Nat.eqb_spec); eauto. apply br_bid.
      + intros u v Hu Hv. refine (rtc_mono _ _ _ _ _ _ (H4 u v Hu Hv)). intros x y (r & Hb & Hxy).
        pose proof Hxy as Hxy'. apply row_edge_iff in Hxy'. destruct Hxy' as (a & p & E & _). exists a. split; [eauto|]. apply pair_edge_row. eauto.
  Qed.
End Bridge.

Lemma C10_contents_lemma : forall P idx al sl rew m, NoDup (map fst idx) -> mk_mdp P idx al sl rew = Ok m ->
  a_P m = P /\ a_idx m = idx /\ a_rew m = rew /\
  (forall l, states_by_label m l = match dget String.eqb sl l with Some s => s | None => [] end) /\
  (forall l, actions_by_label m l = match dget String.eqb al l with Some s => s | None => [] end).
Proof.
  intros P idx al sl rew m HN H. unfold mk_mdp in H. apply mk_abstract_inv in H; auto. destruct H as (_ & A & B & C & D & E & _).
  split; [|split; [|split; [|split]]]; auto; intros l.
  - unfold states_by_label. rewrite E. reflexivity.
  - unfold actions_by_label. rewrite D. reflexivity.
Qed.
