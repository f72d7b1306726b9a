(** Reading Markov chains from storm; concrete storm models. *)
From Coq Require Import String List Arith ZArith QArith Bool Lia.
From Verif Require Import Base BaseFacts Num Matrix MatFacts InvDict InvDictProofs SpecSystem SpecBuilt Amdp AmdpProofs ReachFormProofs BuiltFacts GroupProofs Storm SpecStorm FilesProofs3 FilesProofs4 StormProofs StormFinal.
Import ListNotations.
Local Open Scope nat_scope.

Definition one_action (sm : storm) : Prop := forall s, In s sm -> exists ac, st_actions s = [ac].
Definition d_ent (e : nat * storm_state) : list (nat * nat * Q) := flat_map (fun ac => map (fun t => ((fst e, fst t), snd t)) (ac_trans ac)) (st_actions (snd e)).

Lemma conv_dtmc_E : forall l P, foldM (fun P (e : nat * storm_state) => foldM (fun P ac => set_row P (fst e) (ac_trans ac)) (st_actions (snd e)) P) l P = foldM msetE (flat_map d_ent l) P.
Proof.
  induction l as [|[s st] l IH]; intros P; [reflexivity|]. cbn [foldM flat_map]. rewrite foldM_app.
  assert (X : forall acs P, foldM (fun P ac => set_row P s (ac_trans ac)) acs P = foldM msetE (flat_map (fun ac => map (fun t => ((s, fst t), snd t)) (ac_trans ac)) acs) P).
  { induction acs as [|ac acs IHa]; intros P1; [reflexivity|]. cbn [foldM flat_map]. rewrite foldM_app, set_row_E. destruct (foldM msetE _ P1); [apply IHa|reflexivity]. }
  cbn [fst snd]. rewrite X. unfold d_ent at 1. cbn [fst snd]. destruct (foldM msetE _ P); [apply IH|reflexivity].
Qed.

Lemma dtmc_lemma : forall sm, good_storm sm -> one_action sm -> exists m, dtmc_of_storm sm = Ok m /\ built m /\ a_N m = nr_states sm /\ a_C m = nr_states sm /\
  (forall s st ac, nth_error sm s = Some st -> st_actions st = [ac] -> a_inv m s = Some (s, 0) /\ forall d, (mget (a_P m) s d == prob_to ac d)%Q) /\ forall l s, ~ has_label m l s.
Proof.
  intros sm G O. set (N := nr_states sm).
  assert (GC : forall s st ac, nth_error sm s = Some st -> st_actions st = [ac] -> s < N /\ good_action N ac).
  { intros s st ac H E. split; [unfold N, nr_states; apply nth_error_Some; congruence|]. apply (G st); [eapply nth_error_In; eauto|rewrite E; left; auto]. }
  assert (ON : forall s st, nth_error sm s = Some st -> exists ac, st_actions st = [ac]) by (intros s st H; apply O; eapply nth_error_In; eauto).
  assert (DE : forall i d q, In ((i, d), q) (flat_map d_ent (numbered sm)) <-> exists st ac, nth_error sm i = Some st /\ st_actions st = [ac] /\ In (d, q) (ac_trans ac)).
  { intros i d q. rewrite in_flat_map. split.
    - intros ([s st] & H1 & H2). apply numbered_nth in H1. destruct (ON _ _ H1) as (ac & E). unfold d_ent in H2. cbn [fst snd] in H2. rewrite E in H2. cbn [flat_map] in H2. rewrite app_nil_r in H2. apply in_map_iff in H2. destruct H2 as ([d' q'] & E2 & H2). cbn [fst snd] in E2. inversion E2; subst. eauto.
    - intros (st & ac & H1 & E & H2). exists (i, st). split; [apply numbered_nth; auto|]. unfold d_ent. cbn [fst snd]. rewrite E. cbn [flat_map]. rewrite app_nil_r. apply in_map_iff. exists (d, q). auto. }
  destruct (mfold_ok N N (flat_map d_ent (numbered sm))) as (P & E & R & K & ND & IT).
  { rewrite map_flat_map. apply nodup_flat; [apply numbered_nodup| |].
    - intros [s st] H. apply numbered_nth in H. destruct (ON _ _ H) as (ac & E). destruct (GC _ _ _ H E) as (_ & G1 & _). unfold d_ent. cbn [fst snd]. rewrite E. cbn [flat_map]. rewrite app_nil_r, map_map. cbn [fst].
      rewrite <- (map_map fst (fun d => (s, d))). apply nodup_map_inj; [|exact G1]. intros x y _ _ Ex. congruence.
    - intros [s st] [s' st'] [x d] _ _ H H'. unfold d_ent in H, H'. cbn [fst snd] in *. apply in_map_iff in H, H'. destruct H as ([[i e] q] & E1 & H), H' as ([[i' e'] q'] & E1' & H'). apply in_flat_map in H, H'. destruct H as (ac & _ & H), H' as (ac' & _ & H').
      apply in_map_iff in H, H'. destruct H as (t & T1 & _), H' as (t' & T2 & _). cbn [fst] in *. congruence. }
  { intros i d q H. apply DE in H. destruct H as (st & ac & H1 & E & H2). destruct (GC _ _ _ H1 E) as (L & _ & H & _). split; auto. eapply H; eauto. }
  assert (WF : wf_mat P). { split; [exact ND|]. intros i d p H. apply IT in H. destruct H as [H NZ]. apply DE in H. destruct H as (st & ac & H1 & E1 & H2). destruct (GC _ _ _ H1 E1) as (L & _ & H & _). rewrite R, K. split; auto. split; auto. eapply H; eauto. }
  assert (GET : forall s st ac, nth_error sm s = Some st -> st_actions st = [ac] -> forall d, (mget P s d == prob_to ac d)%Q).
  { intros s st ac H Ea d. destruct (GC _ _ _ H Ea) as (_ & G1 & _). apply mget_row; auto. intros d' q'. rewrite IT, DE. split.
    - intros [(st' & ac' & X1 & X2 & X3) X4]. rewrite H in X1. inversion X1; subst. rewrite Ea in X2. inversion X2; subst. auto.
    - intros [X1 X2]. split; [eauto|auto]. }
  set (idx := map (fun i => ((i, 0), i)) (seq 0 (mrows P))).
  assert (BID : bid_ok idx) by (split; apply diag_nodup).
  assert (V : valid_system P idx None).
  { split; [apply BID|]. split; [|split; [|split]].
    - intros i Hi. rewrite R in Hi. destruct (nth_error sm i) as [st|] eqn:H; [|apply nth_error_None in H; unfold N, nr_states in Hi; lia]. destruct (ON _ _ H) as (ac & Ea). destruct (GC _ _ _ H Ea) as (_ & G1 & G2 & G3).
      unfold near_one in *. unfold row_total. rewrite K. rewrite (sumQ_ext _ _ (prob_to ac)) by (intros; eapply GET; eauto). rewrite prob_sum; [exact G3|]. intros d q X. apply (G2 d q X).
    - intros i d p H. apply IT in H. destruct H as [H _]. apply DE in H. destruct H as (st & ac & H1 & E1 & H2). destruct (GC _ _ _ H1 E1) as (_ & _ & H & _). apply (H _ _ H2).
    - intros r X. discriminate.
    - intros i d p H. destruct (proj2 WF _ _ _ H) as (L & _). exists i, 0. split; [apply in_map_iff; exists i; split; auto; apply in_seq; lia|]. lia. }
  unfold dtmc_of_storm, conv_dtmc. rewrite conv_dtmc_E. fold N. rewrite E. cbn [bind]. assert (SQ : (mrows P =? mcols P) = true) by (rewrite R, K; apply Nat.eqb_refl). unfold mk_dtmc. rewrite SQ. cbn [assert_ bind]. fold idx.
  destruct (proj2 (mk_abstract_iff KDtmc P idx (mk_idict [] true) (mk_idict [] true) None WF (proj1 BID)) V) as (m & Em). exists m. split; [exact Em|]. split.
  { apply built_new. exists P, idx, [], [], None. split.
    - split; [auto|]. split; [apply BID|]. split; [split; [constructor|intros l s []]|]. split; [constructor|intros l s []].
    - right; right. unfold mk_dtmc. rewrite SQ. cbn [assert_ bind]. exact Em. }
  apply mk_abstract_inv in Em; [|apply BID]. destruct Em as (F1 & F2 & F3 & F4 & F5 & F6 & _). unfold a_N, a_C. rewrite F2, R, K. split; [reflexivity|]. split; [reflexivity|]. split.
  - intros s st ac H Ea. split; [|eapply GET; eauto]. unfold a_inv. rewrite F3. apply (In_binv Nat.eqb Nat.eqb_spec); [exact BID|]. apply in_map_iff. exists s. split; auto. apply in_seq. destruct (GC _ _ _ H Ea). lia.
  - intros l s X. unfold has_label, states_by_label in X. rewrite F6 in X. destruct X.
Qed.

(** A model with two states: two labelled actions in the first. *)
Definition sto1 : storm :=
  [MkState ["init"%string] [MkAction ["go"%string] [(0, 1 # 2); (1, 1 # 2)]; MkAction ["stay"%string] [(0, 1%Q)]];
   MkState ["done"%string] [MkAction [] [(1, 1%Q)]]].
Definition good_b (sm : storm) : bool :=
  forallb (fun s => forallb (fun ac => nodupb Nat.eqb (map fst (ac_trans ac)) && forallb (fun t : nat * Q => (fst t <? nr_states sm) && Qle_bool 0 (snd t) && Qle_bool (snd t) 1) (ac_trans ac) &&
    Qeq_bool (sumQ (map snd (ac_trans ac))) 1) (st_actions s)) sm.
Lemma good_ok : forall sm, good_b sm = true -> good_storm sm.
Proof.
  intros sm H s ac Hs Ha. unfold good_b in H. rewrite forallb_forall in H. specialize (H s Hs). rewrite forallb_forall in H. specialize (H ac Ha). apply andb_true_iff in H. destruct H as [H H3]. apply andb_true_iff in H. destruct H as [H1 H2]. split; [|split].
  - apply (nodupb_ok _ Nat.eqb Nat.eqb_spec). exact H1.
  - intros d q X. rewrite forallb_forall in H2. specialize (H2 _ X). cbn [fst snd] in H2. apply andb_true_iff in H2. destruct H2 as [H2 H5]. apply andb_true_iff in H2. destruct H2 as [H2 H4]. apply Nat.ltb_lt in H2. apply Qle_bool_iff in H4, H5. auto.
  - apply Qeq_bool_iff in H3. unfold near_one. rewrite H3. vm_compute. discriminate.
Qed.
Lemma sto1_good : good_storm sto1. Proof. apply good_ok. vm_compute. reflexivity. Qed.
Definition sto2 : storm := [MkState ["init"%string] [MkAction [] [(0, 1 # 2); (1, 1 # 2)]]; MkState [] [MkAction [] [(1, 1%Q)]]].
Lemma sto2_good : good_storm sto2. Proof. apply good_ok. vm_compute. reflexivity. Qed.
Lemma sto2_one : one_action sto2. Proof. intros s [<-|[<-|[]]]; eexists; reflexivity. Qed.

(** Never are exactly the states of choices labelled. *)
Lemma choice_labels_wrong : forall sm m, good_storm sm -> 0 < nr_choices sm -> from_stormpy KMdp sm true = Ok m ->
  has_label m "choice" (nr_states sm + nr_choices sm) /\ ~ has_label m "choice" (nr_states sm).
Proof.
  intros sm m G C0 E. destruct (choice_lemma sm G) as (m' & E' & _ & _ & L & _). rewrite E in E'. inversion E'; subst m'. split.
  - apply L. right. destruct (k_choice sm (nr_choices sm - 1) ltac:(lia)) as (s & a & ac & H). exists (nr_choices sm - 1), (s, a), ac. split; [exact H|]. split; [lia|auto].
  - intros X. apply L in X. destruct X as [(st & X & _)|(k & p & ac & _ & X & _)]; [|lia]. assert (nr_states sm < length sm) by (apply nth_error_Some; congruence). unfold nr_states in H. lia.
Qed.
