(** Reduction, fourth part: [reduce] as a whole. *)
From Coq Require Import String List Arith ZArith QArith Bool Lia.
From Verif Require Import Base BaseFacts Num Matrix MatFacts InvDict InvDictProofs Graph GraphSpec GraphProofs SccSpec SpecSystem SpecForm SpecBuilt Amdp AmdpProofs ReachForm ReachFormProofs RfFacts BuiltFacts SpecReduce Reduce ReduceProofs1 ReduceProofs2 ReduceProofs3.
Import ListNotations.
Local Open Scope nat_scope.

(** Conditions under which the code reaches the construction of the form. *)
Record red_pre (m : amdp) (il tl ntl nfl : string) (init : nat) : Prop := {
  pr_ntl : unused m ntl;
  pr_nfl : unused m nfl;
  pr_some : exists t, has_label m tl t;
  pr_tl : marks_states m tl;
  pr_il : only_state m il init;
  pr_init : init < a_N m }.

(** What the code has computed then. *)
Record red_mid (m : amdp) (tl ntl nfl : string) (init : nat) (rows : dict (nat * nat) (nat * nat)) (cols : dict nat nat)
    (tmask : list bool) (P : mat) (m' : amdp) : Prop := {
  md_cb : bid_ok cols;
  md_cs : map snd cols = seq 0 (length cols);
  md_rn : NoDup (map fst rows);
  md_rows : forall s a, In (s, a) (map fst rows) <-> relevant m init tl s /\ exists i, i < a_C m /\ a_inv m i = Some (s, a);
  md_rc : forall s a s' a', In ((s, a), (s', a')) rows -> a' = a /\ In (s, s') cols;
  md_rk : forall s, In s (map fst cols) -> exists a, In (s, a) (map fst rows);
  md_tm : forall s, nth s tmask false = true <-> has_label m tl s;
  md_p1 : mrows P = length rows;
  md_p2 : mcols P = length cols;
  md_p3 : wf_mat P;
  md_p6 : forall j c p, In ((j, c), p) (mitems P) <-> row_entry m rows cols tmask j c p;
  md_red : reduced m rows cols tmask P ntl nfl m' }.

Lemma md_rr : forall m tl ntl nfl init rows cols tmask P m', sys_ok m -> red_mid m tl ntl nfl init rows cols tmask P m' ->
  forall s a, In (s, a) (map fst rows) -> exists i, a_row m (s, a) = Some i.
Proof.
  intros m tl ntl nfl init rows cols tmask P m' OK D s a H. apply (md_rows _ _ _ _ _ _ _ _ _ _ D) in H.
  destruct H as (_ & i & _ & E). exists i. apply (row_inv m OK); auto.
Qed.
Lemma md_lt : forall m tl ntl nfl init rows cols tmask P m', sys_ok m -> red_mid m tl ntl nfl init rows cols tmask P m' ->
  forall s a i, In (s, a) (map fst rows) -> a_row m (s, a) = Some i -> i < a_C m.
Proof.
  intros m tl ntl nfl init rows cols tmask P m' OK D s a i H Ei. apply (md_rows _ _ _ _ _ _ _ _ _ _ D) in H.
  destruct H as (_ & i' & Hi & E). apply (row_inv m OK) in Ei. rewrite (inv_inj m OK i i' _ Ei E). auto.
Qed.

Lemma unused_iff : forall m l, negb (dmem String.eqb (fwd (a_slab m)) l) = true <-> unused m l.
Proof.
  intros m l. rewrite negb_true_iff. unfold unused. split.
  - intros H Hin. apply (dmem_true String.eqb String.eqb_spec) in Hin. congruence.
  - intros H. destruct (dmem String.eqb (fwd (a_slab m)) l) eqn:E; auto. apply (dmem_true String.eqb String.eqb_spec) in E. contradiction.
Qed.

Lemma unused_none : forall m l s, unused m l -> ~ has_label m l s.
Proof.
  intros m l s H Hin. unfold has_label, states_by_label in Hin. apply (dget_None String.eqb String.eqb_spec) in H. rewrite H in Hin. contradiction.
Qed.

Lemma nth_zip : forall f a b n, length a = length b -> f false false = false -> nth n (zip_bool f a b) false = f (nth n a false) (nth n b false).
Proof.
  unfold zip_bool. induction a as [|x a IH]; intros [|y b] n HL HF; try discriminate; destruct n; simpl; auto.
Qed.

(** The target mask. *)
Lemma tmask_fold : forall ts l0, 
  match foldM (fun l t => if t <? length l then Ok (upd l t true) else Err IndexError) ts l0 with
  | Ok l => (forall t, In t ts -> t < length l0) /\ length l = length l0 /\ forall n, nth n l false = true <-> nth n l0 false = true \/ In n ts
  | Err _ => exists t, In t ts /\ length l0 <= t
  end.
Proof.
  induction ts as [|t ts IH]; intros l0; simpl.
  - split; [intros ? []|]. split; [auto|]. intuition.
  - destruct (Nat.ltb_spec t (length l0)); simpl; [|exists t; auto].
    specialize (IH (upd l0 t true)). destruct (foldM _ ts (upd l0 t true)) as [l|e].
    + destruct IH as (A & B & C). rewrite upd_length in A, B. split; [intros x [->|Hx]; auto|]. split; [auto|]. intros n. rewrite C, nth_upd.
      destruct (Nat.eqb_spec t n); simpl.
      * subst. destruct (Nat.ltb_spec n (length l0)); [|lia]. intuition.
      * intuition.
    + destruct IH as (x & Hx & Hl). rewrite upd_length in Hl. eauto.
Qed.

Lemma nth_repeat_false : forall n k, nth n (repeat false k) false = false.
Proof. intros n k. revert n. induction k; destruct n; simpl; auto. Qed.

Lemma mark_all_err : forall l0 ts, (exists t, In t ts /\ length l0 <= t) -> exists e, mark_all ts l0 = Err e.
Proof.
  intros l0 ts. unfold mark_all. revert l0. induction ts as [|t ts IH]; intros l0 (x & Hx & Hl); [destruct Hx|]. simpl.
  destruct (Nat.ltb_spec t (length l0)); simpl; eauto. destruct Hx as [->|Hx]; [lia|]. apply IH. exists x. rewrite upd_length. auto.
Qed.

Section Red.
  Variables (m : amdp) (il tl ntl nfl : string).
  Hypothesis B : built m.
  Let OK : sys_ok m := built_ok m B.
  Let LB : labs_ok m := proj1 (proj2 (built_facts m B)).
  Let KD : kind_ok m := proj2 (proj2 (built_facts m B)).

  Lemma back_mask : (exists t, has_label m tl t) -> marks_states m tl ->
    exists mask, reachable_mask m (states_by_label m tl) Backward [] = Ok mask /\ length mask = a_N m /\ forall n, nth n mask false = true <-> can_reach m tl n.
  Proof.
    intros (t & Ht) HM. destruct (C06_lemma (a_P m) (a_inv m) (a_graph m) (states_by_label m tl) Backward [] (ok_graph m OK)) as (mask & E & L & S); auto.
    - intros E. unfold has_label in Ht. rewrite E in Ht. destruct Ht.
    - discriminate.
    - intros s [].
    - exists mask. split; [exact E|]. split; [exact L|]. intros n. rewrite S. unfold can_reach, sys_edge, has_label. split.
      + intros H. induction H as [s Hs|s s' H (t' & Ht' & IH) _ He]; [exists s; split; [auto|constructor]|].
        exists t'. split; [auto|]. econstructor; eauto.
      + intros (t' & Ht' & H). induction H as [s|s s' s'' He H IH]; [constructor; auto|].
        apply ra_step with s'; auto.
  Qed.

  Lemma fwd_mask : forall init, init < a_N m -> marks_states m tl ->
    exists mask, reachable_mask m [init] Forward (states_by_label m tl) = Ok mask /\ length mask = a_N m /\
      forall n, nth n mask false = true <-> reach_avoid (sys_edge m) (fun x => x = init) (has_label m tl) n.
  Proof.
    intros init Hi HM. destruct (C06_lemma (a_P m) (a_inv m) (a_graph m) [init] Forward (states_by_label m tl) (ok_graph m OK)) as (mask & E & L & S); auto.
    - discriminate.
    - discriminate.
    - intros s [<-|[]]. exact Hi.
    - exists mask. split; [exact E|]. split; [exact L|]. intros n. rewrite S. split.
      + intros H. induction H as [s [<-|[]]|s s' H IH Hn He]; [constructor; auto|]. apply ra_step with s; auto.
      + intros H. induction H as [s ->|s s' H IH Hn He]; [constructor; simpl; auto|]. apply ra_step with s; auto.
  Qed.

  Lemma kpairs_In : forall mask s a, In (s, a) (kpairs m mask (seq 0 (a_C m))) <-> nth s mask false = true /\ exists i, i < a_C m /\ a_inv m i = Some (s, a).
  Proof.
    intros mask s a. unfold kpairs. rewrite in_flat_map. split.
    - intros (i & Hi & H). apply in_seq in Hi. destruct (a_inv m i) as [[s' a']|] eqn:E; [|contradiction]. destruct (nth s' mask false) eqn:Em; [|contradiction].
      destruct H as [Eq|[]]. inversion Eq; subst. split; auto. exists i. split; [lia|auto].
    - intros (Em & i & Hi & E). exists i. split; [apply in_seq; lia|]. rewrite E, Em. simpl; auto.
  Qed.

  Lemma reduce_forward : forall rnd init, red_pre m il tl ntl nfl init ->
    exists rows cols tmask P m', red_mid m tl ntl nfl init rows cols tmask P m' /\
      reduce rnd m il tl ntl nfl = bind (mk_rf rnd m' il ntl nfl true) (fun rf => Ok (rf, cols, rows)).
  Proof.
    intros rnd init HP. pose proof HP as [A1 A2 (t0 & Ht0) A3 A4 A5].
    unfold reduce. apply unused_iff in A1. apply unused_iff in A2. rewrite A1, A2. cbn [assert_ bind].
    assert (HL : (0 <? length (states_by_label m tl)) = true).
    { apply Nat.ltb_lt. unfold has_label in Ht0. destruct (states_by_label m tl); [destruct Ht0|simpl; lia]. }
    rewrite HL. cbn [assert_ bind].
    assert (HI : single_state m il = Ok init). { apply (single_iff m OK). exact A4. }
    rewrite HI. cbn [bind].
    destruct (back_mask (ex_intro _ _ Ht0) A3) as (mb & Eb & Lb & Sb). rewrite Eb. cbn [bind].
    destruct (fwd_mask init A5 A3) as (mf & Ef & Lf & Sf). rewrite Ef. cbn [bind].
    set (mask := zip_bool andb mb mf).
    assert (ML : length mask = a_N m). { unfold mask, zip_bool. rewrite map_length, combine_length. lia. }
    assert (MS : forall n, nth n mask false = true <-> relevant m init tl n).
    { intros n. unfold mask. rewrite nth_zip; [|congruence|auto]. rewrite andb_true_iff, Sb, Sf. unfold relevant. intuition. }
    destruct (numbering_ok m OK mask ML) as (rows & cols & En & HN). rewrite En. cbn [bind].
    cbn [num_inv] in HN. destruct HN as (_ & _ & N1 & N2 & N3 & N4 & N5 & N6).
    assert (CB : bid_ok cols) by (split; [auto|rewrite N1; apply seq_NoDup]).
    assert (RW : forall s a, In (s, a) (map fst rows) <-> relevant m init tl s /\ exists i, i < a_C m /\ a_inv m i = Some (s, a)).
    { intros s a. rewrite N3, kpairs_In, MS. tauto. }
    assert (RR : forall s a, In (s, a) (map fst rows) -> exists i, a_row m (s, a) = Some i).
    { intros s a H. apply RW in H. destruct H as (_ & i & _ & E). exists i. apply (row_inv m OK); auto. }
    assert (RL : forall s a i, In (s, a) (map fst rows) -> a_row m (s, a) = Some i -> i < a_C m).
    { intros s a i H E. apply RW in H. destruct H as (_ & i' & Hi & E'). apply (row_inv m OK) in E. rewrite (inv_inj m OK i i' _ E E'). auto. }
    pose proof (tmask_fold (states_by_label m tl) (repeat false (a_N m))) as TF.
    destruct (foldM _ (states_by_label m tl) (repeat false (a_N m))) as [tmask|e].
    2:{ exfalso. destruct TF as (t & Ht & Hl). rewrite repeat_length in Hl. specialize (A3 t Ht). lia. }
    destruct TF as (_ & TL & TS). rewrite repeat_length in TL. cbn [bind].
    destruct (new_rows_ok m OK rows cols tmask CB N1 N6 RR N4 TL RL) as (P & tg & ER & P1 & P2 & P3 & P4 & P5 & P6). rewrite ER. cbn [bind].
    assert (RK : forall s, In s (map fst cols) -> exists a, In (s, a) (map fst rows)). { intros s Hs. rewrite N3. auto. }
    destruct (init_ok m OK LB KD rows cols tmask CB N1 N6 RR N4 RK RL P tg P1 P2 P3 P4 P5 P6 ntl nfl) as (m' & Em & HR).
    rewrite Em. cbn [bind]. exists rows, cols, tmask, P, m'. split; [|reflexivity].
    constructor; auto. intros s. rewrite TS. rewrite nth_repeat_false. unfold has_label. intuition discriminate.
  Qed.

  Lemma reduce_pre : forall rnd r, reduce rnd m il tl ntl nfl = Ok r -> exists init, red_pre m il tl ntl nfl init.
  Proof.
    intros rnd r H. unfold reduce in H.
    apply bind_ok in H. destruct H as (u1 & E1 & H). apply assert_ok in E1. apply bind_ok in H. destruct H as (u2 & E2 & H). apply assert_ok in E2.
    apply bind_ok in H. destruct H as (u3 & E3 & H). apply assert_ok in E3. apply bind_ok in H. destruct H as (init & E4 & H).
    apply bind_ok in H. destruct H as (mb & E5 & H). apply bind_ok in H. destruct H as (mf & E6 & H).
    apply bind_ok in H. destruct H as ((rows, cols) & E7 & H). apply bind_ok in H. destruct H as (tm & E8 & H). clear H.
    exists init. constructor.
    - apply unused_iff; auto.
    - apply unused_iff; auto.
    - apply Nat.ltb_lt in E3. unfold has_label. destruct (states_by_label m tl) as [|t ts]; [simpl in E3; lia|]. exists t. simpl; auto.
    - pose proof (tmask_fold (states_by_label m tl) (repeat false (a_N m))) as TF. rewrite E8 in TF. destruct TF as (TF & _). rewrite repeat_length in TF. exact TF.
    - exact (proj1 (single_iff m OK _ _) E4).
    - destruct (Nat.lt_ge_cases init (a_N m)) as [|Hge]; auto. exfalso. unfold reachable_mask, reachable, reachable_fuel in E6. cbn [assert_ length Nat.ltb Nat.leb bind] in E6.
      destruct (mark_all_err (repeat false (length (a_graph m))) [init]) as (e & Ee).
      { exists init. split; [simpl; auto|]. rewrite repeat_length, (graph_len m OK). exact Hge. }
      rewrite Ee in E6. discriminate.
  Qed.
End Red.
