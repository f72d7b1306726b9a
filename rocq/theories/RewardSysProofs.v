(** Proofs about the consistency check of systems for reward forms. *)
From Coq Require Import String List Arith ZArith QArith Qreals Reals Bool Lia Lra.
From Verif Require Import Base BaseFacts Num Matrix MatFacts InvDict Graph GraphSpec SccSpec MecProofs SpecMdp SpecEc SpecSystem SpecForm SpecBuilt SpecProb Amdp AmdpProofs ReachForm ReachFormProofs RfFacts BuiltFacts
  SpecReduce Reduce ReduceProofs5 ReduceProofs6 Milp SpecLp RewardForm SpecReward RewardProofs RewardReduce SpecRewSys RewardSys.
Import ListNotations.
Local Open Scope nat_scope.

Lemma all_nth : forall l : list bool, forallb (fun b => b) l = true <-> forall n, n < length l -> nth n l false = true.
Proof.
  intros l. rewrite forallb_forall. split.
  - intros H n Hn. apply H. apply nth_In. auto.
  - intros H x Hx. destruct (In_nth l x false Hx) as (n & Hn & <-). auto.
Qed.

Lemma count_true_one : forall l a, a < length l -> nth a l false = true ->
  (count_true l = 1%Z <-> forall c, c < length l -> nth c l false = true -> c = a).
Proof.
  induction l as [|b l IH]; intros a Ha Na; [simpl in Ha; lia|]. unfold count_true in *. cbn [filter]. destruct a as [|a].
  - cbn [nth] in Na. subst b. cbn [length]. split.
    + intros H [|c] Hc Nc; auto. exfalso. cbn [nth] in Nc. assert (K : In true (filter (fun b => b) l)).
      { apply filter_In. split; auto. rewrite <- Nc. apply nth_In. cbn [length] in Hc. lia. }
      destruct (filter (fun b => b) l); [destruct K|cbn [length] in H; lia].
    + intros H. assert (E : filter (fun b => b) l = []).
      { destruct (filter (fun b => b) l) as [|x r] eqn:E; auto. exfalso. assert (K : In x (filter (fun b => b) l)) by (rewrite E; left; auto).
        apply filter_In in K. destruct K as [K ->]. destruct (In_nth l true false K) as (n & Hn & En). specialize (H (S n)). cbn [length nth] in H. specialize (H ltac:(lia) En). lia. }
      rewrite E. reflexivity.
  - cbn [nth length] in Na, Ha. assert (P : 1 <= length (filter (fun b => b) l)).
    { assert (K : In true (filter (fun b => b) l)) by (apply filter_In; split; auto; rewrite <- Na; apply nth_In; lia). destruct (filter (fun b => b) l); [destruct K|cbn [length]; lia]. }
    destruct b.
    + cbn [length]. split; [intros H; lia|]. intros H. specialize (H 0 ltac:(cbn [length]; lia) eq_refl). lia.
    + rewrite (IH a ltac:(lia) Na). split.
      * intros H [|c] Hc Nc; [discriminate|]. f_equal. apply H; auto. cbn [length] in Hc. lia.
      * intros H c Hc Nc. specialize (H (S c) ltac:(cbn [length]; lia) Nc). lia.
Qed.

Section Sys.
  Variable m : amdp.
  Hypothesis OK : sys_ok m.
  Let P := a_P m.
  Let inv := a_inv m.

  Lemma states_act : forall i, only_loop P inv (mcols P - 1) i -> (forall s, s < mcols P -> rtc (edge P inv) s (mcols P - 1)) ->
    forall s, s < mcols P -> exists a d, pair_edge P inv s a d.
  Proof.
    intros i L R s Hs. specialize (R s Hs). inversion R; subst.
    - destruct L as [(a & p & E & Hin) _]. exists a. eexists. exists i, p. eauto.
    - destruct H as (j & a & p & Hin & E). exists a, y, j, p. auto.
  Qed.

  Lemma mec_part : forall rnd, 1 <= mcols P -> only_loop P inv (mcols P - 1) (mrows P - 1) ->
    (forall s, s < mcols P -> exists a d, pair_edge P inv s a d) ->
    (let* (mecs, proper, _) := a_mecs m rnd in
     let* _ := assert_ (Z.eqb (count_true proper) 1) in
     let* c := of_opt IndexError (nth_error mecs (mcols P - 1)) in
     let* p := of_opt IndexError (nth_error proper c) in
     assert_ p) = Ok tt <-> (forall s, s < mcols P - 1 -> ~ in_some_ec P inv s).
  Proof.
    intros rnd HN L ACT. set (t := mcols P - 1) in *. assert (Ht : t < mcols P) by (unfold t; lia).
    assert (HN0 : 0 < mcols P) by lia.
    destruct (C08_lemma _ _ _ (ok_graph m OK) HN0 rnd) as (comp & proper & k & EC & LC & LP & HB & HU & HE).
    pose proof (C09_lemma _ _ _ (ok_graph m OK) HN0 rnd ACT _ _ _ EC) as HP. fold P inv in HE, HP, HB, HU, LC.
    assert (Pt : nth (nth t comp 0) proper false = true) by (apply HP; auto; eapply only_loop_ec; eauto).
    unfold a_mecs. rewrite EC. cbn [bind].
    rewrite (nth_error_nth' comp 0) by lia. cbn [of_opt bind]. rewrite (nth_error_nth' proper false) by (rewrite LP; auto). cbn [of_opt bind]. rewrite Pt.
    assert (K : count_true proper = 1%Z <-> (forall s, s < t -> ~ in_some_ec P inv s)).
    { rewrite (count_true_one proper (nth t comp 0)) by (auto; rewrite LP; auto). split.
      - intros H s Hs Hec. assert (Hs' : s < mcols P) by lia. apply HP in Hec; auto. apply H in Hec; [|rewrite LP; auto].
        apply HE in Hec; auto. destruct Hec as [E|(X & B & HX & Xs & Xt)]; [lia|]. pose proof (ec_loop_only _ _ X B t _ HX L Xt s Xs). lia.
      - intros H c Hc Nc. rewrite LP in Hc. destruct (HU c Hc) as (n & Hn & <-). apply HP in Nc; auto.
        destruct (Nat.lt_ge_cases n t) as [Hlt|Hge]; [exfalso; eapply H; eauto|]. f_equal. unfold t in *. lia. }
    rewrite <- K. destruct (Z.eqb_spec (count_true proper) 1) as [E|E]; cbn [bind assert_]; split; auto; try discriminate. intros E'. contradiction.
  Qed.

  Lemma system_consistency_iff : forall rnd il tl, assert_system_consistency rnd m il tl = Ok tt <->
    a_rew m <> None /\ exists init, in_reward_form P inv (labelled m) init il tl.
  Proof.
    intros rnd il tl. unfold assert_system_consistency, in_reward_form. cbv zeta. split.
    - intros H. apply bind_ok in H. destruct H as (u0 & K0 & H). apply assert_ok in K0. split; [destruct (a_rew m); [discriminate|discriminate K0]|]. clear K0 u0.
      apply bind_ok in H. destruct H as (u0 & K0 & H). apply assert_ok in K0. rewrite seqb_neq in K0.
      apply bind_ok in H. destruct H as (init & KI & H). apply bind_ok in H. destruct H as (target & KT & H). pose proof (proj1 (single_iff m OK _ _) KI) as KI1. pose proof (proj1 (single_iff m OK _ _) KT) as KT1.
      apply bind_ok in H. destruct H as ([] & A1 & H).
      destruct (minus (a_C m) 1) as [r1|] eqn:M3; [|exfalso; eapply absorbing_none; eauto].
      destruct (minus (a_N m) 1) as [c1|] eqn:M4; [|exfalso; eapply absorbing_none2; eauto].
      apply minus_some in M3. apply minus_some in M4. destruct M3 as [B3 ->], M4 as [B4 ->].
      change (a_N m) with (mcols P) in *. change (a_C m) with (mrows P) in *.
      apply (proj1 (absorbing_iff m OK _ _ _)) in A1. destruct A1 as [-> L1]. fold P inv in L1.
      apply bind_ok in H. destruct H as (fm & F1 & H). apply bind_ok in H. destruct H as (u3 & F2 & H). apply assert_ok in F2.
      apply bind_ok in H. destruct H as (bm & F3 & H). apply bind_ok in H. destruct H as (u4 & F4 & H). apply assert_ok in F4.
      destruct (Nat.lt_ge_cases init (mcols P)) as [Hi|Hi]; [|destruct (mask_out m OK init Forward Hi) as (e & E); congruence].
      destruct (mask_spec m OK init Forward Hi) as (mk1 & E1 & Le1 & S1); [discriminate|].
      destruct (mask_spec m OK (mcols P - 1) Backward) as (mk2 & E2 & Le2 & S2); [unfold P in *; lia|discriminate|].
      assert (fm = mk1) by congruence. assert (bm = mk2) by congruence. subst fm bm. rewrite all_nth in F2, F4.
      assert (R1 : forall s, s < mcols P -> rtc (edge P inv) init s) by (intros s Hs; apply S1; apply F2; rewrite Le1; auto).
      assert (R2 : forall s, s < mcols P -> rtc (edge P inv) s (mcols P - 1)) by (intros s Hs; apply S2; apply F4; rewrite Le2; auto).
      exists init. split; [auto|]. split; [auto|]. split; [auto|]. split; [auto|]. split; [auto|]. split; [auto|]. split; [auto|]. split; [auto|]. split; [auto|].
      apply (mec_part rnd B4 L1 (states_act _ L1 R2)). exact H.
    - intros (RW & init & D1 & HN & HC & Hi & LI & LT & L1 & R1 & R2 & FR).
      destruct (a_rew m) as [r|]; [|contradiction]. cbn [bind assert_].
      rewrite (proj2 (seqb_neq il tl) D1). cbn [assert_ bind].
      rewrite (proj2 (single_iff m OK il init) LI). cbn [bind]. rewrite (proj2 (single_iff m OK tl _) LT). cbn [bind].
      assert (M : forall a b, b <= a -> minus a b = Some (a - b)) by (intros a b H; unfold minus; rewrite (proj2 (Nat.leb_le _ _) H); auto).
      change (a_N m) with (mcols P). change (a_C m) with (mrows P). rewrite !M by lia.
      rewrite (proj2 (absorbing_iff m OK _ _ _)) by auto. cbn [bind].
      destruct (mask_spec m OK init Forward Hi) as (mk1 & -> & Le1 & S1); [discriminate|].
      destruct (mask_spec m OK (mcols P - 1) Backward) as (mk2 & -> & Le2 & S2); [unfold P in *; lia|discriminate|]. cbn [bind].
      rewrite (proj2 (all_nth mk1)) by (intros n Hn; apply S1; apply R1; rewrite Le1 in Hn; exact Hn). cbn [bind assert_].
      rewrite (proj2 (all_nth mk2)) by (intros n Hn; apply S2; apply R2; rewrite Le2 in Hn; exact Hn). cbn [bind assert_].
      apply (mec_part rnd HN L1 (states_act _ L1 R2)). exact FR.
  Qed.
End Sys.

Lemma C107_consistency_lemma : forall rnd m il tl, built m ->
  (assert_system_consistency rnd m il tl = Ok tt <-> a_rew m <> None /\ exists init, in_reward_form (a_P m) (a_inv m) (has_label m) init il tl).
Proof. intros. apply system_consistency_iff. apply built_ok; auto. Qed.

Lemma C107_fromsystem_lemma : forall rnd m il tl ign, 
  fromsystem rnd m il tl ign = match (if ign then Ok tt else assert_system_consistency rnd m il tl) with Ok _ => Err AttributeError | Err e => Err e end.
Proof. intros. unfold fromsystem, bind. reflexivity. Qed.

(** Reduction of such systems. *)
Lemma met_all : forall m init il tl, in_reward_form (a_P m) (a_inv m) (has_label m) init il tl -> forall s, s < a_N m -> met m init tl s.
Proof.
  intros m init il tl (D1 & HN & HC & Hi & LI & LT & L1 & R1 & R2 & FR) s Hs. specialize (R1 s Hs). unfold met. clear Hs.
  assert (G : forall x y, rtc (edge (a_P m) (a_inv m)) x y -> reach_avoid (sys_edge m) (fun x => x = init) (has_label m tl) x -> reach_avoid (sys_edge m) (fun x => x = init) (has_label m tl) y).
  { induction 1 as [|x y z E R IH]; auto. intros K. apply IH. destruct (Nat.eq_dec x (mcols (a_P m) - 1)) as [->|Hne].
    - pose proof (loop_absorbing m _ _ L1 y (rtc_step _ _ _ _ E (rtc_refl _ _))) as ->. exact K.
    - eapply ra_step; [exact K| |exact E]. rewrite LT. auto. }
  apply (G _ _ R1). apply ra_start. auto.
Qed.

Lemma reach_target : forall m init il tl, in_reward_form (a_P m) (a_inv m) (has_label m) init il tl -> forall s, s < a_N m -> can_reach m tl s.
Proof.
  intros m init il tl (D1 & HN & HC & Hi & LI & LT & L1 & R1 & R2 & FR) s Hs. exists (mcols (a_P m) - 1). split; [apply LT; auto|apply R2; auto].
Qed.

Lemma form_acts : forall m init il tl, built m -> in_reward_form (a_P m) (a_inv m) (has_label m) init il tl -> every_state_acts m.
Proof.
  intros m init il tl B (D1 & HN & HC & Hi & LI & LT & L1 & R1 & R2 & FR) s Hs.
  destruct (states_act m _ L1 R2 s Hs) as (a & d & i & p & Hin & E). exists a, i. split; auto.
  apply (entry_indexed m (built_ok m B) i d p Hin).
Qed.

Lemma C107_reduce_lemma : forall rnd rnd' m init il tl, built m -> exact_rows (a_P m) -> a_rew m <> None -> unused m "rf_target" -> unused m "rf_fail" ->
  in_reward_form (a_P m) (a_inv m) (has_label m) init il tl ->
  exists rr cols rows, rr_reduce rnd rnd' m il tl = Ok (rr, cols, rows) /\ (forall s, s < a_N m -> exists s', dget Nat.eqb cols s = Some s') /\
    (targets_free m tl -> forall s, s < a_N m ->
       exists v w, IsRewMin (mdp_of m) (label_set m tl) (sys_reward m) s v /\ IsRewMax (mdp_of m) (label_set m tl) (sys_reward m) s w).
Proof.
  intros rnd rnd' m init il tl B EX RW U1 U2 RF. pose proof RF as (D1 & HN & HC & Hi & LI & LT & L1 & R1 & R2 & FR).
  pose proof (form_acts m init il tl B RF) as ACT.
  assert (MT : marks_states m tl). { intros s Hs. apply LT in Hs. unfold a_N. lia. }
  destruct (C12_lemma rnd m il tl "rf_target" "rf_fail" init B ACT MT LI Hi (reach_target m init il tl RF init Hi) U1 U2 ltac:(discriminate)) as (rf & cols & rows & ER & RR).
  destruct (proj2 (C58_succeeds_lemma rnd rnd' m il tl B ACT EX)) as ([[rr cols'] rows'] & E).
  { split; [eauto|]. split; [auto|]. exists init. split; [exact LI|]. split.
    - intros s Hs. apply (reach_target m init il tl RF). destruct (Nat.lt_ge_cases s (a_N m)) as [H|H]; auto. exfalso.
      inversion Hs; subst; [unfold a_N in H; lia|]. apply (edge_bound m (built_ok m B)) in H2. unfold a_N in H. lia.
    - intros X Bx HX Hall. destruct HX as ((s & Xs) & HX'). destruct (Hall s Xs) as [Hm Ht]. apply (FR s).
      + assert (s < a_N m). { inversion Hm; subst; [exact Hi|]. apply (edge_bound m (built_ok m B)) in H1. apply H1. }
        unfold a_N in H. assert (s <> mcols (a_P m) - 1) by (intros ->; apply Ht; apply LT; auto). lia.
      + exists X, Bx. split; auto. split; eauto. }
  destruct (C58_contents_lemma rnd rnd' m il tl rr cols' rows' B ACT EX E) as (ER' & BF & EX' & Li & FREE & NF & LR & NR & r0 & Er0 & HR).
  assert (rr_rf rr = rf /\ cols' = cols /\ rows' = rows) as (Erf & -> & ->) by (rewrite ER in ER'; inversion ER'; auto). clear ER'.
  destruct RR as (_ & _ & _ & _ & _ & _ & RC & ND & SN).
  assert (TOT : forall s, s < a_N m -> exists s', dget Nat.eqb cols s = Some s').
  { intros s Hs. apply RC. split; [apply (met_all m init il tl RF s Hs)|apply (reach_target m init il tl RF s Hs)]. }
  exists rr, cols, rows. split; [auto|]. split; [auto|]. intros TF s Hs. destruct (TOT s Hs) as (s' & Es).
  destruct (C59_lemma rnd rnd' m il tl rr cols rows B ACT EX TF E s s' Es) as [V1 V2].
  assert (Hs' : s' < a_N (rf_sys (rr_rf rr)) - 2).
  { rewrite Erf. assert (K : In s' (map snd cols)). { apply in_map_iff. exists (s, s'). split; auto. apply (dget_In Nat.eqb Nat.eqb_spec). exact Es. }
    rewrite SN in K. apply in_seq in K. lia. }
  destruct (C52_min_lemma rr BF EX' Li FREE LR NR) as (lp1 & E1 & (r1 & A1) & K1).
  destruct (C52_max_lemma rr BF EX' Li FREE LR NR) as (lp2 & E2 & (r2 & A2) & K2).
  destruct (K1 (fun _ => r1) A1) as (v & _ & _ & _ & HV). destruct (K2 (fun _ => r2) A2) as (w & _ & _ & _ & HW).
  eexists. eexists. split; [apply V1; apply HV; exact Hs'|apply V2; apply HW; exact Hs'].
Qed.
