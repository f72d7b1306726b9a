(** Property C56: the tree decomposition with a single part. *)
From Coq Require Import String List Arith ZArith QArith Qreals Reals Bool Lia Lqa.
From Verif Require Import Base BaseFacts Num Matrix MatFacts SpecMdp SpecEc SpecSystem SpecForm SpecBuilt SpecProb SpecSub SpecMilp SpecTree SpecTreeMin
  MdpValue Amdp ReachForm RfBridge BuiltFacts MilpExact Tree TreeProofs TreeDecomp TreeMin.
Import ListNotations.
Local Open Scope nat_scope.

Lemma C56_lemma : forall LS TS HULL expired rf t kub,
  built_form rf -> exact_rows (a_P (rf_sys rf)) -> a_kind (rf_sys rf) = KDtmc -> row_is_state (rf_sys rf) -> rf_init rf < a_N (rf_sys rf) - 2 ->
  exact_linear LS -> TS 1 [] = Ok [0] -> (forall i, expired 0 i = false) -> (0 < f32 t)%Q ->
  let n := a_N (rf_sys rf) - 2 in
  let ub := match kub with Some u => u | None => n end in
  let r := min_witnesses LS TS HULL expired rf [seq 0 n] t kub in
  ((forall v, v < n -> matters rf v) ->
     (forall k, k <= ub -> min_witness rf (f32 t) k -> r = Ok (Z.of_nat k)) /\
     ((forall keep, witness rf Min (f32 t) keep -> ub < count keep n) -> r = Err ValueError)) /\
  ((exists v, v < n /\ ~ matters rf v) -> r = Err KeyError).
Proof.
  intros LS TS HULL expired rf t kub BF EX KD RS INIT LSX HTS HEX HT n ub r.
  destruct (tm_quotient rf BF EX KD RS INIT) as (lab & itf & EQ & LAB & ITF).
  set (es := map fst (mitems (rf_P rf))) in *. set (pv := partition_graph (n, es) 0 [] lab itf rf).
  destruct (tm_models rf BF EX KD RS INIT lab itf LAB ITF) as (ms & asg & EM & MS & ASG). fold es in EM. fold n in EM. fold pv in EM.
  assert (UB : ub = match kub with Some u => u | None => mrows (rf_P rf) end).
  { unfold ub. destruct kub; [reflexivity|]. change (mrows (rf_P rf)) with (rf_C rf). rewrite (tm_C rf BF EX KD RS). reflexivity. }
  assert (HP : handle_part LS HULL expired rf (rf_P rf) (n, es) (distances (n, es) (rf_init rf)) [] lab itf ub t [] 0 =
    (let* o := models_loop (expired 0) (handle_subsys LS rf (rf_P rf) pv (distances (n, es) (rf_init rf)) [] ub t) asg [rf_init rf] 0 ms [] in
     match o with None => Ok None | Some kp => Ok (Some (keep_best (rf_init rf) kp)) end)).
  { unfold handle_part. cbn [filter map mapM bind]. change (partition_graph (n, es) 0 [] lab itf rf) with pv. cbn [snd].
    assert (E2 : filter (pv_in pv) (pv_vs pv) = [rf_init rf]).
    { unfold pv, n, es. rewrite (pv_vs_eq rf INIT lab itf LAB). apply filter_single; [apply seq_NoDup|apply in_seq; fold n; lia|].
      intros s Hs. apply in_seq in Hs. apply pv_in_eq; auto. fold n. lia. }
    rewrite E2, EM. cbn [bind]. destruct (models_loop _ _ asg _ _ _ _) as [[kp|]|e]; reflexivity. }
  assert (ER : r = (let* o := models_loop (expired 0) (handle_subsys LS rf (rf_P rf) pv (distances (n, es) (rf_init rf)) [] ub t) asg [rf_init rf] 0 ms [] in
     match o with None => Ok (-1)%Z | Some kp => let* k := min_states (keep_best (rf_init rf) kp) in Ok (Z.of_nat k) end)).
  { unfold r, min_witnesses. cbv zeta. rewrite <- UB. rewrite (tm_graph rf BF EX KD RS). cbn [bind fst]. fold n. fold es.
    assert (IL : (rf_init rf <? n) = true) by (apply Nat.ltb_lt; exact INIT). rewrite IL. cbn [bind]. fold n in EQ. rewrite EQ. cbn [bind length]. rewrite HTS. cbn [bind rev app parts_loop].
    rewrite HP. destruct (models_loop _ _ asg _ _ _ _) as [[kp|]|e]; cbn [bind parts_loop dset dget Nat.eqb of_opt]; reflexivity. }
  rewrite ER. clear ER HP r.
  assert (GM : exists l, In l ms).
  { exists (seq 0 n). apply MS. split.
    - symmetry. apply filter_all. intros x Hx. apply mem_In. exact Hx.
    - apply (plausible_ext rf INIT (fun _ => true)); [|apply (all_plausible rf BF EX KD RS INIT)]. intros v Hv. symmetry. apply mem_In, in_seq. fold n in Hv. lia. }
  split.
  - intros HM. assert (AT : asg = true) by (apply ASG; exact HM). rewrite AT.
    destruct (loop_ok rf BF EX INIT (expired 0) (handle_subsys LS rf (rf_P rf) pv (distances (n, es) (rf_init rf)) [] ub t) t ub ms 0 [] []) as (kp & EL & KP).
    + exact HEX.
    + intros l Hl. apply MS. exact Hl.
    + intros l Hl. apply (handle_ok rf BF EX KD RS INIT lab itf ITF LS LSX); [apply (dist_init rf INIT)|apply MS; exact Hl].
    + split; [intros k rows []|]. split; [constructor|]. intros k. split; [intros []|intros (l & [] & _)].
    + rewrite EL. cbn [bind]. pose proof (best_min rf BF EX INIT t ub _ kp HT KP) as BM. destruct KP as (_ & _ & K3). cbn [app] in K3.
      assert (KK : forall k, In k (dkeys kp) <-> exists l, good rf l /\ length l = k /\ found rf BF EX t ub l).
      { intros k. rewrite K3. split; intros (l & A & B); exists l; (split; [apply MS; exact A|exact B]). }
      assert (WG : forall l, good rf l -> (witness rf Min (f32 t) (mem l) <-> (Q2R (f32 t) <= Vk rf BF EX (mem l) (rf_init rf))%R)).
      { intros l _. apply (witness_min rf BF INIT EX). }
      assert (CG : forall l, good rf l -> count (mem l) n = length l) by (intros l (E & _); unfold count; fold n in E; rewrite <- E; reflexivity).
      assert (SHR : forall keep, witness rf Min (f32 t) keep -> exists l, good rf l /\ length l <= count keep n /\ witness rf Min (f32 t) (mem l)).
      { intros keep W. apply (witness_min rf BF INIT EX) in W. destruct (shrink rf BF EX KD RS INIT (count keep n) keep (f32 t) (le_n _) HT W) as (l & L1 & L2 & L3).
        exists l. split; [exact L1|]. split; [exact L2|]. apply WG; auto. }
      split.
      * intros k Hk ((keep & W & CK) & MK). change (count keep n = k) in CK. subst k.
        destruct (min_states (keep_best (rf_init rf) kp)) as [k0|e]; cbn [bind].
        -- destruct BM as (B1 & B2). f_equal. f_equal. apply Nat.le_antisymm.
           ++ destruct (SHR keep W) as (l & L1 & L2 & L3). apply (Nat.le_trans _ (length l)); [|lia]. apply B2. apply KK. exists l. split; [exact L1|]. split; [reflexivity|].
              split; [lia|apply WG; auto].
           ++ apply KK in B1. destruct B1 as (l & L1 & <- & F1 & F2). rewrite <- (CG l L1). apply MK. apply WG; auto.
        -- exfalso. destruct BM as (_ & BM). destruct (SHR keep W) as (l & L1 & L2 & L3). assert (IK : In (length l) (dkeys kp)).
           { apply KK. exists l. split; [exact L1|]. split; [reflexivity|]. split; [lia|apply WG; auto]. }
           rewrite BM in IK. destruct IK.
      * intros NW. destruct (min_states (keep_best (rf_init rf) kp)) as [k0|e]; cbn [bind].
        -- exfalso. destruct BM as (B1 & _). apply KK in B1. destruct B1 as (l & L1 & <- & F1 & F2). pose proof (NW (mem l) (proj2 (WG l L1) F2)) as H. rewrite (CG l L1) in H. lia.
        -- destruct BM as (-> & _). reflexivity.
  - intros (v & Hv & NM). assert (AF : asg = false). { destruct asg; [|auto]. exfalso. apply NM. apply (proj1 ASG eq_refl). exact Hv. }
    destruct GM as (l & Hl). destruct ms as [|l0 ms]; [destruct Hl|]. cbn [models_loop]. rewrite HEX, AF. cbn [negb bind]. reflexivity.
Qed.
