(** Brute-force computation of the least witness, and the counterexamples for
    property C56. *)
From Coq Require Import String List Arith ZArith QArith Qreals Reals Bool Lia Lqa.
From Verif Require Import Base BaseFacts Num Matrix MatFacts SpecMdp SpecEc SpecSystem SpecForm SpecBuilt SpecProb SpecSub SpecMilp SpecTree SpecTreeMin
  SumFacts MdpValue RfTheory SubTheory Amdp AmdpProofs ReachForm RfBridge BuiltFacts MilpExact ChainTheory Tree TreeProofs TreeDecomp LinSolve TreeMin TreeMinFinal Examples ExProofs2.
Import ListNotations.
Local Open Scope nat_scope.

Definition brute_val (rf : rform) (l : list nat) : Q :=
  let n := a_N (rf_sys rf) - 2 in
  match dget Nat.eqb (combine l (gauss (reach_matrix (rf_P rf) l) (map (fun s => mget (a_P (rf_sys rf)) s n) l))) (rf_init rf) with Some q => q | None => 0%Q end.
Definition brute_min (rf : rform) (t : Q) (k : nat) : bool :=
  let ls := subsets (seq 0 (a_N (rf_sys rf) - 2)) in
  forallb (fun l => (k <=? length l) || Qlt_bool (brute_val rf l) t) ls &&
  existsb (fun l => (k =? length l) && Qle_bool t (brute_val rf l)) ls.

Definition chain_chk (m : amdp) (init : nat) : bool :=
  (match a_kind m with KDtmc => true | KMdp => false end) && forallb (fun s => match a_inv m s with Some (u, a) => (u =? s) && (a =? 0) | None => false end) (seq 0 (a_N m)) && (init <? a_N m - 2).
Lemma chain_chk_ok : forall m init, chain_chk m init = true -> a_kind m = KDtmc /\ row_is_state m /\ init < a_N m - 2.
Proof.
  intros m init H. unfold chain_chk in H. apply andb_prop in H. destruct H as [H C]. apply andb_prop in H. destruct H as [A B].
  split; [destruct (a_kind m); [discriminate|auto]|]. split; [|apply Nat.ltb_lt; auto]. intros s Hs. rewrite forallb_forall in B. specialize (B s ltac:(apply in_seq; lia)).
  destruct (a_inv m s) as [[u a]|]; [|discriminate]. apply andb_prop in B. destruct B as [B1 B2]. apply Nat.eqb_eq in B1. apply Nat.eqb_eq in B2. subst. auto.
Qed.

Section Brute.
  Variable rf : rform.
  Hypothesis BF : built_form rf.
  Hypothesis EX : exact_rows (a_P (rf_sys rf)).
  Hypothesis CH : chain_chk (rf_sys rf) (rf_init rf) = true.
  Let n := a_N (rf_sys rf) - 2.
  Let KD := proj1 (chain_chk_ok _ _ CH).
  Let RS := proj1 (proj2 (chain_chk_ok _ _ CH)).
  Let INIT := proj2 (proj2 (chain_chk_ok _ _ CH)).

  Lemma Vk_zero : forall keep, keep (rf_init rf) = false -> Vk rf BF EX keep (rf_init rf) = 0%R.
  Proof.
    intros keep K. destruct (keep_values _ _ (br_rf rf BF EX) (tm_SQ rf BF EX KD RS) (tm_ROW rf RS INIT) keep) as (_ & A & _). apply A; [exact INIT|exact K].
  Qed.

  Lemma brute_ok : forall keep, Q2R (brute_val rf (filter keep (seq 0 n))) = Vk rf BF EX keep (rf_init rf).
  Proof.
    intros keep. unfold brute_val. fold n. set (l := filter keep (seq 0 n)).
    destruct (gauss_exact (length l) _ (map (fun s => mget (a_P (rf_sys rf)) s n) l) (reach_regular rf BF EX KD RS INIT keep) (map_length _ _)) as (LX & HX).
    fold n in LX, HX. fold l in LX, HX. rewrite map_length in LX. destruct (as_fun l _ (NoDup_filter _ (seq_NoDup n 0)) LX) as (g & Eg). rewrite Eg, combine_map.
    assert (DG : forall (l : list nat), dget Nat.eqb (map (fun s => (s, g s)) l) (rf_init rf) = if mem l (rf_init rf) then Some (g (rf_init rf)) else None).
    { clear. intros l. induction l as [|a l IH]; [reflexivity|]. cbn [map dget]. unfold mem. cbn [existsb]. fold (mem l (rf_init rf)). destruct (Nat.eqb_spec (rf_init rf) a) as [->|]; [reflexivity|exact IH]. }
    rewrite DG. assert (ML : mem l (rf_init rf) = keep (rf_init rf)) by exact (mem_filter rf INIT keep _ INIT). rewrite ML. destruct (keep (rf_init rf)) eqn:K; [|rewrite (Vk_zero keep K); apply RMicromega.Q2R_0].
    apply (sol_unique rf BF EX KD RS INIT keep (fun s => Q2R (g s))); [|exact INIT|exact K]. intros s Hs Ks. rewrite Eg in HX.
    assert (R : forall l', Forall2 (fun r c => dot r (map g l) == c)%Q (map (fun i => map (fun j => ((if i =? j then 1 else 0) - mget (rf_P rf) i j)%Q) l) l') (map (fun s => mget (a_P (rf_sys rf)) s n) l') ->
      In s l' -> (dot (map (fun j => ((if s =? j then 1 else 0) - mget (rf_P rf) s j)%Q) l) (map g l) == mget (a_P (rf_sys rf)) s n)%Q).
    { intros l' HF HI. induction l' as [|u l' IH]; [destruct HI|]. cbn [map] in HF. inversion HF as [|? ? ? ? F1 F2]; subst. destruct HI as [->|HI]; auto. }
    specialize (R l HX). assert (Hl : In s l) by (apply filter_In; split; [apply in_seq; fold n in Hs; lia|auto]). specialize (R Hl). apply Qeq_eqR in R.
    pose proof (row_value rf BF EX KD RS keep s g Hs Ks) as RV. unfold l, n in R. rewrite R in RV.
    change (prob (form_mdp rf) s (goal (form_mdp rf))) with (Q2R (mget (a_P (rf_sys rf)) s (a_N (rf_sys rf) - 2))). Lra.lra.
  Qed.

  Lemma brute_min_ok : forall t k, brute_min rf t k = true -> min_witness rf t k.
  Proof.
    intros t k H. unfold brute_min in H. apply andb_prop in H. destruct H as [A B]. fold n in A, B. rewrite forallb_forall in A. apply existsb_exists in B. split.
    - destruct B as (l & Hl & B). apply andb_prop in B. destruct B as [B1 B2]. apply Nat.eqb_eq in B1. apply subsets_iff in Hl; [|apply seq_NoDup].
      exists (mem l). split; [|unfold count; fold n; rewrite <- Hl; auto]. apply (witness_min rf BF INIT EX). apply Qle_bool_iff in B2. apply Qle_Rle in B2.
      eapply Rle_trans; [exact B2|]. rewrite Hl at 1. rewrite brute_ok. apply Rle_refl.
    - intros keep W. fold n. apply (witness_min rf BF INIT EX) in W. specialize (A (filter keep (seq 0 n))). assert (I : In (filter keep (seq 0 n)) (subsets (seq 0 n))).
      { apply subsets_iff; [apply seq_NoDup|]. symmetry. apply filter_mem_filter. }
      specialize (A I). apply orb_prop in A. destruct A as [A|A]; [apply Nat.leb_le in A; exact A|]. exfalso.
      apply Qlt_bool_iff' in A. apply Qlt_Rlt in A. rewrite brute_ok in A. unfold Vk in A. Lra.lra.
  Qed.
End Brute.

(** ** Systems *)
(** 0 -> target 1/2, 1 1/2; 1 -> target 1/2, fail 1/2. *)
Definition fan : amdp := Examples.get dummy_amdp (mk_dtmc (mat_of_rows 4 [[0; 1#2; 1#2; 0]; [0; 0; 1#2; 1#2]; [0; 0; 1; 0]; [0; 0; 0; 1]]%Q) None ec1L None).
Definition fanrf : rform := Examples.get dummy_rf (mk_rf exrnd fan "init" "target" "fail" false).
Lemma fan_built : built_form fanrf.
Proof.
  exists exrnd, fan, "init"%string, "target"%string, "fail"%string. split; [|vm_compute; reflexivity].
  apply built_new. exists (mat_of_rows 4 [[0; 1#2; 1#2; 0]; [0; 0; 1#2; 1#2]; [0; 0; 1; 0]; [0; 0; 0; 1]]%Q), [], [], ec1L, None.
  split; [apply good_args_ok; vm_compute; reflexivity|]. right; right. vm_compute. reflexivity.
Qed.

(** 0 -> 1 1/2, 3 1/2; 1 -> 2; 2 -> target; 3 -> 3 1/2, target 1/4, fail 1/4. *)
Definition loopL : dict string (list nat) := [("init"%string, [0]); ("target"%string, [4]); ("fail"%string, [5])].
Definition loopP : mat := mat_of_rows 6 [[0; 1#2; 0; 1#2; 0; 0]; [0; 0; 1; 0; 0; 0]; [0; 0; 0; 0; 1; 0]; [0; 0; 0; 1#2; 1#4; 1#4]; [0; 0; 0; 0; 1; 0]; [0; 0; 0; 0; 0; 1]]%Q.
Definition loopm : amdp := Examples.get dummy_amdp (mk_dtmc loopP None loopL None).
Definition looprf : rform := Examples.get dummy_rf (mk_rf exrnd loopm "init" "target" "fail" false).
Lemma loop_built : built_form looprf.
Proof.
  exists exrnd, loopm, "init"%string, "target"%string, "fail"%string. split; [|vm_compute; reflexivity].
  apply built_new. exists loopP, [], [], loopL, None. split; [apply good_args_ok; vm_compute; reflexivity|]. right; right. vm_compute. reflexivity.
Qed.

(** 0 -> target p, fail 1-p, with a p that is no single-precision number. *)
Definition oddp : Q := (33554435 # 67108864)%Q.
Definition oddP : mat := mat_of_rows 3 [[0; oddp; 1 - oddp]; [0; 1; 0]; [0; 0; 1]]%Q.
Definition oddm : amdp := Examples.get dummy_amdp (mk_dtmc oddP None tinyL None).
Definition oddrf : rform := Examples.get dummy_rf (mk_rf exrnd oddm "init" "target" "fail" false).
Lemma odd_built : built_form oddrf.
Proof.
  exists exrnd, oddm, "init"%string, "target"%string, "fail"%string. split; [|vm_compute; reflexivity].
  apply built_new. exists oddP, [], [], tinyL, None. split; [apply good_args_ok; vm_compute; reflexivity|]. right; right. vm_compute. reflexivity.
Qed.

Definition in_order : nat -> list (nat * nat) -> res (list nat) := fun k _ => Ok (seq 0 k).
Definition no_hull : nat -> dict nat (list (list Q)) -> res (list (nat * list Q)) := fun _ _ => Err OutOfBounds.
Definition never : nat -> nat -> bool := fun _ _ => false.
Definition run_tree rf ps t := min_witnesses gauss in_order no_hull never rf ps t None.


(** ** Checkers *)
Definition leads_b (rf : rform) (u v : nat) : bool := Qlt_bool 0 (mget (a_P (rf_sys rf)) u v).
Definition part_chk (n : nat) (ps : list (list nat)) : bool :=
  forallb (forallb (fun v => v <? n)) ps && forallb (fun v => length (filter (fun p => mem p v) ps) =? 1) (seq 0 n).
Lemma part_chk_ok : forall n ps, part_chk n ps = true -> partition_of n ps.
Proof.
  intros n ps H. apply andb_prop in H. destruct H as [A B]. rewrite forallb_forall in A, B. split.
  - intros i p v E I. apply nth_error_In in E. specialize (A p E). rewrite forallb_forall in A. apply Nat.ltb_lt. apply A. exact I.
  - intros v Hv. specialize (B v ltac:(apply in_seq; lia)). apply Nat.eqb_eq in B. clear A.
    assert (Z : forall ps, length (filter (fun p => mem p v) ps) = 0 -> forall i p, nth_error ps i = Some p -> ~ In v p).
    { clear. induction ps as [|q ps IH]; intros E i p Hi I; [destruct i; discriminate|]. cbn [filter] in E. destruct (mem q v) eqn:M; [discriminate|].
      destruct i as [|i]; [injection Hi as <-; apply mem_In in I; congruence|]. exact (IH E i p Hi I). }
    induction ps as [|q ps IH]; [discriminate|]. cbn [filter] in B. destruct (mem q v) eqn:M.
    + cbn [length] in B. apply eq_add_S in B. exists 0, q. split; [reflexivity|]. split; [apply mem_In; exact M|]. intros j p' E I. destruct j as [|j]; [reflexivity|].
      exfalso. exact (Z ps B j p' E I).
    + destruct (IH B) as (i & p & E & I & U). exists (Datatypes.S i), p. split; [exact E|]. split; [exact I|]. intros [|j] p' E' I'.
      * injection E' as <-. apply mem_In in I'. congruence.
      * f_equal. exact (U j p' E' I').
Qed.

Lemma tree_call_two : forall rf p0 p1 t, built_form rf -> exact_rows (a_P (rf_sys rf)) -> chain_chk (rf_sys rf) (rf_init rf) = true -> part_chk (a_N (rf_sys rf) - 2) [p0; p1] = true ->
  mem p0 (rf_init rf) = true -> existsb (fun v => existsb (leads_b rf v) p1) p0 = true -> forallb (fun v => forallb (fun w => negb (leads_b rf v w)) p0) p1 = true -> (0 < t)%Q ->
  tree_call gauss in_order rf [p0; p1] t.
Proof.
  intros rf p0 p1 t BF EX CH PC MI E01 E10 HT. destruct (chain_chk_ok _ _ CH) as (KD & RS & INIT).
  assert (PE : forall i j, part_edge rf [p0; p1] i j <-> (i = 0 /\ j = 1)).
  { intros i j. split.
    - intros (NE & v & w & Hv & Hw & L). rewrite forallb_forall in E10. destruct i as [|[|i]].
      + destruct j as [|[|j]]; [contradiction|auto|]. cbn in Hw. destruct j; destruct Hw.
      + destruct j as [|[|j]]; [|contradiction|cbn in Hw; destruct j; destruct Hw]. exfalso. cbn in Hv, Hw. specialize (E10 v Hv). rewrite forallb_forall in E10. specialize (E10 w Hw).
        unfold leads_b in E10. apply Qlt_bool_iff' in L. rewrite L in E10. discriminate.
      + cbn in Hv. destruct i; destruct Hv.
    - intros [-> ->]. split; [lia|]. apply existsb_exists in E01. destruct E01 as (v & Hv & E). apply existsb_exists in E. destruct E as (w & Hw & E). exists v, w. cbn.
      split; [exact Hv|]. split; [exact Hw|]. apply Qlt_bool_iff'. exact E. }
  split; [exact BF|]. split; [exact EX|]. split; [exact KD|]. split; [exact RS|]. split; [exact INIT|]. split; [apply part_chk_ok; exact PC|]. split; [apply mem_In; exact MI|].
  split; [intros i i' j A B; apply PE in A; apply PE in B; lia|]. split; [intros j A B; exists 0; apply PE; cbn in B; lia|]. split; [apply gauss_exact|]. split; [|exact HT].
  intros es HE. exists [0; 1]. split; [reflexivity|]. split; [repeat constructor; cbn; lia|]. split; [intros i; cbn; lia|].
  intros i j I. apply HE in I. apply PE in I. destruct I as [-> ->]. exists [], [], []. reflexivity.
Qed.

Lemma tree_call_one : forall rf p0 t, built_form rf -> exact_rows (a_P (rf_sys rf)) -> chain_chk (rf_sys rf) (rf_init rf) = true -> part_chk (a_N (rf_sys rf) - 2) [p0] = true ->
  mem p0 (rf_init rf) = true -> (0 < t)%Q -> tree_call gauss in_order rf [p0] t.
Proof.
  intros rf p0 t BF EX CH PC MI HT. destruct (chain_chk_ok _ _ CH) as (KD & RS & INIT).
  assert (PE : forall i j, ~ part_edge rf [p0] i j).
  { intros [|i] [|j] (NE & v & w & Hv & Hw & L); [auto|cbn in Hw; destruct j; destruct Hw|cbn in Hv; destruct i; destruct Hv|cbn in Hv; destruct i; destruct Hv]. }
  split; [exact BF|]. split; [exact EX|]. split; [exact KD|]. split; [exact RS|]. split; [exact INIT|]. split; [apply part_chk_ok; exact PC|]. split; [apply mem_In; exact MI|].
  split; [intros i i' j A B; destruct (PE _ _ A)|]. split; [intros j A B; cbn in B; lia|]. split; [apply gauss_exact|]. split; [|exact HT].
  intros es HE. exists [0]. split; [reflexivity|]. split; [repeat constructor; cbn; lia|]. split; [intros i; cbn; lia|].
  intros i j I. apply HE in I. destruct (PE _ _ I).
Qed.

Lemma exact_fan : exact_rows (a_P (rf_sys fanrf)). Proof. apply exact_rows_ok. vm_compute. reflexivity. Qed.
Lemma exact_loop : exact_rows (a_P (rf_sys looprf)). Proof. apply exact_rows_ok. vm_compute. reflexivity. Qed.
Lemma exact_odd : exact_rows (a_P (rf_sys oddrf)). Proof. apply exact_rows_ok. vm_compute. reflexivity. Qed.
Lemma fan_call : forall t, (0 < t)%Q -> tree_call gauss in_order fanrf [[0]; [1]] t.
Proof. intros t H. apply tree_call_two; [exact fan_built|exact exact_fan| | | | | |exact H]; vm_compute; reflexivity. Qed.
Lemma loop_call : forall t, (0 < t)%Q -> tree_call gauss in_order looprf [[0; 1; 2]; [3]] t.
Proof. intros t H. apply tree_call_two; [exact loop_built|exact exact_loop| | | | | |exact H]; vm_compute; reflexivity. Qed.
Lemma odd_call : forall t, (0 < t)%Q -> tree_call gauss in_order oddrf [[0]] t.
Proof. intros t H. apply tree_call_one; [exact odd_built|exact exact_odd| | | |exact H]; vm_compute; reflexivity. Qed.
Lemma fan1_call : forall t, (0 < t)%Q -> tree_call gauss in_order fanrf [[0; 1]] t.
Proof. intros t H. apply tree_call_one; [exact fan_built|exact exact_fan| | | |exact H]; vm_compute; reflexivity. Qed.
Lemma ch3_call : forall t, (0 < t)%Q -> tree_call gauss in_order ExProofs5.ch3rf [[0; 1; 2]] t.
Proof. intros t H. apply tree_call_one; [exact ExProofs5.ch3rf_built|exact ExProofs5.exact_ch3| | | |exact H]; vm_compute; reflexivity. Qed.

Lemma C56_too_large_lemma : exists LS TS HULL rf ps t k, tree_call LS TS rf ps t /\ (f32 t == t)%Q /\ min_witness rf t k /\
  exists k', min_witnesses LS TS HULL never rf ps t None = Ok (Z.of_nat k') /\ k < k'.
Proof.
  exists gauss, in_order, no_hull, fanrf, [[0]; [1]], (1#4)%Q, 1. split; [apply fan_call; reflexivity|]. split; [vm_compute; reflexivity|].
  split; [apply brute_min_ok; [exact fan_built|exact exact_fan|vm_compute; reflexivity|vm_compute; reflexivity]|]. exists 2. split; [vm_compute; reflexivity|lia].
Qed.
Lemma C56_too_small_lemma : exists LS TS HULL rf ps t k, tree_call LS TS rf ps t /\ (f32 t == t)%Q /\ min_witness rf t k /\
  exists k', min_witnesses LS TS HULL never rf ps t None = Ok (Z.of_nat k') /\ k' < k.
Proof.
  exists gauss, in_order, no_hull, looprf, [[0; 1; 2]; [3]], (1#2)%Q, 3. split; [apply loop_call; reflexivity|]. split; [vm_compute; reflexivity|].
  split; [apply brute_min_ok; [exact loop_built|exact exact_loop|vm_compute; reflexivity|vm_compute; reflexivity]|]. exists 2. split; [vm_compute; reflexivity|lia].
Qed.
Lemma C56_error_lemma : exists LS TS HULL rf ps t k, tree_call LS TS rf ps t /\ (f32 t == t)%Q /\ min_witness rf t k /\ k <= a_N (rf_sys rf) - 2 /\
  min_witnesses LS TS HULL never rf ps t None = Err ValueError.
Proof.
  exists gauss, in_order, no_hull, fanrf, [[0]; [1]], (3#4)%Q, 2. split; [apply fan_call; reflexivity|]. split; [vm_compute; reflexivity|].
  split; [apply brute_min_ok; [exact fan_built|exact exact_fan|vm_compute; reflexivity|vm_compute; reflexivity]|]. split; [vm_compute; lia|vm_compute; reflexivity].
Qed.
Lemma C56_rounding_lemma : exists LS TS HULL rf ps t k, tree_call LS TS rf ps t /\ length ps = 1 /\ (forall v, v < a_N (rf_sys rf) - 2 -> matters rf v) /\ min_witness rf t k /\
  min_witnesses LS TS HULL never rf ps t None = Err ValueError.
Proof.
  exists gauss, in_order, no_hull, oddrf, [[0]], oddp, 1. split; [apply odd_call; reflexivity|]. split; [reflexivity|]. split.
  { intros v Hv. assert (E1 : a_N (rf_sys oddrf) - 2 = 1) by (vm_compute; reflexivity). assert (I0 : rf_init oddrf = 0) by (vm_compute; reflexivity). rewrite E1 in Hv. assert (v = 0) as -> by lia.
    assert (L0 : leads (rf_sys oddrf) 0 1) by (vm_compute; reflexivity). exists (fun _ => true). split.
    - unfold plausible. rewrite E1, I0. split; [reflexivity|]. split; [exists 0; split; [lia|split; [reflexivity|exact L0]]|]. split.
      + intros v Hv' _ NI. exfalso. lia.
      + intros u Hu _. left. assert (u = 0) as -> by lia. exact L0.
    - unfold plausible. rewrite I0. intros (A & _). discriminate. }
  split; [apply brute_min_ok; [exact odd_built|exact exact_odd|vm_compute; reflexivity|vm_compute; reflexivity]|]. vm_compute. reflexivity.
Qed.

Lemma C56_nonvacuous_lemma : tree_call gauss in_order ExProofs5.ch3rf [[0; 1; 2]] (1#2) /\ (forall v, v < 3 -> matters ExProofs5.ch3rf v) /\ min_witness ExProofs5.ch3rf (f32 (1#2)) 1 /\
  run_tree ExProofs5.ch3rf [[0; 1; 2]] (1#2) = Ok 1%Z /\
  run_tree ExProofs5.ch3rf [[0; 1; 2]] (7#8) = Err ValueError /\
  tree_call gauss in_order fanrf [[0; 1]] (1#2) /\ ~ matters fanrf 1 /\ run_tree fanrf [[0; 1]] (1#2) = Err KeyError.
Proof.
  split; [apply ch3_call; reflexivity|]. split.
  { assert (E : a_N (rf_sys ExProofs5.ch3rf) - 2 = 3) by (vm_compute; reflexivity). assert (I0 : rf_init ExProofs5.ch3rf = 0) by (vm_compute; reflexivity).
    assert (L : forall u v, leads_b ExProofs5.ch3rf u v = true <-> leads (rf_sys ExProofs5.ch3rf) u v) by (intros u v; apply Qlt_bool_iff').
    assert (L03 : leads (rf_sys ExProofs5.ch3rf) 0 3) by (apply L; vm_compute; reflexivity). assert (L01 : leads (rf_sys ExProofs5.ch3rf) 0 1) by (apply L; vm_compute; reflexivity).
    assert (L12 : leads (rf_sys ExProofs5.ch3rf) 1 2) by (apply L; vm_compute; reflexivity). assert (L23 : leads (rf_sys ExProofs5.ch3rf) 2 3) by (apply L; vm_compute; reflexivity).
    assert (N : forall u v, leads_b ExProofs5.ch3rf u v = false -> ~ leads (rf_sys ExProofs5.ch3rf) u v) by (intros u v A B; apply L in B; congruence).
    intros v Hv. exists (fun _ => true). unfold plausible. rewrite E, I0. split.
    - split; [reflexivity|]. split; [exists 0; split; [lia|split; [reflexivity|exact L03]]|]. split.
      + intros w Hw _ NW. assert (w = 1 \/ w = 2) as [-> | ->] by lia; [exists 0; split; [lia|split; [reflexivity|exact L01]]|exists 1; split; [lia|split; [reflexivity|exact L12]]].
      + intros u Hu _. assert (u = 0 \/ u = 1 \/ u = 2) as [-> |[-> | ->]] by lia; [left; exact L03|right; exists 2; split; [lia|split; [reflexivity|exact L12]]|left; exact L23].
    - intros (A & _ & B & C). assert (v = 0 \/ v = 1 \/ v = 2) as [-> |[-> | ->]] by lia.
      + discriminate.
      + destruct (B 2 ltac:(lia) eq_refl ltac:(lia)) as (u & Hu & Ku & Lu). revert Lu. apply N. assert (u = 0 \/ u = 1 \/ u = 2) as [-> |[-> | ->]] by lia; [vm_compute; reflexivity|discriminate|vm_compute; reflexivity].
      + destruct (C 1 ltac:(lia) eq_refl) as [Lu|(u & Hu & Ku & Lu)]; revert Lu; apply N; [vm_compute; reflexivity|].
        assert (u = 0 \/ u = 1 \/ u = 2) as [-> |[-> | ->]] by lia; [vm_compute; reflexivity|vm_compute; reflexivity|discriminate]. }
  split; [apply brute_min_ok; [exact ExProofs5.ch3rf_built|exact ExProofs5.exact_ch3|vm_compute; reflexivity|vm_compute; reflexivity]|].
  split; [vm_compute; reflexivity|]. split; [vm_compute; reflexivity|]. split; [apply fan1_call; reflexivity|]. split; [|vm_compute; reflexivity].
  assert (E : a_N (rf_sys fanrf) - 2 = 2) by (vm_compute; reflexivity). assert (I0 : rf_init fanrf = 0) by (vm_compute; reflexivity).
  assert (L : forall u v, leads_b fanrf u v = true <-> leads (rf_sys fanrf) u v) by (intros u v; apply Qlt_bool_iff').
  assert (L02 : leads (rf_sys fanrf) 0 2) by (apply L; vm_compute; reflexivity). assert (L01 : leads (rf_sys fanrf) 0 1) by (apply L; vm_compute; reflexivity).
  assert (L12 : leads (rf_sys fanrf) 1 2) by (apply L; vm_compute; reflexivity).
  intros (keep & (A & _) & NP). apply NP. unfold plausible. rewrite E, I0 in *. assert (K0 : toggle keep 1 0 = true) by exact A. split; [exact K0|]. split; [exists 0; split; [lia|split; [exact K0|exact L02]]|]. split.
  - intros w Hw _ NW. assert (w = 1) as -> by lia. exists 0. split; [lia|split; [exact K0|exact L01]].
  - intros u Hu _. left. assert (u = 0 \/ u = 1) as [-> | ->] by lia; [exact L02|exact L12].
Qed.
