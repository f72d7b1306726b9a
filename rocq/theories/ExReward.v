(** Examples of reward forms, and a check of the optimality equations. *)
From Coq Require Import String List Arith ZArith QArith Qreals Reals Bool Lia Lra.
From Verif Require Import Base Num Matrix InvDict GraphSpec SccSpec SpecMdp SumFacts MdpValue SpecEc SpecSystem SpecForm SpecBuilt SpecProb SpecReduce SpecLp
  Amdp AmdpProofs ReachForm FarkProofs RfBridge BuiltFacts Reduce ReduceProofs6 Examples Milp RewardForm SpecReward RewGen RewTheory RewardProofs RewardReduce.
Import ListNotations.
Local Open Scope string_scope.
Local Open Scope nat_scope.

Definition stepQ (rr : rrform) (z : list Q) (i : nat) : Q :=
  (entry (rr_rew rr) i + sum_to (rf_N (rr_rf rr)) (fun d => mget (a_P (rf_sys (rr_rf rr))) i d * entry z d))%Q.
Definition srcQ (rr : rrform) (i : nat) : nat := match a_inv (rf_sys (rr_rf rr)) i with Some (s, _) => s | None => 0 end.
Definition bellq (le : Q -> Q -> bool) (rr : rrform) (z : list Q) : bool :=
  forallb (fun s => Qle_bool 0 (entry z s) && existsb (fun i => (srcQ rr i =? s) && Qeq_bool (entry z s) (stepQ rr z i)) (seq 0 (rf_C (rr_rf rr)))) (seq 0 (rf_N (rr_rf rr))) &&
  forallb (fun i => le (entry z (srcQ rr i)) (stepQ rr z i)) (seq 0 (rf_C (rr_rf rr))).

Lemma stepQ_ok : forall rr z r, rstep (form_mdp (rr_rf rr)) (row_reward (rr_rew rr)) r (vec z) = Q2R (stepQ rr z r).
Proof.
  intros rr z r. unfold rstep, stepQ. rewrite Q2R_plus, Q2R_sum_to. unfold row_reward, entry. f_equal. apply sumn_ext. intros d _. rewrite Q2R_mult. reflexivity.
Qed.
Lemma srcQ_ok : forall rr, built_form (rr_rf rr) -> exact_rows (a_P (rf_sys (rr_rf rr))) -> forall r, r < rf_C (rr_rf rr) -> src (form_mdp (rr_rf rr)) r = srcQ rr r.
Proof.
  intros rr BF EX r Hr. destruct (br_row (rr_rf rr) BF r Hr) as (a & E & _). unfold srcQ. change (a_inv (rf_sys (rr_rf rr)) r = Some (src (form_mdp (rr_rf rr)) r, a)) in E. rewrite E. auto.
Qed.
Lemma bellq_tight : forall le rr z, built_form (rr_rf rr) -> exact_rows (a_P (rf_sys (rr_rf rr))) -> bellq le rr z = true ->
  (forall s, s < rf_N (rr_rf rr) -> (0 <= vec z s)%R) /\
  (forall r, r < rf_C (rr_rf rr) -> le (entry z (src (form_mdp (rr_rf rr)) r)) (stepQ rr z r) = true) /\
  (forall s, s < rf_N (rr_rf rr) -> exists r, r < rf_C (rr_rf rr) /\ src (form_mdp (rr_rf rr)) r = s /\ vec z s = rstep (form_mdp (rr_rf rr)) (row_reward (rr_rew rr)) r (vec z)).
Proof.
  intros le rr z BF EX H. unfold bellq in H. apply andb_true_iff in H. destruct H as [H1 H2]. rewrite forallb_forall in H1, H2.
  assert (K : forall s, s < rf_N (rr_rf rr) -> Qle_bool 0 (entry z s) = true /\ exists r, r < rf_C (rr_rf rr) /\ srcQ rr r = s /\ (entry z s == stepQ rr z r)%Q).
  { intros s Hs. specialize (H1 s ltac:(apply in_seq; lia)). apply andb_true_iff in H1. destruct H1 as [A B]. split; auto. apply existsb_exists in B. destruct B as (r & Hr & B).
    apply in_seq in Hr. apply andb_true_iff in B. destruct B as [B1 B2]. apply Nat.eqb_eq in B1. apply Qeq_bool_iff in B2. exists r. split; [lia|auto]. }
  split; [|split].
  - intros s Hs. destruct (K s Hs) as [A _]. apply Qle_bool_iff in A. apply Qle_Rle in A. rewrite RMicromega.Q2R_0 in A. exact A.
  - intros r Hr. rewrite (srcQ_ok rr BF EX r Hr). apply H2. apply in_seq. lia.
  - intros s Hs. destruct (K s Hs) as [_ (r & Hr & E & Q)]. exists r. split; [auto|]. split; [rewrite (srcQ_ok rr BF EX r Hr); auto|]. rewrite stepQ_ok. apply Qeq_eqR. exact Q.
Qed.

Lemma bellq_min : forall rr z, built_form (rr_rf rr) -> exact_rows (a_P (rf_sys (rr_rf rr))) -> bellq Qle_bool rr z = true -> bellman_min rr (vec z).
Proof.
  intros rr z BF EX E. destruct (bellq_tight _ _ _ BF EX E) as (A & B & C). split; [exact A|]. split; [|exact C]. intros r Hr. rewrite stepQ_ok. apply Qle_Rle. apply Qle_bool_iff. apply (B r Hr).
Qed.
Lemma bellq_max : forall rr z, built_form (rr_rf rr) -> exact_rows (a_P (rf_sys (rr_rf rr))) -> bellq (fun a b => Qle_bool b a) rr z = true -> bellman_max rr (vec z).
Proof.
  intros rr z BF EX E. destruct (bellq_tight _ _ _ BF EX E) as (A & B & C). split; [exact A|]. split; [|exact C]. intros r Hr. rewrite stepQ_ok. apply Qle_Rle. apply Qle_bool_iff. apply (B r Hr).
Qed.

(** In state 0 the second action goes to 1, in 1 one waits, 2 is the goal. *)
Definition rw1P : mat := mat_of_rows 3 [[0; 1#2; 1#2]; [0; 1; 0]; [0; 1#2; 1#2]; [0; 0; 1]]%Q.
Definition rw1I : dict (nat * nat) nat := [((0, 0), 0); ((0, 1), 1); ((1, 0), 2); ((2, 0), 3)].
Definition rw1L : dict string (list nat) := [("init", [0]); ("goal", [2])].
Definition rw1 : amdp := get dummy_amdp (mk_mdp rw1P rw1I [] rw1L (Some [1; 3; 2; 0]%Q)).
Definition dummy_rr : rrform := MkRrf dummy_rf [].
Definition rw1res := get (dummy_rr, [], []) (rr_reduce exrnd exrnd rw1 "init" "goal").
Definition rw1rr : rrform := fst (fst rw1res).
Definition rw1cols : dict nat nat := [(0, 0); (1, 1); (2, 2)].
Definition rw1rows : dict (nat * nat) (nat * nat) := [((0, 0), (0, 0)); ((0, 1), (0, 1)); ((1, 0), (1, 0)); ((2, 0), (2, 0))].
Lemma rw1_built : built rw1.
Proof. apply built_new. exists rw1P, rw1I, [], rw1L, (Some [1; 3; 2; 0]%Q). split; [apply good_args_ok; vm_compute; reflexivity|]. left. vm_compute. reflexivity. Qed.
Lemma rw1_exact : exact_rows (a_P rw1).
Proof. apply exact_rows_ok. vm_compute. reflexivity. Qed.
Lemma rw1_acts : every_state_acts rw1.
Proof.
  intros s Hs. change (a_N rw1) with 3 in Hs.
  destruct s as [|[|[|s]]]; [exists 0, 0|exists 0, 2|exists 0, 3|lia]; (split; [change (a_C rw1) with 4; lia|vm_compute; reflexivity]).
Qed.
Lemma rw1_reduce : rr_reduce exrnd exrnd rw1 "init" "goal" = Ok (rw1rr, rw1cols, rw1rows).
Proof. vm_compute. reflexivity. Qed.
Lemma rw1_free : targets_free rw1 "goal".
Proof.
  intros s a i Hl Hi Ei. change (i < 4) in Hi. vm_compute in Hl. destruct Hl as [<-|[]]. 
  destruct i as [|[|[|[|i]]]]; [| | | |lia]; vm_compute in Ei; try discriminate. unfold sys_reward. change (a_rew rw1) with (Some [1; 3; 2; 0]%Q). apply RMicromega.Q2R_0.
Qed.
Lemma rw1rr_ok : built_form (rr_rf rw1rr) /\ exact_rows (a_P (rf_sys (rr_rf rw1rr))) /\ rf_init (rr_rf rw1rr) < a_N (rf_sys (rr_rf rw1rr)) - 2 /\
  ec_free (form_mdp (rr_rf rw1rr)) /\ length (rr_rew rw1rr) = a_C (rf_sys (rr_rf rw1rr)) - 2 /\ (forall q, In q (rr_rew rw1rr) -> (0 <= q)%Q).
Proof. pose proof (C58_contents_lemma _ _ _ _ _ _ _ _ rw1_built rw1_acts rw1_exact rw1_reduce) as H. cbv zeta in H. tauto. Qed.
Lemma rw1_min : RewMinForm (rr_rf rw1rr) (rr_rew rw1rr) 0 3.
Proof.
  destruct rw1rr_ok as (BF & EX & Li & FR & LR & NR).
  assert (E : bellq Qle_bool rw1rr [3; 4; 0]%Q = true) by (vm_compute; reflexivity).
  assert (BM : bellman_min rw1rr (vec [3; 4; 0]%Q)) by (exact (bellq_min _ _ BF EX E)).
  assert (H0 : 0 < rf_N (rr_rf rw1rr)) by (change (0 < 3); lia).
  pose proof (bellman_min_value rw1rr BF EX Li FR LR _ BM 0 H0) as V. replace 3%R with (vec [3; 4; 0]%Q 0); [exact V|]. unfold vec, Q2R. simpl. lra.
Qed.
Lemma rw1_max : RewMaxForm (rr_rf rw1rr) (rr_rew rw1rr) 0 7.
Proof.
  destruct rw1rr_ok as (BF & EX & Li & FR & LR & NR).
  assert (E : bellq (fun a b => Qle_bool b a) rw1rr [7; 4; 0]%Q = true) by (vm_compute; reflexivity).
  assert (BM : bellman_max rw1rr (vec [7; 4; 0]%Q)) by (exact (bellq_max _ _ BF EX E)).
  assert (H0 : 0 < rf_N (rr_rf rw1rr)) by (change (0 < 3); lia).
  pose proof (bellman_max_value rw1rr BF EX Li FR LR _ BM 0 H0) as V. replace 7%R with (vec [7; 4; 0]%Q 0); [exact V|]. unfold vec, Q2R. simpl. lra.
Qed.

(** The same with one step and a reward in the goal state. *)
Definition rw2P : mat := mat_of_rows 2 [[0; 1]; [0; 1]]%Q.
Definition rw2I : dict (nat * nat) nat := [((0, 0), 0); ((1, 0), 1)].
Definition rw2L : dict string (list nat) := [("init", [0]); ("goal", [1])].
Definition rw2 : amdp := get dummy_amdp (mk_mdp rw2P rw2I [] rw2L (Some [1; 5]%Q)).
Definition rw2res := get (dummy_rr, [], []) (rr_reduce exrnd exrnd rw2 "init" "goal").
Definition rw2rr : rrform := fst (fst rw2res).
Definition rw2cols : dict nat nat := [(0, 0); (1, 1)].
Definition rw2rows : dict (nat * nat) (nat * nat) := [((0, 0), (0, 0)); ((1, 0), (1, 0))].
Lemma rw2_built : built rw2.
Proof. apply built_new. exists rw2P, rw2I, [], rw2L, (Some [1; 5]%Q). split; [apply good_args_ok; vm_compute; reflexivity|]. left. vm_compute. reflexivity. Qed.
Lemma rw2_exact : exact_rows (a_P rw2).
Proof. apply exact_rows_ok. vm_compute. reflexivity. Qed.
Lemma rw2_acts : every_state_acts rw2.
Proof.
  intros s Hs. change (a_N rw2) with 2 in Hs.
  destruct s as [|[|s]]; [exists 0, 0|exists 0, 1|lia]; (split; [change (a_C rw2) with 2; lia|vm_compute; reflexivity]).
Qed.
Lemma rw2_reduce : rr_reduce exrnd exrnd rw2 "init" "goal" = Ok (rw2rr, rw2cols, rw2rows).
Proof. vm_compute. reflexivity. Qed.
Lemma rw2_form : RewMinForm (rr_rf rw2rr) (rr_rew rw2rr) 0 6.
Proof.
  pose proof (C58_contents_lemma _ _ _ _ _ _ _ _ rw2_built rw2_acts rw2_exact rw2_reduce) as H. cbv zeta in H. destruct H as (_ & BF & EX & Li & FR & _ & LR & NR & _).
  assert (E : bellq Qle_bool rw2rr [6; 5]%Q = true) by (vm_compute; reflexivity).
  assert (BM : bellman_min rw2rr (vec [6; 5]%Q)) by (exact (bellq_min _ _ BF EX E)).
  assert (H0 : 0 < rf_N (rr_rf rw2rr)) by (change (0 < 2); lia).
  pose proof (bellman_min_value rw2rr BF EX Li FR LR _ BM 0 H0) as V. replace 6%R with (vec [6; 5]%Q 0); [exact V|]. unfold vec, Q2R. simpl. lra.
Qed.
Lemma rw2_prob : forall r d, r < 2 -> d < 2 -> prob (mdp_of rw2) r d = if d =? 1 then 1%R else 0%R.
Proof.
  intros r d Hr Hd. change (prob (mdp_of rw2) r d) with (Q2R (mget (a_P rw2) r d)).
  destruct r as [|[|r]]; [| |lia]; (destruct d as [|[|d]]; [| |lia]).
  - replace (mget (a_P rw2) 0 0) with 0%Q by (vm_compute; reflexivity). apply RMicromega.Q2R_0.
  - replace (mget (a_P rw2) 0 1) with 1%Q by (vm_compute; reflexivity). apply RMicromega.Q2R_1.
  - replace (mget (a_P rw2) 1 0) with 0%Q by (vm_compute; reflexivity). apply RMicromega.Q2R_0.
  - replace (mget (a_P rw2) 1 1) with 1%Q by (vm_compute; reflexivity). apply RMicromega.Q2R_1.
Qed.
Lemma rw2_src : forall r, r < 2 -> src (mdp_of rw2) r = r.
Proof. intros r Hr. destruct r as [|[|r]]; [vm_compute; reflexivity|vm_compute; reflexivity|lia]. Qed.
Lemma rw2_T : forall s, label_set rw2 "goal" s = (s =? 1).
Proof. intros s. unfold label_set. change (states_by_label rw2 "goal") with [1]. simpl. destruct (Nat.eqb_spec s 1); auto. Qed.
Lemma rw2_orig : IsRewMin (mdp_of rw2) (label_set rw2 "goal") (sys_reward rw2) 0 1.
Proof.
  pose proof (m_wf rw2 rw2_built rw2_acts rw2_exact) as W. set (M := mdp_of rw2) in *. set (T := label_set rw2 "goal").
  assert (HR : forall r, r < nA M -> r < 2) by (intros r H; exact H). assert (HS : forall r, r < nS M -> r < 2) by (intros r H; exact H).
  assert (EXC : forall r f, r < 2 -> ex M r f = f 1). { intros r f Hr. unfold ex. change (nS M) with 2. cbn [sumn]. unfold M. rewrite !rw2_prob by lia. cbn. lra. }
  assert (RR : sys_reward rw2 0 = 1%R). { unfold sys_reward. change (a_rew rw2) with (Some [1; 5]%Q). apply RMicromega.Q2R_1. }
  assert (G : forall s, s < nS M -> (s =? 0) = true -> IsRewMin M T (sys_reward rw2) s ((fun _ => 1%R) s)).
  { apply (grew_min_char M W T (fun s => s =? 0) T) with (w := fun _ => 1%R).
    - intros s Hs. apply Nat.eqb_eq in Hs. subst s. unfold T. rewrite rw2_T. auto.
    - intros r d Hr Hd _ Hp. right. unfold T. rewrite rw2_T. unfold M in Hp. rewrite rw2_prob in Hp by auto. destruct (d =? 1); auto. lra.
    - intros s Hs. unfold T in Hs. rewrite rw2_T in Hs. apply Nat.eqb_eq in Hs. subst. auto.
    - intros r d _ _ A B. congruence.
    - intros. lra.
    - intros r Hr _. rewrite EXC by auto. unfold cut. simpl. lra.
    - intros r Hr A B. congruence.
    - intros. lra.
    - intros r Hr Hs. unfold gstep. rewrite EXC by auto. unfold cut. simpl. unfold M in Hs. rewrite rw2_src in Hs by auto. apply Nat.eqb_eq in Hs. subst r. lra.
    - intros s Hs Hs0. apply Nat.eqb_eq in Hs0. subst s. exists 0. split; [change (0 < 2); lia|]. split; [apply rw2_src; lia|]. unfold gstep. rewrite EXC by lia. unfold cut. simpl. lra. }
  apply (G 0); [change (0 < 2); lia|auto].
Qed.

(** State 2 never reaches the goal. *)
Definition rw3P : mat := mat_of_rows 3 [[0; 1#2; 1#2]; [0; 1; 0]; [0; 0; 1]]%Q.
Definition rw3I : dict (nat * nat) nat := [((0, 0), 0); ((1, 0), 1); ((2, 0), 2)].
Definition rw3L : dict string (list nat) := [("init", [0]); ("goal", [1])].
Definition rw3 : amdp := get dummy_amdp (mk_mdp rw3P rw3I [] rw3L (Some [1; 0; 0]%Q)).
Lemma rw3_built : built rw3.
Proof. apply built_new. exists rw3P, rw3I, [], rw3L, (Some [1; 0; 0]%Q). split; [apply good_args_ok; vm_compute; reflexivity|]. left. vm_compute. reflexivity. Qed.
Lemma rw3_exact : exact_rows (a_P rw3).
Proof. apply exact_rows_ok. vm_compute. reflexivity. Qed.
Lemma rw3_acts : every_state_acts rw3.
Proof.
  intros s Hs. change (a_N rw3) with 3 in Hs.
  destruct s as [|[|[|s]]]; [exists 0, 0|exists 0, 1|exists 0, 2|lia]; (split; [change (a_C rw3) with 3; lia|vm_compute; reflexivity]).
Qed.

Lemma C59_refuted_lemma : exists rnd rnd' m il tl rr cols rows s s' v w,
  built m /\ every_state_acts m /\ exact_rows (a_P m) /\ rr_reduce rnd rnd' m il tl = Ok (rr, cols, rows) /\ dget Nat.eqb cols s = Some s' /\
  IsRewMin (mdp_of m) (label_set m tl) (sys_reward m) s v /\ RewMinForm (rr_rf rr) (rr_rew rr) s' w /\ v <> w.
Proof.
  exists exrnd, exrnd, rw2, "init", "goal", rw2rr, rw2cols, rw2rows, 0, 0, 1%R, 6%R.
  split; [exact rw2_built|]. split; [exact rw2_acts|]. split; [exact rw2_exact|]. split; [exact rw2_reduce|]. split; [reflexivity|].
  split; [exact rw2_orig|]. split; [exact rw2_form|]. lra.
Qed.
