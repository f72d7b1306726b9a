(** From constructed forms with exact rows to the theory of RfTheory.v. *)
From Coq Require Import String List Arith ZArith QArith Qreals Reals Bool Lia Lra.
From Verif Require Import Base BaseFacts Num Matrix MatFacts InvDict Graph GraphSpec GraphProofs SccSpec
  SpecMdp SpecSystem SpecEc SpecForm SpecBuilt SpecProb SumFacts MdpValue RfTheory Amdp AmdpProofs ReachForm ReachFormProofs RfFacts FarkProofs BuiltFacts.
Import ListNotations.
Local Open Scope nat_scope.

Lemma Vmin_irrel : forall M W1 W2 T s, Vmin M W1 T s = Vmin M W2 T s.
Proof. intros. eapply is_lub_u; apply Vmin_lub. Qed.
Lemma Vmax_irrel : forall M W1 W2 T s, Vmax M W1 T s = Vmax M W2 T s.
Proof. intros. eapply is_lub_u; apply Vmax_lub. Qed.

Section Br.
  Variable rf : rform.
  Hypothesis BF : built_form rf.
  Let m := rf_sys rf.
  Let P := a_P m.
  Let inv := a_inv m.
  Let init := rf_init rf.
  Hypothesis EX : exact_rows P.
  Let M := form_mdp rf.
  Let n := rf_N rf.
  Let c := rf_C rf.

  Lemma br_ro : rf_ok rf. Proof. apply built_form_ok; auto. Qed.
  Lemma br_form : in_reach_form P inv (labelled m) init (rf_initl rf) (rf_targetl rf) (rf_faill rf).
  Proof. apply built_form_ok; auto. Qed.
  Lemma br_ok : sys_ok m. Proof. apply (ro_sys rf br_ro). Qed.
  Lemma br_valid : valid_system P (a_idx m) (a_rew m). Proof. apply br_ok. Qed.
  Lemma br_nodup : NoDup (map fst (a_idx m)). Proof. apply br_ok. Qed.

  Lemma rtc_step_inv : forall (E : nat -> nat -> Prop) x y, rtc E x y -> x = y \/ exists z, E x z.
  Proof. intros E x y H. inversion H; subst; eauto. Qed.

  Lemma br_proper : proper_system P inv.
  Proof.
    split; [apply br_ok|]. split; [exact EX|]. intros s Hs.
    destruct (form_states_act rf init br_form s Hs) as (a & d & i & p & H2 & H1).
    exists i, a. split; auto. apply (proj2 (ok_wf m br_ok) i d p H2).
  Qed.

  Lemma br_wf : wf_mdp M.
  Proof. apply (sys_wf P (a_idx m) (a_rew m) br_nodup br_valid br_proper). Qed.

  Lemma loop_one : forall s i, only_loop P inv s i -> mget P i s = 1%Q \/ (mget P i s == 1)%Q.
  Proof.
    intros s i ((a & p & H1 & H2) & H3). right.
    destruct (proj2 (ok_wf m br_ok) i s p H2) as (Hi & Hs & _).
    pose proof (EX i Hi) as E. unfold row_total in E.
    rewrite (sumQ_ext _ _ (fun d => if s =? d then mget P i d else 0%Q)) in E.
    - fold (sum_to (mcols P) (fun d => if s =? d then mget P i d else 0%Q)) in E. rewrite sum_to_single in E by auto. auto.
    - intros d _. destruct (Nat.eqb_spec s d); [reflexivity|].
      destruct (Qeq_bool (mget P i d) 0) eqn:Ed; [apply Qeq_bool_iff; auto|].
      exfalso. assert (Hd : In ((i, d), mget P i d) (mitems P)).
      { apply mget_nonzero. intros Hq. apply Qeq_bool_iff in Hq. congruence. }
      destruct (H3 i d a (mget P i d) H1 Hd) as (_ & Hd'). congruence.
  Qed.

  Lemma br_prob : forall r d, prob M r d = Q2R (mget P r d). Proof. reflexivity. Qed.
  Lemma br_src : forall r s a, inv r = Some (s, a) -> src M r = s.
  Proof. intros r s a H. unfold M, form_mdp, mdp_of, sys_mdp. simpl. fold m. change (a_inv m r) with (inv r). rewrite H. auto. Qed.

  Lemma br_row : forall i, i < c -> exists a, inv i = Some (src M i, a) /\ src M i < n.
  Proof.
    intros i Hi. destruct (ro_row rf br_ro i Hi) as (s & a & H1 & H2 & _). exists a. rewrite (br_src i s a); auto.
  Qed.

  Lemma br_rf : rf_mdp M init.
  Proof.
    destruct br_form as (_ & HN & HC & Hi & _ & _ & _ & L1 & L2 & R1 & R2).
    split. { split; [apply br_wf|]. split; [exact HN|]. split; [exact HC|].
    split. { intros r Hr. destruct (br_row r Hr) as (a & _ & H). exact H. }
    split. { split.
      - destruct L1 as ((a & p & H1 & _) & _). apply (br_src _ _ a H1).
      - destruct (loop_one _ _ L1) as [H|H]; rewrite br_prob; change (goal M) with (mcols P - 2); change (nA M) with (mrows P).
        + rewrite H. apply RMicromega.Q2R_1.
        + rewrite (Qeq_eqR _ _ H). apply RMicromega.Q2R_1. }
    split.
      - destruct L2 as ((a & p & H1 & _) & _). apply (br_src _ _ a H1).
      - destruct (loop_one _ _ L2) as [H|H]; rewrite br_prob; change (fail M) with (mcols P - 1); change (nA M) with (mrows P).
        + rewrite H. apply RMicromega.Q2R_1.
        + rewrite (Qeq_eqR _ _ H). apply RMicromega.Q2R_1. }
    assert (ME : forall x y, rtc (edge P inv) x y -> rtc (medge M) x y).
    { intros x y H. induction H; [constructor|]. econstructor; [|eauto].
      apply (edge_medge P (a_idx m) (a_rew m) br_nodup br_valid br_proper); auto. }
    split; intros s Hs Hf; apply ME; [apply R1|apply R2]; auto.
  Qed.

  Lemma br_ec : forall s, in_some_ec P inv s <-> in_ec M s.
  Proof. apply (in_ec_iff P (a_idx m) (a_rew m) br_nodup br_valid br_proper). Qed.

  Lemma br_nS : nS M - 2 = n. Proof. reflexivity. Qed.
  Lemma br_nA : nA M - 2 = c. Proof. reflexivity. Qed.
  Lemma br_init_lt : init < nS M. Proof. apply br_form. Qed.

  (** ** The constraints over the reals *)
  Lemma onestep_vec : forall r z, onestep M r (fun d => Q2R (entry z d)) = Q2R (sum_to n (fun d => mget P r d * entry z d)%Q + mget P r n)%Q.
  Proof.
    intros. unfold onestep. rewrite Q2R_plus, Q2R_sum_to. f_equal. apply sumn_ext. intros. rewrite Q2R_mult. reflexivity.
  Qed.

  Lemma z_real : forall z t, z_constraints P inv init t z <->
    (forall r, r < c -> (Q2R (entry z (src M r)) <= onestep M r (fun d => Q2R (entry z d)))%R) /\ (Q2R t <= Q2R (entry z init))%R.
  Proof.
    intros z t. unfold z_constraints. change (mcols P - 2) with n. change (mrows P - 2) with c. split.
    - intros (A & B). split; [|apply Qle_Rle; auto]. intros r Hr. destruct (br_row r Hr) as (a & H1 & _).
      rewrite onestep_vec. apply Qle_Rle. eapply A; eauto.
    - intros (A & B). split; [|apply Rle_Qle; auto]. intros i s a Hi Hs. apply Rle_Qle. rewrite <- onestep_vec.
      rewrite <- (br_src i s a Hs). apply A; auto.
  Qed.

  Lemma balance_vec : forall y s, s < n ->
    balance M (fun r => Q2R (entry y r)) s =
    Q2R (sum_to c (fun i => if belongs inv i s then entry y i else 0%Q) - sum_to c (fun i => mget P i s * entry y i)%Q)%Q.
  Proof.
    intros y s Hs. unfold balance. rewrite Q2R_minus, !Q2R_sum_to. change (nA M - 2) with c. rewrite <- sumn_minus. apply sumn_ext.
    intros i Hi. destruct (br_row i Hi) as (a & H1 & _). unfold belongs. rewrite H1, Q2R_mult, br_prob.
    destruct (src M i =? s); [ring|rewrite RMicromega.Q2R_0; ring].
  Qed.

  Lemma to_goal_vec : forall y, to_goal M (fun r => Q2R (entry y r)) = Q2R (sum_to c (fun i => mget P i n * entry y i)%Q).
  Proof.
    intros y. unfold to_goal. rewrite Q2R_sum_to. change (nA M - 2) with c. apply sumn_ext. intros i Hi. rewrite Q2R_mult, br_prob.
    change (goal M) with n. ring.
  Qed.

  Definition Vmn : nat -> R := Vmin M br_wf (is_goal M).
  Definition Vmx : nat -> R := Vmax M br_wf (is_goal M).

  Lemma Vmn_min : forall s p, s < nS M -> (PrMinForm rf s p <-> p = Vmn s).
  Proof. intros. apply PrMin_iff. auto. Qed.
  Lemma Vmx_max : forall s p, s < nS M -> (PrMaxForm rf s p <-> p = Vmx s).
  Proof. intros. apply PrMax_iff. auto. Qed.
  Lemma Pr_between : forall sigma s p, s < nS M -> valid_scheduler M sigma -> PrForm rf sigma s p -> (Vmn s <= p <= Vmx s)%R.
  Proof. intros. eapply Pr_bounds; eauto. Qed.
End Br.
