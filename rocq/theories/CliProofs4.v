(** Proofs about the command line: probabilities of systems that differ in the
    order of their rows only. *)
From Coq Require Import String List Arith ZArith QArith Qreals Reals Bool Lia Lra.
From Verif Require Import Base BaseFacts Num Matrix MatFacts InvDict SpecMdp SumFacts MdpValue SpecEc SpecSystem SpecForm SpecBuilt SpecFiles Amdp AmdpProofs ReachForm ReachFormProofs RfFacts BuiltFacts SpecProb RfBridge ReduceProofs6 Files FilesProofs3 FilesProofs4 CliProofs2.
Import ListNotations.
Local Open Scope nat_scope.

Lemma same_exact : forall m m', built m -> built m' -> same_system m m' -> exact_rows (a_P m) -> exact_rows (a_P m').
Proof.
  intros m m' B B' SM EX i Hi. change (mrows (a_P m')) with (a_C m') in Hi. destruct (row_pair m' B' i Hi) as (s & a & E & _). destruct (sm_row' _ _ SM s a i Hi E) as (j & Hj & Ej).
  rewrite <- (EX j Hj). unfold row_total. change (mcols (a_P m')) with (a_N m'). change (mcols (a_P m)) with (a_N m). rewrite (sm_N _ _ SM). apply sumQ_ext. intros d _. symmetry. apply (sm_p _ _ SM s a); auto.
Qed.

Section Vals.
  Variable m m' : amdp.
  Hypothesis B : built m.
  Hypothesis B' : built m'.
  Hypothesis SM : same_system m m'.
  Let M := mdp_of m.
  Let M' := mdp_of m'.
  Hypothesis W : wf_mdp M.
  Hypothesis W' : wf_mdp M'.
  Variable T : nat -> bool.

  Lemma same_src : forall r s a, a_inv m r = Some (s, a) -> src M r = s.
  Proof. intros r s a E. unfold M, mdp_of, sys_mdp. simpl. rewrite E. auto. Qed.
  Lemma same_src' : forall r s a, a_inv m' r = Some (s, a) -> src M' r = s.
  Proof. intros r s a E. unfold M', mdp_of, sys_mdp. simpl. rewrite E. auto. Qed.
  Lemma same_ex : forall s a i i' f f', i < a_C m -> i' < a_C m' -> a_inv m i = Some (s, a) -> a_inv m' i' = Some (s, a) -> (forall d, f d = f' d) -> ex M i f = ex M' i' f'.
  Proof.
    intros s a i i' f f' Hi Hi' E E' H. unfold ex. change (nS M') with (a_N m'). change (nS M) with (a_N m). rewrite (sm_N _ _ SM). apply sumn_ext. intros d _. rewrite H. f_equal. unfold M, M', mdp_of, sys_mdp. cbn [prob]. apply Qeq_eqR. apply (sm_p _ _ SM s a); auto.
  Qed.
  Lemma same_to : forall f f', (forall d, f d = f' d) -> forall s r, r < nA M -> src M r = s -> exists r', r' < nA M' /\ src M' r' = s /\ ex M r f = ex M' r' f'.
  Proof.
    intros f f' H s r Hr Es. destruct (row_pair m B r Hr) as (s0 & a & E & _). rewrite (same_src _ _ _ E) in Es. subst s0. destruct (sm_row _ _ SM s a r Hr E) as (r' & Hr' & E'). exists r'. split; [auto|]. split; [eapply same_src'; eauto|eapply same_ex; eauto].
  Qed.
  Lemma same_from : forall f f', (forall d, f d = f' d) -> forall s r', r' < nA M' -> src M' r' = s -> exists r, r < nA M /\ src M r = s /\ ex M r f = ex M' r' f'.
  Proof.
    intros f f' H s r Hr Es. destruct (row_pair m' B' r Hr) as (s0 & a & E & _). rewrite (same_src' _ _ _ E) in Es. subst s0. destruct (sm_row' _ _ SM s a r Hr E) as (r' & Hr' & E'). exists r'. split; [auto|]. split; [eapply same_src; eauto|eapply same_ex; eauto].
  Qed.
  Lemma same_vmin : forall n s, vmin M T n s = vmin M' T n s.
  Proof. induction n as [|n IH]; intros s; simpl; destruct (T s); auto. apply minr_corr; [apply same_to; auto|apply same_from; auto]. Qed.
  Lemma same_vmax : forall n s, vmax M T n s = vmax M' T n s.
  Proof. induction n as [|n IH]; intros s; simpl; destruct (T s); auto. apply maxr_corr; [apply same_to; auto|apply same_from; auto]. Qed.
  Lemma same_PrMin : forall s v, s < a_N m -> (IsPrMin M T s v <-> IsPrMin M' T s v).
  Proof.
    intros s v Hs. rewrite (PrMin_iff M W T s v Hs), (PrMin_iff M' W' T s v) by (change (nS M') with (a_N m'); rewrite (sm_N _ _ SM); auto).
    replace (Vmin M' W' T s) with (Vmin M W T s); [tauto|]. apply Rle_antisym; apply Vmin_le; intros k; [rewrite same_vmin|rewrite <- same_vmin]; apply vmin_le_Vmin.
  Qed.
  Lemma same_PrMax : forall s v, s < a_N m -> (IsPrMax M T s v <-> IsPrMax M' T s v).
  Proof.
    intros s v Hs. rewrite (PrMax_iff M W T s v Hs), (PrMax_iff M' W' T s v) by (change (nS M') with (a_N m'); rewrite (sm_N _ _ SM); auto).
    replace (Vmax M' W' T s) with (Vmax M W T s); [tauto|]. apply Rle_antisym; apply Vmax_le; intros k; [rewrite same_vmax|rewrite <- same_vmax]; apply vmax_le_Vmax.
  Qed.
End Vals.

Lemma same_form_values : forall rf rf', built_form rf -> built_form rf' -> same_system (rf_sys rf) (rf_sys rf') -> exact_rows (a_P (rf_sys rf)) ->
  forall s, s < a_N (rf_sys rf) -> (forall v, PrMinForm rf s v <-> PrMinForm rf' s v) /\ (forall v, PrMaxForm rf s v <-> PrMaxForm rf' s v).
Proof.
  intros rf rf' BF BF' SM EX s Hs.
  assert (BS : forall f, built_form f -> built (rf_sys f)). { intros f (rnd & m & il & tl & fl & B & E). destruct (C11_contents_lemma _ _ _ _ _ _ B E) as [-> _]. auto. }
  pose proof (BS rf BF) as B. pose proof (BS rf' BF') as B'. pose proof (same_exact _ _ B B' SM EX) as EX'. pose proof (br_wf rf BF EX) as W. pose proof (br_wf rf' BF' EX') as W'.
  assert (EG : is_goal (form_mdp rf') = is_goal (form_mdp rf)). { unfold is_goal, goal, form_mdp, mdp_of, sys_mdp. cbn [nS]. change (mcols (a_P (rf_sys rf'))) with (a_N (rf_sys rf')). rewrite (sm_N _ _ SM). auto. }
  unfold PrMinForm, PrMaxForm. rewrite EG. split; intros v; [apply same_PrMin|apply same_PrMax]; auto.
Qed.
