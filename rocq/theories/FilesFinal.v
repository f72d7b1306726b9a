(** The statements about saving and loading. *)
From Coq Require Import String List Arith ZArith QArith Qabs Bool Lia.
From Coq Require Lqa.
From Verif Require Import Base Num Matrix MatFacts InvDict SpecSystem SpecBuilt SpecFiles Amdp AmdpProofs ReachFormProofs BuiltFacts Files FilesProofs FilesProofs4 Examples ExFiles.
Import ListNotations.
Local Open Scope nat_scope.

Lemma same_weaken : forall (R R' : Q -> Q -> Prop) m m', (forall i d q, R (mget (a_P m) i d) q -> R' (mget (a_P m) i d) q) -> same_up_to R m m' -> same_up_to R' m m'.
Proof.
  intros R R' m m' H (A1 & A2 & A3 & A4 & A5 & A6). repeat (split; [assumption|]). split; [|assumption]. intros. apply H. eapply A5; eauto.
Qed.
Lemma rounded_ext : forall p q q', (q == q')%Q -> rounded p q' -> rounded p q.
Proof. intros p q q' E ((k & A) & B). split; [exists k; rewrite E; auto|]. rewrite E. auto. Qed.

Lemma C48_rounded_lemma : forall m, built m -> (forall l, In l (label_names m) -> plain l) ->
  (exists m', save_and_load m = Ok m' /\ built m' /\ same_up_to rounded m m') \/
  (save_and_load m = Err AssertionError /\
   exists i r, i < a_C m /\ (forall d, rounded (mget (a_P m) i d) (r d)) /\ ~ (sumQ (map r (seq 0 (a_N m))) == 1)%Q).
Proof.
  intros m B PL. destruct (back_ok m B PL) as [((i & Hi & HS) & E)|(_ & m' & E & B' & S & _)].
  - right. split; [exact E|]. exists i, (fun d => r6 (mget (a_P m) i d)). split; [exact Hi|]. split; [intros d; apply r6_near|exact HS].
  - left. exists m'. split; [exact E|]. split; [exact B'|]. eapply same_weaken; [|exact S]. intros i d q X. eapply rounded_ext; [exact X|]. apply r6_near.
Qed.
Lemma C48_roundtrip_lemma : forall m, built m -> (forall l, In l (label_names m) -> plain l) -> six_decimals m ->
  exists m', save_and_load m = Ok m' /\ built m' /\ same_system m m'.
Proof.
  intros m B PL SD. destruct (back_ok m B PL) as [((i & Hi & HS) & E)|(_ & m' & E & B' & S & _)].
  - exfalso. apply HS. apply near_one6. destruct (proj1 (built_facts m B)) as (WF & _ & (_ & V2 & _) & _). specialize (V2 i Hi). unfold near_one in *. 
    assert (X : (sum6 m i == row_total (a_P m) i)%Q). { unfold sum6, row_total. apply sumQ_ext. intros d _. destruct (SD i d) as (k & Ek). eapply r6_exact. exact Ek. }
    rewrite X. exact V2.
  - exists m'. split; [exact E|]. split; [exact B'|]. eapply same_weaken; [|exact S]. intros i d q X. cbv beta in X. destruct (SD i d) as (k & Ek). rewrite X. symmetry. eapply r6_exact. exact Ek.
Qed.
Lemma C48_lossless_lemma : exists m, built m /\ (forall l, In l (label_names m) -> plain l) /\ exact_rows (a_P m) /\ save_and_load m = Err AssertionError.
Proof. exists fi2. split; [exact fi2_built|]. split; [apply plain_ok; vm_compute; reflexivity|]. split; [apply exact_rows_ok; vm_compute; reflexivity|]. vm_compute. reflexivity. Qed.
Lemma C48_probabilities_lemma : exists m m', built m /\ (forall l, In l (label_names m) -> plain l) /\ exact_rows (a_P m) /\ save_and_load m = Ok m' /\ ~ same_system m m'.
Proof.
  exists fi3. eexists. split; [exact fi3_built|]. split; [apply plain_ok; vm_compute; reflexivity|]. split; [apply exact_rows_ok; vm_compute; reflexivity|]. split; [vm_compute; reflexivity|].
  intros (_ & _ & _ & _ & H & _). specialize (H 0 0 0 0 ltac:(vm_compute; lia) ltac:(vm_compute; lia) eq_refl eq_refl 0). vm_compute in H. discriminate.
Qed.
Lemma C48_labels_lemma : exists m m' s, built m /\ six_decimals m /\ save_and_load m = Ok m' /\ has_label m "a""b" s /\ ~ has_label m' "a""b" s /\ has_label m' "a" s /\ ~ has_label m "a" s.
Proof.
  exists fi4. eexists. exists 0. split; [exact fi4_built|]. split; [apply six_ok; vm_compute; reflexivity|]. split; [vm_compute; reflexivity|].
  split; [vm_compute; auto|]. split; [vm_compute; auto|]. split; [vm_compute; auto|]. vm_compute. auto.
Qed.
Lemma C49_kept_lemma : forall m m', built m -> (forall l, In l (label_names m) -> plain l) -> save_and_load m = Ok m' ->
  ((forall l p, In p (actions_by_label m' l) <-> In p (actions_by_label m l)) <-> forall l, actions_by_label m l = []) /\
  (a_rew m' = a_rew m <-> a_rew m = None).
Proof.
  intros m m' B PL E. destruct (back_ok m B PL) as [(_ & E')|(_ & m0 & E' & _ & _ & R & A)]; rewrite E in E'; inversion E'; subst m0. rewrite R. split; [|split; congruence]. split.
  - intros H l. destruct (actions_by_label m l) as [|p L] eqn:X; auto. exfalso. assert (Y : In p (actions_by_label m' l)) by (apply H; rewrite X; left; auto). rewrite A in Y. destruct Y.
  - intros H l p. rewrite A, H. tauto.
Qed.
Lemma C49_refuted_lemma : exists m m', built m /\ (forall l, In l (label_names m) -> plain l) /\ six_decimals m /\ save_and_load m = Ok m' /\
  In (0, 1) (actions_by_label m "go") /\ ~ In (0, 1) (actions_by_label m' "go") /\ a_rew m <> None /\ a_rew m' = None.
Proof.
  exists fi1. eexists. split; [exact fi1_built|]. split; [apply plain_ok; vm_compute; reflexivity|]. split; [apply six_ok; vm_compute; reflexivity|]. split; [vm_compute; reflexivity|].
  split; [vm_compute; auto|]. split; [vm_compute; auto|]. split; [discriminate|]. reflexivity.
Qed.
