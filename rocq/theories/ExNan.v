(** Row certificates with infinite or undefined entries; a state certificate
    with an infinite entry. *)
From Coq Require Import String List Arith ZArith QArith Qreals Reals Bool Lia Lra Permutation.
From Flocq Require Import Core BinarySingleNaN.
From Verif Require Import Base BaseFacts Num Matrix MatFacts SpecMdp SpecSystem SpecForm SpecBuilt SpecProb Amdp ReachForm BuiltFacts
  RfBridge Milp SpecLp Certificates CertProofs Examples ExProofs2 FloatRow SpecFloatRow FloatProofs FloatCheck SpecFloatCheck FloatCheckProofs ExFloatCheck.
Import ListNotations.
Local Open Scope nat_scope.
Local Open Scope string_scope.

Definition dnan : double := B754_nan.
Definition dminf : double := B754_infinity true.
Definition dpinf : double := B754_infinity false.

(** A form is one of doubles if this can be computed for every entry. *)
Definition double_form_b (rf : rform) (pd : nat -> nat -> double) : bool :=
  forallb (fun i => forallb (fun d => Qeq_bool (dq (pd i d)) (mget (a_P (rf_sys rf)) i d) && is_finite (pd i d)) (seq 0 (a_N (rf_sys rf) - 1))) (seq 0 (a_C (rf_sys rf) - 2)).
Lemma double_form_ok : forall rf pd, double_form_b rf pd = true -> double_form rf pd.
Proof.
  intros rf pd H i d Hi Hd. unfold double_form_b in H. rewrite forallb_forall in H. specialize (H i ltac:(apply in_seq; lia)). rewrite forallb_forall in H. specialize (H d ltac:(apply in_seq; lia)).
  apply andb_true_iff in H. destruct H as [E F]. split; [exact F|]. unfold dval. rewrite <- dq_val. apply Qeq_eqR. apply Qeq_bool_iff. exact E.
Qed.
Definition tinyD (i d : nat) : double := match i, d with 0, 1 => half | _, _ => d0 end.
Lemma tiny_double : double_form (tinyrf (1#2) 0) tinyD. Proof. apply double_form_ok. vm_compute. reflexivity. Qed.
Definition stayD (i d : nat) : double := match i, d with 0, 0 => d1 | 1, 1 => half | _, _ => d0 end.
Lemma stay_double : double_form stayrf stayD. Proof. apply double_form_ok. vm_compute. reflexivity. Qed.

(** A loop with probability one and a transition to goal with probability
    2^-40: the constructor accepts the row, the sum is one up to nine decimals. *)
Definition overP : mat := mat_of_rows 3 [[1; 1 # 1099511627776; 0]; [0; 1; 0]; [0; 0; 1]]%Q.
Definition over : amdp := get dummy_amdp (mk_dtmc overP None tinyL None).
Definition overrf : rform := get dummy_rf (mk_rf exrnd over "init" "target" "fail" false).
Lemma overrf_built : built_form overrf.
Proof.
  exists exrnd, over, "init", "target", "fail". split; [|vm_compute; reflexivity].
  apply built_new. exists overP, [], [], tinyL, None. split; [apply good_args_ok; vm_compute; reflexivity|]. right; right. vm_compute. reflexivity.
Qed.
Definition overD (i d : nat) : double := match i, d with 0, 0 => d1 | 0, 1 => dmake 1 (-40) | _, _ => d0 end.
Lemma over_double : double_form overrf overD. Proof. apply double_form_ok. vm_compute. reflexivity. Qed.

Lemma C100_refuted_lemma : exists rf1 pd1 v1 rf2 pd2 v2 rf3 pd3 v3, built_form rf1 /\ double_form rf1 pd1 /\ built_form rf2 /\ double_form rf2 pd2 /\ built_form rf3 /\ double_form rf3 pd3 /\
  fcheck by_column rf1 pd1 Max FGe half v1 d0 = Ok true /\ In dnan v1 /\
  fcheck by_column rf2 pd2 Max FGe d1 v2 d0 = Ok true /\ In dminf v2 /\ (exists p, PrMaxForm rf2 (rf_init rf2) p /\ (p < 1)%R) /\
  fcheck by_column rf3 pd3 Min FGe d1 v3 d0 = Ok true /\ In dpinf v3.
Proof.
  exists stayrf, stayD, [dnan; d1], (tinyrf (1#2) 0), tinyD, [dmake 2 0; dminf], overrf, overD, [dpinf].
  split; [exact stayrf_built|]. split; [exact stay_double|]. split; [exact tiny1_built|]. split; [exact tiny_double|]. split; [exact overrf_built|]. split; [exact over_double|].
  split; [vm_compute; reflexivity|]. split; [left; reflexivity|]. split; [vm_compute; reflexivity|]. split; [right; left; reflexivity|]. split; [|split; [vm_compute; reflexivity|left; reflexivity]].
  exists (Vmx _ tiny1_built exact_tiny1 (rf_init (tinyrf (1#2) 0))). split; [apply PrMax_Vmx|].
  assert (G : (Vmx _ tiny1_built exact_tiny1 (rf_init (tinyrf (1#2) 0)) <= Q2R (1#2))%R).
  { apply max_le_of. intros sigma p HV HP. apply (C20_lemma _ tiny1_built exact_tiny1 (1#2) [1#2]%Q) with (sigma := sigma); [vm_compute; reflexivity|auto|auto]. }
  eapply Rle_lt_trans; [exact G|]. unfold Q2R. cbn. lra.
Qed.
Definition sole_one_b (rf : rform) : bool :=
  let l := mitems (a_P (rf_sys rf)) in
  forallb (fun e => forallb (fun e' => implb (Nat.eqb (fst (fst e)) (fst (fst e')) && Qeq_bool (snd e) 1) (Nat.eqb (snd (fst e')) (snd (fst e)))) l) l.
Lemma sole_one_ok : forall rf, sole_one_b rf = true -> sole_one rf.
Proof.
  intros rf H i d d' H1 H2. assert (I1 : In ((i, d), mget (a_P (rf_sys rf)) i d) (mitems (a_P (rf_sys rf)))) by (apply mget_nonzero; rewrite H1; discriminate).
  assert (I2 : In ((i, d'), mget (a_P (rf_sys rf)) i d') (mitems (a_P (rf_sys rf)))) by (apply mget_nonzero; intros E; rewrite E in H2; discriminate H2).
  unfold sole_one_b in H. rewrite forallb_forall in H. specialize (H _ I1). rewrite forallb_forall in H. specialize (H _ I2). cbn [fst snd] in H.
  rewrite Nat.eqb_refl in H. apply Qeq_bool_iff in H1. rewrite H1 in H. cbn [andb implb] in H. apply Nat.eqb_eq. exact H.
Qed.
Lemma eighth_sole : sole_one eighthrf. Proof. apply sole_one_ok. vm_compute. reflexivity. Qed.
