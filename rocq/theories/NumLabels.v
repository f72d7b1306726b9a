(** The number reported by exact minimisation for labels and maximal values when
    answers are correct up to a tolerance only: comparison with exact witnesses. *)
From Coq Require Import String List Arith ZArith QArith Qreals Reals Bool Lia Lra.
From Verif Require Import Base BaseFacts Num Matrix MatFacts InvDict SccSpec SpecMdp SpecEc SpecSystem SpecForm SpecBuilt SpecProb SpecSub SpecLp SpecMilp SpecLabel SpecSlack SpecReward SpecRewSub SpecRewSlack SumFacts MdpValue RfTheory SubTheory
  Amdp ReachForm ReachFormProofs RfFacts BuiltFacts RfBridge FarkReal Milp MilpProofs LpExists RfLpProofs Subsystem Formulations MilpBuild GroupProofs MilpForm MilpExact MilpMin Problems QsProofs MilpFinal LabelMin SlackProofs SlackProofs2 SlackProofs3
  RewardForm RewardProofs RewProblems GenBuild RewForms RewMilp RewQs RewFinal RewSlackProofs RewNum.
Import ListNotations.
Local Open Scope nat_scope.

(** Groups with an entry above [b]. *)
Definition over (b : nat -> R) (cert : list Q) (G : list nat) : bool := existsb (fun v => if Rlt_dec (b v) (vec cert v) then true else false) G.
Lemma over_iff : forall b cert G, over b cert G = true <-> touches_above b cert G.
Proof.
  intros b cert G. unfold over, touches_above. rewrite existsb_exists. split; intros (v & Hv & H); exists v; (split; [exact Hv|]).
  - destruct (Rlt_dec (b v) (vec cert v)); [assumption|discriminate].
  - destruct (Rlt_dec (b v) (vec cert v)); [reflexivity|contradiction].
Qed.

Lemma F2_filter : forall A B (R : A -> B -> Prop) ks gs (p : A -> bool) (T : B -> bool), Forall2 R ks gs -> (forall a g, R a g -> p a = true -> T g = true) -> length (filter p ks) <= length (filter T gs).
Proof.
  intros A B R ks gs p T H HT. induction H as [|a g ks gs Ha _ IH]; [cbn; lia|]. cbn [filter]. specialize (HT a g Ha). destruct (p a); [rewrite (HT eq_refl); cbn [length]; lia|destruct (T g); cbn [length]; lia].
Qed.

Lemma F2_length : forall A B (R : A -> B -> Prop) ks gs, Forall2 R ks gs -> length ks = length gs.
Proof. induction 1; cbn; auto. Qed.

(** Labels with an entry above [b] are at most the groups with one. *)
Lemma labels_over : forall rf md ls gs b cert L, grouping rf md (Some ls) true gs -> NoDup L ->
  (forall l, In l L -> In l ls /\ exists v, labelled_var (rf_sys rf) md l v /\ (b v < vec cert v)%R) -> length L <= length (filter (over b cert) gs) /\ length gs <= length ls.
Proof.
  intros rf md ls gs b cert L (ks & ND & HK & F) NL HL. split.
  - eapply Nat.le_trans; [|apply (F2_filter _ _ _ ks gs (fun l => if in_dec string_dec l L then true else false) _ F)].
    + apply NoDup_incl_length; [exact NL|]. intros l Hl. apply filter_In. destruct (HL l Hl) as (H1 & v & H2 & _). split.
      * apply HK. split; [exact H1|]. intros ->. cbn [labelled_var] in H2. destruct H2 as (_ & s & a & _ & H2). eauto.
      * destruct (in_dec string_dec l L); [reflexivity|contradiction].
    + intros l G (_ & HG) Hp. cbv beta in Hp. destruct (in_dec string_dec l L) as [Hl|]; [|discriminate]. destruct (HL l Hl) as (_ & v & H2 & H3). apply over_iff. exists v. split; [apply HG; exact H2|exact H3].
  - rewrite <- (F2_length _ _ _ _ _ F). apply NoDup_incl_length; [exact ND|]. intros l Hl. apply HK in Hl. tauto.
Qed.

Lemma near_count : forall j i n m eps gap v, (0 <= eps)%R -> n <= m -> ((INR m + 1) * eps + gap < 1)%R -> (INR j - (INR n + 1) * eps <= v)%R -> (v <= INR i + gap)%R -> j <= i.
Proof.
  intros j i n m eps gap v E0 NM SM A B. apply le_INR in NM. assert (INR n * eps <= INR m * eps)%R by (apply Rmult_le_compat_r; auto).
  assert (INR j < INR i + 1)%R by lra. rewrite <- S_INR in H0. apply INR_lt in H0. lia.
Qed.

(** C102 *)
Lemma C102_labels_min_lemma : forall rf SB S t ls eps gap sub v cert, built_form rf -> exact_rows (a_P (rf_sys rf)) -> rf_init rf < a_N (rf_sys rf) - 2 -> inner_labels (rf_sys rf) ls -> sized SB ->
  (0 <= eps)%R -> (eps < 1 / 2)%R -> (0 <= gap)%R -> ((INR (length ls) + 1) * eps + gap < 1)%R ->
  (forall mm ind, construct_milp SB rf t Min (Some ls) false None = Ok (Some (mm, ind)) -> answer_within eps mm (S mm) /\
     (sr_status (S mm) = Optimal -> forall x, feasible mm x -> (Q2R (sr_val (S mm)) <= objective mm x + gap)%R)) ->
  In (MkPRes Success (Some sub) (Some v) (Some cert)) (g_items (milp_exact SB S rf t Min (Some ls))) ->
  forall keep i, witness rf Min t keep -> label_count (rf_sys rf) ls keep i -> (Q2R v <= INR i + gap)%R /\
    forall L, NoDup L -> (forall l, In l L -> In l ls /\ exists s, has_label (rf_sys rf) l s /\ (2 * eps < vec cert s)%R) -> length L <= i.
Proof.
  intros rf SB S t ls eps gap sub v cert BF EX Hi IL HS E0 E1 G0 SM HA HI keep i HW LC.
  destruct (C61_min_final rf t ls SB BF EX Hi IL) as (pr & mm & ind & PM & EC & (r & XA) & HX). destruct (HA mm ind EC) as (HA1 & HA2).
  destruct (exact_success _ _ _ _ _ _ _ _ _ _ _ EC HI) as (_ & EST & -> & ->).
  assert (PRT : (Q2R t <= pr)%R).
  { pose proof (witness_below rf BF Hi EX Min t keep ltac:(discriminate) HW) as WB. cbn [opt_value] in WB.
    assert (LT : rf_init rf < nS (form_mdp rf)) by (change (nS (form_mdp rf)) with (a_N (rf_sys rf)); lia).
    apply (Vmn_min rf BF EX (rf_init rf) pr LT) in PM. rewrite PM. exact WB. }
  destruct (HX (fun _ => r) XA) as (_ & _ & HX2). destruct (HX2 PRT) as (sub' & v' & cert' & j & EI & _ & _ & EV & _ & _ & MIN).
  assert (HI' : In (MkPRes Success (Some sub') (Some v') (Some cert')) (g_items (milp_exact SB (fun _ => r) rf t Min (Some ls)))) by (rewrite EI; left; auto).
  destruct (exact_success _ _ _ _ _ _ _ _ _ _ _ EC HI') as (_ & EST' & -> & ->). unfold exact_answer in XA. rewrite EST' in XA. destruct XA as (_ & (FE & _) & OV).
  specialize (HA2 EST _ FE). rewrite <- OV, EV in HA2. specialize (MIN keep i HW LC). apply le_INR in MIN.
  assert (VI : (Q2R (sr_val (S mm)) <= INR i + gap)%R) by lra. split; [exact VI|]. intros L NL HL.
  destruct (C102_num rf BF Hi SB t Min (Some ls) mm ind eps (S mm) HS E0 E1 EC HA1 EST) as (u & j' & LU & HU & _ & GR & VB & CN). specialize (HU eq_refl).
  set (b := fun q => (eps * (1 + Rabs (vec u q)))%R) in *. set (cert := firstn (cert_dim rf Min) (sr_vec (S mm))) in *.
  destruct (labels_over rf Min ls (map snd ind) b cert L GR NL) as (X1 & X2).
  { intros l Hl. destruct (HL l Hl) as (H1 & s & H2 & H3). split; [exact H1|]. exists s. split; [exact H2|]. unfold b. rewrite HU. unfold vec at 1. specialize (IL l s H1 H2).
    rewrite (nth_indep _ _ 1%Q) by (rewrite repeat_length; exact IL). rewrite nth_repeat, RMicromega.Q2R_1, Rabs_R1. lra. }
  eapply Nat.le_trans; [exact X1|]. eapply Nat.le_trans; [apply CN|].
  - intros G _ HG. apply over_iff in HG. exact HG.
  - rewrite map_length in X2. apply (near_count j' i (length ind) (length ls) eps gap (Q2R (sr_val (S mm)))); auto. lra.
Qed.

Lemma C102_labels_max_lemma : forall rf t ls, built_form rf -> exact_rows (a_P (rf_sys rf)) -> rf_init rf < a_N (rf_sys rf) - 2 -> inner_labels (rf_sys rf) ls ->
  (forall s, s < a_N (rf_sys rf) - 2 -> ~ in_some_ec (a_P (rf_sys rf)) (a_inv (rf_sys rf)) s) ->
  exists A b lp, fark_constraints rf t Max = Ok (A, b) /\ upper_bound_lp A (a_C (rf_sys rf) - 2) b = Ok lp /\ (exists r, exact_answer lp r) /\
  forall SB S eps gap sub v cert, sized SB -> exact_answer lp (SB lp) ->
  (0 <= eps)%R -> (eps < 1 / 2)%R -> (0 <= gap)%R -> ((INR (length ls) + 1) * eps + gap < 1)%R ->
  (forall mm ind, construct_milp SB rf t Max (Some ls) false None = Ok (Some (mm, ind)) -> answer_within eps mm (S mm) /\
     (sr_status (S mm) = Optimal -> forall x, feasible mm x -> (Q2R (sr_val (S mm)) <= objective mm x + gap)%R)) ->
  In (MkPRes Success (Some sub) (Some v) (Some cert)) (g_items (milp_exact SB S rf t Max (Some ls))) ->
  forall keep i, witness rf Max t keep -> label_count (rf_sys rf) ls keep i -> (Q2R v <= INR i + gap)%R /\
    exists u, compute_upper_bounds SB A (a_C (rf_sys rf) - 2) b = Ok (Optimal, u) /\
    forall L, NoDup L -> (forall l, In l L -> In l ls /\ exists q, labelled_var (rf_sys rf) Max l q /\ (eps * (1 + Rabs (vec u q)) < vec cert q)%R) -> length L <= i.
Proof.
  intros rf t ls BF EX Hi IL FREE. destruct (C61_max_final rf t ls BF EX Hi IL FREE) as (pr & A & b & lp & PM & EA & EL & XL & HX). exists A, b, lp. do 3 (split; [assumption|]).
  intros SB S eps gap sub v cert HS XB E0 E1 G0 SM HA HI keep i HW LC. destruct (HX SB XB) as (HXn & HXp).
  destruct (Rlt_le_dec pr (Q2R t)) as [LT|PRT]. { rewrite (HXn LT S) in HI. cbn in HI. destruct HI as [HI|[]]. discriminate HI. }
  destruct (HXp PRT) as (mm & ind & EC & (r & XA) & HX2). destruct (HA mm ind EC) as (HA1 & HA2).
  destruct (exact_success _ _ _ _ _ _ _ _ _ _ _ EC HI) as (_ & EST & -> & ->).
  destruct (HX2 (fun _ => r) XA) as (_ & sub' & v' & cert' & j & EI & _ & _ & EV & _ & _ & MIN).
  assert (HI' : In (MkPRes Success (Some sub') (Some v') (Some cert')) (g_items (milp_exact SB (fun _ => r) rf t Max (Some ls)))) by (rewrite EI; left; auto).
  destruct (exact_success _ _ _ _ _ _ _ _ _ _ _ EC HI') as (_ & EST' & -> & ->). unfold exact_answer in XA. rewrite EST' in XA. destruct XA as (_ & (FE & _) & OV).
  specialize (HA2 EST _ FE). rewrite <- OV, EV in HA2. specialize (MIN keep i HW LC). apply le_INR in MIN.
  assert (VI : (Q2R (sr_val (S mm)) <= INR i + gap)%R) by lra. split; [exact VI|].
  destruct (C102_num rf BF Hi SB t Max (Some ls) mm ind eps (S mm) HS E0 E1 EC HA1 EST) as (u & j' & LU & _ & HU & GR & VB & CN). destruct (HU eq_refl) as (A' & b' & EA' & EU).
  rewrite EA in EA'. injection EA' as <- <-. exists u. split; [exact EU|]. intros L NL HL.
  set (bd := fun q => (eps * (1 + Rabs (vec u q)))%R) in *. set (cert := firstn (cert_dim rf Max) (sr_vec (S mm))) in *.
  destruct (labels_over rf Max ls (map snd ind) bd cert L GR NL HL) as (X1 & X2).
  eapply Nat.le_trans; [exact X1|]. eapply Nat.le_trans; [apply CN|].
  - intros G _ HG. apply over_iff in HG. exact HG.
  - rewrite map_length in X2. apply (near_count j' i (length ind) (length ls) eps gap (Q2R (sr_val (S mm)))); auto. lra.
Qed.

Lemma C102_max_lemma : forall rf t, built_form rf -> exact_rows (a_P (rf_sys rf)) -> rf_init rf < a_N (rf_sys rf) - 2 ->
  (forall s, s < a_N (rf_sys rf) - 2 -> ~ in_some_ec (a_P (rf_sys rf)) (a_inv (rf_sys rf)) s) ->
  exists A b lp, fark_constraints rf t Max = Ok (A, b) /\ upper_bound_lp A (a_C (rf_sys rf) - 2) b = Ok lp /\ (exists r, exact_answer lp r) /\
  forall SB S eps gap sub v cert, sized SB -> exact_answer lp (SB lp) ->
  (0 <= eps)%R -> (0 <= gap)%R -> ((INR (a_N (rf_sys rf) - 2) + 1) * eps + gap < 1)%R ->
  (forall mm ind, construct_milp SB rf t Max None false None = Ok (Some (mm, ind)) -> answer_within eps mm (S mm) /\
     (sr_status (S mm) = Optimal -> forall x, feasible mm x -> (Q2R (sr_val (S mm)) <= objective mm x + gap)%R)) ->
  In (MkPRes Success (Some sub) (Some v) (Some cert)) (g_items (milp_exact SB S rf t Max None)) ->
  forall keep, witness rf Max t keep -> (Q2R v <= INR (count keep (a_N (rf_sys rf) - 2)) + gap)%R /\
    exists u, compute_upper_bounds SB A (a_C (rf_sys rf) - 2) b = Ok (Optimal, u) /\
    forall T, (forall s, T s = true -> exists q, q < a_C (rf_sys rf) - 2 /\ belongs (a_inv (rf_sys rf)) q s = true /\ (eps * (1 + Rabs (vec u q)) < vec cert q)%R) ->
      count T (a_N (rf_sys rf) - 2) <= count keep (a_N (rf_sys rf) - 2).
Proof.
  intros rf t BF EX Hi FREE. destruct (C40_final rf t BF EX Hi FREE) as (pr & A & b & lp & PM & EA & EL & XL & HX). exists A, b, lp. do 3 (split; [assumption|]).
  intros SB S eps gap sub v cert HS XB E0 G0 SM HA HI keep HW. destruct (HX SB XB) as (HXn & HXp). set (n := a_N (rf_sys rf) - 2) in *.
  destruct (Rlt_le_dec pr (Q2R t)) as [LT|PRT]. { rewrite (HXn LT S) in HI. cbn in HI. destruct HI as [HI|[]]. discriminate HI. }
  destruct (HXp PRT) as (mm & ind & EC & (r & XA) & HX2). destruct (HA mm ind EC) as (HA1 & HA2).
  destruct (exact_success _ _ _ _ _ _ _ _ _ _ _ EC HI) as (_ & EST & -> & ->).
  destruct (HX2 (fun _ => r) XA) as (_ & sub' & v' & cert' & j & EI & _ & _ & EV & _ & _ & MIN).
  assert (HI' : In (MkPRes Success (Some sub') (Some v') (Some cert')) (g_items (milp_exact SB (fun _ => r) rf t Max None))) by (rewrite EI; left; auto).
  destruct (exact_success _ _ _ _ _ _ _ _ _ _ _ EC HI') as (_ & EST' & -> & ->). unfold exact_answer in XA. rewrite EST' in XA. destruct XA as (_ & (FE & _) & OV).
  specialize (HA2 EST _ FE). rewrite <- OV, EV in HA2. specialize (MIN keep HW). fold n in MIN. apply le_INR in MIN.
  assert (VI : (Q2R (sr_val (S mm)) <= INR (count keep n) + gap)%R) by lra. split; [exact VI|].
  assert (N1 : (1 <= INR n)%R) by (change 1%R with (INR 1); apply le_INR; unfold n; lia).
  assert (E1 : (eps < 1 / 2)%R). { assert (1 * eps <= INR n * eps)%R by (apply Rmult_le_compat_r; auto). lra. }
  destruct (C102_num rf BF Hi SB t Max None mm ind eps (S mm) HS E0 E1 EC HA1 EST) as (u & j' & LU & _ & HU & GR & VB & CN). destruct (HU eq_refl) as (A' & b' & EA' & EU).
  rewrite EA in EA'. injection EA' as <- <-. exists u. split; [exact EU|]. intros T HT. cbn [grouping] in GR. destruct GR as (ss & ND & HSS & F). fold n in HSS.
  set (bd := fun q => (eps * (1 + Rabs (vec u q)))%R) in *. set (cert := firstn (cert_dim rf Max) (sr_vec (S mm))) in *.
  assert (LS : length ss = n). { rewrite <- (seq_length n 0). apply Nat.le_antisymm; apply NoDup_incl_length; auto using seq_NoDup; intros s Hs; [apply in_seq; apply HSS in Hs; lia|apply HSS; apply in_seq in Hs; lia]. }
  assert (X1 : count T n <= length (filter (over bd cert) (map snd ind))).
  { eapply Nat.le_trans; [|apply (F2_filter _ _ _ ss _ T _ F)].
    - unfold count. apply NoDup_incl_length; [apply NoDup_filter, seq_NoDup|]. intros s Hs. apply filter_In in Hs. destruct Hs as (Hs & HTs). apply filter_In. split; [|exact HTs]. apply HSS. apply in_seq in Hs. lia.
    - intros s G (_ & HG) HTs. destruct (HT s HTs) as (q & H1 & H2 & H3). apply over_iff. exists q. split; [apply HG; auto|exact H3]. }
  eapply Nat.le_trans; [exact X1|]. eapply Nat.le_trans; [apply CN|].
  - intros G _ HG. apply over_iff in HG. exact HG.
  - apply F2_length in F. rewrite map_length, LS in F. apply (near_count j' (count keep n) (length ind) n eps gap (Q2R (sr_val (S mm)))); auto; [lia|lra].
Qed.

(** C111 *)
Lemma C111_labels_lemma : forall rr md t ls, reward_form rr -> md <> OtherMode -> inner_labels (rf_sys (rr_rf rr)) ls ->
  exists A b lp, rr_fark_constraints rr t md = Ok (A, b) /\ upper_bound_lp A (cert_dim (rr_rf rr) md) b = Ok lp /\ (exists r, exact_answer lp r) /\
  forall SB S eps gap sub v cert, sized SB -> exact_answer lp (SB lp) ->
  (0 <= eps)%R -> (eps < 1 / 2)%R -> (0 <= gap)%R -> ((INR (length ls) + 1) * eps + gap < 1)%R ->
  (forall mm ind, rr_construct_milp SB rr t md (Some ls) false None = Ok (Some (mm, ind)) -> answer_within eps mm (S mm) /\
     (sr_status (S mm) = Optimal -> forall x, feasible mm x -> (Q2R (sr_val (S mm)) <= objective mm x + gap)%R)) ->
  In (MkPRes Success (Some sub) (Some v) (Some cert)) (g_items (rr_milp_exact SB S rr t md (Some ls))) ->
  forall keep i, rew_witness rr md t keep -> label_count (rf_sys (rr_rf rr)) ls keep i -> (Q2R v <= INR i + gap)%R /\
    exists u, compute_upper_bounds SB A (cert_dim (rr_rf rr) md) b = Ok (Optimal, u) /\
    forall L, NoDup L -> (forall l, In l L -> In l ls /\ exists q, labelled_var (rf_sys (rr_rf rr)) md l q /\ (eps * (1 + Rabs (vec u q)) < vec cert q)%R) -> length L <= i.
Proof.
  intros rr md t ls RF Hm IL. destruct (rr_labels_final rr md t ls RF Hm IL) as (pr & A & b & lp & PM & EA & EL & XL & HX). exists A, b, lp. do 3 (split; [assumption|]).
  intros SB S eps gap sub v cert HS XB E0 E1 G0 SM HA HI keep i HW LC. destruct (HX SB XB) as (HXn & HXp).
  destruct (Rlt_le_dec pr (Q2R t)) as [LT|PRT]. { rewrite (HXn LT S) in HI. cbn in HI. destruct HI as [HI|[]]. discriminate HI. }
  destruct (HXp PRT) as (mm & ind & EC & (r & XA) & HX2). destruct (HA mm ind EC) as (HA1 & HA2).
  destruct (rexact_success _ _ _ _ _ _ _ _ _ _ _ EC HI) as (_ & EST & -> & ->).
  destruct (HX2 (fun _ => r) XA) as (_ & sub' & v' & cert' & j & EI & _ & _ & _ & EV & _ & _ & MIN).
  assert (HI' : In (MkPRes Success (Some sub') (Some v') (Some cert')) (g_items (rr_milp_exact SB (fun _ => r) rr t md (Some ls)))) by (rewrite EI; left; auto).
  destruct (rexact_success _ _ _ _ _ _ _ _ _ _ _ EC HI') as (_ & EST' & -> & ->). unfold exact_answer in XA. rewrite EST' in XA. destruct XA as (_ & (FE & _) & OV).
  specialize (HA2 EST _ FE). rewrite <- OV, EV in HA2. specialize (MIN keep i HW LC). apply le_INR in MIN.
  assert (VI : (Q2R (sr_val (S mm)) <= INR i + gap)%R) by lra. split; [exact VI|].
  destruct RF as (BF & EX & Hi & FREE & LR & NR).
  destruct (rnum rr BF EX Hi LR SB t md (Some ls) mm ind eps (S mm) HS E0 E1 EC HA1 EST) as (A' & b' & st & w & u & j' & EA' & EU & UU & LU & GR & VB & CN).
  rewrite EA in EA'. injection EA' as <- <-.
  assert (ST : st = Optimal).
  { destruct (rconstruct_ind rr BF EX Hi LR SB t md (Some ls) mm ind HS EC) as (A2 & b2 & st2 & u2 & _ & EA2 & EU2 & NI & _). rewrite EA in EA2. injection EA2 as <- <-. rewrite EU in EU2. injection EU2 as <- <-.
    destruct (rr_bounds rr BF EX Hi FREE LR NR md t Hm) as (A3 & b3 & lp3 & EA3 & _ & _ & _ & EL3 & _ & UB). rewrite EA in EA3. injection EA3 as <- <-. rewrite EL in EL3. injection EL3 as <-.
    destruct (UB SB XB) as [(_ & u3 & X)|(_ & u3 & X & _)]; rewrite EU in X; congruence. }
  subst st. exists w. split; [exact EU|]. intros L NL HL. subst u.
  set (bd := fun q => (eps * (1 + Rabs (vec w q)))%R) in *. set (cert := firstn (cert_dim (rr_rf rr) md) (sr_vec (S mm))) in *.
  destruct (labels_over (rr_rf rr) md ls (map snd ind) bd cert L GR NL HL) as (X1 & X2).
  eapply Nat.le_trans; [exact X1|]. eapply Nat.le_trans; [apply CN|].
  - intros G _ HG. apply over_iff in HG. exact HG.
  - rewrite map_length in X2. apply (near_count j' i (length ind) (length ls) eps gap (Q2R (sr_val (S mm)))); auto. lra.
Qed.
