(** Examples: the number reported for labels and maximal values with a
    tolerance; every exact answer meets the hypotheses. *)
From Coq Require Import String List Arith ZArith QArith Qreals Reals Bool Lia Lra.
From Verif Require Import Base BaseFacts Num Matrix SpecMdp SpecEc SpecSystem SpecForm SpecBuilt SpecProb SpecSub SpecLp SpecMilp SpecLabel SpecReward SpecRewSub SpecSlack SpecRewSlack MdpValue RfTheory RfBridge Amdp ReachForm Milp MilpForm MilpExact Subsystem Formulations Problems MilpFinal LabelMin QsWeights
  SlackProofs SlackProofs2 SlackProofs3 Examples ExProofs2 ExProofs5 RewardForm RewProblems RewFinal RewSlackProofs RewNum ExReward ExSlack NumLabels.
Import ListNotations.
Local Open Scope string_scope.
Local Open Scope nat_scope.

Lemma exact_is_within : forall eps m r, (0 <= eps)%R -> exact_answer m r -> answer_within eps m r.
Proof.
  intros eps m r E0 H E. unfold exact_answer in H. rewrite E in H. destruct H as (L & ((FV & FC) & _) & OV). split; [exact L|]. split; [|lra]. split.
  - intros j v Hj. destruct (FV j v Hj) as (A & B & C). split; [|split].
    + destruct (v_lb v); cbn [above] in *; [lra|exact I].
    + destruct (v_ub v); cbn [below] in *; [lra|exact I].
    + intros HI. destruct (C HI) as (z & Hz). exists z. lra.
  - intros k c Hc. specialize (FC k c Hc). unfold sat_constr in FC. destruct (c_sense c); cbn [SpecLp.rel rel_within] in *; lra.
Qed.

Lemma exact_no_gap : forall m r, mi_dir m = Minimise -> exact_answer m r -> sr_status r = Optimal -> forall x, feasible m x -> (Q2R (sr_val r) <= objective m x + 0)%R.
Proof. intros m r D H E x Hx. unfold exact_answer in H. rewrite E in H. destruct H as (_ & (_ & O) & OV). specialize (O x Hx). rewrite D in O. cbn [better] in O. lra. Qed.

(** A solver with a given exact answer. *)
Lemma pick_solver : forall lp r, exact_answer lp r -> exists SB, sized SB /\ exact_answer lp (SB lp).
Proof.
  intros lp r H. exists (fun m => if length (mi_vars m) =? length (mi_vars lp) then r else sized_ex m). split.
  - intros m E. destruct (length (mi_vars m) =? length (mi_vars lp)) eqn:EL; [|apply repeat_length]. apply Nat.eqb_eq in EL. rewrite EL. unfold exact_answer in H. rewrite E in H. tauto.
  - rewrite Nat.eqb_refl. exact H.
Qed.

Lemma construct_dir : forall rf SB t md labels mm ind, built_form rf -> rf_init rf < a_N (rf_sys rf) - 2 -> sized SB -> construct_milp SB rf t md labels false None = Ok (Some (mm, ind)) -> mi_dir mm = Minimise.
Proof.
  intros rf SB t md labels mm ind BF Hi HS EC. destruct (construct_has rf BF Hi SB t md labels false mm ind EC (sized_bounds rf BF Hi SB t md HS)) as (ub & gs & A & b & _ & _ & _ & _ & _ & CS & _). apply CS.
Qed.
Lemma rconstruct_dir : forall rr SB t md labels mm ind, reward_form rr -> sized SB -> rr_construct_milp SB rr t md labels false None = Ok (Some (mm, ind)) -> mi_dir mm = Minimise.
Proof.
  intros rr SB t md labels mm ind (BF & EX & Hi & _ & LR & _) HS EC. destruct (rconstruct_ind rr BF EX Hi LR SB t md labels mm ind HS EC) as (A & b & st & u & _ & _ & _ & _ & _ & _ & _ & _ & D & _). exact D.
Qed.

(** The probability of the chain is at least one half in both modes. *)
Lemma ch3_half : forall p, PrMinForm ch3rf (rf_init ch3rf) p -> (Q2R (1 # 2) <= p)%R.
Proof.
  intros p HP. assert (Hi : rf_init ch3rf < a_N (rf_sys ch3rf) - 2) by (vm_compute; lia).
  pose proof (witness_below ch3rf ch3rf_built Hi exact_ch3 Min (1 # 2) _ ltac:(discriminate) tiny_witness) as WB. cbn [opt_value] in WB.
  apply (Vmn_min ch3rf ch3rf_built exact_ch3) in HP; [rewrite HP; exact WB|vm_compute; lia].
Qed.
Lemma ch3_half_max : forall p, PrMaxForm ch3rf (rf_init ch3rf) p -> (Q2R (1 # 2) <= p)%R.
Proof.
  intros p HP. assert (Hi : rf_init ch3rf < a_N (rf_sys ch3rf) - 2) by (vm_compute; lia).
  assert (Hn : rf_init ch3rf < nS (form_mdp ch3rf)) by (vm_compute; lia).
  apply (Vmx_max ch3rf ch3rf_built exact_ch3) in HP; [|exact Hn]. subst p. eapply Rle_trans; [apply ch3_half; apply (min_value ch3rf ch3rf_built exact_ch3 Hi)|]. unfold Vmn, Vmx. apply Vmin_le_Vmax. exact Hn.
Qed.

Lemma ch3_labels : inner_labels (rf_sys ch3rf) ["grey"; "init"].
Proof. intros l s [<-|[<-|[]]] H; vm_compute in H; repeat destruct H as [<-|H]; try destruct H; vm_compute; lia. Qed.

Lemma ch3_min_case : exists S sub v cert j, (forall mm ind, construct_milp sized_ex ch3rf (1 # 2) Min (Some ["grey"; "init"]) false None = Ok (Some (mm, ind)) -> answer_within (Q2R (1 # 100)) mm (S mm) /\
     (sr_status (S mm) = Optimal -> forall x, feasible mm x -> (Q2R (sr_val (S mm)) <= objective mm x + 0)%R)) /\
  In (MkPRes Success (Some sub) (Some v) (Some cert)) (g_items (milp_exact sized_ex S ch3rf (1 # 2) Min (Some ["grey"; "init"]))) /\
  witness ch3rf Min (1 # 2) (chosen (rf_sys ch3rf) Min cert) /\ label_count (rf_sys ch3rf) ["grey"; "init"] (chosen (rf_sys ch3rf) Min cert) j.
Proof.
  assert (Hi : rf_init ch3rf < a_N (rf_sys ch3rf) - 2) by (vm_compute; lia).
  destruct (C61_min_final ch3rf (1 # 2) ["grey"; "init"] sized_ex ch3rf_built exact_ch3 Hi ch3_labels) as (pr & mm & ind & PM & EC & (r & XA) & HX).
  destruct (HX (fun _ => r) XA) as (_ & _ & HX2). destruct (HX2 (ch3_half pr PM)) as (sub & v & cert & j & EI & _ & _ & _ & W & LC & _). exists (fun _ => r), sub, v, cert, j.
  split; [|split; [rewrite EI; left; reflexivity|split; [exact W|exact LC]]].
  intros mm' ind' EC'. rewrite EC in EC'. injection EC' as <- <-. split; [apply exact_is_within; [unfold Q2R; cbn; lra|exact XA]|].
  apply exact_no_gap; [|exact XA]. apply (construct_dir ch3rf sized_ex (1 # 2) Min (Some ["grey"; "init"]) mm ind ch3rf_built Hi); [intros lp _; apply repeat_length|exact EC].
Qed.

Lemma ch3_max_case : exists A b lp SB S sub v cert j, fark_constraints ch3rf (1 # 2) Max = Ok (A, b) /\ upper_bound_lp A (a_C (rf_sys ch3rf) - 2) b = Ok lp /\ sized SB /\ exact_answer lp (SB lp) /\
  (forall mm ind, construct_milp SB ch3rf (1 # 2) Max (Some ["grey"; "init"]) false None = Ok (Some (mm, ind)) -> answer_within (Q2R (1 # 100)) mm (S mm) /\
     (sr_status (S mm) = Optimal -> forall x, feasible mm x -> (Q2R (sr_val (S mm)) <= objective mm x + 0)%R)) /\
  In (MkPRes Success (Some sub) (Some v) (Some cert)) (g_items (milp_exact SB S ch3rf (1 # 2) Max (Some ["grey"; "init"]))) /\
  witness ch3rf Max (1 # 2) (chosen (rf_sys ch3rf) Max cert) /\ label_count (rf_sys ch3rf) ["grey"; "init"] (chosen (rf_sys ch3rf) Max cert) j.
Proof.
  assert (Hi : rf_init ch3rf < a_N (rf_sys ch3rf) - 2) by (vm_compute; lia).
  destruct (C61_max_final ch3rf (1 # 2) ["grey"; "init"] ch3rf_built exact_ch3 Hi ch3_labels ch3_noec) as (pr & A & b & lp & PM & EA & EL & (rb & XB) & HX).
  destruct (pick_solver lp rb XB) as (SB & HS & XS). destruct (HX SB XS) as (_ & HXp). destruct (HXp (ch3_half_max pr PM)) as (mm & ind & EC & (r & XA) & HX2).
  destruct (HX2 (fun _ => r) XA) as (_ & sub & v & cert & j & EI & _ & _ & _ & W & LC & _). exists A, b, lp, SB, (fun _ => r), sub, v, cert, j.
  do 4 (split; [assumption|]). split; [|split; [rewrite EI; left; reflexivity|split; [exact W|exact LC]]].
  intros mm' ind' EC'. rewrite EC in EC'. injection EC' as <- <-. split; [apply exact_is_within; [unfold Q2R; cbn; lra|exact XA]|].
  apply exact_no_gap; [|exact XA]. apply (construct_dir ch3rf SB (1 # 2) Max (Some ["grey"; "init"]) mm ind ch3rf_built Hi HS EC).
Qed.

Lemma ch3_states_case : exists A b lp SB S sub v cert, fark_constraints ch3rf (1 # 2) Max = Ok (A, b) /\ upper_bound_lp A (a_C (rf_sys ch3rf) - 2) b = Ok lp /\ sized SB /\ exact_answer lp (SB lp) /\
  (forall mm ind, construct_milp SB ch3rf (1 # 2) Max None false None = Ok (Some (mm, ind)) -> answer_within (Q2R (1 # 100)) mm (S mm) /\
     (sr_status (S mm) = Optimal -> forall x, feasible mm x -> (Q2R (sr_val (S mm)) <= objective mm x + 0)%R)) /\
  In (MkPRes Success (Some sub) (Some v) (Some cert)) (g_items (milp_exact SB S ch3rf (1 # 2) Max None)) /\ witness ch3rf Max (1 # 2) (chosen (rf_sys ch3rf) Max cert).
Proof.
  assert (Hi : rf_init ch3rf < a_N (rf_sys ch3rf) - 2) by (vm_compute; lia).
  destruct (C40_final ch3rf (1 # 2) ch3rf_built exact_ch3 Hi ch3_noec) as (pr & A & b & lp & PM & EA & EL & (rb & XB) & HX).
  destruct (pick_solver lp rb XB) as (SB & HS & XS). destruct (HX SB XS) as (_ & HXp). destruct (HXp (ch3_half_max pr PM)) as (mm & ind & EC & (r & XA) & HX2).
  destruct (HX2 (fun _ => r) XA) as (_ & sub & v & cert & j & EI & _ & _ & _ & W & _ & _). exists A, b, lp, SB, (fun _ => r), sub, v, cert.
  do 4 (split; [assumption|]). split; [|split; [rewrite EI; left; reflexivity|exact W]].
  intros mm' ind' EC'. rewrite EC in EC'. injection EC' as <- <-. split; [apply exact_is_within; [unfold Q2R; cbn; lra|exact XA]|].
  apply exact_no_gap; [|exact XA]. apply (construct_dir ch3rf SB (1 # 2) Max None mm ind ch3rf_built Hi HS EC).
Qed.

Lemma rw1_inner : inner_labels (rf_sys (rr_rf rw1rr)) ["init"].
Proof. intros l s [<-|[]] H; vm_compute in H; repeat destruct H as [<-|H]; try destruct H; vm_compute; lia. Qed.

Lemma rw1_case : forall md v, md <> OtherMode -> rew_opt rw1rr md v -> forall t, (Q2R t <= v)%R -> exists A b lp SB S sub val cert j, rr_fark_constraints rw1rr t md = Ok (A, b) /\ upper_bound_lp A (cert_dim (rr_rf rw1rr) md) b = Ok lp /\ sized SB /\ exact_answer lp (SB lp) /\
  (forall mm ind, rr_construct_milp SB rw1rr t md (Some ["init"]) false None = Ok (Some (mm, ind)) -> answer_within (Q2R (1 # 100)) mm (S mm) /\
     (sr_status (S mm) = Optimal -> forall x, feasible mm x -> (Q2R (sr_val (S mm)) <= objective mm x + 0)%R)) /\
  In (MkPRes Success (Some sub) (Some val) (Some cert)) (g_items (rr_milp_exact SB S rw1rr t md (Some ["init"]))) /\
  rew_witness rw1rr md t (chosen (rf_sys (rr_rf rw1rr)) md cert) /\ label_count (rf_sys (rr_rf rw1rr)) ["init"] (chosen (rf_sys (rr_rf rw1rr)) md cert) j.
Proof.
  intros md v Hm HV t Ht. destruct (rr_labels_final rw1rr md t ["init"] rw1rr_ok Hm rw1_inner) as (pr & A & b & lp & PM & EA & EL & (rb & XB) & HX).
  assert (PT : (Q2R t <= pr)%R). { assert (E : pr = v); [|rewrite E; exact Ht]. destruct md; [| |congruence]; [apply (RewSub.IsRewMin_u _ _ _ _ _ _ PM HV)|apply (RewSub.IsRewMax_u _ _ _ _ _ _ PM HV)]. }
  destruct (pick_solver lp rb XB) as (SB & HS & XS). destruct (HX SB XS) as (_ & HXp). destruct (HXp PT) as (mm & ind & EC & (r & XA) & HX2).
  destruct (HX2 (fun _ => r) XA) as (_ & sub & val & cert & j & EI & _ & _ & _ & _ & W & LC & _). exists A, b, lp, SB, (fun _ => r), sub, val, cert, j.
  do 4 (split; [assumption|]). split; [|split; [rewrite EI; left; reflexivity|split; [exact W|exact LC]]].
  intros mm' ind' EC'. rewrite EC in EC'. injection EC' as <- <-. split; [apply exact_is_within; [unfold Q2R; cbn; lra|exact XA]|].
  apply exact_no_gap; [|exact XA]. apply (rconstruct_dir rw1rr SB t md (Some ["init"]) mm ind rw1rr_ok HS EC).
Qed.
