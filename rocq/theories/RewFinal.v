(** The theorems about reward forms in their final shape, and witnesses. *)
From Coq Require Import String List Arith ZArith QArith Qreals Reals Bool Lia Lra Classical.
From Coq Require Lqa.
From Verif Require Import Base BaseFacts Num Matrix InvDict SccSpec SpecMdp SpecEc SpecSystem SpecForm SpecBuilt SpecProb SpecSub SpecLp SpecMilp SpecLabel SpecReward SpecRewSub
  Amdp ReachForm Milp LpExists Subsystem RfLps RfLpProofs Formulations Problems QsProofs MilpFinal RewSub RewardForm RewProblems RewForms RewMilp RewQs RewVec ExReward.
Import ListNotations.
Local Open Scope string_scope.
Local Open Scope nat_scope.

Lemma C62_states_final : forall rr t, reward_form rr -> exists v A b lp, rew_opt rr Min v /\ rr_fark_constraints rr t Min = Ok (A, b) /\ upper_bound_lp A (a_N (rf_sys (rr_rf rr)) - 2) b = Ok lp /\ (exists r, exact_answer lp r) /\
  forall SB, exact_answer lp (SB lp) ->
    ((v < Q2R t)%R -> forall S, rr_milp_exact SB S rr t Min None = MkGen [failure Infeasible] None) /\
    ((Q2R t <= v)%R -> exists mm ind, rr_construct_milp SB rr t Min None false None = Ok (Some (mm, ind)) /\ (exists r, exact_answer mm r) /\
      forall S, exact_answer mm (S mm) -> g_exn (rr_milp_exact SB S rr t Min None) = None /\
      exists sub val cert j, g_items (rr_milp_exact SB S rr t Min None) = [MkPRes Success (Some sub) (Some val) (Some cert)] /\
        mk_subsystem (rr_rf rr) cert Min false = Ok sub /\ length cert = a_N (rf_sys (rr_rf rr)) - 2 /\ rew_polytope rr Min t (vec cert) /\ Q2R val = INR j /\
        rew_witness rr Min t (chosen (rf_sys (rr_rf rr)) Min cert) /\ count (chosen (rf_sys (rr_rf rr)) Min cert) (a_N (rf_sys (rr_rf rr)) - 2) = j /\
        forall keep, rew_witness rr Min t keep -> j <= count keep (a_N (rf_sys (rr_rf rr)) - 2)).
Proof. intros rr t (BF & EX & Hi & FREE & LR & NR). exact (C62_states rr BF EX Hi FREE LR NR t). Qed.

Lemma rr_labels_final : forall rr md t ls, reward_form rr -> md <> OtherMode -> inner_labels (rf_sys (rr_rf rr)) ls -> exists v A b lp, rew_opt rr md v /\ rr_fark_constraints rr t md = Ok (A, b) /\ upper_bound_lp A (cert_dim (rr_rf rr) md) b = Ok lp /\ (exists r, exact_answer lp r) /\
  forall SB, exact_answer lp (SB lp) ->
    ((v < Q2R t)%R -> forall S, rr_milp_exact SB S rr t md (Some ls) = MkGen [failure Infeasible] None) /\
    ((Q2R t <= v)%R -> exists mm ind, rr_construct_milp SB rr t md (Some ls) false None = Ok (Some (mm, ind)) /\ (exists r, exact_answer mm r) /\
      forall S, exact_answer mm (S mm) -> g_exn (rr_milp_exact SB S rr t md (Some ls)) = None /\
      exists sub val cert j, g_items (rr_milp_exact SB S rr t md (Some ls)) = [MkPRes Success (Some sub) (Some val) (Some cert)] /\
        mk_subsystem (rr_rf rr) cert md false = Ok sub /\ length cert = cert_dim (rr_rf rr) md /\ rew_polytope rr md t (vec cert) /\ Q2R val = INR j /\
        rew_witness rr md t (chosen (rf_sys (rr_rf rr)) md cert) /\ label_count (rf_sys (rr_rf rr)) ls (chosen (rf_sys (rr_rf rr)) md cert) j /\
        forall keep i, rew_witness rr md t keep -> label_count (rf_sys (rr_rf rr)) ls keep i -> j <= i).
Proof. intros rr md t ls (BF & EX & Hi & FREE & LR & NR). exact (rr_labels rr BF EX Hi FREE LR NR md t ls). Qed.

Lemma C63_states_final : forall rr t, reward_form rr -> exists v A b lp, rew_opt rr Max v /\ rr_fark_constraints rr t Max = Ok (A, b) /\ upper_bound_lp A (a_C (rf_sys (rr_rf rr)) - 2) b = Ok lp /\ (exists r, exact_answer lp r) /\
  forall SB S, exact_answer lp (SB lp) ->
    ((v < Q2R t)%R -> rr_milp_exact SB S rr t Max None = MkGen [failure Infeasible] None) /\
    ((Q2R t <= v)%R -> rr_milp_exact SB S rr t Max None = MkGen [] (Some AttributeError)).
Proof. intros rr t (BF & EX & Hi & FREE & LR & NR). exact (C63_states rr BF EX Hi FREE LR NR t). Qed.

Lemma C63_refuted_lemma : exists rr t v lp, reward_form rr /\ rew_opt rr Max v /\ (Q2R t <= v)%R /\
  (exists A b, rr_fark_constraints rr t Max = Ok (A, b) /\ upper_bound_lp A (a_C (rf_sys (rr_rf rr)) - 2) b = Ok lp /\ exists r, exact_answer lp r) /\
  forall SB S, exact_answer lp (SB lp) -> rr_milp_exact SB S rr t Max None = MkGen [] (Some AttributeError).
Proof.
  destruct (C63_states_final rw1rr 2%Q rw1rr_ok) as (v & A & b & lp & H1 & H2 & H3 & H4 & H5). exists rw1rr, 2%Q, v, lp. split; [exact rw1rr_ok|]. split; [exact H1|].
  assert (E : v = 7%R). { destruct rw1rr_ok as (BF & EX & Hi & FREE & LR & NR). apply (RewSub.IsRewMax_u _ _ _ _ _ _ H1). exact rw1_max. }
  assert (T : (Q2R 2 <= v)%R). { rewrite E. unfold Q2R; simpl. lra. }
  split; [exact T|]. split; [eauto|]. intros SB S HS. apply (H5 SB S HS). exact T.
Qed.

Lemma C64_bounds_final : forall rr md t, reward_form rr -> md <> OtherMode -> exists A b lp, rr_fark_constraints rr t md = Ok (A, b) /\ upper_bound_lp A (cert_dim (rr_rf rr) md) b = Ok lp /\ (exists r, exact_answer lp r) /\
  forall S, exact_answer lp (S lp) -> exists st u, compute_upper_bounds S A (cert_dim (rr_rf rr) md) b = Ok (st, u) /\
    ((st = Infeasible /\ forall x, ~ rew_polytope rr md t x) \/
     (st = Optimal /\ (exists x, rew_polytope rr md t x) /\ length u = cert_dim (rr_rf rr) md /\
      forall x, rew_polytope rr md t x -> forall i, i < cert_dim (rr_rf rr) md -> (x i <= vec u i)%R)).
Proof.
  intros rr md t (BF & EX & Hi & FREE & LR & NR) Hm. destruct (rr_bounds rr BF EX Hi FREE LR NR md t Hm) as (A & b & lp & EA & _ & _ & _ & EL & XA & HB).
  exists A, b, lp. do 3 (split; [assumption|]). intros S HS. pose proof (rpoly_iff rr BF md t) as PI.
  destruct (HB S HS) as [(NO & u & EU)|((x0 & H0) & u & EU & LU & HU)].
  - exists Infeasible, u. split; [exact EU|]. left. split; [auto|]. intros x Hx. apply (NO x). apply (PI x Hm) in Hx. exact Hx.
  - exists Optimal, u. split; [exact EU|]. right. split; [auto|]. split; [exists x0; apply (PI x0 Hm); exact H0|]. split; [exact LU|]. intros x Hx. apply HU. apply (PI x Hm) in Hx. exact Hx.
Qed.

Lemma C64_undetermined_final : forall rr t, reward_form rr -> (1 < t)%Q -> exists A b lp, rr_fark_constraints rr t Min = Ok (A, b) /\ upper_bound_lp A (a_N (rf_sys (rr_rf rr)) - 2) b = Ok lp /\
  forall SB, sr_status (SB lp) = NotSolved \/ sr_status (SB lp) = Undefined -> exists mm ind, rr_construct_milp SB rr t Min None false None = Ok (Some (mm, ind)) /\
    (forall x, ~ feasible mm x) /\ (exists r, exact_answer mm r) /\
    forall S, exact_answer mm (S mm) -> rr_milp_exact SB S rr t Min None = MkGen [failure Infeasible] None.
Proof. intros rr t (BF & EX & Hi & FREE & LR & NR). exact (C64_undetermined rr BF EX Hi FREE LR NR t). Qed.

Lemma C64_refuted_lemma : exists rr t v SB S mm ind, reward_form rr /\ rew_opt rr Min v /\ (Q2R t <= v)%R /\ (exists keep, rew_witness rr Min t keep) /\
  (forall lp, sr_status (SB lp) = NotSolved) /\ rr_construct_milp SB rr t Min None false None = Ok (Some (mm, ind)) /\ exact_answer mm (S mm) /\
  rr_milp_exact SB S rr t Min None = MkGen [failure Infeasible] None.
Proof.
  set (SB := fun _ : milp => MkRes NotSolved [] 0%Q). destruct (C64_undetermined_final rw1rr 2%Q rw1rr_ok ltac:(reflexivity)) as (A & b & lp & _ & _ & H).
  destruct (H SB (or_introl eq_refl)) as (mm & ind & E & _ & (r & HR) & HM). exists rw1rr, 2%Q, 3%R, SB, (fun _ => r), mm, ind.
  assert (T : (Q2R 2 <= 3)%R) by (unfold Q2R; simpl; lra).
  split; [exact rw1rr_ok|]. split; [exact rw1_min|]. split; [exact T|]. split.
  - destruct rw1rr_ok as (BF & EX & Hi & FREE & LR & NR). destruct (proj2 (point_value rw1rr BF EX Hi LR FREE NR Min 2%Q 3%R ltac:(discriminate) rw1_min) T) as (y & HY).
    exists (fun _ => true). apply (point_wit rw1rr BF EX Hi LR FREE NR Min 2%Q _ y ltac:(discriminate) HY). auto.
  - split; [reflexivity|]. split; [exact E|]. split; [exact HR|]. apply HM. exact HR.
Qed.

Lemma C65_final : forall rr SB S iterations ini up t md labels g calls, reward_form rr -> sized SB ->
  rr_qs_run SB S iterations ini up rr t md labels = (g, calls) -> (forall m r, In (m, r) calls -> sound_answer m r) ->
  rr_qs_heur SB S iterations ini up rr t md labels = g /\
  length (g_items g) <= Nat.max 1 iterations /\ length calls <= iterations /\
  (forall j r, nth_error (g_items g) j = Some r -> pr_status r <> Success -> Datatypes.S j = length (g_items g) /\ g_exn g = None /\ exists s, s <> Optimal /\ r = failure s) /\
  forall r, In r (g_items g) -> pr_status r = Success -> exists sub cert k gs, r = MkPRes Success (Some sub) (Some (inject_Z (Z.of_nat k))) (Some cert) /\
    mk_subsystem (rr_rf rr) cert md false = Ok sub /\ length cert = cert_dim (rr_rf rr) md /\ rew_polytope rr md t (vec cert) /\ rew_witness rr md t (chosen (rf_sys (rr_rf rr)) md cert) /\
    grouping (rr_rf rr) md labels false gs /\ length (filter (touches cert) gs) <= k.
Proof.
  intros rr SB S it ini up t md labels g calls (BF & EX & Hi & FREE & LR & NR) HS E SN.
  destruct (C65_lemma rr BF EX Hi FREE LR NR SB S it ini up t md labels g calls HS E SN) as (H1 & H2 & H3 & H4 & H5).
  split; [unfold rr_qs_heur; rewrite E; reflexivity|]. auto.
Qed.

Lemma C66_final : forall rr cert md ign sub, reward_form rr -> mk_subsystem (rr_rf rr) cert md ign = Ok sub -> rr_subsys sub = Err AttributeError.
Proof. intros rr cert md ign sub (BF & _). exact (C66_lemma rr BF cert md ign sub). Qed.

Lemma C66_refuted_lemma : exists rr t cert sub, reward_form rr /\ length cert = a_N (rf_sys (rr_rf rr)) - 2 /\ rew_polytope rr Min t (vec cert) /\ rew_witness rr Min t (chosen (rf_sys (rr_rf rr)) Min cert) /\
  mk_subsystem (rr_rf rr) cert Min false = Ok sub /\ rr_subsys sub = Err AttributeError.
Proof.
  destruct (C62_states_final rw1rr 2%Q rw1rr_ok) as (v & A & b & lp & H1 & H2 & H3 & (rl & H4) & H5). destruct (H5 (fun _ => rl) H4) as (_ & H6).
  assert (E : v = 3%R). { apply (RewSub.IsRewMin_u _ _ _ _ _ _ H1). exact rw1_min. }
  destruct H6 as (mm & ind & _ & (r & HR) & HM). { rewrite E. unfold Q2R; simpl. lra. }
  destruct (HM (fun _ => r) HR) as (_ & sub & val & cert & j & _ & G1 & G2 & G3 & _ & G4 & _). exists rw1rr, 2%Q, cert, sub. split; [exact rw1rr_ok|]. do 4 (split; [assumption|]). apply (C66_final rw1rr cert Min false sub rw1rr_ok G1).
Qed.

Lemma C67_z_final : forall rr, reward_form rr -> exists lp, rr_max_z_lp rr = Ok lp /\ (exists r, exact_answer lp r) /\
  forall S, exact_answer lp (S lp) -> exists w, rr_max_z_state_action S rr = Ok w /\ length w = a_C (rf_sys (rr_rf rr)) - 2 /\
    forall i, i < a_C (rf_sys (rr_rf rr)) - 2 -> exists z, (forall d, d < a_N (rf_sys (rr_rf rr)) - 2 -> RewMinForm (rr_rf rr) (rr_rew rr) d (z d)) /\
      Q2R (nth i w 0%Q) = (row_reward (rr_rew rr) i + sumn (a_N (rf_sys (rr_rf rr)) - 2) (fun d => prob (form_mdp (rr_rf rr)) i d * z d))%R.
Proof. intros rr (BF & EX & Hi & FREE & LR & NR). exact (C67_z_lemma rr BF EX Hi FREE LR NR). Qed.

Lemma C67_y_final : forall rr, reward_form rr -> exists lp, rr_max_y_lp rr = Ok lp /\ (exists r, exact_answer lp r) /\
  forall S, exact_answer lp (S lp) -> exists y, rr_max_y_state_action S rr = Ok y /\ sr_status (S lp) = Optimal /\ length y = a_C (rf_sys (rr_rf rr)) - 2 /\ rew_polytope rr Max 0 (vec y) /\
    RewMaxForm (rr_rf rr) (rr_rew rr) (rf_init (rr_rf rr)) (sumn (a_C (rf_sys (rr_rf rr)) - 2) (fun i => row_reward (rr_rew rr) i * Q2R (nth i y 0%Q)))%R.
Proof. intros rr (BF & EX & Hi & FREE & LR & NR). exact (C67_y_lemma rr BF EX Hi FREE LR NR). Qed.

Lemma C67_state_final : forall rr S y, reward_form rr -> rr_max_y_state_action S rr = Ok y -> length y = a_C (rf_sys (rr_rf rr)) - 2 ->
  exists v, rr_max_y_state S rr = Ok v /\ length v = a_N (rf_sys (rr_rf rr)) - 2 /\
    forall s, s < a_N (rf_sys (rr_rf rr)) - 2 ->
      (nth s v 0 == (if (s =? rf_init (rr_rf rr))%nat then 1 else 0) + sum_to (a_C (rf_sys (rr_rf rr)) - 2) (fun i => if belongs (a_inv (rf_sys (rr_rf rr))) i s then nth i y 0 else 0))%Q.
Proof. intros rr S y (BF & EX & Hi & FREE & LR & NR). exact (C67_state_lemma rr BF Hi S y). Qed.

Lemma C67_refuted_lemma : exists rr lp S y v s, reward_form rr /\ rr_max_y_lp rr = Ok lp /\ exact_answer lp (S lp) /\ rr_max_y_state_action S rr = Ok y /\ rr_max_y_state S rr = Ok v /\ s < a_N (rf_sys (rr_rf rr)) - 2 /\
  ~ (nth s v 0 == sum_to (a_C (rf_sys (rr_rf rr)) - 2) (fun i => if belongs (a_inv (rf_sys (rr_rf rr))) i s then nth i y 0 else 0))%Q.
Proof.
  destruct (C67_y_final rw1rr rw1rr_ok) as (lp & E & (r & HR) & H). destruct (H (fun _ => r) HR) as (y & Ey & _ & Ly & _).
  destruct (C67_state_final rw1rr (fun _ => r) y rw1rr_ok Ey Ly) as (v & Ev & _ & Hv). exists rw1rr, lp, (fun _ => r), y, v, (rf_init (rr_rf rw1rr)).
  assert (Hi : rf_init (rr_rf rw1rr) < a_N (rf_sys (rr_rf rw1rr)) - 2) by apply rw1rr_ok.
  split; [exact rw1rr_ok|]. do 4 (split; [assumption|]). split; [exact Hi|]. intros Hq. specialize (Hv _ Hi). rewrite Nat.eqb_refl in Hv. Lqa.lra.
Qed.

(** ** Examples *)
Definition rw_S (i : nat) : solver := fun _ => MkRes Optimal [2; 2; 0; 1; 1; 1]%Q 3%Q.
Lemma rw1_inner : inner_labels (rf_sys (rr_rf rw1rr)) ["init"].
Proof. intros l s [<-|[]] H; vm_compute in H; repeat destruct H as [<-|H]; try destruct H; vm_compute; lia. Qed.
