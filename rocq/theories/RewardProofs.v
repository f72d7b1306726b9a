(** Proofs about the linear programs of reward reachability forms. *)
From Coq Require Import String List Arith ZArith QArith Qreals Reals Bool Lia Lra.
From Coq Require Lqa.
From Verif Require Import Base BaseFacts Num Matrix MatFacts SccSpec SpecMdp SpecSystem SpecEc SpecForm SpecBuilt SpecProb SumFacts MdpValue RfTheory Amdp
  ReachForm ReachFormProofs RfFacts FarkProofs BuiltFacts RfBridge FarkReal Milp SpecLp MilpProofs LpExists RfLps RfLpProofs MilpMax
  SpecReward RewTheory RewardForm.
Import ListNotations.
Local Open Scope nat_scope.

Section RR.
  Variable rr : rrform.
  Let rf := rr_rf rr.
  Hypothesis BF : built_form rf.
  Hypothesis EX : exact_rows (a_P (rf_sys rf)).
  Let P := a_P (rf_sys rf).
  Let inv := a_inv (rf_sys rf).
  Let init := rf_init rf.
  Let n := rf_N rf.
  Let c := rf_C rf.
  Let M := form_mdp rf.
  Let RFI : rf_mdp M init := br_rf rf BF EX.
  Let RF : shape_mdp M := proj1 RFI.
  Hypothesis Hi : init < n.
  Hypothesis FREE : ec_free M.
  Hypothesis LR : length (rr_rew rr) = c.
  Hypothesis NR : forall q, In q (rr_rew rr) -> (0 <= q)%Q.
  Let rw := row_reward (rr_rew rr).

  Lemma hb : (rf_init rf <? rf_N rf) = true. Proof. apply Nat.ltb_lt. exact Hi. Qed.
  Lemma rw_pos : forall r, (0 <= rw r)%R.
  Proof.
    intros r. unfold rw, row_reward. rewrite <- RMicromega.Q2R_0. apply Qle_Rle. destruct (nth_in_or_default r (rr_rew rr) 0%Q) as [H| ->]; [auto|Lqa.lra].
  Qed.
  Lemma rw_out : forall r, c <= r -> rw r = 0%R.
  Proof. intros r Hr. unfold rw, row_reward. rewrite nth_overflow by lia. apply RMicromega.Q2R_0. Qed.

  Lemma rank : exists w, (forall s, s < n -> (0 <= w s)%R) /\ forall r, r < c -> (1 <= w (src M r) - sumn n (fun d => prob M r d * w d))%R.
  Proof. exact (ranking rf BF EX Hi FREE). Qed.

  Lemma rr_fark_z_real : forall t, exists A b, rr_fark_z rr t = Ok (A, b) /\ length A = S c /\ length b = S c /\
    (forall row, In row A -> length row = n) /\
    (forall i x, i < c -> rowR A n i x = (x (src M i) - sumn n (fun d => prob M i d * x d))%R) /\
    (forall i, i < c -> Q2R (nth i b 0%Q) = rw i) /\
    (forall x, rowR A n c x = (- x init)%R) /\ Q2R (nth c b 0%Q) = (- Q2R t)%R.
  Proof.
    intros t. destruct (fark_z_real rf BF t Hi) as (A & b & E & LA & LB & HW & R1 & B1 & R2 & B2).
    unfold fark_z in E. rewrite hb in E. injection E as EA Eb.
    unfold rr_fark_z. fold rf. rewrite hb. rewrite EA. eexists. eexists. split; [reflexivity|].
    assert (LZ : length (resize (rr_rew rr) (S (rf_C rf))) = S c) by (unfold resize; rewrite map_length, seq_length; auto).
    split; [exact LA|]. split; [rewrite upd_length; exact LZ|]. split; [exact HW|]. split; [exact R1|]. split; [|split; [exact R2|]].
    - intros i Hic. rewrite nth_upd_other by (unfold c in *; lia). unfold resize. rewrite nth_map_seq by (unfold c in *; lia). reflexivity.
    - rewrite nth_upd_same by (rewrite LZ; unfold c; lia). apply Q2R_opp.
  Qed.

  Lemma ge0_cons : forall k m0, mi_ok m0 -> length (mi_vars m0) = k -> forall lp, add_constraints m0 (map (fun s => ([(s, 1%Q)], SGe, 0%Q)) (seq 0 k)) = Ok lp ->
    forall x, feasible lp x <-> feasible m0 x /\ forall s, s < k -> (0 <= x s)%R.
  Proof.
    intros k m0 OK0 VL0 lp0 E0 x.
    destruct (add_constraints_spec (map (fun s => ([(s, 1%Q)], SGe, 0%Q)) (seq 0 k)) m0 OK0) as (lp & E1 & OK1 & VL1 & O1 & D1 & F1).
    { intros cc H. apply in_map_iff in H. destruct H as (s & <- & Hs). apply in_seq in Hs. split; [discriminate|]. split; [|constructor; [intros []|constructor]].
      intros v r [Ev|[]]. inversion Ev; subst. lia. }
    rewrite E1 in E0. injection E0 as ->. rewrite F1. split; intros (A1 & A2); (split; [exact A1|]).
    - intros s Hs. specialize (A2 [(s, 1%Q)] SGe 0%Q (in_map _ _ _ (proj2 (in_seq k 0 s) ltac:(lia)))). cbn [rel] in A2. rewrite lin_one, RMicromega.Q2R_0 in A2. lra.
    - intros l s1 q H. apply in_map_iff in H. destruct H as (s & Eq & Hs). apply in_seq in Hs. inversion Eq; subst. cbn [rel]. rewrite lin_one, RMicromega.Q2R_0.
      specialize (A2 s ltac:(lia)). lra.
  Qed.
  Lemma ge0_ok : forall k m0, mi_ok m0 -> length (mi_vars m0) = k -> exists lp, add_constraints m0 (map (fun s => ([(s, 1%Q)], SGe, 0%Q)) (seq 0 k)) = Ok lp /\
    mi_ok lp /\ mi_vars lp = mi_vars m0 /\ mi_obj lp = mi_obj m0 /\ mi_dir lp = mi_dir m0.
  Proof.
    intros k m0 OK0 VL0.
    destruct (add_constraints_spec (map (fun s => ([(s, 1%Q)], SGe, 0%Q)) (seq 0 k)) m0 OK0) as (lp & E1 & OK1 & VL1 & O1 & D1 & F1).
    { intros cc H. apply in_map_iff in H. destruct H as (s & <- & Hs). apply in_seq in Hs. split; [discriminate|]. split; [|constructor; [intros []|constructor]].
      intros v r [Ev|[]]. inversion Ev; subst. lia. }
    exists lp. split; [exact E1|]. split; [exact OK1|]. auto.
  Qed.

  (** ** rew_min *)
  Lemma rr_max_z_lp_spec : exists lp, rr_max_z_lp rr = Ok lp /\ lp_wf lp /\ length (mi_vars lp) = n /\ mi_dir lp = Maximise /\
    (forall x, objective lp x = sumn n x) /\
    forall x, feasible lp x <-> (forall r, r < c -> (x (src M r) <= rstep M rw r x)%R) /\ forall s, s < n -> (0 <= x s)%R.
  Proof.
    destruct (rr_fark_z_real 0) as (A & b & E & LA & LB & HW & R1 & B1 & R2 & B2). unfold rr_max_z_lp. rewrite E. cbn [bind]. fold rf n.
    destruct (lp_spec A n b (repeat 1%Q n) SLe Maximise) as (m0 & E0 & OK0 & VL0 & D0 & O0 & F0);
      [discriminate|discriminate|intros row Hr; rewrite (HW row Hr); auto|unfold c in *; lia|rewrite repeat_length; auto|].
    rewrite E0. cbn [bind]. pose proof (lp_from_coefficients_wf _ _ _ _ _ _ _ E0) as W0.
    destruct (ge0_ok n m0 OK0 VL0) as (lp & E1 & OK1 & VL1 & O1 & D1). pose proof (ge0_cons n m0 OK0 VL0 lp E1) as F1.
    exists lp. split; [exact E1|]. split; [eapply add_constraints_wf; eauto|]. split; [congruence|]. split; [congruence|]. split.
    { intros x. rewrite (objective_spec lp (fun j => nth j (repeat 1%Q n) 0%Q) n x); [apply sumn_ones; auto|]. rewrite O1. exact O0. }
    intros x. rewrite F1, F0. split.
    - intros (A1 & A2). split; auto. intros r Hr. specialize (A1 r ltac:(unfold c in *; lia)). change (rel SLe (rowR A n r x) (Q2R (nth r b 0%Q))) in A1.
      rewrite R1, B1 in A1 by auto. unfold rstep. change (nS M - 2) with n. cbn [rel] in A1. lra.
    - intros (A1 & A3). split; auto. intros i Hic. change (rel SLe (rowR A n i x) (Q2R (nth i b 0%Q))). assert (i < c \/ i = c) as [Hlt| ->] by (unfold c; lia).
      + rewrite R1, B1 by auto. specialize (A1 i Hlt). unfold rstep in A1. change (nS M - 2) with n in A1. cbn [rel]. lra.
      + rewrite R2, B2, RMicromega.Q2R_0. cbn [rel]. specialize (A3 init Hi). lra.
  Qed.

  Lemma C52_min_lemma : exists lp, rr_max_z_lp rr = Ok lp /\ (exists r, exact_answer lp r) /\
    forall S, exact_answer lp (S lp) -> exists v, rew_min S rr = Ok v /\ sr_status (S lp) = Optimal /\ length v = n /\
      forall s, s < n -> RewMinForm rf (rr_rew rr) s (Q2R (nth s v 0%Q)).
  Proof.
    destruct rr_max_z_lp_spec as (lp & E & W & VL & D & O & F). exists lp. split; [auto|].
    destruct rank as (w & W0 & WR). destruct (big_w M RF w WR rw) as (K & K0 & HK).
    assert (F0 : feasible lp (fun _ => 0%R)).
    { apply F. split; [|intros; lra]. intros r Hr. unfold rstep. rewrite sumn_zero by (intros; ring). pose proof (rw_pos r). lra. }
    assert (BD : exists B, forall x, feasible lp x -> better (mi_dir lp) B (objective lp x)).
    { exists (sumn n (fun s => K * w s)%R). intros x Hx. apply F in Hx. destruct Hx as [X1 X2]. rewrite D, O. simpl. apply sumn_le. intros s Hs.
      apply (sub_bounded M RF w W0 WR rw rw_out x); auto. }
    split; [apply lp_answer_exists; auto|].
    intros S ES. assert (OS := exact_optimal lp (S lp) ES (ex_intro _ _ F0) BD). exists (sr_vec (S lp)).
    unfold rew_min, rr_max_z_state. rewrite E. split; [auto|]. split; [auto|]. unfold exact_answer in ES. rewrite OS in ES. destruct ES as (L & (FX & OX) & _).
    split; [congruence|]. intros s Hs. apply F in FX. destruct FX as [X1 X2].
    change (Q2R (nth s (sr_vec (S lp)) 0%Q)) with (vec (sr_vec (S lp)) s).
    apply (rew_min_char M RF w W0 WR rw rw_out (vec (sr_vec (S lp)))); auto.
    apply (max_tight M RF rw); auto. intros z' Z1 Z2. assert (FZ : feasible lp z').
    { apply F. split; auto. intros s' Hs'. apply Rle_trans with (vec (sr_vec (S lp)) s'); [exact (X2 s' Hs')|exact (Z2 s' Hs')]. }
    specialize (OX z' FZ). rewrite D, !O in OX. exact OX.
  Qed.

  (** ** rew_max *)
  Lemma rew_max_lp_spec : exists lp, rew_max_lp rr = Ok lp /\ lp_wf lp /\ length (mi_vars lp) = n /\ mi_dir lp = Minimise /\
    (forall x, objective lp x = sumn n x) /\
    forall x, feasible lp x <-> (forall r, r < c -> (rstep M rw r x <= x (src M r))%R) /\ forall s, s < n -> (0 <= x s)%R.
  Proof.
    destruct (fark_z_real rf BF 0 Hi) as (A & b & E & LA & LB & HW & R1 & _).
    unfold fark_z in E. rewrite hb in E. injection E as EA _. clear b LB.
    assert (LA0 : length (rf_A rf) = c) by apply (ro_lenA rf (br_ro rf BF)).
    assert (HW0 : forall row, In row (rf_A rf) -> length row = n) by (intros row H; apply HW; rewrite <- EA; apply in_or_app; auto).
    assert (R0 : forall i x, i < c -> rowR (rf_A rf) n i x = (x (src M i) - sumn n (fun d => prob M i d * x d))%R).
    { intros i x Hic. refine (eq_trans _ (R1 i x Hic)). unfold rowR. rewrite <- EA, app_nth1 by lia. reflexivity. }
    unfold rew_max_lp. fold rf n.
    destruct (lp_spec (rf_A rf) n (rr_rew rr) (repeat 1%Q n) SGe Minimise) as (m0 & E0 & OK0 & VL0 & D0 & O0 & F0);
      [discriminate|discriminate|intros row Hr; rewrite (HW0 row Hr); auto|lia|rewrite repeat_length; auto|].
    rewrite E0. cbn [bind]. pose proof (lp_from_coefficients_wf _ _ _ _ _ _ _ E0) as W0.
    destruct (ge0_ok n m0 OK0 VL0) as (lp & E1 & OK1 & VL1 & O1 & D1). pose proof (ge0_cons n m0 OK0 VL0 lp E1) as F1.
    exists lp. split; [exact E1|]. split; [eapply add_constraints_wf; eauto|]. split; [congruence|]. split; [congruence|]. split.
    { intros x. rewrite (objective_spec lp (fun j => nth j (repeat 1%Q n) 0%Q) n x); [apply sumn_ones; auto|]. rewrite O1. exact O0. }
    intros x. rewrite F1, F0. split.
    - intros (A1 & A2). split; auto. intros r Hr. specialize (A1 r ltac:(lia)). change (rel SGe (rowR (rf_A rf) n r x) (rw r)) in A1.
      rewrite R0 in A1 by auto. unfold rstep. change (nS M - 2) with n. cbn [rel] in A1. lra.
    - intros (A1 & A3). split; auto. intros i Hic. change (rel SGe (rowR (rf_A rf) n i x) (rw i)). rewrite LA0 in Hic.
      rewrite R0 by auto. specialize (A1 i Hic). unfold rstep in A1. change (nS M - 2) with n in A1. cbn [rel]. lra.
  Qed.

  Lemma C52_max_lemma : exists lp, rew_max_lp rr = Ok lp /\ (exists r, exact_answer lp r) /\
    forall S, exact_answer lp (S lp) -> exists v, rew_max S rr = Ok v /\ sr_status (S lp) = Optimal /\ length v = n /\
      forall s, s < n -> RewMaxForm rf (rr_rew rr) s (Q2R (nth s v 0%Q)).
  Proof.
    destruct rew_max_lp_spec as (lp & E & W & VL & D & O & F). exists lp. split; [auto|].
    destruct rank as (w & W0 & WR). destruct (big_w M RF w WR rw) as (K & K0 & HK).
    assert (F0 : feasible lp (fun s => K * w s)%R).
    { apply F. split; [exact HK|]. intros s Hs. apply Rmult_le_pos; auto. }
    assert (BD : exists B, forall x, feasible lp x -> better (mi_dir lp) B (objective lp x)).
    { exists 0%R. intros x Hx. apply F in Hx. destruct Hx as [X1 X2]. rewrite D, O. simpl. apply sumn_nonneg. auto. }
    split; [apply lp_answer_exists; auto|].
    intros S ES. assert (OS := exact_optimal lp (S lp) ES (ex_intro _ _ F0) BD). exists (sr_vec (S lp)).
    unfold rew_max. rewrite E. split; [auto|]. split; [auto|]. unfold exact_answer in ES. rewrite OS in ES. destruct ES as (L & (FX & OX) & _).
    split; [congruence|]. intros s Hs. apply F in FX. destruct FX as [X1 X2].
    change (Q2R (nth s (sr_vec (S lp)) 0%Q)) with (vec (sr_vec (S lp)) s).
    apply (rew_max_char M RF w W0 WR rw rw_out (vec (sr_vec (S lp)))); auto.
    apply (min_tight M RF rw); auto. { intros; apply rw_pos. } intros z' Z1 Z2. assert (FZ : feasible lp z') by (apply F; auto).
    specialize (OX z' FZ). rewrite D, !O in OX. exact OX.
  Qed.

  (** Vectors solving the optimality equations. *)
  Definition bellman_min (z : nat -> R) : Prop := (forall s, s < n -> (0 <= z s)%R) /\ (forall r, r < c -> (z (src M r) <= rstep M rw r z)%R) /\
    (forall s, s < n -> exists r, r < c /\ src M r = s /\ z s = rstep M rw r z).
  Definition bellman_max (z : nat -> R) : Prop := (forall s, s < n -> (0 <= z s)%R) /\ (forall r, r < c -> (rstep M rw r z <= z (src M r))%R) /\
    (forall s, s < n -> exists r, r < c /\ src M r = s /\ z s = rstep M rw r z).
  Lemma bellman_min_value : forall z, bellman_min z -> forall s, s < n -> RewMinForm rf (rr_rew rr) s (z s).
  Proof. intros z (A & B & C). destruct rank as (w & W0 & WR). apply (rew_min_char M RF w W0 WR rw rw_out z); auto. Qed.
  Lemma bellman_max_value : forall z, bellman_max z -> forall s, s < n -> RewMaxForm rf (rr_rew rr) s (z s).
  Proof. intros z (A & B & C). destruct rank as (w & W0 & WR). apply (rew_max_char M RF w W0 WR rw rw_out z); auto. Qed.

  Lemma bellman_min_exists : exists z, bellman_min z.
  Proof.
    destruct rr_max_z_lp_spec as (lp & E & W & VL & D & O & F). destruct rank as (w & W0 & WR). destruct (big_w M RF w WR rw) as (K & K0 & HK).
    assert (F0 : feasible lp (fun _ => 0%R)).
    { apply F. split; [|intros; lra]. intros r Hr. unfold rstep. rewrite sumn_zero by (intros; ring). pose proof (rw_pos r). lra. }
    assert (BD : exists B, forall x, feasible lp x -> better (mi_dir lp) B (objective lp x)).
    { exists (sumn n (fun s => K * w s)%R). intros x Hx. apply F in Hx. destruct Hx as [X1 X2]. rewrite D, O. simpl. apply sumn_le. intros s Hs.
      apply (sub_bounded M RF w W0 WR rw rw_out x); auto. }
    destruct (lp_answer_exists lp) as (r & ES); auto. assert (OS := exact_optimal lp r ES (ex_intro _ _ F0) BD).
    unfold exact_answer in ES. rewrite OS in ES. destruct ES as (L & (FX & OX) & _). apply F in FX. destruct FX as [X1 X2].
    exists (vec (sr_vec r)). split; [auto|]. split; [auto|]. apply (max_tight M RF rw); auto. intros z' Z1 Z2. assert (FZ : feasible lp z').
    { apply F. split; auto. intros s' Hs'. apply Rle_trans with (vec (sr_vec r) s'); [exact (X2 s' Hs')|exact (Z2 s' Hs')]. }
    specialize (OX z' FZ). rewrite D, !O in OX. exact OX.
  Qed.
  Lemma bellman_max_exists : exists z, bellman_max z.
  Proof.
    destruct rew_max_lp_spec as (lp & E & W & VL & D & O & F). destruct rank as (w & W0 & WR). destruct (big_w M RF w WR rw) as (K & K0 & HK).
    assert (F0 : feasible lp (fun s => K * w s)%R).
    { apply F. split; [exact HK|]. intros s Hs. apply Rmult_le_pos; auto. }
    assert (BD : exists B, forall x, feasible lp x -> better (mi_dir lp) B (objective lp x)).
    { exists 0%R. intros x Hx. apply F in Hx. destruct Hx as [X1 X2]. rewrite D, O. simpl. apply sumn_nonneg. auto. }
    destruct (lp_answer_exists lp) as (r & ES); auto. assert (OS := exact_optimal lp r ES (ex_intro _ _ F0) BD).
    unfold exact_answer in ES. rewrite OS in ES. destruct ES as (L & (FX & OX) & _). apply F in FX. destruct FX as [X1 X2].
    exists (vec (sr_vec r)). split; [auto|]. split; [auto|]. apply (min_tight M RF rw); auto. { intros; apply rw_pos. } intros z' Z1 Z2. assert (FZ : feasible lp z') by (apply F; auto).
    specialize (OX z' FZ). rewrite D, !O in OX. exact OX.
  Qed.
End RR.
