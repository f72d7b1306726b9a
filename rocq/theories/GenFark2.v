(** The linear programs of certificate generation, form by form. *)
From Coq Require Import String List Arith ZArith QArith Qreals Reals Bool Lia Lra.
From Coq Require Lqa.
From Verif Require Import Base BaseFacts Num Matrix MatFacts SpecMdp SpecSystem SpecEc SpecForm SpecBuilt SpecProb SumFacts MdpValue RfTheory SccSpec Amdp
  ReachForm ReachFormProofs RfFacts FarkProofs BuiltFacts RfBridge FarkReal Milp SpecLp MilpProofs Farkas Certificates CertProofs CertProofs2 GenFark.
Import ListNotations.
Local Open Scope nat_scope.

(** ** Bounds of the optimum *)
Section Bounds.
  Variable M : mdp.
  Hypothesis SH : shape_mdp M.
  Let n := (nS M - 2)%nat.
  Let m := (nA M - 2)%nat.
  Local Open Scope R_scope.

  Lemma prob_nonneg : forall r d, (r < m)%nat -> (d < nS M)%nat -> 0 <= prob M r d.
  Proof. intros r d Hr Hd. apply (RFW M SH); auto. unfold m in Hr. lia. Qed.
  Lemma prob_sum : forall r, (r < m)%nat -> sumn n (prob M r) + prob M r (goal M) <= 1 /\ sumn n (prob M r) <= 1.
  Proof.
    intros r Hr. destruct (RFW M SH) as (_ & _ & S1 & _). pose proof (RF2 M SH) as (H2 & _). specialize (S1 r ltac:(unfold m in Hr; lia)).
    rewrite sumn_split2 in S1 by auto. assert (0 <= prob M r (nS M - 2)) by (apply prob_nonneg; auto; lia). assert (0 <= prob M r (nS M - 1)) by (apply prob_nonneg; auto; lia).
    unfold goal, n. lra.
  Qed.

  Lemma bound_zmin : forall x s, (0 < n)%nat -> (forall r, (r < m)%nat -> x (src M r) <= onestep M r x + s) -> (forall j, (j < n)%nat -> - s <= x j) -> -1 <= s.
  Proof.
    intros x s Hn HR HS. destruct (Rle_or_lt (-1) s) as [|Hlt]; auto. exfalso.
    destruct (exists_max n x Hn) as (k & Hk & HM). destruct (RFW M SH) as (_ & _ & _ & W4). destruct (W4 k ltac:(unfold n in Hk; lia)) as (r & Hr & Es).
    assert (Hrm : (r < m)%nat) by (apply (rows_in M SH k); auto). specialize (HR r Hrm). rewrite Es in HR. unfold onestep in HR. fold n in HR.
    assert (SL : sumn n (fun d => prob M r d * x d) <= sumn n (prob M r) * x k).
    { rewrite <- sumn_scal_r. apply sumn_le. intros d Hd. apply Rmult_le_compat_l; auto. apply prob_nonneg; auto. unfold n in Hd. lia. }
    pose proof (prob_sum r Hrm) as (P1 & P2). specialize (HS k Hk). assert (0 <= x k) by lra. assert (sumn n (prob M r) * x k <= 1 * x k) by (apply Rmult_le_compat_r; auto).
    assert (0 <= sumn n (prob M r)). { apply sumn_nonneg. intros. apply prob_nonneg; auto. unfold n in *. lia. } lra.
  Qed.

  Lemma bound_ymax : forall init y s, (init < n)%nat -> (forall st, (st < n)%nat -> balance M y st <= (if Nat.eqb st init then 1 else 0) + s) ->
    (forall j, (j < m)%nat -> - s <= y j) -> -1 <= s.
  Proof.
    intros init y s Hi HR HS. destruct (Rle_or_lt (-1) s) as [|Hlt]; auto. exfalso.
    pose proof (balance_dual M SH y (fun _ => 1)) as BD. fold n m in BD.
    assert (G0 : 0 <= sumn m (fun r => y r * (1 - sumn n (fun d => prob M r d * 1)))).
    { apply sumn_nonneg. intros r Hr. apply Rmult_le_pos; [specialize (HS r Hr); lra|]. rewrite (sumn_ext n _ (prob M r)) by (intros; ring). pose proof (prob_sum r Hr). lra. }
    assert (G1 : sumn n (fun st => balance M y st * 1) <= sumn n (fun st => (if Nat.eqb st init then 1 else 0) + s)) by (apply sumn_le; intros st Hst; specialize (HR st Hst); lra).
    rewrite sumn_plus, sumn_indicator in G1 by auto.
    assert (G2 : sumn n (fun _ => s) <= s). { assert (H : sumn n (fun i => if Nat.eqb i init then s else 0) = s) by (apply sumn_indicator; auto). apply Rle_trans with (2 := Req_le _ _ H). apply sumn_le. intros i _. destruct (Nat.eqb i init); lra. }
    lra.
  Qed.

  Lemma goal_nonneg : forall y, (forall j, (j < m)%nat -> 0 <= y j) -> 0 <= to_goal M y.
  Proof. intros y H. unfold to_goal. apply sumn_nonneg. intros r Hr. apply Rmult_le_pos; auto. apply prob_nonneg; auto. pose proof (RF2 M SH). unfold goal. lia. Qed.
End Bounds.

Lemma nth_neg : forall l j, nth j (map Qopp l) 0%Q = (- nth j l 0)%Q.
Proof. intros. change 0%Q with (Qopp 0) at 1. apply map_nth. Qed.
Lemma rowR_neg : forall A k i x, rowR (map (map Qopp) A) k i x = (- rowR A k i x)%R.
Proof.
  intros. unfold rowR. rewrite <- sumn_opp. apply sumn_ext. intros j Hj. change (@nil Q) with (map Qopp []) at 1. rewrite map_nth, nth_neg, Q2R_opp. ring.
Qed.

Section Forms.
  Variable rf : rform.
  Hypothesis BF : built_form rf.
  Hypothesis EX : exact_rows (a_P (rf_sys rf)).
  Let P := a_P (rf_sys rf).
  Let inv := a_inv (rf_sys rf).
  Let init := rf_init rf.
  Let n := rf_N rf.
  Let c := rf_C rf.
  Let M := form_mdp rf.
  Hypothesis Hi : init < n.
  Let SH : shape_mdp M := proj1 (br_rf rf BF EX).

  Definition wfargs (A : list (list Q)) (D : nat) (b : list Q) (zs : list nat) : Prop :=
    (forall row, In row A -> length row = D) /\ length b = length A /\ (forall z, In z zs -> z < D).
  Definition rows (A : list (list Q)) (D : nat) (b : list Q) (x : nat -> R) (s : R) : Prop :=
    forall i, i < length A -> (rowR A D i x <= Q2R (nth i b 0%Q) + s)%R.

  Definition zmin_rows (t : Q) (x : nat -> R) (s : R) : Prop := (forall r, (r < c)%nat -> x (src M r) <= onestep M r x + s)%R /\ (Q2R t <= x init + s)%R.
  Definition zmax_rows (t : Q) (x : nat -> R) (s : R) : Prop := (forall r, (r < c)%nat -> onestep M r x <= x (src M r) + s)%R /\ (x init <= Q2R t + s)%R.
  Definition ymax_rows (t : Q) (x : nat -> R) (s : R) : Prop := (forall st, (st < n)%nat -> balance M x st <= (if Nat.eqb st init then 1 else 0) + s)%R /\ (Q2R t <= to_goal M x + s)%R.
  Definition ymin_rows (t : Q) (x : nat -> R) (s : R) : Prop := (forall st, (st < n)%nat -> (if Nat.eqb st init then 1 else 0) <= balance M x st + s)%R /\ (to_goal M x <= Q2R t + s)%R.

  Lemma in_unit_assert : forall t, in_unit t -> assert_ (Qle_bool 0 t && Qle_bool t 1) = Ok tt.
  Proof. intros t U. apply unit_assert in U. rewrite U. reflexivity. Qed.

  Lemma args_zmin : forall t s, in_unit t -> lower s -> exists A b zs, generation_args rf Min s t = Ok (A, n, b, zs) /\ wfargs A n b zs /\
    (forall x sg, rows A n b x sg <-> zmin_rows t x sg) /\ (forall z, In z zs <-> z < n /\ in_some_ec P inv z).
  Proof.
    intros t s U Hs. destruct (fark_z_real rf BF t Hi) as (A & b & E & LA & LB & HR & R1 & R2 & R3 & R4).
    destruct (zero_variables_z rf s BF Hs) as (zs & EZ & HZ). exists A, b, zs. split; [|split; [|split]].
    - unfold generation_args. rewrite (in_unit_assert t U). cbn [bind].
      assert (RS : right_constraint_set rf Min s t = (let* (A, b) := fark_z rf t in Ok (A, b, n))) by (destruct Hs; subst s; reflexivity).
      rewrite RS, E. cbn [bind]. assert (IU : is_upper s = false) by (destruct Hs; subst; auto). rewrite IU. fold n in EZ. rewrite EZ. reflexivity.
    - split; [exact HR|]. split; [lia|]. intros z Hz. apply HZ in Hz. tauto.
    - intros x sg. unfold rows, zmin_rows. rewrite LA. split.
      + intros H. split.
        * intros r Hr. specialize (H r ltac:(unfold c in *; lia)). fold n c M in R1, R2. rewrite R1, R2 in H by auto. unfold onestep. change (goal M) with n. change (nS M - 2) with n. lra.
        * specialize (H c ltac:(unfold c; lia)). fold n c init in R3, R4. rewrite R3, R4 in H. lra.
      + intros (H1 & H2) i Hic. fold c in Hic. assert (i < c \/ i = c) as [Hlt| ->] by lia.
        * fold n c M in R1, R2. rewrite R1, R2 by auto. specialize (H1 i Hlt). unfold onestep in H1. change (goal M) with n in H1. change (nS M - 2) with n in H1. lra.
        * fold n c init in R3, R4. rewrite R3, R4. lra.
    - exact HZ.
  Qed.

  Lemma args_zmax : forall t s, in_unit t -> upper s -> exists A b, generation_args rf Max s t = Ok (A, n, b, []) /\ wfargs A n b [] /\
    (forall x sg, rows A n b x sg <-> zmax_rows t x sg).
  Proof.
    intros t s U Hs. destruct (fark_z_real rf BF t Hi) as (A & b & E & LA & LB & HR & R1 & R2 & R3 & R4).
    exists (map (map Qopp) A), (map Qopp b). split; [|split].
    - unfold generation_args. rewrite (in_unit_assert t U). cbn [bind].
      assert (RS : right_constraint_set rf Max s t = (let* (A, b) := fark_z rf t in Ok (A, b, n))) by (destruct Hs; subst s; reflexivity).
      rewrite RS, E. cbn [bind]. assert (IU : is_upper s = true) by (destruct Hs; subst; auto). rewrite IU. reflexivity.
    - split; [|split].
      + intros row Hr. apply in_map_iff in Hr. destruct Hr as (r & <- & Hr). rewrite map_length. auto.
      + rewrite !map_length. lia.
      + intros z [].
    - intros x sg. unfold rows, zmax_rows. rewrite map_length, LA. split.
      + intros H. split.
        * intros r Hr. specialize (H r ltac:(unfold c in *; lia)). rewrite rowR_neg, nth_neg, Q2R_opp in H. fold n c M in R1, R2. rewrite R1, R2 in H by auto. unfold onestep. change (goal M) with n. change (nS M - 2) with n. lra.
        * specialize (H c ltac:(unfold c; lia)). rewrite rowR_neg, nth_neg, Q2R_opp in H. fold n c init in R3, R4. rewrite R3, R4 in H. lra.
      + intros (H1 & H2) i Hic. rewrite rowR_neg, nth_neg, Q2R_opp. fold c in Hic. assert (i < c \/ i = c) as [Hlt| ->] by lia.
        * fold n c M in R1, R2. rewrite R1, R2 by auto. specialize (H1 i Hlt). unfold onestep in H1. change (goal M) with n in H1. change (nS M - 2) with n in H1. lra.
        * fold n c init in R3, R4. rewrite R3, R4. lra.
  Qed.

  Lemma args_ymax : forall t s, in_unit t -> lower s -> exists A b, generation_args rf Max s t = Ok (A, c, b, []) /\ wfargs A c b [] /\
    (forall x sg, rows A c b x sg <-> ymax_rows t x sg).
  Proof.
    intros t s U Hs. destruct (fark_y_real rf BF t (Nat.lt_le_incl _ _ Hi)) as (A & b & E & LA & LB & HR & R1 & R2 & R3 & R4).
    exists A, b. split; [|split].
    - unfold generation_args. rewrite (in_unit_assert t U). cbn [bind].
      assert (RS : right_constraint_set rf Max s t = (let* (A, b) := fark_y rf t in Ok (A, b, c))) by (destruct Hs; subst s; reflexivity).
      rewrite RS, E. cbn [bind]. assert (IU : is_upper s = false) by (destruct Hs; subst; auto). rewrite IU. reflexivity.
    - split; [exact HR|]. split; [lia|]. intros z [].
    - intros x sg. unfold rows, ymax_rows. rewrite LA. fold n c M init in R1, R2, R3, R4. fold n. split.
      + intros H. split.
        * intros r Hr. specialize (H r ltac:(lia)). rewrite R1, R2 in H by auto. lra.
        * specialize (H n ltac:(lia)). rewrite R3, R4 in H. lra.
      + intros (H1 & H2) i Hic. assert (i < n \/ i = n) as [Hlt| ->] by lia.
        * rewrite R1, R2 by auto. apply H1; auto.
        * rewrite R3, R4. lra.
  Qed.

  Lemma zero_variables_free : forall s, is_ec_free rf = true -> upper s -> zero_variables rf Min s c = Ok [].
  Proof.
    intros s FREE Hs. unfold zero_variables. assert (IU : is_upper s = true) by (destruct Hs; subst; auto). rewrite IU.
    assert (NE : forall s, s < n -> ~ in_some_ec P inv s) by (apply (is_ec_free_iff rf init (br_ro rf BF) (br_form rf BF)); auto).
    assert (G : forall l, (forall i, In i l -> i < c) ->
      foldM (fun acc idx => let* (st, _) := of_opt KeyError (rf_inv rf idx) in let* e := in_proper_ec rf st in Ok (if e then acc ++ [st] else acc)) l [] = Ok []).
    { induction l as [|i l IH]; intros Hl; [reflexivity|]. cbn [foldM]. assert (Hic : i < c) by (apply Hl; left; auto). rewrite (rf_inv_row rf BF i Hic).
      destruct (inv_row rf BF i Hic) as (st & a & Ei & Hst). rewrite Ei. cbn [of_opt bind]. destruct (C09_state_lemma rf BF st Hst) as (e & -> & He). cbn [bind].
      destruct e; [exfalso; apply (NE st Hst); apply He; auto|]. apply IH. intros; apply Hl; right; auto. }
    apply G. intros i Hx. apply in_seq in Hx. lia.
  Qed.

  Lemma args_ymin : forall t s, is_ec_free rf = true -> in_unit t -> upper s -> exists A b, generation_args rf Min s t = Ok (A, c, b, []) /\ wfargs A c b [] /\
    (forall x sg, rows A c b x sg <-> ymin_rows t x sg).
  Proof.
    intros t s FREE U Hs. destruct (fark_y_real rf BF t (Nat.lt_le_incl _ _ Hi)) as (A & b & E & LA & LB & HR & R1 & R2 & R3 & R4).
    exists (map (map Qopp) A), (map Qopp b). split; [|split].
    - unfold generation_args. rewrite (in_unit_assert t U). cbn [bind].
      assert (RS : right_constraint_set rf Min s t = (let* (A, b) := fark_y rf t in Ok (A, b, c))) by (destruct Hs; subst s; reflexivity).
      rewrite RS, E. cbn [bind]. assert (IU : is_upper s = true) by (destruct Hs; subst; auto). rewrite IU. rewrite (zero_variables_free s FREE Hs). reflexivity.
    - split; [|split].
      + intros row Hr. apply in_map_iff in Hr. destruct Hr as (r & <- & Hr). rewrite map_length. auto.
      + rewrite !map_length. lia.
      + intros z [].
    - intros x sg. unfold rows, ymin_rows. rewrite map_length, LA. fold n c M init in R1, R2, R3, R4. fold n. split.
      + intros H. split.
        * intros r Hr. specialize (H r ltac:(lia)). rewrite rowR_neg, nth_neg, Q2R_opp in H. rewrite R1, R2 in H by auto. lra.
        * specialize (H n ltac:(lia)). rewrite rowR_neg, nth_neg, Q2R_opp in H. rewrite R3, R4 in H. lra.
      + intros (H1 & H2) i Hic. rewrite rowR_neg, nth_neg, Q2R_opp. assert (i < n \/ i = n) as [Hlt| ->] by lia.
        * rewrite R1, R2 by auto. specialize (H1 i Hlt). lra.
        * rewrite R3, R4. lra.
  Qed.

  (** ** The check, over the reals *)
  Lemma chk_zmin : forall s t v tol, lower s -> in_unit t -> length v = n -> (forall z, z < n -> in_some_ec P inv z -> vec v z = 0%R) ->
    zmin_rows t (vec v) (Q2R tol) -> (strictly s = true -> (Q2R t < vec v init + Q2R tol)%R) -> check_farkas rf Min s t v tol = Ok true.
  Proof.
    intros s t v tol Hs U HL HE (H1 & H2) H3. apply check_z_min; auto. split; [auto|]. split; [auto|]. split; [auto|]. split; [|split; [|split]].
    - intros z Hz He. apply eqR_Qeq. rewrite RMicromega.Q2R_0. apply HE; auto.
    - intros i st a Hic Ei. apply Rle_Qle. rewrite Q2R_minus. specialize (H1 i Hic). rewrite (br_src rf i st a Ei : src M i = st) in H1.
      assert (E : onestep M i (vec v) = Q2R (step_value rf v i)) by (exact (onestep_vec rf i v)). rewrite E in H1. unfold vec in H1. unfold entry. lra.
    - apply Rle_Qle. rewrite Q2R_plus. exact H2.
    - intros E. apply Rlt_Qlt. rewrite Q2R_plus. apply (H3 E).
  Qed.
  Lemma chk_zmax : forall s t v tol, upper s -> in_unit t -> length v = n ->
    zmax_rows t (vec v) (Q2R tol) -> (strictly s = true -> (vec v init < Q2R t + Q2R tol)%R) -> check_farkas rf Max s t v tol = Ok true.
  Proof.
    intros s t v tol Hs U HL (H1 & H2) H3. apply check_z_max; auto. split; [auto|]. split; [auto|]. split; [auto|]. split; [|split].
    - intros i st a Hic Ei. apply Rle_Qle. rewrite Q2R_plus. specialize (H1 i Hic). rewrite (br_src rf i st a Ei : src M i = st) in H1.
      assert (E : onestep M i (vec v) = Q2R (step_value rf v i)) by (exact (onestep_vec rf i v)). rewrite E in H1. unfold vec in H1. unfold entry. lra.
    - apply Rle_Qle. rewrite Q2R_plus. exact H2.
    - intros E. apply Rlt_Qlt. rewrite Q2R_plus. apply (H3 E).
  Qed.
  Lemma chk_ymax : forall s t v tol, lower s -> in_unit t -> length v = c ->
    ymax_rows t (vec v) (Q2R tol) -> (strictly s = true -> (Q2R t < to_goal M (vec v) + Q2R tol)%R) -> check_farkas rf Max s t v tol = Ok true.
  Proof.
    intros s t v tol Hs U HL (H1 & H2) H3. assert (E2 : to_goal M (vec v) = Q2R (reward_y rf v)) by (exact (to_goal_vec rf v)). rewrite E2 in *.
    apply check_y_max; auto. split; [auto|]. split; [unfold init, n in Hi; lia|]. split; [auto|]. split; [|split].
    - intros st Hst. apply Rle_Qle. rewrite Q2R_minus, at_init_R. specialize (H1 st Hst).
      assert (E : balance M (vec v) st = Q2R (flow rf v st)) by (exact (balance_vec rf BF v st Hst)). rewrite E in H1. fold init. lra.
    - apply Rle_Qle. rewrite Q2R_plus. exact H2.
    - intros E. apply Rlt_Qlt. rewrite Q2R_plus. apply (H3 E).
  Qed.
  Lemma chk_ymin : forall s t v tol, is_ec_free rf = true -> upper s -> in_unit t -> length v = c ->
    ymin_rows t (vec v) (Q2R tol) -> (strictly s = true -> (to_goal M (vec v) < Q2R t + Q2R tol)%R) -> check_farkas rf Min s t v tol = Ok true.
  Proof.
    intros s t v tol FREE Hs U HL (H1 & H2) H3. assert (E2 : to_goal M (vec v) = Q2R (reward_y rf v)) by (exact (to_goal_vec rf v)). rewrite E2 in *.
    assert (NE : forall s, s < n -> ~ in_some_ec P inv s) by (apply (is_ec_free_iff rf init (br_ro rf BF) (br_form rf BF)); auto).
    apply check_y_min; auto. split; [auto|]. split; [unfold init, n in Hi; lia|]. split; [auto|]. split; [|split; [|split]].
    - intros i st a Hic Ei He. exfalso. destruct (inv_row rf BF i Hic) as (s' & a' & E' & Hn). assert (s' = st) by congruence. subst s'. apply (NE st); auto.
    - intros st Hst. apply Rle_Qle. rewrite Q2R_plus, at_init_R. specialize (H1 st Hst).
      assert (E : balance M (vec v) st = Q2R (flow rf v st)) by (exact (balance_vec rf BF v st Hst)). rewrite E in H1. fold init. lra.
    - apply Rle_Qle. rewrite Q2R_plus. exact H2.
    - intros E. apply Rlt_Qlt. rewrite Q2R_plus. apply (H3 E).
  Qed.

  Lemma chk_ymax_inv : forall s t v tol, lower s -> check_farkas rf Max s t v tol = Ok true -> ymax_rows t (vec v) (Q2R tol).
  Proof.
    intros s t v tol Hs H. apply check_y_max in H; auto. destruct H as (_ & _ & _ & H1 & H2 & _). split.
    - intros st Hst. specialize (H1 st Hst). apply Qle_Rle in H1. rewrite Q2R_minus, at_init_R in H1. fold init in H1.
      assert (E : balance M (vec v) st = Q2R (flow rf v st)) by (exact (balance_vec rf BF v st Hst)). rewrite E. lra.
    - assert (E2 : to_goal M (vec v) = Q2R (reward_y rf v)) by (exact (to_goal_vec rf v)). rewrite E2. apply Qle_Rle in H2. rewrite Q2R_plus in H2. exact H2.
  Qed.
  Lemma chk_ymin_inv : forall s t v tol, upper s -> check_farkas rf Min s t v tol = Ok true -> ymin_rows t (vec v) (Q2R tol).
  Proof.
    intros s t v tol Hs H. apply check_y_min in H; auto. destruct H as (_ & _ & _ & _ & H1 & H2 & _). split.
    - intros st Hst. specialize (H1 st Hst). apply Qle_Rle in H1. rewrite Q2R_plus, at_init_R in H1. fold init in H1.
      assert (E : balance M (vec v) st = Q2R (flow rf v st)) by (exact (balance_vec rf BF v st Hst)). rewrite E. lra.
    - assert (E2 : to_goal M (vec v) = Q2R (reward_y rf v)) by (exact (to_goal_vec rf v)). rewrite E2. apply Qle_Rle in H2. rewrite Q2R_plus in H2. exact H2.
  Qed.

  (** The check returns on vectors of the right length. *)
  Lemma chk_total : forall md s t v tol A D b zs, generation_args rf md s t = Ok (A, D, b, zs) -> length v = D -> exists ok, check_farkas rf md s t v tol = Ok ok.
  Proof.
    intros md s t v tol A D b zs E HL. unfold generation_args in E. unfold check_farkas.
    destruct (assert_ (Qle_bool 0 t && Qle_bool t 1)) as [u|e]; [|discriminate]. cbn [bind] in *.
    destruct (right_constraint_set rf md s t) as [[[A0 b0] D0]|e] eqn:ER; [|discriminate]. cbn [bind] in *.
    assert (ED : D0 = D). { destruct (is_upper s); (destruct (zero_variables rf md s D0); [|discriminate]; cbn [bind] in E; congruence). }
    subst D0. rewrite HL, Nat.eqb_refl. cbn [assert_ bind].
    assert (SO : s <> FOther). { intros ->. unfold right_constraint_set, right_form in ER. destruct md; discriminate. }
    assert (EZ : exists z, match md with Min => ec_entries_zero rf (is_upper s) v (seq 0 D) | _ => Ok true end = Ok z).
    { destruct md; eauto. unfold right_constraint_set, right_form in ER. cbn [bind] in ER.
      destruct s; cbn [bind is_upper] in *; try congruence.
      - destruct (fark_y rf t) as [[A1 b1]|]; [|discriminate]. cbn [bind] in ER. injection ER as _ _ ED. destruct (ec_zero_y rf BF v (seq 0 D)) as (z & -> & _); eauto. intros i Hx. apply in_seq in Hx. lia.
      - destruct (fark_y rf t) as [[A1 b1]|]; [|discriminate]. cbn [bind] in ER. injection ER as _ _ ED. destruct (ec_zero_y rf BF v (seq 0 D)) as (z & -> & _); eauto. intros i Hx. apply in_seq in Hx. lia.
      - destruct (fark_z rf t) as [[A1 b1]|]; [|discriminate]. cbn [bind] in ER. injection ER as _ _ ED. destruct (ec_zero_z rf BF v (seq 0 D)) as (z & -> & _); eauto. intros i Hx. apply in_seq in Hx. lia.
      - destruct (fark_z rf t) as [[A1 b1]|]; [|discriminate]. cbn [bind] in ER. injection ER as _ _ ED. destruct (ec_zero_z rf BF v (seq 0 D)) as (z & -> & _); eauto. intros i Hx. apply in_seq in Hx. lia. }
    destruct EZ as (z & ->). cbn [bind]. destruct z; eauto. destruct s; eauto. congruence.
  Qed.

  (** What generation returns, with an exact solver. *)
  Lemma generated : forall S md s t tol A D b zs lp, generation_args rf md s t = Ok (A, D, b, zs) -> wfargs A D b zs -> generation_lp rf md s t = Ok lp -> exact_answer lp (S lp) ->
    (exists B, forall x sg, rows A D b x sg -> (forall j, j < D -> (- sg <= x j)%R) -> (B <= sg)%R) ->
    exists v sg ok, gopt A D b zs v sg /\ check_farkas rf md s t v tol = Ok ok /\ generate_farkas S rf md s t tol = Ok (if ok then Some v else None).
  Proof.
    intros S md s t tol A D b zs lp E (W1 & W2 & W3) EL XA (B & HBd). unfold generation_lp in EL. rewrite E in EL. cbn [bind] in EL.
    destruct (interior_solved A D b zs W1 W2 W3 S lp EL XA) as (v & sg & o & q & EF & GO).
    { exists B. intros x sg (G1 & G2 & _). apply (HBd x); auto. }
    destruct (chk_total md s t v tol A D b zs E (proj1 GO)) as (ok & EC). exists v, sg, ok. split; [exact GO|]. split; [exact EC|].
    unfold generate_farkas. rewrite E. cbn [bind]. rewrite EF. cbn [bind]. rewrite EC. reflexivity.
  Qed.
End Forms.
