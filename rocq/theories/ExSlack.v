(** Examples: answers that satisfy the models up to a tolerance only. *)
From Coq Require Import String List Arith ZArith QArith Qreals Reals Bool Lia Lra.
From Verif Require Import Base BaseFacts Num Matrix InvDict SccSpec SpecMdp SpecEc SpecSystem SpecForm SpecBuilt SpecProb SpecSub SpecLp SpecMilp SpecSlack
  Amdp ReachForm BuiltFacts Milp Subsystem Formulations Problems MilpFinal QsWeights SlackProofs2 Examples ExProofs2 ExProofs5.
Import ListNotations.
Local Open Scope nat_scope.

Definition leb_within (e a b : Q) : bool := Qle_bool a (b + e).
Definition chkw_con (e : Q) (l : list Q) (c : constr) : bool :=
  match c_sense c with
  | SLe => leb_within e (linQ (c_lhs c) l) (c_rhs c)
  | SGe => leb_within e (c_rhs c) (linQ (c_lhs c) l)
  | SEq => leb_within e (linQ (c_lhs c) l) (c_rhs c) && leb_within e (c_rhs c) (linQ (c_lhs c) l)
  | OtherSense => false
  end.
Definition chkw_int (e q : Q) : bool := (leb_within e q 0 && leb_within e 0 q) || (leb_within e q 1 && leb_within e 1 q).
Definition chkw_var (e : Q) (v : lpvar) (q : Q) : bool :=
  (negb (v_int v) || chkw_int e q) && match v_lb v with Some b => leb_within e b q | None => true end && match v_ub v with Some b => leb_within e q b | None => true end.
Definition objQ (m : milp) (l : list Q) : Q := match mi_obj m with Some e => linQ e l | None => 0%Q end.
Definition chkw (e : Q) (m : milp) (r : sresult) : bool :=
  (length (sr_vec r) =? length (mi_vars m)) && forallb (fun p => chkw_var e (fst p) (snd p)) (combine (mi_vars m) (sr_vec r)) && forallb (fun p => chkw_con e (sr_vec r) (snd p)) (mi_constrs m) &&
  leb_within e (objQ m (sr_vec r)) (sr_val r) && leb_within e (sr_val r) (objQ m (sr_vec r)).

Lemma leb_R : forall e a b, leb_within e a b = true <-> (Q2R a <= Q2R b + Q2R e)%R.
Proof. intros e a b. unfold leb_within. rewrite Qle_bool_iff. rewrite <- Q2R_plus. split; [apply Qle_Rle|apply Rle_Qle]. Qed.

Lemma chkw_ok : forall e m r, chkw e m r = true -> answer_within (Q2R e) m r.
Proof.
  intros e m r H _. unfold chkw in H. repeat (apply andb_prop in H; destruct H as [H ?]). apply Nat.eqb_eq in H. rewrite forallb_forall in H2, H3. apply leb_R in H0, H1.
  assert (EO : Q2R (objQ m (sr_vec r)) = objective m (vec (sr_vec r))). { unfold objQ, objective. destruct (mi_obj m); [apply linQ_lin|apply RMicromega.Q2R_0]. }
  rewrite EO in *. split; [exact H|]. split; [|lra]. set (l := sr_vec r) in *. split.
  - intros j v Hj. assert (Hl : j < length l) by (rewrite H; apply nth_error_Some; congruence). pose proof (nth_error_nth' l 0%Q Hl) as Hq.
    assert (HI : In (v, nth j l 0%Q) (combine (mi_vars m) l)).
    { clear - Hj Hq. clearbody l. revert j l Hj Hq. generalize (mi_vars m). intros vs. induction vs as [|a vs IH]; intros [|j] l Hj Hq; cbn in Hj; try discriminate; destruct l as [|b l]; cbn in Hq; try discriminate.
      - injection Hj as <-. left. reflexivity.
      - right. cbn [nth]. apply IH; auto. }
    specialize (H3 _ HI). cbn [fst snd] in H3. unfold chkw_var in H3. apply andb_prop in H3. destruct H3 as [H3 B]. apply andb_prop in H3. destruct H3 as [A0 A]. unfold var_within, vec. split; [|split].
    + destruct (v_lb v); cbn; [apply leb_R in A; exact A|exact I].
    + destruct (v_ub v); cbn; [apply leb_R in B; lra|exact I].
    + intros E. rewrite E in A0. cbn [negb orb] in A0. unfold chkw_int in A0. apply orb_prop in A0. destruct A0 as [A0|A0]; apply andb_prop in A0; destruct A0 as [X Y]; apply leb_R in X, Y;
        rewrite ?RMicromega.Q2R_0, ?RMicromega.Q2R_1 in *; [exists 0%Z|exists 1%Z]; cbn; lra.
  - intros k c Hc. specialize (H2 _ Hc). cbn [snd] in H2. rewrite <- linQ_lin. unfold chkw_con in H2. destruct (c_sense c); cbn [rel_within]; try discriminate.
    + apply leb_R in H2. exact H2.
    + apply andb_prop in H2. destruct H2 as [X Y]. apply leb_R in X, Y. lra.
    + apply leb_R in H2. lra.
Qed.

(** Answers with a fixed vector and the exact value of the objective. *)
Definition fixedS (l : list Q) (m : milp) : sresult := MkRes Optimal l (objQ m l).
Definition chkw_calls (e : Q) (l : list (milp * sresult)) : bool := forallb (fun c => chkw e (fst c) (snd c)) l.
Lemma chkw_calls_ok : forall e l, chkw_calls e l = true -> forall m r, In (m, r) l -> answer_within (Q2R e) m r.
Proof. intros e l H m r Hin. unfold chkw_calls in H. rewrite forallb_forall in H. specialize (H _ Hin). apply chkw_ok. exact H. Qed.

(** The probability is 3/4, the threshold 76/100, the tolerance 1/100. *)
Definition slack_z : list Q := [3 # 4; 1 # 2; 1 # 2; 1; 1; 1]%Q.
Definition slack_y : list Q := [1; 1 # 2; 1 # 2; 1; 1; 1]%Q.
Definition slack_mm (md : mode) : milp * dict nat (list nat) := some_milp (construct_milp sized_ex ch3rf (76 # 100) md None false None).
Lemma slack_mm_ok : forall md, md <> OtherMode -> construct_milp sized_ex ch3rf (76 # 100) md None false None = Ok (Some (slack_mm md)).
Proof. intros [] H; [vm_compute; reflexivity|vm_compute; reflexivity|congruence]. Qed.

(** The number: state 2 has a positive entry below the tolerance, and its
    indicator is zero. *)
Definition tiny_z (q : Q) : list Q := [1 # 2; 0; if Qle_bool q (1 # 2) then q else 1 # 2; 1; 0; 0]%Q.
Definition tinyS (q : Q) (m : milp) : sresult := MkRes Optimal (tiny_z q) 1%Q.
Definition tiny_mm : milp * dict nat (list nat) := Eval vm_compute in some_milp (construct_milp sized_ex ch3rf (1 # 2) Min None false None).
Lemma tiny_mm_ok : construct_milp sized_ex ch3rf (1 # 2) Min None false None = Ok (Some tiny_mm).
Proof. vm_compute. reflexivity. Qed.

Lemma tiny_within : forall q, (0 < q)%Q -> answer_within (Q2R q) (fst tiny_mm) (tinyS q (fst tiny_mm)).
Proof.
  intros q Hq _. apply Qlt_Rlt in Hq. rewrite RMicromega.Q2R_0 in Hq.
  set (w := (if Qle_bool q (1 # 2) then q else 1 # 2)%Q). assert (WB : (0 < Q2R w)%R /\ (Q2R w <= Q2R q)%R /\ (Q2R w <= 1 / 2)%R).
  { assert (H2 : Q2R (1 # 2) = (1 / 2)%R) by (unfold Q2R; cbn; lra). unfold w. destruct (Qle_bool q (1 # 2)) eqn:E.
    - apply Qle_bool_iff in E. apply Qle_Rle in E. lra.
    - assert (L : (1 # 2 < q)%Q) by (apply Qnot_le_lt; intros X; apply Qle_bool_iff in X; congruence). apply Qlt_Rlt in L. lra. }
  assert (V : forall j, vec (tiny_z q) j = match j with 0 => (1 / 2)%R | 2 => Q2R w | 3 => 1%R | _ => 0%R end).
  { intros j. unfold vec, tiny_z. fold w. destruct j as [|[|[|[|[|[|j]]]]]]; cbn [nth]; try reflexivity; unfold Q2R; cbn; try lra. destruct j; cbn; lra. }
  split; [reflexivity|]. cbn [tinyS sr_vec sr_val]. revert V WB Hq. generalize (vec (tiny_z q)) (Q2R w) (Q2R q). intros z W e V WB He. split; [split|].
  - intros j v Hj. rewrite V. destruct j as [|[|[|[|[|[|j]]]]]]; cbn in Hj; try (injection Hj as <-); try (destruct j; discriminate Hj);
      (unfold var_within; cbn [v_lb v_ub v_int above below]; split; [unfold Q2R; cbn; lra|split; [unfold Q2R; cbn; lra|]]); intros E; try discriminate E; [exists 1%Z|exists 0%Z|exists 0%Z]; cbn; lra.
  - intros k c Hc. cbn [tiny_mm fst mi_constrs] in Hc. repeat (destruct Hc as [Hc|Hc]; [injection Hc as <- <-; cbn [c_sense c_lhs c_rhs rel_within lin]; rewrite ?V; unfold Q2R; cbn; lra|]). destruct Hc.
  - unfold objective. cbn [tiny_mm fst mi_obj lin]. rewrite !V. unfold Q2R. cbn. lra.
Qed.

Lemma C102_refuted_lemma : exists rf SB t, built_form rf /\ exact_rows (a_P (rf_sys rf)) /\ rf_init rf < a_N (rf_sys rf) - 2 /\ sized SB /\
  forall eps, (0 < eps)%Q -> exists S mm ind sub v cert, construct_milp SB rf t Min None false None = Ok (Some (mm, ind)) /\ answer_within (Q2R eps) mm (S mm) /\
    In (MkPRes Success (Some sub) (Some v) (Some cert)) (g_items (milp_exact SB S rf t Min None)) /\
    (v < inject_Z (Z.of_nat (count (chosen (rf_sys rf) Min cert) (a_N (rf_sys rf) - 2))))%Q.
Proof.
  exists ch3rf, sized_ex, (1 # 2)%Q. split; [apply ch3rf_built|]. split; [apply exact_ch3|]. split; [vm_compute; lia|]. split; [intros lp _; apply repeat_length|].
  intros eps He. exists (tinyS eps), (fst tiny_mm), (snd tiny_mm). pose proof (tiny_within eps He) as TW. 
  assert (MK : exists sub, mk_subsystem ch3rf (firstn 3 (tiny_z eps)) Min false = Ok sub) by (eexists; reflexivity). destruct MK as (sub & ES).
  exists sub, 1%Q, (firstn 3 (tiny_z eps)). split; [exact tiny_mm_ok|]. split; [exact TW|]. split.
  - unfold milp_exact. rewrite tiny_mm_ok. cbn [bind tiny_mm]. cbn [tinyS sr_status sr_vec sr_val]. change (certificate_size ch3rf Min) with (Ok 3). cbn [bind]. rewrite ES. cbn [bind]. left. reflexivity.
  - change (a_N (rf_sys ch3rf) - 2) with 3. unfold count. cbn [seq filter chosen firstn tiny_z]. unfold entry. cbn [nth]. 
    change (positive (1 # 2)) with true. change (positive 0) with false.
    assert (PW : positive (if Qle_bool eps (1 # 2) then eps else 1 # 2) = true).
    { unfold positive. apply negb_true_iff. destruct (Qle_bool eps (1 # 2)); [|reflexivity]. destruct (Qle_bool eps 0) eqn:E; auto. apply Qle_bool_iff in E. exfalso. apply (Qlt_not_le _ _ He E). }
    rewrite PW. cbn. reflexivity.
Qed.

Lemma tiny_optimal : forall x, feasible (fst tiny_mm) x -> (1 <= objective (fst tiny_mm) x + 0)%R.
Proof.
  intros x (FV & FC). cbn [tiny_mm fst mi_constrs mi_vars] in FV, FC.
  pose proof (FC _ _ (or_intror (or_intror (or_intror (or_introl eq_refl))))) as C0.
  pose proof (FC _ _ (or_intror (or_intror (or_intror (or_intror (or_introl eq_refl)))))) as C1.
  destruct (FV 3 _ eq_refl) as (_ & _ & I3). destruct (FV 4 _ eq_refl) as (L4 & _). destruct (FV 5 _ eq_refl) as (L5 & _). clear FV FC.
  destruct (I3 eq_refl) as (z & Hz). unfold sat_constr, SpecLp.rel, above, objective in *. cbn [c_sense c_lhs c_rhs lin v_lb tiny_mm fst mi_obj] in *.
  assert (Z1 : (1 <= IZR z)%R). { apply IZR_le. cut (0 < z)%Z; [lia|]. apply lt_IZR. rewrite <- Hz. unfold Q2R in *. cbn in *. lra. }
  rewrite <- Hz in Z1. unfold Q2R in *. cbn in *. lra.
Qed.

Lemma tiny_witness : witness ch3rf Min (1 # 2) (chosen (rf_sys ch3rf) Min [1 # 2; 0; 0]%Q).
Proof.
  destruct (C101_lemma ch3rf ch3rf_built exact_ch3 ltac:(vm_compute; lia)) as (K & _ & HK).
  destruct (HK (Q2R 0) sized_ex (1 # 2)%Q Min None) as (HE & _); [rewrite RMicromega.Q2R_0; lra|intros lp _; apply repeat_length|].
  destruct (HE (fixedS [1 # 2; 0; 0; 1; 0; 0]%Q)) with (r := hd (failure Infeasible) (g_items (milp_exact sized_ex (fixedS [1 # 2; 0; 0; 1; 0; 0]%Q) ch3rf (1 # 2) Min None))) as (sub & v & cert & E & _ & W).
  - intros mm ind EC. rewrite tiny_mm_ok in EC. injection EC as EC. replace mm with (fst tiny_mm) by (rewrite EC; reflexivity). apply chkw_ok. vm_compute. reflexivity.
  - vm_compute. left. reflexivity.
  - vm_compute. reflexivity.
  - assert (cert = [1 # 2; 0; 0]%Q) as ->. { apply (f_equal pr_cert) in E. vm_compute in E. injection E as <-. reflexivity. }
    destruct W as (p & HP & HT). exists p. split; [exact HP|]. rewrite RMicromega.Q2R_0 in HT. lra.
Qed.
