(** The Gurobi models of reachability forms and reward forms. *)
From Coq Require Import String List Arith ZArith QArith Qreals Reals Bool Lia Lra Classical.
From Coq Require Lqa.
From Verif Require Import Base BaseFacts Num Matrix InvDict SccSpec SpecMdp SpecEc SpecSystem SpecForm SpecBuilt SpecProb SpecLp SpecMilp SpecReward SpecRewSub SpecGurobi SumFacts RfTheory
  Amdp ReachForm ReachFormProofs RfFacts RfBridge FarkReal Milp MilpProofs LpExists Subsystem Formulations MilpBuild MilpForm Problems QsFixed RewardForm RewardProofs RewForms RewProblems Gurobi GurProofs.
Import ListNotations.
Local Open Scope nat_scope.

(** ** Facts about forms *)
Section M.
  Variable M : mdp.
  Variable init : nat.
  Hypothesis RF : rf_mdp M init.
  Let n := nS M - 2.
  Let c := nA M - 2.

  Lemma inner_row : forall r, r < nA M -> src M r < n -> r < c.
  Proof.
    intros r Hr Hs. destruct RF as ((_ & H2 & H3 & _ & (G1 & _) & (F1 & _)) & _). unfold c. assert (r < nA M - 2 \/ r = nA M - 2 \/ r = nA M - 1) as [H|[->| ->]] by lia; [exact H| |]; exfalso.
    - rewrite G1 in Hs. unfold goal in Hs. fold n in Hs. lia.
    - rewrite F1 in Hs. unfold fail in Hs. unfold n in Hs. lia.
  Qed.

  Lemma two_le : forall r s d, r < nA M -> s < nS M -> d < nS M -> s <> d -> (prob M r s + prob M r d <= 1)%R.
  Proof.
    intros r s d Hr Hs Hd NE. destruct RF as ((W & _) & _). destruct W as (_ & W2 & W3 & _). rewrite <- (W3 r Hr).
    rewrite (sumn_ext (nS M) (prob M r) (fun j => ((if j =? s then prob M r s else 0) + (if j =? s then 0 else prob M r j))%R)) by (intros j _; destruct (Nat.eqb_spec j s) as [->|]; lra).
    rewrite sumn_plus. apply Rplus_le_compat.
    - rewrite (sumn_single (nS M) s); [rewrite Nat.eqb_refl; lra|exact Hs|]. intros j _ Hj. rewrite (proj2 (Nat.eqb_neq j s) Hj). reflexivity.
    - pose proof (sumn_term_le (nS M) d (fun j => if j =? s then 0%R else prob M r j) Hd) as H. cbn beta in H. rewrite (proj2 (Nat.eqb_neq d s)) in H by auto. apply H. intros j Hj. destruct (j =? s); [lra|apply W2; auto].
  Qed.

  Lemma leaves : forall s, s < n -> exists r, r < c /\ src M r = s /\ (prob M r s < 1)%R.
  Proof.
    intros s Hs. pose proof RF as ((W & H2 & _) & _ & R). assert (H : rtc (medge M) s (goal M)) by (apply R; unfold n in Hs; unfold fail; lia).
    assert (NG : s <> goal M) by (unfold goal; fold n; lia). remember (goal M) as g eqn:Eg. induction H as [x|x y z E H IH]; [congruence|]. subst z. destruct E as (r & Hr & Es & Hy & Hp).
    destruct (Nat.eq_dec y x) as [->|NE]; [apply IH; auto|]. exists r. split; [apply inner_row; [exact Hr|rewrite Es; exact Hs]|]. split; [exact Es|].
    pose proof (two_le r x y Hr ltac:(unfold n in Hs; lia) Hy (not_eq_sym NE)). lra.
  Qed.

  Lemma into_goal : init < n -> exists r, r < c /\ (0 < prob M r n)%R.
  Proof.
    intros Hi. pose proof RF as ((W & H2 & H3 & _ & (G1 & _) & (F1 & F2)) & _ & R). assert (H : rtc (medge M) init (goal M)) by (apply R; unfold n in Hi; unfold fail; lia).
    assert (NG : init <> goal M) by (unfold goal; fold n; lia). clear Hi. revert H NG. generalize init at 1 2. intros x0 H NG. remember (goal M) as g eqn:Eg. induction H as [x|x y z E H IH]; [congruence|]. subst z.
    destruct (Nat.eq_dec y (goal M)) as [->|NE]; [|apply IH; auto]. destruct E as (r & Hr & Es & Hy & Hp). exists r. split; [|exact Hp].
    unfold c. assert (r < nA M - 2 \/ r = nA M - 2 \/ r = nA M - 1) as [K|[->| ->]] by lia; [exact K|congruence|]. exfalso. pose proof (two_le (nA M - 1) (fail M) (goal M) ltac:(lia) ltac:(unfold fail; lia) Hy ltac:(unfold fail, goal; lia)). lra.
  Qed.

  Lemma ec_no_loop : ec_free M -> forall r, r < c -> prob M r (src M r) <> 1%R.
  Proof.
    intros EF r Hr E. pose proof RF as ((W & H2 & H3 & HS & _) & _). apply (EF (src M r)); [apply HS; exact Hr|]. exists (fun x => x = src M r), (fun x i => x = src M r /\ i = r).
    assert (RE : row_edge M (src M r) r (src M r)) by (split; [unfold c in Hr; lia|]; split; [reflexivity|]; split; [specialize (HS r Hr); lia|rewrite E; lra]).
    split; [|reflexivity]. split; [exists (src M r); reflexivity|]. split; [|split].
    - intros s ->. exists r. auto.
    - intros s i (-> & ->). split; [reflexivity|]. split; [eauto|]. intros d (A & B & C & D). destruct (Nat.eq_dec d (src M r)) as [HD|HD]; [exact HD|]. exfalso. pose proof (two_le r (src M r) d A ltac:(specialize (HS r Hr); lia) C (not_eq_sym HD)). lra.
    - intros s d -> ->. apply rtc_refl.
  Qed.
End M.

(** ** Rows that are not empty *)
Lemma row_items_nil : forall A k i x, row_items (nth i A []) = [] -> rowR A k i x = 0%R.
Proof.
  intros A k i x H. unfold rowR. apply sumn_zero. intros j _. set (row := nth i A []) in *. assert (Z : (nth j row 0 == 0)%Q); [|rewrite (Qeq_eqR _ _ Z), RMicromega.Q2R_0; lra].
  destruct (Nat.lt_ge_cases j (length row)) as [L|L]; [|rewrite nth_overflow by exact L; reflexivity]. unfold row_items in H.
  destruct (Qeq_bool (nth j row 0%Q) 0) eqn:EB; [apply Qeq_bool_iff; exact EB|]. exfalso. assert (HI : In (j, nth j row 0%Q) (combine (seq 0 (length row)) row)).
  { replace (j, nth j row 0%Q) with (nth j (combine (seq 0 (length row)) row) (0, 0%Q)) by (rewrite combine_nth by apply seq_length; rewrite seq_nth by exact L; reflexivity). apply nth_In. rewrite combine_length, seq_length. lia. }
  assert (HF : In (j, nth j row 0%Q) (filter (fun p : nat * Q => negb (Qeq_bool (snd p) 0)) (combine (seq 0 (length row)) row))) by (apply filter_In; split; [exact HI|cbn [snd]; rewrite EB; reflexivity]).
  rewrite H in HF. destruct HF.
Qed.

Lemma rows_ok : forall A k, (forall i, i < length A -> exists x, rowR A k i x <> 0%R) -> forall row, In row A -> row_items row <> [].
Proof.
  intros A k H row HI HE. apply (In_nth _ _ []) in HI. destruct HI as (i & Hi & <-). destruct (H i Hi) as (x & Hx). apply Hx. apply row_items_nil. exact HE.
Qed.

Definition e_at (k j : nat) : R := if j =? k then 1%R else 0%R.
Lemma sum_e : forall k n f, k < n -> sumn n (fun j => f j * e_at k j)%R = f k.
Proof. intros k n f H. rewrite (sumn_single n k); [unfold e_at; rewrite Nat.eqb_refl; lra|exact H|]. intros j _ Hj. unfold e_at. rewrite (proj2 (Nat.eqb_neq j k) Hj). lra. Qed.
Lemma sum_e' : forall k n f, k < n -> sumn n (fun j => e_at k j * f j)%R = f k.
Proof. intros k n f H. rewrite <- (sum_e k n f H). apply sumn_ext. intros; ring. Qed.

(** Length of computed bounds. *)
Lemma add_constraints_vars : forall cs m m', add_constraints m cs = Ok m' -> mi_vars m' = mi_vars m.
Proof.
  intros cs m m' E. unfold add_constraints in E. refine (foldM_inv _ _ _ (fun _ x => mi_vars x = mi_vars m) _ m m' eq_refl _ E). intros pre [[l s] r] m1 m2 H E1 _. apply bind_ok in E1. destruct E1 as ([m3 i3] & E3 & E1). injection E1 as <-.
  unfold add_constraint in E3. apply bind_ok in E3. destruct E3 as (? & _ & E3). apply bind_ok in E3. destruct E3 as (? & _ & E3). injection E3 as <- _. exact H.
Qed.
Lemma computed_length : forall S A n b st u, sized S -> compute_upper_bounds S A n b = Ok (st, u) -> st = Optimal -> length u = n.
Proof.
  intros S A n b st u HS E ->. unfold compute_upper_bounds in E. apply bind_ok in E. destruct E as (lp & EL & E). cbv zeta in E. apply bind_ok in E. destruct E as (? & _ & E). injection E as E1 <-.
  destruct (n + 1 =? length A); [|apply repeat_length]. rewrite (HS lp E1). unfold upper_bound_lp in EL. apply bind_ok in EL. destruct EL as (lp0 & E0 & EL). rewrite (add_constraints_vars _ _ _ EL). unfold lp_from_coefficients in E0. apply (from_length _ _ _ _ _ _ _ _ _ E0).
Qed.

Lemma choose_length : forall S rf A n b md u, sized S -> choose_bounds S rf A n b md None = Ok (Some (Some u)) -> length u = n.
Proof.
  intros S rf A n b md u HS E. unfold choose_bounds in E. destruct md; [injection E as <-; apply repeat_length| |];
  (destruct (is_ec_free rf); [|discriminate]; apply bind_ok in E; destruct E as ((st & u') & EC & E); destruct st; try discriminate; injection E as <-; apply (computed_length S A n b Optimal u' HS EC eq_refl)).
Qed.
Lemma rr_choose_length : forall S rr A n b u, sized S -> rr_choose_bounds S rr A n b None = Ok (Some (Some u)) -> length u = n.
Proof.
  intros S rr A n b u HS E. unfold rr_choose_bounds in E. cbn [rr_is_ec_free] in E. apply bind_ok in E; destruct E as ((st & u') & EC & E); destruct st; try discriminate; injection E as <-; apply (computed_length S A n b Optimal u' HS EC eq_refl).
Qed.

(** Lower bounds. *)
Lemma vbounds_zero : forall rf md ub n bs j lu, variable_bounds rf md ub n = Ok bs -> nth_error bs j = Some lu -> fst lu = Some 0%Q.
Proof.
  intros rf md ub n bs j lu E HJ. unfold variable_bounds in E. apply mapM_ok in E. apply nth_error_In in HJ. revert HJ. induction E as [|v p l ps E HF IH]; [intros []|]. intros [->|HI]; [|apply IH; exact HI].
  apply bind_ok in E. destruct E as (ec & _ & E). apply bind_ok in E. destruct E as (u & _ & E). injection E as <-. reflexivity.
Qed.
Lemma rr_vbounds_zero : forall rr md ub n bs j lu, rr_variable_bounds rr md ub n = Ok bs -> nth_error bs j = Some lu -> fst lu = Some 0%Q.
Proof.
  intros rr md ub n bs j lu E HJ. unfold rr_variable_bounds in E. apply mapM_ok in E. apply nth_error_In in HJ. revert HJ. induction E as [|v p l ps E HF IH]; [intros []|]. intros [->|HI]; [|apply IH; exact HI].
  cbv zeta in E. apply bind_ok in E. destruct E as (u & _ & E). injection E as <-. reflexivity.
Qed.

(** ** construct_MILP *)
Definition ofull (r r' : option (milp * dict nat (list nat))) : Prop :=
  match r, r' with None, None => True | Some p, Some gp => gfull p gp | _, _ => False end.

Lemma tail_sim : forall A n b bounds ub groups (relaxed : bool), (forall row, In row A -> row_items row <> []) -> (forall j lu, nth_error bounds j = Some lu -> fst lu = Some 0%Q) -> (forall u, ub = Some u -> length u <= n) ->
  rsim ofull (let* m := from_coefficients A n b (repeat 0%Q n) (repeat DReal n) SLe Minimise (Some bounds) in
      let* (m, ind) := add_indicator_constraints m ub groups (if relaxed then DReal else DBinary) in
      let* m := set_objective m (all_ones ind) in
      Ok (Some (m, ind))) (let* mi := g_model A n b bounds ub groups relaxed false in Ok (Some mi)).
Proof.
  intros A n b bounds ub groups relaxed HA HB HU. pose proof (model_sim A n b bounds ub groups relaxed HA HB HU) as H. unfold p_model in H.
  destruct (from_coefficients A n b (repeat 0%Q n) (repeat DReal n) SLe Minimise (Some bounds)) as [m|e]; cbn [bind] in H |- *.
  2:{ destruct (g_model A n b bounds ub groups relaxed false); cbn in H |- *; auto. }
  destruct (add_indicator_constraints m ub groups (if relaxed then DReal else DBinary)) as [[m1 ind]|e]; cbn [bind] in H |- *.
  2:{ destruct (g_model A n b bounds ub groups relaxed false); cbn in H |- *; auto. }
  destruct (set_objective m1 (all_ones ind)) as [m2|e]; cbn [bind] in H |- *; destruct (g_model A n b bounds ub groups relaxed false); cbn in H |- *; auto.
Qed.

Definition rfull (asrt : bool) (r r' : res (option (milp * dict nat (list nat)))) : Prop := rsim ofull r r' \/ asrt = true /\ r = Err AssertionError /\ exists e, r' = Err e.

Lemma real_err : forall A n b bounds ub groups relaxed, exists e, (let* mi := g_model A n b bounds ub groups relaxed true in Ok (Some mi)) = Err e.
Proof. intros. unfold g_model. destruct (g_from_coefficients A n b _ _ _ _ _) as [m|e]; cbn [bind g_add_indicator_constraints]; eauto. Qed.

Section Con.
  Variable rf : rform.

  Lemma con_sim : forall SB t md labels relaxed, sized SB -> (forall A b, fark_constraints rf t md = Ok (A, b) -> forall row, In row A -> row_items row <> []) ->
    rfull (match md with Max => negb relaxed | _ => false end) (construct_milp SB rf t md labels relaxed None) (g_construct_milp SB rf t md labels relaxed None).
  Proof.
    intros SB t md labels relaxed HS HR. unfold construct_milp, g_construct_milp. destruct (fark_constraints rf t md) as [[A b]|e] eqn:EF; cbn [bind]; [|left; reflexivity]. specialize (HR A b eq_refl).
    destruct (certificate_size rf md) as [n|e]; cbn [bind]; [|left; reflexivity]. destruct (choose_bounds SB rf A n b md None) as [[ub|]|e] eqn:EC; cbn [bind]; [|left; exact I|left; reflexivity].
    destruct (negb relaxed && match md, ub with Max, None => true | _, _ => false end) eqn:ER; cbn [negb assert_ bind].
    - right. split; [destruct md; [rewrite andb_false_r in ER; discriminate| |rewrite andb_false_r in ER; discriminate]; apply andb_true_iff in ER; apply ER|]. split; [reflexivity|].
      destruct (groups_from_labels rf md labels _) as [gs|e]; cbn [bind]; [|eauto]. destruct (variable_bounds rf md ub n) as [bs|e]; cbn [bind]; [|eauto]. apply real_err.
    - left. destruct (groups_from_labels rf md labels _) as [gs|e]; cbn [bind]; [|reflexivity]. destruct (variable_bounds rf md ub n) as [bs|e] eqn:EB; cbn [bind]; [|reflexivity]. apply tail_sim; [exact HR|intros j lu; apply (vbounds_zero _ _ _ _ _ _ _ EB)|].
      intros u ->. rewrite (choose_length _ _ _ _ _ _ _ HS EC). auto.
  Qed.
End Con.

Lemma rr_con_sim : forall rr SB t md labels relaxed, sized SB -> (forall A b, rr_fark_constraints rr t md = Ok (A, b) -> forall row, In row A -> row_items row <> []) ->
    rfull (match md with Max => negb relaxed | _ => false end) (rr_construct_milp SB rr t md labels relaxed None) (g_rr_construct_milp SB rr t md labels relaxed None).
Proof.
    intros rr SB t md labels relaxed HS HR. unfold rr_construct_milp, g_rr_construct_milp. destruct (rr_fark_constraints rr t md) as [[A b]|e] eqn:EF; cbn [bind]; [|left; reflexivity]. specialize (HR A b eq_refl).
    destruct (certificate_size (rr_rf rr) md) as [n|e]; cbn [bind]; [|left; reflexivity]. destruct (rr_choose_bounds SB rr A n b None) as [[ub|]|e] eqn:EC; cbn [bind]; [|left; exact I|left; reflexivity].
    destruct (negb relaxed && match md, ub with Max, None => true | _, _ => false end) eqn:ER; cbn [negb assert_ bind].
    - right. split; [destruct md; [rewrite andb_false_r in ER; discriminate| |rewrite andb_false_r in ER; discriminate]; apply andb_true_iff in ER; apply ER|]. split; [reflexivity|].
      destruct (rr_groups_from_labels rr md labels _) as [gs|e]; cbn [bind]; [|eauto]. destruct (rr_variable_bounds rr md ub n) as [bs|e]; cbn [bind]; [|eauto]. apply real_err.
    - left. destruct (rr_groups_from_labels rr md labels _) as [gs|e]; cbn [bind]; [|reflexivity]. destruct (rr_variable_bounds rr md ub n) as [bs|e] eqn:EB; cbn [bind]; [|reflexivity]. apply tail_sim; [exact HR|intros j lu; apply (rr_vbounds_zero _ _ _ _ _ _ _ EB)|].
      intros u ->. rewrite (rr_choose_length _ _ _ _ _ _ HS EC). auto.
Qed.

Lemma rfull_same : forall asrt r r', rfull asrt r r' -> same_result asrt r r'.
Proof.
  intros asrt r r' [H|(H1 & -> & e & ->)].
  - destruct r as [[[m ind]|]|e]; destruct r' as [[[m' ind']|]|e']; cbn in H |- *; auto. apply gsim_same in H. exact H.
  - cbn. auto.
Qed.

(** ** Forms without empty rows *)
Section Rows.
  Variable rf : rform.
  Hypothesis BF : built_form rf.
  Hypothesis EX : exact_rows (a_P (rf_sys rf)).
  Hypothesis Hi : rf_init rf < a_N (rf_sys rf) - 2.
  Let M := form_mdp rf.
  Let n := rf_N rf.
  Let c := rf_C rf.

  Lemma rfm : rf_mdp M (rf_init rf). Proof. exact (br_rf rf BF EX). Qed.

  Lemma unit_prob : no_unit_loop rf <-> forall r, r < c -> prob M r (src M r) <> 1%R.
  Proof.
    split.
    - intros H r Hr E. destruct (br_row rf BF r Hr) as (a & Ei & _). apply (H r (src M r) a Hr Ei). apply eqR_Qeq. rewrite RMicromega.Q2R_1. exact E.
    - intros H i s a Hr Ei E. apply (H i Hr). unfold M. rewrite (br_src rf i s a Ei). apply Qeq_eqR in E. rewrite RMicromega.Q2R_1 in E. exact E.
  Qed.

  Lemma z_row : forall A i, (forall i x, i < c -> rowR A n i x = (x (src M i) - sumn n (fun d => prob M i d * x d))%R) -> i < c -> rowR A n i (e_at (src M i)) = (1 - prob M i (src M i))%R.
  Proof.
    intros A i R1 Hr. rewrite R1 by exact Hr. destruct (br_row rf BF i Hr) as (a & _ & Hs). unfold e_at at 1. rewrite Nat.eqb_refl. f_equal. rewrite sum_e; [reflexivity|exact Hs].
  Qed.

  Lemma y_row : forall A, (forall s x, s < n -> rowR A c s x = balance M x s) -> forall s, s < n -> exists x, rowR A c s x <> 0%R.
  Proof.
    intros A R1 s Hs. destruct (leaves M (rf_init rf) rfm s Hs) as (r & Hr & Es & Hp). exists (e_at r). rewrite R1 by exact Hs. unfold balance. change (nA M - 2) with c.
    rewrite (sum_e' r c (fun r0 => ((if src M r0 =? s then 1 else 0) - prob M r0 s)%R) Hr). rewrite Es, Nat.eqb_refl. lra.
  Qed.

  Lemma rows_min : no_unit_loop rf -> forall t A b, fark_constraints rf t Min = Ok (A, b) -> forall row, In row A -> row_items row <> [].
  Proof.
    intros NU t A b E. cbn [fark_constraints] in E. destruct (fark_z_real rf BF t Hi) as (A' & b' & E' & LA & _ & _ & R1 & _ & R2 & _). rewrite E in E'. injection E' as <- <-. apply (rows_ok A n). intros i Hlt. rewrite LA in Hlt.
    assert (i < c \/ i = c) as [H| ->] by (unfold c; lia).
    - exists (e_at (src M i)). rewrite (z_row A i R1 H). pose proof (proj1 unit_prob NU i H). lra.
    - exists (fun _ => 1%R). unfold n, c. rewrite R2. lra.
  Qed.

  Lemma rows_max : forall t A b, fark_constraints rf t Max = Ok (A, b) -> forall row, In row A -> row_items row <> [].
  Proof.
    intros t A b E. cbn [fark_constraints] in E. destruct (fark_y_real rf BF t ltac:(unfold rf_N; lia)) as (A' & b' & E' & LA & _ & _ & R1 & _ & R2 & _). rewrite E in E'. injection E' as <- <-. apply (rows_ok A c). intros s Hlt. rewrite LA in Hlt.
    assert (s < n \/ s = n) as [H| ->] by (unfold n; lia); [apply (y_row A R1 s H)|].
    destruct (into_goal M (rf_init rf) rfm Hi) as (r & Hr & Hp). exists (e_at r). unfold n, c. rewrite R2. unfold to_goal. pose proof (sum_e' r (nA M - 2) (fun r0 => prob M r0 (goal M)) Hr) as HE. fold M. change (form_mdp rf) with M. change (goal M) with (nS M - 2) in *. rewrite HE. lra.
  Qed.

  Lemma rows_form : forall md t, (md = Min -> no_unit_loop rf) -> forall A b, fark_constraints rf t md = Ok (A, b) -> forall row, In row A -> row_items row <> [].
  Proof. intros md t NU A b E. destruct md; [apply (rows_min (NU eq_refl) t A b E)|apply (rows_max t A b E)|discriminate]. Qed.
End Rows.

Section RRows.
  Variable rr : rrform.
  Hypothesis RR : reward_form rr.
  Let rf := rr_rf rr.

  Lemma reward_no_loop : no_unit_loop rf.
  Proof. destruct RR as (BF & EX & Hi & FREE & _). apply (unit_prob rf BF). apply (ec_no_loop _ _ (br_rf rf BF EX) FREE). Qed.

  Lemma rr_rows : forall md t, (md = Max -> some_reward rr) -> forall A b, rr_fark_constraints rr t md = Ok (A, b) -> forall row, In row A -> row_items row <> [].
  Proof.
    intros md t SR A b E. pose proof reward_no_loop as NL. destruct RR as (BF & EX & Hi & FREE & LR & NR). destruct md; [| |discriminate]; cbn [rr_fark_constraints] in E.
    - destruct (rr_fark_z_real rr BF Hi LR t) as (A' & b' & E' & LA & _ & _ & R1 & _ & R2 & _). rewrite E in E'. injection E' as <- <-. fold rf in LA, R1, R2. apply (rows_ok A (rf_N rf)). intros i Hlt. rewrite LA in Hlt.
      assert (i < rf_C rf \/ i = rf_C rf) as [H| ->] by lia.
      + exists (e_at (src (form_mdp rf) i)). rewrite (z_row rf BF A i R1 H). pose proof (proj1 (unit_prob rf BF) NL i H). lra.
      + exists (fun _ => 1%R). rewrite R2. lra.
    - destruct (rr_fark_y_real rr BF Hi LR t) as (A' & b' & E' & LA & _ & _ & R1 & _ & R2 & _). rewrite E in E'. injection E' as <- <-. fold rf in LA, R1, R2. apply (rows_ok A (rf_C rf)). intros s Hlt. rewrite LA in Hlt.
      assert (s < rf_N rf \/ s = rf_N rf) as [H| ->] by lia; [apply (y_row rf BF EX A R1 s H)|].
      destruct (SR eq_refl) as (q & HI & NZ). apply (In_nth _ _ 0%Q) in HI. destruct HI as (r & Hr & <-). rewrite LR in Hr. exists (e_at r). rewrite R2. pose proof (sum_e r (rf_C rf) (fun r => Q2R (nth r (rr_rew rr) 0%Q)) Hr) as HE. unfold row_reward in *. rewrite HE.
      intros Z. apply NZ. apply eqR_Qeq. rewrite RMicromega.Q2R_0. lra.
  Qed.
End RRows.
