(** Every linear program over real variables has a correct answer. *)
From Coq Require Import String List Arith ZArith QArith Qreals Reals Bool Lia Lra Classical.
From Coq Require Lqa.
From Verif Require Import Base BaseFacts Num Matrix SpecMdp SpecForm SumFacts FarkProofs Farkas Milp SpecLp MilpProofs.
Import ListNotations.
Local Open Scope nat_scope.

Fixpoint lcoef (e : list (nat * Q)) (j : nat) : Q :=
  match e with [] => 0%Q | (v, q) :: r => ((if (v =? j)%nat then q else 0) + lcoef r j)%Q end.

Lemma lin_lcoef : forall n e x, (forall v q, In (v, q) e -> v < n) -> lin e x = sumn n (fun j => Q2R (lcoef e j) * x j)%R.
Proof.
  intros n e x. induction e as [|[v q] e IH]; intros H; simpl.
  - symmetry. apply sumn_zero. intros. rewrite RMicromega.Q2R_0. ring.
  - rewrite IH by (intros; eapply H; right; eauto).
    rewrite (sumn_ext n (fun j => Q2R ((if v =? j then q else 0) + lcoef e j)%Q * x j)%R (fun j => (if v =? j then Q2R q * x j else 0) + Q2R (lcoef e j) * x j)%R).
    + rewrite sumn_plus. f_equal. rewrite (sumn_single n v); [rewrite Nat.eqb_refl; auto|eapply H; left; eauto|].
      intros i _ Hi. destruct (Nat.eqb_spec v i); congruence.
    + intros j _. rewrite Q2R_plus. destruct (v =? j); [ring|rewrite RMicromega.Q2R_0; ring].
Qed.

Definition ineq_le (e : list (nat * Q)) (r : Q) : ineq := (lcoef e, r).
Definition ineq_ge (e : list (nat * Q)) (r : Q) : ineq := (fun j => (- lcoef e j)%Q, (- r)%Q).
Definition constr_ineqs (c : constr) : list ineq :=
  match c_sense c with
  | SLe => [ineq_le (c_lhs c) (c_rhs c)]
  | SGe => [ineq_ge (c_lhs c) (c_rhs c)]
  | SEq => [ineq_le (c_lhs c) (c_rhs c); ineq_ge (c_lhs c) (c_rhs c)]
  | OtherSense => [(fun _ => 0%Q, (-1)%Q)]
  end.

Definition lp_wf (m : milp) : Prop :=
  (forall k c, In (k, c) (mi_constrs m) -> forall v q, In (v, q) (c_lhs c) -> v < length (mi_vars m)) /\
  (forall e, mi_obj m = Some e -> forall v q, In (v, q) e -> v < length (mi_vars m)) /\
  (forall v, In v (mi_vars m) -> v_int v = false).

Lemma constr_ineqs_sat : forall n c x, (forall v q, In (v, q) (c_lhs c) -> v < n) ->
  ((forall i, In i (constr_ineqs c) -> satR n x i) <-> sat_constr x c).
Proof.
  intros n c x H. unfold sat_constr. rewrite (lin_lcoef n _ _ H).
  assert (L : satR n x (ineq_le (c_lhs c) (c_rhs c)) <-> (sumn n (fun j => Q2R (lcoef (c_lhs c) j) * x j) <= Q2R (c_rhs c))%R) by reflexivity.
  assert (G : satR n x (ineq_ge (c_lhs c) (c_rhs c)) <-> (sumn n (fun j => Q2R (lcoef (c_lhs c) j) * x j) >= Q2R (c_rhs c))%R).
  { unfold satR, ineq_ge; cbn [fst snd]. rewrite (sumn_ext n _ (fun j => - (Q2R (lcoef (c_lhs c) j) * x j))%R) by (intros; rewrite Q2R_opp; ring).
    rewrite sumn_opp, Q2R_opp. split; intros; lra. }
  unfold constr_ineqs. destruct (c_sense c); simpl.
  - split; [intros A; exact (proj1 L (A _ (or_introl eq_refl)))|]. intros A i [<-|[]]. exact (proj2 L A).
  - split.
    + intros A. assert (B := proj1 L (A _ (or_introl eq_refl))). assert (C := proj1 G (A _ (or_intror (or_introl eq_refl)))). lra.
    + intros A i [<-|[<-|[]]]; [apply (proj2 L)|apply (proj2 G)]; lra.
  - split; [intros A; exact (proj1 G (A _ (or_introl eq_refl)))|]. intros A i [<-|[]]. exact (proj2 G A).
  - split; [|contradiction]. intros A. specialize (A _ (or_introl eq_refl)). unfold satR in A; cbn [fst snd] in A.
    rewrite sumn_zero in A by (intros; rewrite RMicromega.Q2R_0; ring). unfold Q2R in A; simpl in A. lra.
Qed.

Definition var_ineqs (j : nat) (v : lpvar) : list ineq :=
  (match v_lb v with Some q => [ineq_ge [(j, 1%Q)] q] | None => [] end) ++
  (match v_ub v with Some q => [ineq_le [(j, 1%Q)] q] | None => [] end).

Lemma satR_var : forall n x j q, j < n ->
  (satR n x (ineq_ge [(j, 1%Q)] q) <-> (Q2R q <= x j)%R) /\ (satR n x (ineq_le [(j, 1%Q)] q) <-> (x j <= Q2R q)%R).
Proof.
  intros n x j q Hj.
  assert (H : forall v r, In (v, r) [(j, 1%Q)] -> v < n) by (intros v r [E|[]]; inversion E; subst; auto).
  pose proof (constr_ineqs_sat n (MkConstr [(j, 1%Q)] SGe q) x H) as G.
  pose proof (constr_ineqs_sat n (MkConstr [(j, 1%Q)] SLe q) x H) as L.
  unfold constr_ineqs, sat_constr in G, L; simpl in G, L. rewrite RMicromega.Q2R_1 in G, L. split.
  - split.
    + intros A. assert (B : (1 * x j + 0 >= Q2R q)%R) by (apply G; intros i [<-|[]]; auto). lra.
    + intros A. assert (B : (1 * x j + 0 >= Q2R q)%R) by lra. apply (proj2 G B); auto.
  - split.
    + intros A. assert (B : (1 * x j + 0 <= Q2R q)%R) by (apply L; intros i [<-|[]]; auto). lra.
    + intros A. assert (B : (1 * x j + 0 <= Q2R q)%R) by lra. apply (proj2 L B); auto.
Qed.

Definition all_ineqs (m : milp) : list ineq :=
  flat_map (fun kc => constr_ineqs (snd kc)) (mi_constrs m) ++
  flat_map (fun j => match nth_error (mi_vars m) j with Some v => var_ineqs j v | None => [] end) (seq 0 (length (mi_vars m))).

Lemma all_ineqs_sat : forall m x, lp_wf m -> ((forall i, In i (all_ineqs m) -> satR (length (mi_vars m)) x i) <-> feasible m x).
Proof.
  intros m x (W1 & _ & W3). unfold all_ineqs, feasible. split.
  - intros H. split.
    + intros j v E. assert (Hj : j < length (mi_vars m)) by (apply nth_error_Some; congruence).
      destruct (satR_var (length (mi_vars m)) x j 0%Q Hj) as [_ _].
      assert (V : forall i, In i (var_ineqs j v) -> satR (length (mi_vars m)) x i).
      { intros i Hi. apply H. apply in_or_app. right. apply in_flat_map. exists j. split; [apply in_seq; lia|]. rewrite E. auto. }
      unfold var_ineqs in V. split; [|split].
      * unfold above. destruct (v_lb v) as [q|]; auto. apply (satR_var _ x j q Hj). apply V. apply in_or_app. left; left; auto.
      * unfold below. destruct (v_ub v) as [q|]; auto. apply (satR_var _ x j q Hj). apply V. apply in_or_app. right; left; auto.
      * rewrite (W3 v); [discriminate|]. eapply nth_error_In; eauto.
    + intros k c Hc. apply (constr_ineqs_sat (length (mi_vars m))); [eapply W1; eauto|].
      intros i Hi. apply H. apply in_or_app. left. apply in_flat_map. exists (k, c). auto.
  - intros [H1 H2] i Hi. apply in_app_or in Hi. destruct Hi as [Hi|Hi]; apply in_flat_map in Hi.
    + destruct Hi as ((k & c) & Hc & Hi). apply (constr_ineqs_sat _ c x (W1 k c Hc)); auto. eapply H2; eauto.
    + destruct Hi as (j & Hj & Hi). apply in_seq in Hj. destruct (nth_error (mi_vars m) j) as [v|] eqn:E; [|destruct Hi].
      destruct (H1 j v E) as (A & B & _). unfold var_ineqs in Hi. apply in_app_or in Hi. destruct Hi as [Hi|Hi].
      * destruct (v_lb v) as [q|]; [|destruct Hi]. destruct Hi as [<-|[]]. apply satR_var; [lia|]. exact A.
      * destruct (v_ub v) as [q|]; [|destruct Hi]. destruct Hi as [<-|[]]. apply satR_var; [lia|]. exact B.
Qed.

Definition obj_coef (m : milp) (j : nat) : Q := match mi_obj m with Some e => lcoef e j | None => 0%Q end.
Lemma objective_coef : forall m x, lp_wf m -> objective m x = sumn (length (mi_vars m)) (fun j => Q2R (obj_coef m j) * x j)%R.
Proof.
  intros m x (_ & W & _). unfold objective, obj_coef. destruct (mi_obj m) as [e|].
  - apply lin_lcoef. apply W; auto.
  - symmetry. apply sumn_zero. intros. rewrite RMicromega.Q2R_0. ring.
Qed.

Definition tab (n : nat) (y : nat -> Q) : list Q := map y (seq 0 n).
Lemma tab_length : forall n y, length (tab n y) = n.
Proof. intros. unfold tab. rewrite map_length, seq_length. auto. Qed.
Lemma vec_tab : forall n y j, j < n -> vec (tab n y) j = Q2R (y j).
Proof. intros. unfold vec, tab. rewrite nth_map_seq; auto. Qed.

Lemma feasible_ext : forall m x y, lp_wf m -> (forall j, j < length (mi_vars m) -> x j = y j) -> feasible m x -> feasible m y.
Proof.
  intros m x y W E H. apply (all_ineqs_sat m y W). intros i Hi. pose proof (proj2 (all_ineqs_sat m x W) H i Hi) as G.
  unfold satR in *. rewrite (sumn_ext _ _ (fun j => Q2R (fst i j) * x j)%R); auto. intros j Hj. rewrite E; auto.
Qed.
Lemma objective_ext : forall m x y, lp_wf m -> (forall j, j < length (mi_vars m) -> x j = y j) -> objective m x = objective m y.
Proof. intros m x y W E. rewrite !objective_coef by auto. apply sumn_ext. intros j Hj. rewrite E; auto. Qed.

(** A feasible program with a bounded objective has a rational optimum. *)
Lemma lp_optimum : forall m, lp_wf m -> (exists x, feasible m x) ->
  (exists B, forall x, feasible m x -> better (mi_dir m) B (objective m x)) ->
  exists v, length v = length (mi_vars m) /\ optimal m (vec v) /\ exists q, Q2R q = objective m (vec v).
Proof.
  intros m W (x0 & F) (B & HB). set (n := length (mi_vars m)).
  set (sg := match mi_dir m with Maximise => 1%Q | _ => (-1)%Q end).
  assert (SG : forall x, (sumn n (fun j => Q2R (sg * obj_coef m j) * x j) = Q2R sg * objective m x)%R).
  { intros x. rewrite (objective_coef m x W). rewrite <- sumn_scal. apply sumn_ext. intros. rewrite Q2R_mult. ring. }
  assert (SB : forall a b, better (mi_dir m) a b <-> (Q2R sg * b <= Q2R sg * a)%R).
  { intros a b. unfold better, sg. destruct (mi_dir m); rewrite ?RMicromega.Q2R_1; try (unfold Q2R; simpl); split; intros; lra. }
  destruct (lp_max_exists n (all_ineqs m) (fun j => sg * obj_coef m j)%Q) as (y & Y1 & Y2).
  - exists x0. apply all_ineqs_sat; auto.
  - exists (Q2R sg * B)%R. intros x Hx. apply all_ineqs_sat in Hx; auto. rewrite SG. apply SB. apply HB; auto.
  - exists (tab n y). split; [apply tab_length|].
    assert (FY : feasible m (fun j => Q2R (y j))). { apply all_ineqs_sat; auto. intros i Hi. apply satQ_satR. auto. }
    assert (EY : forall j, j < n -> Q2R (y j) = vec (tab n y) j) by (intros; rewrite vec_tab; auto).
    split; [split|].
    + apply (feasible_ext m (fun j => Q2R (y j))); auto.
    + intros x Hx. rewrite <- (objective_ext m _ _ W EY). apply SB. rewrite <- !SG.
      eapply Rle_trans; [apply Y2; apply all_ineqs_sat; auto|]. rewrite Q2R_sum_to. right. apply sumn_ext. intros. rewrite Q2R_mult. auto.
    + exists (sum_to n (fun j => obj_coef m j * y j)%Q). rewrite <- (objective_ext m _ _ W EY). rewrite (objective_coef m _ W), Q2R_sum_to.
      apply sumn_ext. intros. apply Q2R_mult.
Qed.

Lemma lp_optimal_answer : forall m, lp_wf m -> (exists x, feasible m x) ->
  (exists B, forall x, feasible m x -> better (mi_dir m) B (objective m x)) ->
  exists r, exact_answer m r /\ sr_status r = Optimal.
Proof.
  intros m W F HB. destruct (lp_optimum m W F HB) as (v & L & O & q & Eq). exists (MkRes Optimal v q). split; auto.
  unfold exact_answer; simpl. auto.
Qed.

(** Every program over real variables has a correct answer, so the hypotheses
    about solvers used below can be met. *)
Lemma lp_answer_exists : forall m, lp_wf m -> exists r, exact_answer m r.
Proof.
  intros m W. destruct (classic (exists x, feasible m x)) as [F|F].
  2:{ exists (MkRes Infeasible [] 0%Q). unfold exact_answer; simpl. intros x Hx. apply F; eauto. }
  destruct (classic (exists B, forall x, feasible m x -> better (mi_dir m) B (objective m x))) as [HB|HB].
  - destruct (lp_optimal_answer m W F HB) as (r & Hr & _). eauto.
  - exists (MkRes Unbounded [] 0%Q). unfold exact_answer; simpl. split; auto. intros B.
    apply NNPP. intros N. apply HB. exists B. intros x Hx. apply NNPP. intros N'. apply N. eauto.
Qed.

(** An exact answer to a feasible bounded program is optimal. *)
Lemma exact_optimal : forall m r, exact_answer m r -> (exists x, feasible m x) ->
  (exists B, forall x, feasible m x -> better (mi_dir m) B (objective m x)) -> sr_status r = Optimal.
Proof.
  intros m r E (x & F) (B & HB). unfold exact_answer in E. destruct (sr_status r); auto; try contradiction.
  - exfalso. apply (E x F).
  - destruct E as (_ & E). destruct (E B) as (y & Fy & N). exfalso. apply N. auto.
Qed.

(** ** Constructed models are well-formed *)
Definition exprs_ok (m : milp) : Prop :=
  (forall k c, In (k, c) (mi_constrs m) -> forall v q, In (v, q) (c_lhs c) -> v < length (mi_vars m)) /\
  (forall e, mi_obj m = Some e -> forall v q, In (v, q) e -> v < length (mi_vars m)).
Definition real_vars (m : milp) : Prop := forall v, In v (mi_vars m) -> v_int v = false.
Lemma lp_wf_iff : forall m, lp_wf m <-> exprs_ok m /\ real_vars m.
Proof. intros. unfold lp_wf, exprs_ok, real_vars. tauto. Qed.

Lemma dset_in : forall (K V : Type) (eqb : K -> K -> bool) (d : dict K V) k v x, In x (dset eqb d k v) -> In x d \/ snd x = v /\ (fst x = k \/ eqb k (fst x) = true).
Proof.
  intros K V eqb d k v x. induction d as [|[k' v'] d IH]; simpl.
  - intros [<-|[]]. right; auto.
  - destruct (eqb k k') eqn:E; simpl.
    + intros [<-|H]; [right; simpl; auto|left; auto].
    + intros [<-|H]; [left; auto|]. destruct (IH H); auto.
Qed.

Lemma fold_dset_keys : forall (e : list (nat * Q)) (d : dict nat Q) n, (forall v q, In (v, q) d -> v < n) -> (forall v q, In (v, q) e -> v < n) ->
  forall v q, In (v, q) (fold_left (fun d p => dset Nat.eqb d (fst p) (snd p)) e d) -> v < n.
Proof.
  induction e as [|[u p] e IH]; simpl; intros d n H1 H2 v q H; [eapply H1; eauto|].
  eapply (IH (dset Nat.eqb d u p)); eauto. intros v' q' H'. apply dset_in in H'. destruct H' as [H'|[_ [H'|H']]]; [eapply H1; eauto| |]; simpl in H'.
  - subst. eapply H2; eauto.
  - apply Nat.eqb_eq in H'. subst. eapply H2; eauto.
Qed.

Lemma assert_expression_ok : forall m e u, assert_expression m e = Ok u -> forall v q, In (v, q) e -> v < length (mi_vars m).
Proof.
  intros m e u H v q Hin. unfold assert_expression, assert_ in H. destruct (forallb _ e) eqn:E; [|discriminate].
  rewrite forallb_forall in E. specialize (E _ Hin). apply Nat.ltb_lt in E. auto.
Qed.

Lemma set_objective_exprs : forall m e m', exprs_ok m -> set_objective m e = Ok m' -> exprs_ok m' /\ mi_vars m' = mi_vars m.
Proof.
  intros m e m' (H1 & H2) H. unfold set_objective in H. apply bind_ok in H. destruct H as (u & E & H). inversion H; subst. split; auto. split; simpl; auto.
  intros e' He v q Hin. pose proof (assert_expression_ok _ _ _ E) as K. inversion He; subst. clear He. destruct (mi_obj m) as [d|] eqn:Eo.
  - eapply fold_dset_keys; [| |exact Hin]; eauto.
  - unfold affine in Hin. eapply fold_dset_keys; [| |exact Hin]; eauto. intros ? ? [].
Qed.

Lemma add_constraint_exprs : forall m l s r m' i, exprs_ok m -> add_constraint m l s r = Ok (m', i) -> exprs_ok m' /\ mi_vars m' = mi_vars m.
Proof.
  intros m l s r m' i (H1 & H2) H. unfold add_constraint in H. apply bind_ok in H. destruct H as (u & _ & H). apply bind_ok in H. destruct H as (u' & E & H).
  inversion H; subst. split; auto. split; simpl; auto. intros k c Hin v q Hv. apply dset_in in Hin. destruct Hin as [Hin|[Hc _]].
  - eapply H1; eauto.
  - simpl in Hc. subst c. simpl in Hv. unfold affine in Hv. eapply fold_dset_keys; [| |exact Hv]; [intros ? ? []|]. eapply assert_expression_ok; eauto.
Qed.

Lemma add_constraints_exprs : forall cs m m', exprs_ok m -> add_constraints m cs = Ok m' -> exprs_ok m' /\ mi_vars m' = mi_vars m.
Proof.
  unfold add_constraints. induction cs as [|[[l s] r] cs IH]; intros m m' H E; simpl in E.
  - inversion E; subst. auto.
  - apply bind_ok in E. destruct E as (m1 & E1 & E). apply bind_ok in E1. destruct E1 as ([m2 i] & E2 & E1). inversion E1; subst.
    destruct (add_constraint_exprs _ _ _ _ _ _ H E2) as (H1 & V1). destruct (IH _ _ H1 E) as (H2 & V2). split; auto. congruence.
Qed.

Lemma add_vars_exprs : forall ds m l m' l', exprs_ok m -> foldM (fun (st : milp * list nat) (d : domain * option Q * option Q) => let '(m, l) := st in
    let '(dom, lb, ub) := d in let* v := mk_var dom lb ub in Ok (push_var m v, l ++ [length (mi_vars m)])) ds (m, l) = Ok (m', l') ->
  exprs_ok m' /\ ((forall d, In d ds -> fst (fst d) = DReal) -> real_vars m -> real_vars m').
Proof.
  induction ds as [|[[d lb] ub] ds IH]; intros m l m' l' H E; simpl in E; [inversion E; subst; auto|].
  apply bind_ok in E. destruct E as ([m1 l1] & E1 & E). apply bind_ok in E1. destruct E1 as (v & Ev & E1). inversion E1; subst.
  destruct (IH (push_var m v) (l ++ [length (mi_vars m)]) m' l') as (A & B); auto.
  - destruct H as (H1 & H2). split; simpl; rewrite app_length; simpl; intros.
    + specialize (H1 _ _ H _ _ H0). lia.
    + specialize (H2 _ H _ _ H0). lia.
  - split; auto. intros HD HR. apply B; [intros; apply HD; right; auto|]. intros w Hw. simpl in Hw. apply in_app_or in Hw. destruct Hw as [Hw|[<-|[]]]; auto.
    specialize (HD (d, lb, ub) (or_introl eq_refl)). simpl in HD. subst d. inversion Ev; subst. auto.
Qed.

Lemma from_coefficients_exprs : forall A n b opt domains s o bounds m, from_coefficients A n b opt domains s o bounds = Ok m ->
  exprs_ok m /\ ((forall j d, nth_error domains j = Some d -> d = DReal) -> real_vars m).
Proof.
  intros A n b opt domains s o bounds m E. unfold from_coefficients in E.
  apply bind_ok in E. destruct E as (m0 & E0 & E). apply bind_ok in E. destruct E as (ds & Ed & E). apply bind_ok in E. destruct E as ([m1 l1] & E1 & E).
  apply bind_ok in E. destruct E as (obj & _ & E). apply bind_ok in E. destruct E as (m2 & E2 & E).
  assert (I0 : exprs_ok m0 /\ real_vars m0).
  { destruct o; inversion E0; subst; (split; [split|]); unfold real_vars; simpl; intros; contradiction || discriminate. }
  destruct (add_vars_exprs _ _ _ _ _ (proj1 I0) E1) as (X1 & R1).
  destruct (set_objective_exprs _ _ _ X1 E2) as (X2 & V2).
  assert (G : exprs_ok m /\ mi_vars m = mi_vars m2).
  { clear -E X2. revert m2 X2 E. generalize (seq 0 (length A)). induction l as [|i l IH]; intros m2 X2 E; simpl in E.
    - inversion E; subst. auto.
    - apply bind_ok in E. destruct E as (m3 & E3 & E). apply bind_ok in E3. destruct E3 as (row & _ & E3). apply bind_ok in E3. destruct E3 as (rhs & _ & E3).
      apply bind_ok in E3. destruct E3 as ([m4 i4] & E4 & E3). inversion E3; subst.
      destruct (add_constraint_exprs _ _ _ _ _ _ X2 E4) as (X3 & V3). destruct (IH _ X3 E) as (X4 & V4). split; auto. congruence. }
  destruct G as (G1 & G2). split; auto. intros HD. unfold real_vars. rewrite G2, V2. apply R1; [|apply I0].
  intros d Hd. clear -Ed Hd HD. revert ds Ed Hd. generalize (seq 0 n). induction l as [|j l IH]; intros ds Ed Hd; simpl in Ed.
  - inversion Ed; subst. destruct Hd.
  - apply bind_ok in Ed. destruct Ed as (y & Ey & Ed). apply bind_ok in Ed. destruct Ed as (ys & Eys & Ed). inversion Ed; subst.
    destruct Hd as [<-|Hd]; [|eapply IH; eauto]. apply bind_ok in Ey. destruct Ey as (d' & Ed' & Ey). destruct (nth_error domains j) as [d0|] eqn:En; inversion Ed'; subst.
    destruct bounds as [bs|].
    + apply bind_ok in Ey. destruct Ey as (lu & _ & Ey). inversion Ey; subst. simpl. eapply HD; eauto.
    + inversion Ey; subst. simpl. eapply HD; eauto.
Qed.

Lemma lp_from_coefficients_wf : forall A n b opt s o m, lp_from_coefficients A n b opt s o = Ok m -> lp_wf m.
Proof.
  intros A n b opt s o m E. unfold lp_from_coefficients in E. destruct (from_coefficients_exprs _ _ _ _ _ _ _ _ _ E) as (X & R). apply lp_wf_iff. split; auto. apply R.
  intros j d Hd. apply nth_error_In in Hd. apply repeat_spec in Hd. auto.
Qed.
Lemma add_constraints_wf : forall cs m m', lp_wf m -> add_constraints m cs = Ok m' -> lp_wf m'.
Proof.
  intros cs m m' W E. apply lp_wf_iff in W. destruct W as (X & R). destruct (add_constraints_exprs _ _ _ X E) as (X' & V). apply lp_wf_iff. split; auto.
  unfold real_vars. rewrite V. auto.
Qed.
