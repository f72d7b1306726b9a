From Coq Require Import String List Arith ZArith QArith Qreals Reals Bool Lia Lra.
From Verif Require Import Base Num SpecMdp Milp SpecLp SolverApi SpecApi MilpProofs.
Import ListNotations.
Local Open Scope nat_scope.

Lemma lp_add_lemma : forall m k, lp_add_variables m k = Err (if k =? 1 then AssertionError else TypeError).
Proof. intros m [|[|k]]; reflexivity. Qed.

Lemma call_many : forall m args, length args <> 1 -> call_add_variables m args = Err TypeError.
Proof. intros m [|a [|b r]] H; try reflexivity. simpl in H. lia. Qed.

Lemma first_column_column : forall v, first_column (column v) = Ok v.
Proof. induction v as [|q v IH]; [reflexivity|]. unfold first_column, column in *. cbn [map mapM]. rewrite IH. reflexivity. Qed.

Lemma cast_matrix : forall o n M, is_matrix o n M -> cast_dok_matrix o = Ok (n, M).
Proof.
  intros o n M (R & H). destruct o; try contradiction; simpl in *.
  - destruct H as (-> & H). destruct M as [|row r]; [congruence|].
    assert (E : forallb (fun row' => length row' =? length row) r = true).
    { apply forallb_forall. intros x Hx. apply Nat.eqb_eq. rewrite (R x), (R row); auto; simpl; auto. }
    rewrite E, (R row); simpl; auto.
  - destruct H as (-> & ->). auto.
  - destruct H as (-> & ->). auto.
Qed.

Lemma first_column_of : forall l v, Forall2 first_of l v -> first_column l = Ok v.
Proof. intros l v H. induction H as [|row q l v E _ IH]; [reflexivity|]. unfold first_column in *. cbn [mapM]. rewrite E. cbn [of_opt bind]. rewrite IH. reflexivity. Qed.

Lemma cast_vector : forall o v, is_vector o v -> exists n M, cast_dok_matrix o = Ok (n, M) /\ first_column M = Ok v.
Proof.
  intros o v H. destruct o; try contradiction; simpl in *.
  - destruct H as (-> & H). destruct v; [congruence|]. do 2 eexists. split; [reflexivity|apply first_column_column].
  - destruct H as ((k & HK) & F & NE). destruct l as [|row r]; [inversion F; congruence|].
    assert (E : forallb (fun row' => length row' =? length row) r = true).
    { apply forallb_forall. intros x Hx. apply Nat.eqb_eq. rewrite (HK x) by (right; auto). rewrite (HK row) by (left; auto). reflexivity. }
    rewrite E. do 2 eexists. split; [reflexivity|apply first_column_of; exact F].
  - destruct H as (-> & H). destruct v; [congruence|]. do 2 eexists. split; [reflexivity|apply first_column_column].
  - destruct H as (_ & F). do 2 eexists. split; [reflexivity|apply first_column_of; exact F].
  - destruct H as (_ & F). do 2 eexists. split; [reflexivity|apply first_column_of; exact F].
Qed.

Lemma objects_same : forall A b opt n M bv ov ds s o bounds, is_matrix A n M -> is_vector b bv -> is_vector opt ov ->
  milp_from_objects A b opt ds s o bounds = from_coefficients M n bv ov (map dom_of ds) s o bounds.
Proof.
  intros A b opt n M bv ov ds s o bounds HA Hb Ho. unfold milp_from_objects.
  rewrite (cast_matrix _ _ _ HA). cbn [bind]. destruct (cast_vector _ _ Hb) as (n1 & M1 & -> & E1). destruct (cast_vector _ _ Ho) as (n2 & M2 & -> & E2).
  cbn [bind]. rewrite E1. cbn [bind]. rewrite E2. reflexivity.
Qed.

Lemma dom_of_ok : forall s, dom_of s <> OtherDomain <-> s = "real"%string \/ s = "integer"%string \/ s = "binary"%string.
Proof.
  intros s. unfold dom_of. destruct (String.eqb_spec s "real"); [split; [auto|discriminate]|]. destruct (String.eqb_spec s "integer"); [split; [auto|discriminate]|].
  destruct (String.eqb_spec s "binary"); [split; [auto|discriminate]|]. split; [congruence|]. intros [H|[H|H]]; congruence.
Qed.

Lemma dom_of_names : forall s, (dom_of s = DReal <-> s = "real"%string) /\ (dom_of s = DInteger <-> s = "integer"%string) /\ (dom_of s = DBinary <-> s = "binary"%string) /\
  (dom_of s = OtherDomain <-> s <> "real"%string /\ s <> "integer"%string /\ s <> "binary"%string).
Proof.
  intros s. unfold dom_of. destruct (String.eqb_spec s "real"); [subst; repeat split; try congruence; try discriminate; intros (A & _); congruence|].
  destruct (String.eqb_spec s "integer"); [subst; repeat split; try congruence; try discriminate; intros (_ & A & _); congruence|].
  destruct (String.eqb_spec s "binary"); [subst; repeat split; try congruence; try discriminate; intros (_ & _ & A); congruence|].
  repeat split; try congruence; try discriminate.
Qed.

Lemma C105_forms_lemma : forall A b opt n M bv ov ds s o bounds, s <> OtherSense -> is_matrix A n M -> is_vector b bv -> is_vector opt ov ->
  ((exists m, milp_from_objects A b opt ds s o bounds = Ok m) <->
   o <> OtherObjective /\ length M <= length bv /\ n <= length ov /\ n <= length ds /\ (forall bs, bounds = Some bs -> n <= length bs) /\
   (forall j, j < n -> dom_of (nth j ds ""%string) <> OtherDomain)) /\
  forall m, milp_from_objects A b opt ds s o bounds = Ok m ->
  length (mi_vars m) = n /\ mi_dir m = o /\
  (forall x, objective m x = sumn n (fun j => Q2R (nth j ov 0%Q) * x j)%R) /\
  forall x, feasible m x <->
      (forall i, i < length M -> rel s (sumn n (fun j => Q2R (nth j (nth i M []) 0%Q) * x j)%R) (Q2R (nth i bv 0%Q))) /\
      (forall j, j < n -> sat_dom (dom_of (nth j ds ""%string)) (fst (bound_at bounds j)) (snd (bound_at bounds j)) (x j)).
Proof.
  intros A b opt n M bv ov ds s o bounds Hs HA Hb Ho. rewrite (objects_same A b opt n M bv ov ds s o bounds HA Hb Ho). pose proof (proj1 HA) as R.
  assert (E : forall j, nth j (map dom_of ds) OtherDomain = dom_of (nth j ds ""%string)) by (intros j; change OtherDomain with (dom_of ""%string); apply map_nth).
  split.
  - rewrite C35_built_lemma by auto. rewrite map_length. split; intros (H1 & H2 & H3 & H4 & H5 & H6); repeat (split; auto).
    + intros j Hj. rewrite <- E. auto.
    + intros j Hj. rewrite E. auto.
  - intros m Hm. destruct (C35_lemma _ _ _ _ _ _ _ _ _ Hs R Hm) as (H1 & H2 & H3 & H4). split; auto. split; auto. split; auto.
    intros x. rewrite H4. split; intros (K1 & K2); (split; [exact K1|]); intros j Hj; specialize (K2 j Hj); rewrite E in *; auto.
Qed.

Lemma lp_same : forall A b opt n M bv ov s o, (forall l, A <> ORows l) -> is_matrix A n M -> is_vector b bv -> is_vector opt ov ->
  lp_from_objects A b opt s o = milp_from_objects A b opt (repeat "real"%string n) s o None.
Proof.
  intros A b opt n M bv ov s o HR (R & H) _ _. unfold lp_from_objects. destruct A; try contradiction.
  - exfalso. eapply HR; reflexivity.
  - destruct H as (-> & _). reflexivity.
  - destruct H as (-> & _). reflexivity.
Qed.

Lemma set_obj_feasible : forall m e m', set_objective m e = Ok m' -> mi_obj m = None -> NoDup (map fst e) ->
  mi_vars m' = mi_vars m /\ mi_dir m' = mi_dir m /\ mi_constrs m' = mi_constrs m /\ forall x, objective m' x = lin e x.
Proof.
  intros m e m' H HO ND. unfold set_objective in H. destruct (assert_expression m e); [|discriminate]. cbn [bind] in H. injection H as <-.
  rewrite HO. simpl. do 3 (split; [reflexivity|]). intros x. unfold objective. simpl. rewrite affine_id; auto.
Qed.

Lemma by_hand_lemma : forall o ds cs obj, o <> OtherObjective -> (forall d, In d ds -> dom_of d <> OtherDomain) ->
  (forall l s r, In (l, s, r) cs -> s <> OtherSense /\ (forall v q, In (v, q) l -> v < length ds) /\ NoDup (map fst l)) ->
  (forall v q, In (v, q) obj -> v < length ds) -> NoDup (map fst obj) ->
  exists m, by_hand o [VStrs ds] cs obj = Ok (m, returned (seq 0 (length ds))) /\ length (mi_vars m) = length ds /\ mi_dir m = o /\
    (forall x, objective m x = lin obj x) /\
    forall x, feasible m x <-> (forall l s r, In (l, s, r) cs -> rel s (lin l x) (Q2R r)) /\ forall j, j < length ds -> sat_dom (dom_of (nth j ds ""%string)) None None (x j).
Proof.
  intros o ds cs obj Ho Hd Hc Hv ND. unfold by_hand.
  assert (E0 : milp_new o = Ok (MkMilp o [] [] 0 None)) by (destruct o; auto; congruence). rewrite E0. cbn [bind].
  set (m0 := MkMilp o [] [] 0 None) in *.
  assert (OK0 : mi_ok m0) by (split; simpl; [constructor|intros ? ? []]).
  unfold call_add_variables, add_variables, add_variables_w_bounds. rewrite map_map.
  destruct (add_vars_spec (map (fun x => (dom_of x, @None Q, @None Q)) ds) m0 [] OK0) as (m1 & l1 & E1 & OK1 & C1 & O1 & D1 & K1 & vs & V1 & V2 & V3 & V4).
  { intros d Hi. apply in_map_iff in Hi. destruct Hi as (x & <- & Hx). simpl. auto. }
  rewrite E1. cbn [bind]. rewrite map_length in *. simpl in V1, V3. subst l1 vs.
  destruct (add_constraints_spec cs m1 OK1) as (m2 & E2 & OK2 & W2 & O2 & D2 & F2).
  { intros [[l s] r] Hi. unfold good_con. rewrite V2. exact (Hc l s r Hi). }
  rewrite E2. cbn [bind].
  assert (EX : exists m3, set_objective m2 obj = Ok m3).
  { unfold set_objective, assert_expression. rewrite W2.
    assert (E : forallb (fun p : nat * Q => fst p <? length (mi_vars m1)) obj = true).
    { apply forallb_forall. intros [v q] Hi. apply Nat.ltb_lt. rewrite V2. simpl. eapply Hv; eauto. }
    rewrite E. cbn [assert_ bind]. eauto. }
  destruct EX as (m3 & E3). rewrite E3. cbn [bind].
  destruct (set_obj_feasible _ _ _ E3) as (W3 & D3 & C3 & F3); auto. { rewrite O2, O1. reflexivity. }
  exists m3. split; [reflexivity|]. split; [rewrite W3, W2; auto|]. split; [rewrite D3, D2, D1; auto|]. split; [exact F3|].
  intros x. assert (S : feasible m3 x <-> feasible m2 x) by (unfold feasible; rewrite W3, C3; tauto). rewrite S, F2.
  assert (S1 : feasible m1 x <-> forall j, j < length ds -> sat_dom (dom_of (nth j ds ""%string)) None None (x j)).
  { unfold feasible. rewrite C1. simpl. split.
    - intros (H & _) j Hj. destruct (V4 j (dom_of (nth j ds ""%string)) None None) as (v & Nv & Mv).
      { rewrite (map_nth_error _ _ _ (nth_error_nth' ds ""%string Hj)). reflexivity. }
      apply (mk_var_sat _ _ _ _ (x j) Mv). apply H. auto.
    - intros H. split; [|intros ? ? []]. intros j v Nv.
      assert (Hj : j < length ds). { rewrite <- V2. apply nth_error_Some. congruence. }
      destruct (V4 j (dom_of (nth j ds ""%string)) None None) as (v' & Nv' & Mv).
      { rewrite (map_nth_error _ _ _ (nth_error_nth' ds ""%string Hj)). reflexivity. }
      assert (v' = v) by congruence. subst. apply (mk_var_sat _ _ _ _ (x j) Mv). auto. }
  rewrite S1. tauto.
Qed.
