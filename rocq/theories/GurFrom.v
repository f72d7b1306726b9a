(** GurobiMILP.from_coefficients: when it succeeds and what it allows. *)
From Coq Require Import String List Arith ZArith QArith Qreals Reals Bool Lia Lra.
From Coq Require Lqa.
From Verif Require Import Base BaseFacts Num Matrix InvDict SpecMdp SpecLp SpecGurobi SumFacts RfFacts Milp MilpProofs Problems Gurobi GurProofs.
Import ListNotations.
Local Open Scope nat_scope.

Lemma g_vars_spec : forall ds m l, mi_ok m -> (forall d, In d ds -> fst (fst d) <> OtherDomain) ->
  exists m' l', foldM (fun st d => let '(m, l) := st in
           let '(dom, lb, ub) := d in
           let* v := g_mk_var dom lb ub in
           Ok (push_var m v, l ++ [length (mi_vars m)])) ds (m, l) = Ok (m', l') /\
    mi_ok m' /\ mi_constrs m' = mi_constrs m /\ mi_obj m' = mi_obj m /\ mi_dir m' = mi_dir m /\ mi_count m' = mi_count m /\
    exists vs, mi_vars m' = mi_vars m ++ vs /\ length vs = length ds /\ l' = l ++ seq (length (mi_vars m)) (length ds) /\
      forall j d lb ub, nth_error ds j = Some (d, lb, ub) -> exists v, nth_error vs j = Some v /\ g_mk_var d lb ub = Ok v.
Proof.
  induction ds as [|[[d lb] ub] ds IH]; intros m l OK G.
  - exists m, l. split; [reflexivity|]. split; [exact OK|]. do 4 (split; [reflexivity|]). exists []. simpl. rewrite !app_nil_r. do 3 (split; [reflexivity|]). intros j; destruct j; discriminate.
  - assert (Hd : d <> OtherDomain) by (apply (G (d, lb, ub)); left; auto).
    assert (exists v, g_mk_var d lb ub = Ok v) as (v & Ev) by (destruct d; cbn [g_mk_var]; eauto; congruence).
    cbn [foldM]. rewrite Ev. cbn [bind].
    destruct (IH (push_var m v) (l ++ [length (mi_vars m)])) as (m' & l' & E & OK' & A & B & C & D & vs & V1 & V2 & V3 & V4).
    + exact OK.
    + intros; apply G; right; auto.
    + exists m', l'. split; auto. split; auto. split; auto. split; auto. split; auto. split; auto.
      exists (v :: vs). simpl in V1. rewrite V1, <- app_assoc. split; auto. split; [simpl; auto|]. split.
      * rewrite V3. simpl. rewrite app_length, Nat.add_1_r, <- app_assoc. auto.
      * intros [|j] d' lb' ub' Hj; simpl in *; [inversion Hj; subst; eauto|eauto].
Qed.

Definition g_dom (d : domain) (lb ub : option Q) (r : R) : Prop := sat_dom d lb ub r /\ (lb = None -> (0 <= r)%R) /\ (d = DBinary -> above lb r /\ below ub r).

Lemma q_max0 : forall q r, (Q2R (qmax 0 q) <= r)%R <-> (0 <= r)%R /\ (Q2R q <= r)%R.
Proof.
  intros q r. unfold qmax. destruct (Qle_bool 0 q) eqn:E; [apply Qle_bool_iff, Qle_Rle in E; rewrite RMicromega.Q2R_0 in E; lra|].
  assert (L : (q <= 0)%Q) by (destruct (Qlt_le_dec 0 q) as [L|L]; [apply Qlt_le_weak, Qle_bool_iff in L; congruence|exact L]). apply Qle_Rle in L. rewrite RMicromega.Q2R_0 in *. lra.
Qed.
Lemma q_min1 : forall q r, (r <= Q2R (qmin 1 q))%R <-> (r <= 1)%R /\ (r <= Q2R q)%R.
Proof.
  intros q r. unfold qmin. destruct (Qle_bool 1 q) eqn:E; [apply Qle_bool_iff, Qle_Rle in E; rewrite RMicromega.Q2R_1 in *; lra|].
  assert (L : (q <= 1)%Q) by (destruct (Qlt_le_dec 1 q) as [L|L]; [apply Qlt_le_weak, Qle_bool_iff in L; congruence|exact L]). apply Qle_Rle in L. rewrite RMicromega.Q2R_1 in *. lra.
Qed.

Lemma g_mk_var_sat : forall d lb ub v r, g_mk_var d lb ub = Ok v -> (sat_var v r <-> g_dom d lb ub r).
Proof.
  intros d lb ub v r H. unfold g_dom. destruct d; cbn [g_mk_var] in H; inversion H; subst; unfold sat_var; cbn [v_lb v_ub v_int sat_dom].
  - destruct lb; cbn [above]; rewrite ?RMicromega.Q2R_0; split; intuition (try discriminate).
  - destruct lb; cbn [above]; rewrite ?RMicromega.Q2R_0; split; intuition (try discriminate).
  - assert (E1 : above (Some (qmax 0 (match lb with Some q => q | None => 0%Q end))) r <-> (0 <= r)%R /\ above lb r).
    { cbn [above]. rewrite q_max0. destruct lb; cbn [above]; rewrite ?RMicromega.Q2R_0; tauto. }
    assert (E2 : below (Some (match ub with Some q => qmin 1 q | None => 1%Q end)) r <-> (r <= 1)%R /\ below ub r).
    { destruct ub; cbn [below]; [apply q_min1|]. rewrite RMicromega.Q2R_1. tauto. }
    rewrite E1, E2. split.
    + intros ((A & A') & (B & B') & C). split; [apply is_int_01; auto|]. auto.
    + intros (A & B & C). destruct (C eq_refl) as (C1 & C2). destruct A as [-> | ->]; (split; [split; [lra|exact C1]|split; [split; [lra|exact C2]|]]); intros _; [exists 0%Z|exists 1%Z]; reflexivity.
Qed.

Lemma g_rows : forall A b s, (forall row, In row A -> row_items row <> []) -> forall m, foldM (fun m i =>
      let* row := of_opt IndexError (nth_error A i) in
      let* rhs := of_opt IndexError (nth_error b i) in
      let* (m, _) := g_add_constraint m (row_items row) s rhs in
      Ok m) (seq 0 (length A)) m = foldM (fun m i =>
      let* row := of_opt IndexError (nth_error A i) in
      let* rhs := of_opt IndexError (nth_error b i) in
      let* (m, _) := add_constraint m (row_items row) s rhs in
      Ok m) (seq 0 (length A)) m.
Proof.
  intros A b s H m. generalize (seq 0 (length A)). intros l. revert m. induction l as [|i l IH]; intros m; [reflexivity|]. cbn [foldM].
  destruct (nth_error A i) as [row|] eqn:E; cbn [of_opt bind]; [|reflexivity]. destruct (nth_error b i) as [rhs|]; cbn [of_opt bind]; [|reflexivity].
  rewrite g_add_same; [|apply H; apply (nth_error_In _ _ E)|apply row_items_nodup]. destruct (add_constraint m (row_items row) s rhs) as [[m' k]|e]; cbn [bind]; [apply IH|reflexivity].
Qed.

Lemma g_from_coefficients_spec : forall A n b opt domains s o bounds,
  o <> OtherObjective -> s <> OtherSense -> (forall row, In row A -> length row <= n) -> length A <= length b ->
  n <= length opt -> n <= length domains -> (forall bs, bounds = Some bs -> n <= length bs) ->
  (forall j, j < n -> nth j domains OtherDomain <> OtherDomain) ->
  (forall row, In row A -> row_items row <> []) ->
  exists m, g_from_coefficients A n b opt domains s o bounds = Ok m /\ mi_ok m /\ length (mi_vars m) = n /\ mi_dir m = o /\
    mi_obj m = Some (map (fun j => (j, nth j opt 0%Q)) (seq 0 n)) /\
    forall x, feasible m x <->
      (forall i, i < length A -> rel s (sumn n (fun j => Q2R (nth j (nth i A []) 0%Q) * x j)%R) (Q2R (nth i b 0%Q))) /\
      (forall j, j < n -> g_dom (nth j domains OtherDomain) (fst (bound_at bounds j)) (snd (bound_at bounds j)) (x j)).
Proof.
  intros A n b opt domains s o bounds Ho Hs HA Hb Hopt Hdom Hbs Hd HNE. unfold g_from_coefficients.
  assert (E0 : milp_new o = Ok (MkMilp o [] [] 0 None)) by (destruct o; auto; congruence). rewrite E0. cbn [bind].
  assert (E1 : mapM (fun j =>
      let* d := of_opt IndexError (nth_error domains j) in
      match bounds with
      | None => Ok (d, None, None)
      | Some bs => let* lu := of_opt IndexError (nth_error bs j) in Ok (d, fst lu, snd lu)
      end) (seq 0 n) = Ok (map (fun j => (nth j domains OtherDomain, fst (bound_at bounds j), snd (bound_at bounds j))) (seq 0 n))).
  { assert (forall l, (forall j, In j l -> j < n) -> mapM (fun j =>
      let* d := of_opt IndexError (nth_error domains j) in
      match bounds with
      | None => Ok (d, None, None)
      | Some bs => let* lu := of_opt IndexError (nth_error bs j) in Ok (d, fst lu, snd lu)
      end) l = Ok (map (fun j => (nth j domains OtherDomain, fst (bound_at bounds j), snd (bound_at bounds j))) l)) as G.
    { induction l as [|j l IH]; intros Hl; auto. cbn [mapM map]. rewrite IH by (intros; apply Hl; right; auto).
      assert (j < n) by (apply Hl; left; auto). rewrite (nth_error_nth' domains OtherDomain) by lia. cbn [of_opt bind].
      destruct bounds as [bs|]; simpl; auto. rewrite (nth_error_nth' bs (None, None)) by (specialize (Hbs bs eq_refl); lia). auto. }
    apply G. intros j Hj. apply in_seq in Hj. lia. }
  rewrite E1. cbn [bind].
  set (ds := map (fun j => (nth j domains OtherDomain, fst (bound_at bounds j), snd (bound_at bounds j))) (seq 0 n)).
  destruct (g_vars_spec ds (MkMilp o [] [] 0 None) []) as (m1 & l1 & E2 & OK1 & C1 & O1 & D1 & K1 & vs & V1 & V2 & V3 & V4).
  { split; simpl; [constructor|intros; contradiction]. }
  { intros d H. apply in_map_iff in H. destruct H as (j & <- & Hj). simpl. apply Hd. apply in_seq in Hj. lia. }
  unfold g_add_variables_w_bounds. rewrite E2. cbn [bind].
  simpl in C1, O1, D1, K1, V1, V3.
  assert (Ln : length vs = n) by (rewrite V2; unfold ds; rewrite map_length, seq_length; auto).
  assert (E3 : mapM (fun j => let* q := of_opt IndexError (nth_error opt j) in Ok (j, q)) (seq 0 n) = Ok (map (fun j => (j, nth j opt 0%Q)) (seq 0 n))).
  { assert (forall l, (forall j, In j l -> j < n) -> mapM (fun j => let* q := of_opt IndexError (nth_error opt j) in Ok (j, q)) l = Ok (map (fun j => (j, nth j opt 0%Q)) l)) as G.
    { induction l as [|j l IH]; intros Hl; auto. cbn [mapM map]. rewrite IH by (intros; apply Hl; right; auto).
      assert (j < n) by (apply Hl; left; auto). rewrite (nth_error_nth' opt 0%Q) by lia. auto. }
    apply G. intros j Hj. apply in_seq in Hj. lia. }
  rewrite E3. cbn [bind]. unfold g_set_objective, assert_expression.
  assert (E4 : forallb (fun p : nat * Q => fst p <? length (mi_vars m1)) (map (fun j => (j, nth j opt 0%Q)) (seq 0 n)) = true).
  { apply forallb_forall. intros p Hp. apply in_map_iff in Hp. destruct Hp as (j & <- & Hj). apply Nat.ltb_lt. simpl. rewrite V1, Ln. apply in_seq in Hj. lia. }
  rewrite E4. cbn [assert_ bind].
  rewrite g_affine_id by (rewrite map_map; simpl; rewrite map_id; apply seq_NoDup).
  rewrite (g_rows A b s HNE).
  match goal with |- context [foldM _ _ ?mm] => set (m2 := mm) end.
  destruct (rows_spec A b s n m2) as (m3 & E5 & OK3 & V5 & O5 & D5 & F5); auto.
  { simpl. rewrite V1. auto. }
  exists m3. split; [exact E5|]. split; auto. split; [rewrite V5; simpl; rewrite V1; auto|]. split; [rewrite D5; simpl; auto|]. split; [rewrite O5; auto|].
  intros x. rewrite F5. unfold feasible at 1. simpl. rewrite C1, V1. split.
  - intros ((P1 & _) & P2). split; auto. intros j Hj.
    destruct (V4 j (nth j domains OtherDomain) (fst (bound_at bounds j)) (snd (bound_at bounds j))) as (v & Hv & Mv).
    { unfold ds. rewrite nth_error_map, nth_error_seq0; auto. }
    apply (g_mk_var_sat _ _ _ _ _ Mv). eapply P1; eauto.
  - intros (P1 & P2). split; auto. split; [|intros; contradiction].
    intros j v Hv. assert (Hj : j < n) by (rewrite <- Ln; apply nth_error_Some; congruence).
    destruct (V4 j (nth j domains OtherDomain) (fst (bound_at bounds j)) (snd (bound_at bounds j))) as (v' & Hv' & Mv).
    { unfold ds. rewrite nth_error_map, nth_error_seq0; auto. }
    assert (v = v') by congruence. subst. apply (g_mk_var_sat _ _ _ _ _ Mv). auto.
Qed.

Lemma g_from_coefficients_inv : forall A n b opt domains s o bounds m, s <> OtherSense ->
  g_from_coefficients A n b opt domains s o bounds = Ok m ->
  o <> OtherObjective /\ length A <= length b /\ n <= length opt /\ n <= length domains /\ (forall bs, bounds = Some bs -> n <= length bs) /\
  (forall j, j < n -> nth j domains OtherDomain <> OtherDomain) /\ (forall row, In row A -> row_items row <> []).
Proof.
  intros A n b opt domains s o bounds m Hs H. unfold g_from_coefficients in H.
  apply bind_ok in H. destruct H as (m0 & E0 & H). apply bind_ok in H. destruct H as (ds & E1 & H).
  apply bind_ok in H. destruct H as ((m1 & l1) & E2 & H). apply bind_ok in H. destruct H as (ob & E3 & H).
  apply bind_ok in H. destruct H as (m2 & E4 & H).
  assert (L : forall X (l : list X), (forall j, j < n -> nth_error l j <> None) -> n <= length l).
  { intros X l Hl. destruct (le_lt_dec n (length l)); auto. exfalso. apply (Hl (length l)); auto. apply nth_error_None. auto. }
  assert (MS : forall B (f : nat -> res B) l, mapM f (seq 0 n) = Ok l -> forall j, j < n -> exists y, f j = Ok y /\ nth_error l j = Some y).
  { intros B f l Hl j Hj. destruct (mapM_seq _ _ _ _ _ Hl) as (HL & HN).
    destruct (nth_error l j) as [y|] eqn:E; [|apply nth_error_None in E; lia].
    exists y. split; auto. specialize (HN j y Hj). simpl in HN. rewrite HN. f_equal. apply nth_error_nth. auto. }
  split. { intros ->. discriminate. }
  split.
  { assert (FI : forall i, In i (seq 0 (length A)) -> i < length b).
    { refine (foldM_inv _ _ _ (fun pre _ => forall i, In i pre -> i < length b) _ _ _ _ _ H); [intros ? []|].
      intros pre x s1 s2 IH E _ i Hi. apply in_app_or in Hi. destruct Hi as [Hi|[<-|[]]]; auto.
      apply bind_ok in E. destruct E as (row & _ & E). apply bind_ok in E. destruct E as (rhs & E & _).
      unfold of_opt in E. destruct (nth_error b x) eqn:Eb; [|discriminate]. apply nth_error_Some. congruence. }
    destruct (length A) as [|k] eqn:EL; [lia|]. specialize (FI k). rewrite in_seq in FI. lia. }
  split. { apply L. intros j Hj. destruct (MS _ _ _ E3 j Hj) as (y & Hy & _). apply bind_ok in Hy. destruct Hy as (q & Hq & _).
    unfold of_opt in Hq. destruct (nth_error opt j); [discriminate|]. discriminate. }
  split. { apply L. intros j Hj. destruct (MS _ _ _ E1 j Hj) as (y & Hy & _). apply bind_ok in Hy. destruct Hy as (q & Hq & _).
    unfold of_opt in Hq. destruct (nth_error domains j); discriminate. }
  split. { intros bs ->. apply L. intros j Hj. destruct (MS _ _ _ E1 j Hj) as (y & Hy & _). apply bind_ok in Hy. destruct Hy as (q & _ & Hq).
    apply bind_ok in Hq. destruct Hq as (lu & Hq & _). unfold of_opt in Hq. destruct (nth_error bs j); discriminate. }
  split.
  2:{ intros row0 Hrow0 Enil. assert (FI : forall i row, In i (seq 0 (length A)) -> nth_error A i = Some row -> row_items row <> []).
    { refine (foldM_inv _ _ _ (fun pre _ => forall i row, In i pre -> nth_error A i = Some row -> row_items row <> []) _ _ _ _ _ H); [intros ? ? []|].
      intros pre x s1 s2 IH E _ i row Hi. apply in_app_or in Hi. destruct Hi as [Hi|[<-|[]]]; [apply IH; exact Hi|].
      apply bind_ok in E. destruct E as (row' & E' & E). intros Er. rewrite Er in E'. injection E' as <-. apply bind_ok in E. destruct E as (rhs & _ & E). apply bind_ok in E. destruct E as ((m3 & i3) & E & _).
      intros EN. rewrite EN in E. unfold g_add_constraint in E. apply bind_ok in E. destruct E as (? & _ & E). apply bind_ok in E. destruct E as (? & _ & E). discriminate. }
    apply In_nth_error in Hrow0. destruct Hrow0 as (i & Hi). apply (FI i row0); [apply in_seq; split; [lia|]; apply nth_error_Some; congruence|exact Hi|exact Enil]. }
  intros j Hj Ed. destruct (MS _ _ _ E1 j Hj) as (y & Hy & Hn). apply bind_ok in Hy. destruct Hy as (q & Hq & Hy).
  unfold of_opt in Hq. destruct (nth_error domains j) as [d|] eqn:End; [|discriminate]. inversion Hq; subst q.
  apply nth_error_nth with (d := OtherDomain) in End. rewrite Ed in End. subst d.
  assert (fst (fst y) = OtherDomain). { destruct bounds as [bs|]; [apply bind_ok in Hy; destruct Hy as (lu & _ & Hy)|]; inversion Hy; subst; auto. }
  assert (FD : forall d, In d ds -> fst (fst d) <> OtherDomain).
  { unfold g_add_variables_w_bounds in E2.
    refine (foldM_inv _ _ _ (fun pre _ => forall d, In d pre -> fst (fst d) <> OtherDomain) _ _ _ _ _ E2); [intros ? []|].
    intros pre x s1 s2 IH E _ d Hd. apply in_app_or in Hd. destruct Hd as [Hd|[<-|[]]]; auto.
    destruct s1 as [mm ll], x as [[dd lb] ub]. simpl. intros ->. discriminate. }
  apply (FD y); auto. eapply nth_error_In; eauto.
Qed.

Lemma nonzero_row : forall row, row_items row <> [] <-> exists q, In q row /\ ~ (q == 0)%Q.
Proof.
  intros row. split.
  - intros H. destruct (row_items row) as [|[j q] l] eqn:E; [congruence|]. assert (HI : In (j, q) (row_items row)) by (rewrite E; left; reflexivity). unfold row_items in HI. apply filter_In in HI. destruct HI as (HI & HQ).
    exists q. split; [apply (in_combine_r _ _ _ _ HI)|]. cbn [snd] in HQ. intros Z. rewrite (proj2 (Qeq_bool_iff q 0) Z) in HQ. discriminate.
  - intros (q & HI & HZ) E. apply (In_nth _ _ 0%Q) in HI. destruct HI as (j & Hj & <-). assert (HI : In (j, nth j row 0%Q) (row_items row)).
    { unfold row_items. apply filter_In. split.
      - assert (EN : nth j (combine (seq 0 (length row)) row) (0, 0%Q) = (j, nth j row 0%Q)) by (rewrite combine_nth by apply seq_length; rewrite seq_nth by exact Hj; reflexivity). rewrite <- EN. apply nth_In. rewrite combine_length, seq_length, Nat.min_id. exact Hj.
      - cbn [snd]. destruct (Qeq_bool (nth j row 0%Q) 0) eqn:EQ; [|reflexivity]. apply Qeq_bool_iff in EQ. contradiction. }
    rewrite E in HI. destruct HI.
Qed.

Lemma C75_lemma : forall A n b opt domains s o bounds m, s <> OtherSense -> (forall row, In row A -> length row = n) ->
  g_from_coefficients A n b opt domains s o bounds = Ok m ->
  length (mi_vars m) = n /\ mi_dir m = o /\
  (forall x, objective m x = sumn n (fun j => Q2R (nth j opt 0%Q) * x j)%R) /\
  forall x, feasible m x <->
      (forall i, i < length A -> rel s (sumn n (fun j => Q2R (nth j (nth i A []) 0%Q) * x j)%R) (Q2R (nth i b 0%Q))) /\
      (forall j, j < n -> sat_dom (nth j domains OtherDomain) (fst (bound_at bounds j)) (snd (bound_at bounds j)) (x j) /\
         (fst (bound_at bounds j) = None -> (0 <= x j)%R) /\
         (nth j domains OtherDomain = DBinary -> above (fst (bound_at bounds j)) (x j) /\ below (snd (bound_at bounds j)) (x j))).
Proof.
  intros A n b opt domains s o bounds m Hs HA E. destruct (g_from_coefficients_inv _ _ _ _ _ _ _ _ _ Hs E) as (H1 & H2 & H3 & H4 & H5 & H6 & H7).
  destruct (g_from_coefficients_spec A n b opt domains s o bounds) as (m' & E' & OK & L & D & O & F); auto; [intros row Hr; rewrite (HA row Hr); auto|].
  rewrite E in E'. injection E' as <-. split; [exact L|]. split; [exact D|]. split; [intros x; apply (objective_spec _ (fun j => nth j opt 0%Q)); exact O|exact F].
Qed.

Lemma C75_built_lemma : forall A n b opt domains s o bounds, s <> OtherSense -> (forall row, In row A -> length row = n) ->
  ((exists m, g_from_coefficients A n b opt domains s o bounds = Ok m) <->
   (exists m, from_coefficients A n b opt domains s o bounds = Ok m) /\ forall row, In row A -> exists q, In q row /\ ~ (q == 0)%Q).
Proof.
  intros A n b opt domains s o bounds Hs HA. rewrite (C35_built_lemma A n b opt domains s o bounds Hs HA). split.
  - intros (m & E). destruct (g_from_coefficients_inv _ _ _ _ _ _ _ _ _ Hs E) as (H1 & H2 & H3 & H4 & H5 & H6 & H7). split; [repeat (split; [assumption|]); assumption|]. intros row Hr. apply nonzero_row. apply H7. exact Hr.
  - intros ((H1 & H2 & H3 & H4 & H5 & H6) & H7). destruct (g_from_coefficients_spec A n b opt domains s o bounds) as (m' & E' & _); eauto; [intros row Hr; rewrite (HA row Hr); auto|intros row Hr; apply nonzero_row; apply H7; exact Hr].
Qed.

(** Models made by any sequence of operations. *)
Lemma g_reach_ok : forall m, g_made m -> mi_ok m.
Proof.
  intros m H. induction H as [o m E|m d lb ub v H IH E|m e m' H IH E|m l s r m' i H IH E].
  - destruct (new_ok _ _ E) as ((_ & _ & OK & _) & _). exact OK.
  - exact IH.
  - unfold g_set_objective in E. apply bind_ok in E. destruct E as (? & _ & E). injection E as <-. exact IH.
  - destruct (g_add_inv _ _ _ _ _ _ IH E) as (OK & _). exact OK.
Qed.

Lemma C75_constraint_lemma : forall m l s r m' i, g_made m -> g_add_constraint m l s r = Ok (m', i) ->
  mi_vars m' = mi_vars m /\ (forall x, objective m' x = objective m x) /\ forall x, feasible m' x <-> feasible m x /\ rel s (lin l x) (Q2R r).
Proof.
  intros m l s r m' i H E. destruct (g_add_inv _ _ _ _ _ _ (g_reach_ok m H) E) as (_ & V & O & _ & F). split; [exact V|]. split; [intros x; unfold objective; rewrite O; reflexivity|].
  intros x. rewrite F. unfold sat_constr. cbn [c_sense c_lhs c_rhs]. rewrite lin_g_affine. reflexivity.
Qed.

Lemma C75_objective_lemma : forall m e m', g_set_objective m e = Ok m' -> mi_dir m' = mi_dir m /\ (forall x, feasible m' x <-> feasible m x) /\ forall x, objective m' x = lin e x.
Proof.
  intros m e m' E. split; [|split; [|apply (g_obj_value m e m' E)]]; unfold g_set_objective in E; apply bind_ok in E; destruct E as (u & _ & E); injection E as <-; [reflexivity|]. intros x. reflexivity.
Qed.

Lemma C75_refuted_lemma : exists A n b opt domains s o m x, from_coefficients A n b opt domains s o None = Ok m /\ feasible m x /\
  exists gm, g_from_coefficients A n b opt domains s o None = Ok gm /\ ~ feasible gm x /\ (exists y, feasible gm y).
Proof.
  exists [[1%Q]], 1, [1%Q], [1%Q], [DReal], SLe, Minimise. destruct (C35_built_lemma [[1%Q]] 1 [1%Q] [1%Q] [DReal] SLe Minimise None) as (_ & B); [discriminate|intros row [<-|[]]; reflexivity|].
  destruct B as (m & E). { split; [discriminate|]. split; [cbn; lia|]. split; [cbn; lia|]. split; [cbn; lia|]. split; [discriminate|]. intros [|j] Hj; [discriminate|lia]. }
  exists m, (fun _ => (-1)%R). split; [exact E|]. destruct (C35_lemma [[1%Q]] 1 [1%Q] [1%Q] [DReal] SLe Minimise None m ltac:(discriminate) ltac:(intros row [<-|[]]; reflexivity) E) as (_ & _ & _ & F).
  assert (Q1 : Q2R 1 = 1%R) by apply RMicromega.Q2R_1. split.
  { apply F. split; [intros [|i] Hi; [|cbn in Hi; lia]; cbn; rewrite Q1; lra|]. intros [|j] Hj; [|lia]. cbn. tauto. }
  destruct (C75_built_lemma [[1%Q]] 1 [1%Q] [1%Q] [DReal] SLe Minimise None) as (_ & B); [discriminate|intros row [<-|[]]; reflexivity|].
  destruct B as (gm & EG). { split; [exists m; exact E|]. intros row [<-|[]]. exists 1%Q. split; [left; reflexivity|discriminate]. }
  exists gm. split; [exact EG|]. destruct (C75_lemma [[1%Q]] 1 [1%Q] [1%Q] [DReal] SLe Minimise None gm ltac:(discriminate) ltac:(intros row [<-|[]]; reflexivity) EG) as (_ & _ & _ & G). split.
  - intros H. apply G in H. destruct H as (_ & H). destruct (H 0 ltac:(lia)) as (_ & H0 & _). specialize (H0 eq_refl). cbn in H0. lra.
  - exists (fun _ => 0%R). apply G. split; [intros [|i] Hi; [|cbn in Hi; lia]; cbn; rewrite Q1; lra|]. intros [|j] Hj; [|lia]. split; [cbn; tauto|]. split; [intros _; lra|discriminate].
Qed.
