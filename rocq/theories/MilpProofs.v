(** Proofs about linear models (Milp.v). *)
From Coq Require Import List Arith ZArith QArith Qreals Reals Bool Lia Lra.
From Verif Require Import Base BaseFacts Num SpecMdp SumFacts MatFacts RfFacts Milp SpecLp.
Import ListNotations.
Local Open Scope nat_scope.

Lemma ckey_eqbP : forall a b, reflect (a = b) (ckey_eqb a b).
Proof.
  intros [n|n] [m|m]; simpl; try (constructor; congruence); destruct (Nat.eqb_spec n m); constructor; congruence.
Qed.

(** ** Linear forms *)
Lemma lin_app : forall a b x, (lin (a ++ b) x = lin a x + lin b x)%R.
Proof. induction a as [|[v q] a IH]; intros; simpl; [ring|]. rewrite IH. ring. Qed.

Lemma lin_ext : forall e x y, (forall v q, In (v, q) e -> x v = y v) -> lin e x = lin e y.
Proof.
  induction e as [|[v q] e IH]; intros x y H; simpl; auto. f_equal.
  - f_equal. apply (H v q). left; auto.
  - apply IH. intros; eapply H; right; eauto.
Qed.

Lemma lin_dset_fresh : forall (d : dict nat Q) v q x, ~ In v (dkeys d) -> (lin (dset Nat.eqb d v q) x = lin d x + Q2R q * x v)%R.
Proof.
  intros. rewrite dset_fresh; auto using Nat.eqb_spec. rewrite lin_app. simpl. ring.
Qed.

Lemma affine_acc : forall e (d : dict nat Q), NoDup (dkeys (d ++ e)) ->
  fold_left (fun d p => dset Nat.eqb d (fst p) (snd p)) e d = d ++ e.
Proof.
  induction e as [|[v q] e IH]; intros d H; simpl; [rewrite app_nil_r; auto|].
  rewrite dset_fresh; auto using Nat.eqb_spec.
  - rewrite IH; rewrite <- app_assoc; auto.
  - unfold dkeys in *. rewrite map_app in H. simpl in H. apply NoDup_remove_2 in H. intros Hi. apply H. apply in_or_app; auto.
Qed.

Lemma affine_id : forall e, NoDup (map fst e) -> affine e = e.
Proof. intros. unfold affine. rewrite affine_acc; auto. Qed.

Lemma lin_seq : forall (f : nat -> Q) n x, lin (map (fun j => (j, f j)) (seq 0 n)) x = sumn n (fun j => Q2R (f j) * x j)%R.
Proof.
  intros f n x. induction n; auto. rewrite seq_S, map_app, lin_app, IHn. simpl. ring.
Qed.

Lemma combine_seq_map : forall (l : list Q), combine (seq 0 (length l)) l = map (fun j => (j, nth j l 0%Q)) (seq 0 (length l)).
Proof.
  intros l. induction l as [|a l IH] using rev_ind; auto.
  rewrite app_length. simpl. rewrite Nat.add_1_r, seq_S, map_app.
  assert (L : length (seq 0 (length l)) = length l) by apply seq_length.
  assert (forall (a b : list nat) (c d : list Q), length a = length c -> combine (a ++ b) (c ++ d) = combine a c ++ combine b d) as CA.
  { clear. induction a; destruct c; simpl; intros; try discriminate; auto. f_equal. apply IHa. lia. }
  rewrite CA by auto. simpl. rewrite IH. f_equal.
  - apply map_ext_in. intros j Hj. apply in_seq in Hj. rewrite app_nth1 by lia. auto.
  - rewrite app_nth2, Nat.sub_diag by lia. auto.
Qed.

Lemma lin_filter : forall e x, lin (filter (fun p : nat * Q => negb (Qeq_bool (snd p) 0)) e) x = lin e x.
Proof.
  induction e as [|[v q] e IH]; intros; simpl; auto. destruct (Qeq_bool q 0) eqn:E; simpl; rewrite IH; auto.
  apply Qeq_bool_iff in E. rewrite (Qeq_eqR _ _ E), RMicromega.Q2R_0. ring.
Qed.

Lemma row_items_lin : forall row x, lin (row_items row) x = sumn (length row) (fun j => Q2R (nth j row 0%Q) * x j)%R.
Proof. intros. unfold row_items. rewrite lin_filter, combine_seq_map, lin_seq. auto. Qed.

Lemma row_items_keys : forall row, NoDup (map fst (row_items row)) /\ forall v q, In (v, q) (row_items row) -> v < length row.
Proof.
  intros. unfold row_items. rewrite combine_seq_map. split.
  - assert (forall (l : list (nat * Q)) f, NoDup (map fst l) -> NoDup (map fst (filter f l))) as NF.
    { induction l as [|a l IH]; simpl; intros f H; auto. inversion H; subst. destruct (f a); simpl; auto. constructor; auto.
      intros Hi. apply H2. apply in_map_iff in Hi. destruct Hi as (y & <- & Hy). apply filter_In in Hy. apply in_map. tauto. }
    apply NF. rewrite map_map. simpl. rewrite map_id. apply seq_NoDup.
  - intros v q H. apply filter_In in H. destruct H as [H _]. apply in_map_iff in H. destruct H as (j & E & Hj). inversion E; subst.
    apply in_seq in Hj. lia.
Qed.

(** ** Invariant of models *)
Definition mi_ok (m : milp) : Prop :=
  NoDup (dkeys (mi_constrs m)) /\ forall k c, In (k, c) (mi_constrs m) -> exists n, k = CName n /\ n < mi_count m.

Lemma add_constraint_spec : forall m l s r, mi_ok m -> s <> OtherSense -> (forall v q, In (v, q) l -> v < length (mi_vars m)) -> NoDup (map fst l) ->
  exists m', add_constraint m l s r = Ok (m', mi_count m) /\ mi_ok m' /\ mi_vars m' = mi_vars m /\ mi_obj m' = mi_obj m /\ mi_dir m' = mi_dir m /\
    mi_constrs m' = mi_constrs m ++ [(CName (mi_count m), MkConstr l s r)] /\ mi_count m' = S (mi_count m).
Proof.
  intros m l s r (ND & OK) Hs Hl Hn. unfold add_constraint.
  assert (E1 : match s with OtherSense => Err AssertionError | _ => Ok tt end = Ok tt) by (destruct s; auto; congruence).
  rewrite E1. cbn [bind]. unfold assert_expression.
  assert (E2 : forallb (fun p : nat * Q => fst p <? length (mi_vars m)) l = true).
  { apply forallb_forall. intros [v q] Hv. apply Nat.ltb_lt. eapply Hl; eauto. }
  rewrite E2. cbn [assert_ bind]. rewrite affine_id by auto.
  assert (F : ~ In (CName (mi_count m)) (dkeys (mi_constrs m))).
  { intros Hi. apply in_map_iff in Hi. destruct Hi as ((k & c) & E & Hi). simpl in E. subst. destruct (OK _ _ Hi) as (n & E & Hlt).
    inversion E. lia. }
  rewrite dset_fresh; auto using ckey_eqbP. eexists. split; [reflexivity|]. simpl. split; [split|]; simpl; auto.
  - unfold dkeys in *. rewrite map_app. simpl. apply NoDup_snoc_iff. auto.
  - intros k c Hi. apply in_app_or in Hi. destruct Hi as [Hi|[E|[]]].
    + destruct (OK _ _ Hi) as (n & -> & Hn'). exists n. auto.
    + inversion E; subst. exists (mi_count m). auto.
Qed.

Lemma feasible_snoc : forall m m' k c x, mi_vars m' = mi_vars m -> mi_constrs m' = mi_constrs m ++ [(k, c)] ->
  (feasible m' x <-> feasible m x /\ sat_constr x c).
Proof.
  intros m m' k c x Hv Hc. unfold feasible. rewrite Hv, Hc. split.
  - intros (A & B). split; [split; auto|].
    + intros k' c' Hi. eapply B. apply in_or_app; eauto.
    + eapply B. apply in_or_app. right. left. reflexivity.
  - intros ((A & B) & C). split; auto. intros k' c' Hi. apply in_app_or in Hi. destruct Hi as [Hi|[E|[]]]; eauto. inversion E; subst. auto.
Qed.

Definition good_con (n : nat) (c : list (nat * Q) * csense * Q) : Prop :=
  let '(l, s, r) := c in s <> OtherSense /\ (forall v q, In (v, q) l -> v < n) /\ NoDup (map fst l).

Lemma add_constraints_spec : forall cs m, mi_ok m -> (forall c, In c cs -> good_con (length (mi_vars m)) c) ->
  exists m', add_constraints m cs = Ok m' /\ mi_ok m' /\ mi_vars m' = mi_vars m /\ mi_obj m' = mi_obj m /\ mi_dir m' = mi_dir m /\
    forall x, feasible m' x <-> feasible m x /\ forall l s r, In (l, s, r) cs -> rel s (lin l x) (Q2R r).
Proof.
  induction cs as [|[[l s] r] cs IH]; intros m OK G.
  - exists m. split; [reflexivity|]. split; [exact OK|]. split; [reflexivity|]. split; [reflexivity|]. split; [reflexivity|].
    intros x. split; [intros H; split; [exact H|intros ? ? ? []]|intros (H & _); exact H].
  - destruct (G (l, s, r) (or_introl eq_refl)) as (Hs & Hl & Hn).
    destruct (add_constraint_spec m l s r OK Hs Hl Hn) as (m1 & E & OK1 & V1 & O1 & D1 & C1 & K1).
    destruct (IH m1 OK1) as (m2 & E2 & OK2 & V2 & O2 & D2 & F2).
    { intros c Hc. rewrite V1. apply G. right; auto. }
    exists m2. split.
    { unfold add_constraints in *. cbn [foldM]. rewrite E. cbn [bind]. auto. }
    split; auto. split; [congruence|]. split; [congruence|]. split; [congruence|].
    intros x. rewrite F2, (feasible_snoc m m1 _ _ x V1 C1). unfold sat_constr. simpl. split.
    + intros ((A & B) & C). split; auto. intros l' s' r' [E'|Hi]; auto. inversion E'; subst; auto.
    + intros (A & B). split; [split; auto|]; intros; apply B; auto. 
Qed.

(** ** Variables *)
Lemma add_vars_spec : forall ds m l, mi_ok m -> (forall d, In d ds -> fst (fst d) <> OtherDomain) ->
  exists m' l', foldM (fun st d => let '(m, l) := st in
           let '(dom, lb, ub) := d in
           let* v := mk_var dom lb ub in
           Ok (push_var m v, l ++ [length (mi_vars m)])) ds (m, l) = Ok (m', l') /\
    mi_ok m' /\ mi_constrs m' = mi_constrs m /\ mi_obj m' = mi_obj m /\ mi_dir m' = mi_dir m /\ mi_count m' = mi_count m /\
    exists vs, mi_vars m' = mi_vars m ++ vs /\ length vs = length ds /\ l' = l ++ seq (length (mi_vars m)) (length ds) /\
      forall j d lb ub, nth_error ds j = Some (d, lb, ub) -> exists v, nth_error vs j = Some v /\ mk_var d lb ub = Ok v.
Proof.
  induction ds as [|[[d lb] ub] ds IH]; intros m l OK G.
  - exists m, l. split; [reflexivity|]. split; [exact OK|]. do 4 (split; [reflexivity|]). exists []. simpl. rewrite !app_nil_r. do 3 (split; [reflexivity|]). intros j; destruct j; discriminate.
  - assert (Hd : d <> OtherDomain) by (apply (G (d, lb, ub)); left; auto).
    assert (exists v, mk_var d lb ub = Ok v) as (v & Ev) by (destruct d; simpl; eauto; congruence).
    cbn [foldM]. rewrite Ev. cbn [bind].
    destruct (IH (push_var m v) (l ++ [length (mi_vars m)])) as (m' & l' & E & OK' & A & B & C & D & vs & V1 & V2 & V3 & V4).
    + exact OK.
    + intros; apply G; right; auto.
    + exists m', l'. split; auto. split; auto. split; auto. split; auto. split; auto. split; auto.
      exists (v :: vs). simpl in V1. rewrite V1, <- app_assoc. split; auto. split; [simpl; auto|]. split.
      * rewrite V3. simpl. rewrite app_length, Nat.add_1_r, <- app_assoc. auto.
      * intros [|j] d' lb' ub' Hj; simpl in *; [inversion Hj; subst; eauto|eauto].
Qed.

Lemma nth_error_seq0 : forall n j, j < n -> nth_error (seq 0 n) j = Some j.
Proof. intros. rewrite nth_error_nth' with (d := 0); [rewrite seq_nth; auto|rewrite seq_length; auto]. Qed.

Lemma is_int_01 : forall r, (0 <= r <= 1)%R -> is_int r -> r = 0%R \/ r = 1%R.
Proof.
  intros r H (z & ->). destruct H as [A B]. apply le_IZR in A. apply le_IZR in B.
  assert (z = 0 \/ z = 1)%Z as [-> | ->] by lia; auto.
Qed.

Lemma mk_var_sat : forall d lb ub v r, mk_var d lb ub = Ok v -> (sat_var v r <-> sat_dom d lb ub r).
Proof.
  intros d lb ub v r H. destruct d; simpl in H; inversion H; subst; unfold sat_var; simpl.
  - split; [intros (A & B & _); auto|intros (A & B); repeat split; auto; discriminate].
  - split; [intros (A & B & C); auto|intros (A & B & C); auto].
  - rewrite RMicromega.Q2R_0, RMicromega.Q2R_1. split.
    + intros (A & B & C). apply is_int_01; auto.
    + intros [-> | ->]; repeat split; try lra; intros _; [exists 0%Z|exists 1%Z]; auto.
Qed.

(** ** from_coefficients *)
Lemma rows_spec : forall (A : list (list Q)) b s n m, mi_ok m -> length (mi_vars m) = n -> s <> OtherSense ->
  (forall row, In row A -> length row <= n) -> length A <= length b ->
  exists m', foldM (fun m i =>
      let* row := of_opt IndexError (nth_error A i) in
      let* rhs := of_opt IndexError (nth_error b i) in
      let* (m, _) := add_constraint m (row_items row) s rhs in
      Ok m) (seq 0 (length A)) m = Ok m' /\ mi_ok m' /\ mi_vars m' = mi_vars m /\ mi_obj m' = mi_obj m /\ mi_dir m' = mi_dir m /\
    forall x, feasible m' x <-> feasible m x /\ forall i, i < length A -> rel s (sumn n (fun j => Q2R (nth j (nth i A []) 0%Q) * x j)%R) (Q2R (nth i b 0%Q)).
Proof.
  intros A b s n m OK Hn Hs HA Hb.
  destruct (foldM_ok _ _ (fun m i =>
      let* row := of_opt IndexError (nth_error A i) in
      let* rhs := of_opt IndexError (nth_error b i) in
      let* (m, _) := add_constraint m (row_items row) s rhs in
      Ok m) (fun pre m' => mi_ok m' /\ mi_vars m' = mi_vars m /\ mi_obj m' = mi_obj m /\ mi_dir m' = mi_dir m /\
        forall x, feasible m' x <-> feasible m x /\ forall i, In i pre -> rel s (sumn n (fun j => Q2R (nth j (nth i A []) 0%Q) * x j)%R) (Q2R (nth i b 0%Q)))
      (seq 0 (length A)) m) as (m' & E & I1 & I2 & I3 & I4 & I5).
  - split; [exact OK|]. split; [reflexivity|]. split; [reflexivity|]. split; [reflexivity|].
    intros x. split; [intros H; split; [exact H|intros ? []]|intros (H & _); exact H].
  - intros pre i m1 (O1 & V1 & B1 & D1 & F1) (post & Eq).
    assert (Hi : i < length A). { assert (In i (seq 0 (length A))) by (rewrite Eq; apply in_or_app; right; left; auto). apply in_seq in H. lia. }
    rewrite (nth_error_nth' A [] Hi). cbn [of_opt bind]. rewrite (nth_error_nth' b 0%Q) by lia. cbn [of_opt bind].
    destruct (row_items_keys (nth i A [])) as (K1 & K2).
    assert (Hrow : length (nth i A []) <= n) by (apply HA; apply nth_In; auto).
    destruct (add_constraint_spec m1 (row_items (nth i A [])) s (nth i b 0%Q) O1 Hs) as (m2 & E2 & O2 & V2 & B2 & D2 & C2 & _); auto.
    { intros v q Hv. rewrite V1, Hn. apply K2 in Hv. lia. }
    rewrite E2. cbn [bind]. exists m2. split; auto. split; auto. split; [congruence|]. split; [congruence|]. split; [congruence|].
    intros x. rewrite (feasible_snoc m1 m2 _ _ x V2 C2), F1. unfold sat_constr. simpl. rewrite row_items_lin.
    assert (SE : sumn n (fun j => Q2R (nth j (nth i A []) 0%Q) * x j)%R = sumn (length (nth i A [])) (fun j => Q2R (nth j (nth i A []) 0%Q) * x j)%R).
    { replace n with (length (nth i A []) + (n - length (nth i A []))) by lia. rewrite sumn_app.
      rewrite (sumn_zero (n - length (nth i A []))); [ring|]. intros k _. rewrite (nth_overflow (nth i A [])) by lia. rewrite RMicromega.Q2R_0. ring. }
    rewrite <- SE. split.
    + intros ((P1 & P2) & P3). split; auto. intros k Hk. apply in_app_or in Hk. destruct Hk as [Hk|[<-|[]]]; auto.
    + intros (P1 & P2). split; [split; auto|]; intros; apply P2; apply in_or_app; auto. right; left; auto.
  - exists m'. split; auto. split; auto. split; auto. split; auto. split; auto. intros x. rewrite I5. split.
    + intros (P1 & P2). split; auto. intros i Hi. apply P2. apply in_seq. lia.
    + intros (P1 & P2). split; auto. intros i Hi. apply P2. apply in_seq in Hi. lia.
Qed.

Lemma from_coefficients_spec : forall A n b opt domains s o bounds,
  o <> OtherObjective -> s <> OtherSense -> (forall row, In row A -> length row <= n) -> length A <= length b ->
  n <= length opt -> n <= length domains -> (forall bs, bounds = Some bs -> n <= length bs) ->
  (forall j, j < n -> nth j domains OtherDomain <> OtherDomain) ->
  exists m, from_coefficients A n b opt domains s o bounds = Ok m /\ mi_ok m /\ length (mi_vars m) = n /\ mi_dir m = o /\
    mi_obj m = Some (map (fun j => (j, nth j opt 0%Q)) (seq 0 n)) /\
    forall x, feasible m x <->
      (forall i, i < length A -> rel s (sumn n (fun j => Q2R (nth j (nth i A []) 0%Q) * x j)%R) (Q2R (nth i b 0%Q))) /\
      (forall j, j < n -> sat_dom (nth j domains OtherDomain) (fst (bound_at bounds j)) (snd (bound_at bounds j)) (x j)).
Proof.
  intros A n b opt domains s o bounds Ho Hs HA Hb Hopt Hdom Hbs Hd. unfold from_coefficients.
  assert (E0 : milp_new o = Ok (MkMilp o [] [] 0 None)) by (destruct o; auto; congruence). rewrite E0. cbn [bind].
  assert (E1 : mapM (fun j =>
      let* d := of_opt IndexError (nth_error domains j) in
      match bounds with
      | None => Ok (d, None, None)
      | Some bs => let* lu := of_opt IndexError (nth_error bs j) in Ok (d, fst lu, snd lu)
      end) (seq 0 n) = Ok (map (fun j => (nth j domains OtherDomain, fst (bound_at bounds j), snd (bound_at bounds j))) (seq 0 n))).
  { assert (forall l, (forall j, In j l -> j < n) -> mapM (fun j =>
      let* d := of_opt IndexError (nth_error domains j) in
      match bounds with
      | None => Ok (d, None, None)
      | Some bs => let* lu := of_opt IndexError (nth_error bs j) in Ok (d, fst lu, snd lu)
      end) l = Ok (map (fun j => (nth j domains OtherDomain, fst (bound_at bounds j), snd (bound_at bounds j))) l)) as G.
    { induction l as [|j l IH]; intros Hl; auto. cbn [mapM map]. rewrite IH by (intros; apply Hl; right; auto).
      assert (j < n) by (apply Hl; left; auto). rewrite (nth_error_nth' domains OtherDomain) by lia. cbn [of_opt bind].
      destruct bounds as [bs|]; simpl; auto. rewrite (nth_error_nth' bs (None, None)) by (specialize (Hbs bs eq_refl); lia). auto. }
    apply G. intros j Hj. apply in_seq in Hj. lia. }
  rewrite E1. cbn [bind].
  set (ds := map (fun j => (nth j domains OtherDomain, fst (bound_at bounds j), snd (bound_at bounds j))) (seq 0 n)).
  destruct (add_vars_spec ds (MkMilp o [] [] 0 None) []) as (m1 & l1 & E2 & OK1 & C1 & O1 & D1 & K1 & vs & V1 & V2 & V3 & V4).
  { split; simpl; [constructor|intros; contradiction]. }
  { intros d H. apply in_map_iff in H. destruct H as (j & <- & Hj). simpl. apply Hd. apply in_seq in Hj. lia. }
  unfold add_variables_w_bounds. rewrite E2. cbn [bind].
  simpl in C1, O1, D1, K1, V1, V3.
  assert (Ln : length vs = n) by (rewrite V2; unfold ds; rewrite map_length, seq_length; auto).
  assert (E3 : mapM (fun j => let* q := of_opt IndexError (nth_error opt j) in Ok (j, q)) (seq 0 n) = Ok (map (fun j => (j, nth j opt 0%Q)) (seq 0 n))).
  { assert (forall l, (forall j, In j l -> j < n) -> mapM (fun j => let* q := of_opt IndexError (nth_error opt j) in Ok (j, q)) l = Ok (map (fun j => (j, nth j opt 0%Q)) l)) as G.
    { induction l as [|j l IH]; intros Hl; auto. cbn [mapM map]. rewrite IH by (intros; apply Hl; right; auto).
      assert (j < n) by (apply Hl; left; auto). rewrite (nth_error_nth' opt 0%Q) by lia. auto. }
    apply G. intros j Hj. apply in_seq in Hj. lia. }
  rewrite E3. cbn [bind]. unfold set_objective, assert_expression.
  assert (E4 : forallb (fun p : nat * Q => fst p <? length (mi_vars m1)) (map (fun j => (j, nth j opt 0%Q)) (seq 0 n)) = true).
  { apply forallb_forall. intros p Hp. apply in_map_iff in Hp. destruct Hp as (j & <- & Hj). apply Nat.ltb_lt. simpl. rewrite V1, Ln. apply in_seq in Hj. lia. }
  rewrite E4. cbn [assert_ bind]. rewrite O1.
  rewrite affine_id by (rewrite map_map; simpl; rewrite map_id; apply seq_NoDup).
  match goal with |- context [foldM _ _ ?mm] => set (m2 := mm) end.
  destruct (rows_spec A b s n m2) as (m3 & E5 & OK3 & V5 & O5 & D5 & F5); auto.
  { simpl. rewrite V1. auto. }
  exists m3. split; [exact E5|]. split; auto. split; [rewrite V5; simpl; rewrite V1; auto|]. split; [rewrite D5; simpl; auto|]. split; [rewrite O5; auto|].
  intros x. rewrite F5. unfold feasible at 1. simpl. rewrite C1, V1. split.
  - intros ((P1 & _) & P2). split; auto. intros j Hj.
    destruct (V4 j (nth j domains OtherDomain) (fst (bound_at bounds j)) (snd (bound_at bounds j))) as (v & Hv & Mv).
    { unfold ds. rewrite nth_error_map, nth_error_seq0; auto. }
    apply (mk_var_sat _ _ _ _ _ Mv). eapply P1; eauto.
  - intros (P1 & P2). split; auto. split; [|intros; contradiction].
    intros j v Hv. assert (Hj : j < n) by (rewrite <- Ln; apply nth_error_Some; congruence).
    destruct (V4 j (nth j domains OtherDomain) (fst (bound_at bounds j)) (snd (bound_at bounds j))) as (v' & Hv' & Mv).
    { unfold ds. rewrite nth_error_map, nth_error_seq0; auto. }
    assert (v = v') by congruence. subst. apply (mk_var_sat _ _ _ _ _ Mv). auto.
Qed.

Lemma objective_spec : forall m (f : nat -> Q) n x, mi_obj m = Some (map (fun j => (j, f j)) (seq 0 n)) -> objective m x = sumn n (fun j => Q2R (f j) * x j)%R.
Proof. intros. unfold objective. rewrite H. apply lin_seq. Qed.

Lemma lp_spec : forall A n b opt s o, o <> OtherObjective -> s <> OtherSense -> (forall row, In row A -> length row <= n) -> length A <= length b -> n <= length opt ->
  exists m, lp_from_coefficients A n b opt s o = Ok m /\ mi_ok m /\ length (mi_vars m) = n /\ mi_dir m = o /\
    mi_obj m = Some (map (fun j => (j, nth j opt 0%Q)) (seq 0 n)) /\
    forall x, feasible m x <-> forall i, i < length A -> rel s (sumn n (fun j => Q2R (nth j (nth i A []) 0%Q) * x j)%R) (Q2R (nth i b 0%Q)).
Proof.
  intros A n b opt s o Ho Hs HA Hb Hopt.
  destruct (from_coefficients_spec A n b opt (repeat DReal n) s o None) as (m & E & OK & L & D & O & F); auto.
  - rewrite repeat_length. auto.
  - intros; discriminate.
  - intros j Hj. rewrite (nth_indep _ _ DReal) by (rewrite repeat_length; auto). rewrite nth_repeat. discriminate.
  - exists m. split; auto. split; auto. split; auto. split; auto. split; auto. intros x. rewrite F. split; [intros (P & _); auto|].
    intros P. split; auto. intros j Hj. rewrite (nth_indep _ _ DReal) by (rewrite repeat_length; auto). rewrite nth_repeat. simpl. auto.
Qed.

Lemma from_coefficients_inv : forall A n b opt domains s o bounds m, s <> OtherSense ->
  from_coefficients A n b opt domains s o bounds = Ok m ->
  o <> OtherObjective /\ length A <= length b /\ n <= length opt /\ n <= length domains /\ (forall bs, bounds = Some bs -> n <= length bs) /\
  (forall j, j < n -> nth j domains OtherDomain <> OtherDomain).
Proof.
  intros A n b opt domains s o bounds m Hs H. unfold from_coefficients in H.
  apply bind_ok in H. destruct H as (m0 & E0 & H). apply bind_ok in H. destruct H as (ds & E1 & H).
  apply bind_ok in H. destruct H as ((m1 & l1) & E2 & H). apply bind_ok in H. destruct H as (ob & E3 & H).
  apply bind_ok in H. destruct H as (m2 & E4 & H).
  assert (L : forall X (l : list X), (forall j, j < n -> nth_error l j <> None) -> n <= length l).
  { intros X l Hl. destruct (le_lt_dec n (length l)); auto. exfalso. apply (Hl (length l)); auto. apply nth_error_None. auto. }
  assert (MS : forall B (f : nat -> res B) l, mapM f (seq 0 n) = Ok l -> forall j, j < n -> exists y, f j = Ok y /\ nth_error l j = Some y).
  { intros B f l Hl j Hj. destruct (mapM_seq _ _ _ _ _ Hl) as (HL & HN).
    destruct (nth_error l j) as [y|] eqn:E; [|apply nth_error_None in E; lia].
    exists y. split; auto. specialize (HN j y Hj). simpl in HN. rewrite HN. f_equal. apply nth_error_nth. auto. }
  split. { intros ->. discriminate. }
  split.
  { assert (FI : forall i, In i (seq 0 (length A)) -> i < length b).
    { refine (foldM_inv _ _ _ (fun pre _ => forall i, In i pre -> i < length b) _ _ _ _ _ H); [intros ? []|].
      intros pre x s1 s2 IH E _ i Hi. apply in_app_or in Hi. destruct Hi as [Hi|[<-|[]]]; auto.
      apply bind_ok in E. destruct E as (row & _ & E). apply bind_ok in E. destruct E as (rhs & E & _).
      unfold of_opt in E. destruct (nth_error b x) eqn:Eb; [|discriminate]. apply nth_error_Some. congruence. }
    destruct (length A) as [|k] eqn:EL; [lia|]. specialize (FI k). rewrite in_seq in FI. lia. }
  split. { apply L. intros j Hj. destruct (MS _ _ _ E3 j Hj) as (y & Hy & _). apply bind_ok in Hy. destruct Hy as (q & Hq & _).
    unfold of_opt in Hq. destruct (nth_error opt j); [discriminate|]. discriminate. }
  split. { apply L. intros j Hj. destruct (MS _ _ _ E1 j Hj) as (y & Hy & _). apply bind_ok in Hy. destruct Hy as (q & Hq & _).
    unfold of_opt in Hq. destruct (nth_error domains j); discriminate. }
  split. { intros bs ->. apply L. intros j Hj. destruct (MS _ _ _ E1 j Hj) as (y & Hy & _). apply bind_ok in Hy. destruct Hy as (q & _ & Hq).
    apply bind_ok in Hq. destruct Hq as (lu & Hq & _). unfold of_opt in Hq. destruct (nth_error bs j); discriminate. }
  intros j Hj Ed. destruct (MS _ _ _ E1 j Hj) as (y & Hy & Hn). apply bind_ok in Hy. destruct Hy as (q & Hq & Hy).
  unfold of_opt in Hq. destruct (nth_error domains j) as [d|] eqn:End; [|discriminate]. inversion Hq; subst q.
  apply nth_error_nth with (d := OtherDomain) in End. rewrite Ed in End. subst d.
  assert (fst (fst y) = OtherDomain). { destruct bounds as [bs|]; [apply bind_ok in Hy; destruct Hy as (lu & _ & Hy)|]; inversion Hy; subst; auto. }
  assert (FD : forall d, In d ds -> fst (fst d) <> OtherDomain).
  { unfold add_variables_w_bounds in E2.
    refine (foldM_inv _ _ _ (fun pre _ => forall d, In d pre -> fst (fst d) <> OtherDomain) _ _ _ _ _ E2); [intros ? []|].
    intros pre x s1 s2 IH E _ d Hd. apply in_app_or in Hd. destruct Hd as [Hd|[<-|[]]]; auto.
    destruct s1 as [mm ll], x as [[dd lb] ub]. simpl. intros ->. discriminate. }
  apply (FD y); auto. eapply nth_error_In; eauto.
Qed.

(** C35 *)
Lemma C35_lemma : forall A n b opt domains s o bounds m, s <> OtherSense -> (forall row, In row A -> length row = n) ->
  from_coefficients A n b opt domains s o bounds = Ok m ->
  length (mi_vars m) = n /\ mi_dir m = o /\
  (forall x, objective m x = sumn n (fun j => Q2R (nth j opt 0%Q) * x j)%R) /\
  forall x, feasible m x <->
      (forall i, i < length A -> rel s (sumn n (fun j => Q2R (nth j (nth i A []) 0%Q) * x j)%R) (Q2R (nth i b 0%Q))) /\
      (forall j, j < n -> sat_dom (nth j domains OtherDomain) (fst (bound_at bounds j)) (snd (bound_at bounds j)) (x j)).
Proof.
  intros A n b opt domains s o bounds m Hs HA E.
  destruct (from_coefficients_inv _ _ _ _ _ _ _ _ _ Hs E) as (H1 & H2 & H3 & H4 & H5 & H6).
  destruct (from_coefficients_spec A n b opt domains s o bounds) as (m' & E' & OK & L & D & O & F); auto.
  { intros row Hr. rewrite (HA row Hr). auto. }
  rewrite E in E'. inversion E'; subst m'. split; auto. split; auto. split; auto. intros x. apply (objective_spec _ (fun j => nth j opt 0%Q)). auto.
Qed.

Lemma C35_built_lemma : forall A n b opt domains s o bounds, s <> OtherSense -> (forall row, In row A -> length row = n) ->
  ((exists m, from_coefficients A n b opt domains s o bounds = Ok m) <->
   o <> OtherObjective /\ length A <= length b /\ n <= length opt /\ n <= length domains /\ (forall bs, bounds = Some bs -> n <= length bs) /\
   (forall j, j < n -> nth j domains OtherDomain <> OtherDomain)).
Proof.
  intros A n b opt domains s o bounds Hs HA. split.
  - intros (m & E). eapply from_coefficients_inv; eauto.
  - intros (H1 & H2 & H3 & H4 & H5 & H6). destruct (from_coefficients_spec A n b opt domains s o bounds) as (m' & E' & _); eauto.
    intros row Hr. rewrite (HA row Hr). auto.
Qed.

(** C36 *)
Fixpoint coeff (e : list (nat * Q)) (v : nat) : Q :=
  match e with [] => 0%Q | (u, q) :: r => if u =? v then q else coeff r v end.

Lemma lin_dset : forall (d : dict nat Q) v q x, NoDup (dkeys d) ->
  (lin (dset Nat.eqb d v q) x = lin d x + (Q2R q - match dget Nat.eqb d v with Some q' => Q2R q' | None => 0 end) * x v)%R.
Proof.
  induction d as [|[u p] d IH]; intros v q x ND; simpl; [ring|]. destruct (Nat.eqb_spec v u) as [->|Hn]; simpl.
  - ring.
  - inversion ND; subst. rewrite IH by auto. ring.
Qed.

Lemma dget_fold : forall e (d : dict nat Q) v,
  dget Nat.eqb (fold_left (fun d p => dset Nat.eqb d (fst p) (snd p)) e d) v =
  match dget Nat.eqb (affine e) v with Some q => Some q | None => dget Nat.eqb d v end.
Proof.
  unfold affine. induction e as [|[u q] e IH] using rev_ind; intros d v; [reflexivity|].
  rewrite !fold_left_app. simpl. rewrite !dget_dset by apply Nat.eqb_spec. destruct (Nat.eqb_spec u v); auto.
Qed.

Lemma fold_dset_nodup : forall e (d : dict nat Q), NoDup (dkeys d) -> NoDup (dkeys (fold_left (fun d p => dset Nat.eqb d (fst p) (snd p)) e d)).
Proof. induction e; intros; simpl; auto. apply IHe. apply dset_nodup; auto using Nat.eqb_spec. Qed.

(** A linear form as a sum over all variables. *)
Definition coef_of (d : dict nat Q) (v : nat) : Q := match dget Nat.eqb d v with Some q => q | None => 0%Q end.
Lemma lin_coef : forall (d : dict nat Q) n x, NoDup (dkeys d) -> (forall v, In v (dkeys d) -> v < n) -> lin d x = sumn n (fun v => Q2R (coef_of d v) * x v)%R.
Proof.
  unfold coef_of. induction d as [|[u p] d IH]; intros n x ND B; simpl.
  - symmetry. apply sumn_zero. intros. rewrite RMicromega.Q2R_0. ring.
  - inversion ND; subst. rewrite (IH n) by (auto; intros; apply B; right; auto).
    symmetry. etransitivity.
    apply (sumn_ext n _ (fun v => (if v =? u then Q2R p * x u else 0) + Q2R (match dget Nat.eqb d v with Some q => q | None => 0%Q end) * x v)%R).
    2: { rewrite sumn_plus, sumn_indicator; [reflexivity|]. apply B. left; auto. }
    + intros v Hv. destruct (Nat.eqb_spec v u) as [->|Hn]; [|ring].
      assert (dget Nat.eqb d u = None) as -> by (apply dget_None; auto using Nat.eqb_spec). rewrite RMicromega.Q2R_0. ring.
Qed.

Lemma C36_partial_lemma : forall m e m', NoDup (map fst e) -> set_objective m e = Ok m' ->
  (forall d v, mi_obj m = Some d -> In v (dkeys d) -> In v (map fst e) \/ (coef_of d v == 0)%Q) ->
  (forall d, mi_obj m = Some d -> NoDup (dkeys d) /\ forall v, In v (dkeys d) -> v < length (mi_vars m)) ->
  forall x, objective m' x = lin e x.
Proof.
  intros m e m' ND E H W x. unfold set_objective in E. apply bind_ok in E. destruct E as (u & E0 & E). inversion E; subst m'. clear E.
  unfold objective. simpl. destruct (mi_obj m) as [d|] eqn:Eo.
  - destruct (W d eq_refl) as (W1 & W2). apply assert_ok in E0. rewrite forallb_forall in E0.
    assert (BK : forall v, In v (map fst e) -> v < length (mi_vars m)).
    { intros v Hv. apply in_map_iff in Hv. destruct Hv as (p & <- & Hp). apply E0 in Hp. apply Nat.ltb_lt in Hp. auto. }
    rewrite (lin_coef e (length (mi_vars m))) by auto.
    rewrite (lin_coef _ (length (mi_vars m))).
    + apply sumn_ext. intros v Hv. unfold coef_of at 1. rewrite dget_fold, affine_id by auto. f_equal.
      unfold coef_of. destruct (dget Nat.eqb e v) eqn:Ev; auto.
      destruct (dget Nat.eqb d v) eqn:Edv; auto.
      destruct (H d v eq_refl) as [Hi|Hz].
      * apply dget_Some_key with (eqb := Nat.eqb); auto using Nat.eqb_spec. eauto.
      * apply dget_None in Ev; auto using Nat.eqb_spec. contradiction.
      * unfold coef_of in Hz. rewrite Edv in Hz. apply Qeq_eqR. auto.
    + apply fold_dset_nodup; auto.
    + intros v Hv. apply (dget_Some_key Nat.eqb Nat.eqb_spec) in Hv. destruct Hv as (q & Hv). rewrite dget_fold, affine_id in Hv by auto.
      destruct (dget Nat.eqb e v) eqn:Ev.
      * apply BK. apply (dget_Some_key Nat.eqb Nat.eqb_spec). eauto.
      * apply W2. apply (dget_Some_key Nat.eqb Nat.eqb_spec). eauto.
  - rewrite affine_id; auto.
Qed.

Definition c36_model : milp := MkMilp Minimise [MkVar false None None; MkVar false None None] [] 0 None.
Lemma C36_refuted_lemma : exists m m1 m2 e1 e2 x, set_objective m e1 = Ok m1 /\ set_objective m1 e2 = Ok m2 /\ NoDup (map fst e2) /\
  objective m2 x <> lin e2 x.
Proof.
  exists c36_model. do 2 eexists. exists [(0, 1%Q)], [(1, 1%Q)], (fun _ => 1%R). split; [reflexivity|]. split; [reflexivity|]. split.
  - repeat constructor; simpl; tauto.
  - unfold objective. simpl. rewrite RMicromega.Q2R_1. lra.
Qed.

(** C37 *)
Lemma C37_refuted_lemma : forall m l s r m' i, mi_ok m -> add_constraint m l s r = Ok (m', i) -> remove_constraint m' (CInt i) = Err KeyError.
Proof.
  intros m l s r m' i (ND & OK) E. unfold add_constraint in E. apply bind_ok in E. destruct E as (u & _ & E). apply bind_ok in E. destruct E as (u' & _ & E).
  inversion E; subst. unfold remove_constraint. simpl.
  destruct (dmem ckey_eqb _ (CInt (mi_count m))) eqn:Em; auto.
  apply (dmem_true ckey_eqb ckey_eqbP) in Em. apply (dset_keys_in ckey_eqb ckey_eqbP) in Em. destruct Em as [Em|Em]; [discriminate|].
  apply in_map_iff in Em. destruct Em as ((k & c) & Ek & Hi). simpl in Ek. subst. destruct (OK _ _ Hi) as (n & E' & _). discriminate.
Qed.

Lemma ddel_In : forall (d : dict ckey constr) k k' c, NoDup (dkeys d) -> (In (k', c) (ddel ckey_eqb d k) <-> k' <> k /\ In (k', c) d).
Proof.
  induction d as [|[u p] d IH]; intros k k' c ND; simpl; [tauto|]. inversion ND; subst. destruct (ckey_eqbP k u) as [->|Hn].
  - split.
    + intros H. split; auto. intros ->. apply H1. apply in_map_iff. exists (u, c). auto.
    + intros (A & [B|B]); auto. inversion B; subst. congruence.
  - simpl. rewrite IH by auto. split.
    + intros [E|(A & B)]; [inversion E; subst; split; auto|auto].
    + intros (A & [B|B]); auto.
Qed.

(** Operations on constraints. *)
Inductive cop := AddC (l : list (nat * Q)) (s : csense) (r : Q) | RemC (k : ckey).
Definition do_cop (m : milp) (o : cop) : milp :=
  match o with
  | AddC l s r => match add_constraint m l s r with Ok (m', _) => m' | Err _ => m end
  | RemC k => match remove_constraint m k with Ok m' => m' | Err _ => m end
  end.

Lemma do_cop_ok : forall m o, mi_ok m -> mi_ok (do_cop m o).
Proof.
  intros m o OK. destruct o as [l s r|k]; simpl.
  - destruct (add_constraint m l s r) as [[m' i]|] eqn:E; auto. unfold add_constraint in E.
    apply bind_ok in E. destruct E as (u & _ & E). apply bind_ok in E. destruct E as (u' & _ & E). inversion E; subst. destruct OK as (ND & OK). split; simpl.
    + apply dset_nodup; auto using ckey_eqbP.
    + intros k c Hi. assert (In k (dkeys (dset ckey_eqb (mi_constrs m) (CName (mi_count m)) (MkConstr (affine l) s r)))) by (apply in_map_iff; exists (k, c); auto).
      apply (dset_keys_in ckey_eqb ckey_eqbP) in H. destruct H as [->|H]; [eauto|].
      apply in_map_iff in H. destruct H as ((k' & c') & <- & H). destruct (OK _ _ H) as (n & -> & Hn). exists n. split; auto.
  - unfold remove_constraint. destruct (dmem ckey_eqb (mi_constrs m) k); auto. destruct OK as (ND & OK). split; simpl.
    + apply ddel_nodup; auto using ckey_eqbP.
    + intros k' c Hi. apply ddel_In in Hi; auto. apply (OK k' c). tauto.
Qed.

Lemma cops_ok : forall ops m, mi_ok m -> mi_ok (fold_left do_cop ops m).
Proof. induction ops; simpl; auto using do_cop_ok. Qed.

Lemma C37_refuted_all : forall o m0 ops l s r m' i, milp_new o = Ok m0 ->
  add_constraint (fold_left do_cop ops m0) l s r = Ok (m', i) -> remove_constraint m' (CInt i) = Err KeyError.
Proof.
  intros o m0 ops l s r m' i E H. eapply C37_refuted_lemma; eauto. apply cops_ok.
  destruct o; inversion E; subst; split; simpl; try constructor; intros; contradiction.
Qed.

(** Removal by name. *)
Lemma C37_partial_lemma : forall m l s r m' i ops, mi_ok m -> add_constraint m l s r = Ok (m', i) -> ~ In (RemC (CName i)) ops ->
  let m1 := fold_left do_cop ops m' in
  exists m2, remove_constraint m1 (CName i) = Ok m2 /\ mi_vars m2 = mi_vars m1 /\ mi_obj m2 = mi_obj m1 /\
    forall k c, In (k, c) (mi_constrs m2) <-> In (k, c) (mi_constrs m1) /\ k <> CName i.
Proof.
  intros m l s r m' i ops OK E NR m1.
  assert (OK' : mi_ok m'). { replace m' with (do_cop m (AddC l s r)) by (simpl; rewrite E; auto). apply do_cop_ok; auto. }
  assert (P : In (CName i) (dkeys (mi_constrs m'))).
  { unfold add_constraint in E. apply bind_ok in E. destruct E as (u & _ & E). apply bind_ok in E. destruct E as (u' & _ & E). inversion E; subst. simpl.
    apply dset_keys_in; auto using ckey_eqbP. }
  assert (Q : mi_ok m1 /\ In (CName i) (dkeys (mi_constrs m1))).
  { unfold m1. clear E m1. revert m' OK' P. induction ops as [|o ops IH]; intros m' OK' P; simpl; auto. apply IH.
    - intros H. apply NR. right; auto.
    - apply do_cop_ok; auto.
    - destruct o as [l' s' r'|k]; simpl.
      + destruct (add_constraint m' l' s' r') as [[mm j]|] eqn:E'; auto. unfold add_constraint in E'.
        apply bind_ok in E'. destruct E' as (u & _ & E'). apply bind_ok in E'. destruct E' as (u' & _ & E'). inversion E'; subst. simpl.
        apply dset_keys_in; auto using ckey_eqbP.
      + unfold remove_constraint. destruct (dmem ckey_eqb (mi_constrs m') k); auto. simpl.
        apply ddel_keys_in; auto using ckey_eqbP; [apply OK'|]. split; auto. intros Ek; subst k. apply NR. left; auto. }
  destruct Q as (OK1 & P1). unfold remove_constraint. rewrite (proj2 (dmem_true ckey_eqb ckey_eqbP _ _) P1).
  eexists. split; [reflexivity|]. simpl. split; auto. split; auto. intros k c. rewrite ddel_In by apply OK1. tauto.
Qed.

Lemma set_objective_inv : forall m e m', set_objective m e = Ok m' -> mi_vars m' = mi_vars m /\ (forall v q, In (v, q) e -> v < length (mi_vars m)) /\
  mi_obj m' = Some (fold_left (fun d p => dset Nat.eqb d (fst p) (snd p)) e (match mi_obj m with None => [] | Some d => d end)).
Proof.
  intros m e m' E. unfold set_objective in E. apply bind_ok in E. destruct E as (u & E0 & E). inversion E; subst m'. simpl.
  split; auto. split; [|destruct (mi_obj m); auto]. apply assert_ok in E0. rewrite forallb_forall in E0. intros v q Hv. apply E0 in Hv. apply Nat.ltb_lt in Hv. auto.
Qed.

Lemma affine_get : forall e v q, dget Nat.eqb (affine e) v = Some q -> In (v, q) e.
Proof.
  unfold affine. induction e as [|[u p] e IH] using rev_ind; intros v q H; [discriminate|].
  rewrite fold_left_app in H. simpl in H. rewrite dget_dset in H by apply Nat.eqb_spec. apply in_or_app.
  destruct (Nat.eqb_spec u v); [inversion H; subst; right; left; auto|left; auto].
Qed.

Lemma C36_partial_seq : forall es m m1 e m2, mi_obj m = None -> foldM set_objective es m = Ok m1 -> set_objective m1 e = Ok m2 -> NoDup (map fst e) ->
  (forall e' v q, In e' es -> In (v, q) e' -> In v (map fst e) \/ (q == 0)%Q) ->
  forall x, objective m2 x = lin e x.
Proof.
  intros es m m1 e m2 H0 E1 E2 ND H x.
  assert (I : mi_vars m1 = mi_vars m /\ forall d, mi_obj m1 = Some d -> NoDup (dkeys d) /\
     forall v q, dget Nat.eqb d v = Some q -> v < length (mi_vars m) /\ exists e', In e' es /\ In (v, q) e').
  { refine (foldM_inv _ _ _ (fun pre m1 => mi_vars m1 = mi_vars m /\ forall d, mi_obj m1 = Some d -> NoDup (dkeys d) /\
     forall v q, dget Nat.eqb d v = Some q -> v < length (mi_vars m) /\ exists e', In e' pre /\ In (v, q) e') _ _ _ _ _ E1).
    - split; auto. intros d Hd. congruence.
    - intros pre e' s1 s2 (V & I) E _. destruct (set_objective_inv _ _ _ E) as (V2 & B2 & O2). split; [congruence|].
      intros d Hd. rewrite O2 in Hd. inversion Hd; subst d. clear Hd.
      assert (ND1 : NoDup (dkeys (match mi_obj s1 with None => [] | Some d => d end))).
      { destruct (mi_obj s1) as [d|] eqn:Ed; [apply (I d eq_refl)|constructor]. }
      split; [apply fold_dset_nodup; auto|]. intros v q Hv. rewrite dget_fold in Hv. destruct (dget Nat.eqb (affine e') v) eqn:Ea.
      + inversion Hv; subst. apply affine_get in Ea. split; [rewrite <- V; eapply B2; eauto|]. exists e'. split; auto. apply in_or_app. right; left; auto.
      + destruct (mi_obj s1) as [d|] eqn:Ed; [|discriminate]. destruct (I d eq_refl) as (_ & I2). destruct (I2 v q Hv) as (A & e'' & B & C).
        split; auto. exists e''. split; auto. apply in_or_app; auto. }
  destruct I as (V & I). eapply C36_partial_lemma; eauto.
  - intros d v Hd Hv. destruct (I d Hd) as (_ & I2). apply (dget_Some_key Nat.eqb Nat.eqb_spec) in Hv. destruct Hv as (q & Hv).
    destruct (I2 v q Hv) as (_ & e' & A & B). unfold coef_of. rewrite Hv. eauto.
  - intros d Hd. destruct (I d Hd) as (I1 & I2). split; auto. intros v Hv. apply (dget_Some_key Nat.eqb Nat.eqb_spec) in Hv. destruct Hv as (q & Hv).
    rewrite V. apply (I2 v q Hv).
Qed.

Lemma C37_partial_all : forall o m0 ops0 l s r m' i ops, milp_new o = Ok m0 ->
  add_constraint (fold_left do_cop ops0 m0) l s r = Ok (m', i) -> ~ In (RemC (CName i)) ops ->
  let m1 := fold_left do_cop ops m' in
  exists m2, remove_constraint m1 (CName i) = Ok m2 /\ mi_vars m2 = mi_vars m1 /\ mi_obj m2 = mi_obj m1 /\
    forall k c, In (k, c) (mi_constrs m2) <-> In (k, c) (mi_constrs m1) /\ k <> CName i.
Proof.
  intros o m0 ops0 l s r m' i ops E H. eapply C37_partial_lemma; eauto. apply cops_ok.
  destruct o; inversion E; subst; split; simpl; try constructor; intros; contradiction.
Qed.

Definition c37_model : milp := MkMilp Minimise [] [] 0 None.
Lemma C37_refuted_ex : exists m l s r m' i, add_constraint m l s r = Ok (m', i) /\ remove_constraint m' (CInt i) = Err KeyError.
Proof. exists c36_model, [(0, 1%Q); (1, (-1)%Q)], SLe, 3%Q. do 2 eexists. split; reflexivity. Qed.
