(** Editing the constraints of Gurobi models. *)
From Coq Require Import List Arith ZArith QArith Qreals Reals Bool Lia Lra.
From Verif Require Import Base BaseFacts Num Milp MilpProofs SpecLp Gurobi GurProofs GurEdit SpecGurEdit.
Import ListNotations.
Local Open Scope nat_scope.

Definition cof (d : dict nat Q) (v : nat) : R := match dget Nat.eqb d v with Some q => Q2R q | None => 0%R end.

Lemma dot_split : forall n c c' k (r : R) x, k < n -> (forall v, v <> k -> Q2R (c' v) = Q2R (c v)) -> Q2R (c' k) = (Q2R (c k) + r)%R -> dot n c' x = (dot n c x + r * x k)%R.
Proof.
  intros n c c' k r x Hk HO HK. assert (L : forall m, m <= k -> dot m c' x = dot m c x). { induction m as [|m IH]; intros Hm; [reflexivity|]. cbn [dot]. rewrite IH by lia. rewrite HO by lia. reflexivity. }
  induction n as [|n IH]; [lia|]. cbn [dot]. destruct (Nat.eq_dec n k) as [->|Hn].
  - rewrite (L k) by lia. rewrite HK. ring.
  - rewrite IH by lia. rewrite HO by lia. ring.
Qed.
Lemma dot_zero : forall n c x, (forall v, Q2R (c v) = 0%R) -> dot n c x = 0%R.
Proof. induction n as [|n IH]; intros c x H; [reflexivity|]. cbn [dot]. rewrite IH, H by auto. ring. Qed.
Lemma dot_ext : forall n c c' x, (forall v, Q2R (c v) = Q2R (c' v)) -> dot n c x = dot n c' x.
Proof. induction n as [|n IH]; intros c c' x H; [reflexivity|]. cbn [dot]. rewrite (IH c c'), H by auto. reflexivity. Qed.

Lemma lin_dot : forall (d : dict nat Q) n (c : nat -> Q) x, NoDup (dkeys d) -> (forall v, In v (dkeys d) -> v < n) -> (forall v, Q2R (c v) = cof d v) -> lin d x = dot n c x.
Proof.
  induction d as [|[k q] d IH]; intros n c x ND HK HC.
  - symmetry. apply dot_zero. intros v. rewrite HC. reflexivity.
  - inversion ND as [|? ? HN ND']; subst. cbn [lin].
    set (c0 := fun v => if v =? k then 0%Q else c v). rewrite (dot_split n c0 c k (Q2R q) x).
    + rewrite (IH n c0 x ND'); [ring|intros v Hv; apply HK; right; exact Hv|]. intros v. unfold c0, cof. destruct (Nat.eqb_spec v k) as [->|Hv].
      * assert (E : dget Nat.eqb d k = None) by (apply (dget_None Nat.eqb Nat.eqb_spec); exact HN). rewrite E. apply RMicromega.Q2R_0.
      * rewrite HC. unfold cof. cbn [dget]. destruct (Nat.eqb_spec v k); [contradiction|reflexivity].
    + apply HK. left. reflexivity.
    + intros v Hv. unfold c0. destruct (Nat.eqb_spec v k); [contradiction|reflexivity].
    + unfold c0. rewrite Nat.eqb_refl, HC. unfold cof. cbn [dget]. rewrite Nat.eqb_refl, RMicromega.Q2R_0. ring.
Qed.

Lemma g_affine_facts : forall l, NoDup (dkeys (g_affine l)) /\ (forall v, In v (dkeys (g_affine l)) <-> In v (map fst l)) /\ forall v, Q2R (total l v) = cof (g_affine l) v.
Proof.
  intros l. unfold g_affine. assert (G : forall (d : dict nat Q), NoDup (dkeys d) -> let d' := fold_left (fun d p => dset Nat.eqb d (fst p) (match dget Nat.eqb d (fst p) with Some q => (q + snd p)%Q | None => snd p end)) l d in
    NoDup (dkeys d') /\ (forall v, In v (dkeys d') <-> In v (dkeys d) \/ In v (map fst l)) /\ forall v, cof d' v = (cof d v + Q2R (total l v))%R).
  { induction l as [|[k q] l IH]; intros d ND; cbn [fold_left map fst snd total].
    - split; [exact ND|]. split; [intros v; cbn; tauto|]. intros v. rewrite RMicromega.Q2R_0. ring.
    - cbv zeta. destruct (IH (dset Nat.eqb d k (match dget Nat.eqb d k with Some q0 => (q0 + q)%Q | None => q end)) (dset_nodup Nat.eqb Nat.eqb_spec _ _ _ ND)) as (A & B & C). split; [exact A|]. split.
      + intros v. rewrite B, (dset_keys_in Nat.eqb Nat.eqb_spec). cbn [In]. intuition.
      + intros v. rewrite C. unfold cof at 1 2. rewrite (dget_dset Nat.eqb Nat.eqb_spec). destruct (Nat.eqb_spec k v) as [->|Hv].
        * rewrite Q2R_plus. destruct (dget Nat.eqb d v); [rewrite Q2R_plus|]; ring.
        * reflexivity. }
  destruct (G [] (NoDup_nil _)) as (A & B & C). split; [exact A|]. split; [intros v; rewrite B; cbn; tauto|]. intros v. rewrite C. unfold cof. cbn [dget]. ring.
Qed.

Definition good (n : nat) (c : constr) (d : demand) : Prop :=
  c_sense c = d_sense d /\ c_rhs c = d_rhs d /\ NoDup (dkeys (c_lhs c)) /\ (forall v, In v (dkeys (c_lhs c)) -> v < n) /\ forall v, Q2R (d_coef d v) = cof (c_lhs c) v.

Lemma good_meets : forall n c d x, good n c d -> (sat_constr x c <-> meets n x d).
Proof. intros n c d x (A & B & C & D & E). unfold sat_constr, meets. rewrite A, B, (lin_dot _ n (d_coef d) x C D E). tauto. Qed.
Lemma good_more : forall n c d, good n c d -> good (S n) c d.
Proof. intros n c d (A & B & C & D & E). unfold good. split; [exact A|]. split; [exact B|]. split; [exact C|]. split; [intros v Hv; specialize (D v Hv); lia|exact E]. Qed.

Definition entry_ok (m : milp) (n : nat) (ds : list (option demand)) (i : nat) : Prop :=
  match nth_error ds i with
  | Some (Some d) => exists c, dget ckey_eqb (mi_constrs m) (CName i) = Some c /\ good n c d
  | _ => dget ckey_eqb (mi_constrs m) (CName i) = None
  end.
Definition einv (m : milp) (st : ledger) : Prop :=
  length (mi_vars m) = fst st /\ mi_count m = length (snd st) /\ NoDup (dkeys (mi_constrs m)) /\ (forall k c, In (k, c) (mi_constrs m) -> exists i, k = CName i) /\
  forall i, entry_ok m (fst st) (snd st) i.

Lemma put_nth : forall A (l : list A) i a j, i < length l -> nth_error (put i a l) j = if i =? j then Some a else nth_error l j.
Proof.
  induction l as [|b l IH]; intros i a j H; [cbn in H; lia|]. destruct i as [|i]; destruct j as [|j]; cbn [put nth_error Nat.eqb]; try reflexivity. apply IH. cbn in H. lia.
Qed.
Lemma put_length : forall A (l : list A) i a, length (put i a l) = length l.
Proof. induction l as [|b l IH]; intros [|i] a; cbn; auto. Qed.

Lemma g_constraint_ok : forall m st i, einv m st -> match nth_error (snd st) i with
  | Some (Some d) => exists c, g_constraint m i = Ok c /\ dget ckey_eqb (mi_constrs m) (CName i) = Some c /\ good (fst st) c d
  | _ => exists e, g_constraint m i = Err e end.
Proof.
  intros m (n & ds) i (LV & LC & ND & KO & EN). cbn [fst snd] in *. specialize (EN i). unfold entry_ok in EN. unfold g_constraint. rewrite LC.
  destruct (nth_error ds i) as [[d|]|] eqn:E.
  - assert (L : i < length ds) by (apply nth_error_Some; congruence). apply Nat.ltb_lt in L. rewrite L. destruct EN as (c & EC & G). exists c. rewrite EC. auto.
  - destruct (i <? length ds); [rewrite EN; exists TypeError; reflexivity|eauto].
  - apply nth_error_None in E. apply Nat.ltb_ge in E. rewrite E. eauto.
Qed.

Lemma var_push : forall m d lb ub, match d with OtherDomain => g_add_variables_w_bounds m [(d, lb, ub)] = Err AssertionError
  | _ => exists v, g_add_variables_w_bounds m [(d, lb, ub)] = Ok (push_var m v, [length (mi_vars m)]) end.
Proof. intros m d lb ub. destruct d; unfold g_add_variables_w_bounds; cbn [foldM g_mk_var bind app]; eauto. Qed.

Lemma post_inv : forall m st o, einv m st -> einv (do_edit m o) (post st o).
Proof.
  intros m (n & ds) o I. pose proof I as (LV & LC & ND & KO & EN). cbn [fst snd] in *. destruct o as [d lb ub|e|l s r|i q v|i]; unfold do_edit; cbn [post].
  - pose proof (var_push m d lb ub) as H. destruct d; try (destruct H as (v & H)); rewrite H; cbn [bind or_same]; try exact I;
      (split; [cbn [push_var mi_vars fst]; rewrite app_length; cbn; lia|]; split; [exact LC|]; split; [exact ND|]; split; [exact KO|]; intros i; specialize (EN i); unfold entry_ok in *; cbn [fst snd push_var mi_constrs];
       destruct (nth_error ds i) as [[d|]|]; auto; destruct EN as (c & E1 & E2); exists c; split; [exact E1|apply good_more; exact E2]).
  - unfold g_set_objective. destruct (assert_expression m e); cbn [bind or_same]; [|exact I]. repeat split; auto.
  - unfold g_add_constraint. unfold assert_expression. rewrite LV. destruct s; cbn [bind andb]; try exact I;
      (destruct (forallb (fun p => fst p <? n) l) eqn:EF; cbn [assert_ bind andb]; [|rewrite andb_false_r; exact I]; destruct l as [|p l]; [exact I|]; cbn [length Nat.eqb negb andb or_same bind];
       assert (FR : ~ In (CName (mi_count m)) (dkeys (mi_constrs m))) by (intros HI; apply (dget_None ckey_eqb ckey_eqbP) in HI; [exact HI|]; specialize (EN (mi_count m)); unfold entry_ok in EN; rewrite LC in *; rewrite (proj2 (nth_error_None ds (length ds)) (le_n _)) in EN; exact EN);
       set (l' := p :: l) in *; destruct (g_affine_facts l') as (F1 & F2 & F3);
       split; [exact LV|]; split; [cbn [mi_count snd]; rewrite app_length; cbn; lia|]; split; [apply (dset_nodup ckey_eqb ckey_eqbP); exact ND|]; split;
       [intros k c HI; cbn [mi_constrs] in HI; rewrite (dset_fresh ckey_eqb ckey_eqbP) in HI by exact FR; apply in_app_or in HI; destruct HI as [HI|[HI|[]]]; [apply (KO _ _ HI)|injection HI as <- <-; eauto]|];
       intros i; unfold entry_ok; cbn [mi_constrs snd fst]; rewrite (dget_dset ckey_eqb ckey_eqbP); cbn [ckey_eqb]; rewrite LC; destruct (Nat.eqb_spec (length ds) i) as [<-|Hi];
       [rewrite nth_error_app2, Nat.sub_diag by lia; cbn [nth_error]; eexists; split; [reflexivity|]; repeat split; [exact F1| |exact F3]; cbn [c_lhs]; intros v Hv; apply F2 in Hv; apply in_map_iff in Hv; destruct Hv as (y & <- & Hy); rewrite forallb_forall in EF; apply Nat.ltb_lt; apply EF; exact Hy
       |specialize (EN i); unfold entry_ok in EN; destruct (Nat.lt_ge_cases i (length ds)) as [Hl|Hl];
        [rewrite nth_error_app1 by exact Hl; exact EN
        |rewrite (proj2 (nth_error_None ds i)) in EN by lia; rewrite (proj2 (nth_error_None (ds ++ _) i)) by (rewrite app_length; cbn; lia); exact EN]]).
  - pose proof (g_constraint_ok m (n, ds) i I) as GC. cbn [fst snd] in GC. unfold g_add_to_constraint. rewrite LC, LV.
    destruct (nth_error ds i) as [[d|]|] eqn:E.
    + assert (L : i < length ds) by (apply nth_error_Some; congruence). pose proof L as L'. apply Nat.ltb_lt in L'. rewrite L'. cbn [bind]. destruct (v <? n) eqn:EV; cbn [bind or_same]; [|exact I].
      destruct GC as (c & EC & EG & (G1 & G2 & G3 & G4 & G5)). rewrite EC. cbn [bind or_same].
      split; [exact LV|]. split; [cbn [mi_count snd]; rewrite put_length; reflexivity|]. split; [apply (dset_nodup ckey_eqb ckey_eqbP); exact ND|]. split.
      { intros k c' HI. cbn [mi_constrs] in HI. assert (HK : In k (dkeys (dset ckey_eqb (mi_constrs m) (CName i) (MkConstr (dset Nat.eqb (c_lhs c) v q) (c_sense c) (c_rhs c))))) by (apply in_map_iff; exists (k, c'); auto).
        apply (dset_keys_in ckey_eqb ckey_eqbP) in HK. destruct HK as [->|HK]; [eauto|]. apply in_map_iff in HK. destruct HK as ((k' & c'') & <- & HK). apply (KO _ _ HK). }
      intros j. unfold entry_ok. cbn [mi_constrs fst snd]. rewrite put_nth by exact L. rewrite (dget_dset ckey_eqb ckey_eqbP). cbn [ckey_eqb]. destruct (Nat.eqb_spec i j) as [<-|Hj]; [|apply (EN j)].
      eexists. split; [reflexivity|]. split; [exact G1|]. split; [exact G2|]. cbn [c_lhs d_coef]. split; [apply (dset_nodup Nat.eqb Nat.eqb_spec); exact G3|]. split.
      * intros w Hw. apply (dset_keys_in Nat.eqb Nat.eqb_spec) in Hw. destruct Hw as [->|Hw]; [apply Nat.ltb_lt; exact EV|apply G4; exact Hw].
      * intros w. unfold cof. rewrite (dget_dset Nat.eqb Nat.eqb_spec), (Nat.eqb_sym v w). destruct (w =? v); [reflexivity|apply G5].
    + destruct GC as (e & GC). rewrite GC. destruct (i <? length ds); cbn [bind or_same]; [|exact I]. destruct (v <? n); cbn [bind or_same]; exact I.
    + destruct GC as (e & GC). rewrite GC. destruct (i <? length ds); cbn [bind or_same]; [|exact I]. destruct (v <? n); cbn [bind or_same]; exact I.
  - pose proof (g_constraint_ok m (n, ds) i I) as GC. cbn [fst snd] in GC. unfold g_remove_constraint. destruct (nth_error ds i) as [[d|]|] eqn:E.
    + assert (L : i < length ds) by (apply nth_error_Some; congruence). destruct GC as (c & EC & _). rewrite EC. cbn [bind or_same].
      split; [exact LV|]. split; [cbn [mi_count snd]; rewrite put_length; exact LC|]. split; [apply (ddel_nodup ckey_eqb ckey_eqbP); exact ND|]. split.
      { intros k c' HI. apply ddel_In in HI; [|exact ND]. apply (KO k c'). tauto. }
      intros j. unfold entry_ok. cbn [mi_constrs fst snd]. rewrite put_nth by exact L. rewrite (dget_ddel ckey_eqb ckey_eqbP) by exact ND. cbn [ckey_eqb]. destruct (Nat.eqb_spec i j) as [<-|Hj]; [reflexivity|apply (EN j)].
    + destruct GC as (e & GC). rewrite GC. exact I.
    + destruct GC as (e & GC). rewrite GC. exact I.
Qed.

Lemma runs_inv : forall ops m st, einv m st -> einv (fold_left do_edit ops m) (fold_left post ops st).
Proof. induction ops as [|o ops IH]; intros m st I; [exact I|]. cbn [fold_left]. apply IH. apply post_inv. exact I. Qed.

(** C112 *)
Lemma C112_edits_lemma : forall o m0 ops, milp_new o = Ok m0 -> let m := fold_left do_edit ops m0 in let n := fst (fold_left post ops (0, [])) in let ds := snd (fold_left post ops (0, [])) in
  length (mi_vars m) = n /\
  (forall x, feasible m x <-> (forall j v, nth_error (mi_vars m) j = Some v -> sat_var v (x j)) /\ forall i d, nth_error ds i = Some (Some d) -> meets n x d) /\
  (forall l s r m' i, g_add_constraint m l s r = Ok (m', i) -> i = length ds) /\
  (forall i, (exists m', g_remove_constraint m i = Ok m') <-> exists d, nth_error ds i = Some (Some d)) /\
  (forall i q v, (exists m', g_add_to_constraint m i q v = Ok m') <-> v < n /\ exists d, nth_error ds i = Some (Some d)) /\
  (forall i m', g_remove_constraint m i = Ok m' -> mi_vars m' = mi_vars m /\ mi_obj m' = mi_obj m /\ mi_dir m' = mi_dir m) /\
  (forall i q v m', g_add_to_constraint m i q v = Ok m' -> mi_vars m' = mi_vars m /\ mi_obj m' = mi_obj m /\ mi_dir m' = mi_dir m).
Proof.
  intros o m0 ops E0 m n ds. assert (I0 : einv m0 (0, [])).
  { destruct o; try discriminate E0; injection E0 as <-; (split; [reflexivity|]; split; [reflexivity|]; split; [constructor|]; split; [intros k c []|]; intros [|i]; reflexivity). }
  pose proof (runs_inv ops m0 (0, []) I0) as I. fold m in I. pose proof I as (LV & LC & ND & KO & EN). fold n ds in LV, LC, EN. split; [exact LV|]. split; [|split; [|split; [|split; [|split]]]].
  - intros x. unfold feasible. split; intros (FV & FC); (split; [exact FV|]).
    + intros i d E. specialize (EN i). unfold entry_ok in EN. rewrite E in EN. destruct EN as (c & EC & G). apply (good_meets n c d x G). apply (FC (CName i)). apply (dget_In ckey_eqb ckey_eqbP). exact EC.
    + intros k c HI. destruct (KO k c HI) as (i & ->). specialize (EN i). unfold entry_ok in EN. apply (In_dget ckey_eqb ckey_eqbP) in HI; [|exact ND].
      destruct (nth_error ds i) as [[d|]|] eqn:E; [|congruence|congruence]. destruct EN as (c' & EC & G). assert (c' = c) by congruence. subst c'. apply (good_meets n c d x G). apply (FC i d E).
  - intros l s r m' i E. unfold g_add_constraint in E. apply bind_ok in E. destruct E as (? & _ & E). apply bind_ok in E. destruct E as (? & _ & E). destruct l; [discriminate E|]. injection E as _ <-. exact LC.
  - intros i. pose proof (g_constraint_ok m _ i I) as GC. fold n ds in GC. unfold g_remove_constraint. destruct (nth_error ds i) as [[d|]|] eqn:E.
    + destruct GC as (c & EC & _). rewrite EC. cbn [bind]. split; intros _; eauto.
    + destruct GC as (e & EC). rewrite EC. split; intros (? & X); discriminate X.
    + destruct GC as (e & EC). rewrite EC. split; intros (? & X); discriminate X.
  - intros i q v. pose proof (g_constraint_ok m _ i I) as GC. fold n ds in GC. unfold g_add_to_constraint. rewrite LC, LV. destruct (v <? n) eqn:EV.
    + apply Nat.ltb_lt in EV. destruct (nth_error ds i) as [[d|]|] eqn:E.
      * assert (L : i < length ds) by (apply nth_error_Some; congruence). apply Nat.ltb_lt in L. rewrite L. destruct GC as (c & EC & _). cbn [bind]. rewrite EC. cbn [bind]. split; intros _; eauto.
      * destruct GC as (e & EC). rewrite EC. split; [intros (? & X); destruct (i <? length ds); discriminate X|intros (_ & ? & X); discriminate X].
      * destruct GC as (e & EC). rewrite EC. split; [intros (? & X); destruct (i <? length ds); discriminate X|intros (_ & ? & X); discriminate X].
    + apply Nat.ltb_ge in EV. split; [intros (? & X); destruct (i <? length ds); discriminate X|lia].
  - intros i m' E. unfold g_remove_constraint in E. apply bind_ok in E. destruct E as (? & _ & E). injection E as <-. auto.
  - intros i q v m' E. unfold g_add_to_constraint in E. apply bind_ok in E. destruct E as (? & _ & E). apply bind_ok in E. destruct E as (? & _ & E). apply bind_ok in E. destruct E as (? & _ & E). injection E as <-. auto.
Qed.

(** The claim of the name: [q * x_v] is added to the left hand side. *)
Lemma C112_adds_lemma : exists o m0 ops n d i q v x m', milp_new o = Ok m0 /\ fold_left post ops (0, []) = (n, [Some d]) /\ i = 0 /\ v < n /\
  g_add_to_constraint (fold_left do_edit ops m0) i q v = Ok m' /\ feasible m' x /\
  ~ SpecLp.rel (d_sense d) (dot n (d_coef d) x + Q2R q * x v)%R (Q2R (d_rhs d)).
Proof.
  exists Minimise, (MkMilp Minimise [] [] 0 None), [EVar DReal None None; EAdd [(0, 1%Q)] SLe 1%Q], 1, (MkDemand (total [(0, 1%Q)]) SLe 1%Q), 0, 1%Q, 0, (fun _ => 1%R). eexists.
  split; [reflexivity|]. split; [reflexivity|]. split; [reflexivity|]. split; [lia|]. split; [vm_compute; reflexivity|]. split.
  - split.
    + intros j v H. destruct j as [|j]; [|destruct j; discriminate H]. injection H as <-. split; [cbn; unfold Q2R; cbn; lra|]. split; [exact I|intros X; discriminate X].
    + intros k c [H|[]]. injection H as <- <-. unfold sat_constr. cbn. unfold Q2R; cbn; lra.
  - cbn. unfold Q2R; cbn. lra.
Qed.

(** A variable that the constraint does not have yet is added. *)
Lemma dot_new : forall n d q v x, v < n -> (d_coef d v == 0)%Q ->
  dot n (fun w => if w =? v then q else d_coef d w) x = (dot n (d_coef d) x + Q2R q * x v)%R.
Proof.
  intros n d q v x Hv H0. apply dot_split; [exact Hv| |].
  - intros w Hw. destruct (Nat.eqb_spec w v); [contradiction|reflexivity].
  - rewrite Nat.eqb_refl. apply Qeq_eqR in H0. rewrite H0, RMicromega.Q2R_0. ring.
Qed.
Lemma C112_new_lemma : forall o m0 ops i d q v m', milp_new o = Ok m0 -> let m := fold_left do_edit ops m0 in let n := fst (fold_left post ops (0, [])) in let ds := snd (fold_left post ops (0, [])) in
  nth_error ds i = Some (Some d) -> (d_coef d v == 0)%Q -> g_add_to_constraint m i q v = Ok m' ->
  forall x, feasible m' x <-> (forall j w, nth_error (mi_vars m) j = Some w -> sat_var w (x j)) /\ SpecLp.rel (d_sense d) (dot n (d_coef d) x + Q2R q * x v)%R (Q2R (d_rhs d)) /\ forall j d', j <> i -> nth_error ds j = Some (Some d') -> meets n x d'.
Proof.
  intros o m0 ops i d q v m' E0 m n ds E H0 EM x.
  destruct (C112_edits_lemma o m0 ops E0) as (_ & _ & _ & _ & HC & _ & HV). cbv zeta in HC, HV. fold m n ds in HC, HV. destruct (proj1 (HC i q v) (ex_intro _ m' EM)) as (Hv & _). destruct (HV i q v m' EM) as (EV & _).
  destruct (C112_edits_lemma o m0 (ops ++ [ECoef i q v]) E0) as (_ & HF & _). cbv zeta in HF. rewrite !fold_left_app in HF. cbn [fold_left] in HF. fold m in HF. unfold do_edit at 1 2 in HF. rewrite EM in HF. cbn [or_same] in HF.
  assert (EP : fold_left post ops (0, []) = (n, ds)) by (unfold n, ds; destruct (fold_left post ops (0, [])); reflexivity). rewrite EP in HF. cbn [post] in HF. rewrite E in HF. pose proof Hv as Hv'. apply Nat.ltb_lt in Hv'. rewrite Hv' in HF. cbn [fst snd] in HF.
  assert (L : i < length ds) by (apply nth_error_Some; congruence). rewrite HF, EV. split.
  - intros (A & B). split; [exact A|]. split.
    + specialize (B i _ (eq_trans (put_nth _ ds i _ i L) ltac:(rewrite Nat.eqb_refl; reflexivity))). unfold meets in B. cbn [d_sense d_coef d_rhs] in B. rewrite dot_new in B by auto. exact B.
    + intros j d' Hj Ej. apply (B j d'). rewrite put_nth by exact L. destruct (Nat.eqb_spec i j); [congruence|exact Ej].
  - intros (A & B & C). split; [exact A|]. intros j d' Ej. rewrite put_nth in Ej by exact L. destruct (Nat.eqb_spec i j) as [<-|Hj].
    + injection Ej as <-. unfold meets. cbn [d_sense d_coef d_rhs]. rewrite dot_new by auto. exact B.
    + apply (C j d'); auto.
Qed.
