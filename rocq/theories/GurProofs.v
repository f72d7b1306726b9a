(** The Gurobi operations build the same models as the PuLP operations, as
    long as no constraint is empty. *)
From Coq Require Import String List Arith ZArith QArith Qreals Reals Bool Lia Lra.
From Coq Require Lqa.
From Verif Require Import Base BaseFacts Num Matrix InvDict SpecMdp SpecLp SpecMilp SpecGurobi SumFacts Amdp ReachForm Milp MilpProofs LpExists RfFacts Subsystem Formulations MilpBuild MilpForm Problems QsFixed Gurobi.
Import ListNotations.
Local Open Scope nat_scope.

Lemma f2_length : forall A B (R : A -> B -> Prop) l l', Forall2 R l l' -> length l = length l'.
Proof. intros A B R l l' H. induction H; cbn; auto. Qed.

(** Related results. *)
Definition rsim {A B} (R : A -> B -> Prop) (x : res A) (y : res B) : Prop :=
  match x, y with Ok a, Ok b => R a b | Err e, Err e' => e = e' | _, _ => False end.

Lemma rsim_bind : forall A B C D (R : A -> B -> Prop) (R' : C -> D -> Prop) x y f g,
  rsim R x y -> (forall a b, R a b -> rsim R' (f a) (g b)) -> rsim R' (bind x f) (bind y g).
Proof. intros A B C D R R' [a|e] [b|e'] f g H HF; cbn in *; try contradiction; auto. Qed.

Lemma rsim_eq : forall A (R : A -> A -> Prop) (x : res A), (forall a, R a a) -> rsim R x x.
Proof. intros A R [a|e] H; cbn; auto. Qed.

Lemma rsim_same : forall A B C (R : B -> C -> Prop) (x : res A) f g, (forall a, x = Ok a -> rsim R (f a) (g a)) -> rsim R (bind x f) (bind x g).
Proof. intros A B C R [a|e] f g H; cbn; auto. Qed.

Lemma rsim_foldM : forall A S T (R : S -> T -> Prop) (f : S -> A -> res S) (g : T -> A -> res T) l s t,
  R s t -> (forall s t a, In a l -> R s t -> rsim R (f s a) (g t a)) -> rsim R (foldM f l s) (foldM g l t).
Proof.
  intros A S T R f g l. induction l as [|a l IH]; intros s t H HF; cbn [foldM]; [exact H|].
  apply (rsim_bind _ _ _ _ R); [apply HF; [left; auto|exact H]|]. intros s' t' H'. apply IH; [exact H'|]. intros s2 t2 a2 Ha H2. apply HF; [right; auto|auto].
Qed.

Lemma g_affine_id : forall e, NoDup (map fst e) -> g_affine e = e.
Proof.
  intros e ND. unfold g_affine. assert (G : forall (d : dict nat Q), (forall v, In v (map fst e) -> ~ In v (dkeys d)) ->
    fold_left (fun d p => dset Nat.eqb d (fst p) (match dget Nat.eqb d (fst p) with Some q => (q + snd p)%Q | None => snd p end)) e d = d ++ e).
  { induction e as [|[v q] e IH]; intros d HD; [rewrite app_nil_r; reflexivity|]. cbn [map fst] in ND. inversion ND as [|? ? HN ND']; subst. cbn [fold_left fst snd].
    assert (DN : dget Nat.eqb d v = None) by (apply (dget_None Nat.eqb Nat.eqb_spec); apply HD; left; reflexivity). rewrite DN, (dset_fresh Nat.eqb Nat.eqb_spec) by (apply HD; left; reflexivity).
    rewrite IH; [rewrite <- app_assoc; reflexivity|exact ND'|]. intros w Hw HI. unfold dkeys in HI. rewrite map_app in HI. apply in_app_or in HI. destruct HI as [HI|[HI|[]]]; [apply (HD w); [right; exact Hw|exact HI]|cbn in HI; subst; auto]. }
  rewrite G; [reflexivity|]. intros v _ [].
Qed.

(** Value of a Gurobi expression, repeated variables included. *)
Lemma lin_g_affine : forall e x, lin (g_affine e) x = lin e x.
Proof.
  intros e x. unfold g_affine. assert (G : forall (d : dict nat Q), NoDup (dkeys d) ->
    lin (fold_left (fun d p => dset Nat.eqb d (fst p) (match dget Nat.eqb d (fst p) with Some q => (q + snd p)%Q | None => snd p end)) e d) x = (lin d x + lin e x)%R).
  { induction e as [|[v q] e IH]; intros d HD; [cbn; lra|]. cbn [fold_left fst snd lin]. rewrite IH by (apply (dset_nodup Nat.eqb Nat.eqb_spec); exact HD).
    rewrite lin_dset by exact HD. destruct (dget Nat.eqb d v) as [q0|] eqn:E; [rewrite Q2R_plus|]; lra. }
  rewrite G by constructor. cbn [lin]. lra.
Qed.

(** Same variables and solutions; the objectives may differ. *)
Definition gsim (m gm : milp) : Prop := mi_dir m = mi_dir gm /\ mi_vars m = mi_vars gm /\ mi_ok m /\ mi_ok gm /\ forall x, feasible m x <-> feasible gm x.

Lemma gsim_assert : forall m gm e, mi_vars m = mi_vars gm -> assert_expression m e = assert_expression gm e.
Proof. intros m gm e H. unfold assert_expression. rewrite H. reflexivity. Qed.

Lemma g_add_same : forall m l s r, l <> [] -> NoDup (map fst l) -> g_add_constraint m l s r = add_constraint m l s r.
Proof. intros m l s r HL ND. unfold g_add_constraint, add_constraint. rewrite g_affine_id, affine_id by exact ND. destruct l; [congruence|]. reflexivity. Qed.

Lemma g_add_inv : forall m l s r m' i, mi_ok m -> g_add_constraint m l s r = Ok (m', i) ->
  mi_ok m' /\ mi_vars m' = mi_vars m /\ mi_obj m' = mi_obj m /\ mi_dir m' = mi_dir m /\ forall x, feasible m' x <-> feasible m x /\ sat_constr x (MkConstr (g_affine l) s r).
Proof.
  intros m l s r m' i OK E. assert (AI : affine (g_affine l) = g_affine l).
  { apply affine_id. change (NoDup (dkeys (g_affine l))). unfold g_affine. assert (G : forall (d : dict nat Q), NoDup (dkeys d) -> NoDup (dkeys (fold_left (fun d p => dset Nat.eqb d (fst p) (match dget Nat.eqb d (fst p) with Some q => (q + snd p)%Q | None => snd p end)) l d))).
    { clear. induction l as [|p l IH]; intros d HD; cbn [fold_left]; [exact HD|]. apply IH. apply (dset_nodup Nat.eqb Nat.eqb_spec). exact HD. }
    apply G. constructor. }
  unfold g_add_constraint in E. apply bind_ok in E. destruct E as (u & E0 & E). apply bind_ok in E. destruct E as (u1 & E1 & E). destruct l as [|p l]; [discriminate|]. injection E as <- _.
  assert (EA : forall v q, In (v, q) (g_affine (p :: l)) -> v < length (mi_vars m)).
  { intros v q Hin. assert (K : In v (map fst (p :: l))).
    { clear -Hin. unfold g_affine in Hin. assert (G : forall e (d : dict nat Q) w, In w (dkeys (fold_left (fun d p => dset Nat.eqb d (fst p) (match dget Nat.eqb d (fst p) with Some q => (q + snd p)%Q | None => snd p end)) e d)) -> In w (map fst e) \/ In w (dkeys d)).
      { induction e as [|[a b] e IH]; intros d w Hw; cbn [fold_left] in Hw; [right; exact Hw|]. destruct (IH _ _ Hw) as [H|H]; [left; right; exact H|]. apply (dset_keys_in Nat.eqb Nat.eqb_spec) in H. destruct H as [->|H]; [left; left; reflexivity|right; exact H]. }
      destruct (G (p :: l) [] v) as [H|[]]; [|exact H]. change v with (fst (v, q)). apply in_map. exact Hin. }
    apply in_map_iff in K. destruct K as ([w q'] & <- & HI). apply (assert_expression_ok _ _ _ E1 w q' HI). }
  assert (EQ : add_constraint m (g_affine (p :: l)) s r = Ok (MkMilp (mi_dir m) (mi_vars m) (dset ckey_eqb (mi_constrs m) (CName (mi_count m)) (MkConstr (g_affine (p :: l)) s r)) (S (mi_count m)) (mi_obj m), mi_count m)).
  { unfold add_constraint. rewrite E0. cbn [bind]. unfold assert_expression. replace (forallb _ _) with true; [cbn [assert_ bind]; rewrite AI; reflexivity|]. symmetry. apply forallb_forall. intros [v q] Hv. apply Nat.ltb_lt. exact (EA v q Hv). }
  destruct (add_constraint_inv _ _ _ _ _ _ OK EQ) as (A & B & C & D & _ & F). rewrite AI in F. auto.
Qed.

(** Adding the same constraint on both sides. *)
Lemma gsim_add : forall m gm l s r, gsim m gm -> l <> [] -> (NoDup (map fst l) \/ forall x, feasible m x -> (sat_constr x (MkConstr (affine l) s r) <-> sat_constr x (MkConstr (g_affine l) s r))) ->
  rsim (fun a b => gsim (fst a) (fst b)) (add_constraint m l s r) (g_add_constraint gm l s r).
Proof.
  intros m gm l s r (D & V & OK & OK' & F) HL HC. destruct (add_constraint m l s r) as [[m' i]|e] eqn:E1; destruct (g_add_constraint gm l s r) as [[gm' i']|e'] eqn:E2.
  - cbn. destruct (add_constraint_inv _ _ _ _ _ _ OK E1) as (A1 & A2 & A3 & A4 & _ & A5). destruct (g_add_inv _ _ _ _ _ _ OK' E2) as (B1 & B2 & B3 & B4 & B5).
    split; [congruence|]. split; [congruence|]. split; [auto|]. split; [auto|]. intros x. rewrite A5, B5, F. destruct HC as [ND|HC]; [rewrite affine_id, g_affine_id by exact ND; tauto|].
    split; intros (Fx & H); (split; [exact Fx|]); apply F in Fx; apply (HC x Fx); exact H.
  - exfalso. unfold add_constraint in E1. unfold g_add_constraint in E2. rewrite <- (gsim_assert m gm l V) in E2. destruct s; try discriminate; cbn [bind] in *; destruct (assert_expression m l); cbn [bind] in *; try discriminate; destruct l; congruence.
  - exfalso. unfold add_constraint in E1. unfold g_add_constraint in E2. rewrite <- (gsim_assert m gm l V) in E2. destruct s; try discriminate; cbn [bind] in *; destruct (assert_expression m l); cbn [bind] in *; try discriminate.
  - cbn. unfold add_constraint in E1. unfold g_add_constraint in E2. rewrite <- (gsim_assert m gm l V) in E2. destruct s; cbn [bind] in *; try congruence; destruct (assert_expression m l); cbn [bind] in *; try congruence; destruct l; congruence.
Qed.

Lemma sat_var_push : forall m v x, feasible (push_var m v) x <-> sat_var v (x (length (mi_vars m))) /\ feasible m x.
Proof.
  intros m v x. unfold feasible, push_var. cbn [mi_vars mi_constrs]. split.
  - intros (HV & HC). split; [apply (HV (length (mi_vars m))); rewrite nth_error_app2 by lia; rewrite Nat.sub_diag; reflexivity|]. split; [|exact HC].
    intros j w Hj. apply HV. rewrite nth_error_app1; [exact Hj|]. apply nth_error_Some. congruence.
  - intros (HS & HV & HC). split; [|exact HC]. intros j w Hj. destruct (Nat.lt_ge_cases j (length (mi_vars m))) as [L|L]; [rewrite nth_error_app1 in Hj by exact L; apply HV; exact Hj|].
    rewrite nth_error_app2 in Hj by exact L. destruct (j - length (mi_vars m)) as [|k] eqn:Ek; [|destruct k; discriminate]. cbn in Hj. injection Hj as <-. replace j with (length (mi_vars m)) by lia. exact HS.
Qed.

Lemma gsim_push : forall m gm v, gsim m gm -> gsim (push_var m v) (push_var gm v).
Proof.
  intros m gm v (D & V & OK & OK' & F). split; [exact D|]. split; [cbn; congruence|]. split; [exact OK|]. split; [exact OK'|]. intros x. rewrite !sat_var_push, V, F. reflexivity.
Qed.

(** The bounds given by the library. *)
Definition plain_var (d : domain * option Q * option Q) : Prop := snd (fst d) = Some 0%Q /\ (fst (fst d) = DReal \/ fst (fst d) = DInteger \/ fst (fst d) = DBinary /\ (snd d = None \/ snd d = Some 1%Q) \/ fst (fst d) = OtherDomain).
Lemma plain_mk : forall d, plain_var d -> g_mk_var (fst (fst d)) (snd (fst d)) (snd d) = mk_var (fst (fst d)) (snd (fst d)) (snd d).
Proof. intros [[dom lb] ub] (E & H). cbn [fst snd] in *. subst lb. destruct H as [-> | [-> | [[-> [-> | ->]] | ->]]]; reflexivity. Qed.

Lemma gsim_vars : forall ds m gm, gsim m gm -> Forall plain_var ds ->
  rsim (fun a b => gsim (fst a) (fst b) /\ snd a = snd b) (add_variables_w_bounds m ds) (g_add_variables_w_bounds gm ds).
Proof.
  intros ds m gm H HP. unfold add_variables_w_bounds, g_add_variables_w_bounds. apply rsim_foldM; [auto|]. intros [m1 l1] [gm1 l2] [[dom lb] ub] Hin (H1 & H2). cbn [fst snd] in H1, H2. subst l2.
  rewrite Forall_forall in HP. rewrite (plain_mk _ (HP _ Hin) : g_mk_var dom lb ub = mk_var dom lb ub). apply rsim_same. intros v _. cbn [rsim fst snd]. split; [apply gsim_push; exact H1|]. destruct H1 as (_ & V & _). rewrite V. reflexivity.
Qed.

(** Coefficients of the PuLP objective outside [K] are zero. *)
Definition ozero (K : list nat) (m : milp) : Prop := forall d, mi_obj m = Some d -> NoDup (dkeys d) /\ forall v, In v (dkeys d) -> v < length (mi_vars m) /\ (In v K \/ (coef_of d v == 0)%Q).

Lemma ozero_mono : forall K K' m m', ozero K m -> (forall v, In v K -> In v K') -> mi_obj m' = mi_obj m -> length (mi_vars m) <= length (mi_vars m') -> ozero K' m'.
Proof. intros K K' m m' H HK O L d Ed. rewrite O in Ed. destruct (H d Ed) as (A & B). split; [exact A|]. intros v Hv. destruct (B v Hv) as (C & D). split; [lia|]. destruct D; auto. Qed.

Lemma ozero_set : forall K m e m', ozero K m -> NoDup K -> map fst e = K -> set_objective m e = Ok m' -> ozero K m' /\ forall x, objective m' x = lin e x.
Proof.
  intros K m e m' H NK KE E. assert (ND : NoDup (map fst e)) by (rewrite KE; exact NK). split.
  - intros d Ed. destruct (set_objective_inv _ _ _ E) as (V & B & O). rewrite O in Ed. injection Ed as <-. rewrite V. split.
    + apply fold_dset_nodup. destruct (mi_obj m) as [d|] eqn:Eo; [apply (H d Eo)|constructor].
    + intros v Hv. apply (dget_Some_key Nat.eqb Nat.eqb_spec) in Hv. destruct Hv as (q & Hq). rewrite dget_fold in Hq. unfold coef_of. rewrite dget_fold. destruct (dget Nat.eqb (affine e) v) as [q'|] eqn:Ea.
      * apply affine_get in Ea. split; [apply (B v q' Ea)|]. left. rewrite <- KE. change v with (fst (v, q')). apply in_map. exact Ea.
      * destruct (mi_obj m) as [d|] eqn:Eo; [|discriminate]. destruct (H d Eo) as (_ & H2). assert (Hv : In v (dkeys d)) by (apply (dget_Some_key Nat.eqb Nat.eqb_spec); eauto). destruct (H2 v Hv) as (A1 & A2).
        split; [exact A1|]. destruct A2 as [A2|A2]; [left; exact A2|]. right. exact A2.
  - apply (C36_partial_lemma m e m' ND E).
    + intros d v Hd Hv. destruct (H d Hd) as (_ & H2). destruct (H2 v Hv) as (_ & [A|A]); [left; rewrite KE; exact A|right; exact A].
    + intros d Hd. destruct (H d Hd) as (H1 & H2). split; [exact H1|]. intros v Hv. apply (H2 v Hv).
Qed.

Lemma gsim_obj : forall m gm e, gsim m gm -> rsim gsim (set_objective m e) (g_set_objective gm e).
Proof.
  intros m gm e H. pose proof H as (D & V & OK & OK' & F). unfold set_objective, g_set_objective. rewrite (gsim_assert m gm e V). apply rsim_same. intros u _. cbn [rsim].
  split; [exact D|]. split; [exact V|]. split; [exact OK|]. split; [exact OK'|]. exact F.
Qed.

Lemma g_obj_value : forall m e m', g_set_objective m e = Ok m' -> forall x, objective m' x = lin e x.
Proof. intros m e m' E x. unfold g_set_objective in E. apply bind_ok in E. destruct E as (u & _ & E). injection E as <-. unfold objective. cbn [mi_obj]. apply lin_g_affine. Qed.

Lemma row_items_nodup : forall row, NoDup (map fst (row_items row)).
Proof.
  intros row. unfold row_items. assert (H : forall (l : list (nat * Q)) f, NoDup (map fst l) -> NoDup (map fst (filter f l))).
  { induction l as [|a l IH]; intros f H; cbn; [constructor|]. inversion H as [|? ? HN HD]; subst. destruct (f a); [|apply IH; exact HD]. cbn. constructor; [|apply IH; exact HD].
    intros HI. apply HN. apply in_map_iff in HI. destruct HI as (b & <- & Hb). apply filter_In in Hb. apply in_map. apply Hb. }
  apply H. assert (G : forall (l : list nat) (l' : list Q), length l = length l' -> map fst (combine l l') = l) by (clear; induction l as [|a l IH]; intros [|b l'] E; cbn in *; try discriminate; [auto|rewrite IH; auto]).
  rewrite G by apply seq_length. apply seq_NoDup.
Qed.

Lemma rsim_weaken : forall A B (R R' : A -> B -> Prop) x y, rsim R x y -> (forall a b, x = Ok a -> y = Ok b -> R a b -> R' a b) -> rsim R' x y.
Proof. intros A B R R' [a|e] [b|e'] H HW; cbn in *; auto. Qed.

Lemma new_ok : forall o m, milp_new o = Ok m -> gsim m m /\ mi_obj m = None.
Proof.
  intros o m H. destruct o; cbn in H; try discriminate; injection H as <-; (split; [|reflexivity]); (split; [reflexivity|]; split; [reflexivity|]; split; [|split; [|tauto]]); (split; [constructor|intros k c []]).
Qed.

(** from_coefficients with lower bounds zero and no empty row. *)
Lemma from_sim : forall A n b opt s o bounds, (forall row, In row A -> row_items row <> []) ->
  (forall j lu, nth_error bounds j = Some lu -> fst lu = Some 0%Q) ->
  rsim gsim (from_coefficients A n b opt (repeat DReal n) s o (Some bounds)) (g_from_coefficients A n b opt (repeat DReal n) s o (Some bounds)).
Proof.
  intros A n b opt s o bounds HA HB. unfold from_coefficients, g_from_coefficients. apply rsim_same. intros m0 E0. apply rsim_same. intros ds Ed.
  apply (rsim_bind _ _ _ _ (fun a b => gsim (fst a) (fst b) /\ snd a = snd b)).
  - apply gsim_vars; [apply (new_ok _ _ E0)|]. apply mapM_ok in Ed. clear -Ed HB. set (l := seq 0 n) in Ed. assert (G : forall l ds, Forall2 (fun x y => (let* d := of_opt IndexError (nth_error (repeat DReal n) x) in
        (let* lu := of_opt IndexError (nth_error bounds x) in Ok (d, fst lu, snd lu))) = Ok y) l ds -> Forall plain_var ds); [|exact (G l ds Ed)].
    clear l ds Ed. intros l ds HF. induction HF as [|j d l ds E HF IH]; constructor; [|exact IH]. apply bind_ok in E. destruct E as (dom & Edom & E). apply bind_ok in E. destruct E as (lu & Elu & E). injection E as <-.
    assert (dom = DReal). { destruct (nth_error (repeat DReal n) j) eqn:EN in Edom; [|discriminate]. cbn in Edom. injection Edom as <-. apply nth_error_In in EN. apply repeat_spec in EN. auto. }
    destruct (nth_error bounds j) as [lu'|] eqn:EN in Elu; [|discriminate]. cbn in Elu. injection Elu as <-. split; cbn; [apply (HB _ _ EN)|left; auto].
  - intros [m1 l1] [gm1 l2] (H1 & _). cbn [fst] in H1. apply rsim_same. intros obj _. apply (rsim_bind _ _ _ _ gsim); [apply gsim_obj; exact H1|]. intros m2 gm2 H2.
    apply rsim_foldM; [exact H2|]. intros m3 gm3 i _ H3. apply rsim_same. intros row Er. apply rsim_same. intros rhs _.
    assert (IR : In row A). { destruct (nth_error A i) eqn:EN in Er; [|discriminate]. cbn in Er. injection Er as <-. apply nth_error_In in EN. exact EN. }
    apply (rsim_bind _ _ _ _ (fun a b => gsim (fst a) (fst b))); [apply gsim_add; [exact H3|apply HA; exact IR|left; apply row_items_nodup]|].
    intros [m4 k4] [gm4 k4'] H4. exact H4.
Qed.

(** All coefficients of the first objective are zero. *)
Lemma from_zero : forall A n b domains s o bounds m, from_coefficients A n b (repeat 0%Q n) domains s o bounds = Ok m -> ozero [] m.
Proof.
  intros A n b domains s o bounds m E. unfold from_coefficients in E. apply bind_ok in E. destruct E as (m0 & E0 & E). apply bind_ok in E. destruct E as (ds & Ed & E). apply bind_ok in E. destruct E as ([m1 l1] & E1 & E).
  apply bind_ok in E. destruct E as (obj & Eo & E). apply bind_ok in E. destruct E as (m2 & E2 & E).
  assert (O1 : mi_obj m1 = None).
  { destruct (new_ok _ _ E0) as (_ & N0). unfold add_variables_w_bounds in E1.
    refine (foldM_inv _ _ _ (fun _ st => mi_obj (fst st) = None) _ (m0, []) (m1, l1) N0 _ E1). intros pre [[dom lb] ub] [ma la] [mb lb'] HM E' _. cbn [fst] in *. apply bind_ok in E'. destruct E' as (v & _ & E'). injection E' as <- <-. exact HM. }
  assert (Z2 : ozero [] m2).
  { intros d Hd. destruct (set_objective_inv _ _ _ E2) as (V & B & O). rewrite O, O1 in Hd. injection Hd as <-. split; [apply fold_dset_nodup; constructor|]. intros v Hv. apply (dget_Some_key Nat.eqb Nat.eqb_spec) in Hv. destruct Hv as (q & Hq).
    pose proof (affine_get obj v q Hq) as HI. rewrite V. split; [apply (B _ _ HI)|]. right. unfold coef_of. rewrite Hq. apply mapM_ok in Eo. clear -Eo HI. revert Eo. generalize (seq 0 n). intros l HF. induction HF as [|j p l ps E HF IH]; [destruct HI|].
    destruct HI as [->|HI]; [|apply IH; exact HI]. apply bind_ok in E. destruct E as (q' & Eq & E). injection E as <- <-. destruct (nth_error (repeat 0%Q n) j) eqn:EN in Eq; [|discriminate]. cbn in Eq. injection Eq as <-. apply nth_error_In in EN. apply repeat_spec in EN. rewrite EN. reflexivity. }
  assert (G : mi_obj m = mi_obj m2 /\ mi_vars m = mi_vars m2).
  { clear -E. revert m2 E. induction (seq 0 (length A)) as [|i l IH]; intros m2 E; cbn [foldM] in E; [injection E as <-; auto|]. apply bind_ok in E. destruct E as (m3 & E3 & E). destruct (IH _ E) as (A1 & A2). rewrite A1, A2.
    apply bind_ok in E3. destruct E3 as (row & _ & E3). apply bind_ok in E3. destruct E3 as (rhs & _ & E3). apply bind_ok in E3. destruct E3 as ([m4 k] & E4 & E3). injection E3 as <-. unfold add_constraint in E4.
    apply bind_ok in E4. destruct E4 as (? & _ & E4). apply bind_ok in E4. destruct E4 as (? & _ & E4). injection E4 as <- _. auto. }
  apply (ozero_mono [] [] m2); [exact Z2|auto|apply G|]. rewrite (proj2 G). auto.
Qed.

(** ** Groups *)
Definition gsi (p gp : milp * dict nat (list nat)) : Prop :=
  gsim (fst p) (fst gp) /\ snd p = snd gp /\ NoDup (dkeys (snd p)) /\ ozero (dkeys (snd p)) (fst p) /\ forall s, In s (dkeys (snd p)) -> s < length (mi_vars (fst p)).

Lemma lower_zero : forall m x sigma v, nth_error (mi_vars m) sigma = Some v -> v_lb v = Some 0%Q -> feasible m x -> (0 <= x sigma)%R.
Proof. intros m x sigma v E L (HV & _). destruct (HV _ _ E) as (A & _). rewrite L in A. cbn in A. rewrite RMicromega.Q2R_0 in A. exact A. Qed.

Lemma group_sim : forall dom ub n p gp G, gsi p gp -> n <= length (mi_vars (fst p)) -> (forall u, ub = Some u -> length u <= n) -> dom = DReal \/ dom = DBinary ->
  rsim (fun a b => gsi a b /\ n <= length (mi_vars (fst a))) (add_group dom ub p G) (g_add_group dom ub gp G).
Proof.
  intros dom ub n [m ind] [gm ind'] G (SM & EI & ND & OZ & KB) LN LU HD. cbn [fst snd] in *. subst ind'. unfold add_group, g_add_group.
  assert (PV : Forall plain_var [(dom, Some 0%Q, match ub with Some _ => Some 1%Q | None => None end)]).
  { constructor; [|constructor]. split; [reflexivity|]. cbn [fst snd]. destruct HD as [-> | ->]; [auto|]. right; right; left. split; [reflexivity|]. destruct ub; auto. }
  assert (EV : exists v, mk_var dom (Some 0%Q) (match ub with Some _ => Some 1%Q | None => None end) = Ok v /\ v_lb v = Some 0%Q) by (destruct HD as [-> | ->]; eexists; split; reflexivity).
  destruct EV as (v & EV & LB). pose proof (plain_mk _ (Forall_inv PV)) as EG. cbn [fst snd] in EG. unfold add_variables_w_bounds, g_add_variables_w_bounds. cbn [foldM]. rewrite EG, EV. cbn [bind app nth_error of_opt].
  set (sg := length (mi_vars m)). assert (Esg : length (mi_vars gm) = sg) by (unfold sg; destruct SM as (_ & V & _); rewrite V; reflexivity). rewrite Esg.
  assert (NS : ~ In sg (dkeys ind)) by (intros H; apply KB in H; unfold sg in H; lia).
  apply (rsim_bind _ _ _ _ (fun a b => gsim a b /\ mi_obj a = mi_obj m /\ mi_vars a = mi_vars m ++ [v])).
  - apply rsim_foldM; [split; [apply gsim_push; exact SM|split; reflexivity]|]. intros m1 gm1 w Hw (S1 & O1 & V1). apply rsim_same. intros k Ek.
    apply (rsim_bind _ _ _ _ (fun a b => gsim (fst a) (fst b) /\ mi_obj (fst a) = mi_obj m /\ mi_vars (fst a) = mi_vars m ++ [v])); [|intros [m2 i2] [gm2 i2'] H2; exact H2].
    eapply rsim_weaken; [apply gsim_add; [exact S1|discriminate|]|].
    + destruct (Nat.eq_dec w sg) as [->|NE]; [|left; cbn; constructor; [intros [H|[]]; auto|constructor; [intros []|constructor]]]. right. intros x Fx.
      assert (k = 1%Q). { destruct ub as [u|]; [|injection Ek as <-; reflexivity]. exfalso. destruct (nth_error u sg) eqn:EN in Ek; [|discriminate]. assert (sg < length u) by (apply nth_error_Some; congruence). specialize (LU u eq_refl). unfold sg in *. lia. }
      subst k. assert (X0 : (0 <= x sg)%R). { apply (lower_zero m1 x sg v); [rewrite V1, nth_error_app2 by (unfold sg; lia); unfold sg; rewrite Nat.sub_diag; reflexivity|exact LB|exact Fx]. }
      assert (EA : affine [(sg, 1%Q); (sg, (- (1))%Q)] = [(sg, (- (1))%Q)]) by (unfold affine; cbn; rewrite Nat.eqb_refl; reflexivity). rewrite EA.
      unfold sat_constr. cbn [c_sense c_lhs c_rhs rel]. rewrite lin_g_affine. cbn [lin]. rewrite Q2R_opp, RMicromega.Q2R_0, RMicromega.Q2R_1. split; intros; lra.
    + intros [m2 i2] [gm2 i2'] E2 _ H2. cbn [fst] in *. split; [exact H2|]. destruct (add_constraint_inv _ _ _ _ _ _ (proj1 (proj2 (proj2 S1))) E2) as (_ & A2 & A3 & _). split; congruence.
  - intros m3 gm3 (S3 & O3 & V3). cbn [rsim]. split; [|cbn [fst]; rewrite V3, app_length; lia]. split; [exact S3|]. cbn [fst snd]. split; [reflexivity|]. split; [apply (dset_nodup Nat.eqb Nat.eqb_spec); exact ND|]. split.
    + apply (ozero_mono (dkeys ind) _ m); [exact OZ| |exact O3|rewrite V3, app_length; lia]. intros w Hw. apply (dset_keys_in Nat.eqb Nat.eqb_spec). right; exact Hw.
    + intros w Hw. apply (dset_keys_in Nat.eqb Nat.eqb_spec) in Hw. rewrite V3, app_length. cbn [length]. destruct Hw as [-> |Hw]; [unfold sg; lia|]. apply KB in Hw. lia.
Qed.

Lemma from_length : forall A n b opt domains s o bounds m, from_coefficients A n b opt domains s o bounds = Ok m -> length (mi_vars m) = n.
Proof.
  intros A n b opt domains s o bounds m E. unfold from_coefficients in E. apply bind_ok in E. destruct E as (m0 & E0 & E). apply bind_ok in E. destruct E as (ds & Ed & E). apply bind_ok in E. destruct E as ([m1 l1] & E1 & E).
  apply bind_ok in E. destruct E as (obj & Eo & E). apply bind_ok in E. destruct E as (m2 & E2 & E).
  assert (L1 : length (mi_vars m1) = n).
  { apply mapM_ok in Ed. apply f2_length in Ed. rewrite seq_length in Ed. rewrite Ed. unfold add_variables_w_bounds in E1.
    refine (foldM_inv _ _ _ (fun pre st => length (mi_vars (fst st)) = length pre) _ (m0, []) (m1, l1) _ _ E1); [cbn; destruct o; cbn in E0; try discriminate; injection E0 as <-; reflexivity|].
    intros pre [[dom lb] ub] [ma la] [mb lb'] HM E' _. cbn [fst] in *. apply bind_ok in E'. destruct E' as (v & _ & E'). injection E' as <- <-. cbn [push_var mi_vars]. rewrite !app_length, HM. reflexivity. }
  destruct (set_objective_inv _ _ _ E2) as (V2 & _). rewrite <- L1, <- V2. refine (foldM_inv _ _ _ (fun _ m => length (mi_vars m) = length (mi_vars m2)) _ m2 m eq_refl _ E).
  intros pre i m3 m4 H E3 _. apply bind_ok in E3. destruct E3 as (row & _ & E3). apply bind_ok in E3. destruct E3 as (rhs & _ & E3). apply bind_ok in E3. destruct E3 as ([m5 k] & E4 & E3). injection E3 as <-. unfold add_constraint in E4.
  apply bind_ok in E4. destruct E4 as (? & _ & E4). apply bind_ok in E4. destruct E4 as (? & _ & E4). injection E4 as <- _. exact H.
Qed.

(** formulations.py 244-255 with PuLP. *)
Definition p_model (A : list (list Q)) (n : nat) (b : list Q) (bounds : list (option Q * option Q)) (ub : option (list Q)) (groups : list (list nat)) (relaxed : bool) : res (milp * dict nat (list nat)) :=
  let* m := from_coefficients A n b (repeat 0%Q n) (repeat DReal n) SLe Minimise (Some bounds) in
  let* (m, ind) := add_indicator_constraints m ub groups (if relaxed then DReal else DBinary) in
  let* m := set_objective m (all_ones ind) in
  Ok (m, ind).

Definition gfull (p gp : milp * dict nat (list nat)) : Prop := gsi p gp /\ forall x, objective (fst p) x = objective (fst gp) x.

Lemma model_sim : forall A n b bounds ub groups relaxed, (forall row, In row A -> row_items row <> []) -> (forall j lu, nth_error bounds j = Some lu -> fst lu = Some 0%Q) -> (forall u, ub = Some u -> length u <= n) ->
  rsim gfull (p_model A n b bounds ub groups relaxed) (g_model A n b bounds ub groups relaxed false).
Proof.
  intros A n b bounds ub groups relaxed HA HB HU. unfold p_model, g_model.
  apply (rsim_bind _ _ _ _ (fun a b => gsim a b /\ ozero [] a /\ n <= length (mi_vars a))).
  { eapply rsim_weaken; [apply from_sim; assumption|]. intros m gm E _ H. split; [exact H|]. split; [apply (from_zero _ _ _ _ _ _ _ _ E)|]. rewrite (from_length _ _ _ _ _ _ _ _ _ E). auto. }
  intros m gm (H & OZ & LN). apply (rsim_bind _ _ _ _ (fun a b => gsi a b)).
  - unfold add_indicator_constraints, g_add_indicator_constraints. eapply rsim_weaken; [apply (rsim_foldM _ _ _ (fun a b => gsi a b /\ n <= length (mi_vars (fst a))))|].
    + split; [|exact LN]. split; [exact H|]. cbn [fst snd dkeys map]. split; [reflexivity|]. split; [constructor|]. split; [exact OZ|intros s []].
    + intros p gp G _ (H1 & H2). apply group_sim; auto. destruct relaxed; auto.
    + intros a b0 _ _ (H1 & _). exact H1.
  - intros [m1 ind] [gm1 ind'] (S1 & EI & ND & OZ1 & KB). cbn [fst snd] in *. subst ind'. apply (rsim_bind _ _ _ _ (fun a b => gsim a b /\ ozero (dkeys ind) a /\ length (mi_vars a) = length (mi_vars m1) /\ forall x, objective a x = objective b x)).
    + eapply rsim_weaken; [apply gsim_obj; exact S1|]. intros a b0 Ea Eb HS. split; [exact HS|].
      assert (KE : map fst (all_ones ind) = dkeys ind) by (unfold all_ones, dkeys; rewrite map_map; reflexivity).
      destruct (ozero_set _ _ _ _ OZ1 ND KE Ea) as (O2 & V2). split; [exact O2|]. split; [rewrite (proj1 (set_objective_inv _ _ _ Ea)); reflexivity|]. intros x. rewrite V2, (g_obj_value _ _ _ Eb). reflexivity.
    + intros m2 gm2 (S2 & O2 & L2 & V2). cbn [rsim]. split; [|exact V2]. split; [exact S2|]. cbn [fst snd]. split; [reflexivity|]. split; [exact ND|]. split; [exact O2|]. intros s Hs. rewrite L2. apply KB. exact Hs.
Qed.

Lemma gsim_same : forall p gp, gfull p gp -> same_model (fst p) (fst gp) /\ snd p = snd gp.
Proof. intros p gp ((S & E & _) & O). destruct S as (D & V & _ & _ & F). split; [|exact E]. split; [exact D|]. split; [exact V|]. split; [exact F|exact O]. Qed.

(** ** The loop of the heuristic *)
Definition same_call (c c' : milp * sresult) : Prop := same_model (fst c) (fst c') /\ snd c = snd c'.
Definition plain_up (K : list nat) (up : list Q -> res (list (nat * Q) * list extra)) : Prop :=
  forall v obj cs, up v = Ok (obj, cs) -> map fst obj = K /\ forall l s r, In (l, s, r) cs -> l <> [] /\ NoDup (map fst l).

Lemma gsim_cons : forall K cs m gm, gsim m gm -> ozero K m -> (forall l s r, In (l, s, r) cs -> l <> [] /\ NoDup (map fst l)) ->
  rsim (fun a b => gsim a b /\ ozero K a) (add_constraints m cs) (g_add_constraints gm cs).
Proof.
  intros K cs m gm H OZ HC. unfold add_constraints, g_add_constraints. apply rsim_foldM; [auto|]. intros m1 gm1 [[l s] r] Hin (H1 & O1). destruct (HC _ _ _ Hin) as (HL & HN).
  apply (rsim_bind _ _ _ _ (fun a b => gsim (fst a) (fst b) /\ ozero K (fst a))); [|intros [m2 i2] [gm2 i2'] H2; exact H2].
  eapply rsim_weaken; [apply gsim_add; [exact H1|exact HL|left; exact HN]|]. intros [m2 i2] [gm2 i2'] E2 _ H2. cbn [fst] in *. split; [exact H2|].
  destruct (add_constraint_inv _ _ _ _ _ _ (proj1 (proj2 (proj2 H1))) E2) as (_ & A2 & A3 & _). apply (ozero_mono K K m1); [exact O1|auto|exact A3|rewrite A2; auto].
Qed.

Lemma loop_sim : forall S S' up K rf md n, NoDup K -> plain_up K up -> forall rounds i m gm obj g gc, gsim m gm -> ozero K m -> map fst obj = K -> g_qs_loop S up rf md n rounds i gm obj = (g, gc) ->
  (forall j c mm, nth_error gc j = Some c -> S' (i + j) mm = snd c) ->
  exists pc, qs_loop S' up rf md n rounds i m obj = (g, pc) /\ Forall2 same_call pc gc.
Proof.
  intros S S' up K rf md n NK UP. induction rounds as [|rounds IH]; intros i m gm obj g gc H OZ KO E HS; cbn [g_qs_loop] in E; [injection E as <- <-; exists []; split; [reflexivity|constructor]|].
  cbn [qs_loop]. pose proof (gsim_obj m gm obj H) as SO. destruct (set_objective m obj) as [m1|e] eqn:E1; destruct (g_set_objective gm obj) as [gm1|e'] eqn:E2; cbn in SO; try contradiction.
  2:{ subst e'. injection E as <- <-. exists []. split; [reflexivity|constructor]. }
  destruct (ozero_set _ _ _ _ OZ NK KO E1) as (OZ1 & V1).
  assert (SM : same_model m1 gm1). { destruct SO as (D & V & _ & _ & F). split; [exact D|]. split; [exact V|]. split; [exact F|]. intros x. rewrite V1, (g_obj_value _ _ _ E2). reflexivity. }
  cbv zeta in E |- *. assert (ER : S' i m1 = S i gm1).
  { rewrite <- (Nat.add_0_r i) at 1. apply (HS 0 (gm1, S i gm1)). destruct (sr_status (S i gm1)); try (injection E as <- <-; reflexivity). destruct (mk_subsystem _ _ _ _) in E; injection E as <- <-; reflexivity. }
  rewrite ER. assert (SC : same_call (m1, S i gm1) (gm1, S i gm1)) by (split; [exact SM|reflexivity]).
  destruct (sr_status (S i gm1)) eqn:EST; try (injection E as <- <-; eexists; split; [reflexivity|constructor; [exact SC|constructor]]).
  destruct (mk_subsystem rf (firstn n (sr_vec (S i gm1))) md false) as [w|e] eqn:EW; [|injection E as <- <-; eexists; split; [reflexivity|constructor; [exact SC|constructor]]].
  destruct (up (sr_vec (S i gm1))) as [[obj2 cs]|e] eqn:EU; cbn [bind] in E |- *; [|injection E as <- <-; eexists; split; [reflexivity|constructor; [exact SC|constructor]]].
  destruct (UP _ _ _ EU) as (KO2 & HC). pose proof (gsim_cons K cs m1 gm1 SO OZ1 HC) as SA. destruct (add_constraints m1 cs) as [m2|e] eqn:EA; destruct (g_add_constraints gm1 cs) as [gm2|e'] eqn:EB; cbn in SA; try contradiction; cbn [bind] in E |- *.
  2:{ subst e'. injection E as <- <-. eexists; split; [reflexivity|constructor; [exact SC|constructor]]. }
  destruct SA as (S2 & OZ2). destruct (g_qs_loop S up rf md n rounds (Datatypes.S i) gm2 obj2) as [g2 c2] eqn:EL. cbn [fst snd] in E. injection E as <- <-.
  destruct (IH (Datatypes.S i) m2 gm2 obj2 g2 c2 S2 OZ2 KO2 EL) as (pc & EP & HF). { intros j c mm Hj. replace (Datatypes.S i + j) with (i + Datatypes.S j) by lia. apply HS. exact Hj. }
  rewrite EP. cbn [fst snd]. eexists. split; [reflexivity|]. constructor; [exact SC|exact HF].
Qed.

(** The library's updaters. *)
Lemma combine_keys : forall (ind : dict nat (list nat)) (vs : list Q) (f : (nat * list nat) * Q -> Q), length vs = length ind -> map fst (map (fun gv => (fst (fst gv), f gv)) (combine ind vs)) = dkeys ind.
Proof. induction ind as [|g ind IH]; intros [|v vs] f H; cbn in *; try discriminate; [reflexivity|]. f_equal. apply IH. lia. Qed.

Lemma fixed_plain : forall rf md ind, plain_up (dkeys ind) (fixed_zeros rf md ind).
Proof.
  intros rf md ind v obj cs E. unfold fixed_zeros in E. apply bind_ok in E. destruct E as (vs & Ev & E). injection E as <- <-. apply mapM_ok in Ev. apply f2_length in Ev. split; [apply (combine_keys ind vs (fun gv => if Qlt_bool 0 (snd gv) then (1 / snd gv)%Q else 0%Q)); lia|].
  intros l s r Hin. apply in_map_iff in Hin. destruct Hin as (gv & E & _). injection E as <- _ _. split; [discriminate|]. cbn. constructor; [intros []|constructor].
Qed.
Lemma inverse_plain : forall rf md ind, plain_up (dkeys ind) (inverse_result rf md ind).
Proof.
  intros rf md ind v obj cs E. unfold inverse_result in E. apply bind_ok in E. destruct E as (vs & Ev & E). cbv zeta in E. injection E as <- <-. apply mapM_ok in Ev. apply f2_length in Ev. split; [|intros l s r []].
  match goal with |- map fst (map (fun gv => (fst (fst gv), @?f gv)) _) = _ => apply (combine_keys ind vs f) end. lia.
Qed.
