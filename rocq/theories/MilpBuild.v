(** Facts about the models built by formulations.py. *)
From Coq Require Import String List Arith ZArith QArith Qreals Reals Bool Lia Lra.
From Coq Require Lqa.
From Verif Require Import Base BaseFacts Num Matrix InvDict SpecMdp SpecLp SumFacts Milp MilpProofs LpExists RfFacts Amdp ReachForm Formulations.
Import ListNotations.
Local Open Scope nat_scope.

Lemma add_constraint_inv : forall m l s r m' i, mi_ok m -> add_constraint m l s r = Ok (m', i) ->
  mi_ok m' /\ mi_vars m' = mi_vars m /\ mi_obj m' = mi_obj m /\ mi_dir m' = mi_dir m /\ (forall v q, In (v, q) l -> v < length (mi_vars m)) /\
  forall x, feasible m' x <-> feasible m x /\ sat_constr x (MkConstr (affine l) s r).
Proof.
  intros m l s r m' i OK H. unfold add_constraint in H. apply bind_ok in H. destruct H as (u & E0 & H). apply bind_ok in H. destruct H as (u1 & E1 & H).
  injection H as E Ei. pose proof (assert_expression_ok _ _ _ E1) as HV.
  assert (NK : dget ckey_eqb (mi_constrs m) (CName (mi_count m)) = None).
  { destruct (dget ckey_eqb (mi_constrs m) (CName (mi_count m))) as [c|] eqn:Eg; auto. exfalso.
    destruct OK as [_ OK]. assert (In (CName (mi_count m), c) (mi_constrs m)) as HI.
    { clear -Eg. induction (mi_constrs m) as [|[k v] d IH]; [discriminate|]. cbn [dget] in Eg. destruct (ckey_eqbP (CName (mi_count m)) k) as [->|]; [inversion Eg; left; auto|right; auto]. }
    destruct (OK _ _ HI) as (n & En & Hn). inversion En. lia. }
  assert (EC : dset ckey_eqb (mi_constrs m) (CName (mi_count m)) (MkConstr (affine l) s r) = mi_constrs m ++ [(CName (mi_count m), MkConstr (affine l) s r)]).
  { clear -NK. induction (mi_constrs m) as [|[k v] d IH]; [reflexivity|]. cbn [dget dset] in *. destruct (ckey_eqb (CName (mi_count m)) k); [discriminate|]. rewrite IH; auto. }
  rewrite EC in E. subst m'. cbn [mi_vars mi_obj mi_dir mi_constrs mi_count]. split.
  { split; cbn [mi_constrs mi_count].
    - rewrite <- EC. apply (dset_nodup ckey_eqb ckey_eqbP). apply OK.
    - intros k c Hk. apply in_app_or in Hk. destruct Hk as [Hk|[Hk|[]]].
      + destruct OK as [_ OK]. destruct (OK _ _ Hk) as (n & En & Hn). exists n. split; auto.
      + inversion Hk; subst. eauto. }
  split; [reflexivity|]. split; [reflexivity|]. split; [reflexivity|]. split; [exact HV|]. intros x. eapply feasible_snoc; reflexivity.
Qed.

(** ** Indicators *)
Definition k_of (ub : option (list Q)) (v : nat) : option Q := match ub with Some u => nth_error u v | None => Some 1%Q end.
Definition ind_con (v sigma : nat) (k : Q) : constr := MkConstr (affine [(v, 1%Q); (sigma, (- k)%Q)]) SLe 0%Q.
Definition ind_var (dom : domain) (ub : option (list Q)) : option Q := match ub with Some _ => Some 1%Q | None => None end.

Lemma ind_con_sat : forall v sigma k x, v <> sigma -> (sat_constr x (ind_con v sigma k) <-> (x v <= Q2R k * x sigma)%R).
Proof.
  intros v sigma k x H. unfold sat_constr, ind_con. cbn [c_sense c_lhs c_rhs rel]. rewrite affine_id.
  - cbn [lin]. rewrite Q2R_opp, RMicromega.Q2R_0, RMicromega.Q2R_1. split; intros; lra.
  - cbn [map fst]. constructor; [intros [E|[]]; auto|constructor; [intros []|constructor]].
Qed.

Definition con_step (ub : option (list Q)) (sigma : nat) (m : milp) (v : nat) : res milp :=
      let* k := match ub with
                | Some u => of_opt IndexError (nth_error u v)
                | None => Ok 1%Q
                end in
      let* (m, _) := add_constraint m [(v, 1%Q); (sigma, (- k)%Q)] SLe 0%Q in
      Ok m.

Lemma con_step_inv : forall ub sigma m v m', mi_ok m -> con_step ub sigma m v = Ok m' ->
  mi_ok m' /\ mi_vars m' = mi_vars m /\ mi_obj m' = mi_obj m /\ mi_dir m' = mi_dir m /\ v < length (mi_vars m) /\
  exists k, k_of ub v = Some k /\ forall x, feasible m' x <-> feasible m x /\ sat_constr x (ind_con v sigma k).
Proof.
  intros ub sigma m v m' OK H. unfold con_step in H. apply bind_ok in H. destruct H as (k & Ek & H). apply bind_ok in H. destruct H as ((m1 & i) & E & H).
  injection H as <-. destruct (add_constraint_inv _ _ _ _ _ _ OK E) as (A1 & A2 & A3 & A4 & A5 & A6). do 4 (split; [assumption|]).
  split; [apply (A5 v 1%Q); left; auto|]. exists k. split; [|exact A6].
  unfold k_of. destruct ub as [u|]; [|congruence]. destruct (nth_error u v); [cbn in Ek; congruence|discriminate].
Qed.

Lemma con_steps_inv : forall ub sigma G m m', mi_ok m -> foldM (con_step ub sigma) G m = Ok m' ->
  mi_ok m' /\ mi_vars m' = mi_vars m /\ mi_obj m' = mi_obj m /\ mi_dir m' = mi_dir m /\ (forall v, In v G -> v < length (mi_vars m) /\ k_of ub v <> None) /\
  forall x, feasible m' x <-> feasible m x /\ forall v k, In v G -> k_of ub v = Some k -> sat_constr x (ind_con v sigma k).
Proof.
  intros ub sigma. induction G as [|v G IH]; intros m m' OK H.
  - cbn [foldM] in H. injection H as <-. do 4 (split; [auto|]). split; [intros v []|]. intros x. split; [intros F; split; [auto|intros v k []]|tauto].
  - cbn [foldM] in H. apply bind_ok in H. destruct H as (m1 & E & H). destruct (con_step_inv _ _ _ _ _ OK E) as (A1 & A2 & A3 & A4 & A5 & k & A6 & A7).
    destruct (IH m1 m' A1 H) as (B1 & B2 & B3 & B4 & B5 & B6). split; [auto|]. split; [congruence|]. split; [congruence|]. split; [congruence|]. split.
    + intros w [<-|Hw]; [split; [auto|congruence]|]. rewrite <- A2. apply B5; auto.
    + intros x. rewrite B6, A7. split.
      * intros ((F1 & F2) & F3). split; [auto|]. intros w k' [<-|Hw] Ek; [rewrite A6 in Ek; injection Ek as <-; auto|apply F3; auto].
      * intros (F1 & F2). split; [split; [auto|apply F2; [left; auto|auto]]|]. intros w k' Hw Ek. apply F2; [right; auto|auto].
Qed.

Lemma con_steps_total : forall ub sigma G m, mi_ok m -> sigma < length (mi_vars m) -> (forall v, In v G -> v < length (mi_vars m) /\ k_of ub v <> None) ->
  exists m', foldM (con_step ub sigma) G m = Ok m'.
Proof.
  intros ub sigma. induction G as [|v G IH]; intros m OK Hs HG; [eexists; reflexivity|]. cbn [foldM].
  destruct (HG v (or_introl eq_refl)) as [Hv Hk]. assert (exists m1, con_step ub sigma m v = Ok m1) as (m1 & E).
  { unfold con_step. assert (exists k, match ub with | Some u => of_opt IndexError (nth_error u v) | None => Ok 1%Q end = Ok k) as (k & ->).
    { unfold k_of in Hk. destruct ub as [u|]; [|eauto]. destruct (nth_error u v) as [q|]; [eexists; reflexivity|congruence]. }
    cbn [bind]. unfold add_constraint, assert_expression. cbn [bind forallb fst]. rewrite (proj2 (Nat.ltb_lt _ _) Hv), (proj2 (Nat.ltb_lt _ _) Hs). cbn. eauto. }
  rewrite E. cbn [bind]. destruct (con_step_inv _ _ _ _ _ OK E) as (A1 & A2 & _). apply IH; [auto|rewrite A2; auto|]. intros w Hw. rewrite A2. apply HG. right; auto.
Qed.

Definition dom_var (dom : domain) (ub : option (list Q)) : res lpvar := mk_var dom (Some 0%Q) (ind_var dom ub).

Lemma push_var_facts : forall m v, mi_ok m -> exprs_ok m -> mi_ok (push_var m v) /\ exprs_ok (push_var m v) /\
  forall x, feasible (push_var m v) x <-> feasible m x /\ sat_var v (x (length (mi_vars m))).
Proof.
  intros m v OK EO. split; [exact OK|]. split.
  { unfold exprs_ok in *. cbn [push_var mi_vars mi_constrs mi_obj]. rewrite app_length. cbn [length]. destruct EO as [E1 E2]. split.
    - intros k c Hin w q Hw. specialize (E1 k c Hin w q Hw). lia.
    - intros e He w q Hw. specialize (E2 e He w q Hw). lia. }
  intros x. unfold feasible. cbn [push_var mi_vars mi_constrs]. split.
  - intros (F1 & F2). split; [split; [|exact F2]|].
    + intros j w Hj. apply F1. rewrite nth_error_app1; [auto|]. apply nth_error_Some. congruence.
    + apply F1. rewrite nth_error_app2 by lia. rewrite Nat.sub_diag. reflexivity.
  - intros ((F1 & F2) & F3). split; [|exact F2]. intros j w Hj. destruct (Nat.lt_ge_cases j (length (mi_vars m))) as [L|L].
    + apply F1. rewrite nth_error_app1 in Hj; auto.
    + rewrite nth_error_app2 in Hj by auto. destruct (j - length (mi_vars m)) as [|d] eqn:E; cbn in Hj; [|destruct d; discriminate]. injection Hj as <-. replace j with (length (mi_vars m)) by lia. exact F3.
Qed.

Definition ind_sat (dom : domain) (ub : option (list Q)) (x : nat -> R) (sigma : nat) (G : list nat) : Prop :=
  sat_dom dom (Some 0%Q) (ind_var dom ub) (x sigma) /\ forall v k, In v G -> k_of ub v = Some k -> sat_constr x (ind_con v sigma k).

Lemma con_steps_exprs : forall ub sigma G m m', exprs_ok m -> foldM (con_step ub sigma) G m = Ok m' -> exprs_ok m'.
Proof.
  intros ub sigma. induction G as [|v G IH]; intros m m' OK H; cbn [foldM] in H; [injection H as <-; auto|].
  apply bind_ok in H. destruct H as (m1 & E & H). apply (IH m1 m'); auto. unfold con_step in E. apply bind_ok in E. destruct E as (k & Ek & E).
  apply bind_ok in E. destruct E as ((m2 & i) & E & E'). injection E' as <-. eapply add_constraint_exprs; eauto.
Qed.

Lemma dset_snoc : forall (d : dict nat (list nat)) k v, ~ In k (dkeys d) -> dset Nat.eqb d k v = d ++ [(k, v)].
Proof.
  induction d as [|[k0 v0] d IH]; intros k v H; [reflexivity|]. cbn [dset app]. destruct (Nat.eqb_spec k k0) as [->|N]; [exfalso; apply H; left; auto|].
  rewrite IH; auto. intros HI. apply H. right; auto.
Qed.

Lemma add_group_inv : forall dom ub m ind G m' ind', mi_ok m -> exprs_ok m -> ~ In (length (mi_vars m)) (dkeys ind) -> add_group dom ub (m, ind) G = Ok (m', ind') ->
  mi_ok m' /\ exprs_ok m' /\ mi_obj m' = mi_obj m /\ mi_dir m' = mi_dir m /\ length (mi_vars m') = Datatypes.S (length (mi_vars m)) /\
  ind' = ind ++ [(length (mi_vars m), G)] /\ (forall v, In v G -> v < Datatypes.S (length (mi_vars m)) /\ k_of ub v <> None) /\
  forall x, feasible m' x <-> feasible m x /\ ind_sat dom ub x (length (mi_vars m)) G.
Proof.
  intros dom ub m ind G m' ind' OK EO NI H. unfold add_group in H. apply bind_ok in H. destruct H as ((m1 & vs) & E1 & H).
  unfold add_variables_w_bounds in E1. cbn [foldM] in E1. apply bind_ok in E1. destruct E1 as ((m2 & l2) & E1 & E2). injection E2 as -> ->.
  apply bind_ok in E1. destruct E1 as (v & Ev & E1). injection E1 as <- <-. cbn [app nth_error of_opt bind] in H.
  apply bind_ok in H. destruct H as (m3 & E3 & H). injection H as <- <-. change (foldM (con_step ub (length (mi_vars m))) G (push_var m v) = Ok m3) in E3.
  destruct (push_var_facts m v OK EO) as (P1 & P2 & P3).
  destruct (con_steps_inv _ _ _ _ _ P1 E3) as (A1 & A2 & A3 & A4 & A5 & A6). cbn [push_var mi_vars mi_obj mi_dir] in *.
  split; [auto|]. split; [eapply con_steps_exprs; eauto|]. split; [auto|]. split; [auto|]. rewrite app_length in *. cbn [length] in *.
  split. { rewrite A2, app_length. cbn [length]. lia. } split; [apply dset_snoc; auto|]. split. { intros w Hw. specialize (A5 w Hw). rewrite Nat.add_1_r in A5. exact A5. }
  intros x. rewrite A6, P3. unfold ind_sat. rewrite (mk_var_sat _ _ _ _ _ Ev). unfold ind_var. tauto.
Qed.

Lemma seq_app_1 : forall a n, seq a (Datatypes.S n) = a :: seq (Datatypes.S a) n. Proof. reflexivity. Qed.

Lemma indicators_inv : forall dom ub groups m ind m' ind', mi_ok m -> exprs_ok m -> (forall s, In s (dkeys ind) -> s < length (mi_vars m)) ->
  foldM (add_group dom ub) groups (m, ind) = Ok (m', ind') ->
  mi_ok m' /\ exprs_ok m' /\ mi_obj m' = mi_obj m /\ mi_dir m' = mi_dir m /\ length (mi_vars m') = length (mi_vars m) + length groups /\
  ind' = ind ++ combine (seq (length (mi_vars m)) (length groups)) groups /\ (forall G v, In G groups -> In v G -> v < length (mi_vars m') /\ k_of ub v <> None) /\
  forall x, feasible m' x <-> feasible m x /\ forall sigma G, In (sigma, G) (combine (seq (length (mi_vars m)) (length groups)) groups) -> ind_sat dom ub x sigma G.
Proof.
  intros dom ub. induction groups as [|G groups IH]; intros m ind m' ind' OK EO NI H; cbn [foldM] in H.
  - injection H as <- <-. cbn. rewrite app_nil_r. do 4 (split; [auto|]). split; [lia|]. split; [auto|]. split; [intros G v []|]. intros x. split; [intros F; split; [auto|intros s G []]|tauto].
  - apply bind_ok in H. destruct H as ((m1 & ind1) & E & H).
    destruct (add_group_inv _ _ _ _ _ _ _ OK EO (fun Hc => Nat.lt_irrefl _ (NI _ Hc)) E) as (A1 & A2 & A3 & A4 & A5 & A6 & A7 & A8).
    destruct (IH m1 ind1 m' ind' A1 A2) as (B1 & B2 & B3 & B4 & B5 & B6 & B7 & B8); [|exact H|].
    { intros s Hs. rewrite A5. rewrite A6 in Hs. unfold dkeys in Hs. rewrite map_app in Hs. apply in_app_or in Hs. destruct Hs as [Hs|[<-|[]]]; [specialize (NI s Hs); lia|cbn; lia]. }
    split; [auto|]. split; [auto|]. split; [congruence|]. split; [congruence|]. cbn [length]. split; [lia|]. rewrite seq_app_1. cbn [combine]. split.
    { rewrite B6, A6, A5, <- app_assoc. reflexivity. }
    split. { intros G' v [<-|HG] Hv; [specialize (A7 v Hv); split; [lia|apply A7]|apply (B7 G' v HG Hv)]. }
    intros x. rewrite B8, A8, A5. cbn [In]. split.
    + intros ((F1 & F2) & F3). split; [auto|]. intros s G' [Eq|Hin]; [injection Eq as <- <-; auto|auto].
    + intros (F1 & F2). split; [split; [auto|apply F2; left; auto]|]. intros s G' Hin. apply F2. right; auto.
Qed.

Lemma indicators_total : forall dom ub groups m ind, dom <> OtherDomain -> mi_ok m -> exprs_ok m -> (forall s, In s (dkeys ind) -> s < length (mi_vars m)) ->
  (forall G v, In G groups -> In v G -> v < length (mi_vars m) /\ k_of ub v <> None) ->
  exists m' ind', foldM (add_group dom ub) groups (m, ind) = Ok (m', ind').
Proof.
  intros dom ub groups. induction groups as [|G groups IH]; intros m ind HD OK EO NI HG; [eexists; eexists; reflexivity|]. cbn [foldM].
  assert (exists m1 ind1, add_group dom ub (m, ind) G = Ok (m1, ind1)) as (m1 & ind1 & E).
  { unfold add_group, add_variables_w_bounds. cbn [foldM].
    assert (exists v, mk_var dom (Some 0%Q) match ub with Some _ => Some 1%Q | None => None end = Ok v) as (v & ->) by (destruct dom; try (eexists; reflexivity); congruence).
    cbn [bind app nth_error of_opt]. destruct (push_var_facts m v OK EO) as (P1 & P2 & P3).
    destruct (con_steps_total ub (length (mi_vars m)) G (push_var m v) P1) as (m1 & E1).
    - cbn [push_var mi_vars]. rewrite app_length. cbn [length]. lia.
    - intros w Hw. destruct (HG G w (or_introl eq_refl) Hw) as [W1 W2]. split; [|auto]. cbn [push_var mi_vars]. rewrite app_length. lia.
    - change (foldM (fun m v => _) G (push_var m v)) with (foldM (con_step ub (length (mi_vars m))) G (push_var m v)). rewrite E1. eexists; eexists; reflexivity. }
  rewrite E. cbn [bind]. destruct (add_group_inv _ _ _ _ _ _ _ OK EO (fun Hc => Nat.lt_irrefl _ (NI _ Hc)) E) as (A1 & A2 & A3 & A4 & A5 & A6 & A7 & A8).
  apply IH; auto.
  - intros s Hs. rewrite A5. rewrite A6 in Hs. unfold dkeys in Hs. rewrite map_app in Hs. apply in_app_or in Hs. destruct Hs as [Hs|[<-|[]]]; [specialize (NI s Hs); lia|cbn; lia].
  - intros G' v HG' Hv. destruct (HG G' v (or_intror HG') Hv) as [W1 W2]. split; [lia|auto].
Qed.
