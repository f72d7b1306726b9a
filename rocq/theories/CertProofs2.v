(** Proofs about certificates: generation, and witnesses. *)
From Coq Require Import String List Arith ZArith QArith Qreals Reals Bool Lia Lra.
From Coq Require Lqa.
From Verif Require Import Base BaseFacts Num Matrix MatFacts InvDict Graph GraphSpec SccSpec
  SpecMdp SpecSystem SpecEc SpecForm SpecBuilt SpecProb SumFacts MdpValue RfTheory Amdp AmdpProofs ReachForm ReachFormProofs RfFacts FarkProofs BuiltFacts
  RfBridge Milp SpecLp MilpProofs Farkas Certificates CertProofs Examples.
Import ListNotations.
Local Open Scope nat_scope.

(** ** Contents of models *)
Lemma add_constraint_inv : forall m l s r m' i, mi_ok m -> add_constraint m l s r = Ok (m', i) ->
  mi_ok m' /\ mi_vars m' = mi_vars m /\ i = mi_count m /\
  forall c, has_constr m' c <-> has_constr m c \/ c = MkConstr (affine l) s r.
Proof.
  intros m l s r m' i OK E. assert (OK' : mi_ok m'). { replace m' with (do_cop m (AddC l s r)) by (simpl; rewrite E; auto). apply do_cop_ok; auto. }
  split; auto. unfold add_constraint in E. apply bind_ok in E. destruct E as (u & _ & E). apply bind_ok in E. destruct E as (u' & _ & E).
  inversion E; subst. simpl. split; auto. split; auto. destruct OK as (ND & OK). unfold has_constr. simpl.
  rewrite dset_fresh; [|apply ckey_eqbP|].
  2:{ intros Hi. apply in_map_iff in Hi. destruct Hi as ((k & cc) & Ek & Hi). simpl in Ek. subst k. destruct (OK _ _ Hi) as (n & En & Hn). inversion En. lia. }
  intros c. split.
  - intros (k & Hk). apply in_app_iff in Hk. destruct Hk as [Hk|[Hk|[]]]; [left; eauto|right; congruence].
  - intros [(k & Hk)| ->]; [exists k; apply in_or_app; auto|eexists; apply in_or_app; right; left; reflexivity].
Qed.

Lemma add_constraints_inv : forall cs m m', mi_ok m -> add_constraints m cs = Ok m' ->
  mi_ok m' /\ forall c, has_constr m' c <-> has_constr m c \/ exists l s r, In (l, s, r) cs /\ c = MkConstr (affine l) s r.
Proof.
  induction cs as [|[[l s] r] cs IH]; intros m m' OK E; cbn [add_constraints foldM] in E.
  - inversion E; subst. split; auto. intros c. split; auto. intros [H|(l & s & r & [] & _)]; auto.
  - unfold add_constraints in E. simpl in E. apply bind_ok in E. destruct E as (m1 & E1 & E). apply bind_ok in E1. destruct E1 as ([m2 i] & E1 & E2). inversion E2; subst m2.
    destruct (add_constraint_inv _ _ _ _ _ _ OK E1) as (OK1 & _ & _ & H1). destruct (IH m1 m' OK1 E) as (OK2 & H2). split; auto.
    intros c. rewrite H2, H1. split.
    + intros [[H|H]|(l' & s' & r' & H & H')]; [auto|right; exists l, s, r; simpl; auto|right; exists l', s', r'; simpl; auto].
    + intros [H|(l' & s' & r' & [H|H] & H')]; [auto| |right; eauto 6]. inversion H; subst. auto.
Qed.

Lemma from_coefficients_sense : forall A n b opt domains s o bounds m,
  from_coefficients A n b opt domains s o bounds = Ok m -> mi_ok m /\ forall c, has_constr m c -> c_sense c = s.
Proof.
  intros A n b opt domains s o bounds m E. unfold from_coefficients in E.
  apply bind_ok in E. destruct E as (m0 & E0 & E). apply bind_ok in E. destruct E as (ds & _ & E). apply bind_ok in E. destruct E as ([m1 l1] & E1 & E).
  apply bind_ok in E. destruct E as (obj & _ & E). apply bind_ok in E. destruct E as (m2 & E2 & E).
  assert (I1 : mi_constrs m1 = []).
  { unfold add_variables_w_bounds in E1.
    assert (G : forall ds m l m' l', foldM (fun (st : milp * list nat) (d : domain * option Q * option Q) => let '(m, l) := st in
           let '(dom, lb, ub) := d in let* v := mk_var dom lb ub in Ok (push_var m v, l ++ [length (mi_vars m)])) ds (m, l) = Ok (m', l') -> mi_constrs m' = mi_constrs m).
    { clear. induction ds as [|[[d lb] ub] ds IH]; intros m l m' l' H; simpl in H; [inversion H; auto|].
      apply bind_ok in H. destruct H as ([m1 l1] & H1 & H). apply bind_ok in H1. destruct H1 as (v & _ & H1). inversion H1; subst. apply IH in H. auto. }
    rewrite (G _ _ _ _ _ E1). destruct o; inversion E0; auto. }
  assert (I2 : mi_ok m2 /\ forall c, has_constr m2 c -> c_sense c = s).
  { unfold set_objective in E2. apply bind_ok in E2. destruct E2 as (u & _ & E2). inversion E2; subst. unfold mi_ok, has_constr. simpl. rewrite I1.
    split; [split; [constructor|intros k c []]|]. intros c (k & []). }
  clear -E I2. revert m2 I2 E. generalize (seq 0 (length A)). induction l as [|i l IH]; intros m2 I2 E; simpl in E.
  - inversion E; subst. auto.
  - apply bind_ok in E. destruct E as (m3 & E3 & E). apply bind_ok in E3. destruct E3 as (row & _ & E3). apply bind_ok in E3. destruct E3 as (rhs & _ & E3).
    apply bind_ok in E3. destruct E3 as ([m4 i4] & E4 & E3). inversion E3; subst. apply (IH m3); auto.
    destruct (add_constraint_inv _ _ _ _ _ _ (proj1 I2) E4) as (OK & _ & _ & H). split; auto. intros c Hc. apply H in Hc. destruct Hc as [Hc| ->]; auto. apply I2; auto.
Qed.

(** ** C25 *)
Lemma C25_lemma : forall S rf md s t tol r, generate_farkas S rf md s t tol = Ok r ->
  r = None \/ exists v, r = Some v /\ check_farkas rf md s t v tol = Ok true.
Proof.
  intros S rf md s t tol r H. unfold generate_farkas in H. apply bind_ok in H. destruct H as ([[[A D] b] zs] & _ & H).
  apply bind_ok in H. destruct H as ([[x o] q] & _ & H). apply bind_ok in H. destruct H as (ok & E & H). inversion H; subst.
  destruct ok; [right; eauto|left; auto].
Qed.

(** ** C26 *)
Lemma zero_variables_z : forall rf s, built_form rf -> lower s ->
  exists zs, zero_variables rf Min s (rf_N rf) = Ok zs /\
    forall j, In j zs <-> j < rf_N rf /\ in_some_ec (a_P (rf_sys rf)) (a_inv (rf_sys rf)) j.
Proof.
  intros rf s BF Hs. unfold zero_variables. assert (IU : is_upper s = false) by (destruct Hs; subst; auto). rewrite IU.
  assert (G : forall l acc, (forall i, In i l -> i < rf_N rf) -> exists zs,
    foldM (fun acc idx => let* e := in_proper_ec rf idx in Ok (if e then acc ++ [idx] else acc)) l acc = Ok zs /\
    forall j, In j zs <-> In j acc \/ (In j l /\ in_some_ec (a_P (rf_sys rf)) (a_inv (rf_sys rf)) j)).
  { induction l as [|i l IH]; intros acc Hl; simpl; [exists acc; split; auto; tauto|].
    destruct (C09_state_lemma rf BF i (Hl i (or_introl eq_refl))) as (e & -> & He). cbn [bind].
    destruct (IH (if e then acc ++ [i] else acc)) as (zs & -> & Hz); [intros; apply Hl; right; auto|]. exists zs. split; auto.
    intros j. rewrite Hz. destruct e.
    - rewrite in_app_iff. simpl. split; [intros [[H|[H|[]]]|H]; auto|intros [H|[[H|H] H']]; auto].
      + subst. right. split; auto. apply He; auto.
      + tauto.
    - split; [tauto|]. intros [H|[[H|H] H']]; auto. subst. apply He in H'. discriminate. }
  destruct (G (seq 0 (rf_N rf)) []) as (zs & E & Hz). { intros i Hi. apply in_seq in Hi. lia. }
  exists zs. split; [exact E|]. intros j. rewrite Hz, in_seq. simpl. split; [intros [[]|[? ?]]; split; auto; lia|]. intros [? ?]. right. split; auto; lia.
Qed.

Lemma C26_z_lemma : forall rf s t lp, built_form rf -> lower s -> generation_lp rf Min s t = Ok lp ->
  forall j, pinned lp j <-> j < rf_N rf /\ in_some_ec (a_P (rf_sys rf)) (a_inv (rf_sys rf)) j.
Proof.
  intros rf s t lp BF Hs E j. unfold generation_lp, generation_args in E. apply bind_ok in E. destruct E as ([[[A D] b] zs] & E0 & E).
  apply bind_ok in E0. destruct E0 as (u & _ & E0). apply bind_ok in E0. destruct E0 as ([[A0 b0] D0] & ER & E0).
  assert (HD : D0 = rf_N rf).
  { assert (RS : right_constraint_set rf Min s t = (let* (A, b) := fark_z rf t in Ok (A, b, rf_N rf))) by (destruct Hs; subst s; reflexivity).
    rewrite RS in ER. apply bind_ok in ER. destruct ER as ([A1 b1] & _ & ER). inversion ER; auto. }
  assert (IU : is_upper s = false) by (destruct Hs; subst; auto). rewrite IU in E0.
  apply bind_ok in E0. destruct E0 as (zs' & EZ & E0). inversion E0; subst A0 b0 D0 zs' D. clear E0.
  destruct (zero_variables_z rf s BF Hs) as (zs2 & EZ2 & HZ). rewrite EZ in EZ2. inversion EZ2; subst zs2. clear EZ2.
  rewrite <- HZ. unfold interior_lp in E. apply bind_ok in E. destruct E as (l1 & E1 & E). apply bind_ok in E. destruct E as (l2 & E2 & E).
  unfold lp_from_coefficients in E1. destruct (from_coefficients_sense _ _ _ _ _ _ _ _ _ E1) as (OK1 & S1).
  destruct (add_constraints_inv _ _ _ OK1 E2) as (OK2 & H2). destruct (add_constraints_inv _ _ _ OK2 E) as (OK3 & H3).
  unfold pinned. rewrite H3, H2. split.
  - intros [[H|H]|H].
    + apply S1 in H. discriminate.
    + destruct H as (l & s' & r & Hi & Hc). apply in_map_iff in Hi. destruct Hi as (i & Hi & _). inversion Hi; subst. discriminate.
    + destruct H as (l & s' & r & Hi & Hc). apply in_map_iff in Hi. destruct Hi as (i & Hi & Hin). inversion Hi; subst. inversion Hc; subst. auto.
  - intros H. right. exists [(j, 1%Q)], SEq, 0%Q. split; [|reflexivity]. apply in_map_iff. exists j. auto.
Qed.

(** The LP exists whenever the constraints do. *)
Lemma C26_lp_exists : forall rf s t, built_form rf -> lower s -> (0 <= t)%Q -> (t <= 1)%Q -> rf_init rf < rf_N rf ->
  exists lp, generation_lp rf Min s t = Ok lp.
Proof.
  intros rf s t BF Hs H0 H1 Hi. unfold generation_lp, generation_args.
  rewrite (proj2 (unit_assert t)) by (split; auto). cbn [assert_ bind].
  assert (RS : right_constraint_set rf Min s t = (let* (A, b) := fark_z rf t in Ok (A, b, rf_N rf))) by (destruct Hs; subst s; reflexivity).
  rewrite RS. destruct (fark_z_rows rf (br_ro rf BF) t (repeat 0%Q (rf_N rf)) Hi (repeat_length _ _)) as (A & b & EF & LA & LB & _).
  rewrite EF. cbn [bind]. assert (IU : is_upper s = false) by (destruct Hs; subst; auto). rewrite IU.
  destruct (zero_variables_z rf s BF Hs) as (zs & -> & HZ). cbn [bind].
  unfold interior_lp. unfold fark_z in EF. destruct (Nat.ltb_spec (rf_init rf) (rf_N rf)); [|lia]. inversion EF; subst A b. clear EF.
  match goal with |- context [lp_from_coefficients ?a ?n ?b ?o ?s ?d] => destruct (lp_spec a n b o s d) as (l1 & E1 & OK1 & V1 & _) end.
  - discriminate.
  - discriminate.
  - intros row Hr. apply in_map_iff in Hr. destruct Hr as (row' & <- & Hr). rewrite app_length. simpl. apply in_app_iff in Hr. destruct Hr as [Hr|[<-|[]]].
    + apply In_nth with (d := []) in Hr. destruct Hr as (i & Hi' & <-). rewrite (ro_lenA rf (br_ro rf BF)) in Hi'.
      destruct (ro_row rf (br_ro rf BF) i Hi') as (s' & a & _ & _ & ->). unfold Arow_spec. rewrite map_length, seq_length. lia.
    + rewrite unit_length. lia.
  - rewrite map_length. lia.
  - rewrite unit_length. lia.
  - rewrite E1. cbn [bind].
    match goal with |- context [add_constraints l1 ?c1] => destruct (add_constraints_spec c1 l1 OK1) as (l2 & E2 & OK2 & V2 & _) end.
    + intros x Hx. apply in_map_iff in Hx. destruct Hx as (i & <- & Hin). apply in_seq in Hin. rewrite V1. split; [discriminate|]. split.
      * intros v q [Hv|[Hv|[]]]; inversion Hv; subst; lia.
      * simpl. constructor; [intros [Hx|[]]; lia|]. constructor; [intros []|constructor].
    + rewrite E2. cbn [bind].
      match goal with |- context [add_constraints l2 ?c1] => destruct (add_constraints_spec c1 l2 OK2) as (l3 & E3 & _) end.
      * intros x Hx. apply in_map_iff in Hx. destruct Hx as (i & <- & Hin). apply HZ in Hin. rewrite V2, V1. split; [discriminate|]. split.
        -- intros v q [Hv|[]]; inversion Hv; subst; lia.
        -- simpl. constructor; [intros []|constructor].
      * exists l3. exact E3.
Qed.
