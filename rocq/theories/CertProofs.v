(** Proofs about certificates. *)
From Coq Require Import String List Arith ZArith QArith Qreals Reals Bool Lia Lra.
From Coq Require Lqa.
From Verif Require Import Base BaseFacts Num Matrix MatFacts InvDict Graph GraphSpec SccSpec
  SpecMdp SpecSystem SpecEc SpecForm SpecBuilt SpecProb SumFacts MdpValue RfTheory Amdp AmdpProofs ReachForm ReachFormProofs RfFacts FarkProofs BuiltFacts
  RfBridge Milp SpecLp MilpProofs Farkas Certificates.
Import ListNotations.
Local Open Scope nat_scope.

Lemma forallb_combine : forall (f : Q * Q -> bool) l1 l2, length l1 = length l2 ->
  (forallb f (combine l1 l2) = true <-> forall i, i < length l1 -> f (nth i l1 0%Q, nth i l2 0%Q) = true).
Proof.
  intros f. induction l1 as [|a l1 IH]; intros [|b l2] HL; simpl in *; try discriminate.
  - split; auto. intros; lia.
  - rewrite andb_true_iff, IH by lia. split.
    + intros [H1 H2] [|i] Hi; auto. apply H2. lia.
    + intros H. split; [apply (H 0); lia|]. intros i Hi. apply (H (S i)). lia.
Qed.

Lemma all_ge_iff : forall tol r b, length r = length b ->
  (all_ge tol r b = true <-> forall i, i < length r -> (nth i b 0 <= nth i r 0 + tol)%Q).
Proof.
  intros. unfold all_ge. rewrite forallb_combine by auto. split; intros G i Hi; specialize (G i Hi); cbn [fst snd] in *; apply Qle_bool_iff; auto.
Qed.
Lemma all_le_iff : forall tol r b, length r = length b ->
  (all_le tol r b = true <-> forall i, i < length r -> (nth i r 0 - tol <= nth i b 0)%Q).
Proof.
  intros. unfold all_le. rewrite forallb_combine by auto. split; intros G i Hi; specialize (G i Hi); cbn [fst snd] in *; apply Qle_bool_iff; auto.
Qed.
Lemma Qlt_bool_iff : forall a b, Qlt_bool a b = true <-> (a < b)%Q.
Proof. intros. unfold Qlt_bool. rewrite negb_true_iff, <- not_true_iff_false, Qle_bool_iff. split; intros; Lqa.lra. Qed.

Definition lower (s : fsense) : Prop := s = FGe \/ s = FGt.
Definition upper (s : fsense) : Prop := s = FLe \/ s = FLt.
Definition strictly (s : fsense) : bool := match s with FLt | FGt => true | _ => false end.

Section Cert.
  Variable rf : rform.
  Hypothesis BF : built_form rf.
  Let m := rf_sys rf.
  Let P := a_P m.
  Let inv := a_inv m.
  Let init := rf_init rf.
  Let n := rf_N rf.
  Let c := rf_C rf.
  Let RO : rf_ok rf := br_ro rf BF.
  Let FM := br_form rf BF.

  Lemma rf_inv_row : forall i, i < c -> rf_inv rf i = inv i.
  Proof.
    intros i Hi. rewrite (ro_inv rf RO). unfold c, rf_C in Hi.
    destruct (Nat.eqb_spec i (a_C (rf_sys rf) - 1)); [lia|]. destruct (Nat.eqb_spec i (a_C (rf_sys rf) - 2)); [lia|]. reflexivity.
  Qed.

  Lemma inv_row : forall i, i < c -> exists s a, inv i = Some (s, a) /\ s < n.
  Proof. intros i Hi. destruct (ro_row rf RO i Hi) as (s & a & H1 & H2 & _). eauto. Qed.

  (** The end component entries. *)
  Lemma ec_zero_z : forall v l, (forall i, In i l -> i < n /\ i < length v) ->
    exists b, ec_entries_zero rf false v l = Ok b /\
      (b = true <-> forall i, In i l -> in_some_ec P inv i -> (entry v i == 0)%Q).
  Proof.
    intros v. induction l as [|i l IH]; intros Hl; simpl.
    - exists true. split; auto. split; auto. intros _ i [].
    - destruct (Hl i (or_introl eq_refl)) as (Hi & Hv).
      destruct IH as (b & E & Hb); [intros; apply Hl; right; auto|].
      destruct (in_proper_ec_ok rf init RO FM i Hi) as (e & Ee & He). rewrite Ee. cbn [bind].
      destruct e.
      + rewrite (nth_error_nth' _ 0%Q) by auto. cbn [of_opt bind]. destruct (Qeq_bool (nth i v 0%Q) 0) eqn:Eq.
        * exists b. split; auto. rewrite Hb. apply Qeq_bool_iff in Eq. split; intros H j Hj; [|apply H; auto].
          destruct Hj as [<-|Hj]; [intros _; exact Eq|apply H; auto].
        * exists false. split; auto. split; [discriminate|]. intros H. exfalso.
          assert (Qeq_bool (nth i v 0%Q) 0 = true); [|congruence]. apply Qeq_bool_iff. apply H; auto. apply He; auto.
      + exists b. split; auto. rewrite Hb. split; intros H j Hj; [|apply H; auto].
        destruct Hj as [<-|Hj]; [intros Hx; apply He in Hx; discriminate|apply H; auto].
  Qed.

  Lemma ec_zero_y : forall v l, (forall i, In i l -> i < c /\ i < length v) ->
    exists b, ec_entries_zero rf true v l = Ok b /\
      (b = true <-> forall i s a, In i l -> inv i = Some (s, a) -> in_some_ec P inv s -> (entry v i == 0)%Q).
  Proof.
    intros v. induction l as [|i l IH]; intros Hl; simpl.
    - exists true. split; auto. split; auto. intros _ i s a [].
    - destruct (Hl i (or_introl eq_refl)) as (Hi & Hv).
      destruct IH as (b & E & Hb); [intros; apply Hl; right; auto|].
      destruct (inv_row i Hi) as (s & a & Ei & Hs). rewrite rf_inv_row, Ei by auto. cbn [of_opt bind].
      destruct (in_proper_ec_ok rf init RO FM s Hs) as (e & Ee & He). rewrite Ee. cbn [bind].
      destruct e.
      + rewrite (nth_error_nth' _ 0%Q) by auto. cbn [of_opt bind]. destruct (Qeq_bool (nth i v 0%Q) 0) eqn:Eq.
        * exists b. split; auto. rewrite Hb. apply Qeq_bool_iff in Eq. split; intros H j s' a' Hj; [|eapply H; eauto].
          destruct Hj as [<-|Hj]; [intros _ _; exact Eq|eapply H; eauto].
        * exists false. split; auto. split; [discriminate|]. intros H. exfalso.
          assert (Qeq_bool (nth i v 0%Q) 0 = true); [|congruence]. apply Qeq_bool_iff. eapply H; eauto. apply He; auto.
      + exists b. split; auto. rewrite Hb. split; intros H j s' a' Hj; [|eapply H; eauto].
        destruct Hj as [<-|Hj]; [|eapply H; eauto]. intros Ej Hx. rewrite Ei in Ej. inversion Ej; subst. apply He in Hx. discriminate.
  Qed.

  (** ** What the check accepts, form by form *)
  Definition in_unit (t : Q) : Prop := (0 <= t)%Q /\ (t <= 1)%Q.
  Definition ec_states_zero (z : list Q) : Prop := forall s, s < n -> in_some_ec P inv s -> (entry z s == 0)%Q.
  Definition ec_rows_zero (y : list Q) : Prop := forall i s a, i < c -> inv i = Some (s, a) -> in_some_ec P inv s -> (entry y i == 0)%Q.

  (** one state-action inequality of the z-form *)
  Definition step_value (z : list Q) (i : nat) : Q := (sum_to n (fun d => mget P i d * entry z d) + mget P i n)%Q.
  Definition flow (y : list Q) (s : nat) : Q :=
    (sum_to c (fun i => if belongs inv i s then entry y i else 0) - sum_to c (fun i => mget P i s * entry y i))%Q.
  Definition reward_y (y : list Q) : Q := sum_to c (fun i => mget P i n * entry y i)%Q.

  Lemma unit_assert : forall t, Qle_bool 0 t && Qle_bool t 1 = true <-> in_unit t.
  Proof. intros. rewrite andb_true_iff, !Qle_bool_iff. reflexivity. Qed.

  Lemma check_z_min : forall s t v tol, lower s ->
    (check_farkas rf Min s t v tol = Ok true <->
      in_unit t /\ init < n /\ length v = n /\ ec_states_zero v /\
      (forall i st a, i < c -> inv i = Some (st, a) -> (entry v st - tol <= step_value v i)%Q) /\
      (t <= entry v init + tol)%Q /\ (strictly s = true -> (t < entry v init + tol)%Q)).
  Proof.
    intros s t v tol Hs. unfold check_farkas.
    assert (RS : right_constraint_set rf Min s t = (let* (A, b) := fark_z rf t in Ok (A, b, n))) by (destruct Hs; subst s; reflexivity).
    rewrite RS. assert (IU : is_upper s = false) by (destruct Hs; subst s; reflexivity). rewrite IU.
    destruct (Qle_bool 0 t && Qle_bool t 1) eqn:EU; cbn [assert_ bind].
    2:{ split; [discriminate|]. intros (U & _). apply unit_assert in U. congruence. }
    apply unit_assert in EU.
    destruct (fark_z rf t) as [[A b]|] eqn:EF; cbn [bind].
    2:{ split; [discriminate|]. intros (_ & U & _). apply (fark_z_ok rf t) in U. destruct U as (A & b & E). congruence. }
    assert (Hi : init < n) by (apply (fark_z_ok rf t); eauto).
    destruct (Nat.eqb_spec (length v) n) as [HL|HL]; cbn [assert_ bind].
    2:{ split; [discriminate|]. tauto. }
    destruct (fark_z_rows rf RO t v Hi HL) as (A' & b' & E' & LA & LB & HR & HLast & HB). rewrite EF in E'. inversion E'; subst A' b'. clear E'.
    destruct (ec_zero_z v (seq 0 n)) as (eb & -> & Heb). { intros i Hx. apply in_seq in Hx. lia. }
    cbn [bind]. destruct eb.
    2:{ split; [discriminate|]. intros (_ & _ & _ & U & _). exfalso. assert (false = true); [|discriminate]. apply Heb. intros i Hx He. apply in_seq in Hx. apply U; auto. lia. }
    assert (ME : mat_vec A v = mat_vec A v) by reflexivity.
    assert (LM : length (mat_vec A v) = length b) by (rewrite mat_vec_length; lia).
    assert (G : all_le tol (mat_vec A v) b = true <-> 
      (forall i st a, i < c -> inv i = Some (st, a) -> (entry v st - tol <= step_value v i)%Q) /\ (t <= entry v init + tol)%Q).
    { rewrite all_le_iff by auto. rewrite mat_vec_length, LA. split.
      - intros H. split.
        + intros i st a Hic Ei. destruct (HR i Hic) as (s' & a' & Ei' & Hs' & R1 & R2). fold inv in Ei'. change (a_inv (rf_sys rf) i) with (inv i) in Ei'.
          assert (s' = st) by congruence. subst s'. specialize (H i ltac:(unfold c in *; lia)). rewrite R1, R2 in H. unfold step_value. fold n P. unfold n, P, m in *. Lqa.lra.
        + specialize (H (rf_C rf) ltac:(lia)). rewrite HLast, HB in H. unfold init. Lqa.lra.
      - intros [H1 H2] i Hic. assert (i < rf_C rf \/ i = rf_C rf) as [Hlt| ->] by lia.
        + destruct (HR i Hlt) as (s' & a' & Ei' & Hs' & R1 & R2). specialize (H1 i s' a' Hlt Ei'). rewrite R1, R2. unfold step_value in H1. unfold n, P, m in *. Lqa.lra.
        + rewrite HLast, HB. unfold init in H2. Lqa.lra. }
    assert (ST : Qlt_bool (nth (length A - 1) (mat_vec A v) 0 - tol)%Q (nth (length A - 1) b 0%Q) = true <-> (t < entry v init + tol)%Q).
    { rewrite Qlt_bool_iff. rewrite LA. replace (S (rf_C rf) - 1) with (rf_C rf) by lia. rewrite HLast, HB. unfold init. split; intros; Lqa.lra. }
    assert (EZ : ec_states_zero v). { intros s0 H0 H1. apply (proj1 Heb eq_refl); auto. apply in_seq. lia. }
    destruct Hs; subst s; cbn [strictly].
    - split.
      + intros H. injection H as H'. apply G in H'. destruct H' as [H1 H2]. repeat (split; [assumption|]). discriminate.
      + intros (_ & _ & _ & _ & H1 & H2 & _). rewrite (proj2 G); auto.
    - split.
      + intros H. injection H as H'. apply andb_true_iff in H'. destruct H' as [H' H3]. apply G in H'. destruct H' as [H1 H2]. apply ST in H3.
        repeat (split; [assumption|]). auto.
      + intros (_ & _ & _ & _ & H1 & H2 & H3). rewrite (proj2 G), (proj2 ST); auto.
  Qed.

  Lemma check_z_max : forall s t v tol, upper s ->
    (check_farkas rf Max s t v tol = Ok true <->
      in_unit t /\ init < n /\ length v = n /\
      (forall i st a, i < c -> inv i = Some (st, a) -> (step_value v i <= entry v st + tol)%Q) /\
      (entry v init <= t + tol)%Q /\ (strictly s = true -> (entry v init < t + tol)%Q)).
  Proof.
    intros s t v tol Hs. unfold check_farkas.
    assert (RS : right_constraint_set rf Max s t = (let* (A, b) := fark_z rf t in Ok (A, b, n))) by (destruct Hs; subst s; reflexivity).
    rewrite RS.
    destruct (Qle_bool 0 t && Qle_bool t 1) eqn:EU; cbn [assert_ bind].
    2:{ split; [discriminate|]. intros (U & _). apply unit_assert in U. congruence. }
    apply unit_assert in EU.
    destruct (fark_z rf t) as [[A b]|] eqn:EF; cbn [bind].
    2:{ split; [discriminate|]. intros (_ & U & _). apply (fark_z_ok rf t) in U. destruct U as (A & b & E). congruence. }
    assert (Hi : init < n) by (apply (fark_z_ok rf t); eauto).
    destruct (Nat.eqb_spec (length v) n) as [HL|HL]; cbn [assert_ bind].
    2:{ split; [discriminate|]. tauto. }
    destruct (fark_z_rows rf RO t v Hi HL) as (A' & b' & E' & LA & LB & HR & HLast & HB). rewrite EF in E'. inversion E'; subst A' b'. clear E'.
    assert (LM : length (mat_vec A v) = length b) by (rewrite mat_vec_length; lia).
    assert (G : all_ge tol (mat_vec A v) b = true <-> 
      (forall i st a, i < c -> inv i = Some (st, a) -> (step_value v i <= entry v st + tol)%Q) /\ (entry v init <= t + tol)%Q).
    { rewrite all_ge_iff by auto. rewrite mat_vec_length, LA. split.
      - intros H. split.
        + intros i st a Hic Ei. destruct (HR i Hic) as (s' & a' & Ei' & Hs' & R1 & R2). change (a_inv (rf_sys rf) i) with (inv i) in Ei'.
          assert (s' = st) by congruence. subst s'. specialize (H i ltac:(unfold c in *; lia)). rewrite R1, R2 in H. unfold step_value. unfold n, P, m in *. Lqa.lra.
        + specialize (H (rf_C rf) ltac:(lia)). rewrite HLast, HB in H. unfold init. Lqa.lra.
      - intros [H1 H2] i Hic. assert (i < rf_C rf \/ i = rf_C rf) as [Hlt| ->] by lia.
        + destruct (HR i Hlt) as (s' & a' & Ei' & Hs' & R1 & R2). specialize (H1 i s' a' Hlt Ei'). rewrite R1, R2. unfold step_value in H1. unfold n, P, m in *. Lqa.lra.
        + rewrite HLast, HB. unfold init in H2. Lqa.lra. }
    assert (ST : Qlt_bool (nth (length A - 1) b 0%Q) (nth (length A - 1) (mat_vec A v) 0 + tol)%Q = true <-> (entry v init < t + tol)%Q).
    { rewrite Qlt_bool_iff. rewrite LA. replace (S (rf_C rf) - 1) with (rf_C rf) by lia. rewrite HLast, HB. unfold init. split; intros; Lqa.lra. }
    destruct Hs; subst s; cbn [strictly].
    - split.
      + intros H. injection H as H'. apply G in H'. destruct H' as [H1 H2]. repeat (split; [assumption|]). discriminate.
      + intros (_ & _ & _ & H1 & H2 & _). rewrite (proj2 G); auto.
    - split.
      + intros H. injection H as H'. apply andb_true_iff in H'. destruct H' as [H' H3]. apply G in H'. destruct H' as [H1 H2]. apply ST in H3.
        repeat (split; [assumption|]). auto.
      + intros (_ & _ & _ & H1 & H2 & H3). rewrite (proj2 G), (proj2 ST); auto.
  Qed.

  Definition at_init (s : nat) : Q := if s =? init then 1%Q else 0%Q.

  Lemma check_y_max : forall s t v tol, lower s ->
    (check_farkas rf Max s t v tol = Ok true <->
      in_unit t /\ init <= n /\ length v = c /\
      (forall st, st < n -> (flow v st - tol <= at_init st)%Q) /\
      (t <= reward_y v + tol)%Q /\ (strictly s = true -> (t < reward_y v + tol)%Q)).
  Proof.
    intros s t v tol Hs. unfold check_farkas.
    assert (RS : right_constraint_set rf Max s t = (let* (A, b) := fark_y rf t in Ok (A, b, c))) by (destruct Hs; subst s; reflexivity).
    rewrite RS.
    destruct (Qle_bool 0 t && Qle_bool t 1) eqn:EU; cbn [assert_ bind].
    2:{ split; [discriminate|]. intros (U & _). apply unit_assert in U. congruence. }
    apply unit_assert in EU.
    destruct (fark_y rf t) as [[A b]|] eqn:EF; cbn [bind].
    2:{ split; [discriminate|]. intros (_ & U & _). apply (fark_y_ok rf t) in U. destruct U as (A & b & E). congruence. }
    assert (Hi : init <= n) by (apply (fark_y_ok rf t); eauto).
    destruct (Nat.eqb_spec (length v) c) as [HL|HL]; cbn [assert_ bind].
    2:{ split; [discriminate|]. tauto. }
    destruct (fark_y_rows rf RO t v Hi HL) as (A' & b' & E' & LA & LB & HR & HLast & HB). rewrite EF in E'. inversion E'; subst A' b'. clear E'.
    assert (LM : length (mat_vec A v) = length b) by (rewrite mat_vec_length; lia).
    assert (G : all_le tol (mat_vec A v) b = true <-> 
      (forall st, st < n -> (flow v st - tol <= at_init st)%Q) /\ (t <= reward_y v + tol)%Q).
    { rewrite all_le_iff by auto. rewrite mat_vec_length, LA. split.
      - intros H. split.
        + intros st Hst. destruct (HR st Hst) as (R1 & R2). specialize (H st ltac:(unfold n in *; lia)). rewrite R1, R2 in H. exact H.
        + specialize (H (rf_N rf) ltac:(lia)). rewrite HLast, HB in H. unfold reward_y. unfold n, P, m, c in *. Lqa.lra.
      - intros [H1 H2] i Hic. assert (i < rf_N rf \/ i = rf_N rf) as [Hlt| ->] by lia.
        + destruct (HR i Hlt) as (R1 & R2). rewrite R1, R2. apply H1; auto.
        + rewrite HLast, HB. unfold reward_y in H2. unfold n, P, m, c in *. Lqa.lra. }
    assert (ST : Qlt_bool (nth (length A - 1) (mat_vec A v) 0 - tol)%Q (nth (length A - 1) b 0%Q) = true <-> (t < reward_y v + tol)%Q).
    { rewrite Qlt_bool_iff. rewrite LA. replace (S (rf_N rf) - 1) with (rf_N rf) by lia. rewrite HLast, HB. unfold reward_y. unfold n, P, m, c. split; intros; Lqa.lra. }
    destruct Hs; subst s; cbn [strictly].
    - split.
      + intros H. injection H as H'. apply G in H'. destruct H' as [H1 H2]. repeat (split; [assumption|]). discriminate.
      + intros (_ & _ & _ & H1 & H2 & _). rewrite (proj2 G); auto.
    - split.
      + intros H. injection H as H'. apply andb_true_iff in H'. destruct H' as [H' H3]. apply G in H'. destruct H' as [H1 H2]. apply ST in H3.
        repeat (split; [assumption|]). auto.
      + intros (_ & _ & _ & H1 & H2 & H3). rewrite (proj2 G), (proj2 ST); auto.
  Qed.

  Lemma check_y_min : forall s t v tol, upper s ->
    (check_farkas rf Min s t v tol = Ok true <->
      in_unit t /\ init <= n /\ length v = c /\ ec_rows_zero v /\
      (forall st, st < n -> (at_init st <= flow v st + tol)%Q) /\
      (reward_y v <= t + tol)%Q /\ (strictly s = true -> (reward_y v < t + tol)%Q)).
  Proof.
    intros s t v tol Hs. unfold check_farkas.
    assert (RS : right_constraint_set rf Min s t = (let* (A, b) := fark_y rf t in Ok (A, b, c))) by (destruct Hs; subst s; reflexivity).
    rewrite RS. assert (IU : is_upper s = true) by (destruct Hs; subst s; reflexivity). rewrite IU.
    destruct (Qle_bool 0 t && Qle_bool t 1) eqn:EU; cbn [assert_ bind].
    2:{ split; [discriminate|]. intros (U & _). apply unit_assert in U. congruence. }
    apply unit_assert in EU.
    destruct (fark_y rf t) as [[A b]|] eqn:EF; cbn [bind].
    2:{ split; [discriminate|]. intros (_ & U & _). apply (fark_y_ok rf t) in U. destruct U as (A & b & E). congruence. }
    assert (Hi : init <= n) by (apply (fark_y_ok rf t); eauto).
    destruct (Nat.eqb_spec (length v) c) as [HL|HL]; cbn [assert_ bind].
    2:{ split; [discriminate|]. tauto. }
    destruct (fark_y_rows rf RO t v Hi HL) as (A' & b' & E' & LA & LB & HR & HLast & HB). rewrite EF in E'. inversion E'; subst A' b'. clear E'.
    destruct (ec_zero_y v (seq 0 c)) as (eb & -> & Heb). { intros i Hx. apply in_seq in Hx. lia. }
    cbn [bind]. destruct eb.
    2:{ split; [discriminate|]. intros (_ & _ & _ & U & _). exfalso. assert (false = true); [|discriminate]. apply Heb. intros i s' a' Hx He. apply in_seq in Hx. eapply U; eauto. lia. }
    assert (LM : length (mat_vec A v) = length b) by (rewrite mat_vec_length; lia).
    assert (G : all_ge tol (mat_vec A v) b = true <-> 
      (forall st, st < n -> (at_init st <= flow v st + tol)%Q) /\ (reward_y v <= t + tol)%Q).
    { rewrite all_ge_iff by auto. rewrite mat_vec_length, LA. split.
      - intros H. split.
        + intros st Hst. destruct (HR st Hst) as (R1 & R2). specialize (H st ltac:(unfold n in *; lia)). rewrite R1, R2 in H. exact H.
        + specialize (H (rf_N rf) ltac:(lia)). rewrite HLast, HB in H. unfold reward_y. unfold n, P, m, c in *. Lqa.lra.
      - intros [H1 H2] i Hic. assert (i < rf_N rf \/ i = rf_N rf) as [Hlt| ->] by lia.
        + destruct (HR i Hlt) as (R1 & R2). rewrite R1, R2. apply H1; auto.
        + rewrite HLast, HB. unfold reward_y in H2. unfold n, P, m, c in *. Lqa.lra. }
    assert (ST : Qlt_bool (nth (length A - 1) b 0%Q) (nth (length A - 1) (mat_vec A v) 0 + tol)%Q = true <-> (reward_y v < t + tol)%Q).
    { rewrite Qlt_bool_iff. rewrite LA. replace (S (rf_N rf) - 1) with (rf_N rf) by lia. rewrite HLast, HB. unfold reward_y. unfold n, P, m, c. split; intros; Lqa.lra. }
    assert (EZ : ec_rows_zero v). { intros i s0 a0 H0 H1. intros H2. apply (proj1 Heb eq_refl i s0 a0); auto. apply in_seq. lia. }
    destruct Hs; subst s; cbn [strictly].
    - split.
      + intros H. injection H as H'. apply G in H'. destruct H' as [H1 H2]. repeat (split; [assumption|]). discriminate.
      + intros (_ & _ & _ & _ & H1 & H2 & _). rewrite (proj2 G); auto.
    - split.
      + intros H. injection H as H'. apply andb_true_iff in H'. destruct H' as [H' H3]. apply G in H'. destruct H' as [H1 H2]. apply ST in H3.
        repeat (split; [assumption|]). auto.
      + intros (_ & _ & _ & _ & H1 & H2 & H3). rewrite (proj2 G), (proj2 ST); auto.
  Qed.

  (** ** Soundness *)
  Hypothesis EX : exact_rows P.
  Let M := form_mdp rf.
  Let RFI : rf_mdp M init := br_rf rf BF EX.
  Let RF : shape_mdp M := proj1 RFI.
  Let vR (v : list Q) : nat -> R := fun d => Q2R (entry v d).

  Lemma vmn : forall s, Vmn rf BF EX s = Vmin M (RFW M RF) (is_goal M) s.
  Proof. intros. apply Vmin_irrel. Qed.
  Lemma vmx : forall s, Vmx rf BF EX s = Vmax M (RFW M RF) (is_goal M) s.
  Proof. intros. apply Vmax_irrel. Qed.

  Lemma z_min_cert : forall v, ec_states_zero v ->
    (forall i st a, i < c -> inv i = Some (st, a) -> (entry v st <= step_value v i)%Q) ->
    forall s, s < n -> (vR v s <= Vmn rf BF EX s)%R.
  Proof.
    intros v HE HS s Hs. rewrite vmn. apply (z_min_sound M RF (vR v)); auto.
    - intros r Hr. destruct (br_row rf BF r Hr) as (a & Ei & Hn). rewrite (onestep_vec rf r v : onestep M r (vR v) = _). apply Qle_Rle. eapply HS; eauto.
    - intros s' Hs' He. unfold vR. rewrite <- RMicromega.Q2R_0. right. apply Qeq_eqR. apply HE; auto. apply (br_ec rf BF EX). auto.
  Qed.

  Lemma z_max_cert : forall v, 
    (forall i st a, i < c -> inv i = Some (st, a) -> (step_value v i <= entry v st)%Q) ->
    forall s, s < n -> (Vmx rf BF EX s <= vR v s)%R.
  Proof.
    intros v HS s Hs. rewrite vmx. apply (z_max_sound M RF (proj2 (proj2 RFI)) (vR v)); auto.
    intros r Hr. destruct (br_row rf BF r Hr) as (a & Ei & Hn). rewrite (onestep_vec rf r v : onestep M r (vR v) = _). apply Qle_Rle. eapply HS; eauto.
  Qed.

  Lemma at_init_R : forall s, Q2R (at_init s) = if s =? init then 1%R else 0%R.
  Proof. intros. unfold at_init. destruct (s =? init); [apply RMicromega.Q2R_1|apply RMicromega.Q2R_0]. Qed.

  Lemma y_max_cert : forall v, init < n -> (forall i, i < c -> (0 <= entry v i)%Q) ->
    (forall st, st < n -> (flow v st <= at_init st)%Q) -> (Q2R (reward_y v) <= Vmx rf BF EX init)%R.
  Proof.
    intros v Hi Hp Hf. rewrite vmx. rewrite <- (to_goal_vec rf v : to_goal M (vR v) = Q2R (reward_y v)). apply (y_max_sound M init RF); auto.
    - intros r Hr. rewrite <- RMicromega.Q2R_0. apply Qle_Rle. apply Hp; auto.
    - intros s Hs. rewrite <- at_init_R. rewrite (balance_vec rf BF v s Hs : balance M (vR v) s = _). apply Qle_Rle. apply Hf; auto.
  Qed.

  Lemma y_min_cert : forall v, init < n -> (forall i, i < c -> (0 <= entry v i)%Q) ->
    (forall st, st < n -> (at_init st <= flow v st)%Q) -> (Vmn rf BF EX init <= Q2R (reward_y v))%R.
  Proof.
    intros v Hi Hp Hf. rewrite vmn. rewrite <- (to_goal_vec rf v : to_goal M (vR v) = Q2R (reward_y v)). apply (y_min_sound M init RF); auto.
    - intros r Hr. rewrite <- RMicromega.Q2R_0. apply Qle_Rle. apply Hp; auto.
    - intros s Hs. rewrite <- at_init_R. rewrite (balance_vec rf BF v s Hs : balance M (vR v) s = _). apply Qle_Rle. apply Hf; auto.
  Qed.

  Lemma init_N : init < nS M. Proof. apply (br_init_lt rf BF). Qed.

  Lemma C19_lemma : forall t v, check_farkas rf Min FGe t v 0 = Ok true ->
    forall sigma p, valid_scheduler M sigma -> PrForm rf sigma init p -> (Q2R t <= p)%R.
  Proof.
    intros t v H sigma p HV HP. apply check_z_min in H; [|left; auto]. destruct H as (_ & Hi & _ & HE & HS & HT & _).
    assert (A := z_min_cert v HE). assert (B : (vR v init <= Vmn rf BF EX init)%R). { apply A; auto. intros i st a Hc Hinv. specialize (HS i st a Hc Hinv). Lqa.lra. }
    destruct (Pr_between rf BF EX sigma init p init_N HV HP) as (C & _).
    assert (D : (t <= entry v init)%Q) by Lqa.lra. apply Qle_Rle in D. unfold vR in B. lra.
  Qed.

  Lemma C19_strict_lemma : forall t v, check_farkas rf Min FGt t v 0 = Ok true ->
    forall sigma p, valid_scheduler M sigma -> PrForm rf sigma init p -> (Q2R t < p)%R.
  Proof.
    intros t v H sigma p HV HP. apply check_z_min in H; [|right; auto]. destruct H as (_ & Hi & _ & HE & HS & _ & HT). specialize (HT eq_refl).
    assert (A := z_min_cert v HE). assert (B : (vR v init <= Vmn rf BF EX init)%R). { apply A; auto. intros i st a Hc Hinv. specialize (HS i st a Hc Hinv). Lqa.lra. }
    destruct (Pr_between rf BF EX sigma init p init_N HV HP) as (C & _).
    assert (D : (t < entry v init)%Q) by Lqa.lra. apply Qlt_Rlt in D. unfold vR in B. lra.
  Qed.

  Lemma C20_lemma : forall t v, check_farkas rf Max FLe t v 0 = Ok true ->
    forall sigma p, valid_scheduler M sigma -> PrForm rf sigma init p -> (p <= Q2R t)%R.
  Proof.
    intros t v H sigma p HV HP. apply check_z_max in H; [|left; auto]. destruct H as (_ & Hi & _ & HS & HT & _).
    assert (B : (Vmx rf BF EX init <= vR v init)%R). { apply z_max_cert; auto. intros i st a Hc Hinv. specialize (HS i st a Hc Hinv). Lqa.lra. }
    destruct (Pr_between rf BF EX sigma init p init_N HV HP) as (_ & C).
    assert (D : (entry v init <= t)%Q) by Lqa.lra. apply Qle_Rle in D. unfold vR in B. lra.
  Qed.

  Lemma C20_strict_lemma : forall t v, check_farkas rf Max FLt t v 0 = Ok true ->
    forall sigma p, valid_scheduler M sigma -> PrForm rf sigma init p -> (p < Q2R t)%R.
  Proof.
    intros t v H sigma p HV HP. apply check_z_max in H; [|right; auto]. destruct H as (_ & Hi & _ & HS & _ & HT). specialize (HT eq_refl).
    assert (B : (Vmx rf BF EX init <= vR v init)%R). { apply z_max_cert; auto. intros i st a Hc Hinv. specialize (HS i st a Hc Hinv). Lqa.lra. }
    destruct (Pr_between rf BF EX sigma init p init_N HV HP) as (_ & C).
    assert (D : (entry v init < t)%Q) by Lqa.lra. apply Qlt_Rlt in D. unfold vR in B. lra.
  Qed.

  Lemma init_goal : init = n -> c = 0.
  Proof.
    intros Hi. pose proof RFI as ((_ & _ & _ & HS & _ & _) & HR & _).
    destruct (Nat.eq_dec c 0) as [|Hc]; auto. exfalso.
    assert (Hs : src M 0 < nS M - 2). { apply HS. change (nA M - 2) with c. lia. }
    assert (HR0 : rtc (medge M) init (src M 0)). { apply HR; unfold fail; lia. }
    replace init with (goal M) in HR0 by (unfold init in *; rewrite Hi; reflexivity).
    apply (goal_absorbing M RF) in HR0. unfold goal in HR0. lia.
  Qed.

  Lemma C21_partial_lemma : forall t v, check_farkas rf Max FGe t v 0 = Ok true -> (forall i, i < c -> (0 <= entry v i)%Q) ->
    forall p, PrMaxForm rf init p -> (Q2R t <= p)%R.
  Proof.
    intros t v H Hp p HP. apply check_y_max in H; [|left; auto]. destruct H as ((U0 & U1) & Hi & HL & HF & HT & _).
    apply (Vmx_max rf BF EX init p init_N) in HP. subst p.
    assert (D : (t <= reward_y v)%Q) by Lqa.lra. apply Qle_Rle in D. destruct (Nat.eq_dec init n) as [E|E].
    - apply init_goal in E. unfold reward_y in D. rewrite E in D. unfold sum_to in D. simpl in D. rewrite RMicromega.Q2R_0 in D.
      pose proof (Vmax_bounds M (br_wf rf BF EX) (is_goal M) init). unfold Vmx. fold M. lra.
    - eapply Rle_trans; [exact D|]. apply y_max_cert; auto; [lia|]. intros st Hst. specialize (HF st Hst). Lqa.lra.
  Qed.

  Lemma C21_strict_lemma : forall t v, check_farkas rf Max FGt t v 0 = Ok true -> (forall i, i < c -> (0 <= entry v i)%Q) ->
    forall p, PrMaxForm rf init p -> (Q2R t < p)%R.
  Proof.
    intros t v H Hp p HP. apply check_y_max in H; [|right; auto]. destruct H as ((U0 & U1) & Hi & HL & HF & _ & HT). specialize (HT eq_refl).
    apply (Vmx_max rf BF EX init p init_N) in HP. subst p.
    assert (D : (t < reward_y v)%Q) by Lqa.lra. destruct (Nat.eq_dec init n) as [E|E].
    - apply init_goal in E. unfold reward_y in D. rewrite E in D. unfold sum_to in D. simpl in D. Lqa.lra.
    - apply Qlt_Rlt in D. eapply Rlt_le_trans; [exact D|]. apply y_max_cert; auto; [lia|]. intros st Hst. specialize (HF st Hst). Lqa.lra.
  Qed.

  Lemma C22_partial_lemma : forall t v, check_farkas rf Min FLe t v 0 = Ok true -> (forall i, i < c -> (0 <= entry v i)%Q) -> init < n ->
    forall p, PrMinForm rf init p -> (p <= Q2R t)%R.
  Proof.
    intros t v H Hp Hi p HP. apply check_y_min in H; [|left; auto]. destruct H as ((U0 & U1) & _ & HL & HE & HF & HT & _).
    apply (Vmn_min rf BF EX init p init_N) in HP. subst p.
    assert (D : (reward_y v <= t)%Q) by Lqa.lra. apply Qle_Rle in D.
    eapply Rle_trans; [|exact D]. apply y_min_cert; auto. intros st Hst. specialize (HF st Hst). Lqa.lra.
  Qed.

  Lemma C22_strict_lemma : forall t v, check_farkas rf Min FLt t v 0 = Ok true -> (forall i, i < c -> (0 <= entry v i)%Q) -> init < n ->
    forall p, PrMinForm rf init p -> (p < Q2R t)%R.
  Proof.
    intros t v H Hp Hi p HP. apply check_y_min in H; [|right; auto]. destruct H as ((U0 & U1) & _ & HL & HE & HF & _ & HT). specialize (HT eq_refl).
    apply (Vmn_min rf BF EX init p init_N) in HP. subst p.
    assert (D : (reward_y v < t)%Q) by Lqa.lra. apply Qlt_Rlt in D.
    eapply Rle_lt_trans; [|exact D]. apply y_min_cert; auto. intros st Hst. specialize (HF st Hst). Lqa.lra.
  Qed.

  (** ** Completeness *)
  Definition of_fun (k : nat) (f : nat -> Q) : list Q := map f (seq 0 k).
  Lemma of_fun_entry : forall k f i, i < k -> entry (of_fun k f) i = f i.
  Proof. intros. unfold entry, of_fun. apply nth_map_seq; auto. Qed.
  Lemma of_fun_length : forall k f, length (of_fun k f) = k.
  Proof. intros. unfold of_fun. rewrite map_length, seq_length. auto. Qed.

  Definition ind (a b : nat) : Q := if a =? b then 1%Q else 0%Q.
  Definition z_row (i : nat) : ineq := (fun d => (ind (src M i) d - mget P i d)%Q, mget P i n).
  Definition neg (cc : ineq) : ineq := (fun d => (- fst cc d)%Q, (- snd cc)%Q).
  Definition pin (s : nat) : ineq := (ind s, 0%Q).
  Definition is_ec_b (s : nat) : bool := match in_proper_ec rf s with Ok true => true | _ => false end.

  Lemma is_ec_b_iff : forall s, s < n -> (is_ec_b s = true <-> in_some_ec P inv s).
  Proof.
    intros s Hs. destruct (in_proper_ec_ok rf init RO FM s Hs) as (e & Ee & He). unfold is_ec_b. rewrite Ee. change (e = true <-> in_some_ec P inv s) in He. rewrite <- He. destruct e; tauto.
  Qed.

  Lemma ind_sumQ : forall k s x, s < k -> (sum_to k (fun j => ind s j * x j) == x s)%Q.
  Proof.
    intros. rewrite (sum_to_ext k _ (fun j => if s =? j then x j else 0%Q)); [apply sum_to_single; auto|].
    intros i _. unfold ind. destruct (s =? i); ring.
  Qed.
  Lemma ind_sumR : forall k s (x : nat -> R), s < k -> sumn k (fun j => Q2R (ind s j) * x j)%R = x s.
  Proof.
    intros k s x Hs. rewrite (sumn_ext k _ (fun j => if Nat.eqb j s then x s else 0%R)); [apply sumn_indicator; auto|].
    intros i _. unfold ind. rewrite (Nat.eqb_sym s i). destruct (Nat.eqb_spec i s); subst; [rewrite RMicromega.Q2R_1|rewrite RMicromega.Q2R_0]; ring.
  Qed.

  Lemma src_lt : forall i, i < c -> src M i < n.
  Proof. intros i Hi. destruct (br_row rf BF i Hi) as (a & _ & H). auto. Qed.

  Lemma z_row_Q : forall i x, i < c -> (satQ n x (z_row i) <-> (x (src M i) <= sum_to n (fun d => mget P i d * x d) + mget P i n)%Q).
  Proof.
    intros i x Hi. unfold satQ, z_row; cbn [fst snd].
    rewrite (sum_to_ext n _ (fun j => ind (src M i) j * x j - mget P i j * x j)%Q) by (intros; ring).
    rewrite sum_to_minus, ind_sumQ by (apply src_lt; auto). split; intros; Lqa.lra.
  Qed.
  Lemma z_row_R : forall i x, i < c -> (satR n x (z_row i) <-> (x (src M i) <= onestep M i x)%R).
  Proof.
    intros i x Hi. unfold satR, z_row; cbn [fst snd].
    rewrite (sumn_ext n _ (fun j => Q2R (ind (src M i) j) * x j - prob M i j * x j)%R) by (intros; rewrite Q2R_minus; change (prob M i i0) with (Q2R (mget P i i0)); ring).
    rewrite sumn_minus, ind_sumR by (apply src_lt; auto). unfold onestep. change (nS M - 2) with n. change (prob M i (goal M)) with (Q2R (mget P i n)). split; intros; lra.
  Qed.
  Lemma neg_Q : forall k x cc, satQ k x (neg cc) <-> (snd cc <= sum_to k (fun j => fst cc j * x j))%Q.
  Proof.
    intros. unfold satQ, neg; cbn [fst snd]. rewrite (sum_to_ext k _ (fun j => - (fst cc j * x j))%Q) by (intros; ring). rewrite sum_to_opp. split; intros; Lqa.lra.
  Qed.
  Lemma neg_R : forall k x cc, satR k x (neg cc) <-> (Q2R (snd cc) <= sumn k (fun j => Q2R (fst cc j) * x j))%R.
  Proof.
    intros. unfold satR, neg; cbn [fst snd]. rewrite (sumn_ext k _ (fun j => - (Q2R (fst cc j) * x j))%R) by (intros; rewrite Q2R_opp; ring). rewrite sumn_opp, Q2R_opp. split; intros; lra.
  Qed.

  Lemma complete_z_min : forall t tol s, in_unit t -> (0 <= tol)%Q -> s = FGe -> init < n -> (Q2R t <= Vmn rf BF EX init)%R ->
    exists v, check_farkas rf Min s t v tol = Ok true.
  Proof.
    intros t tol s U Ht Hs Hi HV.
    set (cs := map z_row (seq 0 c) ++ [neg (ind init, t)] ++ flat_map (fun s => [pin s; neg (pin s)]) (filter is_ec_b (seq 0 n))).
    destruct (real_rational n cs (Vmn rf BF EX)) as (y & Hy).
    { intros cc Hc. unfold cs in Hc. rewrite !in_app_iff in Hc. destruct Hc as [Hc|[[<-|[]]|Hc]].
      - apply in_map_iff in Hc. destruct Hc as (i & <- & Hx). apply in_seq in Hx. apply z_row_R; [lia|]. rewrite vmn.
        unfold onestep. erewrite sumn_ext; [|intros j Hj; rewrite (vmn j); reflexivity].
        apply (Vmin_onestep M RF i). change (nA M - 2) with c. lia.
      - apply neg_R. cbn [fst snd]. rewrite ind_sumR by auto. auto.
      - apply in_flat_map in Hc. destruct Hc as (x & Hx & Hc). apply filter_In in Hx. destruct Hx as (Hx & He). apply in_seq in Hx.
        assert (E0 : Vmn rf BF EX x = 0%R).
        { rewrite vmn. apply (Vmin_in_ec M RF); [change (nS M - 2) with n; lia|]. apply (br_ec rf BF EX). apply is_ec_b_iff; auto. lia. }
        destruct Hc as [<-|[<-|[]]].
        + unfold satR, pin; cbn [fst snd]. rewrite ind_sumR by lia. rewrite E0, RMicromega.Q2R_0. lra.
        + apply neg_R. unfold pin; cbn [fst snd]. rewrite ind_sumR by lia. rewrite E0, RMicromega.Q2R_0. lra. }
    assert (SUM : forall i, (sum_to n (fun d => mget P i d * entry (of_fun n y) d) == sum_to n (fun d => mget P i d * y d))%Q).
    { intros i. apply sum_to_ext. intros j Hj. rewrite of_fun_entry by auto. reflexivity. }
    exists (of_fun n y). subst s. apply check_z_min; [left; auto|]. split; [auto|]. split; [auto|]. split; [apply of_fun_length|]. split; [|split; [|split]].
    - intros s Hs He. rewrite of_fun_entry by auto. apply is_ec_b_iff in He; auto.
      assert (A1 : satQ n y (pin s) /\ satQ n y (neg (pin s))).
      { split; apply Hy; unfold cs; rewrite !in_app_iff; right; right; apply in_flat_map; exists s; (split; [apply filter_In; split; auto; apply in_seq; lia|simpl; auto]). }
      destruct A1 as [A1 A2]. apply neg_Q in A2. unfold satQ, pin in A1, A2. cbn [fst snd] in *. rewrite ind_sumQ in A1, A2 by auto. Lqa.lra.
    - intros i st a Hic Ei. unfold step_value. rewrite SUM. destruct (br_row rf BF i Hic) as (a' & Ei' & Hn).
      assert (E : st = src M i) by (change (a_inv (rf_sys rf) i) with (inv i) in Ei'; rewrite Ei in Ei'; inversion Ei'; auto). subst st. rewrite of_fun_entry by auto.
      assert (A1 : satQ n y (z_row i)). { apply Hy. unfold cs. rewrite !in_app_iff. left. apply in_map. apply in_seq. lia. }
      apply z_row_Q in A1; auto. Lqa.lra.
    - rewrite of_fun_entry by auto. assert (A1 : satQ n y (neg (ind init, t))). { apply Hy. unfold cs. rewrite !in_app_iff. right; left; left; auto. }
      apply neg_Q in A1. cbn [fst snd] in A1. rewrite ind_sumQ in A1 by auto. Lqa.lra.
    - discriminate.
  Qed.

  Lemma complete_z_max : forall t tol s, in_unit t -> (0 <= tol)%Q -> s = FLe -> init < n -> (Vmx rf BF EX init <= Q2R t)%R ->
    exists v, check_farkas rf Max s t v tol = Ok true.
  Proof.
    intros t tol s U Ht Hs Hi HV.
    set (cs := map (fun i => neg (z_row i)) (seq 0 c) ++ [(ind init, t)]).
    destruct (real_rational n cs (Vmx rf BF EX)) as (y & Hy).
    { intros cc Hc. unfold cs in Hc. rewrite !in_app_iff in Hc. destruct Hc as [Hc|[<-|[]]].
      - apply in_map_iff in Hc. destruct Hc as (i & <- & Hx). apply in_seq in Hx.
        apply neg_R. unfold z_row; cbn [fst snd].
        rewrite (sumn_ext n _ (fun j => Q2R (ind (src M i) j) * Vmx rf BF EX j - prob M i j * Vmx rf BF EX j)%R) by (intros; rewrite Q2R_minus; change (prob M i i0) with (Q2R (mget P i i0)); ring).
        rewrite sumn_minus, ind_sumR by (apply src_lt; lia).
        pose proof (Vmax_onestep M RF i ltac:(change (nA M - 2) with c; lia)) as G. rewrite <- vmx in G. unfold onestep in G.
        erewrite sumn_ext in G; [|intros j Hj; rewrite <- (vmx j); reflexivity]. change (nS M - 2) with n in G. change (prob M i (goal M)) with (Q2R (mget P i n)) in G. lra.
      - unfold satR; cbn [fst snd]. rewrite ind_sumR by auto. auto. }
    assert (SUM : forall i, (sum_to n (fun d => mget P i d * entry (of_fun n y) d) == sum_to n (fun d => mget P i d * y d))%Q).
    { intros i. apply sum_to_ext. intros j Hj. rewrite of_fun_entry by auto. reflexivity. }
    exists (of_fun n y). subst s. apply check_z_max; [left; auto|]. split; [auto|]. split; [auto|]. split; [apply of_fun_length|]. split; [|split].
    - intros i st a Hic Ei. unfold step_value. rewrite SUM. destruct (br_row rf BF i Hic) as (a' & Ei' & Hn).
      assert (E : st = src M i) by (change (a_inv (rf_sys rf) i) with (inv i) in Ei'; rewrite Ei in Ei'; inversion Ei'; auto). subst st. rewrite of_fun_entry by auto.
      assert (A1 : satQ n y (neg (z_row i))). { apply Hy. unfold cs. rewrite !in_app_iff. left. apply in_map_iff. exists i. split; auto. apply in_seq. lia. }
      apply neg_Q in A1. unfold z_row in A1; cbn [fst snd] in A1.
      rewrite (sum_to_ext n _ (fun j => ind (src M i) j * y j - mget P i j * y j)%Q) in A1 by (intros; ring).
      rewrite sum_to_minus, ind_sumQ in A1 by (apply src_lt; auto). Lqa.lra.
    - rewrite of_fun_entry by auto. assert (A1 : satQ n y (ind init, t)). { apply Hy. unfold cs. rewrite !in_app_iff. right; left; auto. }
      unfold satQ in A1. cbn [fst snd] in A1. rewrite ind_sumQ in A1 by auto. Lqa.lra.
    - discriminate.
  Qed.

  (** y-form: Farkas multipliers give a z-vector. *)
  Definition flow_row (s : nat) : ineq := (fun j => ((if src M j =? s then 1 else 0) - mget P j s)%Q, at_init s).
  Definition reward_row (t : Q) : ineq := (fun j => mget P j n, t).
  Definition nonneg_row (i : nat) : ineq := (fun j => (- ind i j)%Q, 0%Q).

  Definition drop (w : nat -> Q) (j : nat) : Q := (w (src M j) - sum_to n (fun s => mget P j s * w s))%Q.

  Lemma drop_add : forall w w' j, (drop (fun s => w s + w' s)%Q j == drop w j + drop w' j)%Q.
  Proof.
    intros. unfold drop. rewrite (sum_to_ext n _ (fun s => mget P j s * w s + mget P j s * w' s)%Q) by (intros; ring). rewrite sum_to_plus. ring.
  Qed.
  Lemma drop_scale : forall q w j, (drop (fun s => q * w s)%Q j == q * drop w j)%Q.
  Proof.
    intros. unfold drop. rewrite (sum_to_ext n _ (fun s => q * (mget P j s * w s))%Q) by (intros; ring). rewrite sum_to_scal. ring.
  Qed.
  Lemma drop_zero : forall j, (drop (fun _ => 0%Q) j == 0)%Q.
  Proof.
    intros. unfold drop. assert (E : (sum_to n (fun s => mget P j s * 0) == sum_to n (fun s => 0 * mget P j s))%Q) by (apply sum_to_ext; intros; ring).
    rewrite E, sum_to_scal. ring.
  Qed.
  Lemma drop_ind : forall s j, s < n -> (drop (ind s) j == fst (flow_row s) j)%Q.
  Proof.
    intros s j Hs. unfold drop, flow_row; cbn [fst].
    rewrite (sum_to_ext n _ (fun k => ind s k * mget P j k)%Q) by (intros; ring). rewrite ind_sumQ by auto. unfold ind. rewrite Nat.eqb_sym. reflexivity.
  Qed.

  Definition ymax_cs (t : Q) : list ineq := map nonneg_row (seq 0 c) ++ map flow_row (seq 0 n) ++ [neg (reward_row t)].
  Definition ymin_cs (t : Q) : list ineq := map nonneg_row (seq 0 c) ++ map (fun s => neg (flow_row s)) (seq 0 n) ++ [reward_row t].

  Lemma ind_pos : forall a b, (0 <= ind a b)%Q.
  Proof. intros. unfold ind. destruct (a =? b); Lqa.lra. Qed.

  Lemma cone_ymax : forall t cc, init < n -> cone (ymax_cs t) cc -> exists w nu, (forall s, (0 <= w s)%Q) /\ (0 <= nu)%Q /\
    (forall j, (fst cc j <= drop w j - nu * mget P j n)%Q) /\ (snd cc == w init - nu * t)%Q.
  Proof.
    intros t cc Hi HC. induction HC as [cc Hc|c1 c2 _ IH1 _ IH2|q c1 Hq _ IH1].
    - unfold ymax_cs in Hc. rewrite !in_app_iff in Hc. destruct Hc as [Hc|[Hc|[<-|[]]]].
      + apply in_map_iff in Hc. destruct Hc as (i & <- & _). exists (fun _ => 0%Q), 0%Q. split; [intros; Lqa.lra|]. split; [Lqa.lra|]. split.
        * intros j. rewrite drop_zero. unfold nonneg_row; cbn [fst]. pose proof (ind_pos i j). Lqa.lra.
        * unfold nonneg_row; cbn [snd]. ring.
      + apply in_map_iff in Hc. destruct Hc as (s & <- & Hs). apply in_seq in Hs. exists (ind s), 0%Q. split; [intros; apply ind_pos|]. split; [Lqa.lra|]. split.
        * intros j. rewrite drop_ind by lia. Lqa.lra.
        * unfold flow_row, at_init, ind; cbn [snd]. destruct (s =? init); ring.
      + exists (fun _ => 0%Q), 1%Q. split; [intros; Lqa.lra|]. split; [Lqa.lra|]. split.
        * intros j. rewrite drop_zero. unfold neg, reward_row; cbn [fst]. Lqa.lra.
        * unfold neg, reward_row; cbn [snd]. ring.
    - destruct IH1 as (w1 & n1 & A1 & B1 & C1 & D1). destruct IH2 as (w2 & n2 & A2 & B2 & C2 & D2).
      exists (fun s => w1 s + w2 s)%Q, (n1 + n2)%Q. split; [intros; specialize (A1 s); specialize (A2 s); Lqa.lra|]. split; [Lqa.lra|]. split.
      + intros j. rewrite drop_add. cbn [fst]. specialize (C1 j). specialize (C2 j). Lqa.lra.
      + cbn [snd]. rewrite D1, D2. ring.
    - destruct IH1 as (w1 & n1 & A1 & B1 & C1 & D1). exists (fun s => q * w1 s)%Q, (q * n1)%Q.
      split; [intros; apply Qmult_le_0_compat; auto|]. split; [apply Qmult_le_0_compat; auto|]. split.
      + intros j. rewrite drop_scale. cbn [fst]. specialize (C1 j).
        setoid_replace (q * drop w1 j - q * n1 * mget P j n)%Q with (q * (drop w1 j - n1 * mget P j n))%Q by ring.
        rewrite (Qmult_comm q (fst c1 j)), (Qmult_comm q). apply Qmult_le_compat_r; auto.
      + cbn [snd]. rewrite D1. ring.
  Qed.

  Lemma cone_ymin : forall t cc, init < n -> cone (ymin_cs t) cc -> exists w nu, (forall s, (0 <= w s)%Q) /\ (0 <= nu)%Q /\
    (forall j, (fst cc j <= nu * mget P j n - drop w j)%Q) /\ (snd cc == nu * t - w init)%Q.
  Proof.
    intros t cc Hi HC. induction HC as [cc Hc|c1 c2 _ IH1 _ IH2|q c1 Hq _ IH1].
    - unfold ymin_cs in Hc. rewrite !in_app_iff in Hc. destruct Hc as [Hc|[Hc|[<-|[]]]].
      + apply in_map_iff in Hc. destruct Hc as (i & <- & _). exists (fun _ => 0%Q), 0%Q. split; [intros; Lqa.lra|]. split; [Lqa.lra|]. split.
        * intros j. rewrite drop_zero. unfold nonneg_row; cbn [fst]. pose proof (ind_pos i j). Lqa.lra.
        * unfold nonneg_row; cbn [snd]. ring.
      + apply in_map_iff in Hc. destruct Hc as (s & <- & Hs). apply in_seq in Hs. exists (ind s), 0%Q. split; [intros; apply ind_pos|]. split; [Lqa.lra|]. split.
        * intros j. rewrite drop_ind by lia. unfold neg; cbn [fst]. Lqa.lra.
        * unfold neg, flow_row, at_init, ind; cbn [snd]. destruct (s =? init); ring.
      + exists (fun _ => 0%Q), 1%Q. split; [intros; Lqa.lra|]. split; [Lqa.lra|]. split.
        * intros j. rewrite drop_zero. unfold reward_row; cbn [fst]. Lqa.lra.
        * unfold reward_row; cbn [snd]. ring.
    - destruct IH1 as (w1 & n1 & A1 & B1 & C1 & D1). destruct IH2 as (w2 & n2 & A2 & B2 & C2 & D2).
      exists (fun s => w1 s + w2 s)%Q, (n1 + n2)%Q. split; [intros; specialize (A1 s); specialize (A2 s); Lqa.lra|]. split; [Lqa.lra|]. split.
      + intros j. rewrite drop_add. cbn [fst]. specialize (C1 j). specialize (C2 j). Lqa.lra.
      + cbn [snd]. rewrite D1, D2. ring.
    - destruct IH1 as (w1 & n1 & A1 & B1 & C1 & D1). exists (fun s => q * w1 s)%Q, (q * n1)%Q.
      split; [intros; apply Qmult_le_0_compat; auto|]. split; [apply Qmult_le_0_compat; auto|]. split.
      + intros j. rewrite drop_scale. cbn [fst]. specialize (C1 j).
        setoid_replace (q * n1 * mget P j n - q * drop w1 j)%Q with (q * (n1 * mget P j n - drop w1 j))%Q by ring.
        rewrite (Qmult_comm q (fst c1 j)), (Qmult_comm q). apply Qmult_le_compat_r; auto.
      + cbn [snd]. rewrite D1. ring.
  Qed.

  Lemma flow_row_sum : forall y s, (sum_to c (fun j => fst (flow_row s) j * y j) == flow (of_fun c y) s)%Q.
  Proof.
    intros y s. unfold flow, flow_row; cbn [fst]. rewrite <- sum_to_minus. apply sum_to_ext. intros i Hi.
    rewrite of_fun_entry by auto. unfold belongs. destruct (br_row rf BF i Hi) as (a & Ei & _). change (a_inv (rf_sys rf) i) with (inv i) in Ei. rewrite Ei.
    fold M. destruct (src M i =? s); ring.
  Qed.
  Lemma reward_row_sum : forall y t, (sum_to c (fun j => fst (reward_row t) j * y j) == reward_y (of_fun c y))%Q.
  Proof. intros y t. unfold reward_y, reward_row; cbn [fst]. apply sum_to_ext. intros i Hi. rewrite of_fun_entry by auto. reflexivity. Qed.

  Lemma drop_step : forall w nu j, j < c -> (0 < nu)%Q -> let z := of_fun n (fun s => w s / nu)%Q in
    (entry z (src M j) - step_value z j == (drop w j - nu * mget P j n) / nu)%Q.
  Proof.
    intros w nu j Hj Hn z. unfold step_value, z, drop. rewrite of_fun_entry by (apply src_lt; auto).
    rewrite (sum_to_ext n _ (fun d => (1 / nu) * (mget P j d * w d))%Q).
    - rewrite sum_to_scal. field. Lqa.lra.
    - intros i Hi. rewrite of_fun_entry by auto. field. Lqa.lra.
  Qed.

  Lemma complete_y_max : forall t tol s, in_unit t -> (0 <= tol)%Q -> s = FGe -> init < n -> (Q2R t <= Vmx rf BF EX init)%R ->
    exists v, check_farkas rf Max s t v tol = Ok true /\ (forall i, i < c -> (0 <= entry v i)%Q).
  Proof.
    intros t tol s U Ht Hs Hi HV. destruct (farkas_cone c (ymax_cs t)) as [(y & Hy)|(cc & HC & HZ & HN)].
    - exists (of_fun c y). split.
      + subst s. apply check_y_max; [left; auto|]. split; [auto|]. split; [unfold n in *; lia|]. split; [apply of_fun_length|]. split; [|split].
        * intros s Hs. assert (A : satQ c y (flow_row s)). { apply Hy. unfold ymax_cs. rewrite !in_app_iff. right; left. apply in_map. apply in_seq. lia. }
          unfold satQ in A. rewrite flow_row_sum in A. unfold flow_row in A; cbn [snd] in A. Lqa.lra.
        * assert (A : satQ c y (neg (reward_row t))). { apply Hy. unfold ymax_cs. rewrite !in_app_iff. right; right; left; auto. }
          apply neg_Q in A. rewrite reward_row_sum in A. unfold reward_row in A; cbn [snd] in A. Lqa.lra.
        * discriminate.
      + intros i Hic. rewrite of_fun_entry by auto. assert (A : satQ c y (nonneg_row i)). { apply Hy. unfold ymax_cs. rewrite !in_app_iff. left. apply in_map. apply in_seq. lia. }
        unfold satQ, nonneg_row in A; cbn [fst snd] in A.
        rewrite (sum_to_ext c _ (fun j => - (ind i j * y j))%Q) in A by (intros; ring). rewrite sum_to_opp, ind_sumQ in A by auto. Lqa.lra.
    - exfalso. destruct (cone_ymax t cc Hi HC) as (w & nu & W0 & N0 & DR & SN).
      destruct (Qlt_le_dec 0 nu) as [Hn|Hn].
      + set (z := of_fun n (fun s => w s / nu)%Q).
        assert (G : (Vmx rf BF EX init <= vR z init)%R).
        { apply z_max_cert; auto. intros i st a Hic Ei. destruct (br_row rf BF i Hic) as (a' & Ei' & _).
          assert (E : st = src M i) by (change (a_inv (rf_sys rf) i) with (inv i) in Ei'; rewrite Ei in Ei'; inversion Ei'; auto). subst st.
          pose proof (drop_step w nu i Hic Hn) as E. cbn zeta in E. fold z in E. specialize (DR i). rewrite HZ in DR by auto.
          assert (0 <= (drop w i - nu * mget P i n) / nu)%Q. { apply Qle_shift_div_l; auto. Lqa.lra. } Lqa.lra. }
        unfold vR, z in G. rewrite of_fun_entry in G by auto.
        assert (L : (w init / nu < t)%Q). { apply Qlt_shift_div_r; auto. rewrite SN in HN. Lqa.lra. }
        apply Qlt_Rlt in L. lra.
      + assert (E : (nu == 0)%Q) by Lqa.lra. rewrite SN, E in HN. specialize (W0 init). Lqa.lra.
  Qed.

  Lemma complete_y_min : forall t tol s, is_ec_free rf = true -> in_unit t -> (0 <= tol)%Q -> s = FLe -> init < n -> (Vmn rf BF EX init <= Q2R t)%R ->
    exists v, check_farkas rf Min s t v tol = Ok true /\ (forall i, i < c -> (0 <= entry v i)%Q).
  Proof.
    intros t tol s FREE U Ht Hs Hi HV.
    assert (NE : forall s, s < n -> ~ in_some_ec P inv s) by (apply (is_ec_free_iff rf init RO FM); auto).
    destruct (farkas_cone c (ymin_cs t)) as [(y & Hy)|(cc & HC & HZ & HN)].
    - exists (of_fun c y). split.
      + subst s. apply check_y_min; [left; auto|]. split; [auto|]. split; [unfold n in *; lia|]. split; [apply of_fun_length|]. split; [|split; [|split]].
        * intros i s a Hic Ei He. exfalso. destruct (inv_row i Hic) as (s' & a' & E' & Hn). rewrite Ei in E'. inversion E'; subst. apply (NE s'); auto.
        * intros s Hs. assert (A : satQ c y (neg (flow_row s))). { apply Hy. unfold ymin_cs. rewrite !in_app_iff. right; left. apply in_map_iff. exists s. split; auto. apply in_seq. lia. }
          apply neg_Q in A. rewrite flow_row_sum in A. unfold flow_row in A; cbn [snd] in A. Lqa.lra.
        * assert (A : satQ c y (reward_row t)). { apply Hy. unfold ymin_cs. rewrite !in_app_iff. right; right; left; auto. }
          unfold satQ in A. rewrite reward_row_sum in A. unfold reward_row in A; cbn [snd] in A. Lqa.lra.
        * discriminate.
      + intros i Hic. rewrite of_fun_entry by auto. assert (A : satQ c y (nonneg_row i)). { apply Hy. unfold ymin_cs. rewrite !in_app_iff. left. apply in_map. apply in_seq. lia. }
        unfold satQ, nonneg_row in A; cbn [fst snd] in A.
        rewrite (sum_to_ext c _ (fun j => - (ind i j * y j))%Q) in A by (intros; ring). rewrite sum_to_opp, ind_sumQ in A by auto. Lqa.lra.
    - exfalso. destruct (cone_ymin t cc Hi HC) as (w & nu & W0 & N0 & DR & SN).
      assert (KEY : forall k, (0 < k)%Q -> (nu == k \/ nu == 0)%Q -> (Q2R (w init / k) <= Vmn rf BF EX init)%R).
      { intros k Hk Hnk. set (z := of_fun n (fun s => w s / k)%Q).
        assert (G : (vR z init <= Vmn rf BF EX init)%R).
        { apply z_min_cert; auto; [intros s0 H0 He; exfalso; apply (NE s0); auto|]. intros i st a Hic Ei. destruct (br_row rf BF i Hic) as (a' & Ei' & _).
          assert (E : st = src M i) by (change (a_inv (rf_sys rf) i) with (inv i) in Ei'; rewrite Ei in Ei'; inversion Ei'; auto). subst st.
          pose proof (drop_step w k i Hic Hk) as E. cbn zeta in E. fold z in E. specialize (DR i). rewrite HZ in DR by auto.
          assert (PP : (0 <= mget P i n)%Q). { apply Rle_Qle. rewrite RMicromega.Q2R_0. apply (W_pos M (br_wf rf BF EX) i n).
            - change (nA M) with (mrows P). unfold c, rf_C, a_C in Hic. unfold P, m. lia.
            - change (nS M) with (mcols P). pose proof (ro_N rf RO). unfold n, rf_N, a_N in *. unfold P, m. lia. }
          assert ((drop w i - k * mget P i n) / k <= 0)%Q.
          { apply Qle_shift_div_r; auto. destruct Hnk as [Hnk|Hnk].
            - rewrite Hnk in DR. Lqa.lra.
            - rewrite Hnk in DR. assert (0 <= k * mget P i n)%Q by (apply Qmult_le_0_compat; Lqa.lra). Lqa.lra. }
          Lqa.lra. }
        unfold vR, z in G. rewrite of_fun_entry in G by auto. exact G. }
      destruct (Qlt_le_dec 0 nu) as [Hn|Hn].
      + assert (G := KEY nu Hn (or_introl (Qeq_refl nu))).
        assert (L : (t < w init / nu)%Q). { apply Qlt_shift_div_l; auto. rewrite SN in HN. Lqa.lra. }
        apply Qlt_Rlt in L. lra.
      + assert (E : (nu == 0)%Q) by Lqa.lra. rewrite SN, E in HN.
        assert (Wi : (0 < w init)%Q) by Lqa.lra.
        assert (G := KEY (w init / 2)%Q). assert (Hk : (0 < w init / 2)%Q) by (apply Qlt_shift_div_l; Lqa.lra). specialize (G Hk (or_intror E)).
        assert (E2 : (w init / (w init / 2) == 2)%Q) by (field; Lqa.lra). rewrite (Qeq_eqR _ _ E2) in G.
        pose proof (Vmin_bounds M (br_wf rf BF EX) (is_goal M) init) as BB. change (Vmin M (br_wf rf BF EX) (is_goal M) init) with (Vmn rf BF EX init) in BB.
        unfold Q2R in G. simpl in G. lra.
  Qed.
End Cert.
