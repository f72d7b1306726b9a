(** Proofs about drawings: subsystems. *)
From Coq Require Import String List Arith NArith ZArith QArith Bool Ascii Lia.
From Verif Require Import Base BaseFacts Num Matrix MatFacts InvDict Graph GraphProofs Amdp Files FilesProofs SpecSystem SpecBuilt SpecPrism SpecForm PrismProofs
  ReachForm ReachFormProofs BuiltFacts Reduce Subsystem SpecSub SubProofs1 SubProofs2 SubProofs4 RewardForm RewProblems SpecRewSub RewFinal Draw SpecDraw DrawProofs DrawProofs2.
Import ListNotations.
Local Open Scope string_scope.
Local Open Scope nat_scope.

Lemma mask_length : forall rf cert form ign mask, subsystem_mask (MkSub rf cert form ign) = Ok mask -> mk_subsystem rf cert form ign = Ok (MkSub rf cert form ign) ->
  length mask = a_N (rf_sys rf) - 2.
Proof.
  intros rf cert form ign mask E H. unfold mk_subsystem in H. apply bind_ok in H. destruct H as (u1 & A1 & H). apply bind_ok in H. destruct H as (u2 & A2 & H).
  apply bind_ok in H. destruct H as (u3 & A3 & H). apply assert_ok in A1, A2, A3. unfold subsystem_mask in E. cbn [sub_form sub_cert sub_super] in E. destruct form; [| |discriminate A1].
  - injection E as <-. rewrite map_length. apply Nat.eqb_eq. exact A3.
  - revert E. generalize (seq 0 (a_C (rf_sys rf) - 2)). intros l. assert (L0 : length (repeat false (a_N (rf_sys rf) - 2)) = a_N (rf_sys rf) - 2) by apply repeat_length.
    revert L0. generalize (repeat false (a_N (rf_sys rf) - 2)). induction l as [|i l IH]; intros b L0 E; cbn [foldM] in E.
    + injection E as <-. exact L0.
    + apply bind_ok in E. destruct E as (b' & E1 & E2). apply (IH b'); [|exact E2]. apply bind_ok in E1. destruct E1 as (q & _ & E1). destruct (Qlt_bool 0 q).
      * apply bind_ok in E1. destruct E1 as ([s a] & _ & E1). cbv beta iota in E1. destruct (s <? length b) eqn:Lb; [|discriminate E1]. injection E1 as <-. rewrite upd_length. exact L0.
      * injection E1 as <-. exact L0.
Qed.

Lemma merge_one : forall (a : attrs) k x, merge a [(k, x)] = dset String.eqb a k x.
Proof. reflexivity. Qed.
Lemma merge_two : forall (a : attrs) k x k' x', merge a [(k, x); (k', x')] = dset String.eqb (dset String.eqb a k x) k' x'.
Proof. reflexivity. Qed.

Lemma merge_get : forall V (b a : dict string V) k, NoDup (map fst b) -> dget String.eqb (merge a b) k = match dget String.eqb b k with Some x => Some x | None => dget String.eqb a k end.
Proof.
  intros V. unfold merge. induction b as [|[k0 x0] b IH]; intros a k N; [reflexivity|]. cbn. inversion N as [|? ? H1 H2]; subst. rewrite (IH _ _ H2).
  rewrite (dget_dset String.eqb String.eqb_spec). destruct (String.eqb_spec k0 k) as [->|D].
  - rewrite String.eqb_refl. destruct (dget String.eqb b k) eqn:G; [|reflexivity]. exfalso. apply H1. apply (dget_In String.eqb String.eqb_spec) in G. apply in_map_iff. exists (k, v). auto.
  - destruct (String.eqb_spec k k0); [congruence|]. reflexivity.
Qed.

Lemma dset_keys : forall V (a : dict string V) k x, In k (map fst a) -> map fst (dset String.eqb a k x) = map fst a.
Proof. induction a as [|[k0 x0] a IH]; intros k x H; [destruct H|]. cbn. destruct (String.eqb_spec k k0) as [->|D]; [reflexivity|]. cbn. f_equal. apply IH. cbn in H; destruct H; [congruence|assumption]. Qed.

Lemma dset_twice : forall V (a : dict string V) k x y, dset String.eqb (dset String.eqb a k x) k y = dset String.eqb a k y.
Proof.
  intros V a k x y. induction a as [|[k0 x0] a IH]; cbn [dset]; [rewrite String.eqb_refl; reflexivity|]. destruct (String.eqb k k0) eqn:E; cbn [dset]; rewrite E; [reflexivity|]. f_equal. exact IH.
Qed.

Lemma dget_key : forall V (a : dict string V) k x, dget String.eqb a k = Some x -> In k (map fst a).
Proof. intros V a k x H. apply (dget_In String.eqb String.eqb_spec) in H. apply in_map_iff. exists (k, x). auto. Qed.

Ltac gets := repeat first [rewrite (dget_dset String.eqb String.eqb_spec) | rewrite merge_get by assumption]; cbn.

Lemma weight_text : forall f l i c, weight_label f l i c = weighted the_name (f_fix5 f) l i c.
Proof. intros f [|x l] i c; cbn [weight_label weighted the_name]; [reflexivity|]. unfold weighted. rewrite <- app_assoc. reflexivity. Qed.

Section Sub.
  Context (f : formats) (rf : rform) (BF : built_form rf) (cert : list Q) (form : mode) (ign : bool) (sub : subsystem) (MK : mk_subsystem rf cert form ign = Ok sub).
  Context (v : vconfig) (subkind : res kind) (show small : bool).
  Let m := rf_sys rf.
  Let keep := chosen m form cert.
  Hypothesis TV : total_config (a_kind m) v.
  Hypothesis RD : real_dicts v.
  Hypothesis LS : show = true -> form = Min \/ a_kind m = KDtmc -> labels_states v.
  Hypothesis SK : show = true -> form = Max -> subkind = Ok (a_kind m).
  Hypothesis RS : show = true -> form = Max -> a_kind m = KDtmc -> forall s, s < a_N m - 2 -> a_inv m s = Some (s, 0).

  Definition sw (s i : nat) (c : Q) : Prop := show = true /\ state_weight m form cert s i c.
  Definition pw (s a i : nat) (c : Q) : Prop := show = true /\ pair_weight m form cert s a i c.

  Lemma sub_facts : sub = MkSub rf cert form ign /\ (form = Min \/ form = Max) /\ (form = Min -> length cert = a_N m - 2) /\ (form = Max -> length cert = a_C m - 2) /\
    exists mask, subsystem_mask sub = Ok mask /\ length mask = a_N m - 2 /\ forall s, s < a_N m - 2 -> nth_error mask s = Some (keep s).
  Proof.
    destruct (mask_ok _ _ _ _ _ BF MK) as (E & mask & EM & HM). split; [exact E|]. pose proof MK as MK2. rewrite E in MK2. rewrite E in EM. pose proof (mask_length _ _ _ _ _ EM MK2) as LM. rewrite <- E in EM.
    unfold mk_subsystem in MK. apply bind_ok in MK. destruct MK as (u1 & A1 & H). apply bind_ok in H. destruct H as (u2 & A2 & H). apply bind_ok in H. destruct H as (u3 & A3 & _). apply assert_ok in A1, A2, A3.
    split; [destruct form; auto; discriminate A1|]. split; [intros ->; apply Nat.eqb_eq; exact A3|]. split; [intros ->; apply Nat.eqb_eq; exact A2|]. exists mask. auto.
  Qed.

  Lemma form_sizes : 2 <= a_N m /\ 2 <= a_C m.
  Proof. destruct (co_form rf BF) as (_ & HN & HC & _). split; assumption. Qed.

  Lemma cert_at_state : forall s, s < a_N m - 2 -> show = true -> (form = Min \/ (form = Max /\ a_kind m = KDtmc)) -> exists c, nth_error cert s = Some c /\ sw s s c.
  Proof.
    intros s L SH FM. destruct sub_facts as (_ & _ & L1 & L2 & _). assert (X : s < length cert).
    { destruct FM as [F|[F K]]; [rewrite (L1 F); exact L|]. rewrite (L2 F). pose proof (RS SH F K s L) as E.
      destruct (built_facts m (co_built rf BF)) as (_ & _ & KO). destruct (KO K) as (EQ & _). unfold a_N, a_C in *. lia. }
    destruct (nth_error cert s) as [c|] eqn:E; [|apply nth_error_None in E; lia]. exists c. split; [reflexivity|]. split; [exact SH|]. split; [exact E|].
    destruct FM as [F|[F K]]; rewrite F; [reflexivity|]. rewrite K. apply RS; assumption.
  Qed.

  Definition node_map : state_style := sub_state_map f sub v subkind show.
  Definition action_map : action_style := sub_action_map f sub v show.

  (** What the state map returns. *)
  Lemma state_map_ok : forall s, s < a_N m -> exists at_, node_map s (labels_by_state m s) = Ok at_ /\ look_node m v the_name (f_fix5 f) keep sw s at_.
  Proof.
    intros s L. pose proof form_sizes as [N2 _]. destruct sub_facts as (ES & FM & L1 & L2 & mask & EM & LM & HM). unfold node_map, sub_state_map, look_node. rewrite EM. cbn [bind]. rewrite LM.
    destruct (tot_state (a_kind m) v s (labels_by_state m s) TV) as (base & EB).
    assert (EW : (if show then match sub_form sub with Min => Ok true | _ => let* k := subkind in Ok (match k with KDtmc => true | KMdp => false end) end else Ok false) =
       Ok (show && match form, a_kind m with Min, _ => true | _, KDtmc => true | _, _ => false end)).
    { rewrite ES. cbn [sub_form]. destruct show eqn:SH; [|reflexivity]. destruct FM as [F|F]; rewrite F; [reflexivity|]. rewrite (SK eq_refl F). cbn. destruct (a_kind m); reflexivity. }
    destruct (Nat.eqb_spec s (S (a_N m - 2))) as [E1|E1]; [|destruct (Nat.eqb_spec s (a_N m - 2)) as [E2|E2]].
    - cbn [orb bind]. rewrite EB. cbn [bind]. rewrite EW. cbn [bind negb orb andb]. rewrite andb_false_r. exists base. split; [reflexivity|]. exists base. split; [first [exact EB|reflexivity]|].
      destruct (Nat.ltb_spec s (a_N m - 2)); [lia|]. cbn [andb]. split; [reflexivity|]. right. split; [left; lia|reflexivity].
    - cbn [orb bind]. rewrite EB. cbn [bind]. rewrite EW. cbn [bind negb orb andb]. rewrite andb_false_r. exists base. split; [reflexivity|]. exists base. split; [first [exact EB|reflexivity]|].
      destruct (Nat.ltb_spec s (a_N m - 2)); [lia|]. cbn [andb]. split; [reflexivity|]. right. split; [left; lia|reflexivity].
    - assert (Ls : s < a_N m - 2) by lia. cbn [orb bind]. rewrite (HM s Ls). cbn [of_opt bind]. rewrite EB. cbn [bind]. rewrite EW. cbn [bind orb]. rewrite !orb_false_r.
      destruct (Nat.ltb_spec s (a_N m - 2)); [|lia]. cbn [andb]. destruct (keep s) eqn:KS; cbn [negb]; [|exists [("label", []); ("color", str "azure3"); ("style", str "filled")]; split; [reflexivity|]; exists base; split; [first [exact EB|reflexivity]|reflexivity]].
      rewrite andb_true_r. destruct (show && _) eqn:W.
      + apply andb_true_iff in W. destruct W as [SH W].
        assert (FK : form = Min \/ (form = Max /\ a_kind m = KDtmc)). { destruct FM as [F|F]; [auto|]. right. split; [exact F|]. rewrite F in W. destruct (a_kind m); [discriminate W|reflexivity]. }
        assert (FK' : form = Min \/ a_kind m = KDtmc) by (destruct FK as [?|[_ ?]]; auto). destruct (LS SH FK' _ _ _ EB) as (l & EL). rewrite EL. cbn [of_opt bind]. rewrite ES. cbn [sub_cert].
        destruct (cert_at_state s Ls SH FK) as (c & EC & SW). rewrite EC. cbn [of_opt bind]. rewrite merge_one. eexists. split; [reflexivity|]. exists base. split; [first [exact EB|reflexivity]|]. split.
        * intros k NK. apply (dget_dset_other String.eqb String.eqb_spec). congruence.
        * left. exists s, c, l. split; [exact Ls|]. split; [exact SW|]. split; [exact EL|]. rewrite (dget_dset_same String.eqb String.eqb_spec). f_equal. apply weight_text.
      + exists base. split; [reflexivity|]. exists base. split; [first [exact EB|reflexivity]|]. split; [reflexivity|]. right. split; [|reflexivity]. right. intros i c (SH & _ & SW). rewrite SH in W. cbn [andb] in W.
        destruct FM as [F|F]; rewrite F in *; [discriminate W|]. destruct (a_kind m); [exact SW|discriminate W].
  Qed.

  Lemma inv_row : forall k i, a_inv m i = Some k <-> a_row m k = Some i.
  Proof. intros k i. symmetry. apply (ReachFormProofs.row_inv m (co_ok rf BF)). Qed.

  Lemma action_map_ok : forall s a, enabled m s a -> a_kind m = KMdp -> exists aa na ea, action_map s a (labels_by_action m (s, a)) = Ok aa /\
    dget String.eqb aa "node" = Some na /\ dget String.eqb aa "edge" = Some ea /\ look_pair m v the_name (f_fix5 f) keep pw s a na /\
    exists va, v_action v s a (labels_by_action m (s, a)) = Ok va /\ dget String.eqb va "edge" = Some ea.
  Proof.
    intros s a (d & p & i & EI & HI) KM. pose proof form_sizes as [N2 C2]. destruct sub_facts as (ES & FM & L1 & L2 & mask & EM & LM & HM).
    destruct (item_inv m (co_ok rf BF) i d p HI) as (s1 & a1 & EI1 & Ls1 & _). rewrite EI in EI1. injection EI1 as <- <-.
    assert (Li : i < a_C m). { destruct (co_ok rf BF) as ((_ & W) & _). destruct (W _ _ _ HI) as (W1 & _). exact W1. }
    assert (TA : exists va na ea, v_action v s a (labels_by_action m (s, a)) = Ok va /\ dget String.eqb va "node" = Some na /\ dget String.eqb va "edge" = Some ea).
    { rewrite KM in TV. destruct v as [? ? ?|? ?]; [apply TV|destruct TV]. }
    destruct TA as (va & na & ea & EV & EN & EE). destruct (RD _ _ _ _ EV) as (ND & NB). pose proof (NB _ _ EN) as NN.
    unfold action_map, sub_action_map, look_pair. rewrite EM. cbn [bind]. rewrite LM.
    change (list ascii) with text in *. set (node := merge [("label", [])] na).
    assert (GN : forall k, k <> "label" -> dget String.eqb node k = dget String.eqb na k).
    { intros k NK. unfold node. rewrite (merge_get text na) by exact NN. destruct (dget String.eqb na k); [reflexivity|]. cbn. destruct (String.eqb_spec k "label"); [contradiction|reflexivity]. }
    assert (GL : dget String.eqb node "label" = Some (match dget String.eqb na "label" with Some l => l | None => [] end)).
    { unfold node. rewrite (merge_get text na) by exact NN. destruct (dget String.eqb na "label"); reflexivity. }
    assert (FIN : forall n', exists aa, merge (std_action a (labels_by_action m (s, a))) (dset String.eqb va "node" n') = aa /\ dget String.eqb aa "node" = Some n' /\ dget String.eqb aa "edge" = Some ea).
    { intros n'. eexists. split; [reflexivity|]. assert (NK : NoDup (map fst (dset String.eqb va "node" n'))) by (rewrite (dset_keys _ _ _ _ (dget_key _ _ _ _ EN)); exact ND).
      split; rewrite merge_get by exact NK; rewrite (dget_dset String.eqb String.eqb_spec); cbn [String.eqb Ascii.eqb Bool.eqb]; [reflexivity|]. rewrite EE. reflexivity. }
    assert (PLAIN : (a_N m - 2 <= s \/ keep s = false \/ forall j c, ~ pw s a j c) -> exists aa nd ed, merge (std_action a (labels_by_action m (s, a))) (dset String.eqb va "node" node) = aa /\
        dget String.eqb aa "node" = Some nd /\ dget String.eqb aa "edge" = Some ed /\
        (exists aa0 base, Ok va = Ok aa0 /\ dget String.eqb aa0 "node" = Some base /\
           let l := match dget String.eqb base "label" with Some l => l | None => [] end in
           (forall k, k <> "label" -> k <> "shape" -> dget String.eqb nd k = dget String.eqb base k) /\
           ((exists j c, s < a_N m - 2 /\ keep s = true /\ pw s a j c /\ dget String.eqb nd "label" = Some (weighted the_name (f_fix5 f) l j c) /\ dget String.eqb nd "shape" = Some (text_of "rectangle")) \/
            ((a_N m - 2 <= s \/ keep s = false \/ forall j c, ~ pw s a j c) /\ dget String.eqb nd "label" = Some l /\ dget String.eqb nd "shape" = dget String.eqb base "shape"))) /\
        exists va0, Ok va = Ok va0 /\ dget String.eqb va0 "edge" = Some ed).
    { intros NO. destruct (FIN node) as (aa & E1 & E2 & E3). exists aa, node, ea. do 3 (split; [assumption|]). split; [|exists va; auto]. exists va, na. split; [reflexivity|]. split; [exact EN|]. cbv zeta. split.
      - intros k K1 _. apply GN. exact K1.
      - right. split; [exact NO|]. split; [exact GL|]. apply GN. discriminate. }
    rewrite EV. cbn [bind].
    destruct (Nat.eqb_spec s (a_N m - 2)) as [E1|E1]; [|destruct (Nat.eqb_spec s (S (a_N m - 2))) as [E2|E2]].
    - cbn [orb bind]. rewrite EN. cbn [of_opt bind]. rewrite andb_false_r. cbn [bind]. fold node. destruct PLAIN as (aa & nd & ed & E3 & R); [left; lia|]. exists aa, nd, ed. split; [exact (f_equal Ok E3)|exact R].
    - cbn [orb bind]. rewrite EN. cbn [of_opt bind]. rewrite andb_false_r. cbn [bind]. fold node. destruct PLAIN as (aa & nd & ed & E3 & R); [left; lia|]. exists aa, nd, ed. split; [exact (f_equal Ok E3)|exact R].
    - assert (Ls : s < a_N m - 2) by lia. cbn [orb bind]. rewrite (HM s Ls). cbn [of_opt bind]. rewrite EN. cbn [of_opt bind]. fold node. rewrite ES. cbn [sub_form sub_super sub_cert].
      destruct (show && _ && _) eqn:W.
      + apply andb_true_iff in W. destruct W as [W KS]. apply andb_true_iff in W. destruct W as [SH W]. assert (F : form = Max) by (destruct form; congruence || discriminate W || reflexivity).
        fold m. rewrite (proj1 (inv_row (s, a) i) EI). cbn [of_opt bind].
        assert (Lc : i < length cert). { rewrite (L2 F). destruct (Nat.lt_ge_cases i (a_C m - 2)) as [|G]; [assumption|]. pose proof (co_rows_last rf BF keep i s a Li G EI). unfold m in *. lia. }
        destruct (nth_error cert i) as [c|] eqn:EC; [|apply nth_error_None in EC; lia]. cbn [of_opt bind].
        match goal with |- context [of_opt KeyError ?x] => replace x with (Some (match dget String.eqb na "label" with Some l => l | None => [] end)) by (symmetry; exact GL) end. cbn [of_opt bind]. rewrite merge_two.
        set (n' := dset String.eqb _ "shape" _). assert (EX : dset String.eqb (dset String.eqb va "node" node) "node" n' = dset String.eqb va "node" n').
        { apply (dset_twice attrs). }
        destruct (FIN n') as (aa & E3 & E4 & E5). exists aa, n', ea. split; [exact (f_equal Ok (eq_trans (f_equal (merge (std_action a (labels_by_action m (s, a)))) EX) E3))|]. do 2 (split; [assumption|]). split; [|exists va; auto]. exists va, na. split; [reflexivity|]. split; [exact EN|]. cbv zeta. split.
        * intros k K1 K2. unfold n'. rewrite !(dget_dset_other String.eqb String.eqb_spec) by congruence. apply GN. exact K1.
        * left. exists i, c. split; [exact Ls|]. split; [exact KS|]. split; [split; [exact SH|]; split; [exact EC|]; split; [exact F|exact EI]|]. unfold n'. split.
          -- rewrite (dget_dset_other String.eqb String.eqb_spec) by discriminate. rewrite (dget_dset_same String.eqb String.eqb_spec). f_equal. apply weight_text.
          -- apply (dget_dset_same String.eqb String.eqb_spec).
      + cbn [bind]. destruct PLAIN as (aa & nd & ed & E3 & R).
        { destruct (keep s) eqn:KS; [|auto]. right. right. intros j c (SH & _ & F & _). rewrite SH, F in W. discriminate W. }
        exists aa, nd, ed. split; [exact (f_equal Ok E3)|exact R].
  Qed.
End Sub.
