(** Proofs about the command line: subsystem. *)
From Coq Require Import String List Arith ZArith QArith Qreals Reals Bool Lia.
From Verif Require Import Base BaseFacts Num Matrix MatFacts InvDict InvDictProofs GraphSpec SccSpec SpecMdp SpecEc SpecSystem SpecForm SpecBuilt SpecProb SpecReduce SpecFiles SpecSub
  Amdp AmdpProofs ReachForm ReachFormProofs RfFacts FarkProofs BuiltFacts LabelProofs RfBridge Milp Formulations Certificates Files FilesFinal Subsystem SubProofs2 Problems Cli SpecCli CliProofs1 CliProofs2 CliProofs3 CliProofs5 CliProofs6 CliProofs7.
Import ListNotations.
Local Open Scope nat_scope.
Local Open Scope string_scope.

Lemma app_inj_both : forall x y s t : string, String.length s = String.length t -> x ++ s = y ++ t -> x = y /\ s = t.
Proof.
  assert (LA : forall u v, String.length (u ++ v) = String.length u + String.length v) by (induction u as [|c u IH]; intros v; cbn; [reflexivity|rewrite IH; reflexivity]).
  induction x as [|c x IH]; intros [|d y] s t L H; cbn in H.
  - auto.
  - exfalso. subst s. cbn in L. rewrite LA in L. lia.
  - exfalso. subst t. cbn in L. rewrite LA in L. lia.
  - injection H as -> H. destruct (IH y s t L H) as [-> ->]. auto.
Qed.

Lemma Some_inj : forall A (x y : A), Some x = Some y -> x = y.
Proof. intros A x y H. injection H as ->. reflexivity. Qed.

(** ** Labels *)

Lemma addi_states : forall m s l l' s', has_label (add_label_inv m s l) l' s' <-> (l' = l /\ s' = s) \/ has_label m l' s'.
Proof. intros m s l l' s'. unfold has_label. rewrite add_label_inv_eq, add_states, forced_states. tauto. Qed.
Lemma addi_names : forall m s l l', In l' (label_names (add_label_inv m s l)) -> l' = l \/ In l' (label_names m).
Proof.
  intros m s l l'. rewrite add_label_inv_eq. unfold label_names, add_label, forced. cbn [a_slab InvDict.add fwd]. rewrite force_fwd. intros H. apply (side_add_keys String.eqb Nat.eqb String.eqb_spec) in H. exact H.
Qed.

Lemma mask_fold : forall l es m, let m' := fold_left (fun m (e : nat * bool) => if snd e then add_label_inv m (fst e) l else m) es m in
  (built m -> built m') /\ a_kind m' = a_kind m /\ a_P m' = a_P m /\ a_idx m' = a_idx m /\ (forall l', In l' (label_names m') -> l' = l \/ In l' (label_names m)) /\
  (forall l' s, has_label m' l' s <-> has_label m l' s \/ (l' = l /\ In (s, true) es)).
Proof.
  intros l es. induction es as [|[s b] es IH]; intros m; cbn [fold_left fst snd].
  - repeat split; auto. intros [H|[_ []]]; auto.
  - destruct (IH (if b then add_label_inv m s l else m)) as (H1 & H2 & H3 & H4 & H5 & H6). destruct b.
    + split; [intros B; apply H1; apply built_label_inv; auto|]. split; [exact H2|]. split; [exact H3|]. split; [exact H4|]. split.
      * intros l' X. destruct (H5 l' X) as [->|Y]; [auto|]. apply addi_names in Y. tauto.
      * intros l' s'. rewrite H6, addi_states. cbn [In]. split.
        -- intros [[[-> ->]|H]|[-> H]]; auto.
        -- intros [H|[-> [X|H]]]; auto. injection X as ->. auto.
    + split; [exact H1|]. split; [exact H2|]. split; [exact H3|]. split; [exact H4|]. split; [exact H5|]. intros l' s'. rewrite H6. cbn [In]. split; [tauto|]. intros [H|[-> [X|H]]]; auto. discriminate.
Qed.

Lemma combine_seq_In : forall (mask : list bool) k s b, In (s, b) (combine (seq k (length mask)) mask) <-> k <= s /\ nth_error mask (s - k) = Some b.
Proof.
  induction mask as [|x mask IH]; intros k s b; cbn [length seq combine In].
  - split; [intros []|]. intros [_ H]. destruct (s - k); discriminate.
  - rewrite IH. split.
    + intros [H|[H1 H2]]; [injection H as -> ->; split; [lia|]; rewrite Nat.sub_diag; reflexivity|]. split; [lia|]. replace (s - k) with (S (s - S k)) by lia. exact H2.
    + intros [H1 H2]. destruct (s - k) as [|n] eqn:D; [left; assert (s = k) by lia; subst; injection H2 as ->; reflexivity|]. right. split; [lia|]. replace (s - S k) with n by lia. exact H2.
Qed.

Lemma mask_length : forall rf cert form ign mask, subsystem_mask (MkSub rf cert form ign) = Ok mask -> length cert = (match form with Min => a_N (rf_sys rf) - 2 | _ => a_C (rf_sys rf) - 2 end) -> form <> OtherMode -> length mask = a_N (rf_sys rf) - 2.
Proof.
  intros rf cert form ign mask H L F. unfold subsystem_mask in H. cbn [sub_form sub_cert sub_super] in H. destruct form; [| |congruence].
  - injection H as <-. rewrite map_length. exact L.
  - assert (G : forall l mk mk', foldM (fun mask i => let* q := of_opt IndexError (nth_error cert i) in if Qlt_bool 0 q then let* (s, _) := of_opt KeyError (a_inv (rf_sys rf) i) in if s <? length mask then Ok (upd mask s true) else Err IndexError else Ok mask)%nat l mk = Ok mk' -> length mk' = length mk).
    { induction l as [|i l IH]; intros mk mk' X; cbn [foldM] in X; [injection X as <-; auto|]. step X as mk1 E1. rewrite (IH _ _ X). step E1 as q Eq. destruct (Qlt_bool 0 q); [|injection E1 as <-; auto].
      step E1 as sa Es. destruct sa as [s b]. destruct (s <? length mk)%nat; [|discriminate]. injection E1 as <-. apply upd_length. }
    rewrite (G _ _ _ H). apply repeat_length.
Qed.

Lemma chosen_selected : forall m md v s, md = "min" \/ md = "max" -> s < a_N m - 2 -> (chosen m (as_mode (JStr md)) v s = true <-> selected m md v s).
Proof.
  assert (PO : forall q, positive q = true <-> (0 < q)%Q). { intros q. unfold positive. rewrite negb_true_iff. split; [intros H; destruct (Qlt_le_dec 0 q) as [|X]; [auto|apply Qle_bool_iff in X; congruence]|intros H; destruct (Qle_bool q 0) eqn:X; [apply Qle_bool_iff in X; Lqa.lra|auto]]. }
  intros m md v s [->| ->] Hs; unfold selected.
  - change (as_mode (JStr "min")) with Min. cbn [chosen String.eqb Ascii.eqb Bool.eqb]. rewrite PO. tauto.
  - change (as_mode (JStr "max")) with Max. cbn [chosen String.eqb Ascii.eqb Bool.eqb]. rewrite existsb_exists. split.
    + intros (i & Hi & X). apply in_seq in Hi. apply andb_true_iff in X. destruct X as [X1 X2]. split; [auto|]. unfold belongs in X1. destruct (a_inv m i) as [[s' b]|] eqn:E; [|discriminate]. apply Nat.eqb_eq in X1. subst s'. exists i, b. split; [lia|]. split; [auto|]. apply PO. auto.
    + intros (_ & i & b & Hi & E & X). exists i. split; [apply in_seq; lia|]. apply andb_true_iff. split; [unfold belongs; rewrite E; apply Nat.eqb_refl|apply PO; auto].
Qed.

Section Sub.
  Variables (E : env) (a : args) (m : amdp) (rf : rform) (j : json) (md : string).
  Hypothesis B : built m.
  Hypothesis PL : forall l, In l (label_names m) -> plain l.
  Hypothesis BF : built_form rf.
  Hypothesis ES : rf_sys rf = m.
  Hypothesis KD : a_kind m = modeltype a.
  Hypothesis SD : six_decimals m.
  Hypothesis PS : plain (subsys_label a).
  Hypothesis DC : forall x, e_deepcopy E x = Ok x.
  Hypothesis HM : md = "min" \/ md = "max".
  Hypothesis MO : exists me, getitem j "method" = Ok me /\ getitem me "mode" = Ok (JStr md).
  Let out e := subsys_output E a (en_iteration e).

  Lemma one_sub : forall x e w, getitem x "iteration" = Ok (en_iteration e) -> getitem x "threshold" = Ok (JNum (en_threshold e)) -> getitem x "certificate" = Ok (JArr (map JNum (en_cert e))) ->
    length (en_cert e) = (if String.eqb md "min" then a_N m - 2 else a_C m - 2) ->
    exists tra lab m', subsystem_one E a rf j x w = Done tt (write (out e ++ ".lab") (FText lab) (write (out e ++ ".tra") (FText tra) w)) /\
      from_file (modeltype a) lab tra = Ok m' /\ with_label m (subsys_label a) (selected m md (en_cert e)) m'.
  Proof.
    intros x e w X1 X2 X3 LN. destruct MO as (me & M1 & M2).
    assert (SB : mk_subsystem rf (en_cert e) (as_mode (JStr md)) false = Ok (MkSub rf (en_cert e) (as_mode (JStr md)) false)).
    { unfold mk_subsystem. rewrite ES. destruct HM as [-> | ->]; cbn in LN |- *; rewrite LN, Nat.eqb_refl; reflexivity. }
    destruct (mask_ok rf (en_cert e) (as_mode (JStr md)) false _ BF SB) as (_ & mask & EM & MK).
    assert (LM : length mask = a_N m - 2). { rewrite <- ES. eapply mask_length; [exact EM| |]; rewrite ?ES; destruct HM as [-> | ->]; cbn in LN |- *; auto; discriminate. }
    destruct (mask_fold (subsys_label a) (combine (seq 0 (length mask)) mask) m) as (F1 & F2 & F3 & F4 & F5 & F6). fold (label_mask m mask (subsys_label a)) in F1, F2, F3, F4, F5, F6. set (ml := label_mask m mask (subsys_label a)) in *.
    assert (PL' : forall l, In l (label_names ml) -> plain l) by (intros l Hl; destruct (F5 l Hl) as [->|Y]; auto).
    assert (SD' : six_decimals ml) by (unfold six_decimals; rewrite F3; exact SD).
    destruct (C48_roundtrip_lemma ml (F1 B) PL' SD') as (m' & SL & B' & SM). unfold save_and_load in SL. step SL as tra Et. step SL as lab El. rewrite F2, KD in SL.
    exists tra, lab, m'. split; [|split; [exact SL|]].
    - unfold subsystem_one, unpack. rewrite X3. cbn [bind]. rewrite as_vector_map. cbn [bind]. rewrite M1, X1, X2. cbn [bind lift iobind in_method in_cert in_iteration]. rewrite M2. cbn [bind]. rewrite SB. cbn [bind]. rewrite DC. cbn [bind]. rewrite EM, ES. cbn [bind lift iobind].
      fold ml. unfold save_system. rewrite Et. cbn [lift iobind]. rewrite El. reflexivity.
    - assert (PR : forall s b, has_pair ml s b <-> has_pair m s b) by (intros s b; unfold has_pair, a_C, a_inv; rewrite F3, F4; tauto).
      assert (PB : forall s b d q, pair_prob ml s b d q <-> pair_prob m s b d q) by (intros s b d q; unfold pair_prob, a_C, a_inv; rewrite F3, F4; tauto).
      split; [rewrite <- F2; apply SM|]. split; [rewrite (sm_N _ _ SM); unfold a_N; rewrite F3; auto|]. split; [rewrite (sm_C _ _ SM); unfold a_C; rewrite F3; auto|].
      split; [intros s b; rewrite <- PR; symmetry; apply same_pair; auto|]. split; [intros s b d q; rewrite <- PB; symmetry; apply same_prob; auto|].
      intros l' s. assert (HL : has_label m' l' s <-> has_label ml l' s) by apply SM. rewrite HL, F6, combine_seq_In, Nat.sub_0_r.
      assert (G : nth_error mask s = Some true <-> selected m md (en_cert e) s).
      { split.
        - intros H. assert (Hs : s < a_N m - 2) by (rewrite <- LM; apply nth_error_Some; congruence). apply (proj1 (chosen_selected m md (en_cert e) s HM Hs)). rewrite <- ES in Hs. rewrite (MK s Hs), ES in H. apply Some_inj in H. exact H.
        - intros H. assert (Hs : s < a_N m - 2) by apply H. pose proof (proj2 (chosen_selected m md (en_cert e) s HM Hs) H) as H2. rewrite <- ES in Hs. rewrite (MK s Hs), ES. f_equal. exact H2. }
      rewrite G. split; [intros [H|(H & _ & H')]; auto|intros [H|(H & H')]; auto]. right. split; [auto|]. split; [lia|auto].
  Qed.

  Definition sub_files (es : list cinst) : list string := flat_map (fun e => [out e ++ ".tra"; out e ++ ".lab"]) es.

  Lemma each_sub : forall l es, Forall2 (fun x e => getitem x "iteration" = Ok (en_iteration e) /\ getitem x "threshold" = Ok (JNum (en_threshold e)) /\ getitem x "certificate" = Ok (JArr (map JNum (en_cert e)))) l es ->
    (forall e, In e es -> length (en_cert e) = (if String.eqb md "min" then a_N m - 2 else a_C m - 2)) -> NoDup (map out es) -> forall w,
    exists w', each (subsystem_one E a rf j) l w = Done tt w' /\ w_out w' = w_out w /\ changes_only (sub_files es) w w' /\
      forall e, In e es -> exists m', stored w' (modeltype a) (out e) m' /\ with_label m (subsys_label a) (selected m md (en_cert e)) m'.
  Proof.
    induction 1 as [|x e l es (X1 & X2 & X3) F IH]; intros LN ND w; cbn [each].
    - exists w. split; [auto|]. split; [auto|]. split; [intros p _; auto|intros e []].
    - destruct (one_sub x e w X1 X2 X3 (LN e (or_introl eq_refl))) as (tra & lab & m' & E1 & E2 & E3). rewrite E1. cbn [iobind]. inversion ND as [|y ys N1 N2]. subst y ys.
      set (w1 := write (out e ++ ".lab") (FText lab) (write (out e ++ ".tra") (FText tra) w)) in *.
      destruct (IH (fun e' H' => LN e' (or_intror H')) N2 w1) as (w' & R & O & CH & S). exists w'. split; [exact R|]. split; [rewrite O; reflexivity|].
      assert (K1 : w_fs w1 (out e ++ ".lab") = Some (FText lab)) by (unfold w1, write, store; cbn [w_fs]; rewrite String.eqb_refl; auto).
      assert (K2 : w_fs w1 (out e ++ ".tra") = Some (FText tra)) by (unfold w1, write, store; cbn [w_fs]; rewrite app_neq, String.eqb_refl by discriminate; auto).
      assert (NI : forall sfx, sfx = ".tra" \/ sfx = ".lab" -> ~ In (out e ++ sfx) (sub_files es)).
      { intros sfx HS HI. apply in_flat_map in HI. destruct HI as (e' & HE & HX). cbn [In] in HX. apply N1. apply in_map_iff. exists e'. split; [|exact HE].
        destruct HX as [HX|[HX|[]]]; apply app_inj_both in HX; try (destruct HS; subst sfx; reflexivity); destruct HX; auto. }
      split.
      + intros p Hp. unfold sub_files in Hp. cbn [flat_map] in Hp. rewrite CH by (intros X; apply Hp; apply in_or_app; right; exact X). unfold w1, write, store. cbn [w_fs].
        destruct (String.eqb_spec p (out e ++ ".lab")) as [->|]; [exfalso; apply Hp; right; left; auto|]. destruct (String.eqb_spec p (out e ++ ".tra")) as [->|]; [exfalso; apply Hp; left; auto|]. reflexivity.
      + intros e' [<-|HE]; [|apply S; auto]. exists m'. split; [|exact E3]. exists lab, tra. rewrite (CH (out e ++ ".lab")), (CH (out e ++ ".tra")) by (apply NI; auto). auto.
  Qed.
End Sub.

Lemma C92_lemma : forall E a w m rf p j md es, stored w (modeltype a) (modelpath a) m -> gen_rf E m a = Ok rf -> certificate a = Some p -> w_fs w p = Some (FJson j) ->
  certificates_file j md es -> md = "min" \/ md = "max" -> (forall e, In e es -> length (en_cert e) = if String.eqb md "min" then a_N m - 2 else a_C m - 2) ->
  unused m (subsys_label a) -> plain (subsys_label a) -> six_decimals m -> (forall x, e_deepcopy E x = Ok x) -> NoDup (map (fun e => subsys_output E a (en_iteration e)) es) ->
  exists w', switss E CSubsystem a w = Exited w' /\ w_out w' = w_out w /\
    changes_only (flat_map (fun e => [subsys_output E a (en_iteration e) ++ ".tra"; subsys_output E a (en_iteration e) ++ ".lab"]) es) w w' /\
    forall e, In e es -> exists m', stored w' (modeltype a) (subsys_output E a (en_iteration e)) m' /\ with_label m (subsys_label a) (selected m md (en_cert e)) m'.
Proof.
  intros E a w m rf p j md es ST GF CP FJ (MO & l & L & F) HM LN UN PS SD DC ND. destruct (cert_form E a w m rf ST GF) as [BF ES].
  pose proof ST as (lab0 & tra0 & _ & _ & F0). destruct (from_file_ok _ _ _ _ F0) as (B & PL & K & _).
  destruct (each_sub E a m rf j md B PL BF ES K SD PS DC HM MO l es F LN ND w) as (w' & R & O & CH & S). exists w'. split; [|split; [exact O|split; [exact CH|exact S]]].
  unfold switss, subsystem_cmd. rewrite (stored_load a w m ST). cbn [iobind].
  assert (U : dmem String.eqb (fwd (a_slab m)) (subsys_label a) = false). { unfold dmem. destruct (dget String.eqb (fwd (a_slab m)) (subsys_label a)) as [s|] eqn:X; [|auto]. exfalso. apply UN. apply (dget_In String.eqb String.eqb_spec) in X. apply in_map_iff. eexists. split; [|exact X]. reflexivity. }
  rewrite U. cbn [negb assert_ lift iobind]. rewrite GF. cbn [lift iobind]. unfold load_results, open_json. rewrite CP, FJ. cbn [iobind]. rewrite L. cbn [bind elements lift iobind fst snd]. rewrite R. reflexivity.
Qed.
