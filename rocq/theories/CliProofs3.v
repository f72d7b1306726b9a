(** Proofs about the command line: what is needed to save and load reduced
    forms. *)
From Coq Require Import String List Arith ZArith QArith Bool Lia.
From Verif Require Import Base BaseFacts Num Matrix MatFacts InvDict InvDictProofs SpecSystem SpecBuilt SpecReduce SpecFiles Amdp AmdpProofs ReachFormProofs BuiltFacts ReachForm Reduce ReduceProofs3 Files FilesProofs3 CliProofs1 CliProofs2.
Import ListNotations.
Local Open Scope nat_scope.

Definition six (q : Q) : Prop := exists k : Z, (q == k # 1000000)%Q.
Lemma six_0 : six 0. Proof. exists 0%Z. reflexivity. Qed.
Lemma six_1 : six 1. Proof. exists 1000000%Z. reflexivity. Qed.
Lemma six_plus : forall p q, six p -> six q -> six (p + q).
Proof. intros p q (k & Hk) (l & Hl). exists (k + l)%Z. rewrite Hk, Hl. unfold Qeq, Qplus. cbn [Qnum Qden]. lia. Qed.
Lemma six_minus : forall p q, six p -> six q -> six (p - q).
Proof. intros p q (k & Hk) (l & Hl). exists (k - l)%Z. rewrite Hk, Hl. unfold Qeq, Qminus, Qplus, Qopp. cbn [Qnum Qden]. lia. Qed.

Definition six_mat (P : mat) : Prop := forall i d q, In ((i, d), q) (mitems P) -> six q.
Lemma mset_six : forall P i d q P', six_mat P -> six q -> mset P i d q = Ok P' -> six_mat P'.
Proof.
  intros P i d q P' H Hq E. unfold mset in E. destruct (_ && _); [|discriminate]. injection E as <-. intros i' d' q' X. cbn [mitems] in X. destruct (Qeq_bool q 0).
  - apply ddel_in in X. eapply H; eauto.
  - apply (dset_in _ _ pair_eqb pair_eqbP) in X. destruct X as [X|X]; [inversion X; subst; auto|eapply H; eauto].
Qed.
Lemma mset_rows : forall P i d q P', mset P i d q = Ok P' -> i < mrows P /\ d < mcols P /\ mrows P' = mrows P /\ mcols P' = mcols P /\ forall j e r, In ((j, e), r) (mitems P') -> j = i \/ In ((j, e), r) (mitems P).
Proof.
  intros P i d q P' E. unfold mset in E. destruct (_ && _) eqn:BB; [|discriminate]. injection E as <-. apply andb_true_iff in BB. destruct BB as [B1 B2]. apply Nat.ltb_lt in B1. apply Nat.ltb_lt in B2. cbn [mrows mcols mitems]. repeat (split; [auto|]).
  intros j e r X. destruct (Qeq_bool q 0); [right; eapply ddel_in; eauto|]. apply (dset_in _ _ pair_eqb pair_eqbP) in X. destruct X as [X|X]; [inversion X; auto|auto].
Qed.
Lemma upd_in : forall A (l : list A) i x y, In y (upd l i x) -> y = x \/ In y l.
Proof. intros A. induction l as [|a l IH]; intros i x y H; [destruct i; destruct H|]. destruct i; cbn [upd] in H; destruct H as [H|H]; auto; [right; right; auto|right; left; auto|]. apply IH in H. destruct H; auto. right. right. auto. Qed.

(** ** The new rows *)
Lemma new_rows_facts : forall m target rows cols P index tt_, new_rows m target rows cols = Ok (P, index, tt_) ->
  NoDup (map fst index) /\ ((forall i d, six (mget (a_P m) i d)) -> six_mat P /\ forall q, In q tt_ -> six q).
Proof.
  intros m target rows cols P index tt_ E. unfold new_rows in E.
  refine (foldM_pres _ _ _ (fun st : mat * dict (nat * nat) nat * list Q => NoDup (map fst (snd (fst st))) /\ ((forall i d, six (mget (a_P m) i d)) -> six_mat (fst (fst st)) /\ forall q, In q (snd st) -> six q)) _ _ _ _ _ E).
  - intros [newidx [[s a] [ns na]]] [[P0 index0] tt0] b _ [HN HS] Eb. cbn [fst snd] in *. step Eb as i1 Ei. apply bput_keys in Ei; [|auto]. step Eb as t Et. destruct t.
    + injection Eb as <-. cbn [fst snd]. split; [auto|]. intros H6. destruct (HS H6) as [S1 S2]. split; [auto|]. intros q Hq. apply upd_in in Hq. destruct Hq as [->|Hq]; [apply six_1|auto].
    + step Eb as P1 EP. injection Eb as <-. cbn [fst snd]. split; [auto|]. intros H6. destruct (HS H6) as [S1 S2]. split; [|auto]. unfold copy_row in EP. step EP as idx Eidx. step EP as ss Ess.
      refine (foldM_pres _ _ _ six_mat _ _ _ _ S1 EP). intros d x y _ Hx Ey. destruct (dget Nat.eqb cols d); [eapply mset_six; eauto|injection Ey as <-; auto].
  - cbn [fst snd]. split; [constructor|]. intros _. split; [intros ? ? ? []|]. intros q Hq. apply repeat_spec in Hq. subst. apply six_0.
Qed.

(** ** Labels *)
Lemma state_label_name : forall m, built m -> forall l s, In l (labels_by_state m s) -> In l (label_names m).
Proof.
  intros m B l s H. apply (labels_state_iff m (proj1 (proj2 (built_facts m B)))) in H. unfold states_by_label in H. unfold label_names. destruct (dget String.eqb (fwd (a_slab m)) l) eqn:E; [|destruct H].
  apply (dget_In String.eqb String.eqb_spec) in E. apply in_map_iff. exists (l, l0). auto.
Qed.
Lemma lab_add_keys : forall B (beqb : B -> B -> bool) (HP : forall a b, reflect (a = b) (beqb a b)) (d : dict string (list B)) l x k, In k (dkeys (lab_add beqb d l x)) -> k = l \/ In k (dkeys d).
Proof. intros B beqb HP d l x k H. unfold lab_add in H. apply (side_add_keys String.eqb beqb String.eqb_spec) in H. auto. Qed.

(** ** initialize_system *)
Lemma init_facts : forall P index to_target mapping m tl fl sys, built m -> NoDup (map fst index) -> initialize_system P index to_target mapping m tl fl = Ok sys ->
  (forall l, In l (label_names sys) -> l = tl \/ l = fl \/ In l (label_names m)) /\ loops_last sys /\
  (six_mat P -> (forall q, In q to_target -> six q) -> six_decimals sys).
Proof.
  intros P index to_target mapping m tl fl sys B HN E. unfold initialize_system in E. cbv zeta in E. set (C := mrows P) in *. set (N := mcols P) in *.
  step E as ic1 E1. apply bput_keys in E1; [|auto]. step E as ic2 E2. apply bput_keys in E2; [|auto].
  step E as st E3. destruct st as [[al sl] rew]. step E as st E4. destruct st as [ntf Pc1]. step E as Pc2 E5. step E as Pc3 E6. step E as Pc4 E7.
  (* labels *)
  assert (SL : forall l, In l (dkeys sl) -> In l (label_names m)).
  { refine (foldM_pres _ _ _ (fun st : dict string (list (nat * nat)) * dict string (list nat) * option (list Q) => forall l, In l (dkeys (snd (fst st))) -> In l (label_names m)) _ _ _ _ _ E3); [|intros l []].
    intros idx [[al0 sl0] rew0] b _ HI Eb. cbn [fst snd] in HI. unfold copy_labels in Eb. step Eb as sa Esa. destruct sa as [s a]. step Eb as sa' Esa'. destruct sa' as [ss sa'].
    assert (G : forall ls d, incl ls (labels_by_state m ss) -> (forall l, In l (dkeys d) -> In l (label_names m)) -> forall l, In l (dkeys (fold_left (fun d l => lab_add Nat.eqb d l s) ls d)) -> In l (label_names m)).
    { induction ls as [|x ls IH]; intros d HL HD l Hl; [auto|]. cbn [fold_left] in Hl. eapply IH; [| |exact Hl]; [intros y Hy; apply HL; right; auto|]. intros k Hk. apply (lab_add_keys _ _ Nat.eqb_spec) in Hk. destruct Hk as [->|Hk]; [|auto].
      eapply state_label_name; [exact B|]. apply HL. left. auto. }
    specialize (G (labels_by_state m ss) sl0 (incl_refl _) HI). destruct (a_rew m), rew0; try (injection Eb as <-; exact G). step Eb as si Esi. step Eb as q Eq. injection Eb as <-. exact G. }
  (* the rows of the matrix *)
  assert (R1 : length ntf = C /\ mrows Pc1 = C + 2 /\ mcols Pc1 = N + 2 /\ wf_mat Pc1 /\ (forall i d q, In ((i, d), q) (mitems Pc1) -> i < C) /\ (six_mat P -> six_mat Pc1 /\ forall q, In q ntf -> six q)).
  { refine (foldM_pres _ _ _ (fun st : list Q * mat => length (fst st) = C /\ mrows (snd st) = C + 2 /\ mcols (snd st) = N + 2 /\ wf_mat (snd st) /\ (forall i d q, In ((i, d), q) (mitems (snd st)) -> i < C) /\ (six_mat P -> six_mat (snd st) /\ forall q, In q (fst st) -> six q)) _ _ _ _ _ E4).
    - intros [[idx dest] p] [n0 P0] b Hin (L & A1 & A2 & W & A3 & A4) Eb. cbn [fst snd] in *. step Eb as o Eo. step Eb as P' EP. injection Eb as <-. cbn [fst snd]. destruct (nth_error n0 idx) as [o'|] eqn:EN; [|discriminate]. injection Eo as <-.
      assert (Li : idx < C). { rewrite <- L. apply nth_error_Some. congruence. } destruct (mset_rows _ _ _ _ _ EP) as (_ & _ & M1 & M2 & M3). rewrite upd_length. split; [auto|]. split; [congruence|]. split; [congruence|]. split; [eapply mset_wf; eauto|]. split.
      + intros i d q X. apply M3 in X. destruct X as [->|X]; eauto.
      + intros H6. destruct (A4 H6) as [S1 S2]. assert (six p) by (eapply H6; eauto). split; [eapply mset_six; eauto|]. intros q Hq. apply upd_in in Hq. destruct Hq as [->|Hq]; [|auto]. apply six_plus; [|auto]. apply S2. eapply nth_error_In; eauto.
    - cbn [fst snd]. rewrite repeat_length. split; [auto|]. split; [auto|]. split; [auto|]. split; [apply mzero_wf|]. split; [intros ? ? ? []|]. intros _. split; [intros ? ? ? []|]. intros q Hq. apply repeat_spec in Hq. subst. apply six_0. }
  destruct R1 as (LN & A1 & A2 & A3 & A4 & A5).
  assert (R2 : mrows Pc2 = C + 2 /\ mcols Pc2 = N + 2 /\ wf_mat Pc2 /\ (forall i d q, In ((i, d), q) (mitems Pc2) -> i < C) /\ (six_mat P -> (forall q, In q to_target -> six q) -> six_mat Pc2)).
  { refine (foldM_pres _ _ _ (fun Pc => mrows Pc = C + 2 /\ mcols Pc = N + 2 /\ wf_mat Pc /\ (forall i d q, In ((i, d), q) (mitems Pc) -> i < C) /\ (six_mat P -> (forall q, In q to_target -> six q) -> six_mat Pc)) _ _ _ _ _ E5).
    - intros [idx pt] P0 P3 Hin (B1 & B2 & B3 & B4 & B5) Eb. step Eb as Pa Ea. step Eb as o Eo. destruct (nth_error ntf idx) as [o'|] eqn:EN; [|discriminate]. injection Eo as <-.
      assert (Li : idx < C). { rewrite <- LN. apply nth_error_Some. congruence. }
      assert (G : mrows Pa = C + 2 /\ mcols Pa = N + 2 /\ wf_mat Pa /\ (forall i d q, In ((i, d), q) (mitems Pa) -> i < C) /\ (six_mat P -> (forall q, In q to_target -> six q) -> six_mat Pa)).
      { destruct (Qlt_bool 0 pt); [|injection Ea as <-; auto]. destruct (mset_rows _ _ _ _ _ Ea) as (_ & _ & M1 & M2 & M3). split; [congruence|]. split; [congruence|]. split; [eapply mset_wf; eauto|]. split; [intros i d q X; apply M3 in X; destruct X as [->|X]; eauto|].
        intros H6 HT. eapply mset_six; [| |exact Ea]; auto. apply HT. apply in_combine_r in Hin. auto. }
      destruct G as (G1 & G2 & G3 & G4 & G5). destruct (Qlt_bool 0 (1 - (pt + o'))); [|injection Eb as <-; auto]. destruct (mset_rows _ _ _ _ _ Eb) as (_ & _ & M1 & M2 & M3). split; [congruence|]. split; [congruence|]. split; [eapply mset_wf; eauto|]. split; [intros i d q X; apply M3 in X; destruct X as [->|X]; eauto|].
      intros H6 HT. eapply mset_six; [| |exact Eb]; auto. apply six_minus; [apply six_1|]. apply six_plus; [apply HT; apply in_combine_r in Hin; auto|]. apply (proj2 (A5 H6)). eapply nth_error_In; eauto.
    - split; [auto|]. split; [auto|]. split; [auto|]. split; [auto|]. intros H6 _. apply A5. auto. }
  destruct R2 as (B1 & B2 & B3 & B4 & B5).
  pose proof E6 as E6'. rewrite mset_fresh in E6' by (try lia; intros X; apply in_map_iff in X; destruct X as ([[i d] q] & X1 & X2); cbn [fst] in X1; inversion X1; subst; apply B4 in X2; lia).
  change (Qeq_bool 1 0) with false in E6'. apply Ok_inj in E6'. subst Pc3.
  pose proof E7 as E7'. rewrite mset_fresh in E7'.
  2:{ cbn [mrows]. lia. } 2:{ cbn [mcols]. lia. }
  2:{ cbn [mitems]. rewrite map_app. intros X. apply in_app_iff in X. destruct X as [X|[X|[]]]; [|cbn [fst] in X; inversion X; lia]. apply in_map_iff in X. destruct X as ([[i d] q] & X1 & X2). cbn [fst] in X1. inversion X1; subst. apply B4 in X2. lia. }
  change (Qeq_bool 1 0) with false in E7'. apply Ok_inj in E7'. cbn [mrows mcols mitems] in E7'. rewrite <- app_assoc in E7'. cbn [app] in E7'. rewrite B1, B2 in E7'.
  assert (KEYS : a_P sys = Pc4 /\ label_names sys = dkeys (lab_add Nat.eqb (lab_add Nat.eqb sl fl (S N)) tl N)).
  { unfold mk_kind in E. destruct (a_kind m).
    - unfold mk_mdp in E. apply mk_abstract_inv in E; [|auto]. destruct E as (_ & F2 & _ & _ & _ & F6 & _). unfold label_names. rewrite F6. auto.
    - unfold mk_dtmc in E. step E as u Eu. step E as ix Eix. step Eix as u' Eu'. injection Eix as <-. apply mk_abstract_inv in E; [|auto]. destruct E as (_ & F2 & _ & _ & _ & F6 & _). unfold label_names. rewrite F6. auto. }
  destruct KEYS as [KP KL]. split; [|split].
  - intros l Hl. rewrite KL in Hl. apply (lab_add_keys _ _ Nat.eqb_spec) in Hl. destruct Hl as [->|Hl]; [auto|]. apply (lab_add_keys _ _ Nat.eqb_spec) in Hl. destruct Hl as [->|Hl]; auto.
  - exists (mitems Pc2), 1%Q, 1%Q. unfold a_C, a_N. rewrite KP, <- E7'. cbn [mrows mcols mitems]. replace (C + 2 - 2) with C by lia. replace (C + 2 - 1) with (S C) by lia. replace (N + 2 - 2) with N by lia. replace (N + 2 - 1) with (S N) by lia. split; auto.
  - intros H6 HT i d. fold (six (mget (a_P sys) i d)). rewrite KP. assert (S4 : six_mat Pc4). { eapply mset_six; [|apply six_1|exact E7]. eapply mset_six; [|apply six_1|exact E6]. auto. }
    destruct (Qeq_dec (mget Pc4 i d) 0) as [Z|NZ]; [destruct six_0 as (k & Hk); exists k; rewrite Z; auto|]. apply mget_nonzero in NZ. eapply S4; eauto.
Qed.

Lemma mk_rf_sys : forall rnd m il tl fl ign rf, mk_rf rnd m il tl fl ign = Ok rf -> rf_sys rf = m.
Proof.
  intros rnd m il tl fl ign rf E. unfold mk_rf in E. step E as u Eu. destruct (states_by_label m il); [discriminate|]. destruct (_ <? _); [discriminate|]. destruct (_ <? _); [discriminate|].
  step E as i1 E1. step E as i2 E2. step E as A EA. step E as z Ez. destruct z as [[mecs proper] k]. injection E as <-. reflexivity.
Qed.

Lemma reduce_facts : forall rnd m il tl ntl nfl rf cols rows, built m -> reduce rnd m il tl ntl nfl = Ok (rf, cols, rows) ->
  (forall l, In l (label_names (rf_sys rf)) -> l = ntl \/ l = nfl \/ In l (label_names m)) /\ loops_last (rf_sys rf) /\ (six_decimals m -> six_decimals (rf_sys rf)).
Proof.
  intros rnd m il tl ntl nfl rf cols rows B E. unfold reduce in E. cbv zeta in E. step E as u1 E1. step E as u2 E2. step E as u3 E3. step E as init E4. step E as bw E5. step E as fw E6. step E as rc E7. destruct rc as [rows' cols'].
  step E as tm E8. step E as st E9. destruct st as [[P index] tt_]. step E as sys E10. step E as rf' E11. injection E as <- <- <-. rewrite (mk_rf_sys _ _ _ _ _ _ _ E11).
  destruct (new_rows_facts _ _ _ _ _ _ _ E9) as [N1 N2]. destruct (init_facts _ _ _ _ _ _ _ _ B N1 E10) as (F1 & F2 & F3). split; [auto|]. split; [auto|]. intros H6. destruct (N2 H6) as [S1 S2]. auto.
Qed.
