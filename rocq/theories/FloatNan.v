(** Vectors with infinite or undefined entries. *)
From Coq Require Import String List Arith ZArith QArith Qreals Reals Bool Lia Lra Permutation.
From Coq Require Lqa.
From Flocq Require Import Core BinarySingleNaN.
From Verif Require Import Base BaseFacts Num Matrix MatFacts Graph GraphSpec SccSpec SpecMdp SpecSystem SpecEc SpecForm SpecBuilt SumFacts Amdp AmdpProofs
  ReachForm ReachFormProofs RfFacts FarkProofs BuiltFacts RfBridge Milp SpecLp Certificates CertProofs FloatRow SpecFloatRow FloatProofs FloatCheck SpecFloatCheck
  FloatCheckProofs FloatCheckProofs2 FloatCheckProofs3 FloatCheckProofs4.
Import ListNotations.
Local Open Scope nat_scope.

(** Infinite with sign [sg], or NaN. *)
Definition bad (sg : bool) (x : double) : Prop := x = B754_nan \/ x = B754_infinity sg.
Lemma not_fin : forall x, fin x = false -> x = B754_nan \/ x = B754_infinity false \/ x = B754_infinity true.
Proof. intros [s|[|]| |s m e H] F; try discriminate F; auto. Qed.
Lemma bad_add_l : forall sg a b, bad sg a -> bad sg (dadd a b).
Proof. intros sg a b [-> | ->]; [left; destruct b; reflexivity|]. destruct b as [s|s| |s m e H]; try (right; reflexivity); [|left; reflexivity]. destruct sg, s; [right|left|left|right]; reflexivity. Qed.
Lemma bad_add_r : forall sg a b, bad sg b -> bad sg (dadd a b).
Proof. intros sg a b [-> | ->]; [left; destruct a; reflexivity|]. destruct a as [s|s| |s m e H]; try (right; reflexivity); [|left; reflexivity]. destruct sg, s; [right|left|left|right]; reflexivity. Qed.
Lemma bad_sub : forall sg a b, fin b = true -> bad sg a -> bad sg (dsub a b).
Proof. intros sg a b F [-> | ->]; [left; destruct b; reflexivity|]. destruct b as [s|s| |s m e H]; try discriminate F; right; reflexivity. Qed.
Lemma bad_le : forall a b, fin b = true -> bad false a -> Bleb a b = false.
Proof. intros a b F [-> | ->]; destruct b as [s|s| |s m e H]; try discriminate F; reflexivity. Qed.
Lemma bad_ge : forall a b, fin b = true -> bad true a -> Bleb b a = false.
Proof. intros a b F [-> | ->]; destruct b as [s|s| |s m e H]; try discriminate F; reflexivity. Qed.
Lemma bad_pos : forall sg c x, fin c = true -> (0 < val c)%R -> bad sg x -> bad sg (dmul c x).
Proof.
  intros sg c x F P H. destruct c as [s|s| |s m e B]; try discriminate F; [cbn in P; lra|]. destruct s.
  - exfalso. cbn [B2R cond_Zopp] in P. pose proof (F2R_lt_0 radix2 (Float radix2 (Z.neg m) e) ltac:(cbn; lia)). unfold F2R in *. cbn in *. lra.
  - destruct H as [-> | ->]; [left; reflexivity|right; destruct sg; reflexivity].
Qed.
Lemma bad_neg : forall sg c x, fin c = true -> (val c < 0)%R -> bad sg x -> bad (negb sg) (dmul c x).
Proof.
  intros sg c x F P H. destruct c as [s|s| |s m e B]; try discriminate F; [cbn in P; lra|]. destruct s.
  - destruct H as [-> | ->]; [left; reflexivity|right; destruct sg; reflexivity].
  - exfalso. cbn [B2R cond_Zopp] in P. pose proof (F2R_gt_0 radix2 (Float radix2 (Z.pos m) e) ltac:(cbn; lia)). unfold F2R in *. cbn in *. lra.
Qed.
Lemma bad_fold : forall sg v (es : list (nat * double)) acc,
  bad sg acc \/ (exists e, In e es /\ bad sg (dmul (snd e) (nth (fst e) v d0))) ->
  bad sg (fold_left (fun acc e => dadd acc (dmul (snd e) (nth (fst e) v d0))) es acc).
Proof.
  intros sg v. induction es as [|e es IH]; intros acc H; cbn [fold_left]; [destruct H as [H|(e & [] & _)]; exact H|]. apply IH.
  destruct H as [H|(e' & [<-|He] & H)]; [left; apply bad_add_l; exact H|left; apply bad_add_r; exact H|right; eauto].
Qed.

Lemma unit_fin : forall t, Bleb d0 t && Bleb t d1 = true -> fin t = true.
Proof. intros t H. apply entry_fin. exact H. Qed.
Lemma stored_in : forall row d, d < length row -> fin (nth d row d0) = true -> val (nth d row d0) <> 0%R -> In (d, nth d row d0) (stored row).
Proof.
  intros row d Hd F N. unfold stored. apply filter_In. split.
  - assert (E : (d, nth d row d0) = nth d (combine (seq 0 (length row)) row) (0, d0)). { rewrite combine_nth by (rewrite seq_length; reflexivity). rewrite seq_nth by exact Hd. reflexivity. }
    rewrite E. apply nth_In. rewrite combine_length, seq_length, Nat.min_id. exact Hd.
  - cbn [snd]. rewrite Beqb_correct by auto. destruct (Req_bool_spec (val (nth d row d0)) (val d0)) as [E|E]; [rewrite val_d0 in E; contradiction|reflexivity].
Qed.

Section Nan.
  Variable rf : rform.
  Variable pd : nat -> nat -> double.
  Variable arr : nat -> list (nat * double) -> list (nat * double).
  Hypothesis BF : built_form rf.
  Hypothesis DF : double_form rf pd.
  Hypothesis AR : arrangement arr.
  Hypothesis SO : sole_one rf.
  Let m := rf_sys rf.
  Let P := a_P m.
  Let inv := a_inv m.
  Let n := rf_N rf.
  Let c := rf_C rf.
  Let init := rf_init rf.
  Let RO : rf_ok rf := br_ro rf BF.
  Let OK : sys_ok m := ro_sys rf RO.
  Let FM := br_form rf BF.

  Definition zA : list (list double) := fA rf pd ++ [map (fun d => if d =? rf_init rf then dopp d1 else dopp d0) (seq 0 (rf_N rf))].
  Definition zb (t : double) : list double := fto_target rf pd ++ [dopp t].
  Definition line (v : list double) (k : nat) : double := fdot v (arr k (stored (nth k zA []))).

  Lemma z_inv : forall md s t v tol, right_form md s = Ok FormZ -> fcheck arr rf pd md s t v tol = Ok true ->
    fin t = true /\ init < n /\ length v = n /\
    forall k, k < S c -> if is_upper s then Bleb (nth k (zb t) d0) (dadd (line v k) tol) = true else Bleb (dsub (line v k) tol) (nth k (zb t) d0) = true.
  Proof.
    intros md s t v tol HR. unfold fcheck, fright_constraint_set. rewrite HR. cbn [bind]. destruct (Bleb d0 t && Bleb t d1) eqn:EU; cbn [assert_ bind]; [|discriminate].
    unfold ffark_z. fold init n. destruct (init <? n) eqn:EI; cbn [bind]; [|discriminate]. apply Nat.ltb_lt in EI.
    destruct (Nat.eqb_spec (length v) n) as [HL|]; cbn [assert_ bind]; [|discriminate].
    destruct (match md with Min => _ | _ => _ end) as [[|]|]; cbn [bind]; try discriminate. fold zA. fold (zb t).
    assert (LA : length zA = S c) by (unfold zA; rewrite app_length, len_fA; cbn [length]; unfold c; lia).
    assert (LB : length (zb t) = S c) by (unfold zb; rewrite app_length, len_ft; cbn [length]; unfold c; lia).
    assert (LR : length (fmat_vec arr zA v) = S c) by (unfold fmat_vec; rewrite map_length, seq_length; exact LA).
    assert (NT : forall k, k < S c -> nth k (fmat_vec arr zA v) d0 = line v k). { intros k Hk. unfold fmat_vec. rewrite nth_map_seq by (rewrite LA; exact Hk). reflexivity. }
    intros H. split; [apply unit_fin; exact EU|]. split; [exact EI|]. split; [exact HL|]. intros k Hk.
    assert (GE : fall_ge tol (fmat_vec arr zA v) (zb t) = true -> Bleb (nth k (zb t) d0) (dadd (line v k) tol) = true).
    { unfold fall_ge. rewrite forallb_combine_d by (rewrite LR, LB; reflexivity). intros X. rewrite <- NT by exact Hk. apply (X k). rewrite LR. exact Hk. }
    assert (LE : fall_le tol (fmat_vec arr zA v) (zb t) = true -> Bleb (dsub (line v k) tol) (nth k (zb t) d0) = true).
    { unfold fall_le. rewrite forallb_combine_d by (rewrite LR, LB; reflexivity). intros X. rewrite <- NT by exact Hk. apply (X k). rewrite LR. exact Hk. }
    destruct s; cbn [is_upper]; try discriminate H; injection H as H.
    - apply GE. exact H.
    - apply GE. apply andb_true_iff in H. apply H.
    - apply LE. exact H.
    - apply LE. apply andb_true_iff in H. apply H.
  Qed.
  Lemma zb_fin : forall t k, fin t = true -> k < S c -> fin (nth k (zb t) d0) = true.
  Proof.
    intros t k F Hk. unfold zb. destruct (Nat.eq_dec k c) as [->|N].
    - rewrite app_nth2 by (rewrite len_ft; unfold c; lia). rewrite len_ft. unfold c. rewrite Nat.sub_diag. cbn [nth]. rewrite (proj2 (dopp_ok t)). exact F.
    - rewrite app_nth1 by (rewrite len_ft; unfold c in *; lia). destruct (tt_rel rf pd BF DF k ltac:(unfold c in *; lia)) as (-> & _ & X & _). exact X.
  Qed.

  (** An accepted line has no bad product. *)
  Lemma line_ok : forall md s t v tol k e, right_form md s = Ok FormZ -> fcheck arr rf pd md s t v tol = Ok true -> fin tol = true -> k < S c ->
    In e (stored (nth k zA [])) -> ~ bad (is_upper s) (dmul (snd e) (nth (fst e) v d0)).
  Proof.
    intros md s t v tol k e HR H FT Hk He X. destruct (z_inv md s t v tol HR H) as (F & _ & _ & L). specialize (L k Hk). pose proof (zb_fin t k F Hk) as FB.
    assert (B : bad (is_upper s) (line v k)). { unfold line, fdot. apply bad_fold. right. exists e. split; [|exact X]. apply (Permutation_in _ (Permutation_sym (AR k _)) He). }
    destruct (is_upper s).
    - rewrite (bad_ge _ _ FB (bad_add_l _ _ tol B)) in L. discriminate L.
    - rewrite (bad_le _ _ FB (bad_sub _ _ tol FT B)) in L. discriminate L.
  Qed.
  Lemma zA_row : forall i s a, i < c -> inv i = Some (s, a) -> nth i zA [] = map (fun d => dsub (if s =? d then d1 else d0) (pd i d)) (seq 0 n).
  Proof.
    intros i s a Hi E. unfold zA. rewrite app_nth1 by (rewrite len_fA; exact Hi). rewrite fA_nth by exact Hi. apply (frow rf pd i s a Hi). rewrite rf_inv_row; auto.
  Qed.
  Lemma zA_entry : forall i s a d, i < c -> inv i = Some (s, a) -> d < n -> val (dsub (if s =? d then d1 else d0) (pd i d)) <> 0%R ->
    In (d, dsub (if s =? d then d1 else d0) (pd i d)) (stored (nth i zA [])).
  Proof.
    intros i s a d Hi E Hd N. pose proof (stored_in (nth i zA []) d) as X. rewrite (zA_row i s a Hi E) in *. rewrite map_length, seq_length, nth_map_seq in X by exact Hd.
    apply X; [exact Hd|apply (coef rf pd BF DF i d (s =? d) Hi Hd)|exact N].
  Qed.
  Lemma own_coef : forall i s a, i < c -> inv i = Some (s, a) -> s < n -> (Q2R (mget P i s) < 1)%R -> (0 < val (dsub (if s =? s then d1 else d0) (pd i s)))%R.
  Proof.
    intros i s a Hi E Hs L. rewrite Nat.eqb_refl. destruct (pd_val rf pd DF i s Hi) as [F V]; [unfold n in *; lia|pose proof (n_small rf BF); unfold n in *; lia|].
    pose proof (p_unit rf BF i s) as U. change (a_P (rf_sys rf)) with P in *. destruct (dsub_ok (pd i s) F ltac:(rewrite V; apply U)) as [_ V2]. rewrite V2, V.
    assert (X : (0 <= rnd (1 - Q2R (mget P i s)))%R) by (rewrite <- rnd_0; apply rnd_le; lra).
    assert (Y : rnd (1 + - Q2R (mget P i s)) <> 0%R).
    { apply Plus_error.round_plus_neq_0; auto with typeclass_instances; [rewrite <- val_d1; apply generic_format_B2R|apply generic_format_opp; rewrite <- V; apply generic_format_B2R|lra]. }
    unfold Rminus in *. lra.
  Qed.
  Lemma dest_coef : forall i s a d, i < c -> inv i = Some (s, a) -> d < n -> s <> d -> (0 < Q2R (mget P i d))%R -> (val (dsub (if s =? d then d1 else d0) (pd i d)) < 0)%R.
  Proof.
    intros i s a d Hi E Hd N L. rewrite (proj2 (Nat.eqb_neq s d) N). destruct (pd_val rf pd DF i d Hi) as [F V]; [unfold n in *; lia|pose proof (n_small rf BF); unfold n in *; lia|].
    pose proof (p_unit rf BF i d) as U. change (a_P (rf_sys rf)) with P in *. destruct (dsub_ok' d0 (pd i d) eq_refl F) as [V2 _].
    { rewrite val_d0, V. apply Rle_trans with 1%R; [apply Rabs_le; lra|]. change 1%R with (bpow radix2 0). apply bpow_le. lia. }
    rewrite V2, val_d0. replace (0 - val (pd i d))%R with (val (dopp (pd i d))) by (rewrite (proj1 (dopp_ok _)); lra). rewrite rnd_id, (proj1 (dopp_ok _)), V. lra.
  Qed.
  Lemma edge_inner : forall s d, s < n -> edge P inv s d -> exists i a, i < c /\ inv i = Some (s, a) /\ (0 < mget P i d)%Q /\ d < a_N m.
  Proof.
    intros s d Hs (i & a & p & H & E). exists i, a. destruct OK as (WF & _). destruct WF as [WN WI]. destruct (WI i d p H) as (A & B & C).
    assert (V : valid_system P (a_idx m) (a_rew m)) by apply OK. destruct V as (_ & _ & V & _). destruct (V _ _ _ H) as [X _].
    assert (MG : mget P i d = p) by (apply mget_In; [apply OK|exact H]). 
    assert (Hi : i < c).
    { destruct FM as (_ & N2 & C2 & _ & _ & _ & _ & O1 & O2 & _). destruct O1 as [(a1 & p1 & L1 & _) _]. destruct O2 as [(a2 & p2 & L2 & _) _]. change (mcols (a_P (rf_sys rf))) with (a_N m) in *. change (mrows (a_P (rf_sys rf))) with (a_C m) in *.
      change (mrows (a_P m)) with (a_C m) in A. change (a_inv (rf_sys rf)) with inv in *. unfold n, rf_N in Hs. fold m in Hs. unfold c, rf_C. fold m.
      destruct (Nat.eq_dec i (a_C m - 1)) as [->|N1]; [rewrite E in L2; injection L2 as L2 _; lia|]. destruct (Nat.eq_dec i (a_C m - 2)) as [->|N3]; [rewrite E in L1; injection L1 as L1 _; lia|]. lia. }
    split; [exact Hi|]. split; [exact E|]. split; [|exact B]. rewrite MG. apply Qle_lteq in X. destruct X as [X|X]; [exact X|]. exfalso. apply C. symmetry. exact X.
  Qed.

  (** A state leaves itself with some row. *)
  Lemma leaves : forall s, s < n -> exists i a, i < c /\ inv i = Some (s, a) /\ (Q2R (mget P i s) < 1)%R.
  Proof.
    intros s Hs. assert (G : rtc (edge P inv) s (a_N m - 2)). { destruct FM as (_ & _ & _ & _ & _ & _ & _ & _ & _ & _ & X). apply X; change (mcols (a_P (rf_sys rf))) with (a_N m); unfold n, rf_N in Hs; fold m in Hs; lia. }
    assert (NG : s <> a_N m - 2) by (unfold n, rf_N in Hs; fold m in Hs; lia).
    assert (K : forall x y, rtc (edge P inv) x y -> x <> y -> exists d, edge P inv x d /\ d <> x).
    { intros x y H. induction H as [x|x y z E R IH]; intros N; [contradiction|]. destruct (Nat.eq_dec y x) as [->|NE]; [apply IH; exact N|eauto]. }
    destruct (K _ _ G NG) as (d & E & ND). destruct (edge_inner s d Hs E) as (i & a & Hi & Ei & Pd & _). exists i, a. split; [exact Hi|]. split; [exact Ei|].
    pose proof (p_unit rf BF i s) as U. fold m P in U. destruct (Req_dec (Q2R (mget P i s)) 1) as [E1|NE]; [exfalso|lra]. apply ND. apply (SO i s d); [|exact Pd].
    apply eqR_Qeq. fold m P. rewrite E1. unfold Q2R. cbn. lra.
  Qed.

  Lemma states_finite : forall md s t v tol, right_form md s = Ok FormZ -> fin tol = true -> fcheck arr rf pd md s t v tol = Ok true ->
    forall x, In x v -> fin x = true.
  Proof.
    intros md s t v tol HR FT H. destruct (z_inv md s t v tol HR H) as (_ & HI & HL & _).
    assert (OWN : forall q, q < n -> ~ bad (is_upper s) (nth q v d0)).
    { intros q Hq X. destruct (leaves q Hq) as (i & a & Hi & Ei & L). pose proof (own_coef i q a Hi Ei Hq L) as PO.
      apply (line_ok md s t v tol i _ HR H FT ltac:(lia) (zA_entry i q a q Hi Ei Hq ltac:(lra))). cbn [fst snd]. apply bad_pos; [apply (coef rf pd BF DF i q (q =? q) Hi Hq)|exact PO|exact X]. }
    assert (INI : ~ bad (negb (is_upper s)) (nth init v d0)).
    { intros X. apply (line_ok md s t v tol c (init, dopp d1) HR H FT ltac:(lia)).
      - assert (E : nth c zA [] = map (fun d => if d =? init then dopp d1 else dopp d0) (seq 0 n)). { unfold zA. rewrite app_nth2 by (rewrite len_fA; unfold c; lia). rewrite len_fA. unfold c. rewrite Nat.sub_diag. reflexivity. }
        pose proof (stored_in (nth c zA []) init) as S. rewrite E in *. rewrite map_length, seq_length, nth_map_seq in S by exact HI. rewrite Nat.eqb_refl in S. apply S; [exact HI|reflexivity|]. rewrite (proj1 (dopp_ok d1)), val_d1. lra.
      - cbn [fst snd]. rewrite <- (negb_involutive (is_upper s)). apply bad_neg; [reflexivity|rewrite (proj1 (dopp_ok d1)), val_d1; lra|exact X]. }
    assert (STEP : forall q d, q < n -> d < n -> edge P inv q d -> fin (nth q v d0) = true -> fin (nth d v d0) = true).
    { intros q d Hq Hd E F. destruct (fin (nth d v d0)) eqn:FD; [reflexivity|exfalso]. destruct (Nat.eq_dec q d) as [->|NE]; [congruence|].
      assert (B : bad (negb (is_upper s)) (nth d v d0)).
      { apply not_fin in FD. destruct FD as [X|[X|X]]; [left; exact X| |]; destruct (is_upper s) eqn:U; cbn [negb]; try (right; exact X); exfalso; apply (OWN d Hd); right; exact X. }
      destruct (edge_inner q d Hq E) as (i & a & Hi & Ei & Pd & _). assert (PR : (0 < Q2R (mget P i d))%R) by (apply Qlt_Rlt in Pd; replace (Q2R 0) with 0%R in Pd by (unfold Q2R; cbn; lra); exact Pd).
      pose proof (dest_coef i q a d Hi Ei Hd NE PR) as NO. apply (line_ok md s t v tol i _ HR H FT ltac:(lia) (zA_entry i q a d Hi Ei Hd ltac:(lra))). cbn [fst snd].
      rewrite <- (negb_involutive (is_upper s)). apply bad_neg; [apply (coef rf pd BF DF i d (q =? d) Hi Hd)|exact NO|exact B]. }
    assert (FI : fin (nth init v d0) = true).
    { destruct (fin (nth init v d0)) eqn:FD; [reflexivity|exfalso]. apply not_fin in FD. destruct FD as [X|[X|X]]; [apply (OWN init HI); left; exact X| |]; destruct (is_upper s) eqn:U; cbn [negb] in INI;
        first [apply INI; right; exact X|apply (OWN init HI); right; exact X]. }
    assert (ALL : forall q d, rtc (edge P inv) q d -> q < n -> fin (nth q v d0) = true -> d < n -> fin (nth d v d0) = true).
    { intros q d R. induction R as [q|q y d E R IH]; intros Hq F Hd; [exact F|].
      assert (Hy : y < n).
      { destruct (edge_inner q y Hq E) as (i & a & Hi & Ei & _ & Hy). destruct (le_lt_dec n y) as [G|]; [exfalso|assumption].
        destruct FM as (_ & N2 & C2 & _ & _ & _ & _ & L1 & L2 & _). change (mcols (a_P (rf_sys rf))) with (a_N m) in *.
        assert (AB : forall z, (z = a_N m - 2 \/ z = a_N m - 1) -> forall w, rtc (edge P inv) z w -> w = z).
        { intros z Hz w RW. induction RW as [z|z y1 w E1 R1 IH1]; [reflexivity|]. destruct E1 as (i1 & a1 & p1 & I1 & V1).
          assert (y1 = z). { destruct Hz as [-> | ->]; [destruct L1 as [_ L]|destruct L2 as [_ L]]; destruct (L i1 y1 a1 p1 V1 I1) as [_ X]; exact X. }
          subst y1. apply IH1. exact Hz. }
        assert (Z : y = a_N m - 2 \/ y = a_N m - 1) by (unfold n, rf_N in G; fold m in G; lia).
        pose proof (AB y Z d R). subst d. lia. }
      apply IH; [exact Hy|apply (STEP q y Hq Hy E F)|exact Hd]. }
    intros x Hx. destruct (In_nth v x d0 Hx) as (q & Hq & <-). rewrite HL in Hq. apply (ALL init q); auto.
    destruct FM as (_ & _ & _ & _ & _ & _ & _ & _ & _ & X & _). apply X; change (mcols (a_P (rf_sys rf))) with (a_N m); unfold n, rf_N in Hq; fold m in Hq; lia.
  Qed.
End Nan.

Lemma C100_lemma : forall rf pd arr, built_form rf -> double_form rf pd -> arrangement arr -> sole_one rf ->
  forall md s t v tol, md = Min /\ (s = FGe \/ s = FGt) \/ md = Max /\ (s = FLe \/ s = FLt) -> finite tol ->
  fcheck arr rf pd md s t v tol = Ok true -> forall x, In x v -> finite x.
Proof.
  intros rf pd arr BF DF AR SO md s t v tol HM FT H x Hx. refine (states_finite rf pd arr BF DF AR SO md s t v tol _ FT H x Hx).
  destruct HM as [[-> [-> | ->]]|[-> [-> | ->]]]; reflexivity.
Qed.
