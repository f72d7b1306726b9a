(** The check in double precision against the check in exact numbers. *)
From Coq Require Import String List Arith ZArith QArith Qreals Reals Bool Lia Lra Permutation.
From Coq Require Lqa.
From Flocq Require Import Core BinarySingleNaN.
From Verif Require Import Base BaseFacts Num Matrix MatFacts Graph SpecMdp SpecSystem SpecEc SpecForm SpecBuilt SumFacts Amdp AmdpProofs
  ReachForm ReachFormProofs RfFacts FarkProofs BuiltFacts RfBridge Milp SpecLp Certificates CertProofs FloatRow SpecFloatRow FloatProofs FloatCheck SpecFloatCheck FloatCheckProofs FloatCheckProofs2.
Import ListNotations.
Local Open Scope nat_scope.

Lemma fle_iff : forall a b, fin a = true -> fin b = true -> (Bleb a b = true <-> (val a <= val b)%R).
Proof. intros a b Fa Fb. rewrite Bleb_correct by auto. destruct (Rle_bool_spec (val a) (val b)); split; intros; auto; try discriminate; lra. Qed.
Lemma flt_iff : forall a b, fin a = true -> fin b = true -> (Bltb a b = true <-> (val a < val b)%R).
Proof. intros a b Fa Fb. rewrite Bltb_correct by auto. destruct (Rlt_bool_spec (val a) (val b)); split; intros; auto; try discriminate; lra. Qed.
Lemma qle_bool : forall a b x y, Q2R a = x -> Q2R b = y -> (Qle_bool a b = true <-> (x <= y)%R).
Proof. intros a b x y <- <-. rewrite Qle_bool_iff. split; [apply Qle_Rle|apply Rle_Qle]. Qed.
Lemma feq_zero : forall a, fin a = true -> Beqb a d0 = Qeq_bool (dq a) 0.
Proof.
  intros a F. rewrite Beqb_correct by auto. pose proof (dq_val a) as E. apply Bool.eq_iff_eq_true. rewrite Qeq_bool_iff.
  destruct (Req_bool_spec (val a) (val d0)) as [H|H]; rewrite val_d0 in H; rewrite <- E in H; split; intros X; auto; try discriminate.
  - apply eqR_Qeq. rewrite H. unfold Q2R. cbn. lra.
  - exfalso. apply H. rewrite (Qeq_eqR _ _ X). unfold Q2R. cbn. lra.
Qed.
Lemma unit_float : forall t, fin t = true -> Bleb d0 t && Bleb t d1 = Qle_bool 0 (dq t) && Qle_bool (dq t) 1.
Proof.
  intros t F. apply Bool.eq_iff_eq_true. rewrite !andb_true_iff, !fle_iff by auto. rewrite val_d0, val_d1.
  rewrite (qle_bool 0 (dq t) 0 (val t)) by (auto using dq_val; unfold Q2R; cbn; lra). rewrite (qle_bool (dq t) 1 (val t) 1) by (auto using dq_val; unfold Q2R; cbn; lra). reflexivity.
Qed.

Definition fverdict (s : fsense) (tol : double) (r b : list double) (k : nat) : bool :=
  match s with
  | FLe => fall_ge tol r b
  | FLt => fall_ge tol r b && Bltb (nth k b d0) (dadd (nth k r d0) tol)
  | FGe => fall_le tol r b
  | FGt => fall_le tol r b && Bltb (dsub (nth k r d0) tol) (nth k b d0)
  | FOther => false
  end.
Definition verdict (s : fsense) (tol : Q) (r b : list Q) (k : nat) : bool :=
  match s with
  | FLe => all_ge tol r b
  | FLt => all_ge tol r b && Qlt_bool (nth k b 0%Q) (nth k r 0%Q + tol)%Q
  | FGe => all_le tol r b
  | FGt => all_le tol r b && Qlt_bool (nth k r 0%Q - tol)%Q (nth k b 0%Q)
  | FOther => false
  end.

Section Sim.
  Variable rf : rform.
  Variable pd : nat -> nat -> double.
  Hypothesis BF : built_form rf.
  Hypothesis DF : double_form rf pd.
  Let m := rf_sys rf.
  Let P := a_P m.
  Let n := rf_N rf.
  Let c := rf_C rf.
  Let RO : rf_ok rf := br_ro rf BF.
  Let OK : sys_ok m := ro_sys rf RO.

  Lemma p_unit : forall i d, (0 <= Q2R (mget P i d) <= 1)%R.
  Proof.
    intros i d. assert (H : (0 <= mget P i d)%Q /\ (mget P i d <= 1)%Q).
    { destruct (Qeq_dec (mget P i d) 0) as [E|N]; [rewrite E; split; Lqa.lra|]. apply mget_nonzero in N. assert (V : valid_system P (a_idx m) (a_rew m)) by apply OK. destruct V as (_ & _ & V & _). destruct (V _ _ _ N) as [X Y]. split; assumption. }
    destruct H as [H1 H2]. apply Qle_Rle in H1. apply Qle_Rle in H2. replace (Q2R 0) with 0%R in H1 by (unfold Q2R; cbn; lra). replace (Q2R 1) with 1%R in H2 by (unfold Q2R; cbn; lra). lra.
  Qed.
  Lemma pd_val : forall i d, i < c -> d <= n -> d < a_N m - 1 -> fin (pd i d) = true /\ val (pd i d) = Q2R (mget P i d).
  Proof. intros i d Hi _ Hd. destruct (DF i d Hi Hd) as [F V]. split; [exact F|exact V]. Qed.
  Lemma n_small : n < a_N m - 1.
  Proof. pose proof (ro_N rf RO) as H. unfold n, rf_N. fold m in H |- *. lia. Qed.

  (** An entry of A. *)
  Lemma coef : forall i d (b : bool), i < c -> d < n ->
    let f := dsub (if b then d1 else d0) (pd i d) in let q := ((if b then 1 else 0) - mget P i d)%Q in
    fin f = true /\ (Rabs (val f) <= 1)%R /\ (Rabs (val f - Q2R q) <= u)%R.
  Proof.
    intros i d b Hi Hd f q. pose proof n_small as NS. destruct (pd_val i d Hi ltac:(lia) ltac:(lia)) as [F V]. pose proof (p_unit i d) as U.
    assert (G : forall e x, fin e = true -> val e = x -> (0 <= x <= 1)%R -> fin (dsub e (pd i d)) = true /\ val (dsub e (pd i d)) = rnd (x - Q2R (mget P i d))).
    { intros e x Fe Ve Hx. rewrite <- Ve, <- V. apply and_comm. apply dsub_ok'; auto. rewrite Ve, V. apply Rle_trans with 1%R; [apply Rabs_le; lra|]. change 1%R with (bpow radix2 0). apply bpow_le. lia. }
    assert (Q : Q2R q = ((if b then 1 else 0) - Q2R (mget P i d))%R). { unfold q. rewrite Q2R_minus. f_equal. destruct b; unfold Q2R; cbn; lra. }
    assert (X : fin f = true /\ val f = rnd ((if b then 1 else 0) - Q2R (mget P i d))).
    { unfold f. apply (G (if b then d1 else d0) (if b then 1 else 0)%R); destruct b; auto using val_d1, val_d0; lra. }
    destruct X as [X1 X2]. split; [exact X1|]. rewrite X2, Q.
    assert (AB : (Rabs ((if b then 1 else 0) - Q2R (mget P i d)) <= 1)%R) by (apply Rabs_le; destruct b; lra).
    split.
    - apply abs_round_le_generic; auto with typeclass_instances. rewrite <- val_d1. apply generic_format_B2R.
    - apply (rnd_err _ 0); [lia|]. exact AB.
  Qed.
  Lemma frow : forall i s a, i < c -> rf_inv rf i = Some (s, a) -> fA_row rf pd i = map (fun d => dsub (if s =? d then d1 else d0) (pd i d)) (seq 0 n).
  Proof. intros i s a Hi E. unfold fA_row. rewrite E. reflexivity. Qed.
  Lemma exact0 : forall f q x, fin f = true -> val f = x -> Q2R q = x -> (Rabs x <= 1)%R -> fin f = true /\ (Rabs (val f) <= 1)%R /\ (Rabs (val f - Q2R q) <= u)%R.
  Proof. intros f q x F V Q X. rewrite V, Q. split; [exact F|]. split; [exact X|]. replace (x - x)%R with 0%R by ring. rewrite Rabs_R0. pose proof u_pos. lra. Qed.

  Lemma A_rel : forall i, i < c -> rowrel (fA_row rf pd i) (nth i (rf_A rf) []) /\ length (fA_row rf pd i) = n.
  Proof.
    intros i Hi. destruct (A_rows rf RO i Hi) as (s & a & E & Hs & EA). rewrite EA. rewrite (frow i s a) by (auto; rewrite rf_inv_row; auto).
    unfold Arow_spec. fold P n. split; [|rewrite map_length, seq_length; reflexivity]. split; [rewrite !map_length; reflexivity|].
    intros k Hk. rewrite map_length, seq_length in Hk. rewrite !nth_map_seq by auto. apply (coef i k (s =? k) Hi Hk).
  Qed.
  Lemma tt_rel : forall i, i < c -> nth i (fto_target rf pd) d0 = pd i n /\ nth i (rf_to_target rf) 0%Q = mget P i n /\ fin (pd i n) = true /\ val (pd i n) = Q2R (mget P i n).
  Proof.
    intros i Hi. rewrite (ro_tt rf RO). unfold fto_target. fold c n. rewrite !nth_map_seq by auto. fold m P. pose proof n_small. destruct (pd_val i n Hi ltac:(lia) ltac:(lia)) as [F V]. auto.
  Qed.
  Lemma fA_nth : forall k, k < c -> nth k (fA rf pd) [] = fA_row rf pd k.
  Proof. intros. unfold fA. fold c. rewrite nth_map_seq by auto. reflexivity. Qed.
  Lemma len_fA : length (fA rf pd) = c. Proof. unfold fA. rewrite map_length, seq_length. reflexivity. Qed.
  Lemma len_ft : length (fto_target rf pd) = c. Proof. unfold fto_target. rewrite map_length, seq_length. reflexivity. Qed.
  Lemma len_A : length (rf_A rf) = c. Proof. apply (ro_lenA rf RO). Qed.
  Lemma len_t : length (rf_to_target rf) = c. Proof. rewrite (ro_tt rf RO), map_length, seq_length. reflexivity. Qed.

  Lemma z_rel : forall t, fin t = true ->
    (exists e, ffark_z rf pd t = Err e /\ fark_z rf (dq t) = Err e) \/
    exists A b A' b', ffark_z rf pd t = Ok (A, b) /\ fark_z rf (dq t) = Ok (A', b') /\ matrel n A A' /\ rhsrel b b' /\ length A = length b /\ 0 < length A.
  Proof.
    intros t F. unfold ffark_z, fark_z. fold n. destruct (rf_init rf <? n) eqn:EI; [right|left; eauto]. apply Nat.ltb_lt in EI.
    do 4 eexists. split; [reflexivity|]. split; [reflexivity|]. split; [|split; [|split]].
    - split; [rewrite !app_length, len_fA, len_A; reflexivity|]. intros k Hk. rewrite app_length, len_fA in Hk. cbn [length] in Hk. assert (k < c \/ k = c) as [Hlt| ->] by lia.
      + rewrite !app_nth1 by (rewrite ?len_fA, ?len_A; exact Hlt). rewrite fA_nth by exact Hlt. apply A_rel. exact Hlt.
      + rewrite !app_nth2 by (rewrite ?len_fA, ?len_A; lia). rewrite len_fA, len_A, Nat.sub_diag. cbn [nth]. split; [|rewrite map_length, seq_length; reflexivity].
        split; [rewrite map_length, seq_length, unit_length; reflexivity|]. intros k Hk2. rewrite map_length, seq_length in Hk2. rewrite nth_map_seq, unit_nth by exact Hk2.
        destruct (Nat.eqb k (rf_init rf)).
        * apply exact0 with (x := (-1)%R); [reflexivity|rewrite (proj1 (dopp_ok d1)), val_d1; lra|unfold Q2R; cbn; lra|apply Rabs_le; lra].
        * apply exact0 with (x := 0%R); [reflexivity|rewrite (proj1 (dopp_ok d0)), val_d0; lra|unfold Q2R; cbn; lra|apply Rabs_le; lra].
    - split; [rewrite !app_length, len_ft, len_t; reflexivity|]. intros k Hk. rewrite app_length, len_ft in Hk. cbn [length] in Hk. assert (k < c \/ k = c) as [Hlt| ->] by lia.
      + rewrite !app_nth1 by (rewrite ?len_ft, ?len_t; exact Hlt). destruct (tt_rel k Hlt) as (-> & -> & X). exact X.
      + rewrite !app_nth2 by (rewrite ?len_ft, ?len_t; lia). rewrite len_ft, len_t, Nat.sub_diag. cbn [nth]. destruct (dopp_ok t) as [V1 V2]. rewrite V1, V2, Q2R_opp, dq_val. auto.
    - rewrite !app_length, len_fA, len_ft. reflexivity.
    - rewrite app_length. cbn [length]. lia.
  Qed.
  Lemma y_rel : forall t, fin t = true ->
    (exists e, ffark_y rf pd t = Err e /\ fark_y rf (dq t) = Err e) \/
    exists A b A' b', ffark_y rf pd t = Ok (A, b) /\ fark_y rf (dq t) = Ok (A', b') /\ matrel c A A' /\ rhsrel b b' /\ length A = length b /\ 0 < length A.
  Proof.
    intros t F. unfold ffark_y, fark_y. fold n. destruct (rf_init rf <? S n) eqn:EI; [right|left; eauto]. apply Nat.ltb_lt in EI.
    assert (L1 : length (map (fun d => map (fun row => nth d row d0) (fA rf pd)) (seq 0 n)) = n) by (rewrite map_length, seq_length; reflexivity).
    assert (L2 : length (map (column (rf_A rf)) (seq 0 n)) = n) by (rewrite map_length, seq_length; reflexivity).
    do 4 eexists. split; [reflexivity|]. split; [reflexivity|]. split; [|split; [|split]].
    - split; [rewrite !app_length, L1, L2; reflexivity|]. intros k Hk. rewrite app_length, L1 in Hk. cbn [length] in Hk. assert (k < n \/ k = n) as [Hlt| ->] by lia.
      + rewrite !app_nth1 by (rewrite ?L1, ?L2; exact Hlt). rewrite !nth_map_seq by exact Hlt. rewrite (column_A rf RO) by exact Hlt. split; [|rewrite map_length, len_fA; reflexivity].
        split; [rewrite !map_length, seq_length, len_fA; reflexivity|]. intros i Hi. rewrite map_length, len_fA in Hi.
        rewrite nth_map_seq by exact Hi. rewrite (nth_indep _ d0 ((fun row => nth k row d0) [])) by (rewrite map_length, len_fA; exact Hi).
        rewrite (map_nth (fun row => nth k row d0)). rewrite fA_nth by exact Hi. destruct (A_rows rf RO i Hi) as (s & a & E & Hs & _). rewrite (frow i s a) by (auto; rewrite rf_inv_row; auto).
        rewrite nth_map_seq by exact Hlt. unfold belongs. change (a_inv (rf_sys rf) i) with (a_inv m i). rewrite (E : a_inv m i = _). apply (coef i k (s =? k) Hi Hlt).
      + rewrite !app_nth2 by (rewrite ?L1, ?L2; lia). rewrite L1, L2, Nat.sub_diag. cbn [nth]. split; [|rewrite map_length, len_ft; reflexivity].
        split; [rewrite !map_length, len_ft, len_t; reflexivity|]. intros k Hk2. rewrite map_length, len_ft in Hk2.
        rewrite (nth_indep _ d0 (dopp d0)) by (rewrite map_length, len_ft; exact Hk2). rewrite map_nth. rewrite (nth_indep _ 0%Q (Qopp 0)) by (rewrite map_length, len_t; exact Hk2). rewrite map_nth.
        destruct (tt_rel k Hk2) as (-> & -> & X1 & X2). destruct (dopp_ok (pd k n)) as [V1 V2]. pose proof (p_unit k n). apply exact0 with (x := (- Q2R (mget P k n))%R); [rewrite V2; exact X1|rewrite V1, X2; reflexivity|apply Q2R_opp|apply Rabs_le; lra].
    - split; [rewrite !upd_length, map_length, seq_length, unit_length; reflexivity|]. intros k Hk. rewrite upd_length, map_length, seq_length in Hk. destruct (Nat.eq_dec n k) as [<-|N].
      + rewrite !nth_upd_same by (rewrite ?map_length, ?seq_length, ?unit_length; lia). destruct (dopp_ok t) as [V1 V2]. rewrite V1, V2, Q2R_opp, dq_val. auto.
      + rewrite !nth_upd_other by exact N. rewrite nth_map_seq, unit_nth by exact Hk. destruct (Nat.eqb k (rf_init rf)); [split; [reflexivity|rewrite val_d1; unfold Q2R; cbn; lra]|split; [reflexivity|rewrite val_d0; unfold Q2R; cbn; lra]].
    - rewrite !app_length, L1, upd_length, map_length, seq_length. cbn [length]. lia.
    - rewrite app_length. cbn [length]. lia.
  Qed.

  Lemma ec_rel : forall up (v : list double) l, (forall x : double, In x v -> fin x = true) -> fec_entries_zero rf up v l = ec_entries_zero rf up (map dq v) l.
  Proof.
    intros up v l HV. induction l as [|i l IH]; [reflexivity|]. cbn [fec_entries_zero ec_entries_zero].
    destruct (if up then _ else _) as [s|e]; [|reflexivity]. cbn [bind]. destruct (in_proper_ec rf s) as [[|]|e]; [|exact IH|reflexivity]. cbn [bind].
    rewrite nth_error_map. destruct (nth_error v i) as [x|] eqn:E; cbn [option_map of_opt bind]; [|reflexivity].
    rewrite <- feq_zero by (apply HV; apply (nth_error_In _ _ E)). destruct (Beqb x d0); [exact IH|reflexivity].
  Qed.

  Lemma sim : forall arr md s t (v : list double) tol, fin t = true -> (forall x : double, In x v -> fin x = true) ->
    (exists e, fcheck arr rf pd md s t v tol = Err e /\ forall q, check_farkas rf md s (dq t) (map dq v) q = Err e) \/
    (fcheck arr rf pd md s t v tol = Ok false /\ forall q, check_farkas rf md s (dq t) (map dq v) q = Ok false) \/
    (exists A b A' b' D, matrel D A A' /\ rhsrel b b' /\ length A = length b /\ 0 < length A /\ length v = D /\ (D = n \/ D = c) /\ s <> FOther /\
       fcheck arr rf pd md s t v tol = Ok (fverdict s tol (fmat_vec arr A v) b (length A - 1)) /\
       forall q, check_farkas rf md s (dq t) (map dq v) q = Ok (verdict s q (mat_vec A' (map dq v)) b' (length A - 1))).
  Proof.
    intros arr md s t v tol FT FV. unfold fcheck, check_farkas. rewrite unit_float by exact FT. destruct (Qle_bool 0 (dq t) && Qle_bool (dq t) 1); cbn [assert_ bind]; [|left; eexists; split; [reflexivity|intros; reflexivity]].
    unfold fright_constraint_set, right_constraint_set. destruct (right_form md s) as [f|e] eqn:ER; cbn [bind]; [|left; eexists; split; [reflexivity|intros; reflexivity]].
    assert (G : forall D, (D = n \/ D = c) ->
      forall FA QA, ((exists e, FA = Err e /\ QA = Err e) \/ exists A b A' b', FA = Ok (A, b) /\ QA = Ok (A', b') /\ matrel D A A' /\ rhsrel b b' /\ length A = length b /\ 0 < length A) ->
      let F := (let* (A, b, D0) := let* (A, b) := FA in Ok (A, b, D) in
        let* _ := assert_ (length v =? D0) in
        let* z := match md with Min => fec_entries_zero rf (is_upper s) v (seq 0 D0) | _ => Ok true end in
        if z then match s with
          | FLe => Ok (fall_ge tol (fmat_vec arr A v) b)
          | FLt => Ok (fall_ge tol (fmat_vec arr A v) b && Bltb (nth (length A - 1) b d0) (dadd (nth (length A - 1) (fmat_vec arr A v) d0) tol))
          | FGe => Ok (fall_le tol (fmat_vec arr A v) b)
          | FGt => Ok (fall_le tol (fmat_vec arr A v) b && Bltb (dsub (nth (length A - 1) (fmat_vec arr A v) d0) tol) (nth (length A - 1) b d0))
          | FOther => Err AssertionError end else Ok false) in
      let C := fun q => (let* (A, b, D0) := let* (A, b) := QA in Ok (A, b, D) in
        let* _ := assert_ (length (map dq v) =? D0) in
        let* z := match md with Min => ec_entries_zero rf (is_upper s) (map dq v) (seq 0 D0) | _ => Ok true end in
        if z then match s with
          | FLe => Ok (all_ge q (mat_vec A (map dq v)) b)
          | FLt => Ok (all_ge q (mat_vec A (map dq v)) b && Qlt_bool (nth (length A - 1) b 0%Q) (nth (length A - 1) (mat_vec A (map dq v)) 0%Q + q)%Q)
          | FGe => Ok (all_le q (mat_vec A (map dq v)) b)
          | FGt => Ok (all_le q (mat_vec A (map dq v)) b && Qlt_bool (nth (length A - 1) (mat_vec A (map dq v)) 0%Q - q)%Q (nth (length A - 1) b 0%Q))
          | FOther => Err AssertionError end else Ok false) in
      (exists e, F = Err e /\ forall q, C q = Err e) \/ (F = Ok false /\ forall q, C q = Ok false) \/
      (exists A b A' b' D, matrel D A A' /\ rhsrel b b' /\ length A = length b /\ 0 < length A /\ length v = D /\ (D = n \/ D = c) /\ s <> FOther /\
       F = Ok (fverdict s tol (fmat_vec arr A v) b (length A - 1)) /\
       forall q, C q = Ok (verdict s q (mat_vec A' (map dq v)) b' (length A - 1)))).
    { intros D HD FA QA H F C. destruct H as [(e & -> & ->)|(A & b & A' & b' & -> & -> & MR & RR & LL & LP)]; [left; eexists; split; [reflexivity|intros; reflexivity]|].
      unfold F, C. cbn [bind]. rewrite map_length. destruct (Nat.eqb_spec (length v) D) as [HL|HL]; cbn [assert_ bind]; [|left; eexists; split; [reflexivity|intros; reflexivity]].
      assert (LA : length A' = length A) by (destruct MR as [X _]; congruence).
      assert (K : forall z z' : res bool, z = z' -> 
        let F := (let* z := z in if z then match s with
          | FLe => Ok (fall_ge tol (fmat_vec arr A v) b)
          | FLt => Ok (fall_ge tol (fmat_vec arr A v) b && Bltb (nth (length A - 1) b d0) (dadd (nth (length A - 1) (fmat_vec arr A v) d0) tol))
          | FGe => Ok (fall_le tol (fmat_vec arr A v) b)
          | FGt => Ok (fall_le tol (fmat_vec arr A v) b && Bltb (dsub (nth (length A - 1) (fmat_vec arr A v) d0) tol) (nth (length A - 1) b d0))
          | FOther => Err AssertionError end else Ok false) in
        let C := fun q => (let* z := z' in if z then match s with
          | FLe => Ok (all_ge q (mat_vec A' (map dq v)) b')
          | FLt => Ok (all_ge q (mat_vec A' (map dq v)) b' && Qlt_bool (nth (length A' - 1) b' 0%Q) (nth (length A' - 1) (mat_vec A' (map dq v)) 0%Q + q)%Q)
          | FGe => Ok (all_le q (mat_vec A' (map dq v)) b')
          | FGt => Ok (all_le q (mat_vec A' (map dq v)) b' && Qlt_bool (nth (length A' - 1) (mat_vec A' (map dq v)) 0%Q - q)%Q (nth (length A' - 1) b' 0%Q))
          | FOther => Err AssertionError end else Ok false) in
        (exists e, F = Err e /\ forall q, C q = Err e) \/ (F = Ok false /\ forall q, C q = Ok false) \/
        (exists A b A' b' D, matrel D A A' /\ rhsrel b b' /\ length A = length b /\ 0 < length A /\ length v = D /\ (D = n \/ D = c) /\ s <> FOther /\
         F = Ok (fverdict s tol (fmat_vec arr A v) b (length A - 1)) /\
         forall q, C q = Ok (verdict s q (mat_vec A' (map dq v)) b' (length A - 1)))).
      { intros z z' ->. rewrite LA. destruct z' as [[|]|e]; cbn [bind]; [|right; left; auto|left; eexists; split; [reflexivity|intros; reflexivity]].
        destruct s; try (right; right; exists A, b, A', b', D; repeat (split; [assumption|]); split; [discriminate|]; split; [reflexivity|]; intros q; reflexivity).
        left; eexists; split; [reflexivity|intros; reflexivity]. }
      apply K. destruct md; [apply ec_rel; exact FV|reflexivity|reflexivity]. }
    destruct f.
    - apply (G c (or_intror eq_refl) (ffark_y rf pd t) (fark_y rf (dq t)) (y_rel t FT)).
    - apply (G n (or_introl eq_refl) (ffark_z rf pd t) (fark_z rf (dq t)) (z_rel t FT)).
  Qed.
End Sim.
