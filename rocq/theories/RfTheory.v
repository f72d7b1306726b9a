(** Theory of reachability forms: Farkas certificates bound the minimal and
    maximal reachability probabilities. *)
From Coq Require Import List Arith Reals Lra Lia Classical.
From Verif Require Import SpecMdp SccSpec SpecEc SumFacts MdpValue.
Import ListNotations.
Local Open Scope R_scope.

Lemma rtc_trans : forall A (E : A -> A -> Prop) x y z, rtc E x y -> rtc E y z -> rtc E x z.
Proof. intros A E x y z H. induction H; auto. intros. econstructor; eauto. Qed.

Lemma rtc_one : forall A (E : A -> A -> Prop) x y, E x y -> rtc E x y.
Proof. intros. econstructor; [eauto|constructor]. Qed.

Lemma rtc_inv_closed : forall A (E : A -> A -> Prop) (X : A -> Prop) x y,
  (forall a b, X a -> E a b -> X b) -> rtc E x y -> X x -> X y.
Proof. intros A E X x y H HR. induction HR; eauto. Qed.

(** Every point of a finite graph leads to a bottom component. *)
Lemma bottom : forall (E : nat -> nat -> Prop) n L s, (length L <= n)%nat -> (forall t, rtc E s t -> In t L) ->
  exists t, rtc E s t /\ forall u, rtc E t u -> rtc E u t.
Proof.
  intros E n. induction n; intros L s Hl HL.
  - destruct L; [|simpl in Hl; lia]. destruct (HL s). constructor.
  - destruct (classic (exists t, rtc E s t /\ ~ rtc E t s)) as [(t & H1 & H2)|H].
    + destruct (IHn (List.remove Nat.eq_dec s L) t) as (u & A & B).
      * assert (In s L) by (apply HL; constructor). pose proof (remove_length_lt Nat.eq_dec L s H). lia.
      * intros u Hu. apply in_in_remove.
        -- intros ->. auto.
        -- apply HL. eapply rtc_trans; eauto.
      * exists u. split; auto. eapply rtc_trans; eauto.
    + exists s. split; [constructor|]. intros u Hu. apply NNPP. intros Hn. apply H. eauto.
Qed.

Section Gen.
  Variable M : mdp.
  Hypothesis W : wf_mdp M.
  Variable T : nat -> bool.
  Let Vmin := Vmin M W T.
  Let Vmax := Vmax M W T.
  Let ex := ex M.

  (** A set closed under one chosen row per state contains an end component. *)
  Lemma closed_has_ec : forall (X : nat -> Prop) (c : nat -> nat), (exists s, X s) -> (forall s, X s -> (s < nS M)%nat) ->
    (forall s, X s -> (c s < nA M)%nat /\ src M (c s) = s) ->
    (forall s d, X s -> (d < nS M)%nat -> 0 < prob M (c s) d -> X d) ->
    exists Y B, mdp_ec M Y B /\ (forall s, Y s -> X s).
  Proof.
    intros X c (s0 & Hs0) HX Hc Hcl.
    set (E := fun s d => X s /\ (d < nS M)%nat /\ 0 < prob M (c s) d).
    assert (HE : forall s d, X s -> rtc E s d -> X d).
    { intros s d Hs HR. eapply rtc_inv_closed; [|eassumption|auto]. intros a b Ha (_ & Hb & Hp). eauto. }
    destruct (bottom E (nS M) (seq 0 (nS M)) s0) as (t & Ht & Hb).
    { rewrite seq_length; lia. }
    { intros t Ht. apply in_seq. assert (X t) by eauto. apply HX in H. lia. }
    assert (HXt : X t) by eauto.
    exists (fun u => rtc E t u), (fun u r => rtc E t u /\ r = c u). split.
    - split; [exists t; constructor|]. split; [|split].
      + intros s Hs. exists (c s). auto.
      + intros s a [Hs ->]. assert (Xs : X s) by eauto. destruct (Hc s Xs) as [C1 C2]. split; auto. split.
        * assert (exists d, (d < nS M)%nat /\ 0 < prob M (c s) d) as (d & Hd & Hp).
          { apply NNPP. intros Hno. assert (sumn (nS M) (prob M (c s)) = 0); [|rewrite W_sum in H; auto; lra].
            apply sumn_zero. intros i Hi. pose proof (W_pos M W (c s) i C1 Hi).
            destruct (Req_dec (prob M (c s) i) 0); auto. exfalso. apply Hno. exists i. split; auto. lra. }
          exists d. split; auto.
        * intros d (_ & _ & Hd & Hp). eapply rtc_trans; [exact Hs|]. apply rtc_one. split; auto.
      + intros u v Hu Hv. assert (HR : rtc E u v) by (eapply rtc_trans; [apply Hb; exact Hu|exact Hv]).
        revert Hu. clear Hv. induction HR; intros Hu; [constructor|].
        assert (rtc E t y) by (eapply rtc_trans; [exact Hu|apply rtc_one; auto]).
        econstructor; [|apply IHHR; auto]. exists (c x). split; [auto|]. destruct H as (A1 & A2 & A3).
        destruct (Hc x A1). split; auto.
    - intros s Hs. eauto.
  Qed.

  Lemma Vmin_greatest : forall z, (forall s, (s < nS M)%nat -> T s = true -> z s <= 1) ->
    (forall r, (r < nA M)%nat -> T (src M r) = false -> z (src M r) <= ex r z) ->
    (forall X B, mdp_ec M X B -> (forall s, X s -> T s = false) -> exists s, X s /\ z s <= 0) ->
    forall s, (s < nS M)%nat -> z s <= Vmin s.
  Proof.
    intros z HT Hsub HEC s0 Hs0.
    destruct (exists_max (nS M) (fun s => z s - Vmin s)) as (k & Hk & Hmax); [lia|].
    apply Rnot_lt_le. intros Hlt. set (d := z k - Vmin k) in *.
    assert (Hd : 0 < d). { specialize (Hmax s0 Hs0). simpl in Hmax. lra. }
    set (X := fun s => (s < nS M)%nat /\ z s - Vmin s = d).
    assert (XT : forall s, X s -> T s = false).
    { intros s [Hs E]. destruct (T s) eqn:ET; auto. exfalso. specialize (HT s Hs ET). unfold Vmin in E. rewrite Vmin_T in E; auto. lra. }
    destruct (finite_choice (nS M) (fun s r => X s -> (r < nA M)%nat /\ src M r = s /\ Vmin s = ex r Vmin)) as (c & Hc).
    { intros s Hs. destruct (T s) eqn:E.
      - exists O. intros HX. apply XT in HX. congruence.
      - destruct (Vmin_att M W T s Hs E) as (r & A). exists r. auto. }
    destruct (closed_has_ec X c) as (Y & B & HY & HYX).
    - exists k. split; auto.
    - intros s [H _]; auto.
    - intros s HX. destruct (Hc s (proj1 HX) HX) as (A1 & A2 & _). auto.
    - intros s t HX Ht Hp. destruct (Hc s (proj1 HX) HX) as (A1 & A2 & A3). split; auto.
      apply (convex_eq_max (nS M) (prob M (c s)) (fun t => z t - Vmin t) d); auto.
      + intros i Hi. apply W_pos; auto.
      + apply W_sum; auto.
      + change (d <= ex (c s) (fun t => z t - Vmin t)). unfold ex. rewrite ex_minus.
        assert (z (src M (c s)) <= ex (c s) z) by (apply Hsub; auto; rewrite A2; auto).
        rewrite A2 in H. unfold ex in *. destruct HX as [_ HX]. lra.
    - destruct (HEC Y B HY) as (s & Ys & Hz); [auto|]. destruct (HYX s Ys) as [Hs E].
      pose proof (Vmin_bounds M W T s). unfold Vmin in E. lra.
  Qed.

  (** The minimal probability is zero inside an end component without target
      states. *)
  Lemma Vmin_ec_zero : forall X B, mdp_ec M X B -> (forall s, X s -> T s = false) -> forall s, X s -> Vmin s = 0.
  Proof.
    intros X B (_ & H2 & H3 & _) HT s Xs. apply Rle_antisym; [|apply Vmin_bounds].
    apply Vmin_le. intros n. revert s Xs. induction n; intros s Xs; simpl; rewrite (HT s Xs); [lra|].
    destruct (H2 s Xs) as (a & Ha). destruct (H3 s a Ha) as (_ & (d0 & A1 & A2 & _) & Hin).
    eapply Rle_trans; [apply (minr_le M s (fun r => MdpValue.ex M r (vmin M T n)) (nA M) a A1 A2)|].
    apply convex_le.
    - intros i Hi. apply W_pos; auto.
    - apply W_sum; auto.
    - intros i Hi Hp. apply IHn. apply Hin. split; auto.
  Qed.

  (** Superharmonic vectors are non-negative if every state leads to a state
      with a non-negative value. *)
  Lemma superharmonic_nonneg : forall z, 
    (forall s, (s < nS M)%nat -> 0 <= z s \/ forall r, (r < nA M)%nat -> src M r = s -> ex r z <= z s) ->
    (forall s, (s < nS M)%nat -> exists t, rtc (medge M) s t /\ 0 <= z t) ->
    forall s, (s < nS M)%nat -> 0 <= z s.
  Proof.
    intros z Hs Hp s0 Hs0. apply Rnot_lt_le. intros Hlt.
    destruct (exists_min (nS M) z) as (k & Hk & Hmin); [lia|].
    assert (z k < 0) by (specialize (Hmin s0 Hs0); lra).
    destruct (Hp k Hk) as (t & HR & Ht).
    assert (G : (t < nS M)%nat /\ z t = z k); [|destruct G; lra].
    apply (rtc_inv_closed _ (medge M) (fun x => (x < nS M)%nat /\ z x = z k) k t); auto.
    intros a b [Ha Hza] (r & A1 & A2 & A3 & A4). split; auto.
    destruct (Hs a Ha) as [Hge|Hr]; [lra|].
    apply (convex_eq_min (nS M) (prob M r) z (z k)); auto.
    - intros i Hi. apply W_pos; auto.
    - apply W_sum; auto.
    - specialize (Hr r A1 A2). unfold ex, MdpValue.ex in Hr. lra.
  Qed.

  Lemma Vmax_absorbing_zero : forall s, (s < nS M)%nat -> T s = false ->
    (forall r, (r < nA M)%nat -> src M r = s -> forall d, (d < nS M)%nat -> 0 < prob M r d -> d = s) -> Vmax s = 0.
  Proof.
    intros s Hs HT Hr. apply Rle_antisym; [|apply Vmax_bounds]. apply Vmax_le. intros n. induction n; simpl; rewrite HT; [lra|].
    apply maxr_lub; [lra|]. intros r Hr1 Hr2. apply convex_le.
    - intros i Hi. apply W_pos; auto.
    - apply W_sum; auto.
    - intros i Hi Hp. rewrite (Hr r Hr1 Hr2 i Hi Hp). auto.
  Qed.

  Lemma Vmin_le_Vmax : forall s, (s < nS M)%nat -> Vmin s <= Vmax s.
  Proof.
    intros s Hs. destruct (Vmin_attained M W T s Hs) as (sigma & HV & HP). eapply Pr_bounds; eauto.
  Qed.
End Gen.

(** ** Reachability forms *)
Section Rf.
  Variable M : mdp.
  Variable init : nat.
  Hypothesis RF : shape_mdp M.

  Lemma RFW : wf_mdp M. Proof. apply RF. Qed.
  Let W := RFW.
  Let T := is_goal M.
  Let Vmin := Vmin M W T.
  Let Vmax := Vmax M W T.
  Let n := (nS M - 2)%nat.
  Let m := (nA M - 2)%nat.

  Lemma RF2 : (2 <= nS M)%nat /\ (2 <= nA M)%nat. Proof. split; apply RF. Qed.
  Lemma RF_src : forall r, (r < nA M - 2)%nat -> (src M r < nS M - 2)%nat. Proof. apply RF. Qed.

  (** Value vector extended by 1 for goal and 0 for fail. *)
  Definition ext (z : nat -> R) (s : nat) : R :=
    if Nat.ltb s n then z s else if Nat.eqb s (goal M) then 1 else 0.

  Lemma ext_in : forall z s, (s < n)%nat -> ext z s = z s.
  Proof. intros z s H. unfold ext. apply Nat.ltb_lt in H. rewrite H; auto. Qed.
  Lemma ext_goal : forall z, ext z (goal M) = 1.
  Proof. intros z. unfold ext. pose proof RF2. unfold goal, n. destruct (Nat.ltb_spec (nS M - 2) (nS M - 2)); [lia|]. rewrite Nat.eqb_refl; auto. Qed.
  Lemma ext_fail : forall z, ext z (fail M) = 0.
  Proof.
    intros z. unfold ext, fail, goal, n. pose proof RF2. destruct (Nat.ltb_spec (nS M - 1) (nS M - 2)); [lia|].
    destruct (Nat.eqb_spec (nS M - 1) (nS M - 2)); [lia|auto].
  Qed.

  (** Expected value of an extended vector in one step. *)
  Definition onestep (r : nat) (z : nat -> R) : R := sumn n (fun d => prob M r d * z d) + prob M r (goal M).

  Lemma ex_ext_vec : forall r z, ex M r (ext z) = onestep r z.
  Proof.
    intros r z. unfold ex, onestep. rewrite sumn_split2 by apply RF2.
    fold (goal M). fold (fail M). fold n. rewrite ext_goal, ext_fail.
    rewrite (sumn_ext n _ (fun d => prob M r d * z d)); [lra|]. intros i Hi. rewrite ext_in; auto.
  Qed.

  Lemma state_cases : forall s, (s < nS M)%nat -> (s < n)%nat \/ s = goal M \/ s = fail M.
  Proof. intros s Hs. pose proof RF2. unfold goal, fail, n. lia. Qed.

  Lemma row_cases : forall r, (r < nA M)%nat -> (r < m)%nat \/ r = (nA M - 2)%nat \/ r = (nA M - 1)%nat.
  Proof. intros r Hr. pose proof RF2. unfold m. lia. Qed.

  Lemma one_row : forall r d, (r < nA M)%nat -> (d < nS M)%nat -> prob M r d = 1 -> forall d', (d' < nS M)%nat -> 0 < prob M r d' -> d' = d.
  Proof.
    intros r d Hr Hd H1 d' Hd' Hp. destruct (Nat.eq_dec d' d); auto. exfalso.
    pose proof (W_sum M W r Hr) as HS.
    assert (sumn (nS M) (fun i => if Nat.eqb i d then prob M r d else if Nat.eqb i d' then prob M r d' else 0) <= sumn (nS M) (prob M r)).
    { apply sumn_le. intros i Hi. destruct (Nat.eqb_spec i d) as [->|]; [lra|]. destruct (Nat.eqb_spec i d') as [->|]; [lra|]. apply W_pos; auto. }
    rewrite (sumn_ext _ _ (fun i => (if Nat.eqb i d then prob M r d else 0) + (if Nat.eqb i d' then prob M r d' else 0))) in H.
    - rewrite sumn_plus, !sumn_indicator in H by auto. lra.
    - intros i Hi. destruct (Nat.eqb_spec i d) as [->|]; [|lra]. destruct (Nat.eqb_spec d d'); [congruence|lra].
  Qed.

  Lemma goal_lt : (goal M < nS M)%nat. Proof. pose proof RF2. unfold goal; lia. Qed.
  Lemma fail_lt : (fail M < nS M)%nat. Proof. pose proof RF2. unfold fail; lia. Qed.

  Lemma goal_row : forall r, (r < nA M)%nat -> src M r = goal M -> r = (nA M - 2)%nat.
  Proof.
    intros r Hr Hs. pose proof RF2. destruct (row_cases r Hr) as [H1|[H1| ->]]; auto.
    - apply RF_src in H1. unfold goal in Hs. lia.
    - destruct RF as (_ & _ & _ & _ & _ & F & _). rewrite F in Hs. unfold fail, goal in Hs. lia.
  Qed.
  Lemma fail_row : forall r, (r < nA M)%nat -> src M r = fail M -> r = (nA M - 1)%nat.
  Proof.
    intros r Hr Hs. pose proof RF2. destruct (row_cases r Hr) as [H1|[->|H1]]; auto.
    - apply RF_src in H1. unfold fail in Hs. lia.
    - destruct RF as (_ & _ & _ & _ & (F & _) & _). rewrite F in Hs. unfold fail, goal in Hs. lia.
  Qed.

  Lemma goal_absorbing : forall s, rtc (medge M) (goal M) s -> s = goal M.
  Proof.
    intros s H. apply (rtc_inv_closed _ _ (fun x => x = goal M) _ _ ) in H; auto.
    intros a b -> (r & A1 & A2 & A3 & A4). pose proof (goal_row r A1 A2). subst r.
    apply (one_row (nA M - 2) (goal M)); auto; [apply goal_lt|]. apply RF.
  Qed.
  Lemma fail_absorbing : forall s, rtc (medge M) (fail M) s -> s = fail M.
  Proof.
    intros s H. apply (rtc_inv_closed _ _ (fun x => x = fail M) _ _ ) in H; auto.
    intros a b -> (r & A1 & A2 & A3 & A4). pose proof (fail_row r A1 A2). subst r.
    apply (one_row (nA M - 1) (fail M)); auto; [apply fail_lt|]. apply RF.
  Qed.

  Lemma T_goal : T (goal M) = true. Proof. apply Nat.eqb_refl. Qed.
  Lemma T_fail : T (fail M) = false.
  Proof. apply Nat.eqb_neq. pose proof RF2. unfold fail, goal. lia. Qed.
  Lemma T_in : forall s, (s < n)%nat -> T s = false.
  Proof. intros s H. apply Nat.eqb_neq. unfold goal, n in *. lia. Qed.
  Lemma T_true : forall s, T s = true -> s = goal M. Proof. intros s H. apply Nat.eqb_eq; auto. Qed.

  Lemma Vmax_fail : Vmax (fail M) = 0.
  Proof.
    apply Vmax_absorbing_zero; [apply fail_lt|apply T_fail|]. intros r Hr Hs d Hd Hp.
    apply fail_absorbing. apply rtc_one. exists r. split; auto.
  Qed.
  Lemma Vmin_fail : Vmin (fail M) = 0.
  Proof.
    apply Rle_antisym; [|apply Vmin_bounds]. rewrite <- Vmax_fail. apply Vmin_le_Vmax. apply fail_lt.
  Qed.
  Lemma Vmin_goal : Vmin (goal M) = 1. Proof. apply Vmin_T. apply T_goal. Qed.
  Lemma Vmax_goal : Vmax (goal M) = 1. Proof. apply Vmax_T. apply T_goal. Qed.

  Lemma ext_id : forall v, v (goal M) = 1 -> v (fail M) = 0 -> forall s, (s < nS M)%nat -> ext v s = v s.
  Proof.
    intros v H1 H2 s Hs. destruct (state_cases s Hs) as [H| [->| ->]]; [apply ext_in; auto|rewrite ext_goal; auto|rewrite ext_fail; auto].
  Qed.

  Lemma rows_in : forall s, (s < n)%nat -> forall r, (r < nA M)%nat -> src M r = s -> (r < m)%nat.
  Proof.
    intros s Hs r Hr E. destruct (row_cases r Hr) as [H| [->| ->]]; auto; exfalso; unfold n in *.
    - destruct RF as (_ & _ & _ & _ & (F & _) & _). rewrite F in E. unfold goal in E. lia.
    - destruct RF as (_ & _ & _ & _ & _ & F & _). rewrite F in E. unfold fail in E. pose proof RF2. lia.
  Qed.

  (** *** Bellman equations in terms of [onestep] *)
  Lemma Vmin_onestep : forall r, (r < m)%nat -> Vmin (src M r) <= onestep r Vmin.
  Proof.
    intros r Hr. pose proof (RF_src r Hr) as Hs. pose proof RF2. rewrite <- ex_ext_vec.
    rewrite (ex_ext M r (ext Vmin) Vmin). { apply Vmin_le_ex; [unfold m in Hr; lia|apply T_in; auto]. }
    intros d Hd. apply ext_id; auto using Vmin_goal, Vmin_fail.
  Qed.
  Lemma Vmax_onestep : forall r, (r < m)%nat -> onestep r Vmax <= Vmax (src M r).
  Proof.
    intros r Hr. pose proof (RF_src r Hr) as Hs. pose proof RF2. rewrite <- ex_ext_vec.
    rewrite (ex_ext M r (ext Vmax) Vmax). { apply Vmax_ge_ex; [unfold m in Hr; lia|apply T_in; auto]. }
    intros d Hd. apply ext_id; auto using Vmax_goal, Vmax_fail.
  Qed.

  Lemma ec_no_goal : forall X B s, mdp_ec M X B -> X s -> (s < n)%nat -> forall t, X t -> T t = false.
  Proof.
    intros X B s HE Xs Hs t Xt. destruct (T t) eqn:E; auto. apply T_true in E. subst t. exfalso.
    destruct HE as (_ & _ & H3 & H4). assert (s = goal M); [|unfold goal, n in *; lia].
    apply goal_absorbing. specialize (H4 _ _ Xt Xs). revert H4. generalize (goal M). intros g H4. induction H4; [constructor|].
    destruct H as (a & HB & HE). econstructor; eauto. exists a; auto.
  Qed.

  (** Pr-min of a state in an end component is 0. *)
  Lemma Vmin_in_ec : forall s, (s < n)%nat -> in_ec M s -> Vmin s = 0.
  Proof.
    intros s Hs (X & B & HE & Xs). apply (Vmin_ec_zero M W T X B HE); [|exact Xs].
    intros t Xt. apply (ec_no_goal X B s HE Xs Hs t Xt).
  Qed.

  (** *** z-certificates for Pr-min *)
  Lemma z_min_sound : forall z, (forall r, (r < m)%nat -> z (src M r) <= onestep r z) ->
    (forall s, (s < n)%nat -> in_ec M s -> z s <= 0) ->
    forall s, (s < n)%nat -> z s <= Vmin s.
  Proof.
    intros z Hz HEC s Hs. rewrite <- (ext_in z s Hs). pose proof RF2.
    apply (Vmin_greatest M W T (ext z)).
    - intros t _ HT. apply T_true in HT. subst t. rewrite ext_goal. lra.
    - intros r Hr HT. rewrite ex_ext_vec. destruct (row_cases r Hr) as [H1| [->| ->]].
      + rewrite ext_in; [auto|]. apply RF_src; auto.
      + destruct RF as (_ & _ & _ & _ & (F & _) & _). rewrite F, T_goal in HT. discriminate.
      + pose proof RF as (_ & _ & _ & _ & _ & F & G). rewrite F, ext_fail. rewrite <- ex_ext_vec.
        unfold ex. rewrite (sumn_zero (nS M)); [lra|]. intros i Hi.
        destruct (Req_dec (prob M (nA M - 1) i) 0) as [E|E]; [rewrite E; lra|].
        assert (i = fail M). { apply (one_row (nA M - 1) (fail M)); auto using fail_lt. pose proof (W_pos M W (nA M - 1) i). assert (0 <= prob M (nA M - 1) i) by (apply H0; auto; lia). lra. }
        subst i. rewrite ext_fail. lra.
    - intros X B HE HT. destruct (proj1 HE) as (t & Xt).
      assert (Ht : (t < nS M)%nat). { destruct HE as (_ & H2 & H3 & _). destruct (H2 t Xt) as (a & Ha). destruct (H3 t a Ha) as (_ & (d & A1 & A2 & _) & _). rewrite <- A2. apply W_src; auto. }
      exists t. split; auto. destruct (state_cases t Ht) as [H1| [->| ->]].
      + rewrite ext_in; auto. apply HEC; auto. exists X, B; auto.
      + specialize (HT _ Xt). rewrite T_goal in HT. discriminate.
      + rewrite ext_fail. lra.
    - unfold n in *; lia.
  Qed.

  (** *** z-certificates for Pr-max *)
  Hypothesis REACH : forall s, (s < nS M)%nat -> s <> fail M -> rtc (medge M) s (goal M).
  Lemma z_max_sound : forall z, (forall r, (r < m)%nat -> onestep r z <= z (src M r)) ->
    forall s, (s < n)%nat -> Vmax s <= z s.
  Proof.
    intros z Hz s Hs. rewrite <- (ext_in z s Hs). pose proof RF2.
    assert (HN : forall t, (t < nS M)%nat -> 0 <= ext z t).
    { apply (superharmonic_nonneg M W).
      - intros t Ht. destruct (state_cases t Ht) as [H1| [->| ->]].
        + right. intros r Hr E. rewrite ex_ext_vec, ext_in; auto. rewrite <- E. apply Hz. apply (rows_in t); auto.
        + left. rewrite ext_goal. lra.
        + left. rewrite ext_fail. lra.
      - intros t Ht. destruct (Nat.eq_dec t (fail M)) as [->|E].
        + exists (fail M). split; [constructor|rewrite ext_fail; lra].
        + exists (goal M). split; [apply REACH; auto|rewrite ext_goal; lra]. }
    apply (Vmax_least M W T (ext z)); auto.
    - intros t _ HT. apply T_true in HT. subst t. rewrite ext_goal. lra.
    - intros r Hr HT. rewrite ex_ext_vec. destruct (row_cases r Hr) as [H1| [->| ->]].
      + rewrite ext_in; [auto|]. apply RF_src; auto.
      + destruct RF as (_ & _ & _ & _ & (F & _) & _). rewrite F, T_goal in HT. discriminate.
      + pose proof RF as (_ & _ & _ & _ & _ & F & G). rewrite F, ext_fail. rewrite <- ex_ext_vec.
        apply convex_le; [intros i Hi; apply (W_pos M W); auto|apply (W_sum M W); auto|].
        intros i Hi Hp. assert (i = fail M) by (apply (one_row (nA M - 1) (fail M)); auto using fail_lt).
        subst i. rewrite ext_fail. lra.
    - unfold n in *; lia.
  Qed.

  Lemma z_max_nonneg : forall z, (forall r, (r < m)%nat -> onestep r z <= z (src M r)) ->
    forall s, (s < n)%nat -> 0 <= z s.
  Proof. intros z Hz s Hs. eapply Rle_trans; [apply (Vmax_bounds M W T s)|]. apply z_max_sound; auto. Qed.

  (** *** y-certificates: weak duality *)
  (** Outflow minus inflow of [y] in state [s]. *)
  Definition balance (y : nat -> R) (s : nat) : R :=
    sumn m (fun r => y r * ((if Nat.eqb (src M r) s then 1 else 0) - prob M r s)).
  Definition to_goal (y : nat -> R) : R := sumn m (fun r => y r * prob M r (goal M)).

  Lemma balance_dual : forall y v, sumn n (fun s => balance y s * v s) = sumn m (fun r => y r * (v (src M r) - sumn n (fun d => prob M r d * v d))).
  Proof.
    intros y v. unfold balance.
    rewrite (sumn_ext n _ (fun s => sumn m (fun r => y r * ((if Nat.eqb (src M r) s then 1 else 0) - prob M r s) * v s))) by (intros; rewrite sumn_scal_r; auto).
    rewrite sumn_swap. apply sumn_ext. intros r Hr.
    rewrite (sumn_ext n _ (fun s => y r * ((if Nat.eqb s (src M r) then v (src M r) else 0) - prob M r s * v s))).
    - rewrite sumn_scal, sumn_minus, sumn_indicator; auto. apply RF_src; auto.
    - intros s Hs. rewrite Nat.eqb_sym. destruct (Nat.eqb_spec s (src M r)) as [->|]; lra.
  Qed.

  Lemma delta_sum : forall v, (init < n)%nat -> sumn n (fun s => (if Nat.eqb s init then 1 else 0) * v s) = v init.
  Proof.
    intros v Hi. rewrite (sumn_single n init); auto.
    - rewrite Nat.eqb_refl; lra.
    - intros i _ Hne. apply Nat.eqb_neq in Hne. rewrite Hne. lra.
  Qed.

  Lemma y_max_sound : forall y, (init < n)%nat -> (forall r, (r < m)%nat -> 0 <= y r) ->
    (forall s, (s < n)%nat -> balance y s <= if Nat.eqb s init then 1 else 0) ->
    to_goal y <= Vmax init.
  Proof.
    intros y Hi Hy Hb.
    assert (A : to_goal y <= sumn m (fun r => y r * (Vmax (src M r) - sumn n (fun d => prob M r d * Vmax d)))).
    { apply sumn_le. intros r Hr. apply Rmult_le_compat_l; auto. pose proof (Vmax_onestep r Hr). unfold onestep in H. lra. }
    rewrite <- balance_dual in A. eapply Rle_trans; [exact A|]. rewrite <- (delta_sum Vmax) by auto.
    apply sumn_le. intros s Hs. apply Rmult_le_compat_r; auto. apply Vmax_bounds.
  Qed.

  Lemma y_min_sound : forall y, (init < n)%nat -> (forall r, (r < m)%nat -> 0 <= y r) ->
    (forall s, (s < n)%nat -> (if Nat.eqb s init then 1 else 0) <= balance y s) ->
    Vmin init <= to_goal y.
  Proof.
    intros y Hi Hy Hb.
    assert (A : sumn m (fun r => y r * (Vmin (src M r) - sumn n (fun d => prob M r d * Vmin d))) <= to_goal y).
    { apply sumn_le. intros r Hr. apply Rmult_le_compat_l; auto. pose proof (Vmin_onestep r Hr). unfold onestep in H. lra. }
    rewrite <- balance_dual in A. eapply Rle_trans; [|exact A]. rewrite <- (delta_sum Vmin) by auto.
    apply sumn_le. intros s Hs. apply Rmult_le_compat_r; auto. apply Vmin_bounds.
  Qed.
End Rf.
