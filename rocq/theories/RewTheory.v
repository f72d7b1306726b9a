(** Expected rewards of Markov decision processes of the shape of a
    reachability form that leave the transient states almost surely. *)
From Coq Require Import List Arith ZArith Reals Bool Lia Lra.
From Verif Require Import SpecMdp SpecEc SumFacts MdpValue RfTheory SpecReward RewGen.
Import ListNotations.
Local Open Scope R_scope.

Section Rew.
  Variable M : mdp.
  Hypothesis RF : shape_mdp M.
  Let n := (nS M - 2)%nat.
  Let m := (nA M - 2)%nat.
  Let T := is_goal M.
  Let W := RFW M RF.
  Let X (s : nat) : bool := Nat.ltb s n.
  Let Z (s : nat) : bool := Nat.leb n s.

  Definition rstep (rew : nat -> R) (r : nat) (z : nat -> R) : R := rew r + sumn n (fun d => prob M r d * z d).

  Lemma X_iff : forall s, X s = true <-> (s < n)%nat. Proof. intros. apply Nat.ltb_lt. Qed.
  Lemma ex_cut : forall r z, ex M r (cut X z) = sumn n (fun d => prob M r d * z d).
  Proof.
    intros r z. pose proof (RF2 M RF). unfold ex. rewrite sumn_split2 by lia. fold n. rewrite (sumn_ext n _ (fun d => prob M r d * z d)).
    - unfold cut, X. rewrite (proj2 (Nat.ltb_ge n n)), (proj2 (Nat.ltb_ge (nS M - 1) n)) by (unfold n; lia). ring.
    - intros d Hd. unfold cut. rewrite (proj2 (X_iff d)) by auto. auto.
  Qed.
  Lemma gstep_rstep : forall rew r z, gstep M X rew r z = rstep rew r z.
  Proof. intros. unfold gstep, rstep. rewrite ex_cut. auto. Qed.

  Lemma W_ge : forall r d, (r < nA M)%nat -> (d < nS M)%nat -> 0 <= prob M r d.
  Proof. intros. apply (proj1 RF); auto. Qed.
  Lemma rows_lt : forall s r, (s < n)%nat -> (r < nA M)%nat -> src M r = s -> (r < m)%nat.
  Proof. intros s r Hs Hr E. apply (rows_in M RF s Hs r Hr E). Qed.
  Lemma sub_one : forall r, (r < nA M)%nat -> sumn n (prob M r) <= 1.
  Proof.
    intros r Hr. pose proof (RF2 M RF). rewrite <- (proj1 (proj2 (proj2 (proj1 RF))) r Hr). rewrite (sumn_split2 (nS M)) by lia. fold n.
    pose proof (W_ge r (nS M - 2) Hr ltac:(lia)). pose proof (W_ge r (nS M - 1) Hr ltac:(lia)). unfold n. lra.
  Qed.

  Lemma hXT : forall s, X s = true -> T s = false.
  Proof. intros s H. apply (T_in M s). apply X_iff. auto. Qed.
  Lemma hXZ : forall r d, (r < nA M)%nat -> (d < nS M)%nat -> X (src M r) = true -> 0 < prob M r d -> X d = true \/ Z d = true.
  Proof. intros r d _ _ _ _. unfold X, Z. destruct (Nat.ltb_spec d n); auto. right. apply Nat.leb_le. auto. Qed.
  Lemma hZX : forall s, Z s = true -> X s = false.
  Proof. intros s H. apply Nat.leb_le in H. apply Nat.ltb_ge. auto. Qed.
  Lemma hZZ : forall r d, (r < nA M)%nat -> (d < nS M)%nat -> Z (src M r) = true -> T (src M r) = false -> 0 < prob M r d -> Z d = true.
  Proof.
    intros r d Hr Hd HZ HT Hp. apply Nat.leb_le in HZ. pose proof (RF2 M RF). assert (Hs := proj1 (proj1 RF) r Hr).
    destruct (state_cases M RF (src M r) Hs) as [H1|[H1|H1]]; [unfold n in *; lia|unfold T, is_goal in HT; rewrite H1, Nat.eqb_refl in HT; discriminate|].
    assert (r = nA M - 1)%nat by (apply (fail_row M RF); auto). subst r.
    assert (d = fail M) by (apply (one_row M RF (nA M - 1) (fail M)); auto; [apply (fail_lt M RF)|apply RF]). apply Nat.leb_le. unfold fail, n in *. lia.
  Qed.
  Lemma hquiet : forall rew, (forall r, (m <= r)%nat -> rew r = 0) -> quiet M T Z rew.
  Proof.
    intros rew RZ r Hr HZ _. apply RZ. destruct (le_lt_dec m r); auto. exfalso. pose proof (RF_src M RF r l). apply Nat.leb_le in HZ. unfold n in *. lia.
  Qed.

  Variable w : nat -> R.
  Hypothesis W0 : forall s, (s < n)%nat -> 0 <= w s.
  Hypothesis WR : forall r, (r < m)%nat -> 1 <= w (src M r) - sumn n (fun d => prob M r d * w d).
  Variable rew : nat -> R.
  Hypothesis R0 : forall r, (r < m)%nat -> 0 <= rew r.
  Hypothesis RZ : forall r, (m <= r)%nat -> rew r = 0.

  Lemma gW0 : forall s, (s < nS M)%nat -> X s = true -> 0 <= w s.
  Proof. intros s _ H. apply W0. apply X_iff. auto. Qed.
  Lemma gWR : forall r, (r < nA M)%nat -> X (src M r) = true -> 1 <= w (src M r) - ex M r (cut X w).
  Proof. intros r Hr H. rewrite ex_cut. apply WR. apply X_iff in H. eapply rows_lt; eauto. Qed.
  Lemma src_X : forall r, (r < m)%nat -> (r < nA M)%nat /\ X (src M r) = true.
  Proof. intros r Hr. split; [unfold m in *; lia|]. apply X_iff. apply (RF_src M RF). auto. Qed.
  Lemma X_src : forall r, (r < nA M)%nat -> X (src M r) = true -> (r < m)%nat.
  Proof. intros r Hr H. apply X_iff in H. eapply rows_lt; eauto. Qed.
  Lemma n_lt : forall s, (s < n)%nat -> (s < nS M)%nat. Proof. unfold n. intros. lia. Qed.

  Lemma big_w : exists K, 0 <= K /\ forall r, (r < m)%nat -> rstep rew r (fun s => K * w s) <= K * w (src M r).
  Proof.
    destruct (gbig_w M X w gWR rew) as (K & K0 & HK). exists K. split; auto. intros r Hr. destruct (src_X r Hr) as [A B]. rewrite <- gstep_rstep. auto.
  Qed.
  Lemma ExpRew_exists : forall sigma, valid_scheduler M sigma -> forall s, (s < n)%nat -> exists x, ExpRew M T rew sigma s x.
  Proof. intros sigma V s Hs. apply (gExpRew_exists M W T X Z hXT hXZ hZZ w gW0 gWR rew (hquiet rew RZ) sigma V s); [apply n_lt|apply X_iff]; auto. Qed.
  Lemma below_all : forall z, (forall r, (r < m)%nat -> z (src M r) <= rstep rew r z) ->
    forall sigma s x, valid_scheduler M sigma -> (s < n)%nat -> ExpRew M T rew sigma s x -> z s <= x.
  Proof.
    intros z HZ sigma s x V Hs E. apply (gbelow_all M W T X Z hXT hXZ hZX hZZ w gW0 gWR rew (hquiet rew RZ) z) with (sigma := sigma); auto; [|apply n_lt; auto|apply X_iff; auto].
    intros r Hr H. rewrite gstep_rstep. apply HZ. apply X_src; auto.
  Qed.
  Lemma above_all : forall z, (forall s, (s < n)%nat -> 0 <= z s) -> (forall r, (r < m)%nat -> rstep rew r z <= z (src M r)) ->
    forall sigma s x, valid_scheduler M sigma -> (s < n)%nat -> ExpRew M T rew sigma s x -> x <= z s.
  Proof.
    intros z Z0 HZ sigma s x V Hs E. apply (gabove_all M W T X Z hXT hXZ hZZ rew (hquiet rew RZ) z) with (sigma := sigma); auto; [| |apply n_lt; auto|apply X_iff; auto].
    - intros s' _ H. apply Z0. apply X_iff. auto.
    - intros r Hr H. rewrite gstep_rstep. apply HZ. apply X_src; auto.
  Qed.
  Lemma tightg : forall z, (forall s, (s < n)%nat -> exists r, (r < m)%nat /\ src M r = s /\ z s = rstep rew r z) ->
    forall s, (s < nS M)%nat -> X s = true -> exists r, (r < nA M)%nat /\ src M r = s /\ z s = gstep M X rew r z.
  Proof.
    intros z H s _ HX. destruct (H s) as (r & A & B & C); [apply X_iff; auto|]. exists r. rewrite gstep_rstep. split; [unfold m in *; lia|]. auto.
  Qed.
  Lemma tight_attained : forall z, (forall s, (s < n)%nat -> 0 <= z s) ->
    (forall s, (s < n)%nat -> exists r, (r < m)%nat /\ src M r = s /\ z s = rstep rew r z) ->
    exists sigma, valid_scheduler M sigma /\ forall s, (s < n)%nat -> ExpRew M T rew sigma s (z s).
  Proof.
    intros z Z0 TI. destruct (gtight_attained M W T X Z hXT hXZ hZX hZZ w gW0 gWR rew (hquiet rew RZ) z) as (sigma & V & E).
    - intros s' _ H. apply Z0. apply X_iff. auto.
    - apply tightg. auto.
    - exists sigma. split; auto. intros s Hs. apply E; [apply n_lt|apply X_iff]; auto.
  Qed.

  Lemma rew_min_char : forall z, (forall s, (s < n)%nat -> 0 <= z s) -> (forall r, (r < m)%nat -> z (src M r) <= rstep rew r z) ->
    (forall s, (s < n)%nat -> exists r, (r < m)%nat /\ src M r = s /\ z s = rstep rew r z) ->
    forall s, (s < n)%nat -> IsRewMin M T rew s (z s).
  Proof.
    intros z Z0 HZ TI s Hs. split; [intros sigma V; apply ExpRew_exists; auto|]. split.
    - intros x (sigma & V & E). eapply below_all; eauto.
    - intros b Hb. destruct (tight_attained z Z0 TI) as (sigma & V & E). apply Hb. exists sigma. auto.
  Qed.
  Lemma rew_max_char : forall z, (forall s, (s < n)%nat -> 0 <= z s) -> (forall r, (r < m)%nat -> rstep rew r z <= z (src M r)) ->
    (forall s, (s < n)%nat -> exists r, (r < m)%nat /\ src M r = s /\ z s = rstep rew r z) ->
    forall s, (s < n)%nat -> IsRewMax M T rew s (z s).
  Proof.
    intros z Z0 HZ TI s Hs. split; [intros sigma V; apply ExpRew_exists; auto|]. split.
    - intros x (sigma & V & E). eapply above_all; eauto.
    - intros b Hb. destruct (tight_attained z Z0 TI) as (sigma & V & E). apply Hb. exists sigma. auto.
  Qed.

  (** Every feasible vector of the minimisation LP is bounded. *)
  Lemma sub_bounded : forall z, (forall r, (r < m)%nat -> z (src M r) <= rstep rew r z) -> forall K, 0 <= K ->
    (forall r, (r < m)%nat -> rstep rew r (fun s => K * w s) <= K * w (src M r)) -> forall s, (s < n)%nat -> z s <= K * w s.
  Proof.
    intros z HZ K K0 HK s Hs. pose proof (RF2 M RF) as H2.
    destruct (finite_choice (nS M) (fun s r => (r < nA M)%nat /\ src M r = s)) as (c & Hc); [apply (proj2 (proj2 (proj2 (proj1 RF))))|].
    assert (V : valid_scheduler M (det (fun _ => c))) by (apply det_valid; intros _ s' Hs'; apply Hc; auto).
    destruct (ExpRew_exists _ V s Hs) as (x & Hx). apply Rle_trans with x.
    - eapply below_all; eauto.
    - apply (above_all (fun s => K * w s)) with (sigma := det (fun _ => c)); auto. intros s' Hs'. apply Rmult_le_pos; auto.
  Qed.

  (** ** Optimal vectors have tight rows *)
  Definition bump (z : nat -> R) (s : nat) (e : R) (d : nat) : R := if Nat.eqb d s then z d + e else z d.
  Lemma sum_bump : forall k z s e (p : nat -> R), (s < k)%nat -> sumn k (fun d => p d * bump z s e d) = sumn k (fun d => p d * z d) + p s * e.
  Proof.
    intros k z s e p Hs. rewrite (sumn_ext k _ (fun d => p d * z d + (if Nat.eqb d s then p s * e else 0))).
    - rewrite sumn_plus, sumn_indicator; auto.
    - intros d Hd. unfold bump. destruct (Nat.eqb_spec d s) as [->|]; ring.
  Qed.
  Lemma sum_bump1 : forall k z s e, (s < k)%nat -> sumn k (bump z s e) = sumn k z + e.
  Proof.
    intros k z s e Hs. rewrite (sumn_ext k _ (fun d => 1 * bump z s e d)) by (intros; ring). rewrite sum_bump by auto. rewrite (sumn_ext k (fun d => 1 * z d) z) by (intros; ring). ring.
  Qed.
  Lemma rstep_bump : forall r z s e, (s < n)%nat -> rstep rew r (bump z s e) = rstep rew r z + prob M r s * e.
  Proof. intros. unfold rstep. rewrite sum_bump by auto. ring. Qed.

  Lemma slack : forall k (P : nat -> Prop) (f : nat -> R), (forall r, (r < k)%nat -> P r \/ ~ P r) -> (forall r, (r < k)%nat -> P r -> 0 < f r) ->
    exists e, 0 < e /\ forall r, (r < k)%nat -> P r -> e <= f r.
  Proof.
    intros k P f PD. induction k; intros H; [exists 1; split; [lra|intros; lia]|].
    destruct IHk as (e & E0 & HE); [intros; apply PD; lia|intros; apply H; auto; lia|]. destruct (PD k ltac:(lia)) as [Pk|Pk].
    - exists (Rmin e (f k)). split; [apply Rmin_pos; auto|]. intros r Hr HP. destruct (Nat.eq_dec r k) as [->|]; [apply Rmin_r|].
      eapply Rle_trans; [apply Rmin_l|]. apply HE; auto. lia.
    - exists e. split; auto. intros r Hr HP. destruct (Nat.eq_dec r k) as [->|]; [tauto|]. apply HE; auto. lia.
  Qed.

  Lemma p01 : forall r s, (r < m)%nat -> (s < n)%nat -> 0 <= prob M r s <= 1.
  Proof.
    intros r s Hr Hs. pose proof (RF2 M RF). assert (Hr' : (r < nA M)%nat) by (unfold m in *; lia). split; [apply W_ge; unfold n in *; lia|].
    eapply Rle_trans; [|apply (sub_one r Hr')]. apply (sumn_term_le n s (prob M r) Hs). intros; apply W_ge; unfold n in *; lia.
  Qed.

  Lemma max_tight : forall z, (forall r, (r < m)%nat -> z (src M r) <= rstep rew r z) ->
    (forall z', (forall r, (r < m)%nat -> z' (src M r) <= rstep rew r z') -> (forall s, (s < n)%nat -> z s <= z' s) -> sumn n z' <= sumn n z) ->
    forall s, (s < n)%nat -> exists r, (r < m)%nat /\ src M r = s /\ z s = rstep rew r z.
  Proof.
    intros z HZ OPT s Hs. apply Classical_Prop.NNPP. intros NE.
    destruct (slack m (fun r => src M r = s) (fun r => rstep rew r z - z (src M r))) as (e & E0 & HE).
    { intros r _. destruct (Nat.eq_dec (src M r) s); auto. }
    { intros r Hr E. specialize (HZ r Hr). destruct (Req_dec (z (src M r)) (rstep rew r z)) as [Q|Q]; [|lra]. exfalso. apply NE. exists r. rewrite <- E. auto. }
    specialize (OPT (bump z s e)). rewrite sum_bump1 in OPT by auto.
    assert (sumn n z + e <= sumn n z); [|lra]. apply OPT.
    - intros r Hr. rewrite rstep_bump by auto. pose proof (p01 r s Hr Hs) as [Pa Pb]. unfold bump. destruct (Nat.eqb_spec (src M r) s) as [E|E].
      + specialize (HE r Hr E). assert (0 <= prob M r s * e) by (apply Rmult_le_pos; lra). lra.
      + specialize (HZ r Hr). assert (0 <= prob M r s * e) by (apply Rmult_le_pos; lra). lra.
    - intros d Hd. unfold bump. destruct (Nat.eqb d s); lra.
  Qed.

  Lemma min_tight : forall z, (forall s, (s < n)%nat -> 0 <= z s) -> (forall r, (r < m)%nat -> rstep rew r z <= z (src M r)) ->
    (forall z', (forall s, (s < n)%nat -> 0 <= z' s) -> (forall r, (r < m)%nat -> rstep rew r z' <= z' (src M r)) -> sumn n z <= sumn n z') ->
    forall s, (s < n)%nat -> exists r, (r < m)%nat /\ src M r = s /\ z s = rstep rew r z.
  Proof.
    intros z Z0 HZ OPT s Hs. apply Classical_Prop.NNPP. intros NE.
    assert (LT : forall r, (r < m)%nat -> src M r = s -> rstep rew r z < z s).
    { intros r Hr E. specialize (HZ r Hr). rewrite E in HZ. destruct (Req_dec (z s) (rstep rew r z)) as [Q|Q]; [|lra]. exfalso. apply NE. exists r. auto. }
    assert (ZP : 0 < z s).
    { destruct (proj2 (proj2 (proj2 (proj1 RF))) s) as (r & Hr & E); [unfold n in *; lia|]. assert (Hr' : (r < m)%nat) by (apply (rows_lt s); auto).
      apply Rle_lt_trans with (rstep rew r z); [|apply LT; auto]. unfold rstep. specialize (R0 r Hr').
      assert (0 <= sumn n (fun d => prob M r d * z d)); [|lra]. apply sumn_nonneg. intros d Hd. apply Rmult_le_pos; auto. apply W_ge; unfold n in *; lia. }
    destruct (slack m (fun r => src M r = s) (fun r => z (src M r) - rstep rew r z)) as (e0 & E00 & HE0).
    { intros r _. destruct (Nat.eq_dec (src M r) s); auto. }
    { intros r Hr E. specialize (LT r Hr E). rewrite E. lra. }
    set (e := Rmin e0 (z s)). assert (E0 : 0 < e) by (apply Rmin_pos; auto). assert (EZ : e <= z s) by apply Rmin_r.
    assert (HE : forall r, (r < m)%nat -> src M r = s -> e <= z (src M r) - rstep rew r z) by (intros; eapply Rle_trans; [apply Rmin_l|auto]).
    specialize (OPT (bump z s (- e))). rewrite sum_bump1 in OPT by auto.
    assert (sumn n z <= sumn n z + - e); [|lra]. apply OPT.
    - intros d Hd. unfold bump. destruct (Nat.eqb_spec d s) as [->|]; [lra|auto].
    - intros r Hr. rewrite rstep_bump by auto. pose proof (p01 r s Hr Hs) as [Pa Pb]. assert (0 <= prob M r s * e) by (apply Rmult_le_pos; lra). unfold bump. destruct (Nat.eqb_spec (src M r) s) as [E|E].
      + specialize (HE r Hr E). lra.
      + specialize (HZ r Hr). lra.
  Qed.
End Rew.
