(** Theory of certificates that satisfy their constraints up to a tolerance:
    the bound they give is off by a multiple of the tolerance. *)
From Coq Require Import List Arith Reals Lra Lia Classical.
From Verif Require Import SpecMdp SccSpec SpecEc SumFacts MdpValue RfTheory.
Import ListNotations.
Local Open Scope R_scope.

Lemma bool_of : forall n (P : nat -> Prop), exists T : nat -> bool, forall s, (s < n)%nat -> (T s = true <-> P s).
Proof.
  intros n P. induction n as [|n (T & IH)]. { exists (fun _ => true). intros; lia. }
  destruct (classic (P n)) as [H|H].
  - exists (fun s => if Nat.eqb s n then true else T s). intros s Hs. destruct (Nat.eqb_spec s n) as [->|E]; [tauto|]. apply IH. lia.
  - exists (fun s => if Nat.eqb s n then false else T s). intros s Hs. destruct (Nat.eqb_spec s n) as [->|E]; [split; [discriminate|tauto]|]. apply IH. lia.
Qed.

(** If every end component meets [T], the time before [T] is bounded in
    expectation, whatever is chosen. *)
Lemma potential : forall M, wf_mdp M -> forall T : nat -> bool, (forall X B, mdp_ec M X B -> exists s, X s /\ T s = true) ->
  exists u, (forall s, 0 <= u s) /\ (forall s, T s = true -> u s = 0) /\
    forall r, (r < nA M)%nat -> T (src M r) = false -> 1 + ex M r u <= u (src M r).
Proof.
  intros M W T HEC.
  assert (V1 : forall s, (s < nS M)%nat -> 1 <= Vmin M W T s).
  { apply (Vmin_greatest M W T (fun _ => 1)).
    - intros; lra.
    - intros r Hr _. rewrite (ex_const M W) by auto. lra.
    - intros X B HX HT. destruct (HEC X B HX) as (s & Xs & Ts). rewrite (HT s Xs) in Ts. discriminate. }
  destruct (unif (fun n s => vmin M T n s) (fun s => Vmin M W T s) (vmin_mono M W T) (Vmin_lub M W T) (nS M) (1 / 2)) as (k & Hk); [lra|].
  set (g := fun j s => 1 - vmin M T j s).
  assert (G : forall j s, 0 <= g j s <= 1) by (intros j s; unfold g; pose proof (vmin_bounds M W T j s); lra).
  exists (fun s => 2 * sumn (S k) (fun j => g j s)). split; [|split].
  - intros s. apply Rmult_le_pos; [lra|]. apply sumn_nonneg. intros; apply G.
  - intros s Hs. rewrite sumn_zero; [lra|]. intros j _. unfold g. rewrite vmin_T; auto. lra.
  - intros r Hr HT. set (s := src M r) in *.
    assert (G0 : g O s = 1) by (unfold g; simpl; rewrite HT; lra).
    assert (GS : forall j, ex M r (g j) <= g (S j) s).
    { intros j. unfold g at 2. cbn [vmin]. rewrite HT. pose proof (minr_le M s (fun r => ex M r (vmin M T j)) (nA M) r Hr eq_refl).
      unfold g. rewrite (ex_minus M r (fun _ => 1) (vmin M T j)). rewrite (ex_const M W) by auto. cbv beta in H. lra. }
    assert (SW : forall m, ex M r (fun d => sumn m (fun j => g j d)) = sumn m (fun j => ex M r (g j))).
    { intros m. unfold ex. rewrite (sumn_ext (nS M) _ (fun d => sumn m (fun j => prob M r d * g j d))) by (intros; rewrite sumn_scal; auto). apply sumn_swap. }
    rewrite ex_scal, SW. cbn [sumn].
    assert (K : ex M r (g k) <= 1 / 2).
    { apply (ex_bounds M W r (g k) 0 (1 / 2)); auto. intros d Hd. specialize (G k d). unfold g in *. specialize (Hk d Hd). specialize (V1 d Hd). cbv beta in Hk. lra. }
    assert (SS : sumn k (fun j => ex M r (g j)) + 1 <= sumn k (fun j => g j s) + g k s).
    { change (sumn k (fun j => g j s) + g k s) with (sumn (S k) (fun j => g j s)).
      assert (H : forall f m, sumn (S m) f = f O + sumn m (fun j => f (S j))).
      { intros f m. induction m as [|m IH]; [simpl; lra|]. change (sumn (S (S m)) f) with (sumn (S m) f + f (S m)). rewrite IH. simpl. lra. }
      rewrite H. rewrite G0. assert (sumn k (fun j => ex M r (g j)) <= sumn k (fun j => g (S j) s)) by (apply sumn_le; intros; apply GS). lra. }
    lra.
Qed.

(** A function that grows in expectation before [T] is at most zero if it is on
    [T]. *)
Lemma no_growth : forall M, wf_mdp M -> forall T : nat -> bool, (forall X B, mdp_ec M X B -> exists s, X s /\ T s = true) ->
  forall w, (forall s, (s < nS M)%nat -> T s = true -> w s <= 0) -> (forall r, (r < nA M)%nat -> T (src M r) = false -> w (src M r) <= ex M r w) ->
  forall s, (s < nS M)%nat -> w s <= 0.
Proof.
  intros M W T HEC w HT Hw s Hs. apply Rnot_lt_le. intros Hlt.
  assert (H : (2 / w s) * w s <= Vmin M W T s).
  { assert (L : 0 < 2 / w s) by (apply Rdiv_lt_0_compat; lra).
    apply (Vmin_greatest M W T (fun x => (2 / w s) * w x)); auto.
    - intros x Hx Tx. specialize (HT x Hx Tx). apply Rle_trans with 0; [|lra]. rewrite <- (Rmult_0_r (2 / w s)). apply Rmult_le_compat_l; lra.
    - intros r Hr Tr. rewrite ex_scal. apply Rmult_le_compat_l; [lra|]. apply Hw; auto.
    - intros X B HX H. destruct (HEC X B HX) as (x & Xx & Tx). rewrite (H x Xx) in Tx. discriminate. }
  pose proof (Vmin_bounds M W T s). replace (2 / w s * w s) with 2 in H by (field; lra). lra.
Qed.

Lemma sumn_const : forall n c, sumn n (fun _ => c) = INR n * c.
Proof. intros n c. induction n as [|n IH]; [simpl; lra|]. rewrite S_INR. cbn [sumn]. rewrite IH. lra. Qed.
Lemma least : forall P : nat -> Prop, (exists j, P j) -> exists j, P j /\ forall j', (j' < j)%nat -> ~ P j'.
Proof.
  intros P (j & H). revert H. induction j as [j IH] using lt_wf_ind. intros H.
  destruct (classic (exists j', (j' < j)%nat /\ P j')) as [(j' & A & B)|N]; [eapply IH; eauto|].
  exists j. split; auto. intros j' L X. apply N. eauto.
Qed.
Lemma least_slack : forall k (f : nat -> R) (P : nat -> Prop), (forall r, (r < k)%nat -> P r -> 0 < f r) -> exists e, 0 < e /\ forall r, (r < k)%nat -> P r -> e <= f r.
Proof.
  intros k f P. induction k as [|k IH]; intros H. { exists 1. split; [lra|]. intros; lia. }
  destruct IH as (e & E1 & E2); [intros; apply H; auto|]. destruct (classic (P k)) as [Pk|Pk].
  - exists (Rmin e (f k)). split; [apply Rmin_glb_lt; auto|]. intros r Hr Pr. destruct (Nat.eq_dec r k) as [->|N]; [apply Rmin_r|]. eapply Rle_trans; [apply Rmin_l|]. apply E2; auto. lia.
  - exists e. split; auto. intros r Hr Pr. destruct (Nat.eq_dec r k) as [->|N]; [contradiction|]. apply E2; auto. lia.
Qed.

Section Tol.
  Variable M : mdp.
  Variable init : nat.
  Hypothesis RF : shape_mdp M.
  Let W := RFW M RF.
  Let T := is_goal M.
  Let Vmin := Vmin M W T.
  Let Vmax := Vmax M W T.
  Let n := (nS M - 2)%nat.
  Let m := (nA M - 2)%nat.
  Let onestep := onestep M.

  Lemma VG : Vmax (goal M) = 1. Proof. exact (Vmax_goal M RF). Qed.
  Lemma VF : Vmax (fail M) = 0. Proof. exact (Vmax_fail M RF). Qed.
  Lemma one_le : forall r u v, (r < nA M)%nat -> (forall d, (d < n)%nat -> u d <= v d) -> onestep r u <= onestep r v.
  Proof.
    intros r u v Hr H. unfold onestep, RfTheory.onestep. apply Rplus_le_compat_r. apply sumn_le. intros d Hd. apply Rmult_le_compat_l; [apply (W_pos M W); [auto|unfold n in *; pose proof (RF2 M RF); lia]|auto].
  Qed.
  Lemma one_nonneg : forall r u, (r < nA M)%nat -> (forall d, (d < n)%nat -> 0 <= u d) -> 0 <= onestep r u.
  Proof.
    intros r u Hr H. unfold onestep, RfTheory.onestep. apply Rplus_le_le_0_compat.
    - apply sumn_nonneg. intros d Hd. apply Rmult_le_pos; [apply (W_pos M W); [auto|unfold n in *; pose proof (RF2 M RF); lia]|auto].
    - apply (W_pos M W); auto. apply goal_lt; auto.
  Qed.
  Lemma one_minus : forall r u v t, onestep r (fun d => u d - t * v d) = onestep r u - t * sumn n (fun d => prob M r d * v d).
  Proof.
    intros r u v t. unfold onestep, RfTheory.onestep. fold n. rewrite <- sumn_scal.
    replace (sumn n (fun d => prob M r d * u d) + prob M r (goal M) - sumn n (fun d => t * (prob M r d * v d)))
      with (sumn n (fun d => prob M r d * u d) - sumn n (fun d => t * (prob M r d * v d)) + prob M r (goal M)) by lra.
    rewrite <- sumn_minus. f_equal. apply sumn_ext. intros; lra.
  Qed.
  Lemma inner_sum : forall r u, u (goal M) = 0 -> u (fail M) = 0 -> ex M r u = sumn n (fun d => prob M r d * u d).
  Proof.
    intros r u G F. unfold ex. rewrite sumn_split2 by apply (RF2 M RF). unfold goal in G. unfold fail in F. rewrite G, F. unfold n. lra.
  Qed.

  (** ** Certificates for Pr-min from below *)
  Lemma z_min_tol : exists K, 0 <= K /\ forall z tol, 0 <= tol -> (forall r, (r < m)%nat -> z (src M r) <= onestep r z + tol) ->
    (forall s, (s < n)%nat -> in_ec M s -> z s <= 0) -> forall s, (s < n)%nat -> z s <= Vmin s + K * tol.
  Proof.
    pose proof (RF2 M RF) as [N2 A2].
    destruct (bool_of (nS M) (fun s => in_ec M s \/ (n <= s)%nat)) as (S & HS).
    destruct (potential M W S) as (u & U0 & UT & U).
    { intros X B HX. destruct (proj1 HX) as (s & Xs). exists s. split; auto. apply HS.
      - destruct HX as (_ & H2 & H3 & _). destruct (H2 s Xs) as (a & Ha). destruct (H3 s a Ha) as (_ & (d & B1 & B2 & _) & _). rewrite <- B2. apply (W_src M W); auto.
      - left. exists X, B. auto. }
    exists (sumn n u). split; [apply sumn_nonneg; auto|]. intros z tol HT Hz HE s Hs.
    set (z' := fun d => Rmax 0 (z d - tol * u d)).
    assert (Z : z' s <= Vmin s).
    { apply (z_min_sound M RF z'); auto.
      - intros r Hr. assert (Hr' : (r < nA M)%nat) by (unfold m in *; lia). pose proof (RF_src M RF r Hr) as Hsrc.
        assert (NN : 0 <= RfTheory.onestep M r z') by (apply (one_nonneg r z'); [auto|intros; apply Rmax_l]).
        destruct (S (src M r)) eqn:ES.
        + assert (E : in_ec M (src M r)). { destruct (proj1 (HS (src M r) ltac:(lia)) ES); auto. unfold n in *; lia. }
          unfold z'. rewrite (UT _ ES). specialize (HE (src M r) ltac:(unfold n; lia) E). rewrite Rmax_left; [exact NN|lra].
        + unfold z' at 1. apply Rmax_lub; [exact NN|].
          specialize (U r Hr' ES). rewrite inner_sum in U by (apply UT; apply HS; [unfold goal, fail; lia|right; unfold goal, fail, n; lia]).
          specialize (Hz r Hr). apply Rle_trans with (onestep r (fun d => z d - tol * u d)).
          * rewrite one_minus. assert (tol * (1 + sumn n (fun d => prob M r d * u d)) <= tol * u (src M r)) by (apply Rmult_le_compat_l; auto). lra.
          * apply one_le; auto. intros; apply Rmax_r.
      - intros t Ht Et. unfold z'. rewrite UT; [|apply HS; [unfold n in *; lia|auto]]. rewrite Rmax_left; [lra|]. specialize (HE t Ht Et). lra. }
    assert (z s - tol * u s <= z' s) by apply Rmax_r.
    assert (u s <= sumn n u) by (apply sumn_term_le; auto).
    assert (tol * u s <= tol * sumn n u) by (apply Rmult_le_compat_l; auto). lra.
  Qed.

  (** ** Certificates for Pr-max from above *)
  Hypothesis REACH : forall s, (s < nS M)%nat -> s <> fail M -> rtc (medge M) s (goal M).

  Lemma Vmax_pos : forall s, (s < n)%nat -> 0 < Vmax s.
  Proof.
    intros s Hs. pose proof (RF2 M RF) as [N2 A2]. pose proof (Vmax_bounds M W T s) as B. fold Vmax in B.
    destruct (Req_dec (Vmax s) 0) as [E|]; [|unfold Vmax in *; lra]. exfalso.
    assert (G : (goal M < nS M)%nat /\ Vmax (goal M) = 0).
    { apply (rtc_inv_closed _ (medge M) (fun x => (x < nS M)%nat /\ Vmax x = 0) s (goal M)); [|apply REACH; unfold n, fail in *; lia|split; [unfold n in *; lia|exact E]].
      intros a b [Ha Va] (r & A1 & A3 & A4 & A5). split; auto.
      assert (TF : T a = false). { destruct (T a) eqn:X; auto. unfold Vmax in Va. rewrite (Vmax_T M W T a X) in Va. lra. }
      assert (L : ex M r Vmax <= 0). { rewrite <- Va. rewrite <- A3. apply (Vmax_ge_ex M W T r A1). rewrite A3. exact TF. }
      assert (Z : ex M r Vmax = 0). { apply Rle_antisym; auto. apply sumn_nonneg. intros d Hd. apply Rmult_le_pos; [apply (W_pos M W); auto|apply (Vmax_bounds M W T d)]. }
      assert (P : prob M r b * Vmax b = 0). { apply (sumn_nonneg_zero (nS M) (fun d => prob M r d * Vmax d)); auto. intros d Hd. apply Rmult_le_pos; [apply (W_pos M W); auto|apply (Vmax_bounds M W T d)]. }
      apply Rmult_integral in P. destruct P as [P|P]; [lra|exact P]. }
    destruct G as [_ G]. rewrite VG in G. lra.
  Qed.

  Definition opt (r : nat) : Prop := (r < m)%nat /\ Vmax (src M r) = onestep r Vmax.
  Definition oedge (s d : nat) : Prop := exists r, opt r /\ src M r = s /\ (d < nS M)%nat /\ 0 < prob M r d.

  Lemma onestep_ex : forall r, onestep r Vmax = ex M r Vmax.
  Proof.
    intros r. unfold onestep. rewrite <- (ex_ext_vec M RF). unfold ex. apply sumn_ext. intros d Hd. f_equal. apply (ext_id M RF); auto; [apply VG|apply VF].
  Qed.

  Lemma opt_reach : forall s, (s < n)%nat -> rtc oedge s (goal M).
  Proof.
    intros s0 Hs0. pose proof (RF2 M RF) as [N2 A2]. apply NNPP. intros Hno.
    set (bad := fun x => (x < n)%nat /\ ~ rtc oedge x (goal M)).
    destruct (bool_of n bad) as (b & Hb).
    destruct (exists_max n (fun x => if b x then Vmax x else - 1)) as (k & Hk & Hmax); [lia|].
    assert (B0 : b s0 = true) by (apply Hb; auto; split; auto).
    assert (Bk : b k = true). { cbv beta in Hmax. destruct (b k) eqn:E; auto. specialize (Hmax s0 Hs0). cbv beta in Hmax. rewrite B0 in Hmax. pose proof (Vmax_bounds M W T s0). unfold Vmax in Hmax. lra. }
    assert (KM : forall x, bad x -> Vmax x <= Vmax k). { intros x X. specialize (Hmax x (proj1 X)). cbv beta in Hmax. rewrite Bk in Hmax. rewrite (proj2 (Hb x (proj1 X)) X) in Hmax. exact Hmax. }
    apply Hb in Bk; [|exact Hk]. pose proof (Vmax_pos k Hk) as KP.
    set (X0 := fun x => bad x /\ Vmax x = Vmax k).
    assert (CL : forall r d, opt r -> X0 (src M r) -> (d < nS M)%nat -> 0 < prob M r d -> X0 d).
    { intros r d O [XB XV] Hd Hp. destruct O as [Hr Or] eqn:EO. clear EO.
      assert (Hr' : (r < nA M)%nat) by (unfold m in *; lia).
      assert (C : forall d, (d < nS M)%nat -> 0 < prob M r d -> Vmax d <= Vmax k).
      { intros e He Pe. destruct (state_cases M RF e He) as [H1|[->| ->]]; [auto| |].
        - apply KM. split; [exact H1|]. intros R. apply (proj2 XB). econstructor; [|exact R]. exists r. split; [split; [exact Hr|exact Or]|auto].
        - exfalso. apply (proj2 XB). apply rtc_one. exists r. split; [split; [exact Hr|exact Or]|auto].
        - rewrite VF. lra. }
      assert (V : Vmax d = Vmax k).
      { apply (convex_eq_max (nS M) (prob M r) Vmax (Vmax k)); auto.
        - intros i Hi. apply (W_pos M W); auto.
        - apply (W_sum M W); auto.
        - change (Vmax k <= ex M r Vmax). rewrite <- onestep_ex, <- Or, XV. lra. }
      split; [|exact V]. destruct (state_cases M RF d Hd) as [H1|[->| ->]]; [auto| |].
      - split; [exact H1|]. intros R. apply (proj2 XB). econstructor; [|exact R]. exists r. split; [split; [exact Hr|exact Or]|auto].
      - exfalso. apply (proj2 XB). apply rtc_one. exists r. split; [split; [exact Hr|exact Or]|auto].
      - exfalso. rewrite VF in V. lra. }
    destruct (least_slack m (fun r => Vmax (src M r) - onestep r Vmax) (fun r => ~ opt r)) as (e & E1 & E2).
    { intros r Hr No. pose proof (Vmax_onestep M RF r Hr) as L. fold T W Vmax onestep in L. destruct (Req_dec (Vmax (src M r)) (onestep r Vmax)) as [E|E]; [exfalso; apply No; split; auto|]. unfold onestep, Vmax in *. lra. }
    destruct (bool_of (nS M) X0) as (b0 & Hb0).
    set (z := fun x => if b0 x then Vmax x - e else Vmax x).
    assert (ZV : forall x, z x <= Vmax x) by (intros x; unfold z; destruct (b0 x); lra).
    assert (ZS : Vmax k <= z k).
    { apply (z_max_sound M RF REACH z); auto. intros r Hr. assert (Hr' : (r < nA M)%nat) by (unfold m in *; lia). pose proof (RF_src M RF r Hr) as Hsrc.
      assert (ZO : RfTheory.onestep M r z <= onestep r Vmax) by (apply one_le; auto).
      pose proof (Vmax_onestep M RF r Hr) as L. fold T W Vmax onestep in L.
      destruct (b0 (src M r)) eqn:EB.
      - unfold z at 2. rewrite EB. apply Hb0 in EB; [|lia]. destruct (classic (opt r)) as [O|No].
        + assert (Q : RfTheory.onestep M r z = onestep r Vmax - e); [|rewrite Q; destruct O as [_ O]; rewrite O; lra].
          rewrite onestep_ex. rewrite <- (ex_ext_vec M RF). rewrite <- (ex_const M W r e Hr'). rewrite <- ex_minus. unfold ex. apply sumn_ext. intros d Hd.
          destruct (Req_dec (prob M r d) 0) as [P0|P0]; [rewrite P0; lra|]. f_equal. assert (Hp : 0 < prob M r d) by (pose proof (W_pos M W r d Hr' Hd); lra).
          pose proof (CL r d O EB Hd Hp) as Xd. rewrite ext_in by (apply Xd). unfold z. rewrite (proj2 (Hb0 d Hd) Xd). reflexivity.
        + specialize (E2 r Hr No). cbv beta in E2. lra.
      - unfold z at 2. rewrite EB. unfold onestep, Vmax in *. lra. }
    unfold z in ZS. rewrite (proj2 (Hb0 k ltac:(lia))) in ZS; [lra|]. split; auto.
  Qed.

  (** Steps to the goal with optimal rows. *)
  Fixpoint within (j : nat) (x : nat) : Prop :=
    match j with O => x = goal M | S j => exists d, oedge x d /\ within j d end.
  Lemma within_ex : forall x, rtc oedge x (goal M) -> exists j, within j x.
  Proof.
    clear REACH. intros x H. remember (goal M) as g. induction H as [x|x y z E R IH]; [exists O; exact Heqg|]. destruct (IH Heqg) as (j & J). exists (S j). exists y. auto.
  Qed.

  Lemma z_max_tol : exists K, 0 <= K /\ forall z tol, 0 <= tol -> (forall r, (r < m)%nat -> onestep r z <= z (src M r) + tol) ->
    forall s, (s < n)%nat -> Vmax s <= z s + K * tol.
  Proof.
    pose proof (RF2 M RF) as [N2 A2].
    destruct (finite_choice n (fun s r => opt r /\ src M r = s /\ exists d j, (d < nS M)%nat /\ 0 < prob M r d /\ within j d /\ forall j', (j' <= j)%nat -> ~ within j' s)) as (c & Hc).
    { intros s Hs. destruct (least _ (within_ex s (opt_reach s Hs))) as (j & J & JL). destruct j as [|j].
      - cbn in J. unfold goal, n in *. lia.
      - destruct J as (d & (r & O & E & Hd & Hp) & Wd). exists r. split; auto. split; auto. exists d, j. repeat (split; auto). intros j' L. apply JL. lia. }
    set (c' := fun s => if Nat.ltb s n then c s else if Nat.eqb s (goal M) then (nA M - 2)%nat else (nA M - 1)%nat).
    assert (C1 : forall s, (s < n)%nat -> c' s = c s) by (intros s Hs; unfold c'; apply Nat.ltb_lt in Hs; rewrite Hs; auto).
    assert (CB : forall s, (s < nS M)%nat -> (c' s < nA M)%nat).
    { intros s Hs. unfold c'. destruct (Nat.ltb_spec s n) as [L|L]; [destruct (Hc s L) as ((H1 & _) & _); unfold m in *; lia|]. destruct (s =? goal M); lia. }
    set (Mc := MkMdp (nS M) (nS M) (fun r => r) (fun r => prob M (c' r))).
    assert (WC : wf_mdp Mc).
    { split; [|split; [|split]]; cbn [Mc nS nA src prob]; auto.
      - intros r d Hr Hd. apply (W_pos M W); auto.
      - intros r Hr. apply (W_sum M W); auto.
      - intros s Hs. exists s. auto. }
    set (S := fun s => Nat.leb n s).
    assert (EC : forall X B, mdp_ec Mc X B -> exists s, X s /\ S s = true).
    { intros X B (X1 & X2 & X3 & _). apply NNPP. intros No.
      assert (IN : forall s, X s -> (s < n)%nat). { intros s Xs. destruct (Nat.leb_spec n s) as [L|L]; auto. exfalso. apply No. exists s. split; auto. apply Nat.leb_le; auto. }
      assert (ND : forall j s, X s -> ~ within j s).
      { induction j as [j IH] using lt_wf_ind. intros s Xs Wj. pose proof (IN s Xs) as Hs. destruct (Hc s Hs) as (O & E & d & j' & Hd & Hp & Wd & NW).
        assert (j' < j)%nat. { destruct (Nat.le_gt_cases j j') as [L|L]; auto. exfalso. apply (NW j L Wj). }
        apply (IH j' H d); auto. destruct (X2 s Xs) as (a & Ba). destruct (X3 s a Ba) as (_ & (e & _ & Ea & _) & CLO). cbn [Mc src] in Ea. subst a.
        apply CLO. split; [cbn [Mc nA]; unfold n in *; lia|]. split; [reflexivity|]. split; [exact Hd|]. cbn [Mc prob]. rewrite C1 by auto. exact Hp. }
      destruct X1 as (s & Xs). destruct (within_ex s (opt_reach s (IN s Xs))) as (j & J). apply (ND j s Xs J). }
    destruct (potential Mc WC S EC) as (u & U0 & UT & U).
    exists (sumn n u). split; [apply sumn_nonneg; auto|]. intros z tol HT Hz s Hs.
    set (w := fun d => if S d then 0 else Vmax d - z d - tol * u d).
    assert (WI : forall d, (d < n)%nat -> w d = Vmax d - z d - tol * u d). { intros d Hd. unfold w, S. destruct (Nat.leb_spec n d); [lia|auto]. }
    assert (SG : S (goal M) = true /\ S (fail M) = true) by (unfold S, goal, fail, n; split; apply Nat.leb_le; lia).
    assert (NG : w s <= 0).
    { apply (no_growth Mc WC S EC w).
      - intros d _ Hd. unfold w. rewrite Hd. lra.
      - cbn [Mc nA src]. intros r Hr Sr. assert (Hrn : (r < n)%nat). { unfold S in Sr. apply Nat.leb_gt in Sr. exact Sr. }
        destruct (Hc r Hrn) as ((O1 & O2) & E & _). rewrite E in O2.
        assert (EX : forall f, f (goal M) = 0 -> f (fail M) = 0 -> ex Mc r f = sumn n (fun d => prob M (c r) d * f d)).
        { intros f F1 F2. change (ex Mc r f) with (ex M (c' r) f). rewrite C1 by auto. apply inner_sum; auto. }
        specialize (U r Hr Sr). cbn [Mc src] in U. rewrite EX in U by (apply UT; apply SG).
        rewrite EX by (unfold w; first [rewrite (proj1 SG); reflexivity|rewrite (proj2 SG); reflexivity]).
        rewrite (sumn_ext n _ (fun d => prob M (c r) d * (Vmax d - z d) - tol * (prob M (c r) d * u d))) by (intros d Hd; rewrite WI by auto; lra).
        rewrite sumn_minus, sumn_scal.
        rewrite (sumn_ext n (fun d => prob M (c r) d * (Vmax d - z d)) (fun d => prob M (c r) d * Vmax d - prob M (c r) d * z d)) by (intros; lra). rewrite sumn_minus.
        rewrite WI by auto. specialize (Hz (c r) O1). rewrite E in Hz. unfold onestep, RfTheory.onestep in Hz, O2. fold n in Hz, O2.
        assert (tol * (1 + sumn n (fun d => prob M (c r) d * u d)) <= tol * u r) by (apply Rmult_le_compat_l; auto). lra.
      - cbn [Mc nS]. unfold n in *; lia. }
    rewrite WI in NG by auto.
    assert (u s <= sumn n u) by (apply sumn_term_le; auto).
    assert (tol * u s <= tol * sumn n u) by (apply Rmult_le_compat_l; auto). lra.
  Qed.

  (** ** Weak duality with a tolerance *)
  Lemma y_max_tol : forall y tol, 0 <= tol -> (init < n)%nat -> (forall r, (r < m)%nat -> 0 <= y r) ->
    (forall s, (s < n)%nat -> balance M y s <= (if Nat.eqb s init then 1 else 0) + tol) -> to_goal M y <= Vmax init + INR n * tol.
  Proof.
    intros y tol HT Hi Hy Hb.
    assert (A : to_goal M y <= sumn m (fun r => y r * (Vmax (src M r) - sumn n (fun d => prob M r d * Vmax d)))).
    { apply sumn_le. intros r Hr. apply Rmult_le_compat_l; auto. pose proof (Vmax_onestep M RF r Hr). unfold RfTheory.onestep in H. unfold Vmax, n in *. fold T in H. fold W in H. lra. }
    unfold m, n in A. rewrite <- (balance_dual M RF) in A. fold n in A. eapply Rle_trans; [exact A|]. rewrite <- (delta_sum M init Vmax) by auto. fold n.
    rewrite <- (sumn_const n tol). rewrite <- sumn_plus. apply sumn_le. intros s Hs. pose proof (Vmax_bounds M W T s) as B. fold Vmax in B. specialize (Hb s Hs).
    apply Rle_trans with (((if Nat.eqb s init then 1 else 0) + tol) * Vmax s); [apply Rmult_le_compat_r; [apply B|auto]|]. rewrite Rmult_plus_distr_r. apply Rplus_le_compat_l. rewrite <- (Rmult_1_r tol) at 2. apply Rmult_le_compat_l; [auto|apply B].
  Qed.
  Lemma y_min_tol : forall y tol, 0 <= tol -> (init < n)%nat -> (forall r, (r < m)%nat -> 0 <= y r) ->
    (forall s, (s < n)%nat -> (if Nat.eqb s init then 1 else 0) <= balance M y s + tol) -> Vmin init <= to_goal M y + INR n * tol.
  Proof.
    intros y tol HT Hi Hy Hb.
    assert (A : sumn m (fun r => y r * (Vmin (src M r) - sumn n (fun d => prob M r d * Vmin d))) <= to_goal M y).
    { apply sumn_le. intros r Hr. apply Rmult_le_compat_l; auto. pose proof (Vmin_onestep M RF r Hr). unfold RfTheory.onestep in H. unfold Vmin, n in *. fold T in H. fold W in H. lra. }
    unfold m, n in A. rewrite <- (balance_dual M RF) in A. fold n in A. apply Rle_trans with (sumn n (fun s => balance M y s * Vmin s) + INR n * tol); [|lra]. rewrite <- (delta_sum M init Vmin) by auto. fold n.
    rewrite <- (sumn_const n tol). rewrite <- sumn_plus. apply sumn_le. intros s Hs. pose proof (Vmin_bounds M W T s) as B. fold Vmin in B. specialize (Hb s Hs).
    apply Rle_trans with ((balance M y s + tol) * Vmin s); [apply Rmult_le_compat_r; [apply B|auto]|]. rewrite Rmult_plus_distr_r. apply Rplus_le_compat_l. rewrite <- (Rmult_1_r tol) at 2. apply Rmult_le_compat_l; [auto|apply B].
  Qed.
End Tol.
