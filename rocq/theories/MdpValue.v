(** Values of Markov decision processes: value iteration converges to the
    minimal and maximal reachability probabilities. *)
From Coq Require Import List Arith Reals Lra Lia Classical.
From Verif Require Import SpecMdp SumFacts.
Import ListNotations.
Local Open Scope R_scope.

Lemma lub_ex : forall (f : nat -> R), (forall n, f n <= 1) -> {l | is_lub (fun x => exists n, x = f n) l}.
Proof.
  intros f H. apply completeness.
  - exists 1. intros x (n & ->). auto.
  - exists (f O). exists O; auto.
Qed.

Lemma finite_choice : forall n (P : nat -> nat -> Prop), (forall s, (s < n)%nat -> exists r, P s r) ->
  exists c : nat -> nat, forall s, (s < n)%nat -> P s (c s).
Proof.
  induction n; intros P H. { exists (fun _ => O). intros; lia. }
  destruct (IHn P) as (c & Hc); [auto|]. destruct (H n) as (r & Hr); [lia|].
  exists (fun s => if Nat.eqb s n then r else c s). intros s Hs.
  destruct (Nat.eqb_spec s n) as [->|]; auto. apply Hc; lia.
Qed.

Lemma is_lub_u : forall E a b, is_lub E a -> is_lub E b -> a = b.
Proof. intros E a b [A1 A2] [B1 B2]. assert (a <= b) by auto. assert (b <= a) by auto. lra. Qed.

Lemma is_glb_u : forall E a b, is_glb E a -> is_glb E b -> a = b.
Proof. intros E a b [A1 A2] [B1 B2]. assert (a <= b) by auto. assert (b <= a) by auto. lra. Qed.

Section Val.
  Variable M : mdp.
  Hypothesis W : wf_mdp M.
  Variable T : nat -> bool.

  Definition ex (r : nat) (v : nat -> R) : R := sumn (nS M) (fun d => prob M r d * v d).

  Lemma W_src : forall r, (r < nA M)%nat -> (src M r < nS M)%nat. Proof. apply W. Qed.
  Lemma W_pos : forall r d, (r < nA M)%nat -> (d < nS M)%nat -> 0 <= prob M r d. Proof. apply W. Qed.
  Lemma W_sum : forall r, (r < nA M)%nat -> sumn (nS M) (prob M r) = 1. Proof. apply W. Qed.
  Lemma W_act : forall s, (s < nS M)%nat -> exists r, (r < nA M)%nat /\ src M r = s. Proof. apply W. Qed.

  Lemma ex_le : forall r u v, (r < nA M)%nat -> (forall d, (d < nS M)%nat -> u d <= v d) -> ex r u <= ex r v.
  Proof. intros r u v Hr H. apply sumn_le. intros d Hd. apply Rmult_le_compat_l; [apply W_pos; auto|auto]. Qed.

  Lemma ex_ext : forall r u v, (forall d, (d < nS M)%nat -> u d = v d) -> ex r u = ex r v.
  Proof. intros r u v H. apply sumn_ext. intros d Hd. rewrite H; auto. Qed.

  Lemma ex_const : forall r c, (r < nA M)%nat -> ex r (fun _ => c) = c.
  Proof. intros r c Hr. unfold ex. rewrite sumn_scal_r, W_sum; auto. lra. Qed.

  Lemma ex_minus : forall r u v, ex r (fun d => u d - v d) = ex r u - ex r v.
  Proof. intros. unfold ex. rewrite <- sumn_minus. apply sumn_ext. intros; lra. Qed.

  Lemma ex_plus : forall r u v, ex r (fun d => u d + v d) = ex r u + ex r v.
  Proof. intros. unfold ex. rewrite <- sumn_plus. apply sumn_ext. intros; lra. Qed.

  Lemma ex_scal : forall r c v, ex r (fun d => c * v d) = c * ex r v.
  Proof. intros. unfold ex. rewrite <- sumn_scal. apply sumn_ext. intros; lra. Qed.

  Lemma ex_bounds : forall r v a b, (r < nA M)%nat -> (forall d, (d < nS M)%nat -> a <= v d <= b) -> a <= ex r v <= b.
  Proof.
    intros r v a b Hr H. split.
    - rewrite <- (ex_const r a) by auto. apply ex_le; auto. intros d Hd; apply H; auto.
    - rewrite <- (ex_const r b) by auto. apply ex_le; auto. intros d Hd; apply H; auto.
  Qed.

  Fixpoint minr (s : nat) (f : nat -> R) (k : nat) : R :=
    match k with O => 1 | S k' => if Nat.eqb (src M k') s then Rmin (f k') (minr s f k') else minr s f k' end.
  Fixpoint maxr (s : nat) (f : nat -> R) (k : nat) : R :=
    match k with O => 0 | S k' => if Nat.eqb (src M k') s then Rmax (f k') (maxr s f k') else maxr s f k' end.

  Lemma minr_le1 : forall s f k, minr s f k <= 1.
  Proof.
    induction k; simpl; [lra|]. destruct (Nat.eqb _ _); auto.
    eapply Rle_trans; [apply Rmin_r|auto].
  Qed.
  Lemma maxr_ge0 : forall s f k, 0 <= maxr s f k.
  Proof.
    induction k; simpl; [lra|]. destruct (Nat.eqb _ _); auto.
    eapply Rle_trans; [|apply Rmax_r]. auto.
  Qed.

  Lemma minr_le : forall s f k r, (r < k)%nat -> src M r = s -> minr s f k <= f r.
  Proof.
    induction k; simpl; intros r Hr Hs; [lia|]. destruct (Nat.eq_dec r k) as [->|E].
    - apply Nat.eqb_eq in Hs. rewrite Hs. apply Rmin_l.
    - assert (minr s f k <= f r) by (apply IHk; auto; lia). destruct (Nat.eqb _ _); auto.
      eapply Rle_trans; [apply Rmin_r|auto].
  Qed.
  Lemma maxr_ge : forall s f k r, (r < k)%nat -> src M r = s -> f r <= maxr s f k.
  Proof.
    induction k; simpl; intros r Hr Hs; [lia|]. destruct (Nat.eq_dec r k) as [->|E].
    - apply Nat.eqb_eq in Hs. rewrite Hs. apply Rmax_l.
    - assert (f r <= maxr s f k) by (apply IHk; auto; lia). destruct (Nat.eqb _ _); auto.
      eapply Rle_trans; [|apply Rmax_r]. auto.
  Qed.

  Lemma minr_glb : forall s f k c, c <= 1 -> (forall r, (r < k)%nat -> src M r = s -> c <= f r) -> c <= minr s f k.
  Proof.
    induction k; simpl; intros c H1 H; [auto|]. assert (c <= minr s f k) by auto.
    destruct (Nat.eqb_spec (src M k) s); auto. apply Rmin_glb; auto.
  Qed.
  Lemma maxr_lub : forall s f k c, 0 <= c -> (forall r, (r < k)%nat -> src M r = s -> f r <= c) -> maxr s f k <= c.
  Proof.
    induction k; simpl; intros c H1 H; [auto|]. assert (maxr s f k <= c) by auto.
    destruct (Nat.eqb_spec (src M k) s); auto. apply Rmax_lub; auto.
  Qed.

  Lemma minr_att : forall s f k, (exists r, (r < k)%nat /\ src M r = s) -> (forall r, (r < k)%nat -> src M r = s -> f r <= 1) ->
    exists r, (r < k)%nat /\ src M r = s /\ minr s f k = f r.
  Proof.
    induction k; intros (r & Hr & Hs) H; [lia|]. simpl. destruct (Nat.eqb_spec (src M k) s) as [E|E].
    - destruct (classic (exists r', (r' < k)%nat /\ src M r' = s)) as [HE|HE].
      + destruct IHk as (r1 & A1 & A2 & A3); auto.
        unfold Rmin. destruct (Rle_dec (f k) (minr s f k)).
        * exists k. auto.
        * exists r1. auto.
      + exists k. split; auto. split; auto.
        assert (minr s f k = 1) as ->.
        { apply Rle_antisym; [apply minr_le1|]. apply minr_glb; [lra|]. intros r' Hr' Hs'. exfalso. eauto. }
        apply Rmin_left. auto.
    - destruct IHk as (r1 & A1 & A2 & A3); auto.
      + exists r. split; auto. assert (r <> k) by congruence. lia.
      + exists r1; auto.
  Qed.
  Lemma maxr_att : forall s f k, (exists r, (r < k)%nat /\ src M r = s) -> (forall r, (r < k)%nat -> src M r = s -> 0 <= f r) ->
    exists r, (r < k)%nat /\ src M r = s /\ maxr s f k = f r.
  Proof.
    induction k; intros (r & Hr & Hs) H; [lia|]. simpl. destruct (Nat.eqb_spec (src M k) s) as [E|E].
    - destruct (classic (exists r', (r' < k)%nat /\ src M r' = s)) as [HE|HE].
      + destruct IHk as (r1 & A1 & A2 & A3); auto.
        unfold Rmax. destruct (Rle_dec (f k) (maxr s f k)).
        * exists r1. auto.
        * exists k. auto.
      + exists k. split; auto. split; auto.
        assert (maxr s f k = 0) as ->.
        { apply Rle_antisym; [|apply maxr_ge0]. apply maxr_lub; [lra|]. intros r' Hr' Hs'. exfalso. eauto. }
        apply Rmax_left. auto.
    - destruct IHk as (r1 & A1 & A2 & A3); auto.
      + exists r. split; auto. assert (r <> k) by congruence. lia.
      + exists r1; auto.
  Qed.

  (** ** Value iteration *)
  Fixpoint vmin (n : nat) (s : nat) : R :=
    if T s then 1 else match n with O => 0 | S m => minr s (fun r => ex r (vmin m)) (nA M) end.
  Fixpoint vmax (n : nat) (s : nat) : R :=
    if T s then 1 else match n with O => 0 | S m => maxr s (fun r => ex r (vmax m)) (nA M) end.

  Lemma vmin_T : forall n s, T s = true -> vmin n s = 1.
  Proof. destruct n; simpl; intros s ->; auto. Qed.
  Lemma vmax_T : forall n s, T s = true -> vmax n s = 1.
  Proof. destruct n; simpl; intros s ->; auto. Qed.

  Lemma vmin_bounds : forall n s, 0 <= vmin n s <= 1.
  Proof.
    induction n; simpl; intros s; destruct (T s); try lra. split; [|apply minr_le1].
    apply minr_glb; [lra|]. intros r Hr _. apply (ex_bounds r (vmin n) 0 1); auto.
  Qed.
  Lemma vmax_bounds : forall n s, 0 <= vmax n s <= 1.
  Proof.
    induction n; simpl; intros s; destruct (T s); try lra. split; [apply maxr_ge0|].
    apply maxr_lub; [lra|]. intros r Hr _. apply (ex_bounds r (vmax n) 0 1); auto.
  Qed.

  Lemma vmin_mono : forall n s, vmin n s <= vmin (S n) s.
  Proof.
    induction n; intros s.
    - pose proof (vmin_bounds 1 s). simpl in *. destruct (T s); lra.
    - change (vmin (S (S n)) s) with (if T s then 1 else minr s (fun r => ex r (vmin (S n))) (nA M)).
      change (vmin (S n) s) with (if T s then 1 else minr s (fun r => ex r (vmin n)) (nA M)).
      destruct (T s); [lra|]. apply minr_glb; [apply minr_le1|]. intros r Hr Hs.
      eapply Rle_trans; [apply (minr_le s _ _ r Hr Hs)|]. apply ex_le; auto.
  Qed.
  Lemma vmax_mono : forall n s, vmax n s <= vmax (S n) s.
  Proof.
    induction n; intros s.
    - pose proof (vmax_bounds 1 s). simpl in *. destruct (T s); lra.
    - change (vmax (S (S n)) s) with (if T s then 1 else maxr s (fun r => ex r (vmax (S n))) (nA M)).
      change (vmax (S n) s) with (if T s then 1 else maxr s (fun r => ex r (vmax n)) (nA M)).
      destruct (T s); [lra|]. apply maxr_lub; [apply maxr_ge0|]. intros r Hr Hs.
      eapply Rle_trans; [|apply (maxr_ge s _ _ r Hr Hs)]. apply ex_le; auto.
  Qed.

  Lemma mono_le : forall (f : nat -> R), (forall n, f n <= f (S n)) -> forall n m, (n <= m)%nat -> f n <= f m.
  Proof. intros f H n m Hnm. induction Hnm; [lra|]. eapply Rle_trans; eauto. Qed.

  Definition Vmin (s : nat) : R := proj1_sig (lub_ex (fun n => vmin n s) (fun n => proj2 (vmin_bounds n s))).
  Definition Vmax (s : nat) : R := proj1_sig (lub_ex (fun n => vmax n s) (fun n => proj2 (vmax_bounds n s))).

  Lemma Vmin_lub : forall s, is_lub (fun x => exists n, x = vmin n s) (Vmin s).
  Proof. intros s. unfold Vmin. destruct (lub_ex _ _); auto. Qed.
  Lemma Vmax_lub : forall s, is_lub (fun x => exists n, x = vmax n s) (Vmax s).
  Proof. intros s. unfold Vmax. destruct (lub_ex _ _); auto. Qed.

  Lemma vmin_le_Vmin : forall n s, vmin n s <= Vmin s.
  Proof. intros n s. destruct (Vmin_lub s) as [H _]. apply H. exists n; auto. Qed.
  Lemma vmax_le_Vmax : forall n s, vmax n s <= Vmax s.
  Proof. intros n s. destruct (Vmax_lub s) as [H _]. apply H. exists n; auto. Qed.
  Lemma Vmin_le : forall s c, (forall n, vmin n s <= c) -> Vmin s <= c.
  Proof. intros s c H. destruct (Vmin_lub s) as [_ G]. apply G. intros x (n & ->). auto. Qed.
  Lemma Vmax_le : forall s c, (forall n, vmax n s <= c) -> Vmax s <= c.
  Proof. intros s c H. destruct (Vmax_lub s) as [_ G]. apply G. intros x (n & ->). auto. Qed.

  Lemma Vmin_bounds : forall s, 0 <= Vmin s <= 1.
  Proof.
    intros s. split.
    - eapply Rle_trans; [apply (vmin_bounds 0 s)|apply vmin_le_Vmin].
    - apply Vmin_le. intros n; apply vmin_bounds.
  Qed.
  Lemma Vmax_bounds : forall s, 0 <= Vmax s <= 1.
  Proof.
    intros s. split.
    - eapply Rle_trans; [apply (vmax_bounds 0 s)|apply vmax_le_Vmax].
    - apply Vmax_le. intros n; apply vmax_bounds.
  Qed.

  Lemma unif : forall (f : nat -> nat -> R) (L : nat -> R), (forall n s, f n s <= f (S n) s) ->
    (forall s, is_lub (fun x => exists n, x = f n s) (L s)) ->
    forall k eps, 0 < eps -> exists n, forall s, (s < k)%nat -> L s - eps <= f n s.
  Proof.
    intros f L Hm HL k eps He. induction k as [|k (n & IH)]. { exists O. intros; lia. }
    assert (exists n, L k - eps <= f n k) as (n' & Hn').
    { apply NNPP. intros Hno. destruct (HL k) as [_ G]. specialize (G (L k - eps)).
      assert (L k <= L k - eps); [|lra]. apply G. intros x (m & ->).
      destruct (Rle_lt_dec (f m k) (L k - eps)); auto. exfalso. apply Hno. exists m. lra. }
    exists (max n n'). intros s Hs. destruct (Nat.eq_dec s k) as [->|E].
    - eapply Rle_trans; [apply Hn'|]. apply (mono_le (fun n => f n k)); [intros; apply Hm|lia].
    - eapply Rle_trans; [apply IH; lia|]. apply (mono_le (fun n => f n s)); [intros; apply Hm|lia].
  Qed.

  Lemma Vmin_T : forall s, T s = true -> Vmin s = 1.
  Proof.
    intros s H. apply Rle_antisym; [apply Vmin_bounds|]. rewrite <- (vmin_T O s H). apply vmin_le_Vmin.
  Qed.
  Lemma Vmax_T : forall s, T s = true -> Vmax s = 1.
  Proof.
    intros s H. apply Rle_antisym; [apply Vmax_bounds|]. rewrite <- (vmax_T O s H). apply vmax_le_Vmax.
  Qed.

  Lemma Vmin_bellman : forall s, T s = false -> Vmin s = minr s (fun r => ex r Vmin) (nA M).
  Proof.
    intros s Hs. apply Rle_antisym.
    - apply Vmin_le. intros [|n]; simpl; rewrite Hs.
      + apply minr_glb; [lra|]. intros r Hr _. apply (ex_bounds r Vmin 0 1); auto. intros d _. apply Vmin_bounds.
      + apply minr_glb; [apply minr_le1|]. intros r Hr Hrs. eapply Rle_trans; [apply (minr_le s _ _ r Hr Hrs)|].
        apply ex_le; auto. intros d _. apply vmin_le_Vmin.
    - apply Rnot_lt_le. intros Hlt. set (B := minr s (fun r => ex r Vmin) (nA M)) in *.
      set (eps := (B - Vmin s) / 2). assert (He : 0 < eps) by (unfold eps; lra).
      destruct (unif vmin Vmin vmin_mono Vmin_lub (nS M) eps He) as (n & Hn).
      assert (B - eps <= vmin (S n) s).
      { simpl. rewrite Hs. apply minr_glb. { pose proof (minr_le1 s (fun r => ex r Vmin) (nA M)). fold B in H. lra. }
        intros r Hr Hrs. assert (B <= ex r Vmin) by (apply (minr_le s (fun r => ex r Vmin)); auto).
        assert (ex r (fun d => Vmin d - eps) <= ex r (vmin n)) by (apply ex_le; auto).
        rewrite ex_minus, ex_const in H0; auto. lra. }
      pose proof (vmin_le_Vmin (S n) s). unfold eps in *. lra.
  Qed.

  Lemma Vmax_bellman : forall s, T s = false -> Vmax s = maxr s (fun r => ex r Vmax) (nA M).
  Proof.
    intros s Hs. apply Rle_antisym.
    - apply Vmax_le. intros [|n]; simpl; rewrite Hs.
      + apply maxr_ge0.
      + apply maxr_lub; [apply maxr_ge0|]. intros r Hr Hrs. eapply Rle_trans; [|apply (maxr_ge s _ _ r Hr Hrs)].
        apply ex_le; auto. intros d _. apply vmax_le_Vmax.
    - apply maxr_lub; [apply Vmax_bounds|]. intros r Hr Hrs. apply Rnot_lt_le. intros Hlt.
      set (eps := (ex r Vmax - Vmax s) / 2). assert (He : 0 < eps) by (unfold eps; lra).
      destruct (unif vmax Vmax vmax_mono Vmax_lub (nS M) eps He) as (n & Hn).
      assert (ex r (fun d => Vmax d - eps) <= ex r (vmax n)) by (apply ex_le; auto).
      rewrite ex_minus, ex_const in H; auto.
      assert (ex r (vmax n) <= vmax (S n) s).
      { simpl. rewrite Hs. apply (maxr_ge s (fun r => ex r (vmax n))); auto. }
      pose proof (vmax_le_Vmax (S n) s). unfold eps in *. lra.
  Qed.

  Lemma Vmin_le_ex : forall r, (r < nA M)%nat -> T (src M r) = false -> Vmin (src M r) <= ex r Vmin.
  Proof. intros r Hr HT. rewrite Vmin_bellman; auto. apply (minr_le _ (fun r => ex r Vmin)); auto. Qed.

  Lemma Vmax_ge_ex : forall r, (r < nA M)%nat -> T (src M r) = false -> ex r Vmax <= Vmax (src M r).
  Proof. intros r Hr HT. rewrite (Vmax_bellman (src M r)); auto. apply (maxr_ge _ (fun r => ex r Vmax)); auto. Qed.

  Lemma Vmin_att : forall s, (s < nS M)%nat -> T s = false -> exists r, (r < nA M)%nat /\ src M r = s /\ Vmin s = ex r Vmin.
  Proof.
    intros s Hs HT. rewrite Vmin_bellman by auto.
    apply (minr_att s (fun r => ex r Vmin) (nA M) (W_act s Hs)).
    intros r Hr _. apply (ex_bounds r Vmin 0 1); auto. intros d _. apply Vmin_bounds.
  Qed.

  Lemma Vmax_att : forall s, (s < nS M)%nat -> T s = false -> exists r, (r < nA M)%nat /\ src M r = s /\ Vmax s = ex r Vmax.
  Proof.
    intros s Hs HT. rewrite Vmax_bellman by auto.
    apply (maxr_att s (fun r => ex r Vmax) (nA M) (W_act s Hs)).
    intros r Hr _. apply (ex_bounds r Vmax 0 1); auto. intros d _. apply Vmax_bounds.
  Qed.

  (** Least (non-negative) solution of the Bellman inequalities. *)
  Lemma Vmax_least : forall z, (forall s, (s < nS M)%nat -> 0 <= z s) -> (forall s, (s < nS M)%nat -> T s = true -> 1 <= z s) ->
    (forall r, (r < nA M)%nat -> T (src M r) = false -> ex r z <= z (src M r)) ->
    forall s, (s < nS M)%nat -> Vmax s <= z s.
  Proof.
    intros z H0 H1 H2 s Hs. apply Vmax_le. intros n. revert s Hs. induction n; simpl; intros s Hs; destruct (T s) eqn:E; auto.
    apply maxr_lub; auto. intros r Hr Hrs. subst s. eapply Rle_trans; [|apply H2; auto]. apply ex_le; auto.
  Qed.

  (** ** Schedulers *)

  Lemma sched_bounds : forall sigma h s v a b, valid_scheduler M sigma -> (s < nS M)%nat ->
    (forall r, (r < nA M)%nat -> src M r = s -> a <= v r <= b) ->
    a <= sumn (nA M) (fun r => sigma h s r * v r) <= b.
  Proof.
    intros sigma h s v a b HV Hs H. destruct (HV h s Hs) as (P1 & P2 & P3).
    assert (G : forall i, (i < nA M)%nat -> 0 < sigma h s i -> src M i = s).
    { intros i Hi Hpos. destruct (Nat.eq_dec (src M i) s); auto. rewrite P2 in Hpos; auto. lra. }
    split; [apply convex_ge|apply convex_le]; auto; intros i Hi Hpos; apply H; auto.
  Qed.

  Lemma reach_bounds : forall sigma, valid_scheduler M sigma -> forall n h s, (s < nS M)%nat ->
    vmin n s <= reach M T sigma n h s <= vmax n s.
  Proof.
    intros sigma HV. induction n; intros h s Hs; simpl; destruct (T s); try lra.
    apply (sched_bounds sigma h s (fun r => sumn (nS M) (fun d => prob M r d * reach M T sigma n ((s, r) :: h) d))); auto.
    intros r Hr Hrs. split.
    - eapply Rle_trans; [apply (minr_le s (fun r => ex r (vmin n)) _ r Hr Hrs)|].
      apply (ex_le r (vmin n) (fun d => reach M T sigma n ((s, r) :: h) d)); auto. intros d Hd. apply IHn; auto.
    - eapply Rle_trans; [|apply (maxr_ge s (fun r => ex r (vmax n)) _ r Hr Hrs)].
      apply (ex_le r (fun d => reach M T sigma n ((s, r) :: h) d) (vmax n)); auto. intros d Hd. apply IHn; auto.
  Qed.

  Lemma reach_01 : forall sigma, valid_scheduler M sigma -> forall n h s, (s < nS M)%nat -> 0 <= reach M T sigma n h s <= 1.
  Proof.
    intros sigma HV n h s Hs. pose proof (reach_bounds sigma HV n h s Hs). pose proof (vmin_bounds n s). pose proof (vmax_bounds n s). lra.
  Qed.

  Lemma Pr_exists : forall sigma, valid_scheduler M sigma -> forall s, (s < nS M)%nat -> exists p, Pr M T sigma s p.
  Proof.
    intros sigma HV s Hs. destruct (lub_ex (fun n => reach M T sigma n [] s)) as (p & Hp).
    - intros n. apply reach_01; auto.
    - exists p. exact Hp.
  Qed.

  Lemma Pr_bounds : forall sigma, valid_scheduler M sigma -> forall s p, (s < nS M)%nat -> Pr M T sigma s p -> Vmin s <= p <= Vmax s.
  Proof.
    intros sigma HV s p Hs [H1 H2]. split.
    - apply Vmin_le. intros n. eapply Rle_trans; [apply (reach_bounds sigma HV n [] s Hs)|]. apply H1. exists n; auto.
    - apply H2. intros x (n & ->). eapply Rle_trans; [apply (reach_bounds sigma HV n [] s Hs)|]. apply vmax_le_Vmax.
  Qed.

  (** A deterministic scheduler that may depend on the number of steps. *)
  Definition det (c : nat -> nat -> nat) : scheduler := fun h s r => if Nat.eqb r (c (length h) s) then 1 else 0.

  Lemma det_valid : forall c, (forall k s, (s < nS M)%nat -> (c k s < nA M)%nat /\ src M (c k s) = s) -> valid_scheduler M (det c).
  Proof.
    intros c H h s Hs. destruct (H (length h) s Hs) as [H1 H2]. unfold det. split; [|split].
    - intros r Hr. destruct (Nat.eqb _ _); lra.
    - intros r Hr Hne. destruct (Nat.eqb_spec r (c (length h) s)); auto. congruence.
    - apply sumn_indicator; auto.
  Qed.

  Lemma det_sum : forall c h s f, (c (length h) s < nA M)%nat -> sumn (nA M) (fun r => det c h s r * f r) = f (c (length h) s).
  Proof.
    intros c h s f H. rewrite (sumn_single _ (c (length h) s)); auto.
    - unfold det. rewrite Nat.eqb_refl. lra.
    - intros i Hi Hne. unfold det. apply Nat.eqb_neq in Hne. rewrite Hne. lra.
  Qed.

  Lemma Vmin_attained : forall s, (s < nS M)%nat -> exists sigma, valid_scheduler M sigma /\ Pr M T sigma s (Vmin s).
  Proof.
    intros s0 Hs0.
    destruct (finite_choice (nS M) (fun s r => (r < nA M)%nat /\ src M r = s /\ (T s = false -> Vmin s = ex r Vmin))) as (c & Hc).
    { intros s Hs. destruct (T s) eqn:E.
      - destruct (W_act s Hs) as (r & A & B). exists r. split; auto. split; auto. discriminate.
      - destruct (Vmin_att s Hs E) as (r & A & B & C). exists r. auto. }
    set (c' := fun (_ : nat) s => c s).
    assert (HV : valid_scheduler M (det c')). { apply det_valid. intros k s Hs. destruct (Hc s Hs) as (A & B & _). auto. }
    exists (det c'). split; auto.
    assert (G : forall n h s, (s < nS M)%nat -> reach M T (det c') n h s <= Vmin s).
    { induction n; intros h s Hs; simpl; destruct (T s) eqn:E.
      - rewrite Vmin_T; auto; lra.
      - apply Vmin_bounds.
      - rewrite Vmin_T; auto; lra.
      - destruct (Hc s Hs) as (A & B & C).
        rewrite (det_sum c' h s (fun r => sumn (nS M) (fun d => prob M r d * reach M T (det c') n ((s, r) :: h) d))); auto.
        rewrite (C E). unfold c'. apply ex_le; auto. }
    destruct (Pr_exists _ HV s0 Hs0) as (p & Hp). pose proof (Pr_bounds _ HV s0 p Hs0 Hp) as [Hb _].
    assert (p <= Vmin s0). { destruct Hp as [_ Hp]. apply Hp. intros x (n & ->). auto. }
    assert (p = Vmin s0) as <- by lra. auto.
  Qed.

  Lemma PrMin_Vmin : forall s, (s < nS M)%nat -> IsPrMin M T s (Vmin s).
  Proof.
    intros s Hs. split.
    - intros p (sigma & HV & HP). eapply Pr_bounds; eauto.
    - intros b Hb. destruct (Vmin_attained s Hs) as (sigma & HV & HP). apply Hb. eauto.
  Qed.

  Lemma vmax_step_attained : forall n s, (s < nS M)%nat -> exists sigma, valid_scheduler M sigma /\ reach M T sigma n [] s = vmax n s.
  Proof.
    intros n s0 Hs0.
    assert (HC : forall k, exists c : nat -> nat, forall s, (s < nS M)%nat -> (c s < nA M)%nat /\ src M (c s) = s /\
              (T s = false -> vmax (S k) s = ex (c s) (vmax k))).
    { intros k. apply (finite_choice (nS M) (fun s r => (r < nA M)%nat /\ src M r = s /\ (T s = false -> vmax (S k) s = ex r (vmax k)))).
      intros s Hs. simpl. destruct (maxr_att s (fun r => ex r (vmax k)) (nA M) (W_act s Hs)) as (r & A & B & C).
      - intros r Hr _. apply (ex_bounds r (vmax k) 0 1); auto. intros d _. apply vmax_bounds.
      - exists r. split; auto. split; auto. intros ->. auto. }
    assert (HD : exists c : nat -> nat -> nat, forall k s, (s < nS M)%nat -> (c k s < nA M)%nat /\ src M (c k s) = s /\
              ((k < n)%nat -> T s = false -> vmax (n - k) s = ex (c k s) (vmax (n - S k)))).
    { clear s0 Hs0. assert (G : forall m, exists c : nat -> nat -> nat, forall k s, (s < nS M)%nat -> (c k s < nA M)%nat /\ src M (c k s) = s /\
              ((k < m)%nat -> (k < n)%nat -> T s = false -> vmax (n - k) s = ex (c k s) (vmax (n - S k)))).
      { induction m as [|m (c & IH)].
        - destruct (HC O) as (c & Hc). exists (fun _ => c). intros k s Hs. destruct (Hc s Hs) as (A & B & _). split; auto. split; auto. intros; lia.
        - destruct (HC (n - S m)%nat) as (c' & Hc'). exists (fun k => if Nat.eqb k m then c' else c k). intros k s Hs.
          destruct (Nat.eqb_spec k m) as [->|E].
          + destruct (Hc' s Hs) as (A & B & C). split; auto. split; auto. intros _ Hmn HT.
            replace (n - m)%nat with (S (n - S m)) by lia. auto.
          + destruct (IH k s Hs) as (A & B & C). split; auto. split; auto. intros H1 H2 H3. apply C; auto. lia. }
      destruct (G n) as (c & Hc). exists c. intros k s Hs. destruct (Hc k s Hs) as (A & B & C). auto. }
    destruct HD as (c & Hc).
    exists (det c). split. { apply det_valid. intros k s Hs. destruct (Hc k s Hs) as (A & B & _). auto. }
    assert (G : forall m h s, (s < nS M)%nat -> (m + length h = n)%nat -> reach M T (det c) m h s = vmax m s).
    { induction m; intros h s Hs Hl; simpl; destruct (T s) eqn:E; auto.
      destruct (Hc (length h) s Hs) as (A & B & C).
      rewrite (det_sum c h s (fun r => sumn (nS M) (fun d => prob M r d * reach M T (det c) m ((s, r) :: h) d))); auto.
      assert (Hn1 : (length h < n)%nat) by (simpl in Hl; lia). specialize (C Hn1 E).
      replace (n - length h)%nat with (S m) in C by lia. replace (n - S (length h))%nat with m in C by lia.
      simpl in C. rewrite E in C. rewrite C. apply sumn_ext. intros d Hd. rewrite IHm; auto. simpl; lia. }
    apply G; simpl; auto.
  Qed.

  Lemma PrMax_Vmax : forall s, (s < nS M)%nat -> IsPrMax M T s (Vmax s).
  Proof.
    intros s Hs. split.
    - intros p (sigma & HV & HP). eapply Pr_bounds; eauto.
    - intros b Hb. apply Vmax_le. intros n. destruct (vmax_step_attained n s Hs) as (sigma & HV & HR).
      destruct (Pr_exists sigma HV s Hs) as (p & Hp). rewrite <- HR.
      eapply Rle_trans; [|apply Hb; exists sigma; split; eauto]. destruct Hp as [Hp _]. apply Hp. exists n; auto.
  Qed.

  Lemma PrMin_iff : forall s v, (s < nS M)%nat -> (IsPrMin M T s v <-> v = Vmin s).
  Proof.
    intros s v Hs. split.
    - intros H. eapply is_glb_u; [exact H|apply PrMin_Vmin; auto].
    - intros ->. apply PrMin_Vmin; auto.
  Qed.
  Lemma PrMax_iff : forall s v, (s < nS M)%nat -> (IsPrMax M T s v <-> v = Vmax s).
  Proof.
    intros s v Hs. split.
    - intros H. eapply is_lub_u; [exact H|apply PrMax_Vmax; auto].
    - intros ->. apply PrMax_Vmax; auto.
  Qed.
End Val.
