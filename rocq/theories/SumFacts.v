(** Finite sums of reals. *)
From Coq Require Import List Arith Reals Lra Lia.
From Verif Require Import SpecMdp.
Import ListNotations.
Local Open Scope R_scope.

Lemma sumn_ext : forall n f g, (forall i, (i < n)%nat -> f i = g i) -> sumn n f = sumn n g.
Proof. induction n; simpl; intros f g H; auto. rewrite (IHn f g), (H n); auto. Qed.

Lemma sumn_le : forall n f g, (forall i, (i < n)%nat -> f i <= g i) -> sumn n f <= sumn n g.
Proof. induction n; simpl; intros f g H; [lra|]. assert (H1 := IHn f g). assert (H2 := H n). 
  assert (sumn n f <= sumn n g) by auto. assert (f n <= g n) by auto. lra. Qed.

Lemma sumn_zero : forall n f, (forall i, (i < n)%nat -> f i = 0) -> sumn n f = 0.
Proof. induction n; simpl; intros f H; auto. rewrite IHn, H; auto. lra. Qed.

Lemma sumn_nonneg : forall n f, (forall i, (i < n)%nat -> 0 <= f i) -> 0 <= sumn n f.
Proof. induction n; simpl; intros f H; [lra|]. assert (0 <= sumn n f) by auto. assert (0 <= f n) by auto. lra. Qed.

Lemma sumn_plus : forall n f g, sumn n (fun i => f i + g i) = sumn n f + sumn n g.
Proof. induction n; simpl; intros; [lra|]. rewrite IHn. lra. Qed.

Lemma sumn_minus : forall n f g, sumn n (fun i => f i - g i) = sumn n f - sumn n g.
Proof. induction n; simpl; intros; [lra|]. rewrite IHn. lra. Qed.

Lemma sumn_scal : forall n c f, sumn n (fun i => c * f i) = c * sumn n f.
Proof. induction n; simpl; intros; [lra|]. rewrite IHn. lra. Qed.

Lemma sumn_scal_r : forall n c f, sumn n (fun i => f i * c) = sumn n f * c.
Proof. induction n; simpl; intros; [lra|]. rewrite IHn. lra. Qed.

Lemma sumn_opp : forall n f, sumn n (fun i => - f i) = - sumn n f.
Proof. induction n; simpl; intros; [lra|]. rewrite IHn. lra. Qed.

Lemma sumn_swap : forall n m f, sumn n (fun i => sumn m (fun j => f i j)) = sumn m (fun j => sumn n (fun i => f i j)).
Proof.
  induction n; simpl; intros m f. { symmetry. apply sumn_zero; auto. }
  rewrite IHn, <- sumn_plus. auto.
Qed.

Lemma sumn_single : forall n k f, (k < n)%nat -> (forall i, (i < n)%nat -> i <> k -> f i = 0) -> sumn n f = f k.
Proof.
  induction n; simpl; intros k f Hk H; [lia|]. destruct (Nat.eq_dec k n) as [->|E].
  - rewrite sumn_zero; [lra|]. intros i Hi. apply H; lia.
  - rewrite (IHn k f); [rewrite (H n) by lia; lra|lia|]. intros i Hi He. apply H; lia.
Qed.

Lemma sumn_indicator : forall n k (c : R), (k < n)%nat -> sumn n (fun i => if Nat.eqb i k then c else 0) = c.
Proof.
  intros n k c Hk. rewrite (sumn_single n k); auto.
  - rewrite Nat.eqb_refl; auto.
  - intros i _ Hi. apply Nat.eqb_neq in Hi. rewrite Hi; auto.
Qed.

Lemma sumn_term_le : forall n k f, (k < n)%nat -> (forall i, (i < n)%nat -> 0 <= f i) -> f k <= sumn n f.
Proof.
  induction n; simpl; intros k f Hk H; [lia|]. destruct (Nat.eq_dec k n) as [->|E].
  - assert (0 <= sumn n f) by (apply sumn_nonneg; auto). lra.
  - assert (f k <= sumn n f) by (apply IHn; auto; lia). assert (0 <= f n) by auto. lra.
Qed.

Lemma sumn_app : forall n m f, sumn (n + m) f = sumn n f + sumn m (fun i => f (n + i)%nat).
Proof.
  intros n m f. induction m; simpl. { rewrite Nat.add_0_r; lra. }
  rewrite Nat.add_succ_r; simpl. rewrite IHm; lra.
Qed.

Lemma sumn_split2 : forall n f, (2 <= n)%nat -> sumn n f = sumn (n - 2) f + f (n - 2)%nat + f (n - 1)%nat.
Proof.
  intros n f Hn. destruct n as [|[|n]]; try lia. replace (S (S n) - 2)%nat with n by lia.
  replace (S (S n) - 1)%nat with (S n) by lia. reflexivity.
Qed.

(** A convex combination that reaches the maximum is concentrated on the
    maximisers. *)
Lemma convex_le : forall n p f c, (forall i, (i < n)%nat -> 0 <= p i) -> sumn n p = 1 ->
  (forall i, (i < n)%nat -> 0 < p i -> f i <= c) -> sumn n (fun i => p i * f i) <= c.
Proof.
  intros n p f c Hp Hs Hf. replace c with (sumn n (fun i => p i * c)) by (rewrite sumn_scal_r, Hs; lra).
  apply sumn_le. intros i Hi. destruct (Rle_lt_dec (p i) 0) as [H|H].
  - assert (p i = 0) as -> by (specialize (Hp i Hi); lra). lra.
  - apply Rmult_le_compat_l; [lra|auto].
Qed.

Lemma convex_ge : forall n p f c, (forall i, (i < n)%nat -> 0 <= p i) -> sumn n p = 1 ->
  (forall i, (i < n)%nat -> 0 < p i -> c <= f i) -> c <= sumn n (fun i => p i * f i).
Proof.
  intros n p f c Hp Hs Hf. replace c with (sumn n (fun i => p i * c)) by (rewrite sumn_scal_r, Hs; lra).
  apply sumn_le. intros i Hi. destruct (Rle_lt_dec (p i) 0) as [H|H].
  - assert (p i = 0) as -> by (specialize (Hp i Hi); lra). lra.
  - apply Rmult_le_compat_l; [lra|auto].
Qed.

Lemma convex_eq_max : forall n p f c, (forall i, (i < n)%nat -> 0 <= p i) -> sumn n p = 1 ->
  (forall i, (i < n)%nat -> 0 < p i -> f i <= c) -> c <= sumn n (fun i => p i * f i) ->
  forall k, (k < n)%nat -> 0 < p k -> f k = c.
Proof.
  intros n p f c Hp Hs Hf Hge k Hk Hpk.
  assert (G : sumn n (fun i => p i * (c - f i)) <= 0).
  { rewrite (sumn_ext _ _ (fun i => p i * c - p i * f i)) by (intros; lra). rewrite sumn_minus, sumn_scal_r, Hs. lra. }
  assert (p k * (c - f k) <= sumn n (fun i => p i * (c - f i))).
  { apply (sumn_term_le n k (fun i => p i * (c - f i))); auto. intros i Hi.
    destruct (Rle_lt_dec (p i) 0) as [H|H].
    - assert (p i = 0) as -> by (specialize (Hp i Hi); lra). lra.
    - apply Rmult_le_pos; [lra|]. specialize (Hf i Hi H). lra. }
  assert (H1 : f k <= c) by auto.
  destruct (Req_dec (f k) c); auto. exfalso.
  assert (0 < p k * (c - f k)) by (apply Rmult_lt_0_compat; lra). lra.
Qed.

Lemma convex_eq_min : forall n p f c, (forall i, (i < n)%nat -> 0 <= p i) -> sumn n p = 1 ->
  (forall i, (i < n)%nat -> 0 < p i -> c <= f i) -> sumn n (fun i => p i * f i) <= c ->
  forall k, (k < n)%nat -> 0 < p k -> f k = c.
Proof.
  intros n p f c Hp Hs Hf Hge k Hk Hpk.
  assert (- f k = - c); [|lra].
  apply (convex_eq_max n p (fun i => - f i) (- c)); auto.
  - intros i Hi Hpi. specialize (Hf i Hi Hpi). lra.
  - rewrite (sumn_ext _ _ (fun i => - (p i * f i))) by (intros; lra). rewrite sumn_opp. lra.
Qed.

(** Maximum and minimum of finitely many reals. *)
Lemma exists_max : forall n f, (0 < n)%nat -> exists k, (k < n)%nat /\ forall i, (i < n)%nat -> f i <= f k.
Proof.
  induction n; intros f Hn; [lia|]. destruct n.
  - exists O. split; [lia|]. intros i Hi. assert (i = O) by lia. subst. lra.
  - destruct (IHn f) as (k & Hk & H); [lia|]. destruct (Rle_lt_dec (f k) (f (S n))) as [H1|H1].
    + exists (S n). split; [lia|]. intros i Hi. destruct (Nat.eq_dec i (S n)) as [->|]; [lra|].
      specialize (H i). assert (f i <= f k) by (apply H; lia). lra.
    + exists k. split; [lia|]. intros i Hi. destruct (Nat.eq_dec i (S n)) as [->|]; [lra|]. apply H; lia.
Qed.

Lemma exists_min : forall n f, (0 < n)%nat -> exists k, (k < n)%nat /\ forall i, (i < n)%nat -> f k <= f i.
Proof.
  intros n f Hn. destruct (exists_max n (fun i => - f i) Hn) as (k & Hk & H). exists k. split; auto.
  intros i Hi. specialize (H i Hi). simpl in H. lra.
Qed.

Lemma sumn_nonneg_zero : forall n f, (forall i, (i < n)%nat -> 0 <= f i) -> sumn n f = 0 -> forall i, (i < n)%nat -> f i = 0.
Proof.
  induction n as [|n IH]; intros f Hf H i Hi; [lia|]. simpl in H.
  assert (0 <= sumn n f) by (apply sumn_nonneg; intros; apply Hf; lia). assert (0 <= f n) by (apply Hf; lia).
  destruct (Nat.eq_dec i n) as [->|]; [lra|]. apply IH; [intros; apply Hf; lia|lra|lia].
Qed.
