(** Facts about the vocabulary of Base.v. *)
From Coq Require Import List Arith Bool Lia.
From Verif Require Import Base.
Import ListNotations.

Lemma bind_ok : forall A B (r : res A) (f : A -> res B) b,
  bind r f = Ok b -> exists a, r = Ok a /\ f a = Ok b.
Proof. intros A B [a|e] f b H; simpl in H; [eauto|discriminate]. Qed.

Lemma assert_ok : forall b u, assert_ b = Ok u -> b = true.
Proof. intros [] u H; [auto|discriminate]. Qed.

(** Case analysis of a successful monadic computation. *)
Ltac inv_ok H :=
  match type of H with
  | bind ?r ?f = Ok _ =>
      let a := fresh "a" in let H1 := fresh "Hok" in let H2 := fresh "Hok" in
      apply bind_ok in H; destruct H as [a [H1 H2]]; cbv beta in H2
  end.

Lemma foldM_app : forall A S (f : S -> A -> res S) l1 l2 s,
  foldM f (l1 ++ l2) s = bind (foldM f l1 s) (foldM f l2).
Proof.
  induction l1; intros; simpl; [reflexivity|].
  destruct (f s a); simpl; auto.
Qed.

(** Invariant rule for [foldM]. *)
Lemma foldM_inv : forall A S (f : S -> A -> res S) (I : list A -> S -> Prop) l s0 s,
  I [] s0 ->
  (forall pre x s1 s2, I pre s1 -> f s1 x = Ok s2 -> (exists post, l = pre ++ x :: post) -> I (pre ++ [x]) s2) ->
  foldM f l s0 = Ok s -> I l s.
Proof.
  intros A S f I l s0 s H0 Hstep.
  assert (G: forall post pre s1, l = pre ++ post -> I pre s1 -> foldM f post s1 = Ok s -> I l s).
  { induction post; intros pre s1 Hl HI Hf; simpl in Hf.
    - inversion Hf; subst. rewrite app_nil_r. auto.
    - inv_ok Hf. apply (IHpost (pre ++ [a]) a0); auto.
      + rewrite <- app_assoc. auto.
      + eapply Hstep; eauto. }
  intros Hf. exact (G l [] s0 eq_refl H0 Hf).
Qed.

Lemma foldM_ok : forall A S (f : S -> A -> res S) (I : list A -> S -> Prop) l s0,
  I [] s0 ->
  (forall pre x s1, I pre s1 -> (exists post, l = pre ++ x :: post) ->
     exists s2, f s1 x = Ok s2 /\ I (pre ++ [x]) s2) ->
  exists s, foldM f l s0 = Ok s /\ I l s.
Proof.
  intros A S f I l s0 H0 Hstep.
  assert (G: forall post pre s1, l = pre ++ post -> I pre s1 -> exists s, foldM f post s1 = Ok s /\ I l s).
  { induction post; intros pre s1 Hl HI.
    - exists s1; split; [reflexivity|]. rewrite app_nil_r in Hl; subst; auto.
    - destruct (Hstep pre a s1 HI) as [s2 [E2 I2]]; [eauto|].
      destruct (IHpost (pre ++ [a]) s2) as [s [E I']]; auto.
      { rewrite <- app_assoc; auto. }
      exists s; split; auto. simpl. rewrite E2. simpl. auto. }
  exact (G l [] s0 eq_refl H0).
Qed.

Lemma mapM_ok : forall A B (f : A -> res B) l l',
  mapM f l = Ok l' -> Forall2 (fun x y => f x = Ok y) l l'.
Proof.
  induction l; intros l' H; simpl in H.
  - inversion H; constructor.
  - inv_ok H. inv_ok Hok0. inversion Hok2; subst. constructor; auto.
Qed.

Lemma upd_length : forall A (l : list A) i x, length (upd l i x) = length l.
Proof. induction l; intros [|i] x; simpl; auto. Qed.

Lemma nth_upd_same : forall A (l : list A) i x d, i < length l -> nth i (upd l i x) d = x.
Proof. induction l; intros [|i] x d H; simpl in *; try lia; auto. apply IHl; lia. Qed.

Lemma nth_upd_other : forall A (l : list A) i j x d, i <> j -> nth j (upd l i x) d = nth j l d.
Proof. induction l; intros [|i] [|j] x d H; simpl; auto; try lia. Qed.

Lemma nth_upd : forall A (l : list A) i j x d,
  nth j (upd l i x) d = if andb (Nat.eqb i j) (Nat.ltb i (length l)) then x else nth j l d.
Proof.
  intros. destruct (Nat.eqb_spec i j); simpl.
  - subst. destruct (Nat.ltb_spec j (length l)).
    + apply nth_upd_same; auto.
    + rewrite !nth_overflow; auto. rewrite upd_length; auto.
  - apply nth_upd_other; auto.
Qed.

Lemma nth_error_upd_same : forall A (l : list A) i x, i < length l -> nth_error (upd l i x) i = Some x.
Proof. induction l; intros [|i] x H; simpl in *; try lia; auto. apply IHl; lia. Qed.

Lemma nth_error_upd_other : forall A (l : list A) i j x, i <> j -> nth_error (upd l i x) j = nth_error l j.
Proof. induction l; intros [|i] [|j] x H; simpl; auto; try lia. Qed.

Section Dict.
  Context {K V : Type} (eqb : K -> K -> bool).
  Hypothesis eqbP : forall x y, reflect (x = y) (eqb x y).

  Lemma eqb_refl' : forall x, eqb x x = true.
  Proof. intros. destruct (eqbP x x); congruence. Qed.

  Lemma dget_dset_same : forall (d : dict K V) k v, dget eqb (dset eqb d k v) k = Some v.
  Proof.
    induction d as [|[k' v'] r IH]; intros k v; simpl.
    - rewrite eqb_refl'; auto.
    - destruct (eqbP k k'); simpl.
      + subst; rewrite eqb_refl'; auto.
      + destruct (eqbP k k'); [contradiction|auto].
  Qed.

  Lemma dget_dset_other : forall (d : dict K V) k k' v, k <> k' -> dget eqb (dset eqb d k v) k' = dget eqb d k'.
  Proof.
    induction d as [|[k0 v0] r IH]; intros k k' v N; simpl.
    - destruct (eqbP k' k); congruence.
    - destruct (eqbP k k0); simpl.
      + subst. destruct (eqbP k' k0); congruence.
      + destruct (eqbP k' k0); auto.
  Qed.

  Lemma dget_dset : forall (d : dict K V) k k' v,
    dget eqb (dset eqb d k v) k' = if eqb k k' then Some v else dget eqb d k'.
  Proof.
    intros. destruct (eqbP k k').
    - subst; apply dget_dset_same.
    - apply dget_dset_other; auto.
  Qed.

  Lemma dget_In : forall (d : dict K V) k v, dget eqb d k = Some v -> In (k, v) d.
  Proof.
    induction d as [|[k0 v0] r IH]; intros k v H; simpl in *; [discriminate|].
    destruct (eqbP k k0); [inversion H; subst; auto|right; auto].
  Qed.

  Lemma In_dget : forall (d : dict K V) k v, NoDup (dkeys d) -> In (k, v) d -> dget eqb d k = Some v.
  Proof.
    induction d as [|[k0 v0] r IH]; intros k v N H; simpl in *; [contradiction|].
    inversion N; subst. destruct H as [H|H].
    - inversion H; subst. rewrite eqb_refl'; auto.
    - destruct (eqbP k k0); auto. subst. exfalso. apply H2.
      change k0 with (fst (k0, v)). apply in_map; auto.
  Qed.

  Lemma dget_None : forall (d : dict K V) k, dget eqb d k = None <-> ~ In k (dkeys d).
  Proof.
    induction d as [|[k0 v0] r IH]; intros k; simpl; [tauto|].
    destruct (eqbP k k0).
    - subst; split; [discriminate|tauto].
    - rewrite IH. split; [intros H [H'|H']; [congruence|auto]|tauto].
  Qed.

  Lemma dget_Some_key : forall (d : dict K V) k, (exists v, dget eqb d k = Some v) <-> In k (dkeys d).
  Proof.
    intros. destruct (dget eqb d k) eqn:E.
    - split; [|eauto]. intros _. apply dget_In in E. change k with (fst (k, v)). apply in_map; auto.
    - apply dget_None in E. split; [intros [v H]; discriminate|contradiction].
  Qed.

  Lemma dmem_true : forall (d : dict K V) k, dmem eqb d k = true <-> In k (dkeys d).
  Proof.
    intros. unfold dmem. rewrite <- dget_Some_key.
    destruct (dget eqb d k); split; try discriminate; eauto.
    intros [v H]; discriminate.
  Qed.

  Lemma dset_keys_in : forall (d : dict K V) k v k', In k' (dkeys (dset eqb d k v)) <-> k' = k \/ In k' (dkeys d).
  Proof.
    induction d as [|[k0 v0] r IH]; intros k v k'; simpl.
    - intuition.
    - destruct (eqbP k k0); simpl.
      + subst. intuition.
      + rewrite IH. intuition.
  Qed.

  Lemma dset_nodup : forall (d : dict K V) k v, NoDup (dkeys d) -> NoDup (dkeys (dset eqb d k v)).
  Proof.
    induction d as [|[k0 v0] r IH]; intros k v N; simpl.
    - repeat constructor; auto.
    - inversion N; subst. destruct (eqbP k k0); simpl.
      + subst; constructor; auto.
      + constructor; auto. intros H. apply dset_keys_in in H. destruct H; congruence.
  Qed.

  Lemma dset_fresh : forall (d : dict K V) k v, ~ In k (dkeys d) -> dset eqb d k v = d ++ [(k, v)].
  Proof.
    induction d as [|[k0 v0] r IH]; intros k v N; simpl in *; auto.
    destruct (eqbP k k0); [exfalso; apply N; auto|].
    f_equal. apply IH. tauto.
  Qed.

  Lemma dset_same_val : forall (d : dict K V) k v, dget eqb d k = Some v -> dset eqb d k v = d.
  Proof.
    induction d as [|[k0 v0] r IH]; intros k v H; simpl in *; [discriminate|].
    destruct (eqbP k k0).
    - inversion H; subst; auto.
    - f_equal; auto.
  Qed.

  Lemma ddel_keys_in : forall (d : dict K V) k k', NoDup (dkeys d) -> (In k' (dkeys (ddel eqb d k)) <-> k' <> k /\ In k' (dkeys d)).
  Proof.
    induction d as [|[k0 v0] r IH]; intros k k' N; simpl in *; [tauto|].
    inversion N; subst. destruct (eqbP k k0); simpl.
    - subst. split; [|intuition; congruence]. intros H. split; [|auto]. intros ->; auto.
    - rewrite IH by auto. split; [|intuition; congruence]. intros [H|H]; [|intuition]. subst; auto.
  Qed.

  Lemma ddel_nodup : forall (d : dict K V) k, NoDup (dkeys d) -> NoDup (dkeys (ddel eqb d k)).
  Proof.
    induction d as [|[k0 v0] r IH]; intros k N; simpl in *; auto.
    inversion N; subst. destruct (eqbP k k0); auto. simpl. constructor; auto.
    intros H. apply ddel_keys_in in H; auto. tauto.
  Qed.

  Lemma dget_ddel : forall (d : dict K V) k k', NoDup (dkeys d) ->
    dget eqb (ddel eqb d k) k' = if eqb k k' then None else dget eqb d k'.
  Proof.
    induction d as [|[k0 v0] r IH]; intros k k' N; simpl in *.
    - destruct (eqb k k'); auto.
    - inversion N; subst. destruct (eqbP k k0).
      + subst. destruct (eqbP k0 k').
        * subst. apply dget_None; auto.
        * destruct (eqbP k' k0); congruence.
      + simpl. destruct (eqbP k' k0).
        * subst. destruct (eqbP k k0); congruence.
        * apply IH; auto.
  Qed.
End Dict.

Section PySet.
  Context {A : Type} (eqb : A -> A -> bool).
  Hypothesis eqbP : forall x y, reflect (x = y) (eqb x y).

  Lemma smem_In : forall x s, smem eqb x s = true <-> In x s.
  Proof.
    intros. unfold smem. rewrite existsb_exists. split.
    - intros [y [H E]]. destruct (eqbP x y); [subst; auto|discriminate].
    - intros H. exists x. split; auto. destruct (eqbP x x); congruence.
  Qed.

  Lemma smem_false : forall x s, smem eqb x s = false <-> ~ In x s.
  Proof.
    intros. rewrite <- smem_In. destruct (smem eqb x s); split; congruence.
  Qed.

  Lemma sadd_In : forall s x y, In y (sadd eqb s x) <-> y = x \/ In y s.
  Proof.
    intros. unfold sadd. destruct (smem eqb x s) eqn:E.
    - apply smem_In in E. intuition; subst; auto.
    - rewrite in_app_iff; simpl. intuition.
  Qed.

  Lemma sadd_nodup : forall s x, NoDup s -> NoDup (sadd eqb s x).
  Proof.
    intros. unfold sadd. destruct (smem eqb x s) eqn:E; auto.
    apply smem_false in E.
    induction s; simpl.
    - repeat constructor; auto.
    - inversion H; subst. simpl in E. constructor.
      + rewrite in_app_iff; simpl. intuition.
      + apply IHs; auto.
  Qed.

  Lemma srem_In : forall s x y, In y (srem eqb s x) <-> y <> x /\ In y s.
  Proof.
    intros. unfold srem. rewrite filter_In. split.
    - intros [H E]. split; auto. intros ->. destruct (eqbP x x); [discriminate|congruence].
    - intros [N H]. split; auto. destruct (eqbP x y); [congruence|auto].
  Qed.
End PySet.

Lemma pair_eqbP : forall p q : nat * nat, reflect (p = q) (pair_eqb p q).
Proof.
  intros [a b] [c d]. unfold pair_eqb; simpl.
  destruct (Nat.eqb_spec a c), (Nat.eqb_spec b d); simpl; constructor; congruence.
Qed.
