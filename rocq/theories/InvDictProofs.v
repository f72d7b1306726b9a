(** Proofs about the invertible dictionary. *)
From Coq Require Import List Bool.
From Verif Require Import Base BaseFacts InvDict InvDictSpec.
Import ListNotations.

Section Side.
  Context {A B : Type} (aeqb : A -> A -> bool) (beqb : B -> B -> bool).
  Hypothesis aeqbP : forall x y, reflect (x = y) (aeqb x y).
  Hypothesis beqbP : forall x y, reflect (x = y) (beqb x y).

  Definition has (d : dict A (list B)) (a : A) (b : B) : Prop :=
    exists s, dget aeqb d a = Some s /\ In b s.

  Lemma has_rel : forall d a b, NoDup (dkeys d) -> (has d a b <-> dict_rel d a b).
  Proof.
    intros d a b N; unfold has, dict_rel; split; intros [s [H1 H2]]; exists s; split; auto.
    - eapply dget_In; eauto.
    - eapply In_dget; eauto.
  Qed.

  Lemma has_dec : forall d a b, {has d a b} + {~ has d a b}.
  Proof.
    intros. unfold has. destruct (dget aeqb d a) as [s|].
    - destruct (smem beqb b s) eqn:E.
      + left. exists s; split; auto. eapply smem_In; eauto.
      + right. intros [s' [H1 H2]]. inversion H1; subst.
        eapply smem_false in E; eauto.
    - right. intros [s [H _]]; discriminate.
  Qed.

  Lemma side_add_nodup : forall d k v, NoDup (dkeys d) -> NoDup (dkeys (side_add aeqb beqb d k v)).
  Proof.
    intros. unfold side_add.
    set (d' := if dmem aeqb d k then d else dset aeqb d k []).
    assert (NoDup (dkeys d')). { unfold d'. destruct (dmem aeqb d k); auto. apply dset_nodup; auto. }
    destruct (dget aeqb d' k); auto. apply dset_nodup; auto.
  Qed.

  Lemma side_add_has : forall d k v k' v',
    has (side_add aeqb beqb d k v) k' v' <-> (k' = k /\ v' = v) \/ has d k' v'.
  Proof.
    intros. unfold side_add, has.
    unfold dmem. destruct (dget aeqb d k) as [s|] eqn:E; simpl.
    - rewrite E. rewrite dget_dset by auto. destruct (aeqbP k k').
      + subst k'. split.
        * intros [s' [H1 H2]]. inversion H1; subst. apply sadd_In in H2; auto.
          destruct H2; [left; auto|right; eauto].
        * intros [[_ ->]|[s' [H1 H2]]]; eexists; split; eauto; apply sadd_In; auto.
          right. congruence.
      + split; [intros; right; auto|]. intros [[-> _]|H]; [congruence|auto].
    - rewrite dget_dset_same by auto. rewrite dget_dset by auto. destruct (aeqbP k k').
      + subst k'. split.
        * intros [s' [H1 H2]]. inversion H1; subst. simpl in H2. intuition.
        * intros [[_ ->]|[s' [H1 H2]]]; [|congruence].
          eexists; split; eauto. simpl; auto.
      + rewrite dget_dset_other by auto.
        split; [intros; right; auto|]. intros [[-> _]|H]; [congruence|auto].
  Qed.

  Lemma side_add_keys : forall d k v k', In k' (dkeys (side_add aeqb beqb d k v)) <-> k' = k \/ In k' (dkeys d).
  Proof.
    intros. unfold side_add, dmem. destruct (dget aeqb d k) as [s|] eqn:E.
    - rewrite E. rewrite dset_keys_in by auto. tauto.
    - rewrite dget_dset_same by auto. rewrite !dset_keys_in by auto. tauto.
  Qed.

  Lemma side_rem_spec : forall d k v, NoDup (dkeys d) -> has d k v ->
    exists d', side_rem aeqb beqb d k v = Ok d' /\ NoDup (dkeys d') /\
      (forall k', In k' (dkeys d') <-> In k' (dkeys d)) /\
      forall k' v', has d' k' v' <-> has d k' v' /\ ~ (k' = k /\ v' = v).
  Proof.
    intros d k v N [s [E I]]. unfold side_rem. rewrite E.
    rewrite (proj2 (smem_In beqb beqbP v s)) by auto.
    eexists; split; [reflexivity|]. split; [apply dset_nodup; auto|]. split.
    { intros. rewrite dset_keys_in by auto. split; [|auto]. intros [->|]; auto.
      apply (dget_Some_key aeqb aeqbP). eauto. }
    intros. unfold has. rewrite dget_dset by auto. destruct (aeqbP k k').
    - subst k'. split.
      + intros [s' [H1 H2]]. inversion H1; subst. apply srem_In in H2; auto. destruct H2.
        split; [eauto|intuition].
      + intros [[s' [H1 H2]] H3]. rewrite E in H1; inversion H1; subst. eexists; split; eauto.
        apply srem_In; auto.
    - split; [intros H; split; auto; intuition|tauto].
  Qed.
End Side.

Section Inv.
  Context {K V : Type} (keqb : K -> K -> bool) (veqb : V -> V -> bool).
  Hypothesis keqbP : forall x y, reflect (x = y) (keqb x y).
  Hypothesis veqbP : forall x y, reflect (x = y) (veqb x y).

  Lemma invert_inner : forall (k : K) (vs : list V) acc,
    NoDup (dkeys acc) ->
    let r := fold_left (fun acc v => side_add veqb keqb acc v k) vs acc in
    NoDup (dkeys r) /\
    forall v' k', has veqb r v' k' <-> (k' = k /\ In v' vs) \/ has veqb acc v' k'.
  Proof.
    induction vs; intros acc N; simpl.
    - split; auto. intros; intuition.
    - destruct (IHvs (side_add veqb keqb acc a k)) as [N' H'].
      { apply side_add_nodup; auto. }
      split; auto. intros. rewrite H'. rewrite side_add_has by auto. intuition; subst; auto.
  Qed.

  Lemma invert_spec : forall (d : dict K (list V)),
    NoDup (dkeys (invert veqb keqb d)) /\
    forall v k, has veqb (invert veqb keqb d) v k <-> dict_rel d k v.
  Proof.
    intros d. unfold invert.
    assert (G : forall l acc, NoDup (dkeys acc) ->
      let r := fold_left (fun acc kv => fold_left (fun acc v => side_add veqb keqb acc v (fst kv)) (snd kv) acc) l acc in
      NoDup (dkeys r) /\ forall v k, has veqb r v k <-> dict_rel l k v \/ has veqb acc v k).
    { induction l as [|[k0 s0] l IH]; intros acc N; simpl.
      - split; auto. intros. unfold dict_rel. simpl. split; [auto|]. intros [[s [[] _]]|]; auto.
      - destruct (invert_inner k0 s0 acc N) as [N1 H1].
        destruct (IH _ N1) as [N2 H2]. split; auto. intros.
        rewrite H2, H1. unfold dict_rel; simpl. split.
        + intros [[s [I1 I2]]|[[-> I]|H]]; [left; eauto|left; eauto|auto].
        + intros [[s [[E|I1] I2]]|H]; auto.
          * inversion E; subst; auto.
          * left; eauto. }
    destruct (G d [] (NoDup_nil _)) as [N H]. split; auto.
    intros. rewrite H. unfold has. simpl. split; [intros [?|[s [? _]]]; [auto|discriminate]|auto].
  Qed.

  (** The invariant: both existing sides describe relation [R]. *)
  Definition describes (f : idict K V) (R : K -> V -> Prop) : Prop :=
    NoDup (dkeys (fwd f)) /\
    (forall k v, has keqb (fwd f) k v <-> R k v) /\
    match bwd f with
    | None => True
    | Some i => NoDup (dkeys i) /\ forall k v, has veqb i v k <-> R k v
    end.

  Lemma describes_ext : forall f R R', describes f R -> (forall k v, R k v <-> R' k v) -> describes f R'.
  Proof.
    unfold describes. intros f R R' (H1 & H2 & H3) E. repeat split; auto; intros.
    - apply E, H2; auto.
    - apply H2, E; auto.
    - destruct (bwd f); auto. destruct H3 as [N H3]; split; auto. intros. rewrite H3. apply E.
  Qed.

  Lemma mk_describes : forall d df, NoDup (dkeys d) -> describes (mk_idict d df) (dict_rel d).
  Proof.
    intros. unfold describes, mk_idict; simpl. repeat split; auto; apply has_rel; auto.
  Qed.

  Lemma force_describes : forall f R, describes f R -> describes (force_inv keqb veqb f) R.
  Proof.
    intros f R H. unfold force_inv. destruct (bwd f) eqn:E; auto.
    destruct H as (H1 & H2 & H3). unfold describes; simpl.
    destruct (invert_spec (fwd f)) as [N I]. repeat split; auto; try apply H2.
    - intros H. apply H2. apply has_rel; auto. apply I; auto.
    - intros H. apply I. apply has_rel with (aeqb := keqb); auto. apply H2; auto.
  Qed.

  Lemma force_bwd : forall f, exists i, bwd (force_inv keqb veqb f) = Some i.
  Proof. intros. unfold force_inv. destruct (bwd f) eqn:E; simpl; eauto. Qed.

  Lemma force_fwd : forall f, fwd (force_inv keqb veqb f) = fwd f.
  Proof. intros. unfold force_inv. destruct (bwd f) eqn:E; simpl; eauto. Qed.

  Lemma force_dflt : forall f, dflt (force_inv keqb veqb f) = dflt f.
  Proof. intros. unfold force_inv. destruct (bwd f) eqn:E; simpl; eauto. Qed.

  Lemma add_describes : forall f R k v, describes f R ->
    describes (add keqb veqb f k v) (fun k' v' => (k' = k /\ v' = v) \/ R k' v').
  Proof.
    intros f R k v (H1 & H2 & H3). unfold describes, add; simpl. split; [|split].
    - apply side_add_nodup; auto.
    - intros. rewrite side_add_has by auto. rewrite H2. tauto.
    - destruct (bwd f); simpl; auto. destruct H3 as [N H3]. split.
      + apply side_add_nodup; auto.
      + intros. rewrite side_add_has by auto. rewrite H3. tauto.
  Qed.

  Lemma remove_ok : forall f R k v, describes f R -> R k v ->
    exists f', remove keqb veqb f k v = Ok f' /\ dflt f' = dflt f /\
      (forall k', In k' (dkeys (fwd f')) <-> In k' (dkeys (fwd f))) /\
      describes f' (fun k' v' => R k' v' /\ ~ (k' = k /\ v' = v)).
  Proof.
    intros f R k v (H1 & H2 & H3) HR. unfold remove.
    assert (Hh : has keqb (fwd f) k v) by (apply H2; auto).
    pose proof Hh as [s [E I]].
    unfold dmem; rewrite E; simpl. rewrite (proj2 (smem_In veqb veqbP v s)) by auto. simpl.
    destruct (side_rem_spec keqb veqb keqbP veqbP (fwd f) k v H1 Hh) as (d' & Ed & Nd & Kd & Hd).
    rewrite Ed; simpl.
    destruct (bwd f) as [i|] eqn:Eb.
    - destruct H3 as [N H3]. assert (Hi : has veqb i v k) by (apply H3; auto).
      destruct (side_rem_spec veqb keqb veqbP keqbP i v k N Hi) as (i' & Ei & Ni & Ki & Hi').
      rewrite Ei; simpl. eexists; split; [reflexivity|]. simpl. split; auto. split; auto.
      unfold describes; simpl. repeat split; auto.
      + apply Hd in H; destruct H. apply H2; auto.
      + apply Hd in H; destruct H. auto.
      + intros [H H']. apply Hd. split; auto. apply H2; auto.
      + apply Hi' in H; destruct H. apply H3; auto.
      + apply Hi' in H; destruct H. intuition.
      + intros [H H']. apply Hi'. split; [apply H3; auto|intuition].
    - eexists; split; [reflexivity|]. simpl. split; auto. split; auto.
      unfold describes; simpl. repeat split; auto.
      + apply Hd in H; destruct H. apply H2; auto.
      + apply Hd in H; destruct H. auto.
      + intros [H H']. apply Hd. split; auto. apply H2; auto.
  Qed.

  Lemma remove_err : forall f R k v, describes f R -> ~ R k v ->
    remove keqb veqb f k v = Err AssertionError.
  Proof.
    intros f R k v (H1 & H2 & H3) HR. unfold remove, dmem.
    destruct (dget keqb (fwd f) k) as [s|] eqn:E; simpl; auto.
    destruct (smem veqb v s) eqn:Em; simpl; auto.
    exfalso. apply HR. apply H2. exists s; split; auto. eapply smem_In; eauto.
  Qed.

  Lemma inv_add_eq : forall f v k,
    inv_add keqb veqb f v k = add keqb veqb (force_inv keqb veqb f) k v.
  Proof.
    intros. unfold inv_add, add. destruct (force_bwd f) as [i ->]. reflexivity.
  Qed.

  Lemma inv_remove_ok : forall f R k v, describes f R -> R k v ->
    exists f', inv_remove keqb veqb f v k = Ok f' /\ dflt f' = dflt f /\
      (forall k', In k' (dkeys (fwd f')) <-> In k' (dkeys (fwd f))) /\
      describes f' (fun k' v' => R k' v' /\ ~ (k' = k /\ v' = v)).
  Proof.
    intros f R k v H HR. apply force_describes in H.
    unfold inv_remove. rewrite <- (force_dflt f). rewrite <- (force_fwd f).
    destruct (force_bwd f) as [i Eb]. set (g := force_inv keqb veqb f) in *. rewrite Eb.
    destruct H as (H1 & H2 & H3). rewrite Eb in H3. destruct H3 as [N H3].
    assert (Hh : has keqb (fwd g) k v) by (apply H2; auto).
    assert (Hi : has veqb i v k) by (apply H3; auto).
    pose proof Hi as [s [E I]].
    unfold dmem; rewrite E; simpl. rewrite (proj2 (smem_In keqb keqbP k s)) by auto. simpl.
    destruct (side_rem_spec keqb veqb keqbP veqbP (fwd g) k v H1 Hh) as (d' & Ed & Nd & Kd & Hd).
    destruct (side_rem_spec veqb keqb veqbP keqbP i v k N Hi) as (i' & Ei & Ni & Ki & Hi').
    rewrite Ei; simpl. rewrite Ed; simpl.
    eexists; split; [reflexivity|]. simpl. split; auto. split; auto.
    unfold describes; simpl. repeat split; auto.
    + apply Hd in H; destruct H. apply H2; auto.
    + apply Hd in H; destruct H. auto.
    + intros [H H']. apply Hd. split; auto. apply H2; auto.
    + apply Hi' in H; destruct H. apply H3; auto.
    + apply Hi' in H; destruct H. intuition.
    + intros [H H']. apply Hi'. split; [apply H3; auto|intuition].
  Qed.

  Lemma inv_remove_err : forall f R k v, describes f R -> ~ R k v ->
    inv_remove keqb veqb f v k = Err AssertionError.
  Proof.
    intros f R k v H HR. apply force_describes in H. unfold inv_remove.
    destruct (force_bwd f) as [i Eb]. rewrite Eb.
    destruct H as (H1 & H2 & H3). rewrite Eb in H3. destruct H3 as [N H3].
    unfold dmem. destruct (dget veqb i v) as [s|] eqn:E; simpl; auto.
    destruct (smem keqb k s) eqn:Em; simpl; auto.
    exfalso. apply HR. apply H3. exists s; split; auto. eapply smem_In; eauto.
  Qed.

  Lemma step_describes : forall f R o, describes f R ->
    describes (fst (step keqb veqb f o)) (spec_step R o) /\
    spec_raises R o (snd (step keqb veqb f o)) /\
    dflt (fst (step keqb veqb f o)) = dflt f /\
    (forall k, In k (dkeys (fwd (fst (step keqb veqb f o)))) <-> In k (dkeys (fwd f)) \/ adds_key k o).
  Proof.
    intros f R o H. destruct o as [k v|k v| |v k|v k]; simpl.
    - split; [apply add_describes; auto|]. split; auto. split; auto.
      intros. unfold add; simpl. rewrite side_add_keys by auto. tauto.
    - assert (D : {R k v} + {~ R k v}).
      { destruct H as (H1 & H2 & _). destruct (has_dec keqb veqb veqbP (fwd f) k v).
        - left; apply H2; auto. - right; rewrite <- H2; auto. }
      destruct D as [HR|HR].
      + destruct (remove_ok f R k v H HR) as (f' & -> & E1 & E2 & E3). simpl.
        split; auto. split; [left; auto|]. split; auto. intros. rewrite E2. tauto.
      + rewrite (remove_err f R k v) by auto. simpl. split.
        * eapply describes_ext; [eauto|]. intros k' v'; split; [|tauto].
          intros; split; auto. intros [-> ->]; auto.
        * split; [right; auto|]. split; auto. tauto.
    - split; [apply force_describes; auto|]. split; auto. split; [apply force_dflt|].
      intros. rewrite force_fwd. tauto.
    - rewrite inv_add_eq. split; [apply add_describes, force_describes; auto|]. split; auto.
      split; [simpl; apply force_dflt|].
      intros. unfold add; simpl. rewrite side_add_keys by auto. rewrite force_fwd. tauto.
    - assert (D : {R k v} + {~ R k v}).
      { destruct H as (H1 & H2 & _). destruct (has_dec keqb veqb veqbP (fwd f) k v).
        - left; apply H2; auto. - right; rewrite <- H2; auto. }
      destruct D as [HR|HR].
      + destruct (inv_remove_ok f R k v H HR) as (f' & -> & E1 & E2 & E3). simpl.
        split; auto. split; [left; auto|]. split; auto. intros. rewrite E2. tauto.
      + rewrite (inv_remove_err f R k v) by auto. simpl. split.
        * eapply describes_ext; [apply force_describes; eauto|]. intros k' v'; split; [|tauto].
          intros; split; auto. intros [-> ->]; auto.
        * split; [right; auto|]. split; [apply force_dflt|]. rewrite force_fwd. tauto.
  Qed.

  Lemma run_describes : forall os f R, describes f R ->
    describes (run keqb veqb f os) (spec_run R os) /\
    dflt (run keqb veqb f os) = dflt f /\
    (forall k, In k (dkeys (fwd (run keqb veqb f os))) <-> In k (dkeys (fwd f)) \/ Exists (adds_key k) os).
  Proof.
    induction os; intros f R H; simpl.
    - split; auto. split; auto. intros. rewrite Exists_nil. tauto.
    - destruct (step_describes f R a H) as (H1 & _ & H3 & H4).
      destruct (IHos _ _ H1) as (J1 & J2 & J3). split; auto. split; [congruence|].
      intros. rewrite J3, H4, Exists_cons. tauto.
  Qed.

  Lemma get_describes : forall f R k v, describes f R ->
    ((exists s, get keqb f k = Ok s /\ In v s) <-> R k v).
  Proof.
    intros f R k v (H1 & H2 & _). rewrite <- H2. unfold has, get.
    destruct (dget keqb (fwd f) k).
    - split; intros [s [E I]]; inversion E; subst; eauto.
    - split; [|intros [s [E I]]; discriminate]. intros [s [E I]].
      destruct (dflt f); inversion E; subst. inversion I.
  Qed.

  Lemma inv_get_describes : forall f R k v, describes f R ->
    ((exists s, inv_get keqb veqb f v = Ok s /\ In k s) <-> R k v).
  Proof.
    intros f R k v H. apply force_describes in H. destruct H as (H1 & H2 & H3). unfold inv_get.
    destruct (force_bwd f) as [i Ei]. rewrite Ei in H3 |- *. destruct H3 as [N H3].
    rewrite <- H3. unfold has.
    destruct (dget veqb i v).
    - split; intros [s [E I]]; inversion E; subst; eauto.
    - split; [|intros [s [E I]]; discriminate]. intros [s [E I]].
      destruct (dflt f); inversion E; subst. inversion I.
  Qed.

  Lemma C01_lemma : forall d df os, NoDup (dkeys d) ->
    let f := run keqb veqb (mk_idict d df) os in
    let R := spec_run (dict_rel d) os in
    (forall k v, (exists s, get keqb f k = Ok s /\ In v s) <-> R k v) /\
    (forall k v, (exists s, inv_get keqb veqb f v = Ok s /\ In k s) <-> R k v) /\
    (forall o, spec_raises R o (snd (step keqb veqb f o))) /\
    (forall k e, get keqb f k = Err e <->
       e = KeyError /\ df = false /\ ~ In k (dkeys d) /\ ~ Exists (adds_key k) os).
  Proof.
    intros d df os N f R.
    destruct (run_describes os (mk_idict d df) (dict_rel d) (mk_describes d df N)) as (H1 & H2 & H3).
    fold f in H1, H2, H3. fold R in H1. simpl in H2, H3.
    split; [intros; apply get_describes; auto|].
    split; [intros; apply inv_get_describes; auto|].
    split; [intros; apply step_describes; auto|].
    intros k e. unfold get. specialize (H3 k).
    destruct (dget keqb (fwd f) k) eqn:E.
    - split; [discriminate|]. intros (_ & _ & N1 & N2). exfalso.
      assert (In k (dkeys (fwd f))) by (apply (dget_Some_key keqb keqbP); eauto). tauto.
    - apply (dget_None keqb keqbP) in E. rewrite H2.
      destruct df; split; try discriminate.
      + intros (_ & ? & _); discriminate.
      + intros H; inversion H; subst. tauto.
      + intros (-> & _); auto.
  Qed.
End Inv.
