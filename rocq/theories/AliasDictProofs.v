(** Proofs about shared set objects. *)
From Coq Require Import List Arith Bool Lia.
From Verif Require Import Base BaseFacts InvDict AliasDict.
Import ListNotations.

Section P.
  Context {K V : Type} (keqb : K -> K -> bool) (veqb : V -> V -> bool)
          (keqbP : forall x y, reflect (x = y) (keqb x y)) (veqbP : forall x y, reflect (x = y) (veqb x y)).

  (** [A]/[B]: cells of the other object that must not change. *)
  Definition frame (A B : list nat) (h h' : heap K V) : Prop :=
    length (hv h) <= length (hv h') /\ length (hk h) <= length (hk h') /\
    (forall a, In a A -> nth a (hv h') [] = nth a (hv h) []) /\
    (forall a, In a B -> nth a (hk h') [] = nth a (hk h) []).

  (** Cells of the object in use, for the keys in use, are not among them. *)
  Definition separate (ks : K -> Prop) (A B : list nat) (h : heap K V) (o : hobj K V) : Prop :=
    (forall a, In a A -> a < length (hv h)) /\ (forall a, In a B -> a < length (hk h)) /\
    (forall k a, ks k -> dget keqb (hf o) k = Some a -> ~ In a A) /\
    (forall i v a, hb o = Some i -> dget veqb i v = Some a -> ~ In a B).

  Lemma dget_combine : forall (l : list V) n v a, dget veqb (combine l (seq n (length l))) v = Some a -> n <= a.
  Proof.
    induction l; simpl; intros n v a' H; [discriminate|].
    destruct (veqb v a); [inversion H; lia|]. apply IHl in H. lia.
  Qed.

  Lemma cell_add_facts : forall A B (aeqb : A -> A -> bool) (beqb : B -> B -> bool)
      (aP : forall x y, reflect (x = y) (aeqb x y))
      (cells : list (list B)) (d : dict A nat) k v cs d' (F : list nat),
    (forall a, In a F -> a < length cells) ->
    (forall a, dget aeqb d k = Some a -> ~ In a F) ->
    cell_add aeqb beqb cells d k v = (cs, d') ->
    length cells <= length cs /\ (forall a, In a F -> nth a cs [] = nth a cells []) /\
    (forall k' a, dget aeqb d' k' = Some a -> dget aeqb d k' = Some a \/ ~ In a F).
  Proof.
    intros A B aeqb beqb aP cells d k v cs d' F H1 H2 E. unfold cell_add in E.
    destruct (dget aeqb d k) as [a|] eqn:Ek; inversion E; subst.
    - split; [rewrite upd_length; lia|]. split; [|auto].
      intros b Hb. apply nth_upd_other. intros ->. apply (H2 b); auto.
    - split; [rewrite app_length; lia|]. split.
      + intros b Hb. apply app_nth1; auto.
      + intros k' a Ha. rewrite (dget_dset aeqb aP) in Ha. destruct (aeqb k k').
        * inversion Ha; subst. right. intros Hin. apply H1 in Hin. lia.
        * auto.
  Qed.

  Lemma hstep_frame : forall (ks : K -> Prop) A B h o op h' o',
    (forall k, hop_key op = Some k -> ks k) ->
    separate ks A B h o -> hstep keqb veqb (h, o) op = (h', o') ->
    frame A B h h' /\ separate ks A B h' o'.
  Proof.
    intros ks A B h o op h' o' Hk (S1 & S2 & S3 & S4) E. destruct op as [k v|k v|]; simpl in E, Hk.
    - unfold hadd in E. destruct (cell_add keqb veqb (hv h) (hf o) k v) as [cv f'] eqn:E1.
      destruct (cell_add_facts _ _ keqb veqb keqbP _ _ _ _ _ _ A S1 (fun a => S3 k a (Hk k eq_refl)) E1) as (L1 & N1 & D1).
      destruct (hb o) as [i|] eqn:Eb.
      + destruct (cell_add veqb keqb (hk h) i v k) as [ck i'] eqn:E2. inversion E; subst.
        destruct (cell_add_facts _ _ veqb keqb veqbP _ _ _ _ _ _ B S2 (fun a => S4 i v a eq_refl) E2) as (L2 & N2 & D2).
        split; [repeat split; auto|].
        repeat split; simpl.
        * intros a Ha. apply S1 in Ha. lia.
        * intros a Ha. apply S2 in Ha. lia.
        * intros k' a Hk' Ha. destruct (D1 k' a Ha); eauto.
        * intros j w a Hj Ha. inversion Hj; subst. destruct (D2 w a Ha); eauto.
      + inversion E; subst. split; [repeat split; auto|].
        repeat split; simpl; auto.
        * intros a Ha. apply S1 in Ha. lia.
        * intros k' a Hk' Ha. destruct (D1 k' a Ha); eauto.
    - unfold hremove in E. destruct (dget keqb (hf o) k) as [a|] eqn:Ek.
      2:{ inversion E; subst. split; [|split; auto]. repeat split; auto. }
      destruct (smem veqb v (nth a (hv h) [])).
      2:{ inversion E; subst. split; [|split; auto]. repeat split; auto. }
      assert (Na : ~ In a A) by (eapply S3; eauto).
      assert (F1 : forall b, In b A -> nth b (upd (hv h) a (srem veqb (nth a (hv h) []) v)) [] = nth b (hv h) []).
      { intros b Hb. apply nth_upd_other. intros ->; auto. }
      destruct (hb o) as [i|] eqn:Eb.
      + unfold cell_rem in E. destruct (dget veqb i v) as [b|] eqn:Ei.
        * assert (Nb : ~ In b B) by (eapply S4; eauto).
          destruct (smem keqb k (nth b (hk h) [])); inversion E; subst.
          -- split.
             ++ repeat split; simpl; auto; try (rewrite upd_length; auto).
                intros c Hc. apply nth_upd_other. intros ->; auto.
             ++ repeat split; simpl; auto; try (rewrite upd_length; auto).
                intros j w c Hj. rewrite Eb in Hj. inversion Hj; subst. eauto.
          -- split.
             ++ repeat split; simpl; auto; try (rewrite upd_length; auto).
             ++ repeat split; simpl; auto; try (rewrite upd_length; auto).
                intros j w c Hj. rewrite Eb in Hj. inversion Hj; subst. eauto.
        * inversion E; subst. split.
          -- repeat split; simpl; auto; try (rewrite upd_length; auto).
          -- repeat split; simpl; auto; try (rewrite upd_length; auto).
             intros j w c Hj. rewrite Eb in Hj. inversion Hj; subst. eauto.
      + inversion E; subst. split.
        * repeat split; simpl; auto; try (rewrite upd_length; auto).
        * repeat split; simpl; auto; try (rewrite upd_length; auto).
          intros j w c Hj. congruence.
    - unfold hforce in E. destruct (hb o) as [i|] eqn:Eb.
      + inversion E; subst. split; [repeat split; auto|]. repeat split; auto.
        intros j w c Hj. rewrite Eb in Hj. inversion Hj; subst. eauto.
      + set (i := invert veqb keqb (deref (hv h) (hf o))) in *. inversion E; subst. split.
        * repeat split; simpl; auto; [rewrite app_length; lia|].
          intros a Ha. apply app_nth1; auto.
        * repeat split; simpl; auto.
          -- intros a Ha. rewrite app_length. apply S2 in Ha. lia.
          -- intros j w c Hj Hc Hin. inversion Hj; subst.
             rewrite <- (map_length fst i) in Hc. apply dget_combine in Hc. apply S2 in Hin. lia.
  Qed.

  Lemma hrun_frame : forall (ks : K -> Prop) A B ops h o h' o',
    (forall op k, In op ops -> hop_key op = Some k -> ks k) ->
    separate ks A B h o -> hrun keqb veqb (h, o) ops = (h', o') -> frame A B h h'.
  Proof.
    induction ops as [|op ops IH]; intros h o h' o' Hk HS E.
    - simpl in E. inversion E; subst. repeat split; auto.
    - change (hrun keqb veqb (hstep keqb veqb (h, o) op) ops = (h', o')) in E.
      destruct (hstep keqb veqb (h, o) op) as [h1 o1] eqn:E1.
      destruct (hstep_frame ks A B h o op h1 o1) as [F1 S1]; auto.
      { intros k Hk'. apply (Hk op); simpl; auto. }
      destruct (IH h1 o1 h' o') as (L1 & L2 & N1 & N2); auto.
      { intros op' k Hin. apply Hk. right; auto. }
      destruct F1 as (L1' & L2' & N1' & N2').
      split; [lia|]. split; [lia|].
      split; intros a Ha; [rewrite N1, N1'|rewrite N2, N2']; auto.
  Qed.

  (** All cells an object refers to. *)
  Definition vcells (o : hobj K V) : list nat := map snd (hf o).
  Definition kcells (o : hobj K V) : list nat := match hb o with Some i => map snd i | None => [] end.

  Lemma dget_snd : forall X (eqb : X -> X -> bool) (P : forall x y, reflect (x = y) (eqb x y)) (d : dict X nat) k a, dget eqb d k = Some a -> In a (map snd d).
  Proof. intros. apply (in_map snd) with (x := (k, a)). apply (dget_In eqb P). auto. Qed.

  Lemma frame_hget : forall h h' o, frame (vcells o) (kcells o) h h' ->
    (forall k, hget keqb h' o k = hget keqb h o k) /\
    (forall v, hinv_get keqb veqb h' o v = hinv_get keqb veqb h o v).
  Proof.
    intros h h' o (L1 & L2 & N1 & N2). split.
    - intros k. unfold hget. destruct (dget keqb (hf o) k) eqn:E; auto. rewrite N1; auto.
      apply (dget_snd K keqb keqbP) in E. auto.
    - intros v. unfold hinv_get, hforce. destruct (hb o) as [i|] eqn:Eb.
      + rewrite Eb. destruct (dget veqb i v) eqn:E; auto. rewrite N2; auto.
        unfold kcells. rewrite Eb. apply (dget_snd V veqb veqbP) in E. auto.
      + assert (D : deref (hv h') (hf o) = deref (hv h) (hf o)).
        { unfold deref. apply map_ext_in. intros [k a] Hin. simpl. rewrite N1; auto.
          unfold vcells. apply in_map_iff. exists (k, a); auto. }
        rewrite D. set (i := invert veqb keqb (deref (hv h) (hf o))). simpl.
        assert (G : forall n (l : dict V (list K)) pre, length pre = n ->
          match dget veqb (combine (map fst l) (seq n (length l))) v with
          | Some a => Ok (nth a (pre ++ map snd l) [])
          | None => if hd o then Ok [] else Err KeyError end =
          match dget veqb l v with Some s => Ok s | None => if hd o then Ok [] else Err KeyError end).
        { intros n l. revert n. induction l as [|[x s] l IH]; intros n pre Hn; simpl; auto.
          destruct (veqb v x).
          - rewrite app_nth2 by lia. rewrite Hn, Nat.sub_diag. auto.
          - rewrite <- (IH (S n) (pre ++ [s])).
            + rewrite <- app_assoc. auto.
            + rewrite app_length; simpl; lia. }
        rewrite (G _ i (hk h') eq_refl), (G _ i (hk h) eq_refl). auto.
  Qed.

  (** Operations on one object, for keys whose set objects are not shared
      with the other one, do not change the other one. *)
  Lemma C02_partial_lemma : forall (h : heap K V) (o1 o2 : hobj K V) ops h' o1',
    (forall a, In a (vcells o2) -> a < length (hv h)) -> (forall a, In a (kcells o2) -> a < length (hk h)) ->
    (forall op k a, In op ops -> hop_key op = Some k -> dget keqb (hf o1) k = Some a -> ~ In a (vcells o2)) ->
    (forall a, In a (kcells o1) -> ~ In a (kcells o2)) ->
    hrun keqb veqb (h, o1) ops = (h', o1') ->
    (forall k, hget keqb h' o2 k = hget keqb h o2 k) /\
    (forall v, hinv_get keqb veqb h' o2 v = hinv_get keqb veqb h o2 v).
  Proof.
    intros h o1 o2 ops h' o1' H1 H2 H3 H4 E. apply frame_hget.
    apply (hrun_frame (fun k => exists op, In op ops /\ hop_key op = Some k) _ _ ops h o1 h' o1'); auto.
    - eauto.
    - repeat split; auto.
      + intros k a (op & Ho & Hk) Ha. eapply H3; eauto.
      + intros i v a Hi Ha. apply H4. unfold kcells. rewrite Hi. apply (dget_snd V veqb veqbP) in Ha. auto.
  Qed.
End P.

(** Two objects from the dictionary {1: {10}}: adding to the first changes
    the second, whose inverse then disagrees with it. *)
Lemma C02_refuted_lemma :
  exists (h : heap nat nat) (d : dict nat nat) (ops : list (hop nat nat)),
    let o2 := hnew (K := nat) (V := nat) d true in
    let '(h1, o2) := hforce Nat.eqb Nat.eqb h o2 in
    let '(h2, _) := hrun Nat.eqb Nat.eqb (h1, hnew d true) ops in
    (exists k, hget Nat.eqb h2 o2 k <> hget Nat.eqb h1 o2 k) /\
    (exists k v s, hget Nat.eqb h2 o2 k = Ok s /\ In v s /\
       forall s', hinv_get Nat.eqb Nat.eqb h2 o2 v = Ok s' -> ~ In k s').
Proof.
  exists (MkHeap [[10]] []), [(1, 0)], [HAdd 1 11]. vm_compute. split.
  - exists 1. discriminate.
  - exists 1, 11, [10; 11]. split; auto. split; auto. intros s' H. inversion H. auto.
Qed.
