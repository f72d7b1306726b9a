(** Proofs about treaps. *)
From Coq Require Import List ZArith Arith Bool Lia.
From Verif Require Import Base BaseFacts Treap TreapSpec.
Import ListNotations.

Lemma bst_nodup : forall t, bst t -> NoDup (elems t).
Proof.
  induction t; simpl; intros H; [constructor|].
  destruct H as (H1 & H2 & H3 & H4). constructor.
  - rewrite in_app_iff. intros [H|H]; [apply H1 in H|apply H2 in H]; lia.
  - assert (D : forall x, In x (elems t1) -> ~ In x (elems t2)).
    { intros x Hx Hy. apply H1 in Hx; apply H2 in Hy; lia. }
    revert D. generalize (IHt1 H3) (IHt2 H4). clear.
    induction (elems t1); simpl; intros N1 N2 D; auto.
    inversion N1; subst. constructor; auto.
    rewrite in_app_iff. intros [H|H]; auto. apply (D a); auto.
Qed.

Lemma tsize_sized : forall t, sized t -> tsize t = length (elems t).
Proof.
  destruct t; simpl; auto. intros (-> & _ & _). rewrite app_length. lia.
Qed.

Lemma in_treap_spec : forall t x, bst t -> (in_treap t x = true <-> In x (elems t)).
Proof.
  induction t; simpl; intros x H; [split; [discriminate|tauto]|].
  destruct H as (H1 & H2 & H3 & H4).
  destruct (Nat.eqb_spec x key); [subst; tauto|].
  rewrite in_app_iff. destruct (Nat.ltb_spec x key).
  - rewrite IHt1 by auto. split; auto. intros [?|[?|Hr]]; [congruence|auto|]. apply H2 in Hr; lia.
  - rewrite IHt2 by auto. split; auto. intros [?|[Hl|?]]; [congruence| |auto]. apply H1 in Hl; lia.
Qed.

Lemma mk_node_sized : forall l k h r, sized l -> sized r -> sized (mk_node l k h r).
Proof.
  intros. unfold mk_node; simpl. rewrite !tsize_sized by auto. repeat split; auto; lia.
Qed.

Lemma split_spec : forall t k a b, bst t -> sized t -> split_treap t k = (a, b) ->
  bst a /\ bst b /\ sized a /\ sized b /\
  (forall x, In x (elems a) <-> In x (elems t) /\ x < k) /\
  (forall x, In x (elems b) <-> In x (elems t) /\ k < x) /\
  (forall p, heap_le p t -> heap_le p a /\ heap_le p b).
Proof.
  induction t; intros k a b HB HS E; simpl in E.
  - inversion E; subst; simpl. tauto.
  - destruct HB as (B1 & B2 & B3 & B4). destruct HS as (S1 & S2 & S3).
    destruct (Nat.eqb_spec k key).
    + inversion E; subst. split; auto. split; auto. split; auto. split; auto. split; [|split].
      * intros x; simpl. rewrite in_app_iff. split; [intros HI; split; auto|].
        intros [[->|[HI|HI]] HL]; [lia|auto|]. apply B2 in HI; lia.
      * intros x; simpl. rewrite in_app_iff. split; [intros HI; split; auto|].
        intros [[->|[HI|HI]] HL]; [lia| |auto]. apply B1 in HI; lia.
      * simpl. intros p (P0 & P1 & P2). split.
        { clear - P0 P1. destruct a; simpl in *; auto. destruct P1 as (? & ? & ?); repeat split; auto; lia. }
        { clear - P0 P2. destruct b; simpl in *; auto. destruct P2 as (? & ? & ?); repeat split; auto; lia. }
    + destruct (Nat.ltb_spec k key).
      * destruct (split_treap t1 k) as [ra rb] eqn:E1. inversion E; subst.
        destruct (IHt1 k a rb B3 S2 E1) as (Q1 & Q2 & Q3 & Q4 & Q5 & Q6 & Q7).
        split; auto. split.
        { simpl. repeat split; auto. intros x Hx. apply Q6 in Hx. apply B1; tauto. }
        split; auto. split; [apply mk_node_sized; auto|]. split; [|split].
        { intros x; simpl. rewrite Q5, in_app_iff. split; [tauto|].
          intros [[->|[HI|HI]] HL]; [lia|auto|]. apply B2 in HI; lia. }
        { intros x; simpl. rewrite !in_app_iff, Q6. split.
          - intros [->|[[? ?]|HI]]; [split; auto; lia|tauto|]. split; auto. apply B2 in HI; lia.
          - intros [[->|[HI|HI]] HL]; auto. }
        { simpl. intros p (P0 & P1 & P2). destruct (Q7 _ P1) as [P3 P4]. split.
          - clear - P0 P3. destruct a; simpl in *; auto. destruct P3 as (? & ? & ?); repeat split; auto; lia.
          - auto. }
      * destruct (split_treap t2 k) as [ra rb] eqn:E1. inversion E; subst.
        destruct (IHt2 k ra b B4 S3 E1) as (Q1 & Q2 & Q3 & Q4 & Q5 & Q6 & Q7).
        split. { simpl. repeat split; auto. intros x Hx. apply Q5 in Hx. apply B2; tauto. }
        split; auto. split; [apply mk_node_sized; auto|]. split; auto. split; [|split].
        { intros x; simpl. rewrite !in_app_iff, Q5. split.
          - intros [->|[HI|[? ?]]]; [split; auto; lia| |tauto]. split; auto. apply B1 in HI; lia.
          - intros [[->|[HI|HI]] HL]; auto. }
        { intros x; simpl. rewrite Q6, in_app_iff. split; [tauto|].
          intros [[->|[HI|HI]] HL]; [lia| |auto]. apply B1 in HI; lia. }
        { simpl. intros p (P0 & P1 & P2). destruct (Q7 _ P2) as [P3 P4]. split.
          - auto.
          - clear - P0 P4. destruct b; simpl in *; auto. destruct P4 as (? & ? & ?); repeat split; auto; lia. }
Qed.

Lemma heap_le_ordered : forall p t, heap_le p t -> heap_ordered t.
Proof. destruct t; simpl; tauto. Qed.

Lemma heap_le_weaken : forall p q t, heap_le p t -> (p <= q)%Z -> heap_le q t.
Proof. destruct t; simpl; auto. intros (? & ? & ?) ?; repeat split; auto; lia. Qed.

Lemma insert_spec : forall t k h, bst t -> sized t ->
  bst (insert t k h) /\ sized (insert t k h) /\
  (forall x, In x (elems (insert t k h)) <-> x = k \/ In x (elems t)) /\
  (forall p, heap_le p t -> (h <= p)%Z -> heap_le p (insert t k h)).
Proof.
  induction t; intros k h HB HS.
  - simpl. repeat split; auto; try tauto; intuition.
  - pose proof HB as HB'. pose proof HS as HS'.
    destruct HB as (B1 & B2 & B3 & B4). destruct HS as (S1 & S2 & S3).
    cbn [insert]. destruct (Nat.eqb_spec key k).
    + subst k. split; auto. split; auto. split; [|auto].
      intros x; simpl. intuition.
    + destruct (heap >? h)%Z eqn:EH.
      * apply Z.gtb_lt in EH. destruct (Nat.ltb_spec k key).
        { destruct (IHt1 k h B3 S2) as (Q1 & Q2 & Q3 & Q4). split; [|split; [|split]].
          - simpl. repeat split; auto. intros x Hx. apply Q3 in Hx. destruct Hx; [lia|auto].
          - apply mk_node_sized; auto.
          - intros x; simpl. rewrite !in_app_iff, Q3. tauto.
          - simpl. intros p (P0 & P1 & P2) Hp. repeat split; auto. apply Q4; auto. lia. }
        { destruct (IHt2 k h B4 S3) as (Q1 & Q2 & Q3 & Q4). split; [|split; [|split]].
          - simpl. repeat split; auto. intros x Hx. apply Q3 in Hx. destruct Hx; [lia|auto].
          - apply mk_node_sized; auto.
          - intros x; simpl. rewrite !in_app_iff, Q3. tauto.
          - simpl. intros p (P0 & P1 & P2) Hp. repeat split; auto. apply Q4; auto. lia. }
      * assert (EH' : (heap <= h)%Z). { rewrite Z.gtb_ltb in EH. apply Z.ltb_ge in EH. auto. }
        destruct (split_treap (TNode t1 key heap size t2) k) as [a b] eqn:E.
        destruct (split_spec _ k a b HB' HS' E) as (Q1 & Q2 & Q3 & Q4 & Q5 & Q6 & Q7).
        split; [|split; [|split]].
        { simpl. repeat split; auto; intros x Hx; [apply Q5 in Hx|apply Q6 in Hx]; tauto. }
        { apply mk_node_sized; auto. }
        { intros x. cbn [elems mk_node]. unfold mk_node; cbn [elems]. split.
          - intros [->|H]; auto. apply in_app_iff in H. rewrite Q5, Q6 in H. tauto.
          - intros [->|H]; [left; auto|]. destruct (Nat.lt_trichotomy x k) as [L|[->|L]].
            + right. apply in_app_iff; left. apply Q5; auto.
            + left; auto.
            + right. apply in_app_iff; right. apply Q6; auto. }
        { intros p HP Hp. unfold mk_node; simpl. split; auto.
          simpl in HP. destruct HP as (P0 & P1 & P2).
          assert (HH : heap_le h (TNode t1 key heap size t2)) by (simpl; auto).
          apply Q7 in HH. tauto. }
Qed.

Lemma insert_heap : forall t k h, bst t -> sized t -> heap_ordered t -> heap_ordered (insert t k h).
Proof.
  intros t k h HB HS HO. destruct t as [|l k0 h0 n r].
  - simpl; auto.
  - destruct (insert_spec (TNode l k0 h0 n r) k h HB HS) as (_ & _ & _ & Q).
    apply heap_le_ordered with (p := Z.max h h0). apply Q; [|lia].
    simpl in *. destruct HO. repeat split; auto. lia.
Qed.

(** All invariants together. *)
Definition wf_treap (t : treap) : Prop := bst t /\ sized t /\ heap_ordered t.

Lemma wf_null : wf_treap TNull.
Proof. repeat split; simpl; auto. Qed.

Lemma wf_add : forall t k h, wf_treap t -> wf_treap (add_to_treap t k h).
Proof.
  intros t k h (H1 & H2 & H3). unfold add_to_treap.
  destruct (insert_spec t k h H1 H2) as (Q1 & Q2 & _ & _).
  repeat split; auto. apply insert_heap; auto.
Qed.

Lemma elems_add : forall t k h x, wf_treap t -> (In x (elems (add_to_treap t k h)) <-> x = k \/ In x (elems t)).
Proof. intros t k h x (H1 & H2 & H3). apply insert_spec; auto. Qed.

Lemma in_treap_add : forall t k h x, wf_treap t ->
  in_treap (add_to_treap t k h) x = (x =? k) || in_treap t x.
Proof.
  intros. apply eq_true_iff_eq. rewrite orb_true_iff.
  rewrite !in_treap_spec by (try apply wf_add; try apply H; auto; apply wf_add; auto).
  rewrite elems_add by auto. rewrite Nat.eqb_eq. tauto.
Qed.

Lemma wf_insert_all : forall l t, wf_treap t -> wf_treap (insert_all t l) /\
  (forall x, In x (elems (insert_all t l)) <-> In x (map fst l) \/ In x (elems t)).
Proof.
  induction l as [|[k h] l IH]; intros t H; simpl.
  - split; auto. tauto.
  - destruct (IH (add_to_treap t k h) (wf_add _ _ _ H)) as [Q1 Q2]. split; auto.
    intros. rewrite Q2, elems_add by auto. intuition.
Qed.

Lemma elems_length_distinct : forall t l, bst t -> (forall x, In x (elems t) <-> In x l) ->
  length (elems t) = count_distinct l.
Proof.
  intros t l HB H. unfold count_distinct. apply Nat.le_antisymm.
  - apply NoDup_incl_length; [apply bst_nodup; auto|].
    intros x Hx. apply nodup_In, H; auto.
  - apply NoDup_incl_length; [apply NoDup_nodup|].
    intros x Hx. apply nodup_In in Hx. apply H; auto.
Qed.

Lemma upd_app : forall A (pre : list A) y post x, upd (pre ++ y :: post) (length pre) x = pre ++ x :: post.
Proof. induction pre; intros; simpl; auto. f_equal; auto. Qed.

Lemma fill_array_spec : forall t pre mid post, length mid = length (elems t) ->
  fill_array t (pre ++ mid ++ post) (length pre) =
  Ok (pre ++ elems t ++ post, length pre + length (elems t)).
Proof.
  induction t; intros pre mid post H; simpl in *.
  - destruct mid; [|discriminate]. rewrite Nat.add_0_r. auto.
  - destruct mid as [|y mid]; [discriminate|]. simpl in H. rewrite app_length in H.
    rewrite app_length. simpl length. destruct (Nat.ltb_spec (length pre) (length pre + S (length (mid ++ post)))); [|lia].
    simpl app. rewrite upd_app.
    assert (E : mid = firstn (length (elems t1)) mid ++ skipn (length (elems t1)) mid) by (rewrite firstn_skipn; auto).
    set (m1 := firstn (length (elems t1)) mid) in *. set (m2 := skipn (length (elems t1)) mid) in *.
    assert (L1 : length m1 = length (elems t1)) by (unfold m1; rewrite firstn_length; lia).
    assert (L2 : length m2 = length (elems t2)) by (unfold m2; rewrite skipn_length; lia).
    replace (pre ++ key :: mid ++ post) with ((pre ++ [key]) ++ m1 ++ (m2 ++ post)).
    2:{ rewrite E. rewrite <- !app_assoc. reflexivity. }
    replace (S (length pre)) with (length (pre ++ [key])) by (rewrite app_length; simpl; lia).
    rewrite IHt1 by auto. simpl.
    replace ((pre ++ [key]) ++ elems t1 ++ m2 ++ post) with (((pre ++ [key]) ++ elems t1) ++ m2 ++ post) by (rewrite <- !app_assoc; auto).
    replace (length (pre ++ [key]) + length (elems t1)) with (length ((pre ++ [key]) ++ elems t1)) by (rewrite !app_length; auto).
    rewrite IHt2 by auto. rewrite <- !app_assoc. simpl.
    f_equal. f_equal. rewrite ?app_length. simpl. rewrite ?app_length. lia.
Qed.

Lemma treap_to_arr_spec : forall t arr, length arr = length (elems t) -> treap_to_arr t arr = Ok (elems t).
Proof.
  intros. unfold treap_to_arr. pose proof (fill_array_spec t [] arr [] H) as E.
  simpl in E. rewrite !app_nil_r in E. rewrite E. auto.
Qed.

Lemma C03_lemma : forall l : list (nat * Z),
  let t := insert_all TNull l in
  (forall x, in_treap t x = true <-> In x (map fst l)) /\
  bst t /\ heap_ordered t /\
  tsize t = count_distinct (map fst l) /\
  (forall arr, length arr = tsize t ->
     exists arr', treap_to_arr t arr = Ok arr' /\ length arr' = tsize t /\ NoDup arr' /\
                  (forall x, In x arr' <-> In x (map fst l))).
Proof.
  intros l t. destruct (wf_insert_all l TNull wf_null) as [(H1 & H2 & H3) H4]. fold t in H1, H2, H3, H4.
  assert (H5 : forall x, In x (elems t) <-> In x (map fst l)) by (intros; rewrite H4; simpl; tauto).
  split; [intros; rewrite in_treap_spec; auto|]. split; auto. split; auto. split.
  - rewrite tsize_sized by auto. apply elems_length_distinct; auto.
  - intros arr L. rewrite tsize_sized in L |- * by auto. exists (elems t).
    split; [apply treap_to_arr_spec; auto|]. split; auto. split; auto. apply bst_nodup; auto.
Qed.

Lemma from_arr_diverges : forall fuel rnd x arr t,
  treap_from_arr_loop fuel rnd (x :: arr) (length (x :: arr)) 0 t = Err OutOfFuel.
Proof. induction fuel; intros; simpl; auto. apply IHfuel. Qed.

Lemma C04_refuted_lemma : forall arr, arr <> [] -> forall fuel rnd,
  treap_from_arr fuel rnd arr = Err OutOfFuel.
Proof. intros [|x arr] H fuel rnd; [congruence|]. apply from_arr_diverges. Qed.

Lemma C04_refuted_exists : exists arr, forall fuel rnd t, treap_from_arr fuel rnd arr <> Ok t.
Proof. exists [4; 2]. intros fuel rnd t. rewrite C04_refuted_lemma; discriminate. Qed.
