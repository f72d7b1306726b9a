(** Proofs about graph construction and reachability. *)
From Coq Require Import List Arith ZArith QArith Bool Lia.
From Verif Require Import Base BaseFacts Num Matrix Graph GraphSpec.
Import ListNotations.
Local Open Scope nat_scope.

Definition to_float (x : nat * nat * Q) : sap := (fst x, f32 (snd x)).

Lemma add_successor_ok : forall g s a p d, s < length g -> d < length g ->
  exists g', add_successor g s a p d = Ok g' /\ length g' = length g /\
    forall n, n < length g ->
      succs (nth n g' node0) = succs (nth n g node0) ++ (if s =? n then [(d, a, f32 p)] else []) /\
      preds (nth n g' node0) = preds (nth n g node0) ++ (if d =? n then [(s, a, f32 p)] else []).
Proof.
  intros g s a p d Hs Hd. unfold add_successor.
  destruct (nth_error g s) as [nf|] eqn:E1.
  2:{ apply nth_error_None in E1; lia. }
  set (g1 := upd g s (MkNode (preds nf) (succs nf ++ [(d, a, f32 p)]))).
  assert (L1 : length g1 = length g) by apply upd_length.
  destruct (nth_error g1 d) as [nt|] eqn:E2.
  2:{ apply nth_error_None in E2; lia. }
  eexists; split; [reflexivity|]. split; [rewrite upd_length; auto|].
  intros n Hn. apply nth_error_nth with (d := node0) in E1, E2. subst nf nt.
  rewrite nth_upd. rewrite L1. unfold g1.
  destruct (Nat.eqb_spec d n).
  - subst d. destruct (Nat.ltb_spec n (length g)); [|lia]. simpl.
    rewrite nth_upd. destruct (Nat.eqb_spec s n).
    + subst s. destruct (Nat.ltb_spec n (length g)); [|lia]. simpl. auto.
    + simpl. rewrite app_nil_r. auto.
  - simpl. rewrite nth_upd. destruct (Nat.eqb_spec s n).
    + subst s. destruct (Nat.ltb_spec n (length g)); [|lia]. simpl. rewrite app_nil_r. auto.
    + simpl. rewrite !app_nil_r. auto.
Qed.

Lemma add_successor_bounds : forall g s a p d g', add_successor g s a p d = Ok g' ->
  s < length g /\ d < length g.
Proof.
  intros g s a p d g' H. unfold add_successor in H.
  destruct (nth_error g s) eqn:E1; [|discriminate].
  assert (s < length g) by (apply nth_error_Some; congruence).
  match type of H with context [nth_error ?x d] => destruct (nth_error x d) eqn:E2; [|discriminate] end.
  split; auto. assert (d < length (upd g s {| preds := preds g0; succs := succs g0 ++ [(d, a, f32 p)] |})) by (apply nth_error_Some; congruence).
  rewrite upd_length in H1. auto.
Qed.

(** What a graph built from a list of items looks like. *)
Definition graph_of (N : nat) (items : list ((nat * nat) * Q)) (inv : nat -> option (nat * nat)) (g : graph) : Prop :=
  length g = N /\ forall n, n < N ->
    succs (nth n g node0) = map to_float (out_triples (MkMat 0 0 items) inv n) /\
    preds (nth n g node0) = map to_float (in_triples (MkMat 0 0 items) inv n).

Lemma out_triples_app : forall l1 l2 inv n, out_triples (MkMat 0 0 (l1 ++ l2)) inv n = out_triples (MkMat 0 0 l1) inv n ++ out_triples (MkMat 0 0 l2) inv n.
Proof. intros. unfold out_triples; simpl. apply flat_map_app. Qed.

Lemma in_triples_app : forall l1 l2 inv n, in_triples (MkMat 0 0 (l1 ++ l2)) inv n = in_triples (MkMat 0 0 l1) inv n ++ in_triples (MkMat 0 0 l2) inv n.
Proof. intros. unfold in_triples; simpl. apply flat_map_app. Qed.

Definition good_item (N : nat) (inv : nat -> option (nat * nat)) (e : (nat * nat) * Q) : Prop :=
  exists s a, inv (fst (fst e)) = Some (s, a) /\ s < N /\ snd (fst e) < N.

Lemma mk_graph_ok : forall P inv,
  (forall e, In e (mitems P) -> good_item (mcols P) inv e) ->
  exists g, mk_graph P inv = Ok g /\ graph_of (mcols P) (mitems P) inv g.
Proof.
  intros P inv H. unfold mk_graph.
  apply foldM_ok with (I := fun pre g => graph_of (mcols P) pre inv g).
  - split; [apply repeat_length|]. intros n Hn.
    rewrite nth_repeat. auto.
  - intros pre [[i d] p] g [HL HG] [post Hpost].
    destruct (H ((i, d), p)) as (s & a & Hi & Hs & Hd). { rewrite Hpost, in_app_iff; simpl; auto. }
    simpl in Hi, Hd. simpl. rewrite Hi. simpl.
    destruct (add_successor_ok g s a p d) as (g' & E & L' & HG'); [lia|lia|].
    exists g'. split; auto. split; [lia|]. intros n Hn.
    destruct (HG' n) as [A1 A2]; [lia|]. destruct (HG n Hn) as [B1 B2].
    rewrite A1, A2, B1, B2, out_triples_app, in_triples_app, !map_app.
    assert (O1 : out_triples (MkMat 0 0 [((i, d), p)]) inv n = if s =? n then [(d, a, p)] else []).
    { unfold out_triples; simpl. rewrite Hi, app_nil_r. auto. }
    assert (O2 : in_triples (MkMat 0 0 [((i, d), p)]) inv n = if d =? n then [(s, a, p)] else []).
    { unfold in_triples; simpl. rewrite Hi, app_nil_r. auto. }
    rewrite O1, O2.
    destruct (s =? n), (d =? n); simpl; auto.
Qed.

Lemma mk_graph_good : forall P inv g, mk_graph P inv = Ok g ->
  forall e, In e (mitems P) -> good_item (mcols P) inv e.
Proof.
  intros P inv g H. unfold mk_graph in H.
  assert (G : (fun pre g' => length g' = mcols P /\ forall e, In e pre -> good_item (mcols P) inv e) (mitems P) g).
  { refine (foldM_inv _ _ _ (fun pre g' => length g' = mcols P /\ forall e, In e pre -> good_item (mcols P) inv e) _ _ _ _ _ H).
    - split; [apply repeat_length|]. intros e [].
    - intros pre [[i d] p] g1 g2 [L1 G1] E _.
      inv_ok E. destruct a as [s a]. unfold of_opt in Hok. destruct (inv i) as [[s' a']|] eqn:Ei; [|discriminate].
      inversion Hok; subst. pose proof (add_successor_bounds _ _ _ _ _ _ Hok0) as [B1 B2].
      destruct (add_successor_ok g1 s a p d B1 B2) as (g3 & E3 & L3 & _).
      rewrite E3 in Hok0; inversion Hok0; subst. split; [lia|].
      intros e He. apply in_app_iff in He. destruct He as [He|[<-|[]]]; auto.
      exists s, a. simpl. rewrite <- L1. auto. }
  apply G.
Qed.

Lemma mk_graph_spec : forall P inv g, mk_graph P inv = Ok g -> graph_of (mcols P) (mitems P) inv g.
Proof.
  intros P inv g H. destruct (mk_graph_ok P inv (mk_graph_good P inv g H)) as (g' & E & HG).
  congruence.
Qed.

Lemma out_triples_edge : forall P inv s d, (exists a p, In (d, a, p) (out_triples P inv s)) <-> edge P inv s d.
Proof.
  intros. unfold out_triples, edge. split.
  - intros (a & p & H). apply in_flat_map in H. destruct H as ([[i d'] p'] & H1 & H2).
    destruct (inv i) as [[s' a']|] eqn:E; [|contradiction].
    destruct (Nat.eqb_spec s' s); [|contradiction]. destruct H2 as [H2|[]]. inversion H2; subst.
    exists i, a, p; auto.
  - intros (i & a & p & H1 & H2). exists a, p. apply in_flat_map. exists ((i, d), p). split; auto.
    rewrite H2, Nat.eqb_refl. left; auto.
Qed.

Lemma in_triples_edge : forall P inv s d, (exists a p, In (s, a, p) (in_triples P inv d)) <-> edge P inv s d.
Proof.
  intros. unfold in_triples, edge. split.
  - intros (a & p & H). apply in_flat_map in H. destruct H as ([[i d'] p'] & H1 & H2).
    destruct (inv i) as [[s' a']|] eqn:E; [|contradiction].
    destruct (Nat.eqb_spec d' d); [|contradiction]. destruct H2 as [H2|[]]. inversion H2; subst.
    exists i, a, p; auto.
  - intros (i & a & p & H1 & H2). exists a, p. apply in_flat_map. exists ((i, d), p). split; auto.
    rewrite H2, Nat.eqb_refl. left; auto.
Qed.

Definition neigh (g : graph) (fwd : bool) (s t : nat) : Prop :=
  exists x, In x (if fwd then succs (nth s g node0) else preds (nth s g node0)) /\ sap_state x = t.

Lemma neigh_edge : forall P inv g fwd s t, mk_graph P inv = Ok g -> s < mcols P ->
  (neigh g fwd s t <-> if fwd then edge P inv s t else edge P inv t s).
Proof.
  intros P inv g fwd s t H Hs. destruct (mk_graph_spec P inv g H) as [HL HG].
  destruct (HG s Hs) as [A1 A2]. unfold neigh. destruct fwd.
  - rewrite A1. change (MkMat 0 0 (mitems P)) with (MkMat 0 0 (mitems P)).
    transitivity (exists a p, In (t, a, p) (out_triples P inv s)); [|apply out_triples_edge].
    split.
    + intros (x & H1 & H2). apply in_map_iff in H1. destruct H1 as ([[t' a] p] & <- & H1).
      simpl in H2. unfold sap_state in H2; simpl in H2; subst. eauto.
    + intros (a & p & H1). exists (to_float (t, a, p)). split; auto. apply in_map. auto.
  - rewrite A2.
    transitivity (exists a p, In (t, a, p) (in_triples P inv s)); [|apply in_triples_edge].
    split.
    + intros (x & H1 & H2). apply in_map_iff in H1. destruct H1 as ([[t' a] p] & <- & H1).
      simpl in H2. unfold sap_state in H2; simpl in H2; subst. eauto.
    + intros (a & p & H1). exists (to_float (t, a, p)). split; auto. apply in_map. auto.
Qed.

(** ** Reachability *)

Definition closed_graph (g : graph) : Prop :=
  forall s fwd t, s < length g -> neigh g fwd s t -> t < length g.

Lemma mk_graph_closed : forall P inv g, mk_graph P inv = Ok g -> closed_graph g.
Proof.
  intros P inv g H s fwd t Hs Hn. destruct (mk_graph_spec P inv g H) as [HL _].
  rewrite HL in *. apply (neigh_edge P inv g fwd s t H Hs) in Hn.
  pose proof (mk_graph_good P inv g H) as HG.
  destruct fwd; destruct Hn as (i & a & p & H1 & H2);
  apply HG in H1; destruct H1 as (s' & a' & B1 & B2 & B3); simpl in *; auto.
  rewrite H2 in B1. inversion B1; subst; auto.
Qed.

Definition is (m : list bool) (n : nat) : Prop := nth n m false = true.

Lemma is_upd_true : forall m c n, c < length m -> (is (upd m c true) n <-> n = c \/ is m n).
Proof.
  intros m c n H. unfold is. rewrite nth_upd. destruct (Nat.eqb_spec c n); simpl.
  - subst. destruct (Nat.ltb_spec n (length m)); [|lia]. tauto.
  - intuition.
Qed.

Lemma is_upd_false : forall m c n, c < length m -> (is (upd m c false) n <-> n <> c /\ is m n).
Proof.
  intros m c n H. unfold is. rewrite nth_upd. destruct (Nat.eqb_spec c n); simpl.
  - subst. destruct (Nat.ltb_spec n (length m)); [|lia]. intuition discriminate.
  - intuition.
Qed.

Lemma is_lt : forall m n, is m n -> n < length m.
Proof.
  intros m n H. destruct (Nat.lt_ge_cases n (length m)); auto.
  unfold is in H. rewrite nth_overflow in H; auto. discriminate.
Qed.

(** Number of states neither reached nor on the stack. *)
Definition todo (mask ins : list bool) (N : nat) : nat :=
  length (filter (fun n => negb (nth n mask false) && negb (nth n ins false)) (seq 0 N)).

Lemma filter_length_split : forall (f g : nat -> bool) n l, NoDup l -> In n l ->
  f n = true -> g n = false -> (forall x, x <> n -> g x = f x) ->
  S (length (filter g l)) = length (filter f l).
Proof.
  induction l; intros N I Ff Fg E; [inversion I|].
  inversion N; subst. simpl. destruct I as [->|I].
  - rewrite Ff, Fg. simpl. f_equal. f_equal. apply filter_ext_in. intros x Hx. apply E. intros ->; auto.
  - assert (a <> n) by (intros ->; auto). rewrite (E a) by auto.
    destruct (f a); simpl; rewrite <- IHl; auto.
Qed.

Lemma push_spec : forall N mask ns stk ins,
  length mask = N -> length ins = N -> (forall x, In x ns -> sap_state x < N) ->
  let r := push_neighbours mask ns stk ins in
  length (snd r) = N /\
  (exists new, fst r = new ++ stk /\ (forall n, In n new -> exists x, In x ns /\ sap_state x = n) /\
     (forall n, is (snd r) n <-> is ins n \/ In n new) /\
     (forall x, In x ns -> is mask (sap_state x) \/ is (snd r) (sap_state x)) /\
     length new + todo mask (snd r) N = todo mask ins N).
Proof.
  intros N mask. induction ns as [|x ns IH]; intros stk ins Lm Li B; simpl.
  - split; auto. exists []. simpl. repeat split; auto; tauto.
  - set (n := sap_state x). assert (Hn : n < N) by (apply B; left; auto).
    unfold push_neighbours. simpl. fold n.
    destruct (negb (nth n mask false) && negb (nth n ins false)) eqn:E.
    + destruct (IH (n :: stk) (upd ins n true)) as (L' & new & H1 & H2 & H3 & H4 & H5); auto.
      { rewrite upd_length; auto. } { intros y Hy; apply B; right; auto. }
      unfold push_neighbours in *. split; auto. exists (new ++ [n]). split; [|split; [|split; [|split]]].
      * rewrite <- app_assoc. auto.
      * intros m Hm. apply in_app_iff in Hm. destruct Hm as [Hm|[<-|[]]].
        -- destruct (H2 m Hm) as (y & ? & ?). exists y. split; [right|]; auto.
        -- exists x. split; [left|]; auto.
      * intros m. rewrite H3, is_upd_true by lia. rewrite in_app_iff. simpl. intuition.
      * intros y [<-|Hy]; auto. right. fold n. apply H3. left. apply is_upd_true; auto. lia.
      * rewrite app_length. simpl. rewrite <- Nat.add_assoc. simpl.
        assert (E2 : S (todo mask (upd ins n true) N) = todo mask ins N).
        { unfold todo. apply filter_length_split with (n := n); auto.
          - apply seq_NoDup.
          - apply in_seq; lia.
          - rewrite nth_upd_same by lia. rewrite andb_false_r. auto.
          - intros y Hy. rewrite nth_upd_other by auto. auto. }
        lia.
    + destruct (IH stk ins) as (L' & new & H1 & H2 & H3 & H4 & H5); auto.
      { intros y Hy; apply B; right; auto. }
      unfold push_neighbours in *. split; auto. exists new. split; [|split; [|split; [|split]]]; auto.
      * intros m Hm. destruct (H2 m Hm) as (y & ? & ?). exists y. split; [right|]; auto.
      * intros y [<-|Hy]; auto. fold n. unfold is. destruct (nth n mask false) eqn:E1; auto. right.
        apply H3. left. unfold is. simpl in E. destruct (nth n ins false); auto.
Qed.

Section Reach.
  Variables (g : graph) (fwd : bool) (block : list bool) (fromset : list nat).
  Hypothesis Hclosed : closed_graph g.
  Hypothesis Hblock : length block = length g.

  Let R := reach_avoid (neigh g fwd) (fun s => In s fromset) (is block).

  Definition rinv (stack : list nat) (ins mask : list bool) : Prop :=
    length ins = length g /\ length mask = length g /\
    (forall n, In n stack -> n < length g /\ R n) /\
    (forall n, is mask n -> R n) /\
    (forall n, In n fromset -> is mask n \/ In n stack) /\
    (forall n t, is mask n -> ~ is block n -> neigh g fwd n t -> is mask t \/ In t stack) /\
    (forall n, is ins n -> In n stack).

  Lemma todo_pop : forall mask ins c, length mask = length g -> length ins = length g -> c < length g ->
    todo (upd mask c true) (upd ins c false) (length g) <= todo mask ins (length g).
  Proof.
    intros mask ins c Lm Li Hc. unfold todo.
    assert (G : forall l, length (filter (fun n => negb (nth n (upd mask c true) false) && negb (nth n (upd ins c false) false)) l)
       <= length (filter (fun n => negb (nth n mask false) && negb (nth n ins false)) l)).
    { induction l; simpl; auto. rewrite !nth_upd, Lm, Li. destruct (Nat.eqb_spec c a).
      - subst. destruct (Nat.ltb_spec a (length g)); [|lia]. simpl.
        destruct (negb _ && negb _); simpl; lia.
      - simpl. destruct (negb _ && negb _); simpl; lia. }
    apply G.
  Qed.

  Lemma reach_loop_ok : forall fuel stack ins mask,
    rinv stack ins mask -> length stack + todo mask ins (length g) < fuel ->
    exists mask', reach_loop fuel g fwd block stack ins mask = Ok mask' /\
      length mask' = length g /\ forall n, is mask' n <-> R n.
  Proof.
    induction fuel; intros stack ins mask HI HF; [lia|].
    destruct HI as (L1 & L2 & I1 & I2 & I3 & I4 & I5).
    simpl. destruct stack as [|c stk].
    - exists mask. split; auto. split; auto. intros n; split; [apply I2|].
      intros HR. induction HR as [s Hs|s t HR IH HB HE].
      + destruct (I3 s Hs) as [?|[]]; auto.
      + destruct (I4 s t IH HB HE) as [?|[]]; auto.
    - destruct (I1 c) as [Hc Rc]; [left; auto|].
      destruct (nth_error g c) as [nd|] eqn:En.
      2:{ apply nth_error_None in En; lia. }
      apply nth_error_nth with (d := node0) in En. subst nd.
      simpl in HF. pose proof (todo_pop mask ins c L2 L1 Hc) as HT.
      destruct (nth c block false) eqn:Eb.
      + apply IHfuel; [|lia].
        split; [rewrite upd_length; auto|]. split; [rewrite upd_length; auto|].
        split; [intros n Hn; apply I1; right; auto|].
        split; [intros n Hn; apply is_upd_true in Hn; [|lia]; destruct Hn; subst; auto|].
        split; [|split].
        * intros n Hn. destruct (I3 n Hn) as [?|[->|?]]; auto; left; apply is_upd_true; auto; lia.
        * intros n t Hn HB HE. apply is_upd_true in Hn; [|lia]. destruct Hn as [->|Hn]; [contradiction|].
          destruct (I4 n t Hn HB HE) as [?|[->|?]]; auto; left; apply is_upd_true; auto; lia.
        * intros n Hn. apply is_upd_false in Hn; [|lia]. destruct Hn as [Hn1 Hn2].
          destruct (I5 n Hn2) as [->|?]; [congruence|auto].
      + set (ns := if fwd then succs (nth c g node0) else preds (nth c g node0)).
        assert (Hns : forall x, In x ns -> neigh g fwd c (sap_state x)).
        { intros x Hx. exists x. split; auto. }
        pose proof (push_spec (length g) (upd mask c true) ns stk (upd ins c false)) as HP.
        destruct HP as (L' & new & H1 & H2 & H3 & H4 & H5).
        { rewrite upd_length; auto. } { rewrite upd_length; auto. }
        { intros x Hx. apply (Hclosed c fwd); auto. }
        destruct (push_neighbours (upd mask c true) ns stk (upd ins c false)) as [stk' ins'] eqn:EP.
        simpl in *. subst stk'.
        apply IHfuel.
        2:{ rewrite app_length. lia. }
        split; auto. split; [rewrite upd_length; auto|].
        split.
        { intros n Hn. apply in_app_iff in Hn. destruct Hn as [Hn|Hn]; [|apply I1; right; auto].
          destruct (H2 n Hn) as (x & Hx & <-). split.
          - apply (Hclosed c fwd); auto.
          - eapply ra_step; [exact Rc| |apply Hns; auto]. unfold is. congruence. }
        split; [intros n Hn; apply is_upd_true in Hn; [|lia]; destruct Hn; subst; auto|].
        split; [|split].
        * intros n Hn. destruct (I3 n Hn) as [?|[->|?]].
          -- left; apply is_upd_true; auto; lia.
          -- left; apply is_upd_true; auto; lia.
          -- right; apply in_app_iff; auto.
        * intros n t Hn HB HE. apply is_upd_true in Hn; [|lia]. destruct Hn as [->|Hn].
          -- destruct HE as (x & Hx & <-). destruct (H4 x Hx) as [?|Hi]; auto.
             apply H3 in Hi. destruct Hi as [Hi|Hi].
             ++ apply is_upd_false in Hi; [|lia]. destruct Hi as [Hi1 Hi2].
                destruct (I5 _ Hi2) as [->|?]; [congruence|]. right; apply in_app_iff; auto.
             ++ right; apply in_app_iff; auto.
          -- destruct (I4 n t Hn HB HE) as [?|[->|?]].
             ++ left; apply is_upd_true; auto; lia.
             ++ left; apply is_upd_true; auto; lia.
             ++ right; apply in_app_iff; auto.
        * intros n Hn. apply H3 in Hn. destruct Hn as [Hn|Hn]; apply in_app_iff; auto. right.
          apply is_upd_false in Hn; [|lia]. destruct Hn as [Hn1 Hn2].
          destruct (I5 n Hn2) as [->|?]; [congruence|auto].
  Qed.
End Reach.

Lemma mark_all_ok : forall l m, (forall i, In i l -> i < length m) ->
  exists m', mark_all l m = Ok m' /\ length m' = length m /\ forall n, is m' n <-> In n l \/ is m n.
Proof.
  intros l m H. unfold mark_all.
  destruct (foldM_ok _ _ (fun m i => if i <? length m then Ok (upd m i true) else Err OutOfBounds)
    (fun pre m' => length m' = length m /\ forall n, is m' n <-> In n pre \/ is m n) l m) as (m' & E & H'); eauto.
  - split; auto. simpl. tauto.
  - intros pre x m1 [L1 H1] [post Hp]. assert (x < length m). { apply H. rewrite Hp, in_app_iff; simpl; auto. }
    destruct (Nat.ltb_spec x (length m1)); [|lia]. eexists; split; [reflexivity|].
    rewrite upd_length. split; auto. intros n. rewrite is_upd_true by auto. rewrite H1, in_app_iff. simpl. intuition.
Qed.

Lemma todo_bound : forall mask ins N, todo mask ins N <= N.
Proof.
  intros. unfold todo. rewrite <- (seq_length N 0) at 2.
  generalize (seq 0 N). induction l; simpl; auto. destruct (negb _ && negb _); simpl; lia.
Qed.

Lemma is_repeat_false : forall N n, ~ is (repeat false N) n.
Proof.
  unfold is. intros N n H.
  assert (E : nth n (repeat false N) false = false) by apply nth_repeat. congruence.
Qed.

Lemma reach_avoid_ext : forall E E' F F' B B' s,
  (forall s, reach_avoid E F B s -> forall t, E s t <-> E' s t) -> (forall s, F s <-> F' s) -> (forall s, B s <-> B' s) ->
  (reach_avoid E F B s -> reach_avoid E' F' B' s).
Proof.
  intros E E' F F' B B' s HE HF HB H. induction H as [s Hs|s t HR IH Hb He].
  - apply ra_start. apply HF; auto.
  - apply ra_step with s; auto. + rewrite <- HB; auto. + apply (HE s); auto.
Qed.

Lemma reachable_fuel_ok : forall g fromset dir blocklist fuel,
  closed_graph g -> fromset <> [] -> dir <> OtherDirection ->
  (forall s, In s fromset -> s < length g) -> (forall s, In s blocklist -> s < length g) ->
  length g + length fromset < fuel ->
  exists mask, reachable_fuel fuel g fromset dir blocklist = Ok mask /\ length mask = length g /\
    forall n, nth n mask false = true <->
      reach_avoid (neigh g (match dir with Forward => true | _ => false end))
                  (fun s => In s fromset) (fun s => In s blocklist) n.
Proof.
  intros g fromset dir blocklist fuel Hc Hne Hd Hf Hb HF. unfold reachable_fuel.
  destruct fromset as [|f0 fs] eqn:Efs; [congruence|]. rewrite <- Efs in *. clear Hne.
  replace (0 <? length fromset) with true by (rewrite Efs; auto). simpl.
  assert (Hd' : (match dir with OtherDirection => false | _ => true end) = true) by (destruct dir; congruence).
  rewrite Hd'. simpl.
  destruct (mark_all_ok fromset (repeat false (length g))) as (ins & E1 & L1 & I1).
  { rewrite repeat_length; auto. }
  destruct (mark_all_ok blocklist (repeat false (length g))) as (blk & E2 & L2 & I2).
  { rewrite repeat_length; auto. }
  rewrite E1, E2. simpl. rewrite repeat_length in L1, L2.
  set (fwd := match dir with Forward => true | _ => false end).
  destruct (reach_loop_ok g fwd blk fromset Hc L2 fuel (rev fromset) ins (repeat false (length g))) as (m & E & L & I).
  - split; auto. split; [apply repeat_length|]. split; [|split; [|split; [|split]]].
    + intros n Hn. apply in_rev in Hn. split; auto. apply ra_start; auto.
    + intros n Hn. apply is_repeat_false in Hn. contradiction.
    + intros n Hn. right. apply in_rev in Hn. auto.
    + intros n t Hn. apply is_repeat_false in Hn. contradiction.
    + intros n Hn. apply I1 in Hn. destruct Hn as [Hn|Hn]; [apply -> in_rev; auto|].
      apply is_repeat_false in Hn. contradiction.
  - rewrite rev_length. pose proof (todo_bound (repeat false (length g)) ins (length g)). lia.
  - exists m. split; auto. split; auto. intros n. fold (is m n). rewrite I.
    assert (HB : forall s, is blk s <-> In s blocklist).
    { intros s. rewrite I2. split; auto. intros [?|Hs]; auto. apply is_repeat_false in Hs. contradiction. }
    split; apply reach_avoid_ext; try tauto; intros s; rewrite HB; tauto.
Qed.

Definition dir_edge (P : mat) (inv : nat -> option (nat * nat)) (dir : direction) (s t : nat) : Prop :=
  match dir with Forward => edge P inv s t | _ => edge P inv t s end.

Lemma neigh_lt : forall g fwd s t, neigh g fwd s t -> s < length g.
Proof.
  intros g fwd s t (x & H & _). destruct (Nat.lt_ge_cases s (length g)); auto.
  rewrite nth_overflow in H by auto. destruct fwd; inversion H.
Qed.

Lemma dir_edge_neigh : forall P inv g dir s t, mk_graph P inv = Ok g -> dir <> OtherDirection ->
  (neigh g (match dir with Forward => true | _ => false end) s t <-> dir_edge P inv dir s t).
Proof.
  intros P inv g dir s t HG Hd. destruct (mk_graph_spec _ _ _ HG) as [HL _]. split.
  - intros HN. pose proof (neigh_lt _ _ _ _ HN). apply (neigh_edge P inv g _ s t HG) in HN; [|lia].
    destruct dir; simpl in *; auto; congruence.
  - intros HE. apply (neigh_edge P inv g _ s t HG).
    + destruct dir; simpl in HE; try congruence; destruct HE as (i & a & p & H1 & H2);
      pose proof (mk_graph_good P inv g HG _ H1) as (s' & a' & B1 & B2 & B3); simpl in *; auto.
      rewrite H2 in B1. inversion B1; subst; auto.
    + destruct dir; simpl in *; auto; congruence.
Qed.

Lemma reachable_fuel_spec : forall P inv g fromset dir blocklist fuel, mk_graph P inv = Ok g ->
  fromset <> [] -> dir <> OtherDirection ->
  (forall s, In s fromset -> s < mcols P) -> (forall s, In s blocklist -> s < mcols P) ->
  mcols P + length fromset < fuel ->
  exists mask, reachable_fuel fuel g fromset dir blocklist = Ok mask /\ length mask = mcols P /\
    forall n, nth n mask false = true <->
      reach_avoid (dir_edge P inv dir) (fun s => In s fromset) (fun s => In s blocklist) n.
Proof.
  intros P inv g fromset dir blocklist fuel HG Hne Hd Hf Hb HF.
  destruct (mk_graph_spec _ _ _ HG) as [HL _].
  destruct (reachable_fuel_ok g fromset dir blocklist fuel) as (m & E & L & I); auto; try (rewrite HL; auto).
  - eapply mk_graph_closed; eauto.
  - exists m. split; auto. split; [lia|]. intros n. rewrite I.
    split; apply reach_avoid_ext; try tauto; intros; [|symmetry]; eapply dir_edge_neigh; eauto.
Qed.

Lemma reachable_spec : forall P inv g fromset dir blocklist, mk_graph P inv = Ok g ->
  fromset <> [] -> dir <> OtherDirection ->
  (forall s, In s fromset -> s < mcols P) -> (forall s, In s blocklist -> s < mcols P) ->
  exists mask, reachable g fromset dir blocklist = Ok mask /\ length mask = mcols P /\
    forall n, nth n mask false = true <->
      reach_avoid (dir_edge P inv dir) (fun s => In s fromset) (fun s => In s blocklist) n.
Proof.
  intros. unfold reachable. destruct (mk_graph_spec _ _ _ H) as [HL _].
  eapply reachable_fuel_spec; eauto. rewrite HL. lia.
Qed.

Lemma reachable_rejects : forall g dir blocklist fromset,
  fromset = [] \/ dir = OtherDirection -> reachable g fromset dir blocklist = Err AssertionError.
Proof.
  intros g dir b f [-> | ->]; unfold reachable, reachable_fuel; simpl; auto.
  destruct f; simpl; auto.
Qed.

(** ** Statements used by the property file *)

Lemma filter_map_comm : forall A B (f : A -> B) (p : B -> bool) l,
  filter p (map f l) = map f (filter (fun x => p (f x)) l).
Proof. induction l; simpl; auto. destruct (p (f a)); simpl; rewrite IHl; auto. Qed.

Lemma C05_lemma : forall P inv g, mk_graph P inv = Ok g -> forall s, s < mcols P -> forall act,
  let keep := filter (fun x : nat * nat * Q => match act with None => true | Some a => snd (fst x) =? a end) in
  successors g s act = Ok (map (fun x => (fst x, f32 (snd x))) (keep (out_triples P inv s))) /\
  predecessors g s act = Ok (map (fun x => (fst x, f32 (snd x))) (keep (in_triples P inv s))).
Proof.
  intros P inv g H s Hs act keep. destruct (mk_graph_spec P inv g H) as [HL HG].
  destruct (HG s Hs) as [A1 A2]. unfold successors, predecessors.
  destruct (nth_error g s) as [nd|] eqn:E. 2:{ apply nth_error_None in E; lia. }
  apply nth_error_nth with (d := node0) in E. subst nd. simpl.
  rewrite A1, A2. unfold filter_action. rewrite !filter_map_comm.
  assert (G : forall l, filter (fun x => match act with None => true | Some a => a =? sap_action (to_float x) end) l = keep l).
  { intros l. unfold keep. apply filter_ext. intros [[d a] p]. simpl. destruct act; auto.
    unfold sap_action; simpl. apply Nat.eqb_sym. }
  rewrite !G. split; reflexivity.
Qed.

Lemma C05_builds_lemma : forall P inv,
  (exists g, mk_graph P inv = Ok g) <->
  (forall i d p, In ((i, d), p) (mitems P) -> d < mcols P /\ exists s a, inv i = Some (s, a) /\ s < mcols P).
Proof.
  intros P inv. split.
  - intros [g H] i d p Hin. destruct (mk_graph_good P inv g H _ Hin) as (s & a & H1 & H2 & H3). simpl in *. eauto.
  - intros H. destruct (mk_graph_ok P inv) as (g & E & _); eauto.
    intros [[i d] p] Hin. destruct (H i d p Hin) as (H1 & s & a & H2 & H3). exists s, a. auto.
Qed.

Lemma C06_lemma : forall P inv g fromset dir blocklist, mk_graph P inv = Ok g ->
  fromset <> [] -> dir <> OtherDirection ->
  (forall s, In s fromset -> s < mcols P) -> (forall s, In s blocklist -> s < mcols P) ->
  exists mask, reachable g fromset dir blocklist = Ok mask /\ length mask = mcols P /\
    forall n, nth n mask false = true <->
      reach_avoid (fun s t => match dir with Forward => edge P inv s t | _ => edge P inv t s end)
                  (fun s => In s fromset) (fun s => In s blocklist) n.
Proof. exact reachable_spec. Qed.

(** The result does not depend on the amount of fuel: the loop has ended. *)
Lemma C06_terminates_lemma : forall P inv g fromset dir blocklist fuel, mk_graph P inv = Ok g ->
  fromset <> [] -> dir <> OtherDirection ->
  (forall s, In s fromset -> s < mcols P) -> (forall s, In s blocklist -> s < mcols P) ->
  mcols P + length fromset < fuel ->
  reachable_fuel fuel g fromset dir blocklist = reachable g fromset dir blocklist.
Proof.
  intros P inv g fr dir bl fuel H H1 H2 H3 H4 H5.
  destruct (reachable_fuel_spec P inv g fr dir bl fuel H H1 H2 H3 H4 H5) as (m1 & E1 & L1 & S1).
  destruct (reachable_spec P inv g fr dir bl H H1 H2 H3 H4) as (m2 & E2 & L2 & S2).
  rewrite E1, E2. f_equal. apply nth_ext with (d := false) (d' := false); [lia|].
  intros n _. destruct (nth n m1 false) eqn:X1, (nth n m2 false) eqn:X2; auto.
  - apply S1, S2 in X1. congruence.
  - apply S2, S1 in X2. congruence.
Qed.
