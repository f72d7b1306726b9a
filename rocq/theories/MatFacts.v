(** Facts about rounding, sparse matrices and bidicts. *)
From Coq Require Import List Arith ZArith QArith Qabs Qround Qreals Reals Bool Lia Lra Lqa Setoid.
From Verif Require Import Base BaseFacts Num Matrix SpecMdp SpecSystem SumFacts.
Import ListNotations.
Local Open Scope nat_scope.

(** ** Rounding *)
Ltac ql := repeat match goal with
  | |- context [inject_Z ?z] => let v := fresh "iz" in set (v := inject_Z z) in *; clearbody v
  | _ : context [inject_Z ?z] |- _ => let v := fresh "iz" in set (v := inject_Z z) in *; clearbody v
  end; Lqa.lra.

Lemma qround_even : forall q z, Z.even z = true -> (qround q = z <-> (Qabs (q - inject_Z z) <= 1#2)%Q).
Proof.
  intros q z Hz. unfold qround. set (f := Qfloor q).
  assert (Hf1 : (inject_Z f <= q)%Q) by apply Qfloor_le.
  assert (Hf2 : (q < inject_Z f + 1)%Q). { pose proof (Qlt_floor q). rewrite inject_Z_plus in H. exact H. }
  clearbody f. rewrite Qabs_Qle_condition.
  assert (Hcmp : forall a b : Z, (inject_Z a <= inject_Z b)%Q <-> (a <= b)%Z) by (intros; rewrite Zle_Qle; tauto).
  assert (S1 : inject_Z (f + 1) = (inject_Z f + inject_Z 1)%Q) by apply inject_Z_plus.
  destruct (Qle_bool (q - inject_Z f) (1#2)) eqn:E1.
  - apply Qle_bool_iff in E1. destruct (Qle_bool (1#2) (q - inject_Z f)) eqn:E2.
    + apply Qle_bool_iff in E2. destruct (Z.even f) eqn:Ev.
      * split. { intros <-. split; clear Hcmp; ql. }
        intros [A B]. destruct (Z.lt_trichotomy f z) as [H|[H|H]]; auto; exfalso.
        -- assert (z = f + 1 \/ f + 2 <= z)%Z as [->|H1] by lia.
           ++ rewrite Z.even_add, Ev in Hz. discriminate.
           ++ apply Hcmp in H1. rewrite inject_Z_plus in H1. change (inject_Z 2) with 2%Q in H1. clear Hcmp; ql.
        -- assert (z + 1 <= f)%Z by lia. apply Hcmp in H0. rewrite inject_Z_plus in H0. change (inject_Z 1) with 1%Q in H0. clear Hcmp; ql.
      * split. { intros <-. rewrite S1. change (inject_Z 1) with 1%Q. split; clear Hcmp; ql. }
        intros [A B]. destruct (Z.lt_trichotomy (f + 1) z) as [H|[H|H]]; auto; exfalso.
        -- assert (f + 2 <= z)%Z as H1 by lia. apply Hcmp in H1. rewrite inject_Z_plus in H1. change (inject_Z 2) with 2%Q in H1. clear Hcmp; ql.
        -- assert (z = f \/ z + 1 <= f)%Z as [->|H1] by lia; [congruence|].
           apply Hcmp in H1. rewrite inject_Z_plus in H1. change (inject_Z 1) with 1%Q in H1. clear Hcmp; ql.
    + assert (~ (1#2 <= q - inject_Z f)%Q) by (rewrite <- Qle_bool_iff; congruence).
      split. { intros <-. split; clear Hcmp; ql. }
      intros [A B]. destruct (Z.lt_trichotomy f z) as [H0|[H0|H0]]; auto; exfalso.
      * assert (f + 1 <= z)%Z as H1 by lia. apply Hcmp in H1. rewrite inject_Z_plus in H1. change (inject_Z 1) with 1%Q in H1. clear Hcmp; ql.
      * assert (z + 1 <= f)%Z as H1 by lia. apply Hcmp in H1. rewrite inject_Z_plus in H1. change (inject_Z 1) with 1%Q in H1. clear Hcmp; ql.
  - assert (~ (q - inject_Z f <= 1#2)%Q) by (rewrite <- Qle_bool_iff; congruence).
    split. { intros <-. rewrite S1. change (inject_Z 1) with 1%Q. split; clear Hcmp; ql. }
    intros [A B]. destruct (Z.lt_trichotomy (f + 1) z) as [H0|[H0|H0]]; auto; exfalso.
    + assert (f + 2 <= z)%Z as H1 by lia. apply Hcmp in H1. rewrite inject_Z_plus in H1. change (inject_Z 2) with 2%Q in H1. clear Hcmp; ql.
    + assert (z <= f)%Z as H1 by lia. apply Hcmp in H1. clear Hcmp; ql.
Qed.

Lemma round9_one : forall x, Qeq_bool (np_round9 x) 1 = true <-> near_one x.
Proof.
  intros x. rewrite Qeq_bool_iff. unfold np_round9, near_one.
  assert (E : (qround (x * inject_Z (10 ^ 9)) # 10 ^ 9 == 1)%Q <-> qround (x * inject_Z (10 ^ 9)) = (10 ^ 9)%Z).
  { generalize (qround (x * inject_Z (10 ^ 9))). intros z. unfold Qeq. simpl Qnum. simpl Qden. change (Z.pos (10 ^ 9)) with 1000000000%Z. change (10 ^ 9)%Z with 1000000000%Z. lia. }
  rewrite E, qround_even by reflexivity. rewrite !Qabs_Qle_condition.
  change (inject_Z (10 ^ 9)) with (1000000000)%Q. split; intros [A B]; split; Lqa.lra.
Qed.

(** ** Sums of rationals *)
Lemma sumQ_app : forall a b, (sumQ (a ++ b) == sumQ a + sumQ b)%Q.
Proof. induction a; simpl; intros; [ring|]. rewrite IHa. ring. Qed.

Lemma sumQ_ext : forall A (f g : A -> Q) l, (forall x, In x l -> (f x == g x)%Q) -> (sumQ (map f l) == sumQ (map g l))%Q.
Proof.
  induction l; simpl; intros H; [reflexivity|]. rewrite (H a) by auto. rewrite IHl; [reflexivity|]. auto.
Qed.

Lemma Q2R_sumQ : forall n f, Q2R (sumQ (map f (seq 0 n))) = sumn n (fun i => Q2R (f i)).
Proof.
  induction n; intros f. { simpl. apply RMicromega.Q2R_0. }
  rewrite seq_S, map_app. rewrite (Qeq_eqR _ _ (sumQ_app _ _)), Q2R_plus, IHn. simpl. f_equal. rewrite Q2R_plus, RMicromega.Q2R_0. apply Rplus_0_r.
Qed.

(** ** Entries and rows of a matrix *)
Lemma mget_In : forall P i d p, wf_mat P -> In ((i, d), p) (mitems P) -> mget P i d = p.
Proof.
  intros P i d p [HN _] H. unfold mget. rewrite (In_dget pair_eqb) with (v := p); auto. apply pair_eqbP.
Qed.

Lemma mget_nonzero : forall P i d, ~ (mget P i d == 0)%Q -> In ((i, d), mget P i d) (mitems P).
Proof.
  intros P i d H. unfold mget in *. destruct (dget pair_eqb (mitems P) (i, d)) eqn:E; [|exfalso; apply H; reflexivity].
  eapply dget_In; eauto. apply pair_eqbP.
Qed.

Lemma sumQ_seq_single : forall n k p f, k < n -> (sumQ (map (fun d => (if d =? k then p else 0) + f d) (seq 0 n)) == p + sumQ (map f (seq 0 n)))%Q.
Proof.
  induction n; intros k p f Hk; [lia|]. rewrite seq_S, !map_app, !sumQ_app. simpl.
  destruct (Nat.eqb_spec n k) as [->|E].
  - assert (G : (sumQ (map (fun d => (if d =? k then p else 0) + f d) (seq 0 k)) == sumQ (map f (seq 0 k)))%Q).
    { apply sumQ_ext. intros x Hx. apply in_seq in Hx. destruct (Nat.eqb_spec x k); [lia|]. ring. }
    rewrite G. ring.
  - rewrite IHn by lia. ring.
Qed.

Lemma row_total_sum : forall P i, wf_mat P -> (row_total P i == row_sum P i)%Q.
Proof.
  intros P i [HN HR]. unfold row_total, row_sum, mget.
  assert (HB : forall i d p, In ((i, d), p) (mitems P) -> d < mcols P) by (intros; eapply HR; eauto).
  clear HR. revert HN HB. generalize (mitems P) as l, (mcols P) as n. intros l n. induction l as [|[[i' d'] p'] l IH]; intros HN HB.
  - simpl. induction (seq 0 n); simpl; [reflexivity|]. rewrite IHl. ring.
  - inversion HN as [|x y Hnin HN']; subst. simpl fst.
    assert (E : (sumQ (map (fun d => match dget pair_eqb (((i', d'), p') :: l) (i, d) with Some q => q | None => 0 end) (seq 0 n)) ==
                 sumQ (map (fun d => (if d =? d' then (if i' =? i then p' else 0) else 0) + match dget pair_eqb l (i, d) with Some q => q | None => 0 end) (seq 0 n)))%Q).
    { apply sumQ_ext. intros d _. simpl. destruct (pair_eqbP (i, d) (i', d')) as [Heq|Hne].
      - inversion Heq; subst. rewrite !Nat.eqb_refl. rewrite (proj2 (dget_None pair_eqb pair_eqbP l (i', d'))); [ring|auto].
      - destruct (Nat.eqb_spec d d'); destruct (Nat.eqb_spec i' i); subst; try congruence; ring. }
    rewrite E. rewrite sumQ_seq_single. 2:{ eapply HB. left; reflexivity. }
    rewrite IH; auto. 2:{ intros; eapply HB; right; eauto. }
    simpl. destruct (i' =? i); simpl; ring.
Qed.

Lemma NoDup_snoc_iff : forall A (l : list A) x, NoDup (l ++ [x]) <-> NoDup l /\ ~ In x l.
Proof.
  intros A l x. split.
  - intros H. pose proof (NoDup_remove_1 l [] x H). pose proof (NoDup_remove_2 l [] x H). rewrite app_nil_r in *. auto.
  - intros [H1 H2]. apply (NoDup_Add (a := x) (l := l)); auto. pose proof (Add_app x l []). rewrite app_nil_r in H. exact H.
Qed.

(** ** Bidicts *)
Section Bid.
  Context {K V : Type} (keqb : K -> K -> bool) (veqb : V -> V -> bool).
  Context (KP : forall a b, reflect (a = b) (keqb a b)) (VP : forall a b, reflect (a = b) (veqb a b)).

  Definition bid_ok (b : dict K V) : Prop := NoDup (map fst b) /\ NoDup (map snd b).

  Lemma binv_In : forall (b : dict K V) v k, binv veqb b v = Some k -> In (k, v) b.
  Proof.
    intros b v k H. unfold binv in H. apply (dget_In veqb VP) in H. apply in_map_iff in H.
    destruct H as ([k' v'] & E & Hin). inversion E; subst; auto.
  Qed.
  Lemma In_binv : forall (b : dict K V) v k, bid_ok b -> In (k, v) b -> binv veqb b v = Some k.
  Proof.
    intros b v k [_ HN] H. unfold binv. apply (In_dget veqb VP).
    - unfold dkeys. rewrite map_map. exact HN.
    - apply in_map_iff. exists (k, v). auto.
  Qed.
  Lemma binv_None : forall (b : dict K V) v, binv veqb b v = None <-> ~ In v (map snd b).
  Proof.
    intros b v. unfold binv. rewrite (dget_None veqb VP). unfold dkeys. rewrite map_map. simpl. tauto.
  Qed.
  Lemma binv_inj : forall (b : dict K V) u v k, bid_ok b -> binv veqb b u = Some k -> binv veqb b v = Some k -> u = v.
  Proof.
    intros b u v k [HN _] H1 H2. apply binv_In in H1. apply binv_In in H2.
    apply (In_dget keqb KP) in H1; auto. apply (In_dget keqb KP) in H2; auto. congruence.
  Qed.
  Lemma binv_dget : forall (b : dict K V) v k, bid_ok b -> (binv veqb b v = Some k <-> dget keqb b k = Some v).
  Proof.
    intros b v k H. split.
    - intros E. apply binv_In in E. apply (In_dget keqb KP); [apply H|auto].
    - intros E. apply In_binv; auto. eapply dget_In; eauto.
  Qed.

  Lemma dset_fresh_vals : forall (b : dict K V) k v, ~ In k (map fst b) -> dset keqb b k v = b ++ [(k, v)].
  Proof. intros. apply dset_fresh; auto. Qed.

  Lemma mk_bidict_app : forall (d acc : dict K V), bid_ok (acc ++ d) ->
    foldM (fun b kv => bput keqb veqb b (fst kv) (snd kv)) d acc = Ok (acc ++ d).
  Proof.
    induction d as [|[k v] d IH]; intros acc [H1 H2]; simpl. { rewrite app_nil_r; auto. }
    assert (Hk : ~ In k (map fst acc)). { rewrite map_app in H1. simpl in H1. apply NoDup_remove_2 in H1. intros Hin. apply H1. apply in_or_app; auto. }
    assert (Hv : ~ In v (map snd acc)). { rewrite map_app in H2. simpl in H2. apply NoDup_remove_2 in H2. intros Hin. apply H2. apply in_or_app; auto. }
    unfold bput. rewrite (proj2 (binv_None acc v) Hv). cbn [bind]. rewrite dset_fresh_vals by auto.
    rewrite IH; rewrite <- app_assoc; simpl; auto. split; auto.
  Qed.

  Lemma mk_bidict_ok : forall (d : dict K V), bid_ok d -> mk_bidict keqb veqb d = Ok d.
  Proof. intros d H. unfold mk_bidict. rewrite mk_bidict_app; auto. Qed.

  (** [bidict(d)] of a dictionary succeeds iff its values differ. *)
  Lemma mk_bidict_inv : forall (d acc : dict K V) b, bid_ok acc -> NoDup (map fst (acc ++ d)) ->
    foldM (fun b kv => bput keqb veqb b (fst kv) (snd kv)) d acc = Ok b -> bid_ok b /\ b = acc ++ d.
  Proof.
    induction d as [|[k v] d IH]; intros acc b HO HN H; simpl in H. { inversion H; subst. rewrite app_nil_r; auto. }
    assert (Hk : ~ In k (map fst acc)). { rewrite map_app in HN. simpl in HN. apply NoDup_remove_2 in HN. intros Hin. apply HN. apply in_or_app; auto. }
    unfold bput in H. destruct (binv veqb acc v) as [k'|] eqn:E.
    - destruct (KP k k') as [<-|]; [|discriminate]. exfalso. apply binv_In in E. apply Hk. apply in_map_iff. exists (k, v); auto.
    - cbn [bind] in H. rewrite dset_fresh_vals in H by auto. apply IH in H.
      + rewrite <- app_assoc in H. auto.
      + destruct HO as [O1 O2]. split.
        * rewrite map_app. simpl. apply NoDup_snoc_iff; auto.
        * rewrite map_app. simpl. apply NoDup_snoc_iff; split; auto. apply binv_None; auto.
      + rewrite <- app_assoc. auto.
  Qed.

  Lemma mk_bidict_iff : forall (d b : dict K V), NoDup (map fst d) -> (mk_bidict keqb veqb d = Ok b <-> NoDup (map snd d) /\ b = d).
  Proof.
    intros d b HN. split.
    - intros H. apply mk_bidict_inv in H; auto.
      + destruct H as [H1 H2]. simpl in H2. subst b. destruct H1; auto.
      + split; constructor.
    - intros [H ->]. apply mk_bidict_ok. split; auto.
  Qed.
End Bid.
