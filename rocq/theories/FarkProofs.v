(** Proofs about the Farkas constraints and their cache. *)
From Coq Require Import String List Arith ZArith QArith Qabs Qreals Reals Bool Lia Lra Lqa.
From Verif Require Import Base BaseFacts Num Matrix MatFacts InvDict Graph GraphSpec GraphProofs Scc SccSpec SccProofs Mec MecProofs
  SpecMdp SpecSystem SpecEc SpecForm SumFacts Amdp AmdpProofs ReachForm ReachFormProofs RfFacts FarkCache.
Import ListNotations.
Local Open Scope nat_scope.

Lemma list_seq : forall (z : list Q) , z = map (entry z) (seq 0 (length z)).
Proof.
  intros z. apply nth_ext with (d := 0%Q) (d' := entry z 0). { rewrite map_length, seq_length; auto. }
  intros i Hi. rewrite map_nth, seq_nth; auto.
Qed.

Lemma dot_seq : forall (f g : nat -> Q) n k, dotQ (map f (seq k n)) (map g (seq k n)) = sumQ (map (fun i => f i * g i)%Q (seq k n)).
Proof. unfold dotQ. intros f g. induction n; intros k; simpl; auto. f_equal. apply IHn. Qed.

Lemma dot_entry : forall f n z, length z = n -> dotQ (map f (seq 0 n)) z = sum_to n (fun i => f i * entry z i)%Q.
Proof. intros f n z H. rewrite (list_seq z) at 1. rewrite H. apply dot_seq. Qed.

Lemma sum_to_ext : forall n f g, (forall i, i < n -> (f i == g i)%Q) -> (sum_to n f == sum_to n g)%Q.
Proof. intros n f g H. apply sumQ_ext. intros x Hx. apply in_seq in Hx. apply H. lia. Qed.

Lemma sum_to_S : forall n f, (sum_to (S n) f == sum_to n f + f n)%Q.
Proof. intros. unfold sum_to. rewrite seq_S, map_app, sumQ_app. simpl. ring. Qed.

Lemma sum_to_plus : forall n f g, (sum_to n (fun i => f i + g i) == sum_to n f + sum_to n g)%Q.
Proof. induction n; intros; [unfold sum_to; simpl; ring|]. rewrite !sum_to_S, IHn. ring. Qed.
Lemma sum_to_opp : forall n f, (sum_to n (fun i => - f i) == - sum_to n f)%Q.
Proof. induction n; intros; [unfold sum_to; simpl; ring|]. rewrite !sum_to_S, IHn. ring. Qed.
Lemma sum_to_minus : forall n f g, (sum_to n (fun i => f i - g i) == sum_to n f - sum_to n g)%Q.
Proof. induction n; intros; [unfold sum_to; simpl; ring|]. rewrite !sum_to_S, IHn. ring. Qed.
Lemma sum_to_single : forall n k f, k < n -> (sum_to n (fun i => if k =? i then f i else 0) == f k)%Q.
Proof.
  induction n; intros k f Hk; [lia|]. rewrite sum_to_S. destruct (Nat.eqb_spec k n) as [->|E].
  - assert (G : (sum_to n (fun i => if n =? i then f i else 0) == sum_to n (fun i => 0))%Q).
    { apply sum_to_ext. intros i Hi. destruct (Nat.eqb_spec n i); [lia|reflexivity]. }
    rewrite G. assert (G2 : forall n, (sum_to n (fun _ => 0) == 0)%Q) by (induction n0; [reflexivity|rewrite sum_to_S, IHn0; ring]). rewrite G2. ring.
  - rewrite IHn by lia. ring.
Qed.

Lemma Q2R_sum_to : forall n f, Q2R (sum_to n f) = sumn n (fun i => Q2R (f i)).
Proof. intros. apply Q2R_sumQ. Qed.

Lemma Forall2_nth : forall (R : Q -> Q -> Prop) l1 l2, length l1 = length l2 ->
  (Forall2 R l1 l2 <-> forall i, i < length l1 -> R (nth i l1 0%Q) (nth i l2 0%Q)).
Proof.
  intros R. induction l1 as [|a l1 IH]; intros [|b l2] HL; try discriminate; split; intros H; auto.
  - intros i Hi; simpl in Hi; lia.
  - inversion H; subst. intros [|i] Hi; simpl; auto. apply IH; auto. simpl in Hi; lia.
  - constructor; [apply (H 0); simpl; lia|]. apply IH; auto. intros i Hi. apply (H (S i)). simpl; lia.
Qed.

Lemma Forall2_snoc : forall (R : Q -> Q -> Prop) l1 l2 a b, length l1 = length l2 ->
  (Forall2 R (l1 ++ [a]) (l2 ++ [b]) <-> Forall2 R l1 l2 /\ R a b).
Proof.
  intros R l1 l2 a b HL. split.
  - intros H. apply Forall2_app_inv_l in H. destruct H as (x & y & H1 & H2 & E). inversion H2 as [|? b' ? ? Hab Hn]; subst. inversion Hn; subst.
    apply app_inj_tail in E. destruct E; subst. auto.
  - intros [H1 H2]. apply Forall2_app; auto.
Qed.

Section Fark.
  Variable rf : rform.
  Hypothesis RO : rf_ok rf.
  Let m := rf_sys rf.
  Let P := a_P m.
  Let inv := a_inv m.
  Let n := rf_N rf.
  Let c := rf_C rf.

  (** One row of A applied to a vector. *)
  Lemma A_row_dot : forall i s z, s < n -> length z = n ->
    (dotQ (Arow_spec P n i s) z == entry z s - sum_to n (fun d => mget P i d * entry z d))%Q.
  Proof.
    intros i s z Hs Hz. unfold Arow_spec. rewrite dot_entry by auto.
    rewrite (sum_to_ext n _ (fun d => (if (s =? d)%nat then entry z d else 0) - mget P i d * entry z d)%Q).
    - rewrite sum_to_minus, sum_to_single by auto. reflexivity.
    - intros d Hd. destruct (s =? d); ring.
  Qed.

  Lemma A_rows : forall i, i < c -> exists s a, inv i = Some (s, a) /\ s < n /\ nth i (rf_A rf) [] = Arow_spec P n i s.
  Proof. apply (ro_row rf RO). Qed.

  Lemma mat_vec_nth : forall A x i, i < length A -> nth i (mat_vec A x) 0%Q = dotQ (nth i A []) x.
  Proof.
    intros A x i Hi. unfold mat_vec. rewrite (nth_indep _ 0%Q (dotQ [] x)) by (rewrite map_length; auto). rewrite (map_nth (fun row => dotQ row x)). auto.
  Qed.
  Lemma mat_vec_length : forall A x, length (mat_vec A x) = length A.
  Proof. intros. apply map_length. Qed.

  Lemma nth_map_seq : forall A (f : nat -> A) k i d, i < k -> nth i (map f (seq 0 k)) d = f i.
  Proof. intros A f k i d Hi. rewrite (nth_indep _ d (f 0)) by (rewrite map_length, seq_length; auto). rewrite map_nth, seq_nth; auto. Qed.

  Lemma unit_dot : forall k q z, k < n -> length z = n -> (dotQ (unit_vec n k q) z == q * entry z k)%Q.
  Proof.
    intros k q z Hk Hz. unfold unit_vec. rewrite dot_entry by auto.
    rewrite (sum_to_ext n _ (fun i => if (k =? i)%nat then q * entry z i else 0)%Q).
    - rewrite sum_to_single; auto. reflexivity.
    - intros i Hi. rewrite Nat.eqb_sym. destruct (k =? i); ring.
  Qed.

  (** The z-constraints, row by row. *)
  Lemma fark_z_rows : forall t z, rf_init rf < n -> length z = n ->
    exists A b, fark_z rf t = Ok (A, b) /\ length A = S c /\ length b = S c /\
      (forall i, i < c -> exists s a, inv i = Some (s, a) /\ s < n /\
          (nth i (mat_vec A z) 0%Q == entry z s - sum_to n (fun d => mget P i d * entry z d))%Q /\ nth i b 0%Q = mget P i n) /\
      (nth c (mat_vec A z) 0%Q == - entry z (rf_init rf))%Q /\ nth c b 0%Q = (-t)%Q.
  Proof.
    intros t z Hi Hz. unfold fark_z. fold n. rewrite (proj2 (Nat.ltb_lt _ _) Hi). eexists. eexists. split; [reflexivity|].
    pose proof (ro_lenA rf RO) as LA. pose proof (ro_tt rf RO) as TT.
    assert (LT : length (rf_to_target rf) = c) by (rewrite TT, map_length, seq_length; auto).
    split; [rewrite app_length; simpl; unfold c; lia|]. split; [rewrite app_length; simpl; unfold c in *; lia|].
    split; [|split].
    - intros i Hic. destruct (A_rows i Hic) as (s & a & E & Hs & EA). exists s, a. split; [auto|]. split; [auto|].
      rewrite mat_vec_nth by (rewrite app_length; unfold c in *; simpl; lia). rewrite app_nth1 by (unfold c in *; lia). rewrite EA.
      split; [apply A_row_dot; auto|]. rewrite app_nth1 by lia. rewrite TT. rewrite nth_map_seq; auto.
    - rewrite mat_vec_nth by (rewrite app_length; unfold c in *; simpl; lia). rewrite app_nth2 by (unfold c in *; lia).
      replace (c - length (rf_A rf)) with 0 by (unfold c; lia). simpl nth. rewrite unit_dot; auto. ring.
    - rewrite app_nth2 by lia. rewrite LT, Nat.sub_diag. auto.
  Qed.

  Lemma fark_z_ok : forall t, (exists A b, fark_z rf t = Ok (A, b)) <-> rf_init rf < n.
  Proof. intros t. unfold fark_z. fold n. destruct (Nat.ltb_spec (rf_init rf) n); split; eauto; try lia. intros (A & b & E); discriminate. Qed.

  Lemma fark_z_meaning : forall t z A b, fark_z rf t = Ok (A, b) -> length z = n ->
    (Forall2 Qle (mat_vec A z) b <-> z_constraints P inv (rf_init rf) t z).
  Proof.
    intros t z A b E Hz. assert (Hi : rf_init rf < n) by (apply (fark_z_ok t); eauto).
    destruct (fark_z_rows t z Hi Hz) as (A' & b' & E' & LA & LB & HR & HL & HB). rewrite E in E'. inversion E'; subst A' b'.
    rewrite Forall2_nth by (rewrite mat_vec_length; lia). rewrite mat_vec_length, LA. unfold z_constraints.
    change (mcols P - 2) with n. change (mrows P - 2) with c. split.
    - intros H. split.
      + intros i s a Hic Ei. destruct (HR i Hic) as (s' & a' & Ei' & Hs & R1 & R2). assert (s' = s) by congruence. subst s'.
        specialize (H i ltac:(lia)). rewrite R1, R2 in H. Lqa.lra.
      + specialize (H c ltac:(lia)). rewrite HL, HB in H. Lqa.lra.
    - intros [H1 H2] i Hic. assert (i < c \/ i = c) as [Hlt| ->] by lia.
      + destruct (HR i Hlt) as (s' & a' & Ei' & Hs & R1 & R2). specialize (H1 i s' a' Hlt Ei'). rewrite R1, R2. Lqa.lra.
      + rewrite HL, HB. Lqa.lra.
  Qed.

  (** The y-constraints, row by row. *)
  Lemma column_A : forall d, d < n -> column (rf_A rf) d = map (fun i => ((if belongs inv i d then 1 else 0) - mget P i d)%Q) (seq 0 c).
  Proof.
    intros d Hd. unfold column. apply nth_ext with (d := nth d [] 0%Q) (d' := 0%Q). { rewrite !map_length, seq_length. apply (ro_lenA rf RO). }
    intros i Hi. rewrite map_length in Hi. rewrite (map_nth (fun row => nth d row 0%Q)). assert (Hic : i < c) by (pose proof (ro_lenA rf RO); unfold c; lia).
    rewrite nth_map_seq by auto. destruct (A_rows i Hic) as (s & a & E & Hs & ->). unfold Arow_spec. rewrite nth_map_seq by auto.
    unfold belongs. rewrite E. auto.
  Qed.

  Lemma unit_nth : forall k j q i, i < k -> nth i (unit_vec k j q) 0%Q = if i =? j then q else 0%Q.
  Proof. intros. unfold unit_vec. rewrite nth_map_seq; auto. Qed.
  Lemma unit_length : forall k j q, length (unit_vec k j q) = k.
  Proof. intros. unfold unit_vec. rewrite map_length, seq_length. auto. Qed.

  Lemma fark_y_rows : forall t y, rf_init rf <= n -> length y = c ->
    exists A b, fark_y rf t = Ok (A, b) /\ length A = S n /\ length b = S n /\
      (forall s, s < n -> 
          (nth s (mat_vec A y) 0%Q == sum_to c (fun i => if belongs inv i s then entry y i else 0) - sum_to c (fun i => mget P i s * entry y i))%Q /\
          nth s b 0%Q = if s =? rf_init rf then 1%Q else 0%Q) /\
      (nth n (mat_vec A y) 0%Q == - sum_to c (fun i => mget P i n * entry y i))%Q /\ nth n b 0%Q = (-t)%Q.
  Proof.
    intros t y Hi Hy. unfold fark_y. rewrite (proj2 (Nat.ltb_lt (rf_init rf) (S (rf_N rf)))) by (unfold n in Hi; lia). fold n.
    eexists. eexists. split; [reflexivity|].
    assert (L1 : length (map (column (rf_A rf)) (seq 0 n)) = n) by (rewrite map_length, seq_length; auto).
    split; [rewrite app_length, L1; simpl; lia|]. split; [rewrite upd_length; apply unit_length|]. split; [|split].
    - intros s Hs. rewrite mat_vec_nth by (rewrite app_length, L1; simpl; lia). rewrite app_nth1 by lia. rewrite nth_map_seq by auto.
      rewrite column_A by auto. split.
      + rewrite dot_entry by auto. rewrite (sum_to_ext c _ (fun i => (if belongs inv i s then entry y i else 0) - mget P i s * entry y i)%Q).
        * apply sum_to_minus.
        * intros i _. destruct (belongs inv i s); ring.
      + rewrite nth_upd_other by lia. apply unit_nth. lia.
    - rewrite mat_vec_nth by (rewrite app_length, L1; simpl; lia). rewrite app_nth2 by lia. rewrite L1, Nat.sub_diag. simpl nth.
      rewrite (ro_tt rf RO), map_map. fold c n m P. rewrite dot_entry by auto. rewrite <- sum_to_opp. apply sum_to_ext. intros i _. ring.
    - rewrite nth_upd_same; auto. rewrite unit_length. lia.
  Qed.

  Lemma fark_y_ok : forall t, (exists A b, fark_y rf t = Ok (A, b)) <-> rf_init rf <= n.
  Proof. intros t. unfold fark_y. fold n. destruct (Nat.ltb_spec (rf_init rf) (S n)); split; eauto; try lia. intros (A & b & E); discriminate. Qed.

  Lemma fark_y_meaning : forall t y A b, fark_y rf t = Ok (A, b) -> length y = c ->
    (Forall2 Qle (mat_vec A y) b <-> y_constraints P inv (rf_init rf) t y).
  Proof.
    intros t y A b E Hy. assert (Hi : rf_init rf <= n) by (apply (fark_y_ok t); eauto).
    destruct (fark_y_rows t y Hi Hy) as (A' & b' & E' & LA & LB & HR & HL & HB). rewrite E in E'. inversion E'; subst A' b'.
    rewrite Forall2_nth by (rewrite mat_vec_length; lia). rewrite mat_vec_length, LA. unfold y_constraints.
    change (mcols P - 2) with n. change (mrows P - 2) with c. split.
    - intros H. split.
      + intros s Hs. destruct (HR s Hs) as (R1 & R2). specialize (H s ltac:(lia)). rewrite R1, R2 in H. exact H.
      + specialize (H n ltac:(lia)). rewrite HL, HB in H. Lqa.lra.
    - intros [H1 H2] s Hs. assert (s < n \/ s = n) as [Hlt| ->] by lia.
      + destruct (HR s Hlt) as (R1 & R2). rewrite R1, R2. apply H1; auto.
      + rewrite HL, HB. Lqa.lra.
  Qed.

  (** ** The cache *)
  Definition cache_inv (st : cstate) : Prop :=
    (forall M a, zmatr st = Some M -> zrhs st = Some a ->
       a < length (heap st) /\ rf_init rf < n /\ M = rf_A rf ++ [unit_vec n (rf_init rf) (-1)] /\ exists q, cell st a = rf_to_target rf ++ [q]) /\
    (zmatr st <> None -> zrhs st <> None) /\
    (forall M a, ymatr st = Some M -> yrhs st = Some a ->
       a < length (heap st) /\ rf_init rf < S n /\ M = map (column (rf_A rf)) (seq 0 n) ++ [map Qopp (rf_to_target rf)] /\
       exists q, cell st a = upd (unit_vec (S n) (rf_init rf) 1) n q) /\
    (ymatr st <> None -> yrhs st <> None) /\
    (forall M M' a b, zmatr st = Some M -> ymatr st = Some M' -> zrhs st = Some a -> yrhs st = Some b -> a <> b).

  Definition deref (st : cstate) (r : res (list (list Q) * nat)) : res (list (list Q) * list Q) :=
    match r with Ok (M, a) => Ok (M, cell st a) | Err e => Err e end.

  Lemma upd_snoc : forall (l : list Q) q q', upd (l ++ [q]) (length l) q' = l ++ [q'].
  Proof. induction l; simpl; intros; congruence. Qed.
  Lemma upd_upd : forall (l : list Q) i x y, upd (upd l i x) i y = upd l i y.
  Proof. induction l; intros [|i] x y; simpl; congruence. Qed.

  Lemma nth_snoc_old : forall (h : list (list Q)) x a, a < length h -> nth a (h ++ [x]) [] = nth a h [].
  Proof. intros. apply app_nth1; auto. Qed.
  Lemma nth_snoc_new : forall (h : list (list Q)) x, nth (length h) (h ++ [x]) [] = x.
  Proof. intros. rewrite app_nth2, Nat.sub_diag; auto. Qed.

  Lemma tt_len : length (rf_to_target rf) = c.
  Proof. rewrite (ro_tt rf RO), map_length, seq_length. auto. Qed.

  Lemma call_z_spec : forall st t, cache_inv st ->
    let '(st', r) := call_z rf st t in deref st' r = fark_z rf t /\ cache_inv st'.
  Proof.
    intros st t (I1 & I2 & I3 & I4 & I5). unfold call_z. fold n c.
    assert (New : let a := length (heap st) in let h := heap st ++ [rf_to_target rf ++ [(-t)%Q]] in
      (let '(st', r) := if rf_init rf <? n then
        let M := rf_A rf ++ [unit_vec n (rf_init rf) (-1)] in
        (MkC h (Some M) (Some a) (ymatr st) (yrhs st), Ok (M, a))
      else (MkC h (zmatr st) (Some a) (ymatr st) (yrhs st), Err IndexError) in zmatr st = None \/ zrhs st = None -> deref st' r = fark_z rf t /\ cache_inv st')).
    { cbv zeta. unfold fark_z. fold n. destruct (Nat.ltb_spec (rf_init rf) n) as [Hi|Hi]; intros HNone.
      - split; [simpl; unfold cell; simpl; rewrite nth_snoc_new; auto|].
        unfold cache_inv, cell in *; simpl. split; [|split; [|split; [|split]]]; auto; try discriminate.
        + intros M a E1 E2. inversion E1; inversion E2; subst. rewrite nth_snoc_new, app_length. simpl. split; [lia|]. split; [auto|]. split; [auto|]. exists (-t)%Q; reflexivity.
        + intros M a E1 E2. destruct (I3 M a E1 E2) as (A & B & C & D). rewrite app_length, nth_snoc_old by auto. simpl. split; [lia|auto].
        + intros M M' a b E1 E2 E3 E4. inversion E3; subst. destruct (I3 M' b E2 E4). lia.
      - split; [reflexivity|]. unfold cache_inv, cell in *; simpl.
        assert (Hz : zmatr st = None). { destruct HNone as [|H]; auto. destruct (zmatr st) eqn:E; auto. exfalso. apply I2; [discriminate|auto]. }
        rewrite Hz in *. split; [|split; [|split; [|split]]]; auto; try discriminate; try congruence.
        intros M a E1 E2. destruct (I3 M a E1 E2) as (A & B & C & D). rewrite app_length, nth_snoc_old by auto. simpl. split; [lia|auto]. }
    destruct (zmatr st) as [M|] eqn:EM; [destruct (zrhs st) as [a|] eqn:EA|].
    - destruct (I1 M a eq_refl eq_refl) as (A1 & A2 & A3 & q & A4). split.
      + simpl. unfold cell at 1. simpl. rewrite nth_upd_same by auto. rewrite A4. rewrite <- tt_len, upd_snoc. unfold fark_z. fold n.
        rewrite (proj2 (Nat.ltb_lt _ _) A2). rewrite A3. auto.
      + unfold cache_inv; simpl. rewrite ?upd_length. split; [|split; [|split; [|split]]]; auto; try discriminate.
        * intros M' a' E1 E2. inversion E1; inversion E2; subst. split; [auto|]. split; [auto|]. split; [auto|]. 
          unfold cell at 1. simpl. rewrite nth_upd_same by auto. rewrite A4, <- tt_len, upd_snoc. eauto.
        * intros M' a' E1 E2. destruct (I3 M' a' E1 E2) as (B1 & B2 & B3 & B4). split; [auto|]. split; [auto|]. split; [auto|].
          unfold cell at 1. simpl. rewrite nth_upd_other; [exact B4|]. apply (I5 M M' a a'); auto.
    - exfalso. apply I2; [discriminate|auto].
    - cbv zeta in New. destruct (rf_init rf <? n); apply New; auto.
  Qed.

  Lemma call_y_spec : forall st t, cache_inv st ->
    let '(st', r) := call_y rf st t in deref st' r = fark_y rf t /\ cache_inv st'.
  Proof.
    intros st t (I1 & I2 & I3 & I4 & I5). unfold call_y. fold n.
    destruct (ymatr st) as [M|] eqn:EM; [destruct (yrhs st) as [a|] eqn:EA|].
    - destruct (I3 M a eq_refl eq_refl) as (A1 & A2 & A3 & q & A4). split.
      + simpl. unfold cell at 1. simpl. rewrite nth_upd_same by auto. rewrite A4. rewrite upd_upd. unfold fark_y. fold n.
        rewrite (proj2 (Nat.ltb_lt _ _) A2). rewrite A3. auto.
      + unfold cache_inv; simpl. rewrite ?upd_length. split; [|split; [|split; [|split]]]; auto; try discriminate.
        * intros M' a' E1 E2. destruct (I1 M' a' E1 E2) as (B1 & B2 & B3 & B4). split; [auto|]. split; [auto|]. split; [auto|].
          unfold cell at 1. simpl. rewrite nth_upd_other; [exact B4|]. intros <-. apply (I5 M' M a a); auto.
        * intros M' a' E1 E2. inversion E1; inversion E2; subst. split; [auto|]. split; [auto|]. split; [auto|]. 
          unfold cell at 1. simpl. rewrite nth_upd_same by auto. rewrite A4, upd_upd. exists (-t)%Q; reflexivity.
    - exfalso. apply I4; [discriminate|auto].
    - unfold fark_y. fold n. destruct (Nat.ltb_spec (rf_init rf) (S n)) as [Hi|Hi].
      + split; [simpl; unfold cell; simpl; rewrite nth_snoc_new; auto|].
        unfold cache_inv, cell in *; simpl. split; [|split; [|split; [|split]]]; auto; try discriminate.
        * intros M a E1 E2. destruct (I1 M a E1 E2) as (A & B & C & D). rewrite app_length, nth_snoc_old by auto. simpl. split; [lia|auto].
        * intros M a E1 E2. inversion E1; inversion E2; subst. rewrite nth_snoc_new, app_length. simpl. split; [lia|]. split; [auto|]. split; [auto|]. exists (-t)%Q; reflexivity.
        * intros M M' a b E1 E2 E3 E4. inversion E4; subst. destruct (I1 M a E1 E3). lia.
      + split; [reflexivity|]. unfold cache_inv, cell in *; simpl.
        split; [|split; [|split; [|split]]]; auto; try discriminate; try congruence.
        intros M a E1 E2. destruct (I1 M a E1 E2) as (A & B & C & D). rewrite app_length, nth_snoc_old by auto. simpl. split; [lia|auto].
  Qed.

  Lemma cache_init : cache_inv cinit.
  Proof. unfold cache_inv, cinit; simpl. split; [|split; [|split; [|split]]]; try congruence; discriminate. Qed.

  Lemma calls_inv : forall l st, cache_inv st -> cache_inv (calls rf st l).
  Proof.
    induction l as [|x l IH]; intros st H; simpl; auto. apply IH. destruct x as [t|t]; simpl.
    - pose proof (call_z_spec st t H). destruct (call_z rf st t). apply H0.
    - pose proof (call_y_spec st t H). destruct (call_y rf st t). apply H0.
  Qed.

  Lemma C17_lemma : forall l t,
    let st := calls rf cinit l in
    (let '(st', r) := do_call rf st (CallZ t) in deref st' r = fark_z rf t) /\
    (let '(st', r) := do_call rf st (CallY t) in deref st' r = fark_y rf t).
  Proof.
    intros l t. cbv zeta. pose proof (calls_inv l cinit cache_init) as H. simpl. split.
    - pose proof (call_z_spec _ t H). destruct (call_z rf (calls rf cinit l) t). apply H0.
    - pose proof (call_y_spec _ t H). destruct (call_y rf (calls rf cinit l) t). apply H0.
  Qed.

  (** After a successful call the attributes hold what was returned. *)
  Lemma call_z_after : forall st t st' M a, call_z rf st t = (st', Ok (M, a)) -> zmatr st' = Some M /\ zrhs st' = Some a.
  Proof.
    intros st t st' M a H. unfold call_z in H. destruct (zmatr st) as [M0|] eqn:EM; [destruct (zrhs st) as [a0|] eqn:EA|].
    - inversion H; subst; auto.
    - destruct (rf_init rf <? rf_N rf); inversion H; subst; auto.
    - destruct (rf_init rf <? rf_N rf); inversion H; subst; auto.
  Qed.
  Lemma call_y_after : forall st t st' M a, call_y rf st t = (st', Ok (M, a)) -> ymatr st' = Some M /\ yrhs st' = Some a.
  Proof.
    intros st t st' M a H. unfold call_y in H. destruct (ymatr st) as [M0|] eqn:EM; [destruct (yrhs st) as [a0|] eqn:EA|].
    - inversion H; subst; auto.
    - destruct (rf_init rf <? S (rf_N rf)); inversion H; subst; auto.
    - destruct (rf_init rf <? S (rf_N rf)); inversion H; subst; auto.
  Qed.

  Lemma call_y_frame : forall st t M a, zmatr st = Some M -> zrhs st = Some a -> cache_inv st ->
    let st' := fst (call_y rf st t) in zmatr st' = Some M /\ zrhs st' = Some a /\ cell st' a = cell st a.
  Proof.
    intros st t M a EM EA HI. cbv zeta. destruct HI as (I1 & I2 & I3 & I4 & I5). destruct (I1 M a EM EA) as (L & _). unfold call_y.
    destruct (ymatr st) as [M0|] eqn:EM0; [destruct (yrhs st) as [a0|] eqn:EA0|].
    - simpl. split; [auto|]. split; [auto|]. unfold cell; simpl. rewrite nth_upd_other; auto. intros ->. eapply I5; eauto.
    - exfalso; apply I4; [discriminate|auto].
    - destruct (rf_init rf <? S (rf_N rf)); simpl; (split; [auto|]; split; [auto|]); unfold cell; simpl; apply nth_snoc_old; auto.
  Qed.
  Lemma call_z_frame : forall st t M a, ymatr st = Some M -> yrhs st = Some a -> cache_inv st ->
    let st' := fst (call_z rf st t) in ymatr st' = Some M /\ yrhs st' = Some a /\ cell st' a = cell st a.
  Proof.
    intros st t M a EM EA HI. cbv zeta. destruct HI as (I1 & I2 & I3 & I4 & I5). destruct (I3 M a EM EA) as (L & _). unfold call_z.
    destruct (zmatr st) as [M0|] eqn:EM0; [destruct (zrhs st) as [a0|] eqn:EA0|].
    - simpl. split; [auto|]. split; [auto|]. unfold cell; simpl. rewrite nth_upd_other; auto. intros ->. eapply I5; eauto.
    - exfalso; apply I2; [discriminate|auto].
    - destruct (rf_init rf <? rf_N rf); simpl; (split; [auto|]; split; [auto|]); unfold cell; simpl; apply nth_snoc_old; auto.
  Qed.

  Lemma call_z_again : forall st t M a, zmatr st = Some M -> zrhs st = Some a -> 
    call_z rf st t = (MkC (upd (heap st) a (upd (cell st a) (rf_C rf) (-t)%Q)) (zmatr st) (zrhs st) (ymatr st) (yrhs st), Ok (M, a)).
  Proof. intros st t M a E1 E2. unfold call_z. rewrite E1, E2. auto. Qed.
  Lemma call_y_again : forall st t M a, ymatr st = Some M -> yrhs st = Some a -> 
    call_y rf st t = (MkC (upd (heap st) a (upd (cell st a) (rf_N rf) (-t)%Q)) (zmatr st) (zrhs st) (ymatr st) (yrhs st), Ok (M, a)).
  Proof. intros st t M a E1 E2. unfold call_y. rewrite E1, E2. auto. Qed.

  (** A right-hand side survives calls of the other kind and repeated calls
      with its own threshold. *)
  Lemma C18_z_lemma : forall l1 t st M a, call_z rf (calls rf cinit l1) t = (st, Ok (M, a)) ->
    forall l2, (forall t', In (CallZ t') l2 -> t' = t) -> cell (calls rf st l2) a = cell st a.
  Proof.
    intros l1 t st M a H l2 Hl.
    pose proof (call_z_spec (calls rf cinit l1) t (calls_inv l1 _ cache_init)) as HS. rewrite H in HS. destruct HS as [HD HI].
    destruct (call_z_after _ _ _ _ _ H) as [EM EA]. simpl in HD.
    assert (G : forall l2 s, (forall t', In (CallZ t') l2 -> t' = t) -> cache_inv s -> zmatr s = Some M -> zrhs s = Some a -> Ok (M, cell s a) = fark_z rf t ->
                cell (calls rf s l2) a = cell st a).
    { clear l2 Hl. induction l2 as [|x l2 IH]; intros s Hl Is EMs EAs HDs; simpl. { congruence. }
      destruct x as [t'|t']; simpl.
      - assert (t' = t) by (apply Hl; left; auto). subst t'. pose proof (call_z_spec s t Is) as HS. rewrite (call_z_again s t M a EMs EAs) in *. destruct HS as [HS1 HS2].
        cbn [fst]. apply IH; auto. intros; apply Hl; right; auto.
      - pose proof (call_y_spec s t' Is) as HS. pose proof (call_y_frame s t' M a EMs EAs Is) as HF. destruct (call_y rf s t') as [s' r]. cbn [fst] in *. destruct HS, HF as (F1 & F2 & F3).
        apply IH; auto. intros; apply Hl; right; auto. congruence. }
    apply G; auto.
  Qed.
  Lemma C18_y_lemma : forall l1 t st M a, call_y rf (calls rf cinit l1) t = (st, Ok (M, a)) ->
    forall l2, (forall t', In (CallY t') l2 -> t' = t) -> cell (calls rf st l2) a = cell st a.
  Proof.
    intros l1 t st M a H l2 Hl.
    pose proof (call_y_spec (calls rf cinit l1) t (calls_inv l1 _ cache_init)) as HS. rewrite H in HS. destruct HS as [HD HI].
    destruct (call_y_after _ _ _ _ _ H) as [EM EA]. simpl in HD.
    assert (G : forall l2 s, (forall t', In (CallY t') l2 -> t' = t) -> cache_inv s -> ymatr s = Some M -> yrhs s = Some a -> Ok (M, cell s a) = fark_y rf t ->
                cell (calls rf s l2) a = cell st a).
    { clear l2 Hl. induction l2 as [|x l2 IH]; intros s Hl Is EMs EAs HDs; simpl. { congruence. }
      destruct x as [t'|t']; simpl.
      - pose proof (call_z_spec s t' Is) as HS. pose proof (call_z_frame s t' M a EMs EAs Is) as HF. destruct (call_z rf s t') as [s' r]. cbn [fst] in *. destruct HS, HF as (F1 & F2 & F3).
        apply IH; auto. intros; apply Hl; right; auto. congruence.
      - assert (t' = t) by (apply Hl; left; auto). subst t'. pose proof (call_y_spec s t Is) as HS. rewrite (call_y_again s t M a EMs EAs) in *. destruct HS as [HS1 HS2].
        cbn [fst]. apply IH; auto. intros; apply Hl; right; auto. }
    apply G; auto.
  Qed.

  (** A later call for another threshold overwrites it. *)
  Lemma C18_overwritten_lemma : forall l1 t1 t2 st M a, call_z rf (calls rf cinit l1) t1 = (st, Ok (M, a)) ->
    cell (fst (call_z rf st t2)) a = rf_to_target rf ++ [(-t2)%Q] /\ cell st a = rf_to_target rf ++ [(-t1)%Q].
  Proof.
    intros l1 t1 t2 st M a H.
    pose proof (call_z_spec (calls rf cinit l1) t1 (calls_inv l1 _ cache_init)) as HS. rewrite H in HS. destruct HS as [HD HI].
    destruct (call_z_after _ _ _ _ _ H) as [EM EA].
    pose proof (call_z_spec st t2 HI) as HS. rewrite (call_z_again st t2 M a EM EA) in *. destruct HS as [HS1 _]. simpl deref in HD. simpl deref in HS1.
    unfold fark_z in *. destruct (rf_init rf <? rf_N rf); [|discriminate]. cbn [fst]. split; congruence.
  Qed.
End Fark.
