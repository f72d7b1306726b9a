(** Reduction, third part: labels, rewards and the completed matrix. *)
From Coq Require Import String List Arith ZArith QArith Qreals Reals Bool Lia Lra.
From Coq Require Lqa.
From Verif Require Import Base BaseFacts Num Matrix MatFacts InvDict InvDictProofs Graph GraphSpec SpecMdp SumFacts SpecSystem SpecBuilt Amdp AmdpProofs ReachForm ReachFormProofs BuiltFacts Reduce ReduceProofs1 ReduceProofs2.
Import ListNotations.
Local Open Scope nat_scope.

(** Sums over a renumbering. *)
Lemma sumn_keys : forall keys n (g : nat -> R), NoDup keys -> (forall d, In d keys -> d < n) -> (forall d, d < n -> ~ In d keys -> g d = 0%R) ->
  sumn n g = fold_right Rplus 0%R (map g keys).
Proof.
  induction keys as [|k ks IH]; intros n g HN HB HZ.
  - simpl. apply sumn_zero. intros i Hi. apply HZ; auto.
  - inversion HN; subst. simpl. rewrite (sumn_ext n g (fun d => (if Nat.eqb d k then g k else 0) + (if Nat.eqb d k then 0 else g d))%R).
    2:{ intros i _. destruct (Nat.eqb_spec i k); [subst; lra|lra]. }
    rewrite sumn_plus. rewrite (sumn_indicator n k (g k)) by (apply HB; simpl; auto). f_equal.
    rewrite (IH n (fun d => if Nat.eqb d k then 0%R else g d)); auto.
    + f_equal. apply map_ext_in. intros a Ha. destruct (Nat.eqb_spec a k); [subst; contradiction|auto].
    + intros d Hd. apply HB; simpl; auto.
    + intros d Hd Hk. destruct (Nat.eqb_spec d k); auto. apply HZ; auto. simpl. intros [?|?]; auto.
Qed.

Lemma sumn_seq : forall n h, sumn n h = fold_right Rplus 0%R (map h (seq 0 n)).
Proof.
  intros n h. apply sumn_keys; [apply seq_NoDup|intros d Hd; apply in_seq in Hd; lia|]. intros d Hd Hn. exfalso. apply Hn. apply in_seq. lia.
Qed.

Lemma sumn_reindex : forall n n' (cols : dict nat nat) g h, NoDup (map fst cols) -> map snd cols = seq 0 n' ->
  (forall d c, In (d, c) cols -> d < n /\ h c = g d) -> (forall d, d < n -> ~ In d (map fst cols) -> g d = 0%R) -> sumn n g = sumn n' h.
Proof.
  intros n n' cols g h HN HS HE HZ. rewrite (sumn_keys (map fst cols) n g HN).
  - rewrite sumn_seq, <- HS, !map_map. f_equal. apply map_ext_in. intros [d c] Hin. simpl. symmetry. apply HE; auto.
  - intros d Hd. apply in_map_iff in Hd. destruct Hd as ([d' c] & <- & Hin). apply (HE _ _ Hin).
  - exact HZ.
Qed.

(** Dictionaries of labels. *)
Definition sets_ok {B} (d : dict string (list B)) : Prop := NoDup (dkeys d) /\ forall l s, In (l, s) d -> NoDup s.

Lemma lab_add_spec : forall B (beqb : B -> B -> bool), (forall a b, reflect (a = b) (beqb a b)) -> forall d l x, sets_ok d ->
  sets_ok (lab_add beqb d l x) /\ forall l' x', has String.eqb (lab_add beqb d l x) l' x' <-> (l' = l /\ x' = x) \/ has String.eqb d l' x'.
Proof.
  intros B beqb HB d l x (HN & HS). unfold lab_add. pose proof (side_add_nodup String.eqb beqb String.eqb_spec d l x HN) as HN'.
  split; [split; [exact HN'|]|intros; apply side_add_has; auto; apply String.eqb_spec].
  intros l0 s0 Hin. apply (In_dget String.eqb String.eqb_spec _ _ _ HN') in Hin.
  eapply (side_add_sets _ _ String.eqb beqb String.eqb_spec HB); [|exact Hin].
  intros k' s E. eapply HS. eapply (dget_In String.eqb String.eqb_spec); eauto.
Qed.

Lemma lab_fold_spec : forall B (beqb : B -> B -> bool), (forall a b, reflect (a = b) (beqb a b)) -> forall ls d x, sets_ok d ->
  let d' := fold_left (fun d l => lab_add beqb d l x) ls d in
  sets_ok d' /\ forall l' x', has String.eqb d' l' x' <-> (In l' ls /\ x' = x) \/ has String.eqb d l' x'.
Proof.
  intros B beqb HB ls. induction ls as [|l ls IH]; intros d x HS; simpl.
  - split; auto. intros. intuition.
  - destruct (lab_add_spec B beqb HB d l x HS) as [H1 H2]. destruct (IH _ x H1) as [H3 H4]. split; auto.
    intros l' x'. rewrite H4, H2. intuition.
Qed.

Lemma nth_repeat0 : forall n j, nth j (repeat 0%Q n) 0%Q = 0%Q.
Proof. induction n; destruct j; simpl; auto. Qed.

Section Init.
  Variable m : amdp.
  Hypothesis OK : sys_ok m.
  Hypothesis LB : labs_ok m.
  Hypothesis KD : kind_ok m.
  Variables (rows : dict (nat * nat) (nat * nat)) (cols : dict nat nat) (tmask : list bool).
  Hypothesis CB : bid_ok cols.
  Hypothesis CS : map snd cols = seq 0 (length cols).
  Hypothesis RN : NoDup (map fst rows).
  Hypothesis RR : forall s a, In (s, a) (map fst rows) -> exists i, a_row m (s, a) = Some i.
  Hypothesis RC : forall s a s' a', In ((s, a), (s', a')) rows -> a' = a /\ In (s, s') cols.
  Hypothesis RK : forall s, In s (map fst cols) -> exists a, In (s, a) (map fst rows).
  Hypothesis ROWLT : forall s a i, In (s, a) (map fst rows) -> a_row m (s, a) = Some i -> i < a_C m.
  Variables (P : mat) (tg : list Q).
  Hypothesis P1 : mrows P = length rows.
  Hypothesis P2 : mcols P = length cols.
  Hypothesis P3 : wf_mat P.
  Hypothesis P4 : length tg = length rows.
  Hypothesis P5 : forall j s a r, nth_error rows j = Some ((s, a), r) -> nth j tg 0%Q = if nth s tmask false then 1%Q else 0%Q.
  Hypothesis P6 : forall j c p, In ((j, c), p) (mitems P) <-> row_entry m rows cols tmask j c p.

  Let C := length rows.
  Let N := length cols.
  Let index := new_index rows.

  Lemma ni_In : forall k j, In (k, j) index <-> exists x, nth_error rows j = Some (x, k).
  Proof.
    unfold index, new_index. intros k j. rewrite in_map_iff. split.
    - intros ((j', (x, k')) & E & Hin). simpl in E. inversion E; subst. apply in_split in Hin. destruct Hin as (p1 & p2 & Hin).
      destruct (combine_prefix _ _ _ _ _ _ Hin) as [A1 A2]. simpl in A1, A2. subst j. eauto.
    - intros (x & E). exists (j, (x, k)). split; [auto|]. clear -E. 
      assert (G : forall (l : dict (nat * nat) (nat * nat)) n, nth_error l j = Some (x, k) -> In (n + j, (x, k)) (combine (seq n (length l)) l)).
      { revert E. clear. intros _. revert j. induction j as [|j IH]; intros l n E; destruct l as [|y l]; simpl in E; try discriminate.
        - inversion E; subst. simpl. rewrite Nat.add_0_r. auto.
        - simpl. right. replace (n + S j) with (S n + j) by lia. apply IH; auto. }
      apply (G rows 0); auto.
  Qed.
  Lemma ni_bid : bid_ok index.
  Proof.
    unfold index, new_index, bid_ok. rewrite !map_map. simpl. split.
    - replace (map (fun x : nat * (nat * nat * (nat * nat)) => snd (snd x)) (combine (seq 0 (length rows)) rows)) with (map snd rows).
      + eapply rows_vals; eauto.
      + clear. generalize 0. induction rows as [|x l IH]; intros n; simpl; auto. f_equal. auto.
    - replace (map (fun x : nat * (nat * nat * (nat * nat)) => fst x) (combine (seq 0 (length rows)) rows)) with (seq 0 (length rows)); [apply seq_NoDup|].
      clear. generalize 0. induction rows as [|x l IH]; intros n; simpl; auto. f_equal. auto.
  Qed.
  Lemma rows_bid : bid_ok rows.
  Proof. split; auto. eapply rows_vals; eauto. Qed.
  Lemma ni_lt : forall s a j, In ((s, a), j) index -> s < N /\ j < C.
  Proof.
    intros s a j H. apply ni_In in H. destruct H as ([s0 a0] & E). split; [|unfold C; apply nth_error_Some; congruence].
    apply nth_error_In in E. destruct (RC _ _ _ _ E) as [_ E']. eapply cols_lt; eauto.
  Qed.
  Lemma row_j : forall j, j < C -> exists s a s', nth_error rows j = Some ((s, a), (s', a)) /\ In (s, s') cols.
  Proof.
    intros j Hj. destruct (nth_error rows j) as [[[s a] [s' a']]|] eqn:E; [|apply nth_error_None in E; unfold C in Hj; lia].
    destruct (RC _ _ _ _ (nth_error_In _ _ E)) as [-> E']. exists s, a, s'. auto.
  Qed.

  Definition icompl : dict (nat * nat) nat := index ++ [((N, 0), C)] ++ [((S N, 0), S C)].
  Lemma icompl_bid : bid_ok icompl.
  Proof.
    unfold icompl. rewrite app_assoc. apply bid_snoc; [apply bid_snoc; [apply ni_bid| |]| |].
    - intros H. apply in_map_iff in H. destruct H as ([[s a] j] & E & H). simpl in E. inversion E; subst. apply ni_lt in H. lia.
    - intros H. apply in_map_iff in H. destruct H as ([[s a] j] & E & H). simpl in E. subst. apply ni_lt in H. lia.
    - rewrite map_app, in_app_iff. simpl. intros [H|[H|[]]]; [|inversion H; lia]. apply in_map_iff in H. destruct H as ([[s a] j] & E & H). simpl in E. inversion E; subst. apply ni_lt in H. lia.
    - rewrite map_app, in_app_iff. simpl. intros [H|[H|[]]]; [|lia]. apply in_map_iff in H. destruct H as ([[s a] j] & E & H). simpl in E. subst. apply ni_lt in H. lia.
  Qed.
  Lemma icompl_ok : bind (bput pair_eqb Nat.eqb index (N, 0) C) (fun i => bput pair_eqb Nat.eqb i (S N, 0) (S C)) = Ok icompl.
  Proof.
    rewrite bput_fresh; [|apply pair_eqbP|apply Nat.eqb_spec| |].
    - cbn [bind]. rewrite bput_fresh; [unfold icompl; rewrite app_assoc; auto|apply pair_eqbP|apply Nat.eqb_spec| |].
      + rewrite map_app, in_app_iff. simpl. intros [H|[H|[]]]; [|inversion H; lia]. apply in_map_iff in H. destruct H as ([[s a] j] & E & H). simpl in E. inversion E; subst. apply ni_lt in H. lia.
      + rewrite map_app, in_app_iff. simpl. intros [H|[H|[]]]; [|lia]. apply in_map_iff in H. destruct H as ([[s a] j] & E & H). simpl in E. subst. apply ni_lt in H. lia.
    - intros H. apply in_map_iff in H. destruct H as ([[s a] j] & E & H). simpl in E. inversion E; subst. apply ni_lt in H. lia.
    - intros H. apply in_map_iff in H. destruct H as ([[s a] j] & E & H). simpl in E. subst. apply ni_lt in H. lia.
  Qed.

  (** Labels and rewards. *)
  Definition rew_ok (upto : nat) (rew : option (list Q)) : Prop :=
    match a_rew m with
    | None => rew = None
    | Some r => exists v, rew = Some v /\ length v = C + 2 /\
        (forall j s a k i, j < upto -> nth_error rows j = Some ((s, a), k) -> a_row m (s, a) = Some i -> nth_error v j = nth_error r i) /\
        (forall j, upto <= j -> nth j v 0%Q = 0%Q)
    end.

  Lemma copy_labels_ok : exists al sl rew,
    foldM (copy_labels m index rows) (seq 0 C) ([], [], match a_rew m with None => None | Some _ => Some (repeat 0%Q (C + 2)) end) = Ok (al, sl, rew) /\
    sets_ok al /\ sets_ok sl /\ rew_ok C rew /\
    (forall l x, has String.eqb sl l x <-> exists s, In (s, x) cols /\ In s (states_by_label m l)) /\
    (forall l x b, has String.eqb al l (x, b) <-> exists s, In ((s, b), (x, b)) rows /\ In (s, b) (actions_by_label m l)).
  Proof.
    destruct (foldM_ok _ _ (copy_labels m index rows) (fun pre st => let '(al, sl, rew) := st in
      sets_ok al /\ sets_ok sl /\ rew_ok (length pre) rew /\
      (forall l x, has String.eqb sl l x <-> exists j s a b, j < length pre /\ nth_error rows j = Some ((s, a), (x, b)) /\ In s (states_by_label m l)) /\
      (forall l x b, has String.eqb al l (x, b) <-> exists j s, j < length pre /\ nth_error rows j = Some ((s, b), (x, b)) /\ In (s, b) (actions_by_label m l)))
      (seq 0 C) ([], [], match a_rew m with None => None | Some _ => Some (repeat 0%Q (C + 2)) end)) as (((al, sl), rew) & E & HA & HS & HR & HSL & HAL).
    - split; [split; [constructor|intros ? ? []]|]. split; [split; [constructor|intros ? ? []]|]. split; [|split].
      + unfold rew_ok. destruct (a_rew m); auto. eexists. split; [reflexivity|]. split; [apply repeat_length|]. split; [simpl; intros; lia|]. intros. apply nth_repeat0.
      + intros. split; [intros (? & E & _); discriminate|]. intros (j & ? & ? & ? & Hj & _). simpl in Hj. lia.
      + intros. split; [intros (? & E & _); discriminate|]. intros (j & ? & Hj & _). simpl in Hj. lia.
    - intros pre idx ((al, sl), rew) (HA & HS & HR & HSL & HAL) (post & Hsp).
      assert (Hidx : idx = length pre /\ idx < C).
      { assert (Hn : nth_error (seq 0 C) (length pre) = Some idx) by (rewrite Hsp, nth_error_app2, Nat.sub_diag; auto).
        assert (Hl : length pre < C). { rewrite <- (seq_length C 0). apply nth_error_Some. congruence. }
        apply nth_error_nth with (d := 0) in Hn. rewrite seq_nth in Hn by auto. lia. }
      destruct Hidx as [-> Hlt]. destruct (row_j _ Hlt) as (s & a & s' & Ej & Hc).
      unfold copy_labels.
      assert (Ei : binv Nat.eqb index (length pre) = Some (s', a)). { apply (In_binv Nat.eqb Nat.eqb_spec); [apply ni_bid|]. apply ni_In. eauto. }
      assert (Er : binv pair_eqb rows (s', a) = Some (s, a)). { apply (In_binv pair_eqb pair_eqbP); [apply rows_bid|]. eapply nth_error_In; eauto. }
      rewrite Ei. cbn [of_opt bind]. rewrite Er. cbn [of_opt bind].
      assert (Hk : In (s, a) (map fst rows)). { apply in_map_iff. exists ((s, a), (s', a)). split; auto. eapply nth_error_In; eauto. }
      destruct (RR _ _ Hk) as (i & Eri). pose proof (ROWLT _ _ _ Hk Eri) as Hi.
      destruct (lab_fold_spec _ Nat.eqb Nat.eqb_spec (labels_by_state m s) sl s' HS) as [F1 F2].
      destruct (lab_fold_spec _ pair_eqb pair_eqbP (labels_by_action m (s, a)) al (s', a) HA) as [G1 G2].
      set (sl' := fold_left (fun d l => lab_add Nat.eqb d l s') (labels_by_state m s) sl) in *.
      set (al' := fold_left (fun d l => lab_add pair_eqb d l (s', a)) (labels_by_action m (s, a)) al) in *.
      assert (Fin : forall rew', rew_ok (S (length pre)) rew' -> sets_ok al' /\ sets_ok sl' /\ rew_ok (length (pre ++ [length pre])) rew' /\
        (forall l x, has String.eqb sl' l x <-> exists j s a b, j < length (pre ++ [length pre]) /\ nth_error rows j = Some ((s, a), (x, b)) /\ In s (states_by_label m l)) /\
        (forall l x b, has String.eqb al' l (x, b) <-> exists j s, j < length (pre ++ [length pre]) /\ nth_error rows j = Some ((s, b), (x, b)) /\ In (s, b) (actions_by_label m l))).
      { intros rew' HR'. rewrite app_length. simpl. rewrite Nat.add_1_r. split; [auto|]. split; [auto|]. split; [auto|]. split.
        - intros l x. rewrite F2, HSL, (labels_state_iff m LB). split.
          + intros [[H1 ->]|(j & s1 & a1 & b1 & Hj & H2)]; [exists (length pre), s, a, a; auto|exists j, s1, a1, b1; split; [lia|auto]].
          + intros (j & s1 & a1 & b1 & Hj & H2 & H3). destruct (Nat.eq_dec j (length pre)).
            * left. subst j. rewrite Ej in H2. inversion H2; subst. auto.
            * right. exists j, s1, a1, b1. split; [lia|auto].
        - intros l x b. rewrite G2, HAL, (labels_action_iff m LB). split.
          + intros [[H1 Ex]|(j & s1 & Hj & H2)]; [inversion Ex; subst; exists (length pre), s; auto|exists j, s1; split; [lia|auto]].
          + intros (j & s1 & Hj & H2 & H3). destruct (Nat.eq_dec j (length pre)).
            * left. subst j. rewrite Ej in H2. inversion H2; subst. auto.
            * right. exists j, s1. split; [lia|auto]. }
      unfold rew_ok in HR. destruct (a_rew m) as [r|] eqn:Erw.
      + destruct HR as (v & -> & V1 & V2 & V3). rewrite Eri. cbn [of_opt bind].
        destruct OK as (_ & _ & (_ & _ & _ & VR & _) & _). destruct (VR _ Erw _ Hi) as (q & Eq & Hq). rewrite Eq. cbn [of_opt bind].
        eexists. split; [reflexivity|]. apply Fin. unfold rew_ok. rewrite Erw. eexists. split; [reflexivity|]. split; [rewrite upd_length; auto|]. split.
        * intros j s1 a1 k1 i1 Hj Ej1 Er1. destruct (Nat.eq_dec j (length pre)).
          -- subst j. rewrite Ej in Ej1. inversion Ej1; subst. rewrite Eri in Er1. inversion Er1; subst. rewrite nth_error_upd_same by lia. auto.
          -- rewrite nth_error_upd_other by auto. eapply V2; eauto. lia.
        * intros j Hj. rewrite nth_upd_other by lia. apply V3. lia.
      + eexists. split; [reflexivity|]. apply Fin. unfold rew_ok. rewrite Erw. auto.
    - rewrite seq_length in *. exists al, sl, rew. split; [exact E|]. split; [auto|]. split; [auto|]. split; [auto|]. split.
      + intros l x. rewrite HSL. split.
        * intros (j & s & a & b & Hj & Ej & Hs). exists s. split; auto. apply nth_error_In in Ej. eapply RC; eauto.
        * intros (s & Hc & Hs). assert (Hk : In s (map fst cols)) by (apply in_map_iff; exists (s, x); auto).
          destruct (RK _ Hk) as (a & Ha). apply in_map_iff in Ha. destruct Ha as ([sa [x' b]] & Ea & Hin). simpl in Ea. subst sa.
          destruct (RC _ _ _ _ Hin) as [_ Hc']. rewrite <- (cols_fun cols CB _ _ _ Hc Hc') in Hin.
          destruct (In_nth_error _ _ Hin) as (j & Ej). exists j, s, a, b. split; [|auto]. unfold C. apply nth_error_Some. congruence.
      + intros l x b. rewrite HAL. split.
        * intros (j & s & Hj & Ej & Hs). exists s. split; auto. eapply nth_error_In; eauto.
        * intros (s & Hin & Hs). destruct (In_nth_error _ _ Hin) as (j & Ej). exists j, s. split; [|auto]. unfold C. apply nth_error_Some. congruence.
  Qed.

  (** The completed matrix. *)
  Definition pf (ntf : list Q) (j : nat) : Q := (1 - (nth j tg 0 + nth j ntf 0))%Q.

  Lemma Qlt_bool_iff : forall x y, Qlt_bool x y = true <-> (x < y)%Q.
  Proof. intros. unfold Qlt_bool. rewrite negb_true_iff. rewrite <- not_true_iff_false, Qle_bool_iff. split; [apply Qnot_le_lt|apply Qlt_not_le]. Qed.

  Lemma sum_loop_ok : exists ntf Pc,
    foldM (fun st (e : nat * nat * Q) =>
      let '(ntf, Pc) := st in
      let '((idx, dest), p) := e in
      let* o := of_opt IndexError (nth_error ntf idx) in
      let* Pc := mset Pc idx dest p in
      Ok (upd ntf idx (o + p)%Q, Pc)) (mitems P) (repeat 0%Q C, mzero (C + 2) (N + 2)) = Ok (ntf, Pc) /\
    length ntf = C /\ mrows Pc = C + 2 /\ mcols Pc = N + 2 /\ wf_mat Pc /\
    (forall x, In x (mitems Pc) <-> In x (mitems P)) /\
    (forall j, j < C -> (nth j ntf 0 == row_total P j)%Q).
  Proof.
    match goal with |- exists _ _, foldM ?f _ _ = _ /\ _ => set (F := f) end.
    destruct (foldM_ok _ _ F (fun pre st => let '(ntf, Pc) := st in
      length ntf = C /\ mrows Pc = C + 2 /\ mcols Pc = N + 2 /\ wf_mat Pc /\
      (forall x, In x (mitems Pc) <-> In x pre) /\
      (forall j, j < C -> (nth j ntf 0 == sumQ (map snd (filter (fun e => fst (fst e) =? j) pre)))%Q)) (mitems P) (repeat 0%Q C, mzero (C + 2) (N + 2)))
      as ((ntf, Pc) & E & H1 & H2 & H3 & H4 & H5 & H6).
    - split; [apply repeat_length|]. split; [auto|]. split; [auto|]. split; [apply wf_zero|]. split; [simpl; intros; intuition|].
      intros j _. rewrite nth_repeat0. reflexivity.
    - intros pre ((i, d), p) (ntf, Pc) (A1 & A2 & A3 & A4 & A5 & A6) (post & Hsp).
      assert (Hin : In ((i, d), p) (mitems P)) by (rewrite Hsp, in_app_iff; simpl; auto).
      destruct (proj2 P3 _ _ _ Hin) as (B1 & B2 & B3). rewrite P1 in B1. rewrite P2 in B2. fold C in B1. fold N in B2.
      unfold F at 1. destruct (nth_error ntf i) as [o|] eqn:Eo. 2:{ apply nth_error_None in Eo. lia. }
      cbn [of_opt bind]. apply nth_error_nth with (d := 0%Q) in Eo.
      destruct (mset_step Pc i d p) as (Pc' & EP & D1 & D2 & D3 & D4); auto; [lia|lia| |].
      { intros q' Hq. apply A5 in Hq. assert (Hq' : In ((i, d), q') (mitems P)) by (rewrite Hsp, in_app_iff; auto).
        pose proof (mget_In _ _ _ _ P3 Hq'). pose proof (mget_In _ _ _ _ P3 Hin). congruence. }
      rewrite EP. cbn [bind]. eexists. split; [reflexivity|]. cbn beta iota. rewrite upd_length.
      split; [auto|]. split; [congruence|]. split; [congruence|]. split; [auto|]. split.
      + intros x. rewrite D4, A5, in_app_iff. simpl. intuition.
      + intros j Hj. rewrite filter_app, map_app, sumQ_app. simpl. destruct (Nat.eqb_spec i j).
        * subst j. rewrite nth_upd_same by lia. simpl. rewrite <- (A6 i) by auto. rewrite Eo. Lqa.lra.
        * rewrite nth_upd_other by auto. simpl. rewrite (A6 j) by auto. Lqa.lra.
    - exists ntf, Pc. split; [exact E|]. split; [auto|]. split; [auto|]. split; [auto|]. split; [auto|]. split; [auto|].
      intros j Hj. rewrite (H6 j Hj). symmetry. apply row_total_sum. auto.
  Qed.

  Lemma fail_loop_ok : forall ntf Pc, length ntf = C -> mrows Pc = C + 2 -> mcols Pc = N + 2 -> wf_mat Pc ->
    (forall x, In x (mitems Pc) <-> In x (mitems P)) ->
    exists Pc', bind (foldM (fun Pc (e : nat * Q) =>
      let '(idx, pt) := e in
      let* Pc := if Qlt_bool 0 pt then mset Pc idx N pt else Ok Pc in
      let* o := of_opt IndexError (nth_error ntf idx) in
      let pf := (1 - (pt + o))%Q in
      if Qlt_bool 0 pf then mset Pc idx (S N) pf else Ok Pc) (combine (seq 0 (length tg)) tg) Pc)
      (fun Pc => bind (mset Pc C N 1%Q) (fun Pc => mset Pc (S C) (S N) 1%Q)) = Ok Pc' /\
    mrows Pc' = C + 2 /\ mcols Pc' = N + 2 /\ wf_mat Pc' /\
    forall x, In x (mitems Pc') <-> In x (mitems P) \/
      (exists j, j < C /\ ((x = ((j, N), nth j tg 0%Q) /\ (0 < nth j tg 0)%Q) \/ (x = ((j, S N), pf ntf j) /\ (0 < pf ntf j)%Q))) \/
      x = ((C, N), 1%Q) \/ x = ((S C, S N), 1%Q).
  Proof.
    intros ntf Pc L1 L2 L3 L4 L5.
    match goal with |- exists _, bind (foldM ?f _ _) _ = _ /\ _ => set (F := f) end.
    destruct (foldM_ok _ _ F (fun pre Pc' => mrows Pc' = C + 2 /\ mcols Pc' = N + 2 /\ wf_mat Pc' /\
      forall x, In x (mitems Pc') <-> In x (mitems P) \/
        (exists j, j < length pre /\ ((x = ((j, N), nth j tg 0%Q) /\ (0 < nth j tg 0)%Q) \/ (x = ((j, S N), pf ntf j) /\ (0 < pf ntf j)%Q))))
      (combine (seq 0 (length tg)) tg) Pc) as (Pc' & E & H1 & H2 & H3 & H4).
    - split; [auto|]. split; [auto|]. split; [auto|]. intros x. rewrite L5. split; [auto|]. intros [?|(j & Hj & _)]; [auto|simpl in Hj; lia].
    - intros pre (j, pt) Pc1 (A1 & A2 & A3 & A4) (post & Hsp).
      destruct (combine_prefix _ _ _ _ _ _ Hsp) as [Hx1 Hx2]. simpl in Hx1, Hx2. subst j.
      assert (Hlt : length pre < C). { unfold C. rewrite <- P4. apply nth_error_Some. congruence. }
      assert (Ept : nth (length pre) tg 0%Q = pt) by (apply nth_error_nth; auto).
      unfold F at 1.
      assert (S1 : exists Pc2, (if Qlt_bool 0 pt then mset Pc1 (length pre) N pt else Ok Pc1) = Ok Pc2 /\ mrows Pc2 = C + 2 /\ mcols Pc2 = N + 2 /\ wf_mat Pc2 /\
        forall x, In x (mitems Pc2) <-> In x (mitems Pc1) \/ (x = ((length pre, N), pt) /\ (0 < pt)%Q)).
      { destruct (Qlt_bool 0 pt) eqn:Eq.
        - apply Qlt_bool_iff in Eq. destruct (mset_step Pc1 (length pre) N pt) as (Pc2 & EP & D1 & D2 & D3 & D4); auto; [lia|lia| | |].
          { intros E0. rewrite E0 in Eq. apply (Qlt_irrefl _ Eq). }
          { intros q' Hq. apply A4 in Hq. destruct Hq as [Hq|(j & Hj & [[Hq _]|[Hq _]])]; [|inversion Hq; lia|inversion Hq; lia].
            destruct (proj2 P3 _ _ _ Hq) as (_ & B & _). rewrite P2 in B. unfold N in B. lia. }
          exists Pc2. split; [auto|]. split; [congruence|]. split; [congruence|]. split; [auto|]. intros x. rewrite D4. intuition.
        - exists Pc1. split; [auto|]. split; [auto|]. split; [auto|]. split; [auto|]. intros x. split; [auto|]. intros [?|[_ Hc]]; auto.
          apply Qlt_bool_iff in Hc. congruence. }
      destruct S1 as (Pc2 & E2 & B1 & B2 & B3 & B4). rewrite E2. cbn [bind].
      destruct (nth_error ntf (length pre)) as [o|] eqn:Eo. 2:{ apply nth_error_None in Eo. lia. }
      cbn [of_opt bind]. apply nth_error_nth with (d := 0%Q) in Eo.
      assert (Epf : (1 - (pt + o))%Q = pf ntf (length pre)) by (unfold pf; rewrite Eo, Ept; auto). rewrite Epf.
      assert (S2 : exists Pc3, (if Qlt_bool 0 (pf ntf (length pre)) then mset Pc2 (length pre) (S N) (pf ntf (length pre)) else Ok Pc2) = Ok Pc3 /\ mrows Pc3 = C + 2 /\ mcols Pc3 = N + 2 /\ wf_mat Pc3 /\
        forall x, In x (mitems Pc3) <-> In x (mitems Pc2) \/ (x = ((length pre, S N), pf ntf (length pre)) /\ (0 < pf ntf (length pre))%Q)).
      { destruct (Qlt_bool 0 (pf ntf (length pre))) eqn:Eq.
        - apply Qlt_bool_iff in Eq. destruct (mset_step Pc2 (length pre) (S N) (pf ntf (length pre))) as (Pc3 & EP & D1 & D2 & D3 & D4); auto; [lia|lia| | |].
          { intros E0. rewrite E0 in Eq. apply (Qlt_irrefl _ Eq). }
          { intros q' Hq. apply B4 in Hq. destruct Hq as [Hq|[Hq _]]; [|inversion Hq; lia]. apply A4 in Hq. destruct Hq as [Hq|(j & Hj & [[Hq _]|[Hq _]])]; [|inversion Hq; lia|inversion Hq; lia].
            destruct (proj2 P3 _ _ _ Hq) as (_ & B & _). rewrite P2 in B. unfold N in B. lia. }
          exists Pc3. split; [auto|]. split; [congruence|]. split; [congruence|]. split; [auto|]. intros x. rewrite D4. intuition.
        - exists Pc2. split; [auto|]. split; [auto|]. split; [auto|]. split; [auto|]. intros x. split; [auto|]. intros [?|[_ Hc]]; auto.
          apply Qlt_bool_iff in Hc. congruence. }
      destruct S2 as (Pc3 & E3 & D1 & D2 & D3 & D4). exists Pc3. split; [exact E3|]. split; [auto|]. split; [auto|]. split; [auto|].
      intros x. rewrite D4, B4, A4, app_length. simpl. rewrite Nat.add_1_r, <- Ept. split.
      + intros [[[?|(j & Hj & Hx)]|Hx]|Hx]; auto.
        * right. exists j. split; [lia|auto].
        * right. exists (length pre). split; [lia|auto].
        * right. exists (length pre). split; [lia|auto].
      + intros [?|(j & Hj & Hx)]; auto. destruct (Nat.eq_dec j (length pre)).
        * subst j. destruct Hx as [Hx|Hx]; auto.
        * left. left. right. exists j. split; [lia|auto].
    - rewrite E. cbn [bind].
      assert (CL : length (combine (seq 0 (length tg)) tg) = C). { rewrite combine_length, seq_length, P4. unfold C. lia. } rewrite CL in H4.
      assert (NR : forall j c q, C <= j -> ~ In ((j, c), q) (mitems Pc')).
      { intros j c q Hj Hin. apply H4 in Hin. destruct Hin as [Hq|(j' & Hj' & [[Hq _]|[Hq _]])]; [|inversion Hq; lia|inversion Hq; lia].
        destruct (proj2 P3 _ _ _ Hq) as (B & _ & _). rewrite P1 in B. unfold C in Hj. lia. }
      destruct (mset_step Pc' C N 1%Q) as (Pd & EP & D1 & D2 & D3 & D4); auto; [lia|lia|discriminate| |].
      { intros q' Hq. exfalso. eapply NR; [|eauto]. lia. }
      rewrite EP. cbn [bind].
      destruct (mset_step Pd (S C) (S N) 1%Q) as (Pe & EPe & F1 & F2 & F3 & F4); auto; [lia|lia|discriminate| |].
      { intros q' Hq. apply D4 in Hq. destruct Hq as [Hq|Hq]; [inversion Hq; lia|]. exfalso. eapply NR; [|eauto]. lia. }
      exists Pe. split; [auto|]. split; [congruence|]. split; [congruence|]. split; [auto|]. intros x. rewrite F4, D4, H4. intuition.
  Qed.

  (** Values of the completed matrix. *)
  Lemma mget_ext : forall A B i d i' d', wf_mat A -> wf_mat B -> (forall p, In ((i, d), p) (mitems A) <-> In ((i', d'), p) (mitems B)) -> mget A i d = mget B i' d'.
  Proof.
    intros A B i d i' d' WA WB H. unfold mget. destruct (dget pair_eqb (mitems A) (i, d)) as [p|] eqn:E.
    - apply (dget_In pair_eqb pair_eqbP) in E. apply H in E. rewrite (In_dget pair_eqb pair_eqbP _ _ _ (proj1 WB) E). auto.
    - destruct (dget pair_eqb (mitems B) (i', d')) as [p|] eqn:E'; auto. apply (dget_In pair_eqb pair_eqbP) in E'. apply H in E'.
      rewrite (In_dget pair_eqb pair_eqbP _ _ _ (proj1 WA) E') in E. discriminate.
  Qed.
  Lemma mget_none : forall A i d, (forall p, ~ In ((i, d), p) (mitems A)) -> mget A i d = 0%Q.
  Proof.
    intros A i d H. unfold mget. destruct (dget pair_eqb (mitems A) (i, d)) as [p|] eqn:E; auto.
    apply (dget_In pair_eqb pair_eqbP) in E. exfalso. eapply H; eauto.
  Qed.

  Lemma old_bounds : forall i d p, In ((i, d), p) (mitems (a_P m)) -> (0 <= p)%Q /\ (p <= 1)%Q.
  Proof. destruct OK as (_ & _ & (_ & _ & V & _) & _). exact V. Qed.
  Lemma old_nonneg : forall i d, (0 <= mget (a_P m) i d)%Q.
  Proof.
    intros i d. unfold mget. destruct (dget pair_eqb (mitems (a_P m)) (i, d)) eqn:E; [|Lqa.lra].
    apply (dget_In pair_eqb pair_eqbP) in E. apply old_bounds in E. apply E.
  Qed.
  Lemma cols_state : forall d c, In (d, c) cols -> d < a_N m.
  Proof.
    intros d c H. destruct (RK d) as (a & Ha). { apply in_map_iff. exists (d, c); auto. }
    destruct (RR _ _ Ha) as (i & Ei). eapply row_state; eauto.
  Qed.
  Lemma P_row_old : forall j s a k i, nth_error rows j = Some ((s, a), k) -> nth s tmask false = false -> a_row m (s, a) = Some i ->
    forall d c, In (d, c) cols -> mget P j c = mget (a_P m) i d.
  Proof.
    intros j s a k i Ej Et Ei d c Hc. apply mget_ext; [auto|apply ok_wf; auto|]. intros p. rewrite P6. split.
    - intros (s1 & a1 & r1 & i1 & d1 & E1 & _ & E3 & E4 & E5). rewrite Ej in E1. inversion E1; subst. rewrite Ei in E3. inversion E3; subst.
      rewrite (cols_inj cols CB _ _ _ Hc E4). auto.
    - intros H. exists s, a, k, i, d. auto.
  Qed.
  Lemma P_row_target : forall j s a k, nth_error rows j = Some ((s, a), k) -> nth s tmask false = true -> forall c, mget P j c = 0%Q.
  Proof.
    intros j s a k Ej Et c. apply mget_none. intros p Hp. apply P6 in Hp. destruct Hp as (s1 & a1 & r1 & i1 & d1 & E1 & E2 & _). rewrite Ej in E1. inversion E1; subst. congruence.
  Qed.

  Lemma P_nonneg : forall j c, (0 <= mget P j c)%Q.
  Proof.
    intros j c. unfold mget. destruct (dget pair_eqb (mitems P) (j, c)) eqn:E; [|Lqa.lra].
    apply (dget_In pair_eqb pair_eqbP) in E. apply P6 in E. destruct E as (s1 & a1 & r1 & i1 & d1 & _ & _ & _ & _ & E). apply old_bounds in E. apply E.
  Qed.

  Definition back (c : nat) : nat := match binv Nat.eqb cols c with Some d => d | None => 0 end.

  Lemma P_total : forall j s a k i, nth_error rows j = Some ((s, a), k) -> nth s tmask false = false -> a_row m (s, a) = Some i ->
    (row_total P j == sumQ (map (fun d => if dmem Nat.eqb cols d then mget (a_P m) i d else 0%Q) (seq 0 (a_N m))))%Q.
  Proof.
    intros j s a k i Ej Et Ei. unfold row_total. rewrite P2. fold N. apply eqR_Qeq. rewrite !Q2R_sumQ. symmetry. apply sumn_reindex with (cols := cols).
    - apply CB.
    - exact CS.
    - intros d c Hc. split; [eapply cols_state; eauto|]. rewrite (P_row_old _ _ _ _ _ Ej Et Ei _ _ Hc).
      assert (E : dmem Nat.eqb cols d = true). { apply (dmem_true Nat.eqb Nat.eqb_spec). apply in_map_iff. exists (d, c); auto. } rewrite E. auto.
    - intros d _ Hd. destruct (dmem Nat.eqb cols d) eqn:E; [apply (dmem_true Nat.eqb Nat.eqb_spec) in E; contradiction|apply Q2R_0].
  Qed.

  Lemma sumQ_le : forall A (f g : A -> Q) l, (forall x, (f x <= g x)%Q) -> (sumQ (map f l) <= sumQ (map g l))%Q.
  Proof. intros A f g l H. induction l as [|x l IH]; simpl; [Lqa.lra|]. specialize (H x). Lqa.lra. Qed.
  Lemma sumQ_nonneg : forall A (f : A -> Q) l, (forall x, (0 <= f x)%Q) -> (0 <= sumQ (map f l))%Q.
  Proof. intros A f l H. induction l as [|x l IH]; simpl; [Lqa.lra|]. specialize (H x). Lqa.lra. Qed.

  Lemma P_total_le : forall j s a k i, nth_error rows j = Some ((s, a), k) -> nth s tmask false = false -> a_row m (s, a) = Some i ->
    (0 <= row_total P j)%Q /\ (row_total P j <= row_total (a_P m) i)%Q.
  Proof.
    intros j s a k i Ej Et Ei. split; [apply sumQ_nonneg; apply P_nonneg|].
    rewrite (P_total _ _ _ _ _ Ej Et Ei). unfold row_total. apply sumQ_le. intros d.
    destruct (dmem Nat.eqb cols d); [Lqa.lra|apply old_nonneg].
  Qed.
  Lemma P_total_target : forall j s a k, nth_error rows j = Some ((s, a), k) -> nth s tmask false = true -> (row_total P j == 0)%Q.
  Proof.
    intros j s a k Ej Et. unfold row_total. induction (seq 0 (mcols P)) as [|c l IH]; simpl; [reflexivity|].
    rewrite IH, (P_row_target _ _ _ _ Ej Et). reflexivity.
  Qed.

  (** The result. *)
  Record reduced (tl fl : string) (m' : amdp) : Prop := {
    rd_built : constructed m';
    rd_C : a_C m' = C + 2;
    rd_N : a_N m' = N + 2;
    rd_idx : a_idx m' = icompl;
    rd_kind : a_kind m' = a_kind m;
    rd_rew : rew_ok C (a_rew m');
    rd_slab : forall l x, In x (states_by_label m' l) <-> (exists s, In (s, x) cols /\ In s (states_by_label m l)) \/ (l = fl /\ x = S N) \/ (l = tl /\ x = N);
    rd_alab : forall l x b, In (x, b) (actions_by_label m' l) <-> exists s, In ((s, b), (x, b)) rows /\ In (s, b) (actions_by_label m l);
    rd_target : forall j s a k c p, nth_error rows j = Some ((s, a), k) -> nth s tmask false = true ->
      (In ((j, c), p) (mitems (a_P m')) <-> c = N /\ p = 1%Q);
    rd_row : forall j s a k i c p, nth_error rows j = Some ((s, a), k) -> nth s tmask false = false -> a_row m (s, a) = Some i -> c <= N ->
      (In ((j, c), p) (mitems (a_P m')) <-> exists d, In (d, c) cols /\ In ((i, d), p) (mitems (a_P m)));
    rd_fail : forall j s a k i, nth_error rows j = Some ((s, a), k) -> nth s tmask false = false -> a_row m (s, a) = Some i ->
      exists q, (q == 1 - row_total P j)%Q /\ forall p, In ((j, S N), p) (mitems (a_P m')) <-> p = q /\ (0 < q)%Q;
    rd_goal_row : forall c p, In ((C, c), p) (mitems (a_P m')) <-> c = N /\ p = 1%Q;
    rd_fail_row : forall c p, In ((S C, c), p) (mitems (a_P m')) <-> c = S N /\ p = 1%Q;
    rd_exact : exact_rows (a_P m) -> exact_rows (a_P m') }.

  Lemma has_get : forall B (d : dict string (list B)) l x, has String.eqb d l x <-> In x (match dget String.eqb d l with Some s => s | None => [] end).
  Proof.
    intros B d l x. unfold has. destruct (dget String.eqb d l); [split; [intros (y & E & I); inversion E; subst; auto|eauto]|split; [intros (y & E & _); discriminate|intros []]].
  Qed.

  Lemma dtmc_square : a_kind m = KDtmc -> C = N.
  Proof.
    intros HK. destruct (KD HK) as (_ & KA & _).
    assert (K0 : forall s a, In (s, a) (map fst rows) -> a = 0).
    { intros s a Hin. destruct (RR _ _ Hin) as (i & Ei). apply (dget_In pair_eqb pair_eqbP) in Ei. eapply KA; eauto. }
    assert (E1 : NoDup (map (fun x : nat * nat * (nat * nat) => fst (fst x)) rows)).
    { clear -RN K0. induction rows as [|[[s a] k] l IH]; [constructor|]. simpl in *. inversion RN; subst. constructor; [|apply IH; auto].
      - intros Hin. apply in_map_iff in Hin. destruct Hin as ([[s1 a1] k1] & E & Hin). simpl in E. subst s1. apply H1.
        apply in_map_iff. exists ((s, a1), k1). split; [|auto]. simpl. rewrite (K0 s a) by auto. rewrite (K0 s a1); auto. right. apply in_map_iff. exists ((s, a1), k1). auto.
      - intros; eapply K0; eauto. }
    unfold C, N. apply Nat.le_antisymm.
    - rewrite <- (map_length (fun x : nat * nat * (nat * nat) => fst (fst x)) rows), <- (map_length fst cols). apply NoDup_incl_length; auto.
      intros s Hs. apply in_map_iff in Hs. destruct Hs as ([[s1 a1] [v w]] & E & Hin). simpl in E. subst s1. destruct (RC _ _ _ _ Hin) as [_ Hc].
      apply in_map_iff. exists (s, v); auto.
    - rewrite <- (map_length (fun x : nat * nat * (nat * nat) => fst (fst x)) rows), <- (map_length fst cols). apply NoDup_incl_length; [apply CB|].
      intros s Hs. destruct (RK _ Hs) as (a & Ha). apply in_map_iff in Ha. destruct Ha as ([sa k] & E & Hin). simpl in E. subst sa.
      apply in_map_iff. exists ((s, a), k); auto.
  Qed.

  Lemma icompl_In : forall k j, In (k, j) icompl <-> In (k, j) index \/ (k = (N, 0) /\ j = C) \/ (k = (S N, 0) /\ j = S C).
  Proof.
    intros k j. unfold icompl. rewrite !in_app_iff. simpl. split.
    - intros [?|[[E|[]]|[E|[]]]]; auto; inversion E; auto.
    - intros [?|[[-> ->]|[-> ->]]]; auto.
  Qed.

  Lemma init_ok : forall tl fl, exists m', initialize_system P index tg rows m tl fl = Ok m' /\ reduced tl fl m'.
  Proof.
    intros tl fl. unfold initialize_system. rewrite P1, P2. fold C N.
    pose proof icompl_ok as EI. apply bind_ok in EI. destruct EI as (i1 & E1 & E2). rewrite E1. cbn [bind]. rewrite E2. cbn [bind]. clear E1 E2 i1.
    destruct copy_labels_ok as (al & sl & rew & EL & HA & HS & HR & HSL & HAL). rewrite EL. cbn [bind]. clear EL.
    destruct sum_loop_ok as (ntf & Pc0 & ES & L1 & L2 & L3 & L4 & L5 & L6). rewrite ES. cbn [bind]. clear ES.
    destruct (fail_loop_ok ntf Pc0 L1 L2 L3 L4 L5) as (Pc & EF & S1 & S2 & S3 & S4).
    apply bind_ok in EF. destruct EF as (x1 & E1 & EF). apply bind_ok in EF. destruct EF as (x2 & E2 & E3).
    cbv zeta in E1. rewrite E1. cbn [bind]. rewrite E2. cbn [bind]. rewrite E3. cbn [bind]. clear E1 E2 E3 x1 x2 L2 L3 L4 L5 Pc0.
    destruct (lab_add_spec _ Nat.eqb Nat.eqb_spec sl fl (S N) HS) as [F1 F2].
    destruct (lab_add_spec _ Nat.eqb Nat.eqb_spec _ tl N F1) as [G1 G2].
    set (sl' := lab_add Nat.eqb (lab_add Nat.eqb sl fl (S N)) tl N) in *.
    (* entries *)
    assert (TGT : forall j s a k c p, nth_error rows j = Some ((s, a), k) -> nth s tmask false = true -> (In ((j, c), p) (mitems Pc) <-> c = N /\ p = 1%Q)).
    { intros j s a k c p Ej Et. pose proof (P5 _ _ _ _ Ej) as Etg. rewrite Et in Etg.
      assert (Hj : j < C) by (unfold C; apply nth_error_Some; congruence).
      assert (Epf : (pf ntf j == 0)%Q). { unfold pf. rewrite Etg, (L6 j Hj), (P_total_target _ _ _ _ Ej Et). reflexivity. }
      rewrite S4. split.
      - intros [Hq|[(j' & Hj' & [[Hq Hp]|[Hq Hp]])|[Hq|Hq]]].
        + apply P6 in Hq. destruct Hq as (s1 & a1 & r1 & i1 & d1 & X1 & X2 & _). rewrite Ej in X1. inversion X1; subst. congruence.
        + inversion Hq; subst. auto.
        + inversion Hq; subst. rewrite Epf in Hp. exfalso. apply (Qlt_irrefl _ Hp).
        + inversion Hq; subst. lia.
        + inversion Hq; subst. lia.
      - intros [-> ->]. right. left. exists j. split; [auto|]. left. rewrite Etg. split; [auto|reflexivity]. }
    assert (ROW : forall j s a k i c p, nth_error rows j = Some ((s, a), k) -> nth s tmask false = false -> a_row m (s, a) = Some i -> c <= N ->
      (In ((j, c), p) (mitems Pc) <-> exists d, In (d, c) cols /\ In ((i, d), p) (mitems (a_P m)))).
    { intros j s a k i c p Ej Et Ei Hc. pose proof (P5 _ _ _ _ Ej) as Etg. rewrite Et in Etg.
      assert (Hj : j < C) by (unfold C; apply nth_error_Some; congruence). rewrite S4. split.
      - intros [Hq|[(j' & Hj' & [[Hq Hp]|[Hq Hp]])|[Hq|Hq]]].
        + apply P6 in Hq. destruct Hq as (s1 & a1 & r1 & i1 & d1 & X1 & X2 & X3 & X4 & X5). rewrite Ej in X1. inversion X1; subst. rewrite Ei in X3. inversion X3; subst. eauto.
        + inversion Hq; subst. rewrite Etg in Hp. exfalso. apply (Qlt_irrefl _ Hp).
        + inversion Hq; subst. lia.
        + inversion Hq; subst. lia.
        + inversion Hq; subst. lia.
      - intros (d & Hd & Hp). left. apply P6. exists s, a, k, i, d. auto. }
    assert (FAIL : forall j s a k i, nth_error rows j = Some ((s, a), k) -> nth s tmask false = false -> a_row m (s, a) = Some i ->
      exists q, (q == 1 - row_total P j)%Q /\ forall p, In ((j, S N), p) (mitems Pc) <-> p = q /\ (0 < q)%Q).
    { intros j s a k i Ej Et Ei. pose proof (P5 _ _ _ _ Ej) as Etg. rewrite Et in Etg.
      assert (Hj : j < C) by (unfold C; apply nth_error_Some; congruence).
      exists (pf ntf j). split. { unfold pf. rewrite Etg, (L6 j Hj). ring. }
      intros p. rewrite S4. split.
      - intros [Hq|[(j' & Hj' & [[Hq Hp]|[Hq Hp]])|[Hq|Hq]]].
        + destruct (proj2 P3 _ _ _ Hq) as (_ & B & _). rewrite P2 in B. unfold N in B. lia.
        + inversion Hq; subst. lia.
        + inversion Hq; subst. auto.
        + inversion Hq; subst. lia.
        + inversion Hq; subst. lia.
      - intros [-> Hq]. right. left. exists j. split; [auto|]. auto. }
    assert (GROW : forall c p, In ((C, c), p) (mitems Pc) <-> c = N /\ p = 1%Q).
    { intros c p. rewrite S4. split.
      - intros [Hq|[(j' & Hj' & [[Hq Hp]|[Hq Hp]])|[Hq|Hq]]].
        + destruct (proj2 P3 _ _ _ Hq) as (B & _ & _). rewrite P1 in B. unfold C in B. lia.
        + inversion Hq; subst. lia.
        + inversion Hq; subst. lia.
        + inversion Hq; subst. auto.
        + inversion Hq; subst. lia.
      - intros [-> ->]. auto. }
    assert (FROW : forall c p, In ((S C, c), p) (mitems Pc) <-> c = S N /\ p = 1%Q).
    { intros c p. rewrite S4. split.
      - intros [Hq|[(j' & Hj' & [[Hq Hp]|[Hq Hp]])|[Hq|Hq]]].
        + destruct (proj2 P3 _ _ _ Hq) as (B & _ & _). rewrite P1 in B. unfold C in B. lia.
        + inversion Hq; subst. lia.
        + inversion Hq; subst. lia.
        + inversion Hq; subst. lia.
        + inversion Hq; subst. auto.
      - intros [-> ->]. auto. }
    (* totals *)
    assert (SPL : forall j, (row_total Pc j == sumQ (map (mget Pc j) (seq 0 N)) + mget Pc j N + mget Pc j (S N))%Q).
    { intros j. unfold row_total. rewrite S2. replace (N + 2) with (S (S N)) by lia. rewrite seq_S, map_app, sumQ_app, seq_S, map_app, sumQ_app. simpl. Lqa.lra. }
    assert (ZS : forall j, (forall c, c < N -> mget Pc j c = 0%Q) -> (sumQ (map (mget Pc j) (seq 0 N)) == 0)%Q).
    { intros j HZ. assert (G : forall l, (forall c, In c l -> c < N) -> (sumQ (map (mget Pc j) l) == 0)%Q).
      { induction l as [|c l IH]; intros HB; simpl; [reflexivity|]. rewrite IH by (intros; apply HB; simpl; auto). rewrite HZ by (apply HB; simpl; auto). reflexivity. }
      apply G. intros c Hc. apply in_seq in Hc. lia. }
    assert (TOT : forall j, j < C -> (row_total Pc j == 1)%Q \/ exists s a k i, nth_error rows j = Some ((s, a), k) /\ a_row m (s, a) = Some i /\
       (1 <= row_total P j)%Q /\ (row_total Pc j == row_total P j)%Q /\ (row_total P j <= row_total (a_P m) i)%Q).
    { intros j Hj. destruct (row_j j Hj) as (s & a & s' & Ej & Hc). destruct (nth s tmask false) eqn:Et.
      - left. rewrite SPL. rewrite ZS.
        2:{ intros c Hc'. apply mget_none. intros p Hp. apply (TGT _ _ _ _ _ _ Ej Et) in Hp. lia. }
        rewrite (mget_In Pc j N 1%Q S3) by (apply (TGT _ _ _ _ _ _ Ej Et); auto).
        rewrite (mget_none Pc j (S N)); [reflexivity|]. intros p Hp. apply (TGT _ _ _ _ _ _ Ej Et) in Hp. lia.
      - assert (Hk : In (s, a) (map fst rows)) by (apply in_map_iff; exists ((s, a), (s', a)); split; auto; eapply nth_error_In; eauto).
        destruct (RR _ _ Hk) as (i & Ei). destruct (FAIL _ _ _ _ _ Ej Et Ei) as (q & Eq & Hq).
        assert (EN : mget Pc j N = 0%Q). { apply mget_none. intros p Hp. apply (ROW _ _ _ _ _ _ _ Ej Et Ei (le_n _)) in Hp. destruct Hp as (d & Hd & _). apply (cols_lt cols CS) in Hd. unfold N in Hd. lia. }
        assert (ET : (sumQ (map (mget Pc j) (seq 0 N)) == row_total P j)%Q).
        { unfold row_total. rewrite P2. fold N. apply sumQ_ext. intros c Hin. apply in_seq in Hin. assert (E0 : mget Pc j c = mget P j c); [|rewrite E0; reflexivity].
          apply mget_ext; auto. intros p. rewrite (ROW _ _ _ _ _ _ _ Ej Et Ei) by lia. rewrite P6. split.
          - intros (d & Hd & Hp). exists s, a, (s', a), i, d. auto.
          - intros (s1 & a1 & r1 & i1 & d1 & X1 & X2 & X3 & X4 & X5). rewrite Ej in X1. inversion X1; subst. rewrite Ei in X3. inversion X3; subst. eauto. }
        destruct (Qlt_le_dec 0 q) as [H|H].
        + left. rewrite SPL, ET, EN. rewrite (mget_In Pc j (S N) q S3) by (apply Hq; auto). Lqa.lra.
        + right. exists s, a, (s', a), i. split; [auto|]. split; [auto|]. split; [Lqa.lra|]. split; [|eapply P_total_le; eauto].
          rewrite SPL, ET, EN. rewrite (mget_none Pc j (S N)); [ring|]. intros p Hp. apply Hq in Hp. destruct Hp as [_ Hp]. apply (Qlt_not_le _ _ Hp). auto. }
    assert (TOTG : (row_total Pc C == 1)%Q).
    { rewrite SPL, ZS. 2:{ intros c Hc'. apply mget_none. intros p Hp. apply GROW in Hp. lia. }
      rewrite (mget_In Pc C N 1%Q S3) by (apply GROW; auto). rewrite (mget_none Pc C (S N)); [reflexivity|]. intros p Hp. apply GROW in Hp. lia. }
    assert (TOTF : (row_total Pc (S C) == 1)%Q).
    { rewrite SPL, ZS. 2:{ intros c Hc'. apply mget_none. intros p Hp. apply FROW in Hp. lia. }
      rewrite (mget_In Pc (S C) (S N) 1%Q S3) by (apply FROW; auto). rewrite (mget_none Pc (S C) N); [reflexivity|]. intros p Hp. apply FROW in Hp. lia. }
    assert (ROWI : forall j s a k i, nth_error rows j = Some ((s, a), k) -> a_row m (s, a) = Some i -> i < a_C m).
    { intros j s a k i Ej Ei. eapply ROWLT; [|eauto]. apply in_map_iff. exists ((s, a), k). split; auto. eapply nth_error_In; eauto. }
    assert (NEAR1 : forall q, (q == 1)%Q -> near_one q).
    { intros q Hq. unfold near_one. rewrite Hq. setoid_replace (1 - 1)%Q with 0%Q by ring. simpl. unfold Qle; simpl; lia. }
    assert (VS : valid_system Pc icompl rew).
    { split; [apply icompl_bid|]. split; [|split; [|split]].
      - intros j Hj. rewrite S1 in Hj. destruct (Nat.eq_dec j C); [subst; auto|]. destruct (Nat.eq_dec j (S C)); [subst; auto|].
        destruct (TOT j) as [H|(s & a & k & i & Ej & Ei & H1 & H2 & H3)]; [lia|auto|].
        destruct OK as (_ & _ & (_ & VN & _) & _). specialize (VN i (ROWI _ _ _ _ _ Ej Ei)). unfold near_one in *. rewrite H2.
        apply Qabs.Qabs_Qle_condition in VN. apply Qabs.Qabs_Qle_condition. destruct VN as [VN1 VN2]. split; [|Lqa.lra].
        apply Qle_trans with 0%Q; [unfold Qle; simpl; lia|Lqa.lra].
      - intros j c p Hp. apply S4 in Hp. destruct Hp as [Hq|[(j' & Hj' & [[Hq Hp]|[Hq Hp]])|[Hq|Hq]]].
        + apply P6 in Hq. destruct Hq as (s1 & a1 & r1 & i1 & d1 & X1 & X2 & X3 & X4 & X5). eapply old_bounds; eauto.
        + inversion Hq; subst. split; [Lqa.lra|]. destruct (row_j _ Hj') as (s & a & s' & Ej & _). rewrite (P5 _ _ _ _ Ej). destruct (nth s tmask false); Lqa.lra.
        + inversion Hq; subst. split; [Lqa.lra|]. unfold pf. rewrite (L6 _ Hj').
          assert (0 <= row_total P j')%Q by (apply sumQ_nonneg; apply P_nonneg).
          destruct (row_j _ Hj') as (s & a & s' & Ej & _). rewrite (P5 _ _ _ _ Ej). destruct (nth s tmask false); Lqa.lra.
        + inversion Hq; subst. Lqa.lra.
        + inversion Hq; subst. Lqa.lra.
      - intros r Er j Hj. rewrite S1 in Hj. unfold rew_ok in HR. destruct (a_rew m) as [r0|] eqn:Erw; [|congruence].
        destruct HR as (v & Ev & V1 & V2 & V3). rewrite Er in Ev. inversion Ev; subst v. destruct (Nat.lt_ge_cases j C) as [H|H].
        + destruct (row_j _ H) as (s & a & s' & Ej & _).
          assert (Hk : In (s, a) (map fst rows)) by (apply in_map_iff; exists ((s, a), (s', a)); split; auto; eapply nth_error_In; eauto).
          destruct (RR _ _ Hk) as (i & Ei). rewrite (V2 _ _ _ _ _ H Ej Ei). destruct OK as (_ & _ & (_ & _ & _ & VR & _) & _). apply (VR _ Erw). eapply ROWI; eauto.
        + destruct (nth_error r j) as [q|] eqn:En. 2:{ apply nth_error_None in En. lia. }
          exists q. split; auto. apply nth_error_nth with (d := 0%Q) in En. rewrite V3 in En by auto. subst q. apply Qle_refl.
      - intros j c p Hp. destruct (proj2 S3 _ _ _ Hp) as (B & _ & _). rewrite S1 in B. rewrite S2.
        destruct (Nat.eq_dec j C). { exists N, 0. split; [apply icompl_In; subst; auto|lia]. }
        destruct (Nat.eq_dec j (S C)). { exists (S N), 0. split; [apply icompl_In; subst; auto|lia]. }
        destruct (row_j j) as (s & a & s' & Ej & Hc); [lia|]. exists s', a. split; [apply icompl_In; left; apply ni_In; eauto|].
        apply (cols_lt cols CS) in Hc. fold N in Hc. lia. }
    assert (GA : good_args Pc icompl al sl').
    { split; [auto|]. split; [apply icompl_bid|]. split; [exact HA|]. exact G1. }
    assert (FIN : forall m', (exists al', mk_abstract (a_kind m) Pc icompl (mk_idict al' true) (mk_idict sl' true) rew = Ok m' /\
        (forall l x b, has String.eqb al' l (x, b) <-> exists s, In ((s, b), (x, b)) rows /\ In (s, b) (actions_by_label m l))) -> constructed m' -> reduced tl fl m').
    { intros m' (al' & Em & HAL') HC. apply mk_abstract_inv in Em; [|apply icompl_bid]. destruct Em as (M1 & M2 & M3 & M4 & M5 & M6 & M7 & M8 & M9).
      unfold a_C, a_N. constructor; unfold a_C, a_N; rewrite ?M2, ?M3, ?M4; auto.
      - intros l x. unfold states_by_label at 1. rewrite M6. simpl. rewrite <- has_get, G2, F2, HSL. intuition.
      - intros l x b. unfold actions_by_label at 1. rewrite M5. simpl. rewrite <- has_get. apply HAL'.
      - intros HE j Hj. rewrite S1 in Hj. destruct (Nat.eq_dec j C); [subst; auto|]. destruct (Nat.eq_dec j (S C)); [subst; auto|].
        destruct (TOT j) as [H|(s & a & k & i & Ej & Ei & H1 & H2 & H3)]; [lia|auto|].
        specialize (HE i (ROWI _ _ _ _ _ Ej Ei)). rewrite H2. Lqa.lra. }
    unfold mk_kind. destruct (a_kind m) eqn:EK.
    - destruct (proj2 (C10_mdp_lemma Pc icompl al sl' rew S3 (proj1 icompl_bid)) VS) as (m' & Em). exists m'. split; [exact Em|]. apply FIN.
      + exists al. split; [exact Em|auto].
      + exists Pc, icompl, al, sl', rew. split; auto.
    - destruct (KD EK) as (_ & KA & KE).
      assert (IA : forall s a i, In ((s, a), i) icompl -> a = 0).
      { intros s a i Hin. apply icompl_In in Hin. destruct Hin as [Hin|[[E _]|[E _]]]; [|inversion E; auto|inversion E; auto].
        apply ni_In in Hin. destruct Hin as ([s0 a0] & Ex). apply nth_error_In in Ex. destruct (RC _ _ _ _ Ex) as [-> _].
        assert (Hk : In (s0, a0) (map fst rows)) by (apply in_map_iff; exists ((s0, a0), (s, a0)); auto).
        destruct (RR _ _ Hk) as (i0 & Ei). apply (dget_In pair_eqb pair_eqbP) in Ei. eapply KA; eauto. }
      assert (DT : exists m', mk_dtmc Pc (Some icompl) sl' rew = Ok m').
      { apply C10_dtmc_lemma; [auto|intros d E; inversion E; subst; apply icompl_bid|]. split; [|split; auto].
        rewrite S1, S2, (dtmc_square EK). auto. }
      destruct DT as (m' & Em). exists m'. split; [exact Em|]. apply FIN.
      + exists []. split.
        * unfold mk_dtmc in Em. apply bind_ok in Em. destruct Em as (u & _ & Em). apply bind_ok in Em. destruct Em as (d & E & Em).
          apply bind_ok in E. destruct E as (u' & _ & E). inversion E; subst d. exact Em.
        * intros l x b. split; [intros (y & E & _); discriminate|]. intros (s & _ & Hin). unfold actions_by_label in Hin. rewrite KE in Hin. destruct Hin.
      + exists Pc, icompl, [], sl', rew. split; [|auto]. split; [auto|]. split; [apply icompl_bid|]. split; [split; [constructor|intros ? ? []]|exact G1].
  Qed.
End Init.
