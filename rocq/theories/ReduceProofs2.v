(** Reduction, second part: the rows of the reduced matrix. *)
From Coq Require Import String List Arith ZArith QArith Bool Lia.
From Verif Require Import Base BaseFacts Num Matrix MatFacts InvDict InvDictProofs Graph GraphSpec SpecSystem Amdp AmdpProofs ReachForm ReachFormProofs BuiltFacts Reduce ReduceProofs1.
Import ListNotations.
Local Open Scope nat_scope.

Lemma combine_prefix : forall A (l : list A) n pre x post, combine (seq n (length l)) l = pre ++ x :: post ->
  fst x = n + length pre /\ nth_error l (length pre) = Some (snd x).
Proof.
  intros A l. induction l as [|y l IH]; intros n pre x post H; [destruct pre; discriminate|]. simpl in H. destruct pre as [|z pre].
  - inversion H; subst. simpl. split; [lia|auto].
  - inversion H; subst. destruct (IH _ _ _ _ H2). simpl. split; [lia|auto].
Qed.

Section Rows.
  Variable m : amdp.
  Hypothesis OK : sys_ok m.
  Variables (rows : dict (nat * nat) (nat * nat)) (cols : dict nat nat) (tmask : list bool).
  Hypothesis CB : bid_ok cols.
  Hypothesis CS : map snd cols = seq 0 (length cols).
  Hypothesis RN : NoDup (map fst rows).
  Hypothesis RR : forall s a, In (s, a) (map fst rows) -> exists i, a_row m (s, a) = Some i.
  Hypothesis RC : forall s a s' a', In ((s, a), (s', a')) rows -> a' = a /\ In (s, s') cols.
  Hypothesis TL : length tmask = a_N m.

  Lemma cols_lt : forall d c, In (d, c) cols -> c < length cols.
  Proof. intros d c H. assert (In c (map snd cols)) by (apply in_map_iff; exists (d, c); auto). rewrite CS in H0. apply in_seq in H0. apply H0. Qed.
  Lemma cols_fun : forall d c c', In (d, c) cols -> In (d, c') cols -> c = c'.
  Proof. intros d c c' H H'. pose proof (In_dget Nat.eqb Nat.eqb_spec _ _ _ (proj1 CB) H). pose proof (In_dget Nat.eqb Nat.eqb_spec _ _ _ (proj1 CB) H'). congruence. Qed.
  Lemma cols_inj : forall d d' c, In (d, c) cols -> In (d', c) cols -> d = d'.
  Proof. intros d d' c H H'. pose proof (In_binv Nat.eqb Nat.eqb_spec _ _ _ CB H). pose proof (In_binv Nat.eqb Nat.eqb_spec _ _ _ CB H'). congruence. Qed.
  Lemma cols_get : forall d c, dget Nat.eqb cols d = Some c <-> In (d, c) cols.
  Proof. intros. split; [apply (dget_In Nat.eqb Nat.eqb_spec)|apply (In_dget Nat.eqb Nat.eqb_spec); apply CB]. Qed.

  Lemma dests_spec : forall s a i, a_row m (s, a) = Some i -> s < a_N m ->
    exists ss, successors (a_graph m) s None = Ok ss /\
      forall d, In d (map sap_state (filter (fun x => sap_action x =? a) ss)) <-> exists p, In ((i, d), p) (mitems (a_P m)).
  Proof.
    intros s a i Ei Hs. eexists. split; [apply (succ_triples m OK); auto|]. intros d. rewrite in_map_iff. apply (row_inv m OK) in Ei. split.
    - intros (x & Ex & Hx). apply filter_In in Hx. destruct Hx as [Hx Ea]. apply in_map_iff in Hx. destruct Hx as ([[d' a'] p'] & Ex' & Hx). subst x.
      unfold sap_state, sap_action in *. simpl in *. subst d'. apply Nat.eqb_eq in Ea. subst a'.
      unfold out_triples in Hx. apply in_flat_map in Hx. destruct Hx as ([[j d'] q] & Hj & Hx). destruct (a_inv m j) as [[s' a']|] eqn:Ej; [|contradiction].
      destruct (Nat.eqb_spec s' s); [|contradiction]. destruct Hx as [Eq|[]]. inversion Eq; subst. exists p'. rewrite (inv_inj m OK i j _ Ei Ej). auto.
    - intros (p & Hp). exists (d, a, f32 p). split; [reflexivity|]. apply filter_In. split; [|unfold sap_action; simpl; apply Nat.eqb_refl].
      apply in_map_iff. exists (d, a, p). split; [reflexivity|]. unfold out_triples. apply in_flat_map. exists ((i, d), p). split; [auto|].
      change (a_inv m i = Some (s, a)) in Ei. rewrite Ei, Nat.eqb_refl. simpl. auto.
  Qed.

  Lemma copy_row_ok : forall P newidx s a i, wf_mat P -> newidx < mrows P -> mcols P = length cols -> a_row m (s, a) = Some i -> s < a_N m ->
    (forall c q, ~ In ((newidx, c), q) (mitems P)) ->
    exists P', copy_row m cols P newidx s a = Ok P' /\ mrows P' = mrows P /\ mcols P' = mcols P /\ wf_mat P' /\
      forall x, In x (mitems P') <-> In x (mitems P) \/ exists d c p, x = ((newidx, c), p) /\ In (d, c) cols /\ In ((i, d), p) (mitems (a_P m)).
  Proof.
    intros P newidx s a i WF Hn Hc Ei Hs HF. unfold copy_row. rewrite Ei. cbn [of_opt bind].
    destruct (dests_spec s a i Ei Hs) as (ss & Es & HD). rewrite Es. cbn [bind]. clear Es.
    set (ds := map sap_state (filter (fun x => sap_action x =? a) ss)) in *.
    destruct (foldM_ok _ _ (fun P d => match dget Nat.eqb cols d with Some nd => mset P newidx nd (mget (a_P m) i d) | None => Ok P end)
      (fun pre P' => mrows P' = mrows P /\ mcols P' = mcols P /\ wf_mat P' /\
         forall x, In x (mitems P') <-> In x (mitems P) \/ exists d c, In d pre /\ x = ((newidx, c), mget (a_P m) i d) /\ In (d, c) cols) ds P) as (P' & E & H1 & H2 & H3 & H4).
    - split; [auto|]. split; [auto|]. split; [auto|]. intros x. split; [auto|]. intros [?|(d & c & [] & _)]; auto.
    - intros pre d P1 (A1 & A2 & A3 & A4) (post & Hsp).
      destruct (dget Nat.eqb cols d) as [nd|] eqn:Ed.
      + apply cols_get in Ed.
        assert (Hd : In d ds) by (rewrite Hsp, in_app_iff; simpl; auto). apply HD in Hd. destruct Hd as (p & Hp).
        destruct (mset_step P1 newidx nd (mget (a_P m) i d)) as (P2 & E2 & B1 & B2 & B3 & B4); auto.
        * rewrite A1; auto.
        * rewrite A2, Hc. eapply cols_lt; eauto.
        * rewrite (mget_In _ _ _ _ (ok_wf m OK) Hp). eapply (proj2 (ok_wf m OK)); eauto.
        * intros q' Hq. apply A4 in Hq. destruct Hq as [Hq|(d' & c' & _ & Eq & Hd')]; [exfalso; eapply HF; eauto|].
          inversion Eq; subst. rewrite (cols_inj _ _ _ Ed Hd'). auto.
        * exists P2. split; [auto|]. split; [congruence|]. split; [congruence|]. split; [auto|]. intros x. rewrite B4, A4. split.
          -- intros [->|[?|(d' & c' & Hin & Ex & Hc')]]; auto.
             ++ right. exists d, nd. split; [apply in_app_iff; simpl; auto|auto].
             ++ right. exists d', c'. split; [apply in_app_iff; auto|auto].
          -- intros [?|(d' & c' & Hin & Ex & Hc')]; auto. apply in_app_iff in Hin. destruct Hin as [Hin|[->|[]]].
             ++ right. right. eauto 10.
             ++ left. rewrite (cols_fun _ _ _ Ed Hc'). auto.
      + exists P1. split; [auto|]. split; [auto|]. split; [auto|]. split; [auto|]. intros x. rewrite A4. split.
        * intros [?|(d' & c' & Hin & Ex & Hc')]; auto. right. exists d', c'. split; [apply in_app_iff; auto|auto].
        * intros [?|(d' & c' & Hin & Ex & Hc')]; auto. apply in_app_iff in Hin. destruct Hin as [Hin|[->|[]]]; [right; eauto 10|].
          apply cols_get in Hc'. congruence.
    - rewrite E. exists P'. split; [auto|]. split; [auto|]. split; [auto|]. split; [auto|]. intros x. rewrite H4. split.
      + intros [?|(d & c & Hd & Ex & Hc')]; auto. apply HD in Hd. destruct Hd as (p & Hp). right. exists d, c, p. split; [|auto].
        rewrite <- (mget_In _ _ _ _ (ok_wf m OK) Hp). auto.
      + intros [?|(d & c & p & Ex & Hc' & Hp)]; auto. right. exists d, c. split; [apply HD; eauto|]. split; [|auto].
        rewrite (mget_In _ _ _ _ (ok_wf m OK) Hp). auto.
  Qed.

  Definition row_entry (j c : nat) (p : Q) : Prop :=
    exists s a r i d, nth_error rows j = Some ((s, a), r) /\ nth s tmask false = false /\ a_row m (s, a) = Some i /\
      In (d, c) cols /\ In ((i, d), p) (mitems (a_P m)).

  Definition new_index : dict (nat * nat) nat :=
    map (fun e : nat * ((nat * nat) * (nat * nat)) => (snd (snd e), fst e)) (combine (seq 0 (length rows)) rows).

  Lemma row_state : forall s a i, a_row m (s, a) = Some i -> i < a_C m -> s < a_N m.
  Proof.
    intros s a i E Hi. destruct (row_idx m OK i Hi) as (s' & a' & E' & Hs). apply (row_inv m OK) in E. rewrite E in E'. inversion E'; subst. exact Hs.
  Qed.

  Lemma rows_vals : NoDup (map snd rows).
  Proof.
    clear TL RR. induction rows as [|[[s a] [s' a']] l IH]; [constructor|]. simpl in *. inversion RN; subst. constructor.
    - intros Hin. apply in_map_iff in Hin. destruct Hin as ([[s1 a1] [v1 w1]] & Ev & Hv). simpl in Ev. inversion Ev; subst.
      destruct (RC s a s' a') as [-> C1]; auto. destruct (RC s1 a1 s' a) as [-> C2]; auto.
      rewrite (cols_inj _ _ _ C1 C2) in *. apply H1. apply in_map_iff. exists ((s1, a1), (s', a1)). auto.
    - apply IH; auto.
  Qed.

  Hypothesis ROWLT : forall s a i, In (s, a) (map fst rows) -> a_row m (s, a) = Some i -> i < a_C m.

  Lemma new_rows_ok : exists P tg, new_rows m tmask rows cols = Ok (P, new_index, tg) /\
    mrows P = length rows /\ mcols P = length cols /\ wf_mat P /\ length tg = length rows /\
    (forall j s a r, nth_error rows j = Some ((s, a), r) -> nth j tg 0%Q = if nth s tmask false then 1%Q else 0%Q) /\
    (forall j c p, In ((j, c), p) (mitems P) <-> row_entry j c p).
  Proof.
    unfold new_rows.
    set (f := fun st (e : nat * ((nat * nat) * (nat * nat))) => _).
    set (L := combine (seq 0 (length rows)) rows).
    destruct (foldM_ok _ _ f (fun pre st => let '(P, index, tg) := st in
       mrows P = length rows /\ mcols P = length cols /\ wf_mat P /\ length tg = length rows /\
       index = map (fun e : nat * ((nat * nat) * (nat * nat)) => (snd (snd e), fst e)) pre /\
       (forall j s a r, j < length pre -> nth_error rows j = Some ((s, a), r) -> nth j tg 0%Q = if nth s tmask false then 1%Q else 0%Q) /\
       (forall j, length pre <= j -> nth j tg 0%Q = 0%Q) /\
       (forall j c p, In ((j, c), p) (mitems P) <-> j < length pre /\ row_entry j c p)) L
      (mzero (length rows) (length cols), [], repeat 0%Q (length rows))) as (st & E & HI).
    - simpl. split; [auto|]. split; [auto|]. split; [apply wf_zero|]. split; [apply repeat_length|]. split; [auto|].
      split; [intros; lia|]. split. { intros j _. clear. revert j. induction (length rows); destruct j; simpl; auto. }
      intros. split; [intros []|lia].
    - intros pre x ((P, index), tg) (A1 & A2 & A3 & A4 & A5 & A6 & A6' & A7) (post & Hsp).
      destruct (combine_prefix _ _ _ _ _ _ Hsp) as [Hx1 Hx2]. destruct x as [newidx [[s a] [ns na]]]. simpl in Hx1, Hx2. subst newidx.
      assert (Hlt : length pre < length rows) by (apply nth_error_Some; congruence).
      assert (Hin : In ((s, a), (ns, na)) rows) by (eapply nth_error_In; eauto).
      assert (Hk : In (s, a) (map fst rows)) by (apply in_map_iff; exists ((s, a), (ns, na)); auto).
      destruct (RR _ _ Hk) as (i & Ei). pose proof (ROWLT _ _ _ Hk Ei) as Hi. pose proof (row_state _ _ _ Ei Hi) as Hs.
      destruct (RC _ _ _ _ Hin) as [-> Hcol].
      unfold f at 1. 
      assert (LN : NoDup (map (fun e : nat * ((nat * nat) * (nat * nat)) => snd (snd e)) L)).
      { replace (map (fun e : nat * (nat * nat * (nat * nat)) => snd (snd e)) L) with (map snd rows); [apply rows_vals|].
        unfold L. clear. generalize 0. induction rows as [|x l IH]; intros n; simpl; auto. f_equal. auto. }
      rewrite bput_fresh; [|apply pair_eqbP|apply Nat.eqb_spec| |].
      2:{ subst index. rewrite map_map. simpl. intros Hv. rewrite Hsp in LN. rewrite map_app in LN. simpl in LN. apply NoDup_remove_2 in LN. apply LN.
          apply in_app_iff. left. exact Hv. }
      2:{ subst index. rewrite map_map. simpl. intros Hv. apply in_map_iff in Hv. destruct Hv as (y & Ey & Hy).
          apply in_split in Hy. destruct Hy as (p1 & p2 & Hy). rewrite Hy in Hsp. rewrite <- app_assoc in Hsp. simpl in Hsp.
          destruct (combine_prefix _ _ _ _ _ _ Hsp) as [Hy1 _]. rewrite Ey in Hy1. simpl in Hy1. rewrite Hy, app_length in Hy1. simpl in Hy1. lia. }
      cbn [bind]. destruct (nth_error tmask s) as [t|] eqn:Et. 2:{ apply nth_error_None in Et. lia. }
      apply nth_error_nth with (d := false) in Et. cbn [of_opt bind].
      assert (Hidx : index ++ [((ns, a), length pre)] = map (fun e : nat * (nat * nat * (nat * nat)) => (snd (snd e), fst e)) (pre ++ [(length pre, (s, a, (ns, a)))])).
      { subst index. rewrite map_app. auto. }
      destruct t.
      + eexists. split; [reflexivity|]. cbn beta iota. rewrite app_length. simpl.
        split; [auto|]. split; [auto|]. split; [auto|]. split; [rewrite upd_length; auto|]. split; [auto|]. split; [|split].
        * intros j s0 a0 r Hj Ej. destruct (Nat.eq_dec j (length pre)).
          -- subst j. rewrite Ej in Hx2. inversion Hx2; subst. rewrite nth_upd_same by lia. rewrite Et. auto.
          -- rewrite nth_upd_other by auto. eapply A6; eauto. lia.
        * intros j Hj. rewrite nth_upd_other by lia. apply A6'. lia.
        * intros j c p. rewrite A7. split; [intros [? ?]; split; [lia|auto]|]. intros [Hj He]. split; [|auto].
          destruct (Nat.eq_dec j (length pre)); [|lia]. exfalso. subst j. destruct He as (s0 & a0 & r & i0 & d & E1 & E2 & _).
          rewrite Hx2 in E1. inversion E1; subst. congruence.
      + destruct (copy_row_ok P (length pre) s a i) as (P' & EP & B1 & B2 & B3 & B4); auto.
        { rewrite A1. lia. } { intros c q Hq. apply A7 in Hq. lia. }
        rewrite EP. cbn [bind]. eexists. split; [reflexivity|]. cbn beta iota. rewrite app_length. simpl.
        split; [congruence|]. split; [congruence|]. split; [auto|]. split; [auto|]. split; [auto|]. split; [|split].
        * intros j s0 a0 r Hj Ej. destruct (Nat.eq_dec j (length pre)).
          -- subst j. rewrite Ej in Hx2. inversion Hx2; subst. rewrite Et. apply A6'; lia.
          -- eapply A6; eauto. lia.
        * intros j Hj. apply A6'. lia.
        * intros j c p. rewrite B4, A7. split.
          -- intros [[Hj He]|(d & c' & p' & Ex & Hd & Hp)]; [split; [lia|auto]|]. inversion Ex; subst. split; [lia|].
             exists s, a, (ns, a), i, d. auto.
          -- intros [Hj He]. destruct (Nat.eq_dec j (length pre)); [|left; split; [lia|auto]]. right. subst j.
             destruct He as (s0 & a0 & r & i0 & d & E1 & E2 & E3 & E4 & E5). rewrite Hx2 in E1. inversion E1; subst.
             rewrite Ei in E3. inversion E3; subst. exists d, c, p. auto.
    - destruct st as ((P, index), tg). destruct HI as (A1 & A2 & A3 & A4 & A5 & A6 & A6' & A7).
      exists P, tg. subst index. assert (LL : length L = length rows) by (unfold L; rewrite combine_length, seq_length; lia). rewrite LL in *.
      split; [exact E|]. split; [auto|]. split; [auto|]. split; [auto|]. split; [auto|]. split.
      + intros j s a r Ej. eapply A6; eauto. apply nth_error_Some. congruence.
      + intros j c p. rewrite A7. split; [intros [_ H]; auto|]. intros H. split; [|auto]. destruct H as (s & a & r & i & d & E1 & _). apply nth_error_Some. congruence.
  Qed.
End Rows.
