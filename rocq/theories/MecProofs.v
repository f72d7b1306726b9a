(** Correctness of the maximal end component computation. *)
From Coq Require Import List Arith ZArith QArith Bool Lia Permutation.
From Verif Require Import Base BaseFacts Num Matrix Treap TreapSpec TreapProofs Graph GraphSpec GraphProofs
  Scc SccSpec SccProofs Mec.
Import ListNotations.
Local Open Scope nat_scope.

Lemma rtc_mono : forall A (R R' : A -> A -> Prop) x y, (forall a b, R a b -> R' a b) -> rtc R x y -> rtc R' x y.
Proof. intros A R R' x y H HR; induction HR; [constructor|econstructor; eauto]. Qed.

Lemma NoDup_concat_app : forall A (l1 l2 : list (list A)),
  NoDup (concat (l1 ++ l2)) <-> NoDup (concat l1) /\ NoDup (concat l2) /\ forall x, In x (concat l1) -> ~ In x (concat l2).
Proof.
  intros A l1 l2. rewrite concat_app. generalize (concat l1) (concat l2). clear. induction l; intros l'; simpl.
  - split; [intros H; repeat split; auto; constructor|tauto].
  - split.
    + intros H. inversion H; subst. apply IHl in H3. destruct H3 as (H4 & H5 & H6). rewrite in_app_iff in H2.
      split; [constructor; tauto|]. split; auto. intros x [<-|Hx]; auto.
    + intros (H1 & H2 & H3). inversion H1; subst. constructor.
      * rewrite in_app_iff. intros [?|?]; auto. apply (H3 a); auto.
      * apply IHl. repeat split; auto.
Qed.

Section MEC.
  Variables (g : graph) (rnd : nat -> Z).
  Hypothesis Hclosed : closed_graph g.
  Let N := length g.

  Definition gpe (s a d : nat) : Prop :=
    exists x, In x (succs (nth s g node0)) /\ sap_action x = a /\ sap_state x = d.

  Lemma gpe_lt : forall s a d, gpe s a d -> s < N /\ d < N.
  Proof.
    intros s a d (x & Hx & <- & <-). assert (Hn : neigh g true s (sap_state x)) by (exists x; auto).
    pose proof (neigh_lt _ _ _ _ Hn). split; auto. eapply Hclosed; eauto.
  Qed.

  Lemma sE_gpe : forall sub v w, sE g sub v w <-> exists a, gpe v a w /\ forall d, gpe v a d -> In d (elems sub).
  Proof.
    intros sub v w. split.
    - intros (x & Hx & <- & Hg). exists (sap_action x). split; [exists x; auto|].
      intros d (y & Hy & Ha & <-). auto.
    - intros (a & (x & Hx & <- & <-) & Hg). exists x. split; auto. split; auto.
      intros y Hy Ha. apply Hg. exists y; auto.
  Qed.

  (** An end component inside a set is mutually reachable there. *)
  Lemma ec_mutual : forall t X B, ec_of gpe X B -> (forall s, X s -> In s (elems t)) ->
    forall u v, X u -> X v -> mutual (sE g t) u v.
  Proof.
    intros t X B (H1 & H2 & H3 & H4) HX u v Hu Hv.
    assert (G : forall a b, (exists ac, B a ac /\ gpe a ac b) -> sE g t a b).
    { intros a b (ac & Hb & He). apply sE_gpe. exists ac. split; auto.
      intros d Hd. apply HX. destruct (H3 a ac Hb) as (_ & _ & Hc). auto. }
    split; (eapply rtc_mono; [exact G|apply H4; auto]).
  Qed.

  (** ** Blocks *)
  Definition blocks_ok (bl : list (list nat)) : Prop :=
    NoDup (concat bl) /\ (forall n, In n (concat bl) <-> n < N) /\
    (forall X B, ec_of gpe X B -> exists b, In b bl /\ forall s, X s -> In s b).

  Lemma blocks_perm : forall b1 b2, Permutation b1 b2 -> blocks_ok b1 -> blocks_ok b2.
  Proof.
    intros b1 b2 HP (H1 & H2 & H3).
    assert (PC : Permutation (concat b1) (concat b2)).
    { clear -HP. induction HP; simpl; auto.
      - apply Permutation_app_head; auto.
      - rewrite !app_assoc. apply Permutation_app_tail. apply Permutation_app_comm.
      - etransitivity; eauto. }
    split; [eapply Permutation_NoDup; eauto|]. split.
    - intros n. rewrite <- H2. split; apply Permutation_in; auto. symmetry; auto.
    - intros X B HE. destruct (H3 X B HE) as (b & Hb & Hs). exists b. split; auto. eapply Permutation_in; eauto.
  Qed.

  (** All members of a list of nodes mutually reachable by pairs that stay
      inside the list. *)
  Definition connected (b : list nat) : Prop :=
    forall u v, In u b -> In v b ->
      rtc (fun x y => exists a, gpe x a y /\ forall d, gpe x a d -> In d b) u v.

  Record MInv (s : mecst) (fin : list (list nat)) : Prop := {
    mi_blocks : blocks_ok (map elems (m_stk s) ++ fin);
    mi_wf : forall t, In t (m_stk s) -> wf_treap t /\ t <> TNull;
    mi_len : length (m_ret s) = N;
    mi_cnt : length fin = m_cnt s;
    mi_fin : forall i b, nth_error fin i = Some b -> b <> [] /\ connected b /\ forall n, In n b -> nth n (m_ret s) 0 = i;
    mi_single : wf_treap (m_single s) /\
      forall i, In i (elems (m_single s)) <-> exists b, nth_error fin i = Some b /\ length b = 1 }.

  Definition tsz (t : treap) : nat := 2 * length (elems t) - 1.

  Definition measure (s : mecst) : nat := fold_right (fun t n => tsz t + n) 0 (m_stk s).

  Lemma treap_arr : forall t, wf_treap t -> treap_to_arr t (repeat 0 (tsize t)) = Ok (elems t).
  Proof.
    intros t (H1 & H2 & H3). apply treap_to_arr_spec; auto. rewrite repeat_length, tsize_sized; auto.
  Qed.

  Lemma split_nodes_spec : forall sccs arr k rc, NoDup arr ->
    (forall u, In u arr -> 1 <= nth u sccs 0 <= k) ->
    exists news rc', split_nodes rnd sccs arr k rc = Ok (news, rc') /\ length news = k /\
      (forall i t, nth_error news i = Some t -> wf_treap t /\ forall u, In u (elems t) <-> In u arr /\ nth u sccs 0 = S i).
  Proof.
    intros sccs arr k rc Hnd Hr. unfold split_nodes.
    destruct (foldM_ok _ _ (fun st u => let '(news, rc) := st in
           let i := nth u sccs 0 - 1 in
           match nth_error news i with
           | None => Err OutOfBounds
           | Some t => Ok (upd news i (add_to_treap t u (rnd rc)), S rc)
           end) (fun pre st => length (fst st) = k /\ forall i t, nth_error (fst st) i = Some t ->
               wf_treap t /\ forall u, In u (elems t) <-> In u pre /\ nth u sccs 0 = S i) arr (repeat TNull k, rc))
      as ([news rc'] & E & HL & HS); eauto.
    - simpl. split; [apply repeat_length|]. intros i t Hi.
      assert (t = TNull) by (apply nth_error_In in Hi; apply repeat_spec in Hi; auto). subst.
      split; [apply wf_null|]. simpl. tauto.
    - intros pre u [news rc0] [HL HS] (post & Hp). simpl in HL, HS.
      assert (Hu : In u arr) by (rewrite Hp; apply in_app_iff; right; left; auto).
      pose proof (Hr u Hu) as Hk. set (i := nth u sccs 0 - 1). assert (Hi : nth u sccs 0 = S i) by (unfold i; lia).
      destruct (nth_error news i) as [t|] eqn:En.
      2:{ apply nth_error_None in En. lia. }
      cbv beta iota zeta. fold i. rewrite En.
      eexists. split; [reflexivity|]. simpl. rewrite upd_length. split; auto.
      intros j t' Hj. destruct (HS i t En) as [W I]. destruct (Nat.eq_dec i j) as [<-|Nij].
      + rewrite nth_error_upd_same in Hj by lia. inversion Hj; subst. split; [apply wf_add; auto|].
        intros v. rewrite elems_add, I, in_app_iff by auto. simpl. split.
        * intros [->|[? ?]]; auto.
        * intros [[?|[->|[]]] ?]; auto.
      + rewrite nth_error_upd_other in Hj by auto. destruct (HS j t' Hj) as [W' I']. split; auto.
        intros v. rewrite I', in_app_iff. simpl. split; [tauto|]. intros [[?|[->|[]]] Ev]; auto. lia.
  Qed.

  Lemma concat_news : forall (news : list treap) (sccs arr : list nat) (k off : nat),
    length news = k ->
    (forall i t, nth_error news i = Some t -> wf_treap t /\ forall u, In u (elems t) <-> In u arr /\ nth u sccs 0 = S (off + i)) ->
    NoDup (concat (map elems news)) /\
    forall u, In u (concat (map elems news)) <-> In u arr /\ off < nth u sccs 0 <= off + k.
  Proof.
    induction news as [|t news IH]; intros sccs arr k off HL HS; simpl in *.
    - split; [constructor|]. subst. intros u. split; [tauto|]. intros [_ ?]; lia.
    - destruct k as [|k]; [lia|]. destruct (HS 0 t eq_refl) as [W I].
      destruct (IH sccs arr k (S off)) as [ND IN]; [lia| |].
      { intros i t' Hi. destruct (HS (S i) t' Hi) as [W' I']. split; auto.
        intros u. rewrite I'. replace (off + S i) with (S off + i) by lia. tauto. }
      split.
      + assert (G : NoDup (concat ([elems t] ++ map elems news))).
        { apply NoDup_concat_app. split; [|split; auto].
          - simpl. rewrite app_nil_r. apply bst_nodup. apply W.
          - intros x. simpl. rewrite app_nil_r, I, IN. intros [_ E] [_ E']. lia. }
        exact G.
      + intros u. rewrite in_app_iff, I, IN. replace (off + 0) with off by lia. split.
        * intros [[? ?]|[? ?]]; split; auto; lia.
        * intros [? ?]. destruct (Nat.eq_dec (nth u sccs 0) (S off)); [left|right]; split; auto; lia.
  Qed.

  Lemma elems_nonnull : forall t, t <> TNull -> elems t <> [].
  Proof. destruct t; simpl; congruence. Qed.

  Lemma set_ret_spec : forall arr r c, (forall u, In u arr -> u < length r) ->
    exists r', foldM (fun r u => if u <? length r then Ok (upd r u c) else Err OutOfBounds) arr r = Ok r' /\
      length r' = length r /\ forall n, nth n r' 0 = if in_dec Nat.eq_dec n arr then c else nth n r 0.
  Proof.
    induction arr as [|u arr IH]; intros r c H; simpl.
    - exists r. auto.
    - destruct (Nat.ltb_spec u (length r)) as [Hl|Hl].
      2:{ specialize (H u (or_introl eq_refl)). lia. }
      simpl. destruct (IH (upd r u c) c) as (r' & E & L & S').
      { intros v Hv. rewrite upd_length. apply H; right; auto. }
      exists r'. split; auto. rewrite upd_length in L. split; auto. intros n. rewrite S'.
      destruct (in_dec Nat.eq_dec n arr) as [i|i].
      + destruct (Nat.eq_dec u n); auto.
      + rewrite nth_upd. destruct (Nat.eqb_spec u n); simpl.
        * subst. destruct (Nat.ltb_spec n (length r)); [|lia]. destruct (Nat.eq_dec n n); congruence.
        * destruct (Nat.eq_dec u n); auto; congruence.
  Qed.

  Lemma sum_sizes : forall l, (forall t, In t l -> wf_treap t /\ t <> TNull) ->
    fold_right (fun t n => tsz t + n) 0 l + length l = 2 * length (concat (map elems l)).
  Proof.
    induction l as [|t l IH]; intros H; simpl; auto.
    rewrite app_length. assert (length (elems t) <> 0).
    { destruct (H t (or_introl eq_refl)) as [_ Hn]. apply elems_nonnull in Hn. destruct (elems t); simpl; congruence. }
    assert (IH' := IH (fun t' Ht => H t' (or_intror Ht))). unfold tsz at 1. lia.
  Qed.

  Lemma fold_measure_app : forall l1 l2,
    fold_right (fun t n => tsz t + n) 0 (l1 ++ l2) =
    fold_right (fun t n => tsz t + n) 0 l1 + fold_right (fun t n => tsz t + n) 0 l2.
  Proof. induction l1; intros; simpl; auto. rewrite IHl1. lia. Qed.

  Lemma mec_step_ok : forall s fin t rest, MInv s fin -> m_stk s = t :: rest ->
    exists s' fin', mec_step g rnd s t rest = Ok s' /\ MInv s' fin' /\ measure s' < measure s.
  Proof.
    intros s fin t rest [(HB1 & HB2 & HB3) HW HL HC HF (HS1 & HS2)] Es.
    destruct (HW t) as [Wt Nt]; [rewrite Es; left; auto|].
    assert (Ne : elems t <> []) by (apply elems_nonnull; auto).
    rewrite Es in HB1, HB2, HB3. simpl in HB1, HB2.
    assert (Xlt : forall v, In v (elems t) -> v < N).
    { intros v Hv. apply HB2. apply in_app_iff; auto. }
    unfold mec_step. destruct t as [|tl tk th tn tr] eqn:Et; [congruence|]. rewrite <- Et in *. clear tl tk th tn tr Et Nt.
    rewrite treap_arr by auto. cbn [bind].
    destruct Wt as (W1 & W2 & W3).
    destruct (strongly_connected_ok g rnd t W1 Xlt W2 (m_rc s)) as (sccs & k & rc & E & L & S1 & S2 & S3 & S4).
    rewrite E. cbn [bind].
    assert (Ml : 1 <= length (elems t)) by (destruct (elems t); simpl; [congruence|lia]).
    assert (HWr : forall t', In t' rest -> wf_treap t' /\ t' <> TNull) by (intros; apply HW; rewrite Es; right; auto).
    destruct (Nat.eqb_spec k 1) as [->|Nk].
    - (* a single component *)
      destruct (set_ret_spec (elems t) (m_ret s) (m_cnt s)) as (ret & Er & Lr & Sr).
      { intros u Hu. rewrite HL. auto. }
      rewrite Er. cbn [bind].
      set (sr := if tsize t =? 1 then (add_to_treap (m_single s) (m_cnt s) (rnd rc), S rc) else (m_single s, rc)).
      assert (Hsr : wf_treap (fst sr) /\ forall i, In i (elems (fst sr)) <-> (i = m_cnt s /\ length (elems t) = 1) \/ In i (elems (m_single s))).
      { unfold sr. rewrite tsize_sized by auto. destruct (Nat.eqb_spec (length (elems t)) 1); simpl.
        - split; [apply wf_add; auto|]. intros i. rewrite elems_add by auto. tauto.
        - split; auto. intros i. tauto. }
      destruct sr as [single rc2]. simpl in Hsr. destruct Hsr as [Ws Is].
      exists (MkMec rest ret (S (m_cnt s)) single rc2), (fin ++ [elems t]). split; auto. split.
      + constructor; simpl; auto.
        * apply blocks_perm with (b1 := elems t :: map elems rest ++ fin).
          -- rewrite app_assoc. apply Permutation_cons_append.
          -- split; auto.
        * rewrite Lr; auto.
        * rewrite app_length; simpl. lia.
        * intros i b Hi. destruct (Nat.lt_ge_cases i (length fin)) as [Hlt|Hge].
          -- rewrite nth_error_app1 in Hi by auto. destruct (HF i b Hi) as (F1 & F2 & F3).
             split; auto. split; auto. intros n Hn. rewrite Sr.
             destruct (in_dec Nat.eq_dec n (elems t)) as [Hin|Hin]; auto. exfalso.
             change (NoDup (concat ([elems t] ++ (map elems rest ++ fin)))) in HB1.
             apply NoDup_concat_app in HB1. destruct HB1 as (_ & _ & HB1). apply (HB1 n).
             ++ simpl. rewrite app_nil_r. auto.
             ++ apply in_concat. exists b. split; auto. apply in_app_iff; right. eapply nth_error_In; eauto.
          -- rewrite nth_error_app2 in Hi by auto. destruct (i - length fin) as [|m] eqn:Em; simpl in Hi.
             ++ inversion Hi; subst b. split; auto. split.
                ** intros u v Hu Hv. pose proof (S2 u Hu). pose proof (S2 v Hv).
                   assert (Hm : mutual (sE g t) u v) by (apply S1; auto; lia).
                   eapply rtc_mono; [|apply Hm]. intros a b Hab. apply sE_gpe; auto.
                ** intros n Hn. rewrite Sr. destruct (in_dec Nat.eq_dec n (elems t)); [lia|contradiction].
             ++ destruct m; discriminate.
        * split; auto. intros i. rewrite Is, HS2. split.
          -- intros [[-> H1]|(b & Hb & H1)].
             ++ exists (elems t). split; auto. rewrite nth_error_app2 by lia. rewrite HC, Nat.sub_diag. auto.
             ++ exists b. split; auto. rewrite nth_error_app1; auto. apply nth_error_Some. congruence.
          -- intros (b & Hb & H1). destruct (Nat.lt_ge_cases i (length fin)) as [Hlt|Hge].
             ++ rewrite nth_error_app1 in Hb by auto. right. exists b; auto.
             ++ rewrite nth_error_app2 in Hb by auto. destruct (i - length fin) as [|m] eqn:Em; simpl in Hb.
                ** inversion Hb; subst b. left. split; auto. lia.
                ** destruct m; discriminate.
      + unfold measure. rewrite Es. simpl. unfold tsz at 2. lia.
    - (* several components *)
      destruct (split_nodes_spec sccs (elems t) k rc) as (news & rc' & En & Ln & Sn).
      { apply bst_nodup; auto. } { intros u Hu. apply S2; auto. }
      rewrite En. cbn [bind].
      destruct (concat_news news sccs (elems t) k 0 Ln Sn) as [ND IN].
      assert (Hk : 2 <= k).
      { destruct (elems t) as [|u r] eqn:Eu; [congruence|]. pose proof (S2 u (or_introl eq_refl)). lia. }
      assert (Wn : forall t', In t' news -> wf_treap t' /\ t' <> TNull).
      { intros t' Ht. apply In_nth_error in Ht. destruct Ht as (i & Hi). destruct (Sn i t' Hi) as [W I]. split; auto.
        assert (i < length news) by (apply nth_error_Some; congruence).
        destruct (S3 (S i)) as (u & Hu & Eu); [lia|]. intros ->. apply (I u). split; auto. }
      assert (IN' : forall u, In u (concat (map elems news)) <-> In u (elems t)).
      { intros u. rewrite IN. split; [tauto|]. intros Hu. split; auto. pose proof (S2 u Hu). lia. }
      exists (MkMec (rev news ++ rest) (m_ret s) (m_cnt s) (m_single s) rc'), fin.
      split; auto. split.
      + constructor; simpl; auto.
        * apply blocks_perm with (b1 := map elems news ++ (map elems rest ++ fin)).
          { rewrite map_app, <- app_assoc. apply Permutation_app_tail. apply Permutation_map. apply Permutation_rev. }
          change (NoDup (concat ([elems t] ++ (map elems rest ++ fin)))) in HB1.
          apply NoDup_concat_app in HB1. destruct HB1 as (_ & B2 & B3).
          split; [|split].
          -- apply NoDup_concat_app. split; auto. split; auto. intros x Hx. apply B3. simpl. rewrite app_nil_r. apply IN'; auto.
          -- intros n. rewrite concat_app, in_app_iff, IN', <- HB2, in_app_iff. tauto.
          -- intros X B HE. destruct (HB3 X B HE) as (b & Hb & Hs). simpl in Hb. destruct Hb as [<-|Hb].
             ++ pose proof HE as (( x0 & Hx0) & _).
                pose proof (Hs x0 Hx0) as Hx0t. pose proof (S2 x0 Hx0t) as Hr.
                destruct (nth_error news (nth x0 sccs 0 - 1)) as [t'|] eqn:Et'.
                2:{ apply nth_error_None in Et'. lia. }
                exists (elems t'). split.
                ** apply in_app_iff; left. apply in_map. eapply nth_error_In; eauto.
                ** intros u Hu. destruct (Sn _ _ Et') as [_ I]. apply I. split; auto.
                   assert (nth u sccs 0 = nth x0 sccs 0).
                   { apply S1; auto. eapply ec_mutual; eauto. }
                   lia.
             ++ exists b. split; auto. apply in_app_iff; auto.
        * intros t' Ht. apply in_app_iff in Ht. destruct Ht as [Ht|Ht]; auto. apply Wn. apply in_rev; auto.
      + unfold measure. rewrite Es. simpl. rewrite fold_measure_app.
        assert (M1 := sum_sizes (rev news)). assert (M2 := sum_sizes news Wn).
        rewrite rev_length in M1.
        assert (M3 : fold_right (fun t n => tsz t + n) 0 (rev news) + length news = 2 * length (concat (map elems (rev news)))).
        { apply M1. intros t' Ht. apply Wn. apply in_rev; auto. }
        assert (M4 : length (concat (map elems (rev news))) = length (elems t)).
        { apply Permutation_length. apply NoDup_Permutation.
          - eapply Permutation_NoDup; [|exact ND]. rewrite <- !flat_map_concat_map. 
            apply Permutation_flat_map. apply Permutation_rev.
          - apply bst_nodup; auto.
          - intros u. rewrite <- IN'. rewrite <- !flat_map_concat_map, !in_flat_map. split; intros (x & H1 & H2); exists x; split; auto; [apply in_rev|apply -> in_rev]; auto. }
        unfold tsz at 3. lia.
  Qed.

  Lemma mec_loop_ok : forall fuel s fin, MInv s fin -> measure s < fuel ->
    exists s' fin', mec_loop fuel g rnd s = Ok s' /\ MInv s' fin' /\ m_stk s' = [].
  Proof.
    induction fuel as [|f IH]; intros s fin HI HM; [lia|]. simpl.
    destruct (m_stk s) as [|t rest] eqn:Es.
    - exists s, fin. auto.
    - destruct (mec_step_ok s fin t rest HI Es) as (s' & fin' & E & HI' & HM').
      rewrite E. simpl. apply IH with (fin := fin'); auto. lia.
  Qed.

  Lemma all_nodes_spec : forall rc, let r := all_nodes rnd rc N in
    wf_treap (fst r) /\ forall n, In n (elems (fst r)) <-> n < N.
  Proof.
    intros rc. unfold all_nodes.
    assert (G : forall l t rc, wf_treap t ->
      let r := fold_left (fun st i => let '(t, rc) := st in (add_to_treap t i (rnd rc), S rc)) l (t, rc) in
      wf_treap (fst r) /\ forall n, In n (elems (fst r)) <-> In n l \/ In n (elems t)).
    { induction l as [|i l IH]; intros t rc0 W; simpl.
      - split; auto. intros; tauto.
      - destruct (IH (add_to_treap t i (rnd rc0)) (S rc0)) as [W' I']; [apply wf_add; auto|].
        split; auto. intros n. rewrite I', elems_add by auto. intuition. }
    destruct (G (seq 0 N) TNull rc wf_null) as [W I]. split; auto.
    intros n. rewrite I, in_seq. simpl. lia.
  Qed.

  (** ** Properness *)
  Lemma loop_actions_spec : forall i ss rc, let '(all, non, _) := loop_actions rnd i ss rc in
    wf_treap all /\ wf_treap non /\
    (forall a, In a (elems all) <-> exists x, In x ss /\ sap_action x = a) /\
    (forall a, In a (elems non) <-> exists x, In x ss /\ sap_action x = a /\ sap_state x <> i).
  Proof.
    intros i ss rc. unfold loop_actions.
    assert (G : forall ss all non rc, wf_treap all -> wf_treap non ->
      let '(all', non', _) := fold_left (fun st x => let '(all, non, rc) := st in
               let all := add_to_treap all (sap_action x) (rnd rc) in
               if sap_state x =? i then (all, non, S rc)
               else (all, add_to_treap non (sap_action x) (rnd (S rc)), S (S rc))) ss (all, non, rc) in
      wf_treap all' /\ wf_treap non' /\
      (forall a, In a (elems all') <-> In a (elems all) \/ exists x, In x ss /\ sap_action x = a) /\
      (forall a, In a (elems non') <-> In a (elems non) \/ exists x, In x ss /\ sap_action x = a /\ sap_state x <> i)).
    { induction ss0 as [|x ss0 IH]; intros all non rc0 Wa Wn; simpl.
      - split; auto. split; auto. split; intros a; (split; [tauto|]); intros [?|(x & [] & _)]; auto.
      - assert (Wa' : wf_treap (add_to_treap all (sap_action x) (rnd rc0))) by (apply wf_add; auto).
        destruct (Nat.eqb_spec (sap_state x) i) as [Ei|Ei].
        + specialize (IH _ non (S rc0) Wa' Wn).
          destruct (fold_left _ ss0 _) as [[all' non'] rc'] eqn:Ef.
          destruct IH as (I1 & I2 & I3 & I4). split; auto. split; auto. split; intros a.
          * rewrite I3, elems_add by auto. split.
            -- intros [[->|?]|(y & ? & ?)]; auto; right; [exists x|exists y]; auto.
            -- intros [?|(y & [<-|?] & ?)]; auto. right; exists y; auto.
          * rewrite I4. split.
            -- intros [?|(y & ? & ?)]; auto; right; exists y; auto.
            -- intros [?|(y & [<-|?] & ? & ?)]; auto; [contradiction|]. right; exists y; auto.
        + assert (Wn' : wf_treap (add_to_treap non (sap_action x) (rnd (S rc0)))) by (apply wf_add; auto).
          specialize (IH _ _ (S (S rc0)) Wa' Wn').
          destruct (fold_left _ ss0 _) as [[all' non'] rc'] eqn:Ef.
          destruct IH as (I1 & I2 & I3 & I4). split; auto. split; auto. split; intros a.
          * rewrite I3, elems_add by auto. split.
            -- intros [[->|?]|(y & ? & ?)]; auto; right; [exists x|exists y]; auto.
            -- intros [?|(y & [<-|?] & ?)]; auto. right; exists y; auto.
          * rewrite I4, elems_add by auto. split.
            -- intros [[->|?]|(y & ? & ?)]; auto; right; [exists x|exists y]; auto.
            -- intros [?|(y & [<-|?] & ? & ?)]; auto. right; exists y; auto. }
    specialize (G ss TNull TNull rc wf_null wf_null).
    destruct (fold_left _ ss _) as [[all' non'] rc'] eqn:Ef.
    destruct G as (I1 & I2 & I3 & I4). split; auto. split; auto. split; intros a; [rewrite I3|rewrite I4]; simpl; intuition.
  Qed.

  (** The test at the end of the properness loop, for a node with at least
      one successor: some action has only the self-loop. *)
  Definition selfloop_test (i rc : nat) : bool :=
    let '(all, non, _) := loop_actions rnd i (succs (nth i g node0)) rc in
    match non with TNull => true | _ => negb (tsize non =? tsize all) end.

  Lemma selfloop_test_spec : forall i rc, (exists a d, gpe i a d) ->
    (selfloop_test i rc = true <-> exists a, gpe i a i /\ forall d, gpe i a d -> d = i).
  Proof.
    intros i rc (a0 & d0 & H0). unfold selfloop_test.
    pose proof (loop_actions_spec i (succs (nth i g node0)) rc) as HS.
    destruct (loop_actions rnd i (succs (nth i g node0)) rc) as [[all non] rc'].
    destruct HS as (Wa & Wn & Ha & Hn).
    assert (HT : (match non with TNull => true | _ => negb (tsize non =? tsize all) end) = true <->
                 exists a, In a (elems all) /\ ~ In a (elems non)).
    { assert (Incl : incl (elems non) (elems all)).
      { intros a Hin. apply Hn in Hin. destruct Hin as (x & ? & ? & ?). apply Ha. eauto. }
      assert (NDn : NoDup (elems non)) by (apply bst_nodup; apply Wn).
      assert (NDa : NoDup (elems all)) by (apply bst_nodup; apply Wa).
      assert (L2 : tsize all = length (elems all)) by (apply tsize_sized; apply Wa).
      assert (L1 : tsize non = length (elems non)) by (apply tsize_sized; apply Wn).
      assert (Full : length (elems all) <= length (elems non) -> incl (elems all) (elems non)).
      { intros Hle. apply NoDup_length_incl; auto. }
      assert (Ex : In a0 (elems all)).
      { apply Ha. destruct H0 as (x & ? & ? & ?). eauto. }
      destruct non as [|l' k' h' n' r'] eqn:En; rewrite <- ?En in *.
      - split; auto. intros _. exists a0. split; [auto|rewrite En; simpl; tauto].
      - rewrite L1, L2. destruct (Nat.eqb_spec (length (elems non)) (length (elems all))) as [El|El]; simpl.
        + split; [discriminate|]. intros (a & H1 & H2). exfalso. apply H2. apply Full; auto. lia.
        + split; auto. intros _.
          destruct (Forall_Exists_dec (fun a => In a (elems non)) (fun a => in_dec Nat.eq_dec a (elems non)) (elems all)) as [HF|HE].
          * exfalso. apply El. rewrite Forall_forall in HF.
            apply Nat.le_antisymm; apply NoDup_incl_length; auto.
          * apply Exists_exists in HE. auto. }
    rewrite HT. split.
    - intros (a & H1 & H2). apply Ha in H1. destruct H1 as (x & Hx & Ex).
      assert (HD : forall d, gpe i a d -> d = i).
      { intros d (y & Hy & Ey & <-). destruct (Nat.eq_dec (sap_state y) i); auto. exfalso. apply H2. apply Hn. eauto. }
      exists a. split; auto. exists x. split; auto. split; auto. apply HD. exists x; auto.
    - intros (a & (x & Hx & Ex & Es) & HD). exists a. split; [apply Ha; eauto|].
      intros Hin. apply Hn in Hin. destruct Hin as (y & Hy & Ey & Ns). apply Ns. apply HD. exists y; auto.
  Qed.

  Lemma proper_loop_ok : forall ret single cnt rc,
    length ret = N -> (forall n, n < N -> nth n ret 0 < cnt) ->
    exists proper rc', foldM (proper_step g rnd ret single) (seq 0 N) (repeat false cnt, rc) = Ok (proper, rc') /\
      length proper = cnt /\
      forall c, nth c proper false = true <->
        exists i rc0, i < N /\ nth i ret 0 = c /\ (in_treap single c = false \/ selfloop_test i rc0 = true) .
  Proof.
    intros ret single cnt rc HL HR.
    (* the random numbers do not matter for selfloop_test on nodes with successors; keep the value at its own counter *)
    destruct (foldM_ok _ _ (proper_step g rnd ret single)
      (fun pre st => length (fst st) = cnt /\
         (forall c, nth c (fst st) false = true -> exists i rc0, In i pre /\ nth i ret 0 = c /\ (in_treap single c = false \/ selfloop_test i rc0 = true)) /\
         (forall i, In i pre -> (in_treap single (nth i ret 0) = false \/ (forall rc0, selfloop_test i rc0 = true)) -> nth (nth i ret 0) (fst st) false = true))
      (seq 0 N) (repeat false cnt, rc)) as ([proper rc'] & E & H1 & H2 & H3).
    - simpl. split; [apply repeat_length|]. split; [|intros i []].
      intros c Hc. assert (nth c (repeat false cnt) false = false) by apply nth_repeat. congruence.
    - intros pre i [proper rc0] (L & P1 & P2) (post & Hp). simpl in L, P1, P2.
      assert (Hi : i < N). { assert (In i (seq 0 N)) by (rewrite Hp; apply in_app_iff; right; left; auto). apply in_seq in H. lia. }
      assert (Up : forall rc1 : nat, exists st2 : list bool * nat, (if nth i ret 0 <? length proper then Ok (upd proper (nth i ret 0) true, rc1) else Err OutOfBounds) = Ok st2 /\
              fst st2 = upd proper (nth i ret 0) true).
      { intros rc1. destruct (Nat.ltb_spec (nth i ret 0) (length proper)); [eexists; split; reflexivity|].
        specialize (HR i Hi). lia. }
      assert (Nu : forall c, nth c (upd proper (nth i ret 0) true) false = true <-> c = nth i ret 0 \/ nth c proper false = true).
      { intros c. apply is_upd_true. rewrite L. auto. }
      unfold proper_step. destruct (in_treap single (nth i ret 0)) eqn:Es; simpl.
      + destruct (loop_actions rnd i (succs (nth i g node0)) rc0) as [[all non] rc1] eqn:El.
        destruct (match non with TNull => true | _ => negb (tsize non =? tsize all) end) eqn:Et.
        * destruct (Up rc1) as (st2 & E2 & F2). exists st2. split; [exact E2|]. rewrite F2, upd_length.
          assert (ST : selfloop_test i rc0 = true) by (unfold selfloop_test; rewrite El; auto).
          split; auto. split.
          -- intros c Hc. apply Nu in Hc. destruct Hc as [->|Hc].
             ++ exists i, rc0. split; [apply in_app_iff; right; left; auto|]. auto.
             ++ destruct (P1 c Hc) as (j & rj & Hj & ? & ?). exists j, rj. split; auto. apply in_app_iff; auto.
          -- intros j Hj Hc. apply Nu. apply in_app_iff in Hj. destruct Hj as [Hj|[<-|[]]]; auto.
        * eexists. split; [reflexivity|]. simpl. split; auto. split.
          -- intros c Hc. destruct (P1 c Hc) as (j & rj & Hj & ? & ?). exists j, rj. split; auto. apply in_app_iff; auto.
          -- intros j Hj Hc. apply in_app_iff in Hj. destruct Hj as [Hj|[<-|[]]]; auto.
             destruct Hc as [Hc|Hc]; [congruence|]. specialize (Hc rc0). unfold selfloop_test in Hc. rewrite El in Hc. congruence.
      + destruct (Up rc0) as (st2 & E2 & F2). exists st2. split; [exact E2|]. rewrite F2, upd_length.
        split; auto. split.
        * intros c Hc. apply Nu in Hc. destruct Hc as [->|Hc].
          -- exists i, rc0. split; [apply in_app_iff; right; left; auto|]. auto.
          -- destruct (P1 c Hc) as (j & rj & Hj & ? & ?). exists j, rj. split; auto. apply in_app_iff; auto.
        * intros j Hj Hc. apply Nu. apply in_app_iff in Hj. destruct Hj as [Hj|[<-|[]]]; auto.
    - exists proper, rc'. split; auto. split; auto. intros c. simpl in H2, H3. split.
      + intros Hc. destruct (H2 c Hc) as (i & r0 & Hi & ? & ?). apply in_seq in Hi. exists i, r0. split; auto. lia.
      + intros (i & r0 & Hi & <- & Hc). apply H3; [apply in_seq; lia|]. destruct Hc as [Hc|Hc]; auto. right.
        (* the test does not depend on the random numbers *)
        intros r1. clear E H1 H2 H3. unfold selfloop_test in Hc |- *.
        pose proof (loop_actions_spec i (succs (nth i g node0)) r0) as S0.
        pose proof (loop_actions_spec i (succs (nth i g node0)) r1) as S1.
        destruct (loop_actions rnd i (succs (nth i g node0)) r0) as [[all non] rc9].
        destruct (loop_actions rnd i (succs (nth i g node0)) r1) as [[all1 non1] rc1].
        destruct S0 as (Wa & Wn & Ha & Hn). destruct S1 as (Wa1 & Wn1 & Ha1 & Hn1).
        assert (Ea : length (elems all) = length (elems all1)).
        { apply Nat.le_antisymm; apply NoDup_incl_length; try (apply bst_nodup; first [apply Wa | apply Wa1]);
          intros a Hin; [apply Ha1, Ha|apply Ha, Ha1]; auto. }
        assert (En : length (elems non) = length (elems non1)).
        { apply Nat.le_antisymm; apply NoDup_incl_length; try (apply bst_nodup; first [apply Wn | apply Wn1]);
          intros a Hin; [apply Hn1, Hn|apply Hn, Hn1]; auto. }
        assert (T1 : tsize all = length (elems all)) by (apply tsize_sized; apply Wa).
        assert (T2 : tsize non = length (elems non)) by (apply tsize_sized; apply Wn).
        assert (T3 : tsize all1 = length (elems all1)) by (apply tsize_sized; apply Wa1).
        assert (T4 : tsize non1 = length (elems non1)) by (apply tsize_sized; apply Wn1).
        destruct non1 as [|a b c d e] eqn:E1; auto. rewrite <- E1 in *.
        destruct non as [|a' b' c' d' e'] eqn:E2; rewrite <- ?E2 in *.
        * rewrite E1, E2 in En. simpl in En. discriminate.
        * rewrite T4, T3, <- En, <- Ea, <- T1, <- T2. auto.
  Qed.

  Lemma mec_ok : 0 < N -> forall fuel, 2 * N <= fuel -> exists comp proper k,
    mec_fuel fuel g rnd = Ok (comp, proper, k) /\ length comp = N /\ length proper = k /\
    (forall n, n < N -> nth n comp 0 < k) /\
    (forall c, c < k -> exists n, n < N /\ nth n comp 0 = c) /\
    (forall u v, u < N -> v < N -> (nth u comp 0 = nth v comp 0 <-> u = v \/ exists X B, ec_of gpe X B /\ X u /\ X v)) /\
    ((forall n, n < N -> exists a d, gpe n a d) ->
     forall c, c < k -> (nth c proper false = true <-> exists n X B, n < N /\ nth n comp 0 = c /\ ec_of gpe X B /\ X n)).
  Proof.
    intros HN fuel Hfuel. unfold mec_fuel. fold N.
    pose proof (all_nodes_spec 0) as HA. destruct (all_nodes rnd 0 N) as [t rc] eqn:Ea. simpl in HA. destruct HA as [Wt It].
    assert (Ht : t <> TNull). { intros ->. apply (It 0) in HN. contradiction. }
    destruct (mec_loop_ok fuel (MkMec [t] (repeat 0 N) 0 TNull rc) []) as (s & fin & E & HI & Hs).
    - constructor; simpl.
      + split; [|split].
        * simpl. rewrite app_nil_r. apply bst_nodup. apply Wt.
        * intros n. simpl. rewrite app_nil_r. auto.
        * intros X B HE. exists (elems t). split; [left; auto|]. intros x Hx. apply It.
          destruct HE as (_ & H2 & H3 & _). destruct (H2 x Hx) as (a & Hb). destruct (H3 x a Hb) as (_ & (d & Hd) & _).
          apply gpe_lt in Hd. tauto.
      + intros t' [<-|[]]. auto.
      + apply repeat_length.
      + auto.
      + intros i b Hi. destruct i; discriminate.
      + split; [apply wf_null|]. intros i. split; [intros []|]. intros (b & Hb & _). destruct i; discriminate.
    - unfold measure; simpl. unfold tsz.
      assert (length (elems t) = N).
      { rewrite <- (seq_length N 0). apply Nat.le_antisymm; apply NoDup_incl_length.
        - apply bst_nodup; apply Wt.
        - intros x Hx. apply It in Hx. apply in_seq. lia.
        - apply seq_NoDup.
        - intros x Hx. apply in_seq in Hx. apply It. lia. }
      lia.
    - rewrite E. cbn [bind].
      destruct HI as [(B1 & B2 & B3) _ HL HC HF (HS1 & HS2)]. rewrite Hs in B1, B2, B3. simpl in B1, B2, B3.
      assert (Blk : forall n, n < N -> exists b, nth_error fin (nth n (m_ret s) 0) = Some b /\ In n b).
      { intros n Hn. apply B2 in Hn. apply in_concat in Hn. destruct Hn as (b & Hb & Hnb).
        apply In_nth_error in Hb. destruct Hb as (i & Hi). destruct (HF i b Hi) as (_ & _ & F3).
        exists b. rewrite F3; auto. }
      assert (Rng : forall n, n < N -> nth n (m_ret s) 0 < m_cnt s).
      { intros n Hn. destruct (Blk n Hn) as (b & Hb & _). rewrite <- HC. apply nth_error_Some. congruence. }
      destruct (proper_loop_ok (m_ret s) (m_single s) (m_cnt s) (m_rc s) HL Rng) as (proper & rc' & Ep & Lp & Sp).
      rewrite Ep. cbn [bind].
      exists (m_ret s), proper, (m_cnt s). split; auto. split; auto. split; auto. split; auto. split.
      { intros c Hc. rewrite <- HC in Hc. destruct (nth_error fin c) as [b|] eqn:Eb.
        - destruct (HF c b Eb) as (F1 & _ & F3). destruct b as [|n b]; [congruence|]. exists n. split; [|apply F3; left; auto].
          apply B2. apply in_concat. exists (n :: b). split; [eapply nth_error_In; eauto|left; auto].
        - apply nth_error_None in Eb. lia. }
      assert (ECof : forall b, (exists i, nth_error fin i = Some b) -> length b <> 1 -> exists B, ec_of gpe (fun x => In x b) B).
      { intros b (i & Hi) Hl. destruct (HF i b Hi) as (F1 & F2 & _).
        assert (NDb : NoDup b).
        { apply nth_error_In in Hi. apply in_split in Hi. destruct Hi as (l1 & l2 & ->).
          apply NoDup_concat_app in B1. destruct B1 as (_ & B1 & _).
          change (NoDup (concat ([b] ++ l2))) in B1. apply NoDup_concat_app in B1. destruct B1 as (B1 & _).
          simpl in B1. rewrite app_nil_r in B1. auto. }
        exists (fun x a => In x b /\ (exists d, gpe x a d) /\ forall d, gpe x a d -> In d b).
        split; [|split; [|split]].
        - destruct b as [|n b]; [congruence|]. exists n; left; auto.
        - intros x Hx. assert (exists y, In y b /\ y <> x) as (y & Hy & Nyx).
          { destruct b as [|b1 [|b2 b]]; simpl in Hl; [destruct Hx|congruence|].
            { destruct (Nat.eq_dec b1 x) as [->|Ne]; [|exists b1; split; [left|]; auto].
              exists b2. split; [right; left; auto|]. intros ->. inversion NDb; subst. apply H1; left; auto. } }
          pose proof (F2 x y Hx Hy) as Hr. inversion Hr; subst; [congruence|].
          destruct H as (a & He & Hd). exists a. eauto.
        - intros x a (H1 & H2 & H3). auto.
        - intros x y Hx Hy.
          assert (G : forall u v, rtc (fun x y => exists a, gpe x a y /\ forall d, gpe x a d -> In d b) u v -> In u b ->
                     rtc (fun u v => exists a, (In u b /\ (exists d, gpe u a d) /\ (forall d, gpe u a d -> In d b)) /\ gpe u a v) u v).
          { intros u v Hr. induction Hr as [u|u w v (a & He & Hd) Hr IH]; intros Hu; [constructor|].
            econstructor; [|apply IH; apply Hd; auto]. exists a. split; auto. split; auto. split; eauto. }
          apply G; auto. }
      split.
      { intros u v Hu Hv. destruct (Blk u Hu) as (b & Hb & Hub). destruct (Blk v Hv) as (b' & Hb' & Hvb). split.
        - intros Ec. rewrite Ec in Hb. assert (b = b') by congruence. subst b'.
          destruct (Nat.eq_dec u v) as [|Nuv]; auto. right.
          destruct (ECof b) as (B & HE); [eauto| |].
          { intros H1. destruct b as [|b1 [|b2 b]]; simpl in H1; try discriminate.
            destruct Hub as [<-|[]], Hvb as [<-|[]]. congruence. }
          exists (fun x => In x b), B. auto.
        - intros [->|(X & B & HE & HXu & HXv)]; auto.
          destruct (B3 X B HE) as (c & Hc & HXc). apply In_nth_error in Hc. destruct Hc as (i & Hi).
          destruct (HF i c Hi) as (_ & _ & F3). rewrite (F3 u), (F3 v); auto. }
      { intros Hact c Hc. rewrite Sp. split.
        - intros (i & rc0 & Hi & Hci & Ht2). destruct (Blk i Hi) as (b & Hb & Hib). rewrite Hci in Hb.
          destruct (Nat.eq_dec (length b) 1) as [L1|L1].
          + destruct Ht2 as [Ht2|Ht2].
            * exfalso. assert (in_treap (m_single s) c = true); [|congruence].
              apply in_treap_elems; [apply HS1|]. apply HS2. exists b; auto.
            * apply selfloop_test_spec in Ht2; auto. destruct Ht2 as (a & Ha & Hd).
              exists i, (fun x => x = i), (fun x b0 => x = i /\ b0 = a). split; auto. split; auto. split; auto.
              split; [|split; [|split]].
              -- exists i; auto.
              -- intros x ->. exists a; auto.
              -- intros x b0 [-> ->]. split; auto. split; eauto.
              -- intros x y -> ->. constructor.
          + destruct (ECof b) as (B & HE); [eauto|auto|].
            exists i, (fun x => In x b), B. auto.
        - intros (n & X & B & Hn & Hcn & HE & HXn). destruct (Blk n Hn) as (b & Hb & Hnb).
          exists n, 0. split; auto. split; auto.
          destruct (in_treap (m_single s) c) eqn:Es; auto. right.
          apply in_treap_elems in Es; [|apply HS1]. apply HS2 in Es. destruct Es as (b' & Hb' & L1).
          assert (b' = b) by congruence. subst b'.
          assert (Hall : forall x, X x -> x = n).
          { intros x Hx. destruct (B3 X B HE) as (d & Hd & HXd). apply In_nth_error in Hd. destruct Hd as (i & Hi).
            destruct (HF i d Hi) as (_ & _ & F3). assert (i = c) by (rewrite <- Hcn; symmetry; apply F3; auto).
            subst i. assert (d = b) by congruence. subst d.
            destruct b as [|b1 [|b2 b]]; simpl in L1; try discriminate.
            destruct (HXd x Hx) as [<-|[]]. destruct (HXd n HXn) as [<-|[]]. auto. }
          apply selfloop_test_spec; auto.
          destruct HE as (_ & H2 & H3 & _). destruct (H2 n HXn) as (a & Hba).
          destruct (H3 n a Hba) as (_ & (d & Hd) & Hcl). exists a. split.
          + rewrite <- (Hall d) at 2; auto.
          + intros d' Hd'. apply Hall; auto. }
  Qed.
End MEC.

(** ** Statements in terms of the matrix *)

Lemma gpe_pair_edge : forall P inv g, mk_graph P inv = Ok g -> forall s a d, gpe g s a d <-> pair_edge P inv s a d.
Proof.
  intros P inv g H s a d. destruct (mk_graph_spec P inv g H) as [HL HG]. split.
  - intros (x & Hx & <- & <-).
    assert (Hs : s < mcols P). { rewrite <- HL. eapply neigh_lt with (fwd := true) (t := sap_state x). exists x; auto. }
    destruct (HG s Hs) as [A1 _]. rewrite A1 in Hx. apply in_map_iff in Hx. destruct Hx as ([[d a] p] & <- & Hx).
    unfold out_triples in Hx. apply in_flat_map in Hx. destruct Hx as ([[i d'] p'] & Hin & Hx).
    destruct (inv i) as [[s' a']|] eqn:Ei; [|destruct Hx].
    destruct (Nat.eqb_spec s' s); [|destruct Hx]. destruct Hx as [Hx|[]]. inversion Hx; subst.
    exists i, p. auto.
  - intros (i & p & Hin & Hi).
    destruct (mk_graph_good P inv g H _ Hin) as (s' & a' & B1 & B2 & B3). simpl in *. rewrite Hi in B1. inversion B1; subst s' a'.
    destruct (HG s B2) as [A1 _]. exists (to_float (d, a, p)). rewrite A1. split; auto.
    apply in_map. unfold out_triples. apply in_flat_map. exists ((i, d), p). split; auto. rewrite Hi, Nat.eqb_refl. left; auto.
Qed.

Lemma ec_of_ext : forall (pe pe' : nat -> nat -> nat -> Prop) X B, (forall s a d, pe s a d <-> pe' s a d) ->
  ec_of pe X B -> ec_of pe' X B.
Proof.
  intros pe pe' X B H (H1 & H2 & H3 & H4). split; auto. split; auto. split.
  - intros s a Hb. destruct (H3 s a Hb) as (A1 & (d & A2) & A3). split; auto. split.
    + exists d. apply H; auto.
    + intros d' Hd'. apply A3. apply H; auto.
  - intros s t Hs Ht. eapply rtc_mono; [|apply H4; auto]. intros u v (a & Hb & He). exists a. split; auto. apply H; auto.
Qed.

Lemma sE_stay_edge : forall P inv g, mk_graph P inv = Ok g -> forall sub v w,
  sE g sub v w <-> stay_edge P inv (fun x => In x (elems sub)) v w.
Proof.
  intros P inv g H sub v w. rewrite sE_gpe. split.
  - intros (a & He & Hd). apply (gpe_pair_edge P inv g H) in He. destruct He as (i & p & Hin & Hi).
    exists i, a, p. split; auto. split; auto. intros i' d' p' Hin' Hi'. apply Hd.
    apply (gpe_pair_edge P inv g H). exists i', p'; auto.
  - intros (i & a & p & Hin & Hi & Hd). exists a. split.
    + apply (gpe_pair_edge P inv g H). exists i, p; auto.
    + intros d Hd'. apply (gpe_pair_edge P inv g H) in Hd'. destruct Hd' as (i' & p' & Hin' & Hi'). eauto.
Qed.

Lemma C07_lemma : forall P inv g, mk_graph P inv = Ok g -> forall (ks : list (nat * Z)) rnd rc,
  (forall k, In k (map fst ks) -> k < mcols P) ->
  let R := stay_edge P inv (fun x => In x (map fst ks)) in
  exists sccs k rc', strongly_connected g rnd rc (insert_all TNull ks) = Ok (sccs, k, rc') /\
    length sccs = mcols P /\
    (forall u v, In u (map fst ks) -> In v (map fst ks) -> (nth u sccs 0 = nth v sccs 0 <-> mutual R u v)) /\
    (forall u, In u (map fst ks) -> 1 <= nth u sccs 0 <= k) /\
    (forall n, 1 <= n <= k -> exists u, In u (map fst ks) /\ nth u sccs 0 = n) /\
    (forall u, ~ In u (map fst ks) -> nth u sccs 0 = 0).
Proof.
  intros P inv g H ks rnd rc Hk R. destruct (mk_graph_spec P inv g H) as [HL _].
  destruct (wf_insert_all ks TNull wf_null) as [(W1 & W2 & W3) Hin].
  set (t := insert_all TNull ks) in *.
  assert (Hel : forall x, In x (elems t) <-> In x (map fst ks)) by (intros x; rewrite Hin; simpl; tauto).
  destruct (strongly_connected_ok g rnd t W1) with (rc := rc) as (sccs & k & rc' & E & L & S1 & S2 & S3 & S4); auto.
  { intros v Hv. rewrite HL. apply Hk. apply Hel; auto. }
  exists sccs, k, rc'. split; auto. split; [lia|].
  assert (RE : forall u v, mutual (sE g t) u v <-> mutual R u v).
  { intros u v. unfold mutual, R.
    assert (G1 : forall a b, sE g t a b <-> stay_edge P inv (fun x => In x (map fst ks)) a b).
    { intros a b. rewrite (sE_stay_edge P inv g H). unfold stay_edge.
      split; intros (i & ac & p & A1 & A2 & A3); exists i, ac, p; split; auto; split; auto; intros i' d' p' B1 B2;
      apply Hel; eapply A3; eauto. }
    split; (intros [A B]; split; [refine (rtc_mono _ _ _ _ _ _ A)|refine (rtc_mono _ _ _ _ _ _ B)]; intros; apply G1; auto). }
  split; [|split; [|split]].
  - intros u v Hu Hv. rewrite <- RE. apply S1; apply Hel; auto.
  - intros u Hu. apply S2. apply Hel; auto.
  - intros n Hn. destruct (S3 n Hn) as (u & Hu & Eu). exists u. split; auto. apply Hel; auto.
  - intros u Hu. apply S4. rewrite Hel; auto.
Qed.

Lemma mec_spec : forall P inv g, mk_graph P inv = Ok g -> 0 < mcols P -> forall rnd fuel, 2 * mcols P <= fuel ->
  exists comp proper k,
    mec_fuel fuel g rnd = Ok (comp, proper, k) /\ length comp = mcols P /\ length proper = k /\
    (forall n, n < mcols P -> nth n comp 0 < k) /\
    (forall c, c < k -> exists n, n < mcols P /\ nth n comp 0 = c) /\
    (forall u v, u < mcols P -> v < mcols P ->
       (nth u comp 0 = nth v comp 0 <-> u = v \/ exists X B, end_component P inv X B /\ X u /\ X v)) /\
    ((forall n, n < mcols P -> exists a d, pair_edge P inv n a d) ->
     forall c, c < k -> (nth c proper false = true <-> exists n, n < mcols P /\ nth n comp 0 = c /\ in_some_ec P inv n)).
Proof.
  intros P inv g H HN rnd fuel Hf. destruct (mk_graph_spec P inv g H) as [HL _].
  pose proof (gpe_pair_edge P inv g H) as HP.
  destruct (mec_ok g rnd (mk_graph_closed P inv g H)) with (fuel := fuel) as (comp & proper & k & E & L1 & L2 & R1 & R2 & R3 & R4); try lia.
  rewrite HL in *. exists comp, proper, k. split; auto. split; auto. split; auto. split; auto. split; auto.
  assert (G1 : forall X B, ec_of (gpe g) X B <-> end_component P inv X B).
  { intros X B. split; apply ec_of_ext; intros; rewrite HP; tauto. }
  split.
  - intros u v Hu Hv. rewrite (R3 u v Hu Hv). split; (intros [?|(X & B & HE & ? & ?)]; [auto|right; exists X, B; split; auto; apply G1; auto]).
  - intros Hact c Hc. rewrite R4; auto.
    + split.
      * intros (n & X & B & Hn & Hc' & HE & HX). exists n. split; auto. split; auto. exists X, B. split; auto. apply G1; auto.
      * intros (n & Hn & Hc' & X & B & HE & HX). exists n, X, B. split; auto. split; auto. split; auto. apply G1; auto.
    + intros n Hn. destruct (Hact n Hn) as (a & d & Hp). exists a, d. apply HP; auto.
Qed.

Lemma C08_lemma : forall P inv g, mk_graph P inv = Ok g -> 0 < mcols P -> forall rnd,
  exists comp proper k,
    maximal_end_components g rnd = Ok (comp, proper, k) /\ length comp = mcols P /\ length proper = k /\
    (forall n, n < mcols P -> nth n comp 0 < k) /\
    (forall c, c < k -> exists n, n < mcols P /\ nth n comp 0 = c) /\
    (forall u v, u < mcols P -> v < mcols P ->
       (nth u comp 0 = nth v comp 0 <-> u = v \/ exists X B, end_component P inv X B /\ X u /\ X v)).
Proof.
  intros P inv g H HN rnd. destruct (mk_graph_spec P inv g H) as [HL _].
  destruct (mec_spec P inv g H HN rnd (2 * length g + 1)) as (c & p & k & A1 & A2 & A3 & A4 & A5 & A6 & _); [lia|].
  exists c, p, k. repeat (split; auto).
Qed.

Lemma C08_terminates_lemma : forall P inv g, mk_graph P inv = Ok g -> 0 < mcols P -> forall rnd fuel, 2 * mcols P <= fuel ->
  exists comp proper k, mec_fuel fuel g rnd = Ok (comp, proper, k).
Proof.
  intros P inv g H HN rnd fuel Hf. destruct (mec_spec P inv g H HN rnd fuel Hf) as (c & p & k & A1 & _). eauto.
Qed.

Lemma C09_lemma : forall P inv g, mk_graph P inv = Ok g -> 0 < mcols P -> forall rnd,
  (forall n, n < mcols P -> exists a d, pair_edge P inv n a d) ->
  forall comp proper k, maximal_end_components g rnd = Ok (comp, proper, k) ->
  forall n, n < mcols P -> (nth (nth n comp 0) proper false = true <-> in_some_ec P inv n).
Proof.
  intros P inv g H HN rnd Hact comp proper k E n Hn. destruct (mk_graph_spec P inv g H) as [HL _].
  destruct (mec_spec P inv g H HN rnd (2 * length g + 1)) as (c & p & k' & A1 & A2 & A3 & A4 & A5 & A6 & A7); [lia|].
  unfold maximal_end_components in E. rewrite E in A1. inversion A1; subst c p k'.
  rewrite A7; auto. split.
  - intros (m & Hm & Ec & HE). apply A6 in Ec; auto. destruct Ec as [->|(X & B & HX & ? & ?)]; auto. exists X, B; auto.
  - intros HE. exists n; auto.
Qed.
