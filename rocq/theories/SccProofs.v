(** Correctness of Tarjan's algorithm as coded in graph.pyx. *)
From Coq Require Import List Arith ZArith QArith Bool Lia Sorted.
From Verif Require Import Base BaseFacts Num Matrix Treap TreapSpec TreapProofs Graph GraphSpec GraphProofs Scc SccSpec.
Import ListNotations.
Local Open Scope nat_scope.

Lemma rtc_trans : forall A (R : A -> A -> Prop) x y z, rtc R x y -> rtc R y z -> rtc R x z.
Proof. intros A R x y z H; induction H; intros; auto. econstructor; eauto. Qed.

Lemma rtc_one : forall A (R : A -> A -> Prop) x y, R x y -> rtc R x y.
Proof. intros. econstructor; eauto. constructor. Qed.

Lemma rtc_leave : forall (R : nat -> nat -> Prop) (l : list nat) x z, rtc R x z -> In x l -> ~ In z l ->
  exists y w, In y l /\ ~ In w l /\ R y w /\ rtc R w z.
Proof.
  intros R l x z H; induction H; intros Hx Hz; [contradiction|].
  destruct (in_dec Nat.eq_dec y l); auto.
  exists x, y; auto.
Qed.

Lemma SS_ext : forall A (R R' : A -> A -> Prop) l,
  (forall a b, In a l -> In b l -> R a b -> R' a b) -> StronglySorted R l -> StronglySorted R' l.
Proof.
  induction l; intros H HS; constructor; inversion HS; subst.
  - apply IHl; auto. intros; apply H; auto; right; auto.
  - rewrite Forall_forall in *. intros b Hb. apply H; auto; [left|right]; auto.
Qed.

Lemma nth_error_nth_eq : forall A (l : list A) n d x, nth_error l n = Some x -> nth n l d = x.
Proof. intros. eapply nth_error_nth; eauto. Qed.

Section Tarjan.
  Variables (g : graph) (rnd : nat -> Z) (sub : treap).
  Hypothesis Hclosed : closed_graph g.
  Hypothesis Hbst : bst sub.
  Let N := length g.
  Let X (v : nat) := In v (elems sub).
  Hypothesis HX : forall v, X v -> v < N.

  Definition sE (v w : nat) : Prop :=
    exists x, In x (succs (nth v g node0)) /\ sap_state x = w /\
      forall y, In y (succs (nth v g node0)) -> sap_action y = sap_action x -> In (sap_state y) (elems sub).

  Let reach := rtc sE.

  Definition idx (s : tj) v := nth v (t_idx s) None.
  Definition vis (s : tj) v := idx s v <> None.
  Definition ix (s : tj) v := match idx s v with Some i => i | None => 0 end.
  Definition low (s : tj) v := nth v (t_low s) 0.
  Definition scc (s : tj) v := nth v (t_scc s) 0.
  Definition done (s : tj) v := vis s v /\ ~ In v (t_stk s).

  Record Inv (gs : list nat) (s : tj) : Prop := {
    i_len1 : length (t_idx s) = N; i_len2 : length (t_low s) = N;
    i_len3 : length (t_on s) = N; i_len4 : length (t_scc s) = N;
    i_X : forall v, vis s v -> X v /\ ix s v < t_cnt s;
    i_sorted : StronglySorted (fun a b => ix s b < ix s a) (t_stk s);
    i_on : forall v, nth v (t_on s) false = true <-> In v (t_stk s);
    i_stkvis : forall v, In v (t_stk s) -> vis s v;
    i_gsnd : NoDup gs;
    i_gs : forall v, In v gs -> In v (t_stk s);
    i_down : forall v, In v (t_stk s) -> exists u, In u gs /\ ix s u <= ix s v /\ reach v u;
    i_up : forall u v, In u gs -> In v (t_stk s) -> ix s u <= ix s v -> reach u v;
    i_bw : forall v w, vis s v -> ~ In v gs -> sE v w -> vis s w;
    i_done : forall v w, done s v -> sE v w -> done s w;
    i_scc : forall v w, done s v -> done s w -> (scc s v = scc s w <-> reach v w /\ reach w v);
    i_num : forall v, done s v -> 1 <= scc s v < t_num s;
    i_used : forall n, 1 <= n < t_num s -> exists v, done s v /\ scc s v = n;
    i_undone : forall v, ~ done s v -> scc s v = 0;
    i_num1 : 1 <= t_num s
  }.

  Lemma Inv_ext : forall gs s s',
    t_idx s' = t_idx s -> length (t_low s') = length (t_low s) -> t_on s' = t_on s -> t_stk s' = t_stk s ->
    t_cnt s' = t_cnt s -> t_scc s' = t_scc s -> t_num s' = t_num s -> Inv gs s -> Inv gs s'.
  Proof.
    intros gs s s' E1 E2 E3 E4 E5 E6 E7 H. destruct s, s'; simpl in *. subst.
    destruct H; simpl in *. constructor; simpl in *; auto; congruence.
  Qed.

  (** What a call may change. *)
  Record Ext (s s' : tj) : Prop := {
    e_idx : forall u, vis s u -> idx s' u = idx s u;
    e_low : forall u, vis s u -> low s' u = low s u;
    e_new : forall u, vis s' u -> ~ vis s u -> t_cnt s <= ix s' u;
    e_cnt : t_cnt s <= t_cnt s';
    e_stk : exists new, t_stk s' = new ++ t_stk s /\ forall y, In y new -> ~ vis s y }.

  Lemma ext_vis : forall s s' u, Ext s s' -> vis s u -> vis s' u.
  Proof. intros s s' u H Hu. unfold vis. rewrite (e_idx _ _ H); auto. Qed.

  Lemma ext_ix : forall s s' u, Ext s s' -> vis s u -> ix s' u = ix s u.
  Proof. intros s s' u H Hu. unfold ix. rewrite (e_idx _ _ H); auto. Qed.

  Definition vis_dec : forall s v, {vis s v} + {~ vis s v}.
  Proof. intros. unfold vis. destruct (idx s v); [left|right]; congruence. Defined.

  Lemma vis_lt : forall gs s v, Inv gs s -> vis s v -> v < N.
  Proof. intros gs s v HI Hv. apply HX. apply (i_X _ _ HI); auto. Qed.

  Lemma ext_trans : forall s1 s2 s3, Ext s1 s2 -> Ext s2 s3 -> Ext s1 s3.
  Proof.
    intros s1 s2 s3 H1 H2. constructor.
    - intros u Hu. rewrite (e_idx _ _ H2), (e_idx _ _ H1); auto. eapply ext_vis; eauto.
    - intros u Hu. rewrite (e_low _ _ H2), (e_low _ _ H1); auto. eapply ext_vis; eauto.
    - intros u Hu Hn. destruct (vis_dec s2 u) as [V|V].
      + rewrite (ext_ix _ _ _ H2 V). apply (e_new _ _ H1); auto.
      + pose proof (e_new _ _ H2 u Hu V). pose proof (e_cnt _ _ H1). lia.
    - pose proof (e_cnt _ _ H1). pose proof (e_cnt _ _ H2). lia.
    - destruct (e_stk _ _ H1) as (n1 & E1 & F1), (e_stk _ _ H2) as (n2 & E2 & F2).
      exists (n2 ++ n1). rewrite E2, E1, app_assoc. split; auto.
      intros y Hy Hv. apply in_app_iff in Hy. destruct Hy as [Hy|Hy].
      + apply (F2 y Hy). eapply ext_vis; eauto.
      + apply (F1 y Hy); auto.
  Qed.

  Lemma done_reach : forall gs s v w, Inv gs s -> reach v w -> done s v -> done s w.
  Proof. intros gs s v w HI H; induction H; intros; auto. apply IHrtc. eapply i_done; eauto. Qed.

  (** ** Bad actions *)
  Lemma in_treap_elems : forall t x, bst t -> (in_treap t x = true <-> In x (elems t)).
  Proof. exact in_treap_spec. Qed.

  Lemma bad_actions_spec : forall ss rc bad rc', bad_actions rnd sub ss rc = (bad, rc') ->
    forall a, in_treap bad a = true <-> exists y, In y ss /\ sap_action y = a /\ ~ In (sap_state y) (elems sub).
  Proof.
    intros ss rc bad rc' H. unfold bad_actions in H.
    assert (G : forall ss t rc, wf_treap t ->
      let r := fold_left (fun st x => let '(t, rc) := st in
               if in_treap sub (sap_state x) then (t, rc)
               else (add_to_treap t (sap_action x) (rnd rc), S rc)) ss (t, rc) in
      wf_treap (fst r) /\ forall a, In a (elems (fst r)) <-> In a (elems t) \/ exists y, In y ss /\ sap_action y = a /\ ~ In (sap_state y) (elems sub)).
    { induction ss0 as [|x ss0 IH]; intros t rc0 W; simpl.
      - split; auto. intros a. split; auto. intros [?|(y & [] & _)]; auto.
      - destruct (in_treap sub (sap_state x)) eqn:Ex.
        + destruct (IH t rc0 W) as [W' I']. split; auto. intros a. rewrite I'.
          apply in_treap_elems in Ex; auto. split.
          * intros [?|(y & Hy & Ha & Hn)]; auto. right; exists y; auto.
          * intros [?|(y & [<-|Hy] & Ha & Hn)]; auto; [contradiction|]. right; exists y; auto.
        + destruct (IH (add_to_treap t (sap_action x) (rnd rc0)) (S rc0)) as [W' I'].
          { apply wf_add; auto. }
          split; auto. intros a. rewrite I', elems_add by auto.
          assert (Nx : ~ In (sap_state x) (elems sub)).
          { rewrite <- in_treap_elems by auto. congruence. }
          split.
          * intros [[Ha|?]|(y & Hy & Ha & Hn)]; auto.
            -- right; exists x; auto.
            -- right; exists y; auto.
          * intros [?|(y & [<-|Hy] & Ha & Hn)]; auto. right; exists y; auto. }
    destruct (G ss TNull rc wf_null) as [W I]. rewrite H in W, I. simpl in W, I.
    intros a. rewrite in_treap_elems by apply W. rewrite I. simpl. split; [intros [[]|?]|]; auto.
  Qed.

  (** ** Popping a component *)
  Lemma pop_until_spec : forall v num new rest on sc, ~ In v new ->
    (forall u, In u (new ++ [v]) -> u < length on /\ u < length sc) ->
    exists on' sc', pop_until v num (new ++ v :: rest) on sc = Ok (rest, on', sc') /\
      length on' = length on /\ length sc' = length sc /\
      (forall u, nth u on' false = if in_dec Nat.eq_dec u (new ++ [v]) then false else nth u on false) /\
      (forall u, nth u sc' 0 = if in_dec Nat.eq_dec u (new ++ [v]) then num else nth u sc 0).
  Proof.
    induction new as [|w new IH]; intros rest on sc Hv HB; simpl.
    - rewrite Nat.eqb_refl. do 2 eexists. split; [reflexivity|]. rewrite !upd_length. repeat split.
      + intros u. rewrite nth_upd. destruct (HB v) as [B1 B2]; [left; auto|].
        destruct (Nat.eqb_spec v u).
        * subst. destruct (Nat.ltb_spec u (length on)); [|lia]. simpl. destruct (Nat.eq_dec u u); auto; congruence.
        * simpl. destruct (Nat.eq_dec v u); auto; congruence.
      + intros u. rewrite nth_upd. destruct (HB v) as [B1 B2]; [left; auto|].
        destruct (Nat.eqb_spec v u).
        * subst. destruct (Nat.ltb_spec u (length sc)); [|lia]. simpl. destruct (Nat.eq_dec u u); auto; congruence.
        * simpl. destruct (Nat.eq_dec v u); auto; congruence.
    - destruct (Nat.eqb_spec w v). { subst. exfalso; apply Hv; left; auto. }
      destruct (IH rest (upd on w false) (upd sc w num)) as (on' & sc' & E & L1 & L2 & S1 & S2).
      { intros Hin; apply Hv; right; auto. }
      { intros u Hu. rewrite !upd_length. apply HB. right; auto. }
      rewrite !upd_length in L1, L2.
      destruct (HB w) as [B1 B2]; [left; auto|].
      exists on', sc'. split; auto. split; auto. split; auto. split; intros u.
      + rewrite S1. destruct (in_dec Nat.eq_dec u (new ++ [v])) as [i|i].
        * destruct (Nat.eq_dec w u); auto.
        * rewrite nth_upd. destruct (Nat.eqb_spec w u).
          -- subst. destruct (Nat.ltb_spec u (length on)); [|lia]. destruct (Nat.eq_dec u u); auto; congruence.
          -- simpl. destruct (Nat.eq_dec w u); auto; congruence.
      + rewrite S2. destruct (in_dec Nat.eq_dec u (new ++ [v])) as [i|i].
        * destruct (Nat.eq_dec w u); auto.
        * rewrite nth_upd. destruct (Nat.eqb_spec w u).
          -- subst. destruct (Nat.ltb_spec u (length sc)); [|lia]. destruct (Nat.eq_dec u u); auto; congruence.
          -- simpl. destruct (Nat.eq_dec w u); auto; congruence.
  Qed.

  (** ** Entering a node *)
  Lemma enter_idx : forall gs s v u, Inv gs s -> v < N -> idx (enter s v) u = if v =? u then Some (t_cnt s) else idx s u.
  Proof.
    intros. unfold idx, enter; simpl. rewrite nth_upd, (i_len1 _ _ H).
    destruct (Nat.eqb_spec v u); simpl; auto. subst. destruct (Nat.ltb_spec u N); auto; lia.
  Qed.

  Lemma enter_vis : forall gs s v u, Inv gs s -> v < N -> (vis (enter s v) u <-> u = v \/ vis s u).
  Proof.
    intros. unfold vis. rewrite (enter_idx gs); auto. destruct (Nat.eqb_spec v u).
    - subst. split; auto. intros _; discriminate.
    - split; auto. intros [?|?]; auto; congruence.
  Qed.

  Lemma enter_ix_old : forall gs s v u, Inv gs s -> v < N -> ~ vis s v -> vis s u -> ix (enter s v) u = ix s u.
  Proof.
    intros. unfold ix. rewrite (enter_idx gs); auto. destruct (Nat.eqb_spec v u); auto. subst; contradiction.
  Qed.

  Lemma enter_ix_new : forall gs s v, Inv gs s -> v < N -> ix (enter s v) v = t_cnt s.
  Proof. intros. unfold ix. rewrite (enter_idx gs); auto. rewrite Nat.eqb_refl. auto. Qed.

  Lemma enter_inv : forall gs s v, Inv gs s -> X v -> ~ vis s v -> (forall u, In u gs -> reach u v) ->
    Inv (v :: gs) (enter s v).
  Proof.
    intros gs s v HI Xv Nv Hr. assert (Hv : v < N) by auto.
    assert (Vn : forall u, vis s u -> u <> v) by (intros u Hu ->; auto).
    assert (Sn : forall u, In u (t_stk s) -> u <> v) by (intros u Hu; apply Vn; eapply i_stkvis; eauto).
    pose proof (enter_vis gs s v) as EV. pose proof (enter_ix_old gs s v) as EO. pose proof (enter_ix_new gs s v HI Hv) as EN.
    assert (ED : forall u, done (enter s v) u <-> done s u).
    { intros u. unfold done. rewrite EV by auto. simpl. split.
      - intros [[->|H1] H2]; [exfalso; apply H2; auto|]. split; auto.
      - intros [H1 H2]. split; auto. intros [<-|?]; auto. }
    constructor.
    - simpl. rewrite upd_length. apply (i_len1 _ _ HI).
    - simpl. rewrite upd_length. apply (i_len2 _ _ HI).
    - simpl. rewrite upd_length. apply (i_len3 _ _ HI).
    - simpl. apply (i_len4 _ _ HI).
    - intros u Hu. apply EV in Hu; auto. destruct Hu as [->|Hu].
      + split; auto. rewrite EN. simpl. lia.
      + rewrite EO by auto. destruct (i_X _ _ HI u Hu). simpl. split; auto.
    - simpl. constructor.
      + apply SS_ext with (2 := i_sorted _ _ HI). intros a b Ha Hb Hab.
        rewrite !EO; auto; eapply i_stkvis; eauto.
      + rewrite Forall_forall. intros u Hu. rewrite EN, EO; auto.
        * apply (i_X _ _ HI). eapply i_stkvis; eauto.
        * eapply i_stkvis; eauto.
    - intros u. simpl. rewrite nth_upd, (i_len3 _ _ HI). destruct (Nat.eqb_spec v u).
      + subst. destruct (Nat.ltb_spec u N); [|lia]. simpl. tauto.
      + simpl. rewrite (i_on _ _ HI). intuition.
    - intros u [<-|Hu]; apply EV; auto. right. eapply i_stkvis; eauto.
    - constructor; [|apply (i_gsnd _ _ HI)]. intros Hin. apply (i_gs _ _ HI) in Hin. apply (Sn v); auto.
    - intros u [<-|Hu]; simpl; auto. right. eapply i_gs; eauto.
    - intros u [<-|Hu].
      + exists v. split; [left; auto|]. split; auto. constructor.
      + destruct (i_down _ _ HI u Hu) as (z & Hz & Hle & Hrz). exists z. split; [right; auto|]. split; auto.
        rewrite !EO; auto; eapply i_stkvis; eauto. eapply i_gs; eauto.
    - intros u z [<-|Hu] [<-|Hz] Hle.
      + constructor.
      + rewrite EN, EO in Hle; auto; [|eapply i_stkvis; eauto].
        pose proof (i_X _ _ HI z (i_stkvis _ _ HI z Hz)). lia.
      + auto.
      + rewrite !EO in Hle; auto; [|eapply i_stkvis; eauto|eapply i_stkvis; eauto; eapply i_gs; eauto].
        eapply i_up; eauto.
    - intros u w Hu Hn He. apply EV in Hu; auto. apply EV; auto. right. destruct Hu as [->|Hu].
      + exfalso; apply Hn; left; auto.
      + eapply i_bw; eauto. intros Hin; apply Hn; right; auto.
    - intros u w. rewrite !ED. apply (i_done _ _ HI).
    - intros u w. rewrite !ED. apply (i_scc _ _ HI).
    - intros u. rewrite !ED. apply (i_num _ _ HI).
    - intros n Hn. destruct (i_used _ _ HI n Hn) as (u & Hd & Hs). exists u. rewrite ED. auto.
    - intros u. rewrite ED. apply (i_undone _ _ HI).
    - apply (i_num1 _ _ HI).
  Qed.

  (** ** The loop over the successors *)
  Record Loop (s0 : tj) (v : nat) (gs : list nat) (pre : list sap) (s : tj) : Prop := {
    l_inv : Inv (v :: gs) s;
    l_ext : Ext s0 s;
    l_idx : idx s v = Some (t_cnt s0);
    l_new : exists new, t_stk s = new ++ v :: t_stk s0 /\ (forall y, In y new -> ~ vis s0 y /\ y <> v) /\
              (forall y w, In y new -> sE y w -> In w (t_stk s0) -> low s v <= ix s w);
    l_le : low s v <= ix s v;
    l_wit : exists u, In u (t_stk s) /\ ix s u = low s v /\ reach v u;
    l_pre : forall x, In x pre -> (forall y, In y (succs (nth v g node0)) -> sap_action y = sap_action x -> X (sap_state y)) ->
              vis s (sap_state x) /\ (In (sap_state x) (t_stk s0) -> low s v <= ix s (sap_state x)) }.

  Record Post (s0 : tj) (v : nat) (gs : list nat) (s : tj) : Prop := {
    p_inv : Inv gs s;
    p_ext : Ext s0 s;
    p_vis : vis s v;
    p_on : In v (t_stk s) -> exists u, In u (t_stk s) /\ ix s u = low s v /\ reach v u;
    p_off : ~ In v (t_stk s) -> t_cnt s0 <= low s v;
    p_new : forall y w, In y (t_stk s) -> ~ vis s0 y -> sE y w -> In w (t_stk s0) -> low s v <= ix s w }.

  Lemma set_low_low : forall s v l u, v < length (t_low s) -> low (set_low s v l) u = if v =? u then l else low s u.
  Proof.
    intros. unfold low, set_low; simpl. rewrite nth_upd. destruct (Nat.eqb_spec v u); simpl; auto.
    subst. destruct (Nat.ltb_spec u (length (t_low s))); auto; lia.
  Qed.

  Lemma set_low_inv : forall gs s v l, Inv gs s -> Inv gs (set_low s v l).
  Proof. intros. apply Inv_ext with (s := s); auto. simpl. apply upd_length. Qed.

  Lemma ext_set_low : forall s0 s v l gs, Inv gs s -> v < N -> ~ vis s0 v -> Ext s0 s -> Ext s0 (set_low s v l).
  Proof.
    intros s0 s v l gs HI Hv Nv HE. destruct HE. constructor; simpl; auto.
    intros u Hu. rewrite set_low_low by (rewrite (i_len2 _ _ HI); auto).
    destruct (Nat.eqb_spec v u); auto. subst; contradiction.
  Qed.

  Lemma sorted_app_lt : forall s new v rest y, StronglySorted (fun a b => ix s b < ix s a) (new ++ v :: rest) ->
    In y new -> ix s v < ix s y.
  Proof.
    induction new; intros v rest y HS Hy; [inversion Hy|]. simpl in HS. inversion HS; subst.
    destruct Hy as [->|Hy]; [|eapply IHnew; eauto].
    rewrite Forall_forall in H2. apply H2. apply in_app_iff; right; left; auto.
  Qed.

  Lemma sorted_rest_lt : forall s new v rest y, StronglySorted (fun a b => ix s b < ix s a) (new ++ v :: rest) ->
    In y rest -> ix s y < ix s v.
  Proof.
    induction new; intros v rest y HS Hy; simpl in HS; inversion HS; subst; eauto.
    rewrite Forall_forall in H2. auto.
  Qed.

  Lemma sorted_tail : forall s new rest, StronglySorted (fun a b => ix s b < ix s a) (new ++ rest) ->
    StronglySorted (fun a b => ix s b < ix s a) rest.
  Proof. induction new; simpl; intros rest H; auto. inversion H; auto. Qed.

  Lemma step_ok : forall s0 v gs pre s x (rec : tj -> nat -> res tj) bad,
    v < N -> ~ vis s0 v -> Inv gs s0 -> (forall u, In u gs -> reach u v) ->
    In x (succs (nth v g node0)) ->
    (forall a, in_treap bad a = true <-> exists y, In y (succs (nth v g node0)) /\ sap_action y = a /\ ~ In (sap_state y) (elems sub)) ->
    (forall s1 w, Inv (v :: gs) s1 -> X w -> ~ vis s1 w -> (forall u, In u (v :: gs) -> reach u w) ->
        exists s2, rec s1 w = Ok s2 /\ Post s1 w (v :: gs) s2) ->
    Loop s0 v gs pre s ->
    exists s', visit_succ rec bad v s x = Ok s' /\ Loop s0 v gs (pre ++ [x]) s'.
  Proof.
    intros s0 v gs pre s x rec bad Hv Nv HI0 Hgr Hx Hbad Hrec HL.
    destruct HL as [LI LE Lidx (new & Lstk & Lnew & Lxe) Lle (u0 & Hu0 & Eu0 & Ru0) Lpre].
    unfold visit_succ. set (w := sap_state x). destruct (in_treap bad (sap_action x)) eqn:Eb.
    - (* bad action *)
      exists s. split; auto. constructor; auto; eauto 10.
      intros x' Hx' Hgood. apply in_app_iff in Hx'. destruct Hx' as [Hx'|[<-|[]]]; auto.
      apply Hbad in Eb. destruct Eb as (y & Hy & Ha & Hn). exfalso. apply Hn. apply Hgood; auto.
    - (* good action *)
      assert (Hgood : forall y, In y (succs (nth v g node0)) -> sap_action y = sap_action x -> In (sap_state y) (elems sub)).
      { intros y Hy Ha. destruct (in_dec Nat.eq_dec (sap_state y) (elems sub)); auto.
        assert (in_treap bad (sap_action x) = true) by (apply Hbad; exists y; auto). congruence. }
      assert (Evw : sE v w) by (exists x; auto).
      assert (Xw : X w) by (apply Hgood; auto).
      assert (Hw : w < N) by auto.
      destruct (nth_error (t_idx s) w) as [ow|] eqn:Ew.
      2:{ apply nth_error_None in Ew. rewrite (i_len1 _ _ LI) in Ew. lia. }
      apply (nth_error_nth_eq _ _ _ None) in Ew. fold (idx s w) in Ew.
      assert (Vv : vis s v) by (unfold vis; congruence).
      assert (Hlv : v < length (t_low s)) by (rewrite (i_len2 _ _ LI); auto).
      destruct ow as [iw|].
      + assert (Vw : vis s w) by (unfold vis; congruence).
        assert (Iw : ix s w = iw) by (unfold ix; rewrite Ew; auto).
        destruct (nth w (t_on s) false) eqn:Eon.
        * (* on the stack *)
          apply (i_on _ _ LI) in Eon. fold (low s v).
          set (l := Nat.min (low s v) iw).
          assert (Lnew_low : low (set_low s v l) v = l) by (rewrite set_low_low, Nat.eqb_refl; auto).
          exists (set_low s v l). split; auto. constructor.
          -- apply set_low_inv; auto.
          -- eapply ext_set_low; eauto.
          -- exact Lidx.
          -- exists new. split; auto. split; auto. intros y z Hy He Hz. rewrite Lnew_low.
             change (ix (set_low s v l) z) with (ix s z). specialize (Lxe y z Hy He Hz). lia.
          -- rewrite Lnew_low. change (ix (set_low s v l) v) with (ix s v). lia.
          -- rewrite Lnew_low. change (t_stk (set_low s v l)) with (t_stk s).
             destruct (Nat.min_spec (low s v) iw) as [[_ E]|[_ E]]; fold l in E; rewrite E.
             ++ exists u0; auto.
             ++ exists w. split; auto. split; auto. apply rtc_one; auto.
          -- intros x' Hx' Hg'. rewrite Lnew_low. change (vis (set_low s v l)) with (vis s).
             change (ix (set_low s v l)) with (ix s). apply in_app_iff in Hx'. destruct Hx' as [Hx'|[<-|[]]].
             ++ destruct (Lpre x' Hx' Hg') as [A1 A2]. split; auto. intros Hs. apply A2 in Hs. lia.
             ++ split; auto. intros _. fold w. lia.
        * (* done *)
          exists s. split; auto. constructor; auto; eauto 10.
          intros x' Hx' Hg'. apply in_app_iff in Hx'. destruct Hx' as [Hx'|[<-|[]]]; auto.
          fold w. split; auto. intros Hs. exfalso.
          assert (In w (t_stk s)) by (rewrite Lstk; apply in_app_iff; right; right; auto).
          apply (i_on _ _ LI) in H. congruence.
      + (* white: recursive call *)
        assert (Nw : ~ vis s w) by (unfold vis; congruence).
        destruct (Hrec s w) as (s2 & E2 & HP); auto.
        { intros u [<-|Hu]; [apply rtc_one; auto|]. eapply rtc_trans; [apply Hgr; auto|apply rtc_one; auto]. }
        rewrite E2. simpl. fold (low s2 v) (low s2 w).
        set (l := Nat.min (low s2 v) (low s2 w)).
        destruct HP as [PI PE PV Pon Poff Pnew].
        assert (Elv : low s2 v = low s v) by (apply (e_low _ _ PE); auto).
        assert (Hlv2 : v < length (t_low s2)) by (rewrite (i_len2 _ _ PI); auto).
        assert (Lnew_low : low (set_low s2 v l) v = l) by (rewrite set_low_low, Nat.eqb_refl; auto).
        assert (Hstk0 : forall z, In z (t_stk s0) -> In z (t_stk s)).
        { intros z Hz. rewrite Lstk. apply in_app_iff; right; right; auto. }
        destruct (e_stk _ _ PE) as (new2 & Es2 & Fn2).
        exists (set_low s2 v l). split; auto. constructor.
        * apply set_low_inv; auto.
        * eapply ext_set_low; eauto. eapply ext_trans; eauto.
        * change (idx s2 v = Some (t_cnt s0)). rewrite (e_idx _ _ PE); auto.
        * exists (new2 ++ new). simpl. rewrite Es2, Lstk, app_assoc. split; auto. split.
          -- intros y Hy. apply in_app_iff in Hy. destruct Hy as [Hy|Hy]; auto. split.
             ++ intros Hv0. apply (Fn2 y Hy). eapply ext_vis; eauto.
             ++ intros ->. apply (Fn2 v Hy). auto.
          -- intros y z Hy He Hz. rewrite Lnew_low. change (ix (set_low s2 v l) z) with (ix s2 z).
             assert (Vz : vis s z) by (eapply i_stkvis; eauto).
             apply in_app_iff in Hy. destruct Hy as [Hy|Hy].
             ++ assert (low s2 w <= ix s2 z).
                { apply Pnew with y; auto. rewrite Es2; apply in_app_iff; auto. }
                lia.
             ++ rewrite (ext_ix _ _ _ PE Vz). specialize (Lxe y z Hy He Hz). lia.
        * rewrite Lnew_low. change (ix (set_low s2 v l) v) with (ix s2 v). rewrite (ext_ix _ _ _ PE Vv). lia.
        * rewrite Lnew_low. change (t_stk (set_low s2 v l)) with (t_stk s2). change (ix (set_low s2 v l)) with (ix s2).
          assert (K : l = low s2 v \/ (l = low s2 w /\ low s2 w < low s2 v)).
          { unfold l. lia. }
          destruct K as [K|[K Klt]].
          -- exists u0. split; [rewrite Es2; apply in_app_iff; auto|]. split; auto.
             rewrite (ext_ix _ _ _ PE); [congruence|]. eapply i_stkvis; eauto.
          -- destruct (in_dec Nat.eq_dec w (t_stk s2)) as [Hin|Hin].
             ++ destruct (Pon Hin) as (u & Hu & Eu & Ru). exists u. split; auto. split; [congruence|].
                eapply rtc_trans; [apply rtc_one; eauto|auto].
             ++ exfalso. pose proof (Poff Hin). pose proof (i_X _ _ LI v Vv). lia.
        * intros x' Hx' Hg'. rewrite Lnew_low. change (vis (set_low s2 v l)) with (vis s2).
          change (ix (set_low s2 v l)) with (ix s2). apply in_app_iff in Hx'. destruct Hx' as [Hx'|[<-|[]]].
          -- destruct (Lpre x' Hx' Hg') as [A1 A2]. split; [eapply ext_vis; eauto|]. intros Hs.
             rewrite (ext_ix _ _ _ PE) by auto. apply A2 in Hs. lia.
          -- split; auto. intros Hs. exfalso. apply Nw. fold w in Hs. eapply i_stkvis; eauto.
  Qed.

  (** ** Leaving a node *)
  Lemma leave_ok : forall s0 v gs s,
    X v -> ~ vis s0 v -> Inv gs s0 -> (forall u, In u gs -> reach u v) ->
    Loop s0 v gs (succs (nth v g node0)) s ->
    exists s', leave s v = Ok s' /\ Post s0 v gs s'.
  Proof.
    intros s0 v gs s Xv Nv HI0 Hgr HL.
    destruct HL as [LI LE Lidx (new & Lstk & Lnew & Lxe) Lle (u0 & Hu0 & Eu0 & Ru0) Lpre].
    assert (Hv : v < N) by auto.
    assert (Vv : vis s v) by (unfold vis; congruence).
    assert (Iv : ix s v = t_cnt s0) by (unfold ix; rewrite Lidx; auto).
    assert (Nnew : ~ In v new) by (intros Hin; apply Lnew in Hin; tauto).
    assert (HS : StronglySorted (fun a b => ix s b < ix s a) (new ++ v :: t_stk s0)).
    { rewrite <- Lstk. apply (i_sorted _ _ LI). }
    assert (Nrest : ~ In v (t_stk s0)) by (intros Hin; apply Nv; eapply i_stkvis; eauto).
    assert (Ev : forall w, sE v w -> vis s w /\ (In w (t_stk s0) -> low s v <= ix s w)).
    { intros w (x & Hx & <- & Hg). apply Lpre; auto. }
    unfold leave. fold (idx s v). rewrite Lidx. simpl. fold (low s v).
    destruct (Nat.eqb_spec (low s v) (t_cnt s0)) as [El|El].
    - (* v is the root of a component *)
      destruct (pop_until_spec v (t_num s) new (t_stk s0) (t_on s) (t_scc s)) as (on' & sc' & E & L1 & L2 & S1 & S2); auto.
      { intros u Hu. rewrite (i_len3 _ _ LI), (i_len4 _ _ LI).
        assert (In u (t_stk s)).
        { rewrite Lstk. rewrite in_app_iff in *. simpl in *. intuition. }
        assert (u < N) by (eapply vis_lt; eauto; eapply i_stkvis; eauto). auto. }
      rewrite Lstk, E. simpl.
      set (s' := MkTj (t_idx s) (t_low s) on' (t_stk s0) (t_cnt s) sc' (S (t_num s)) (t_rc s)).
      exists s'. split; auto.
      set (seg := new ++ [v]).
      assert (Hseg : forall u, In u (t_stk s) <-> In u seg \/ In u (t_stk s0)).
      { intros u. rewrite Lstk. unfold seg. rewrite !in_app_iff. simpl. tauto. }
      assert (Dis : forall u, In u seg -> ~ In u (t_stk s0)).
      { intros u Hu Hs. unfold seg in Hu. apply in_app_iff in Hu. destruct Hu as [Hu|[<-|[]]]; auto.
        apply Lnew in Hu. destruct Hu as [Hu _]. apply Hu. eapply i_stkvis; eauto. }
      assert (Segvis : forall u, In u seg -> vis s u).
      { intros u Hu. eapply i_stkvis; eauto. apply Hseg; auto. }
      (* edges out of the segment stay in the segment or go to finished nodes *)
      assert (Out : forall y w, In y seg -> sE y w -> In w seg \/ done s w).
      { intros y w Hy He.
        assert (Vw : vis s w).
        { unfold seg in Hy. apply in_app_iff in Hy. destruct Hy as [Hy|[<-|[]]].
          - eapply (i_bw _ _ LI y w); eauto.
            + apply Segvis. unfold seg; apply in_app_iff; auto.
            + intros [->|Hin]; [auto|]. apply (i_gs _ _ HI0) in Hin.
              apply (Dis y); auto. unfold seg; apply in_app_iff; auto.
          - apply Ev; auto. }
        destruct (in_dec Nat.eq_dec w (t_stk s)) as [Hs|Hs]; [|right; split; auto].
        apply Hseg in Hs. destruct Hs as [Hs|Hs]; auto. exfalso.
        assert (low s v <= ix s w).
        { unfold seg in Hy. apply in_app_iff in Hy. destruct Hy as [Hy|[<-|[]]]; eauto. apply Ev; auto. }
        pose proof (sorted_rest_lt s new v (t_stk s0) w HS Hs). lia. }
      (* v reaches the segment *)
      assert (VR : forall y, In y seg -> reach v y).
      { intros y Hy. apply (i_up _ _ LI); [left; auto|apply Hseg; auto|].
        unfold seg in Hy. apply in_app_iff in Hy. destruct Hy as [Hy|[<-|[]]]; auto.
        pose proof (sorted_app_lt s new v (t_stk s0) y HS Hy). lia. }
      (* the segment reaches v *)
      assert (RV : forall y, In y seg -> reach y v).
      { intros y Hy. destruct (i_down _ _ LI y) as (z & Hz & Hle & Hr); [apply Hseg; auto|].
        destruct Hz as [<-|Hz]; auto. exfalso.
        assert (Hzs : In z (t_stk s0)) by (eapply i_gs; eauto).
        destruct (rtc_leave sE seg y z Hr Hy) as (y' & w & Hy' & Hw & He & Hr').
        { intros Hin. apply (Dis z); auto. }
        destruct (Out y' w Hy' He) as [?|Hd]; auto.
        assert (Dz : done s z) by (eapply done_reach; eauto).
        destruct Dz as [_ Dz]. apply Dz. apply Hseg; auto. }
      assert (Dn : forall u, done s' u <-> In u seg \/ done s u).
      { intros u. unfold done, s'; simpl. change (vis _ u) with (vis s u). rewrite Hseg. split.
        - intros [H1 H2]. destruct (in_dec Nat.eq_dec u seg); auto. right. split; auto. tauto.
        - intros [Hu|[H1 H2]]; [|tauto]. split; [apply Segvis; auto|apply Dis; auto]. }
      assert (Sc : forall u, scc s' u = if in_dec Nat.eq_dec u seg then t_num s else scc s u).
      { intros u. unfold scc, s'; simpl. rewrite S2. auto. }
      assert (Dseg : forall u, done s u -> ~ In u seg).
      { intros u [_ H] Hin. apply H. apply Hseg; auto. }
      constructor.
      + constructor; try (simpl; rewrite ?L1, ?L2; apply LI).
        * change (t_stk s') with (t_stk s0). change (ix s') with (ix s). apply sorted_tail with (new := new ++ [v]).
          rewrite <- app_assoc. auto.
        * intros u. simpl. rewrite S1. fold seg. destruct (in_dec Nat.eq_dec u seg) as [i|i].
          -- split; [discriminate|]. intros Hs. exfalso. eapply Dis; eauto.
          -- rewrite (i_on _ _ LI), Hseg. tauto.
        * intros u Hu. change (vis s u). eapply i_stkvis; eauto. apply Hseg; auto.
        * apply (i_gsnd _ _ HI0).
        * apply (i_gs _ _ HI0).
        * intros u Hu. change (ix s') with (ix s). destruct (i_down _ _ HI0 u Hu) as (z & Hz & Hle & Hr).
          exists z. split; auto. split; auto. rewrite !(ext_ix _ _ _ LE); auto; eapply i_stkvis; eauto. eapply i_gs; eauto.
        * intros u z Hu Hz Hle. change (ix s') with (ix s) in Hle. apply (i_up _ _ LI); auto.
          -- right; auto.
          -- apply Hseg; auto.
        * intros u w Hu Hn He. change (vis s u) in Hu. change (vis s w).
          destruct (Nat.eq_dec u v) as [->|Nuv]; [apply Ev; auto|].
          eapply (i_bw _ _ LI u w); auto. intros [<-|Hin]; auto.
        * intros u w Hd He. apply Dn in Hd. apply Dn. destruct Hd as [Hd|Hd].
          -- eapply Out; eauto.
          -- right. eapply i_done; eauto.
        * intros u w Hu Hw. apply Dn in Hu. apply Dn in Hw. rewrite !Sc.
          destruct (in_dec Nat.eq_dec u seg) as [iu|iu], (in_dec Nat.eq_dec w seg) as [iw|iw].
          -- split; auto. intros _. split; (eapply rtc_trans; [apply RV|apply VR]); auto.
          -- destruct Hw as [?|Hw]; [contradiction|]. split.
             ++ intros E'. pose proof (i_num _ _ LI w Hw). lia.
             ++ intros [_ Hr]. exfalso. apply (Dseg u); auto. eapply done_reach; eauto.
          -- destruct Hu as [?|Hu]; [contradiction|]. split.
             ++ intros E'. pose proof (i_num _ _ LI u Hu). lia.
             ++ intros [Hr _]. exfalso. apply (Dseg w); auto. eapply done_reach; eauto.
          -- destruct Hu as [?|Hu]; [contradiction|]. destruct Hw as [?|Hw]; [contradiction|].
             apply (i_scc _ _ LI); auto.
        * intros u Hu. apply Dn in Hu. rewrite Sc. simpl. pose proof (i_num1 _ _ LI).
          destruct (in_dec Nat.eq_dec u seg); [lia|]. destruct Hu as [?|Hu]; [contradiction|].
          pose proof (i_num _ _ LI u Hu). lia.
        * intros n Hn. simpl in Hn. destruct (Nat.eq_dec n (t_num s)) as [->|Nn].
          -- exists v. assert (In v seg) by (unfold seg; apply in_app_iff; simpl; auto).
             split; [apply Dn; auto|]. rewrite Sc. destruct (in_dec Nat.eq_dec v seg); auto; contradiction.
          -- destruct (i_used _ _ LI n) as (u & Hd & Es); [lia|]. exists u. split; [apply Dn; auto|].
             rewrite Sc. destruct (in_dec Nat.eq_dec u seg); auto. exfalso. eapply Dseg; eauto.
        * intros u Hu. rewrite Dn in Hu. rewrite Sc. destruct (in_dec Nat.eq_dec u seg) as [i|i]; [tauto|].
          apply (i_undone _ _ LI). tauto.
        * simpl. lia.
      + destruct LE as [A1 A2 A3 A4 A5]. constructor; auto.
        exists []. split; [reflexivity|]. intros y Hy; inversion Hy.
      + exact Vv.
      + intros Hin. contradiction.
      + intros _. change (low s' v) with (low s v). lia.
      + intros y w Hy Hn. exfalso. apply Hn. eapply i_stkvis; eauto.
    - (* v stays on the stack *)
      exists s. split; auto.
      assert (Hlt : low s v < ix s v) by lia.
      destruct (i_down _ _ LI u0 Hu0) as (z0 & Hz0 & Hle0 & Hr0).
      destruct Hz0 as [<-|Hz0]; [exfalso; lia|].
      constructor; auto.
      + constructor; try apply LI.
        * apply (i_gsnd _ _ HI0).
        * intros u Hu. apply (i_gs _ _ LI). right; auto.
        * intros y Hy. destruct (i_down _ _ LI y Hy) as (z & Hz & Hle & Hr). destruct Hz as [<-|Hz]; eauto.
          exists z0. split; auto. split; [lia|]. eapply rtc_trans; eauto. eapply rtc_trans; eauto.
        * intros u z Hu. apply (i_up _ _ LI). right; auto.
        * intros u w Hu Hn He. destruct (Nat.eq_dec u v) as [->|Nuv]; [apply Ev; auto|].
          eapply (i_bw _ _ LI u w); auto. intros [<-|Hin]; auto.
      + intros _. exists u0. auto.
      + intros Hin. exfalso. apply Hin. rewrite Lstk. apply in_app_iff; right; left; auto.
      + intros y w Hy Hn He Hw. rewrite Lstk in Hy. apply in_app_iff in Hy. destruct Hy as [Hy|[<-|Hy]]; eauto.
        * apply Ev; auto.
        * exfalso. apply Hn. eapply i_stkvis; eauto.
  Qed.

  (** ** The recursive procedure *)
  Lemma strongconnect_ok : forall fuel gs s v, N < fuel + length gs ->
    Inv gs s -> X v -> ~ vis s v -> (forall u, In u gs -> reach u v) ->
    exists s', strongconnect fuel g rnd sub s v = Ok s' /\ Post s v gs s'.
  Proof.
    induction fuel as [|f IH]; intros gs s v Hf HI Xv Nv Hgr.
    - exfalso. assert (length gs <= length (seq 0 N)).
      { apply NoDup_incl_length; [apply (i_gsnd _ _ HI)|]. intros u Hu. apply in_seq. split; [lia|].
        simpl. eapply vis_lt; eauto. eapply i_stkvis; eauto. eapply i_gs; eauto. }
      rewrite seq_length in H. lia.
    - assert (Hv : v < N) by auto. simpl.
      destruct (nth_error g v) as [nd|] eqn:En.
      2:{ apply nth_error_None in En. unfold N in Hv. lia. }
      apply (nth_error_nth_eq _ _ _ node0) in En. subst nd.
      destruct (bad_actions rnd sub (succs (nth v g node0)) (t_rc s)) as [bad rc] eqn:Eb.
      pose proof (bad_actions_spec _ _ _ _ Eb) as Hbad.
      set (s1 := MkTj _ _ _ _ _ _ _ rc).
      assert (HI1 : Inv (v :: gs) s1).
      { apply Inv_ext with (s := enter s v); auto. apply enter_inv; auto. }
      assert (Eidx : forall u, idx s1 u = if v =? u then Some (t_cnt s) else idx s u).
      { intros u. change (idx s1 u) with (idx (enter s v) u). eapply enter_idx; eauto. }
      assert (Elow : forall u, low s1 u = if v =? u then t_cnt s else low s u).
      { intros u. unfold low, s1, enter; simpl. rewrite nth_upd, (i_len2 _ _ HI).
        destruct (Nat.eqb_spec v u); simpl; auto. subst. destruct (Nat.ltb_spec u N); auto; lia. }
      assert (Vs : forall u, vis s u -> (v =? u) = false).
      { intros u Hu. apply Nat.eqb_neq. intros ->; auto. }
      assert (HL : Loop s v gs [] s1).
      { constructor.
        - exact HI1.
        - constructor.
          + intros u Hu. rewrite Eidx, Vs; auto.
          + intros u Hu. rewrite Elow, Vs; auto.
          + intros u Hu Hn. unfold ix. unfold vis in Hu, Hn. rewrite Eidx in *. destruct (v =? u); auto.
            contradiction.
          + simpl. lia.
          + exists [v]. split; auto. intros y [<-|[]]; auto.
        - rewrite Eidx, Nat.eqb_refl. auto.
        - exists []. split; auto. split; intros; contradiction.
        - unfold ix. rewrite Elow, Eidx, Nat.eqb_refl. auto.
        - exists v. split; [left; auto|]. unfold ix. rewrite Elow, Eidx, Nat.eqb_refl. split; auto. constructor.
        - intros x []. }
      assert (G : exists s2, foldM (visit_succ (strongconnect f g rnd sub) bad v) (succs (nth v g node0)) s1 = Ok s2 /\
                   Loop s v gs (succs (nth v g node0)) s2).
      { apply foldM_ok with (I := Loop s v gs); auto.
        intros pre x s3 HL3 (post & Hp). apply step_ok; auto.
        - rewrite Hp. apply in_app_iff; right; left; auto.
        - intros s4 w HI4 Xw Nw Hr. apply IH; auto. simpl. lia. }
      destruct G as (s2 & E2 & HL2). simpl in E2. rewrite E2. simpl.
      apply leave_ok; auto.
  Qed.

  (** ** The whole computation *)
  Lemma init_inv : forall rc, Inv [] (scc_init N rc).
  Proof.
    intros rc.
    assert (NV : forall v, ~ vis (scc_init N rc) v).
    { intros v H. apply H. unfold idx; simpl. apply nth_repeat. }
    constructor; simpl; try apply repeat_length; try (intros; exfalso; eapply NV; eauto; fail).
    - constructor.
    - intros v. rewrite nth_repeat. split; [discriminate|contradiction].
    - intros v [].
    - constructor.
    - intros v [].
    - intros v [].
    - intros u v [].
    - intros v w [H _]; exfalso; eapply NV; eauto.
    - intros v w [H _]; exfalso; eapply NV; eauto.
    - intros v [H _]; exfalso; eapply NV; eauto.
    - intros n H; lia.
    - intros v _. unfold scc; simpl. apply nth_repeat.
    - lia.
  Qed.

  Lemma inv_nil_stk : forall s, Inv [] s -> t_stk s = [].
  Proof.
    intros s HI. destruct (t_stk s) as [|u r] eqn:E; auto. exfalso.
    destruct (i_down _ _ HI u) as (z & [] & _). rewrite E; left; auto.
  Qed.

  Hypothesis Hsized : sized sub.

  Lemma strongly_connected_ok : forall rc, exists sccs k rc',
    strongly_connected g rnd rc sub = Ok (sccs, k, rc') /\ length sccs = N /\
    (forall u v, X u -> X v -> (nth u sccs 0 = nth v sccs 0 <-> mutual sE u v)) /\
    (forall u, X u -> 1 <= nth u sccs 0 <= k) /\
    (forall n, 1 <= n <= k -> exists u, X u /\ nth u sccs 0 = n) /\
    (forall u, ~ X u -> nth u sccs 0 = 0).
  Proof.
    intros rc. unfold strongly_connected. fold N.
    rewrite treap_to_arr_spec; auto.
    2:{ rewrite repeat_length, tsize_sized; auto. }
    cbn [bind].
    destruct (foldM_ok _ _ (fun s v => match nth_error (t_idx s) v with
              | None => Err OutOfBounds
              | Some None => strongconnect (S N) g rnd sub s v
              | Some (Some _) => Ok s end)
      (fun pre s => Inv [] s /\ forall v, In v pre -> vis s v) (elems sub) (scc_init N rc)) as (s & E & HI & HV).
    - split; [apply init_inv|]. intros v [].
    - intros pre v s [HI HV] (post & Hp).
      assert (Xv : X v) by (unfold X; rewrite Hp; apply in_app_iff; right; left; auto).
      assert (Hv : v < N) by auto.
      destruct (nth_error (t_idx s) v) as [ov|] eqn:Ev.
      2:{ apply nth_error_None in Ev. rewrite (i_len1 _ _ HI) in Ev. lia. }
      apply (nth_error_nth_eq _ _ _ None) in Ev. fold (idx s v) in Ev.
      destruct ov as [i|].
      + exists s. split; auto. split; auto. intros u Hu. apply in_app_iff in Hu.
        destruct Hu as [Hu|[<-|[]]]; auto. unfold vis; congruence.
      + destruct (strongconnect_ok (S N) [] s v) as (s' & E' & HP); auto.
        * simpl. lia.
        * intros u [].
        * exists s'. split; auto. destruct HP as [PI PE PV _ _ _]. split; auto.
          intros u Hu. apply in_app_iff in Hu. destruct Hu as [Hu|[<-|[]]]; auto.
          eapply ext_vis; eauto.
    - rewrite E. simpl. pose proof (inv_nil_stk s HI) as Hstk.
      assert (HD : forall u, done s u <-> X u).
      { intros u. unfold done. rewrite Hstk. split.
        - intros [H _]. apply (i_X _ _ HI); auto.
        - intros H. split; auto. }
      do 3 eexists. split; [reflexivity|]. split; [apply (i_len4 _ _ HI)|]. pose proof (i_num1 _ _ HI).
      split; [|split; [|split]].
      + intros u v Hu Hv. apply (i_scc _ _ HI); apply HD; auto.
      + intros u Hu. pose proof (i_num _ _ HI u (proj2 (HD u) Hu)). unfold scc in H0. lia.
      + intros n Hn. destruct (i_used _ _ HI n) as (u & Hd & Es); [lia|]. exists u. split; [apply HD|]; auto.
      + intros u Hu. apply (i_undone _ _ HI). rewrite HD. auto.
  Qed.
End Tarjan.
