(** Proofs about the tree decomposition with a single part. *)
From Coq Require Import String List Arith ZArith QArith Qreals Reals Bool Lia Lqa.
From Verif Require Import Base BaseFacts Num Matrix MatFacts SccSpec SpecMdp SpecEc SpecSystem SpecForm SpecBuilt SpecProb SpecSub SpecMilp SpecTree SpecTreeMin
  SumFacts MdpValue RfTheory SubTheory Amdp AmdpProofs ReachForm ReachFormProofs RfFacts FarkProofs BuiltFacts RfBridge SubProofs1 MilpExact ChainTheory Tree TreeProofs TreeDecomp.
Import ListNotations.
Local Open Scope nat_scope.

(** ** Lists *)
Lemma mem_In : forall l v, mem l v = true <-> In v l.
Proof.
  intros l v. unfold mem. rewrite existsb_exists. split; [intros (x & H & E); apply Nat.eqb_eq in E; subst; auto|intros H; exists v; split; auto; apply Nat.eqb_refl].
Qed.

Lemma filter_ext_in' : forall (A : Type) (f g : A -> bool) l, (forall x, In x l -> f x = g x) -> filter f l = filter g l.
Proof. intros. apply filter_ext_in. auto. Qed.

Lemma filter_none : forall (A : Type) (f : A -> bool) l, (forall x, In x l -> f x = false) -> filter f l = [].
Proof. intros A f l H. induction l as [|a l IH]; [auto|]. simpl. rewrite (H a) by (left; auto). apply IH. intros x Hx. apply H. right; auto. Qed.

Lemma filter_all : forall (A : Type) (f : A -> bool) l, (forall x, In x l -> f x = true) -> filter f l = l.
Proof. intros A f l H. induction l as [|a l IH]; [auto|]. simpl. rewrite (H a) by (left; auto). f_equal. apply IH. intros x Hx. apply H. right; auto. Qed.

Lemma subsets_iff : forall l s, NoDup l -> In s (subsets l) <-> s = filter (mem s) l.
Proof.
  induction l as [|a l IH]; intros s ND; simpl; [split; [intros [<-|[]]; auto|auto]|]. inversion ND as [|? ? NI ND']; subst.
  assert (SUB : forall u, In u (subsets l) -> forall x, In x u -> In x l).
  { intros u Hu x Hx. apply IH in Hu; auto. rewrite Hu in Hx. apply filter_In in Hx. tauto. }
  rewrite in_app_iff, in_map_iff. split.
  - intros [H|(u & <- & H)].
    + assert (N : mem s a = false). { destruct (mem s a) eqn:E; auto. apply mem_In in E. exfalso. apply NI. eapply SUB; eauto. }
      rewrite N. apply IH; auto.
    + assert (E : mem (a :: u) a = true) by (apply mem_In; left; auto). rewrite E. f_equal. apply IH in H; auto. rewrite H at 1.
      apply filter_ext_in. intros x Hx. unfold mem. simpl. destruct (Nat.eqb_spec x a) as [->|]; [contradiction|reflexivity].
  - destruct (mem s a) eqn:E; intros H; [|left; apply IH; auto].
    right. exists (filter (mem s) l). split; [auto|]. apply IH; auto. apply filter_ext_in. intros x Hx.
    destruct (mem s x) eqn:Ex.
    + symmetry. apply mem_In. apply filter_In. auto.
    + destruct (mem (filter (mem s) l) x) eqn:E2; auto. apply mem_In in E2. apply filter_In in E2. destruct E2 as [_ E2]. congruence.
Qed.

Lemma filter_mem_filter : forall (k : nat -> bool) l, filter (mem (filter k l)) l = filter k l.
Proof.
  intros k l. apply filter_ext_in. intros x Hx. destruct (k x) eqn:E; [apply mem_In, filter_In; auto|].
  destruct (mem (filter k l) x) eqn:E2; auto. apply mem_In, filter_In in E2. destruct E2. congruence.
Qed.

Lemma as_fun : forall (l : list nat) (x : list Q), NoDup l -> length x = length l -> exists f, x = map f l.
Proof.
  induction l as [|a l IH]; intros [|q x] ND L; try discriminate; [exists (fun _ => 0%Q); auto|].
  inversion ND as [|? ? NI ND']; subst. destruct (IH x ND') as (f & ->); [simpl in L; lia|].
  exists (fun s => if s =? a then q else f s). simpl. rewrite Nat.eqb_refl. f_equal. apply map_ext_in. intros s Hs.
  destruct (Nat.eqb_spec s a) as [->|]; [contradiction|auto].
Qed.

Lemma combine_map : forall (A B : Type) (f : A -> B) l, combine l (map f l) = map (fun s => (s, f s)) l.
Proof. intros A B f l. induction l as [|a l IH]; simpl; [auto|]. f_equal. auto. Qed.

Lemma combine_map2 : forall (A B C : Type) (f : A -> B) (g : A -> C) l, combine (map f l) (map g l) = map (fun s => (f s, g s)) l.
Proof. intros A B C f g l. induction l as [|a l IH]; simpl; [auto|]. f_equal. auto. Qed.

Lemma filter_map : forall (A B : Type) (f : A -> B) (p : B -> bool) l, filter p (map f l) = map f (filter (fun a => p (f a)) l).
Proof. intros A B f p l. induction l as [|a l IH]; simpl; [auto|]. destruct (p (f a)); simpl; rewrite IH; auto. Qed.

Lemma filter_single : forall (p : nat -> bool) l v, NoDup l -> In v l -> (forall s, In s l -> p s = (v =? s)) -> filter p l = [v].
Proof.
  intros p l v ND. revert v. induction ND as [|a l NI ND IH]; intros v Hv Hp; [destruct Hv|]. simpl. rewrite (Hp a) by (left; auto).
  destruct (Nat.eqb_spec v a) as [->|NE].
  - f_equal. apply filter_none. intros x Hx. rewrite Hp by (right; auto). apply Nat.eqb_neq. intros ->. contradiction.
  - destruct Hv as [->|Hv]; [congruence|]. apply IH; auto. intros s Hs. apply Hp. right; auto.
Qed.

(** ** The system *)
Section TreeMin.
  Variable rf : rform.
  Hypothesis BF : built_form rf.
  Hypothesis EX : exact_rows (a_P (rf_sys rf)).
  Hypothesis KD : a_kind (rf_sys rf) = KDtmc.
  Hypothesis RS : row_is_state (rf_sys rf).
  Let m := rf_sys rf.
  Let P := a_P m.
  Let n := a_N m - 2.
  Let init := rf_init rf.
  Hypothesis INIT : init < n.
  Let M := form_mdp rf.
  Let RF : rf_mdp M init := br_rf rf BF EX.
  Let SH : shape_mdp M := proj1 RF.

  Lemma tm_CN : a_C m = a_N m.
  Proof. destruct (built_form_ok rf BF) as (RO & _). pose proof (br_ok rf BF) as SO.
    destruct BF as (rnd & m0 & il & tl & fl & HB & HR). destruct (mk_rf_ok _ _ _ _ _ _ _ (built_ok _ HB) HR) as (_ & E & _).
    destruct (built_facts m0 HB) as (_ & _ & K). unfold m in *. rewrite E in *. apply K. auto. Qed.
  Lemma tm_SQ : nA M = nS M. Proof. exact tm_CN. Qed.
  Lemma tm_ROW : forall r, (r < nS M - 2)%nat -> src M r = r.
  Proof. intros r Hr. apply (br_src rf r r 0). apply RS. change (nS M) with (a_N m) in Hr. unfold m in *. lia. Qed.
  Lemma tm_C : rf_C rf = n. Proof. unfold rf_C, n. fold m. rewrite tm_CN. reflexivity. Qed.
  Lemma tm_N : rf_N rf = n. Proof. reflexivity. Qed.
  Lemma tm_wf : wf_mat P. Proof. apply (ok_wf m (br_ok rf BF)). Qed.

  Lemma filt_wf : wf_mat (rf_P rf).
  Proof.
    pose proof tm_wf as (W1 & W2). unfold rf_P. split; cbn [mitems mrows mcols].
    - clear W2. fold m. fold P. induction (mitems P) as [|e l IH]; [constructor|]. cbn [filter map] in *. inversion W1; subst.
      destruct ((fst (fst e) <? rf_C rf) && (snd (fst e) <? rf_N rf)); [|apply IH; auto]. cbn [map]. constructor; [|apply IH; auto].
      intros H. apply H1. apply in_map_iff in H. destruct H as (f & E & Hf). apply filter_In in Hf. rewrite <- E. apply in_map. tauto.
    - intros i d p H. apply filter_In in H. destruct H as [H1 H2]. cbn [fst snd] in H2. apply andb_prop in H2. destruct H2 as [A B].
      apply Nat.ltb_lt in A. apply Nat.ltb_lt in B. split; [auto|split; [auto|]]. eapply W2; eauto.
  Qed.

  Lemma filt_in : forall u v p, In ((u, v), p) (mitems (rf_P rf)) <-> u < n /\ v < n /\ In ((u, v), p) (mitems P).
  Proof.
    intros u v p. unfold rf_P. cbn [mitems]. rewrite filter_In. cbn [fst snd]. rewrite tm_C, tm_N, andb_true_iff, !Nat.ltb_lt. fold m. fold P. tauto.
  Qed.

  Lemma mget_same : forall A B i d i' d', wf_mat A -> wf_mat B -> (forall p, In ((i, d), p) (mitems A) <-> In ((i', d'), p) (mitems B)) -> mget A i d = mget B i' d'.
  Proof.
    intros A B i d i' d' WA WB H. unfold mget. destruct (dget pair_eqb (mitems A) (i, d)) as [q|] eqn:E.
    - apply (dget_In pair_eqb pair_eqbP) in E. apply H in E. rewrite (In_dget pair_eqb pair_eqbP _ _ _ (proj1 WB) E). reflexivity.
    - destruct (dget pair_eqb (mitems B) (i', d')) as [q|] eqn:E'; [|auto]. apply (dget_In pair_eqb pair_eqbP) in E'. apply H in E'.
      rewrite (In_dget pair_eqb pair_eqbP _ _ _ (proj1 WA) E') in E. discriminate.
  Qed.

  Lemma filt_get : forall u v, u < n -> v < n -> mget (rf_P rf) u v = mget P u v.
  Proof. intros u v Hu Hv. apply mget_same; [apply filt_wf|apply tm_wf|]. intros p. rewrite filt_in. tauto. Qed.

  Lemma leads_in : forall u v, leads m u v <-> exists p, In ((u, v), p) (mitems P).
  Proof. intros u v. apply (mget_pos P (a_idx m) (a_rew m) (br_valid rf BF) (br_proper rf BF EX)). Qed.

  Let es := map fst (mitems (rf_P rf)).
  Lemma es_in : forall u v, In (u, v) es <-> u < n /\ v < n /\ leads m u v.
  Proof.
    intros u v. unfold es. rewrite leads_in. split.
    - intros H. apply in_map_iff in H. destruct H as ([[a b] p] & E & H). simpl in E. inversion E; subst. apply filt_in in H. destruct H as (A & B & C). eauto.
    - intros (A & B & p & C). apply in_map_iff. exists ((u, v), p). split; [auto|]. apply filt_in. auto.
  Qed.

  Lemma tm_graph : underlying_graph (rf_P rf) = Ok (n, es).
  Proof.
    unfold underlying_graph. change (mcols (rf_P rf)) with n. assert (E : mapM (fun e : (nat * nat) * Q => if fst (fst e) <? n then Ok (fst e) else Err ValueError) (mitems (rf_P rf)) = Ok es).
    { unfold es. assert (G : forall e, In e (mitems (rf_P rf)) -> fst (fst e) < n) by (intros [[u v] p] H; apply filt_in in H; tauto).
      revert G. induction (mitems (rf_P rf)) as [|e l IH]; intros G; [reflexivity|]. simpl.
      rewrite (proj2 (Nat.ltb_lt _ _) (G e (or_introl eq_refl))). cbn [bind]. rewrite IH; [reflexivity|]. intros f Hf. apply G. right; auto. }
    rewrite E. reflexivity.
  Qed.

  Lemma tm_quotient : exists lab itf, quotient (n, es) [seq 0 n] = Ok ([], lab, itf) /\ (forall v, v < n -> nth v lab 0 = 0) /\ (forall v, v < n -> nth v itf false = false).
  Proof.
    destruct (C53_lemma (rf_P rf) [seq 0 n]) as (G & qe & lab & itf & E1 & E2 & _ & _ & _ & HL & HQ & HB & HI).
    - apply filt_wf.
    - change (mrows (rf_P rf)) with (rf_C rf). rewrite tm_C. reflexivity.
    - change (mcols (rf_P rf)) with n. split.
      + intros i p v E Hv. destruct i as [|[|]]; simpl in E; inversion E; subst. apply in_seq in Hv. lia.
      + intros v Hv. exists 0, (seq 0 n). split; [auto|]. split; [apply in_seq; lia|]. intros [|[|j]] p' E _; auto; discriminate.
    - rewrite tm_graph in E1. inversion E1; subst G. exists lab, itf. change (mcols (rf_P rf)) with n in *.
      assert (Q0 : qe = []).
      { destruct qe as [|[i j] qe]; [auto|]. exfalso. destruct (HB i j (or_introl eq_refl)) as [Hi Hj]. simpl in Hi, Hj.
        assert (i = 0) by lia. assert (j = 0) by lia. subst. destruct (proj1 (HQ 0 0 _ _ eq_refl eq_refl) (or_introl eq_refl)) as [H _]. congruence. }
      subst qe. split; [exact E2|]. split.
      + intros v Hv. apply (HL v 0 (seq 0 n) Hv eq_refl). apply in_seq. lia.
      + intros v Hv. destruct (nth v itf false) eqn:E; auto. exfalso. apply (HI v 0 (seq 0 n) eq_refl) in E; [|apply in_seq; lia].
        destruct E as (u & NU & NZ). apply mget_nonzero in NZ. apply filt_in in NZ. apply NU. apply in_seq. lia.
  Qed.

  (** The part. *)
  Variable lab : list nat.
  Variable itf : list bool.
  Hypothesis LAB : forall v, v < n -> nth v lab 0 = 0.
  Hypothesis ITF : forall v, v < n -> nth v itf false = false.
  Let pv := partition_graph (n, es) 0 [] lab itf rf.

  Lemma pv_vs_eq : pv_vs pv = seq 0 n.
  Proof. unfold pv, partition_graph. cbn [pv_vs fst]. apply filter_all. intros v Hv. apply in_seq in Hv. rewrite LAB by lia. reflexivity. Qed.
  Lemma pv_in_eq : forall v, v < n -> pv_in pv v = (init =? v).
  Proof. intros v Hv. unfold pv, partition_graph. cbn [pv_in]. rewrite ITF by auto. reflexivity. Qed.
  Lemma pv_out_eq : forall v, v < n -> pv_out pv v = false.
  Proof. intros v Hv. unfold pv, partition_graph. cbn [pv_out]. rewrite ITF by auto. reflexivity. Qed.
  Lemma tt_get : forall v, v < n -> nth v (rf_to_target rf) 0%Q = mget P v n.
  Proof.
    intros v Hv. rewrite (ro_tt rf (br_ro rf BF)). rewrite tm_C, tm_N. rewrite (nth_indep _ 0%Q (mget (a_P (rf_sys rf)) 0 n)) by (rewrite map_length, seq_length; auto).
    rewrite (map_nth (fun i => mget (a_P (rf_sys rf)) i n)), seq_nth by auto. reflexivity.
  Qed.
  Lemma Qlt_bool_iff' : forall a b, Qlt_bool a b = true <-> (a < b)%Q.
  Proof.
    intros a b. unfold Qlt_bool. rewrite negb_true_iff. split; intros H.
    - destruct (Qlt_le_dec a b); auto. apply Qle_bool_iff in q. congruence.
    - destruct (Qle_bool b a) eqn:E; auto. apply Qle_bool_iff in E. exfalso. exact (Qlt_not_le _ _ H E).
  Qed.
  Lemma pv_target_eq : forall v, v < n -> (pv_target pv v = true <-> leads m v n).
  Proof.
    intros v Hv. unfold pv, partition_graph. cbn [pv_target]. rewrite tt_get by auto. rewrite orb_true_iff, Qlt_bool_iff'. split; [|auto].
    intros [H|H]; [exact H|]. exfalso. apply existsb_exists in H. destruct H as (i & Hi & E). unfold out_nb in Hi. apply filter_In in Hi. destruct Hi as [_ Hi].
    apply mem_In in Hi. apply filter_In in Hi. destruct Hi as [Hi _]. apply in_seq in Hi. cbn [fst] in Hi. rewrite ITF in E by lia. discriminate.
  Qed.

  Lemma out_nb_in : forall u v, In v (out_nb es (seq 0 n) u) <-> v < n /\ u < n /\ leads m u v.
  Proof.
    intros u v. unfold out_nb. rewrite filter_In. rewrite (mem_In (seq 0 n) v), in_seq, in_map_iff. split.
    - intros (((a & b) & E & H) & Hv). apply filter_In in H. destruct H as [H E']. cbn [fst snd] in *. apply Nat.eqb_eq in E'. subst. apply es_in in H. intuition lia.
    - intros (Hv & Hu & H). split; [|lia]. exists (u, v). split; [auto|]. apply filter_In. split; [apply es_in; auto|apply Nat.eqb_refl].
  Qed.
  Lemma in_nb_in : forall v u, In u (in_nb es (seq 0 n) v) <-> v < n /\ u < n /\ leads m u v.
  Proof.
    intros v u. unfold in_nb. rewrite filter_In. rewrite (mem_In (seq 0 n) u), in_seq, in_map_iff. split.
    - intros (((a & b) & E & H) & Hv). apply filter_In in H. destruct H as [H E']. cbn [fst snd] in *. apply Nat.eqb_eq in E'. subst. apply es_in in H. intuition lia.
    - intros (Hv & Hu & H). split; [|lia]. exists (u, v). split; [auto|]. apply filter_In. split; [apply es_in; auto|apply Nat.eqb_refl].
  Qed.

  (** ** The formula *)
  Let f := subsys_formula es pv.

  Lemma clause_in : forall c, In c f <->
    (exists i, i < n /\ c = Imp i (out_nb es (seq 0 n) i) /\ pv_target pv i = false) \/
    (exists i, i < n /\ c = Imp i (in_nb es (seq 0 n) i) /\ i <> init) \/
    c = Some_of [init] \/ c = Some_of (filter (pv_target pv) (seq 0 n)).
  Proof.
    intros c. unfold f, subsys_formula. rewrite pv_vs_eq. rewrite in_app_iff, in_flat_map.
    assert (E1 : filter (pv_out pv) (seq 0 n) = []) by (apply filter_none; intros x Hx; apply in_seq in Hx; apply pv_out_eq; lia).
    assert (E2 : filter (pv_in pv) (seq 0 n) = [init]).
    { apply filter_single; [apply seq_NoDup|apply in_seq; lia|]. intros s Hs. apply in_seq in Hs. apply pv_in_eq. lia. }
    rewrite E1, E2. rewrite app_nil_r. split.
    - intros [(i & Hi & H)|H].
      + apply in_seq in Hi. rewrite pv_out_eq, pv_in_eq in H by lia. destruct (Nat.eqb_spec init i) as [<-|NE].
        * destruct (pv_target pv init) eqn:T; simpl in H; [destruct H|]. destruct H as [<-|[]]. left. exists init. auto.
        * destruct (pv_target pv i) eqn:T; simpl in H; [destruct H as [<-|[]]|destruct H as [<-|[<-|[]]]].
          -- right; left. exists i. split; [lia|auto].
          -- left. exists i. split; [lia|auto].
          -- right; left. exists i. split; [lia|auto].
      + simpl in H. destruct H as [<-|[<-|[]]]; auto.
    - intros [(i & Hi & -> & T)|[(i & Hi & -> & NE)|[->| ->]]].
      + left. exists i. split; [apply in_seq; lia|]. rewrite pv_out_eq, T by auto. destruct (pv_in pv i); left; auto.
      + left. exists i. split; [apply in_seq; lia|]. rewrite pv_out_eq, pv_in_eq by auto. destruct (Nat.eqb_spec init i); [congruence|]. destruct (pv_target pv i); simpl; auto.
      + right. simpl. auto.
      + right. simpl. auto.
  Qed.

  Lemma sat_iff : forall x, sat_formula x f = true <-> plausible rf x.
  Proof.
    intros x. unfold sat_formula. rewrite forallb_forall. unfold plausible. fold m. fold n. fold init. split.
    - intros H. split.
      { specialize (H (Some_of [init])). simpl in H. rewrite orb_false_r in H. apply H. apply clause_in. auto. }
      split.
      { assert (S : sat_clause x (Some_of (filter (pv_target pv) (seq 0 n))) = true) by (apply H, clause_in; auto). simpl in S.
        apply existsb_exists in S. destruct S as (u & Hu & E). apply filter_In in Hu. destruct Hu as [Hu T]. apply in_seq in Hu. exists u. split; [lia|]. split; [auto|]. apply pv_target_eq; auto. lia. }
      split.
      { intros v Hv K NE. assert (S : sat_clause x (Imp v (in_nb es (seq 0 n) v)) = true) by (apply H, clause_in; right; left; exists v; auto). simpl in S.
        rewrite K in S. simpl in S. apply existsb_exists in S. destruct S as (u & Hu & E). apply in_nb_in in Hu. exists u. tauto. }
      intros u Hu K. destruct (pv_target pv u) eqn:T; [left; apply pv_target_eq; auto|right].
      assert (S : sat_clause x (Imp u (out_nb es (seq 0 n) u)) = true) by (apply H, clause_in; left; exists u; auto). simpl in S.
      rewrite K in S. simpl in S. apply existsb_exists in S. destruct S as (v & Hv & E). apply out_nb_in in Hv. exists v. tauto.
    - intros (A & (u & Hu & Ku & Lu) & C & D) c Hc. apply clause_in in Hc. destruct Hc as [(i & Hi & -> & T)|[(i & Hi & -> & NE)|[->| ->]]]; simpl.
      + destruct (x i) eqn:K; [|auto]. simpl. destruct (D i Hi K) as [L|(v & Hv & Kv & L)]; [apply pv_target_eq in L; auto; congruence|].
        apply existsb_exists. exists v. split; [apply out_nb_in; auto|auto].
      + destruct (x i) eqn:K; [|auto]. simpl. destruct (C i Hi K NE) as (w & Hw & Kw & L). apply existsb_exists. exists w. split; [apply in_nb_in; auto|auto].
      + rewrite A. auto.
      + apply existsb_exists. exists u. split; [|auto]. apply filter_In. split; [apply in_seq; lia|]. apply pv_target_eq; auto.
  Qed.

  (** The whole system is plausible. *)
  Lemma medge_leads : forall u v, u < n -> medge M u v -> leads m u v.
  Proof.
    intros u v Hu (r & Hr & E & Hd & Hp). assert (r = u) by (apply (ch_row M init RF tm_SQ tm_ROW u r); auto). subst r.
    unfold leads. apply Rlt_Qlt. rewrite RMicromega.Q2R_0. exact Hp.
  Qed.

  Lemma step_out : forall u, u < n -> leads m u n \/ exists v, v < n /\ leads m u v.
  Proof.
    intros u Hu. pose proof RF as (_ & _ & RG). pose proof (RF2 M SH) as N2.
    assert (R : rtc (medge M) u (goal M)) by (apply RG; [change (nS M) with (a_N m); unfold n in Hu; lia|unfold fail; change (nS M) with (a_N m); unfold n in Hu; lia]).
    inversion R as [|? w ? Huw Hw]; subst; [unfold goal in Hu; change (nS M) with (a_N m) in Hu; unfold n in Hu; lia|].
    pose proof (medge_leads u w Hu Huw) as L. assert (Hwn : w < nS M) by (destruct Huw as (r & ? & ? & ? & ?); auto).
    destruct (state_cases M SH w Hwn) as [H|[->| ->]]; [right; exists w; split; auto|left; exact L|].
    exfalso. pose proof (fail_absorbing M SH _ Hw) as F. unfold goal, fail in F. change (nS M) with (a_N m) in *. unfold n in INIT. lia.
  Qed.

  Lemma reach_goal_step : forall a b, rtc (medge M) a b -> b = goal M -> a < n -> exists u, u < n /\ leads m u n.
  Proof.
    intros a b R. induction R as [|a c b Hac Hcb IH]; intros E Ha.
    - subst. unfold goal in Ha. change (nS M) with (a_N m) in Ha. unfold n in Ha. lia.
    - pose proof (medge_leads a c Ha Hac) as L. assert (Hc : c < nS M) by (destruct Hac as (r & ? & ? & ? & ?); auto).
      destruct (state_cases M SH c Hc) as [H|[->| ->]]; [apply IH; auto|exists a; split; auto|].
      subst b. pose proof (fail_absorbing M SH _ Hcb) as F. unfold goal, fail in F. change (nS M) with (a_N m) in *. unfold n in Ha. lia.
  Qed.
  Lemma some_target : exists u, u < n /\ leads m u n.
  Proof.
    apply (reach_goal_step init (goal M)); auto. pose proof RF as (_ & _ & RG). apply RG.
    - change (nS M) with (a_N m). unfold n in INIT. lia.
    - unfold fail. change (nS M) with (a_N m). unfold n in INIT. lia.
  Qed.

  Lemma rtc_last : forall (E : nat -> nat -> Prop) a b, rtc E a b -> a = b \/ exists c, E c b.
  Proof. intros E a b R. induction R as [|a c b Hac Hcb IH]; [auto|]. right. destruct IH as [<-|(d & Hd)]; eauto. Qed.

  Lemma step_in : forall v, v < n -> v <> init -> exists u, u < n /\ leads m u v.
  Proof.
    intros v Hv NE. pose proof RF as (_ & RI & _). assert (R : rtc (medge M) init v).
    { apply RI; [change (nS M) with (a_N m); unfold n in Hv; lia|unfold fail; change (nS M) with (a_N m); unfold n in Hv; lia]. }
    destruct (rtc_last _ _ _ R) as [E|(c & Hc)]; [congruence|]. assert (Hcn : c < nS M).
    { destruct Hc as (r & Hr & <- & _). apply (W_src M (RFW M SH)). auto. }
    destruct (state_cases M SH c Hcn) as [H|[->| ->]].
    - exists c. split; [auto|]. apply medge_leads; auto.
    - pose proof (goal_absorbing M SH v (rtc_one _ _ _ _ Hc)) as F. unfold goal in F. change (nS M) with (a_N m) in F. unfold n in Hv. lia.
    - pose proof (fail_absorbing M SH v (rtc_one _ _ _ _ Hc)) as F. unfold fail in F. change (nS M) with (a_N m) in F. unfold n in Hv. lia.
  Qed.

  Lemma all_plausible : plausible rf (fun _ => true).
  Proof.
    split; [auto|]. split; [destruct some_target as (u & A & B); exists u; auto|]. split.
    - intros v Hv _ NE. destruct (step_in v Hv NE) as (u & A & B). exists u. auto.
    - intros u Hu _. destruct (step_out u Hu) as [A|(v & A & B)]; [auto|right; exists v; auto].
  Qed.

  Lemma f_wf : forallb well_formed f = true.
  Proof.
    apply forallb_forall. intros c Hc. assert (NE : forall (l : list nat) x, In x l -> negb (length l =? 0) = true) by (intros [|y l] x H; [destruct H|reflexivity]).
    apply clause_in in Hc. destruct Hc as [(i & Hi & -> & T)|[(i & Hi & -> & NI)|[->| ->]]]; cbn [well_formed].
    - destruct (step_out i Hi) as [L|(v & Hv & L)]; [apply pv_target_eq in L; auto; congruence|]. apply (NE _ v). apply out_nb_in. auto.
    - destruct (step_in i Hi NI) as (u & Hu & L). apply (NE _ u). apply in_nb_in. auto.
    - reflexivity.
    - destruct some_target as (u & Hu & L). apply (NE _ u). apply filter_In. split; [apply in_seq; lia|apply pv_target_eq; auto].
  Qed.

  (** ** Models *)
  Lemma plausible_ext : forall k k', (forall v, v < n -> k v = k' v) -> plausible rf k -> plausible rf k'.
  Proof.
    intros k k' E (A & (u & B1 & B2 & B3) & C & D). split; [rewrite <- E; auto|]. split; [exists u; rewrite <- E by auto; auto|]. split.
    - intros v Hv K NE. rewrite <- E in K by auto. destruct (C v Hv K NE) as (w & W1 & W2 & W3). exists w. rewrite <- E by auto. auto.
    - intros w Hw K. rewrite <- E in K by auto. destruct (D w Hw K) as [L|(v & V1 & V2 & V3)]; [auto|]. right. exists v. rewrite <- E by auto. auto.
  Qed.

  Lemma mem_filter : forall (k : nat -> bool) v, v < n -> mem (filter k (seq 0 n)) v = k v.
  Proof.
    intros k v Hv. destruct (k v) eqn:E; [apply mem_In, filter_In; split; [apply in_seq; lia|auto]|].
    destruct (mem (filter k (seq 0 n)) v) eqn:E2; auto. apply mem_In, filter_In in E2. destruct E2. congruence.
  Qed.

  Lemma support_iff : forall v, v < n -> (in_support (seq 0 n) f v = true <-> matters rf v).
  Proof.
    intros v Hv. unfold in_support. rewrite existsb_exists. split.
    - intros (l & Hl & X). assert (T : forall u, toggle (flip l v) v u = mem l u).
      { intros u. unfold toggle, flip. destruct (Nat.eqb_spec u v) as [->|]; [apply negb_involutive|auto]. }
      assert (T2 : forall u, flip l v u = toggle (mem l) v u).
      { intros u. unfold toggle, flip. destruct (Nat.eqb_spec u v) as [->|]; auto. }
      destruct (sat_formula (mem l) f) eqn:S1; destruct (sat_formula (flip l v) f) eqn:S2; try discriminate.
      + exists (mem l). split; [apply sat_iff; auto|]. intros H. apply (plausible_ext _ (flip l v)) in H; [|intros; symmetry; apply T2]. apply sat_iff in H. congruence.
      + exists (flip l v). split; [apply sat_iff; auto|]. intros H. apply (plausible_ext _ (mem l)) in H; [|intros; apply T]. apply sat_iff in H. congruence.
    - intros (k & A & B). exists (filter k (seq 0 n)). split.
      + apply subsets_iff; [apply seq_NoDup|]. symmetry. apply filter_mem_filter.
      + rewrite (proj2 (sat_iff (mem (filter k (seq 0 n))))).
        * destruct (sat_formula (flip (filter k (seq 0 n)) v) f) eqn:E; [|auto]. exfalso. apply B. apply sat_iff in E. revert E. apply plausible_ext.
          intros u Hu. unfold flip, toggle. destruct (Nat.eqb_spec u v) as [->|]; rewrite mem_filter by auto; auto.
        * revert A. apply plausible_ext. intros u Hu. rewrite mem_filter by auto. auto.
  Qed.

  Definition good (l : list nat) : Prop := l = filter (mem l) (seq 0 n) /\ plausible rf (mem l).

  Lemma tm_models : exists ms asg, models es pv = Ok (ms, asg) /\ (forall l, In l ms <-> good l) /\ (asg = true <-> forall v, v < n -> matters rf v).
  Proof.
    unfold models. fold f. rewrite f_wf. rewrite pv_vs_eq. eexists _, _. split; [reflexivity|]. split.
    - intros l. rewrite filter_In. rewrite subsets_iff by apply seq_NoDup. rewrite sat_iff. reflexivity.
    - rewrite forallb_forall. split.
      + intros H v Hv. apply support_iff; [auto|]. apply H. apply in_seq. lia.
      + intros H v Hv. apply in_seq in Hv. apply support_iff; [lia|]. apply H. lia.
  Qed.

  (** ** Values *)
  Definition Vk (keep : nat -> bool) : nat -> Rdefinitions.R := Vmin (restrict M keep) (WRk rf BF EX keep) (is_goal M).

  Lemma row_value : forall keep i g, i < n -> keep i = true ->
    Q2R (dot (map (fun j => ((if i =? j then 1 else 0) - mget (rf_P rf) i j)%Q) (filter keep (seq 0 n))) (map g (filter keep (seq 0 n)))) =
    (Q2R (g i) - sumn n (fun d => if keep d then prob M i d * Q2R (g d) else 0))%R.
  Proof.
    intros keep i g Hi K. unfold dot. rewrite combine_map2, map_map. cbn [fst snd].
    rewrite (Qeq_eqR _ _ (sum_filter (fun x => (((if i =? x then 1 else 0) - mget (rf_P rf) i x) * g x)%Q) keep (seq 0 n))). rewrite Q2R_sumQ.
    rewrite <- (sumn_indicator n i (Q2R (g i)) Hi) at 1. rewrite <- sumn_minus. apply sumn_ext. intros d Hd. rewrite filt_get by auto.
    destruct (Nat.eqb_spec i d) as [<-|NE].
    - rewrite K, Nat.eqb_refl. rewrite Q2R_mult, Q2R_minus, RMicromega.Q2R_1. change (prob M i i) with (Q2R (mget P i i)). ring.
    - rewrite (proj2 (Nat.eqb_neq d i)) by auto. destruct (keep d).
      + rewrite Q2R_mult, Q2R_minus, RMicromega.Q2R_0. change (prob M i d) with (Q2R (mget P i d)). ring.
      + rewrite RMicromega.Q2R_0. ring.
  Qed.

  Lemma sol_unique : forall keep (z : nat -> Rdefinitions.R),
    (forall s, s < n -> keep s = true -> z s = (sumn n (fun d => if keep d then prob M s d * z d else 0) + prob M s (goal M))%R) ->
    forall s, s < n -> keep s = true -> z s = Vk keep s.
  Proof.
    intros keep z H s Hs K. set (z' := fun s => if keep s then z s else 0%R).
    assert (E : forall s, s < n -> keep s = true -> z' s = (sumn n (fun d => if keep d then prob M s d * z' d else 0) + prob M s (goal M))%R).
    { intros u Hu Ku. unfold z' at 1. rewrite Ku. rewrite (H u Hu Ku). f_equal. apply sumn_ext. intros d Hd. unfold z'. destruct (keep d); auto. }
    destruct (sol_value M init RF tm_SQ tm_ROW keep z' E) with (s := s) as [A _]; [intros u Hu Ku; unfold z'; rewrite Ku; auto|exact Hs|].
    unfold Vk. replace (z s) with (z' s) by (unfold z'; rewrite K; auto). symmetry. exact A.
  Qed.

  Lemma reach_regular : forall keep, let l := filter keep (seq 0 n) in regular (length l) (reach_matrix (rf_P rf) l).
  Proof.
    intros keep l. unfold reach_matrix. split; [apply map_length|]. split.
    - intros r Hr. apply in_map_iff in Hr. destruct Hr as (i & <- & _). apply map_length.
    - intros x Lx HZ. destruct (as_fun l x) as (g & ->); [apply NoDup_filter, seq_NoDup|auto|].
      destruct (keep_values M init RF tm_SQ tm_ROW keep) as (A1 & _ & _).
      assert (Z : forall s, s < n -> keep s = true -> (Vk keep s + Q2R (g s))%R = Vk keep s).
      { apply (sol_unique keep (fun s => Vk keep s + Q2R (g s))%R). intros s Hs K. rewrite Forall_forall in HZ.
        assert (HR : (dot (map (fun j => ((if s =? j then 1 else 0) - mget (rf_P rf) s j)%Q) l) (map g l) == 0)%Q).
        { apply HZ. apply in_map_iff. exists s. split; [auto|]. apply filter_In. split; [apply in_seq; lia|auto]. }
        apply Qeq_eqR in HR. unfold l in HR. rewrite row_value in HR by auto. rewrite RMicromega.Q2R_0 in HR.
        transitivity (sumn n (fun d => if keep d then prob M s d * Vk keep d else 0) + prob M s (goal M) + sumn n (fun d => if keep d then prob M s d * Q2R (g d) else 0))%R.
        - assert (A1' : Vk keep s = (sumn n (fun d => if keep d then prob M s d * Vk keep d else 0) + prob M s (goal M))%R) by exact (A1 s Hs K).
          rewrite <- A1'. Lra.lra.
        - assert (SP : sumn n (fun d => if keep d then (prob M s d * (Vk keep d + Q2R (g d)))%R else 0%R) =
            (sumn n (fun d => if keep d then (prob M s d * Vk keep d)%R else 0%R) + sumn n (fun d => if keep d then (prob M s d * Q2R (g d))%R else 0%R))%R).
          { rewrite <- sumn_plus. apply sumn_ext. intros d Hd. destruct (keep d); ring. }
          rewrite SP. ring. }
      apply Forall_forall. intros q Hq. apply in_map_iff in Hq. destruct Hq as (s & <- & Hs). unfold l in Hs. apply filter_In in Hs. destruct Hs as [Hs K]. apply in_seq in Hs.
      apply eqR_Qeq. rewrite RMicromega.Q2R_0. specialize (Z s ltac:(lia) K). Lra.lra.
  Qed.

  Variable LS : list (list Q) -> list Q -> list Q.
  Hypothesis LSX : exact_linear LS.

  Lemma rhs_eq : forall pt l, (forall s, In s l -> s < n) -> Forall2 Qeq (reach_rhs rf pv pt l) (map (fun s => mget P s n) l).
  Proof.
    intros pt l H. unfold reach_rhs. induction l as [|s l IH]; [constructor|]. cbn [map]. constructor; [|apply IH; intros u Hu; apply H; right; auto].
    assert (Hs : s < n) by (apply H; left; auto). rewrite pv_out_eq by auto. rewrite tt_get by auto.
    destruct (pv_target pv s) eqn:T; [reflexivity|]. destruct (Qeq_bool (mget P s n) 0) eqn:E; [apply Qeq_bool_iff in E; symmetry; auto|].
    exfalso. assert (L : leads m s n).
    { unfold leads. pose proof (mget_nonneg P (a_idx m) (a_rew m) (br_valid rf BF) s n) as NN. apply Qle_lteq in NN. destruct NN as [NN|NN]; [auto|].
      symmetry in NN. apply Qeq_bool_iff in NN. congruence. }
    apply pv_target_eq in L; auto. congruence.
  Qed.

  Lemma solved : forall keep, let l := filter keep (seq 0 n) in forall pt, exists g, LS (reach_matrix (rf_P rf) l) (reach_rhs rf pv pt l) = map g l /\
    forall s, s < n -> keep s = true -> Q2R (g s) = Vk keep s.
  Proof.
    intros keep l pt. assert (Lb : length (reach_rhs rf pv pt l) = length l) by (unfold reach_rhs; apply map_length).
    destruct (LSX (length l) _ (reach_rhs rf pv pt l) (reach_regular keep) Lb) as (LX & HX).
    destruct (as_fun l _ (NoDup_filter _ (seq_NoDup n 0)) (eq_trans LX Lb)) as (g & Eg). exists g. split; [exact Eg|].
    rewrite Eg in HX. apply sol_unique. intros s Hs K.
    assert (R : forall l', Forall2 (fun r c => dot r (map g l) == c)%Q (map (fun i => map (fun j => ((if i =? j then 1 else 0) - mget (rf_P rf) i j)%Q) l) l') (reach_rhs rf pv pt l') ->
      (forall u, In u l' -> u < n) -> In s l' -> (dot (map (fun j => ((if s =? j then 1 else 0) - mget (rf_P rf) s j)%Q) l) (map g l) == mget P s n)%Q).
    { intros l' HF HB HI. pose proof (rhs_eq pt l' HB) as HE. unfold reach_rhs in *. induction l' as [|u l' IH]; [destruct HI|].
      cbn [map] in HF, HE. inversion HF as [|? ? ? ? F1 F2]; subst. inversion HE as [|? ? ? ? G1 G2]; subst. destruct HI as [->|HI]; [etransitivity; [exact F1|exact G1]|].
      apply IH; auto. intros w Hw. apply HB. right; auto. }
    specialize (R l HX). assert (HB : forall u, In u l -> u < n) by (intros u Hu; unfold l in Hu; apply filter_In in Hu; destruct Hu as [Hu _]; apply in_seq in Hu; lia).
    specialize (R HB). assert (Hl : In s l) by (apply filter_In; split; [apply in_seq; lia|auto]). specialize (R Hl). apply Qeq_eqR in R.
    unfold l in R. rewrite row_value in R by auto. change (prob M s (goal M)) with (Q2R (mget P s n)). Lra.lra.
  Qed.

  (** ** One subsystem *)
  Lemma handle_ok : forall dist ub thr l, nth init dist None = Some 0 -> good l ->
    exists v, Q2R v = Vk (mem l) init /\
      handle_subsys LS rf (rf_P rf) pv dist [] ub thr l = Ok (if (ub <? length l) || Qlt_bool (v + 0) (f32 thr) then [] else [(length l, [(init, v)])]).
  Proof.
    intros dist ub thr l HD (HL & HP). destruct (solved (mem l) (0, [])) as (g & Eg & Vg). rewrite <- HL in Eg.
    assert (KI : mem l init = true) by apply HP. assert (IL : In init l) by (apply mem_In; auto).
    assert (LB : forall s, In s l -> s < n) by (intros s Hs; rewrite HL in Hs; apply filter_In in Hs; destruct Hs as [Hs _]; apply in_seq in Hs; lia).
    assert (ND : NoDup l) by (rewrite HL; apply NoDup_filter, seq_NoDup).
    assert (PI : filter (pv_in pv) l = [init]) by (apply filter_single; auto; intros s Hs; apply pv_in_eq; auto).
    assert (PO : filter (fun s => negb (pv_out pv s)) l = l) by (apply filter_all; intros s Hs; rewrite pv_out_eq; auto).
    exists (g init). split; [apply Vg; auto|].
    unfold handle_subsys. cbn [map visited rounds fold_left length repeat visit foldM get_point combine bind]. cbn [bind fst].
    rewrite PI, PO. unfold min_dist. cbn [fold_left]. rewrite HD. rewrite Nat.min_0_r, !Nat.add_0_r.
    destruct (ub <? length l); [reflexivity|]. cbn [orb]. rewrite Eg, combine_map, filter_map. cbn [fst]. change (filter (fun a => pv_in pv a) l) with (filter (pv_in pv) l). rewrite PI. cbn [map snd sumQ fold_right].
    destruct (Qlt_bool (g init + 0) (f32 thr)); reflexivity.
  Qed.

  (** ** Plausible witnesses *)
  Lemma Vk_ext : forall k k', (forall v, v < n -> k v = k' v) -> k init = true -> Vk k init = Vk k' init.
  Proof.
    intros k k' E K. destruct (keep_values M init RF tm_SQ tm_ROW k) as (A1 & _ & _).
    apply (sol_unique k' (Vk k)); [|exact INIT|rewrite <- E; auto]. intros s Hs Ks. rewrite <- E in Ks by auto.
    transitivity (sumn n (fun d => if k d then prob M s d * Vk k d else 0) + prob M s (goal M))%R; [exact (A1 s Hs Ks)|].
    f_equal. apply sumn_ext. intros d Hd. rewrite E by auto. reflexivity.
  Qed.

  Lemma not_leads : forall u v, ~ leads m u v -> prob M u v = 0%R.
  Proof.
    intros u v H. change (prob M u v) with (Q2R (mget P u v)). pose proof (mget_nonneg P (a_idx m) (a_rew m) (br_valid rf BF) u v) as NN.
    apply Qle_lteq in NN. destruct NN as [NN|NN]; [contradiction|]. rewrite <- (Qeq_eqR _ _ NN). apply RMicromega.Q2R_0.
  Qed.

  Lemma count_drop : forall keep v, v < n -> keep v = true -> count (fun s => keep s && negb (s =? v)) n < count keep n.
  Proof.
    intros keep v Hv K. unfold count. assert (G : forall l, NoDup l -> length (filter (fun s => keep s && negb (s =? v)) l) + (if mem l v then 1 else 0) = length (filter keep l)).
    { induction l as [|a l IH]; intros ND; [reflexivity|]. inversion ND as [|? ? NI ND']; subst. cbn [filter]. specialize (IH ND').
      destruct (Nat.eqb_spec a v) as [->|NE].
      - rewrite K. cbn [andb negb]. assert (E1 : mem (v :: l) v = true) by (apply mem_In; left; auto). rewrite E1. cbn [length].
        assert (E2 : mem l v = false) by (destruct (mem l v) eqn:E; auto; apply mem_In in E; contradiction). rewrite E2 in IH. lia.
      - assert (E1 : mem (a :: l) v = mem l v) by (unfold mem; simpl; rewrite (proj2 (Nat.eqb_neq v a)) by auto; auto). rewrite E1.
        cbn [negb]. rewrite andb_true_r. destruct (keep a); cbn [length]; lia. }
    specialize (G (seq 0 n) (seq_NoDup n 0)). rewrite (proj2 (mem_In (seq 0 n) v)) in G by (apply in_seq; lia). lia.
  Qed.

  Lemma shrink : forall c keep t, count keep n <= c -> (0 < t)%Q -> (Q2R t <= Vk keep init)%R -> exists l, good l /\ length l <= count keep n /\ (Q2R t <= Vk (mem l) init)%R.
  Proof.
    induction c as [c IH] using lt_wf_ind. intros keep t HC Ht HV. assert (TP : (0 < Q2R t)%R) by (apply Q2R_pos; auto).
    destruct (keep_values M init RF tm_SQ tm_ROW keep) as (A1 & A0 & AB).
    assert (A1' : forall s, s < n -> keep s = true -> Vk keep s = (sumn n (fun d => if keep d then prob M s d * Vk keep d else 0) + prob M s (goal M))%R) by exact A1.
    assert (A0' : forall s, s < n -> keep s = false -> Vk keep s = 0%R) by exact A0. clear A1 A0 AB.
    assert (KI : keep init = true) by (destruct (keep init) eqn:E; auto; rewrite (A0' init INIT E) in HV; Lra.lra).
    assert (DEAD : forall u, u < n -> keep u = true -> ~ leads m u n -> (forall v, v < n -> keep v = true -> ~ leads m u v) -> Vk keep u = 0%R).
    { intros u Hu K N1 N2. rewrite (A1' u Hu K). rewrite sumn_zero; [change (goal M) with n; rewrite (not_leads u n N1); ring|]. intros d Hd. destruct (keep d) eqn:Kd; [rewrite (not_leads u d (N2 d Hd Kd)); ring|ring]. }
    assert (DROP : forall v, v < n -> keep v = true -> v <> init -> (Vk keep v = 0%R \/ forall s, s < n -> keep s = true -> prob M s v = 0%R) ->
      exists l, good l /\ length l <= count keep n /\ (Q2R t <= Vk (mem l) init)%R).
    { intros v Hv K NE HD. pose proof (count_drop keep v Hv K) as CD.
      destruct (IH (count (fun s => keep s && negb (s =? v)) n) ltac:(lia) (fun s => keep s && negb (s =? v)) t (le_n _) Ht) as (l & L1 & L2 & L3).
      - eapply Rle_trans; [exact HV|]. exact (drop_value M init RF tm_SQ tm_ROW keep v init INIT ltac:(auto) HD).
      - exists l. split; [auto|]. split; [lia|auto]. }
    destruct (Classical_Prop.classic (exists v, v < n /\ keep v = true /\ v <> init /\ forall u, u < n -> keep u = true -> ~ leads m u v)) as [(v & Hv & K & NE & H)|NP].
    { apply (DROP v Hv K NE). right. intros s Hs Ks. apply not_leads. auto. }
    destruct (Classical_Prop.classic (exists u, u < n /\ keep u = true /\ ~ leads m u n /\ forall v, v < n -> keep v = true -> ~ leads m u v)) as [(u & Hu & K & N1 & N2)|NS].
    { pose proof (DEAD u Hu K N1 N2) as Z. destruct (Nat.eq_dec u init) as [->|NE]; [rewrite Z in HV; Lra.lra|]. apply (DROP u Hu K NE). left. exact Z. }
    assert (PL : plausible rf keep).
    { split; [exact KI|]. split.
      - destruct (Classical_Prop.classic (exists u, u < n /\ keep u = true /\ leads m u n)) as [H|H]; [exact H|]. exfalso.
        assert (Z : 0%R = Vk keep init).
        { apply (sol_unique keep (fun _ => 0%R)); auto. intros s Hs Ks. rewrite sumn_zero by (intros d Hd; destruct (keep d); ring).
          change (goal M) with n. rewrite (not_leads s n); [ring|]. intros L. apply H. exists s. auto. }
        rewrite <- Z in HV. Lra.lra.
      - split.
        + intros v Hv K NE. apply Classical_Prop.NNPP. intros N. apply NP. exists v. split; [auto|]. split; [auto|]. split; [auto|]. intros u Hu Ku L. apply N. exists u. auto.
        + intros u Hu K. apply Classical_Prop.NNPP. intros N. apply NS. exists u. split; [auto|]. split; [auto|]. split; [tauto|]. intros v Hv Kv L. apply N. right. exists v. auto. }
    exists (filter keep (seq 0 n)). assert (E : forall v, v < n -> keep v = mem (filter keep (seq 0 n)) v) by (intros v Hv; rewrite mem_filter; auto).
    split; [split; [symmetry; apply filter_mem_filter|revert PL; apply plausible_ext; exact E]|]. split; [apply le_n|].
    rewrite <- (Vk_ext keep _ E KI). exact HV.
  Qed.

  (** ** The loop over the models *)
  Definition found (thr : Q) (ub : nat) (l : list nat) : Prop := length l <= ub /\ (Q2R (f32 thr) <= Vk (mem l) init)%R.
  Definition kp_ok (thr : Q) (ub : nat) (done : list (list nat)) (kp : dict nat (list (list Q))) : Prop :=
    (forall k rows, In (k, rows) kp -> rows <> [] /\ forall r, In r rows -> exists v, r = [v] /\ (f32 thr <= v)%Q) /\
    NoDup (dkeys kp) /\ (forall k, In k (dkeys kp) <-> exists l, In l done /\ length l = k /\ found thr ub l).

  Lemma loop_ok : forall ex h thr ub ms i kp done, (forall j, ex j = false) -> (forall l, In l ms -> good l) ->
    (forall l, In l ms -> exists v, Q2R v = Vk (mem l) init /\ h l = Ok (if (ub <? length l) || Qlt_bool (v + 0) (f32 thr) then [] else [(length l, [(init, v)])])) ->
    kp_ok thr ub done kp -> exists kp', models_loop ex h true [init] i ms kp = Ok (Some kp') /\ kp_ok thr ub (done ++ ms) kp'.
  Proof.
    intros ex h thr ub ms. induction ms as [|l ms IH]; intros i kp done HE HG HH HK.
    - exists kp. split; [reflexivity|]. rewrite app_nil_r. exact HK.
    - cbn [models_loop]. rewrite HE. cbn [negb]. destruct (HH l (or_introl eq_refl)) as (v & Hv & ->). cbn [bind].
      assert (STEP : kp_ok thr ub (done ++ [l]) (fold_left (add_k_point [init]) (if (ub <? length l) || Qlt_bool (v + 0) (f32 thr) then [] else [(length l, [(init, v)])]) kp)).
      { destruct HK as (K1 & K2 & K3). destruct ((ub <? length l) || Qlt_bool (v + 0) (f32 thr)) eqn:T.
        - cbn [fold_left]. split; [exact K1|]. split; [exact K2|]. intros k. rewrite K3. split; intros (l' & A & B & C); exists l'.
          + split; [apply in_app_iff; auto|auto].
          + apply in_app_iff in A. destruct A as [A|[<-|[]]]; [auto|]. exfalso. destruct C as [C1 C2]. apply orb_prop in T. destruct T as [T|T].
            * apply Nat.ltb_lt in T. lia.
            * apply Qlt_bool_iff' in T. apply Qlt_Rlt in T. rewrite Q2R_plus, RMicromega.Q2R_0, Hv in T. Lra.lra.
        - apply orb_false_elim in T. destruct T as [T1 T2]. apply Nat.ltb_ge in T1.
          assert (T3 : (f32 thr <= v)%Q). { apply Qnot_lt_le. intros H. assert (Qlt_bool (v + 0) (f32 thr) = true) by (apply Qlt_bool_iff'; rewrite Qplus_0_r; auto). congruence. }
          assert (FD : found thr ub l) by (split; [auto|rewrite <- Hv; apply Qle_Rle; auto]).
          cbn [fold_left]. unfold add_k_point. cbn [fst snd map]. assert (EV : dget Nat.eqb [(init, v)] init = Some v) by (cbn [dget]; rewrite Nat.eqb_refl; auto). rewrite EV.
          assert (KEY : forall rows, (rows = [[v]] \/ exists rows0, dget Nat.eqb kp (length l) = Some rows0 /\ rows = (rows0 ++ [[v]])%list) ->
            kp_ok thr ub (done ++ [l]) (dset Nat.eqb kp (length l) rows)).
          { intros rows HR. split; [|split].
            - intros k rs Hin. assert (D : dget Nat.eqb (dset Nat.eqb kp (length l) rows) k = Some rs) by (apply (In_dget Nat.eqb Nat.eqb_spec); [apply (dset_nodup Nat.eqb Nat.eqb_spec); auto|auto]).
              rewrite (dget_dset Nat.eqb Nat.eqb_spec) in D. destruct (Nat.eqb_spec (length l) k) as [E|NE].
              + injection D as <-. destruct HR as [->|(rows0 & E0 & ->)].
                * split; [discriminate|]. intros r [<-|[]]. exists v. auto.
                * apply (dget_In Nat.eqb Nat.eqb_spec) in E0. destruct (K1 _ _ E0) as (Q1 & Q2). split; [destruct rows0; discriminate|].
                  intros r Hr. apply in_app_iff in Hr. destruct Hr as [Hr|[<-|[]]]; [auto|exists v; auto].
              + apply (dget_In Nat.eqb Nat.eqb_spec) in D. apply (K1 k); auto.
            - apply (dset_nodup Nat.eqb Nat.eqb_spec); auto.
            - intros k. rewrite (dset_keys_in Nat.eqb Nat.eqb_spec). rewrite K3. split.
              + intros [->|(l' & A & B & C)]; [exists l; split; [apply in_app_iff; right; left; auto|auto]|exists l'; split; [apply in_app_iff; auto|auto]].
              + intros (l' & A & B & C). apply in_app_iff in A. destruct A as [A|[<-|[]]]; [right; exists l'; auto|left; auto]. }
          destruct (dget Nat.eqb kp (length l)) as [rows0|] eqn:E0; apply KEY; [right; exists rows0; auto|left; auto]. }
      destruct (IH (Datatypes.S i) _ (done ++ [l]) HE (fun l' H => HG l' (or_intror H)) (fun l' H => HH l' (or_intror H)) STEP) as (kp' & E & K).
      exists kp'. split; [exact E|]. rewrite <- app_assoc in K. exact K.
  Qed.

  (** ** Choice of the best points *)
  Lemma max_pos : forall l, l <> [] -> (forall q, In q l -> (0 < q)%Q) -> (0 < max_list l)%Q.
  Proof.
    intros [|a l] NE H; [congruence|]. simpl. assert (G : forall l a, (0 < a)%Q -> (forall q, In q l -> (0 < q)%Q) -> (0 < fold_left (fun a b => if Qlt_bool a b then b else a) l a)%Q).
    { clear. induction l as [|b l IH]; intros a Ha H; [exact Ha|]. cbn [fold_left]. apply IH; [destruct (Qlt_bool a b); [apply H; left; auto|auto]|]. intros q Hq. apply H. right; auto. }
    apply G; [apply H; left; auto|intros q Hq; apply H; right; auto].
  Qed.

  Lemma insert_in : forall l k x, In x (insert_nat k l) <-> x = k \/ In x l.
  Proof.
    induction l as [|a l IH]; intros k x; cbn [insert_nat]; [simpl; intuition|]. destruct (k <=? a); [simpl; intuition|]. simpl. rewrite IH. intuition.
  Qed.
  Inductive asc : list nat -> Prop := asc_nil : asc [] | asc_cons : forall k l, (forall x, In x l -> k <= x) -> asc l -> asc (k :: l).
  Lemma insert_asc : forall l k, asc l -> asc (insert_nat k l).
  Proof.
    intros l k H. induction H as [|a l A H IH]; cbn [insert_nat]; [constructor; [intros x []|constructor]|]. destruct (Nat.leb_spec k a).
    - constructor; [|constructor; auto]. intros x [<-|Hx]; [auto|]. specialize (A x Hx). lia.
    - constructor; [|exact IH]. intros x Hx. apply insert_in in Hx. destruct Hx as [->|Hx]; [lia|auto].
  Qed.
  Lemma sorted_keys_ok : forall kp, asc (sorted_keys kp) /\ forall k, In k (sorted_keys kp) <-> In k (dkeys kp).
  Proof.
    intros kp. unfold sorted_keys. induction (dkeys kp) as [|k l (A & B)]; cbn [fold_right]; [split; [constructor|tauto]|].
    split; [apply insert_asc; auto|]. intros x. rewrite insert_in, B. simpl. intuition.
  Qed.

  Definition kb_step (v : nat) (kp : dict nat (list (list Q))) := fun (acc : Q * list point) k =>
    let best := max_list (concat (match dget Nat.eqb kp k with Some rows => rows | None => [] end)) in
    if Qlt_bool (fst acc) best then (best, (snd acc ++ [(k, [(v, best)])])%list) else acc.
  Lemma kb_extends : forall v kp ks acc, exists ext, snd (fold_left (kb_step v kp) ks acc) = (snd acc ++ ext)%list /\ forall k, In k (map fst ext) -> In k ks.
  Proof.
    intros v kp ks. induction ks as [|k ks IH]; intros acc; [exists []; split; [rewrite app_nil_r; auto|intros k []]|].
    cbn [fold_left]. unfold kb_step at 2. set (best := max_list _). destruct (Qlt_bool (fst acc) best).
    - destruct (IH (best, (snd acc ++ [(k, [(v, best)])])%list)) as (ext & E & H). exists ((k, [(v, best)]) :: ext). split.
      + rewrite E. cbn [snd]. rewrite <- app_assoc. reflexivity.
      + intros x Hx. simpl in Hx. destruct Hx as [<-|Hx]; [left; auto|right; auto].
    - destruct (IH acc) as (ext & E & H). exists ext. split; [exact E|]. intros x Hx. right. auto.
  Qed.

  Lemma fold_min : forall l k, (forall x, In x l -> k <= x) -> fold_left Nat.min l k = k.
  Proof. induction l as [|a l IH]; intros k H; [reflexivity|]. cbn [fold_left]. rewrite Nat.min_l by (apply H; left; auto). apply IH. intros x Hx. apply H. right; auto. Qed.

  Lemma best_min : forall thr ub done kp, (0 < f32 thr)%Q -> kp_ok thr ub done kp ->
    match min_states (keep_best init kp) with
    | Ok k => In k (dkeys kp) /\ forall k', In k' (dkeys kp) -> k <= k'
    | Err e => e = ValueError /\ dkeys kp = []
    end.
  Proof.
    intros thr ub done kp TP (K1 & K2 & K3). unfold keep_best. change (fun (acc : Q * list point) (k : nat) => _) with (kb_step init kp).
    destruct (sorted_keys_ok kp) as (A & B). destruct (sorted_keys kp) as [|k ks] eqn:ES.
    - cbn [fold_left snd min_states map]. split; [reflexivity|]. destruct (dkeys kp) as [|x l]; [auto|]. exfalso. apply (proj2 (B x)). left; auto.
    - inversion A as [|? ? A1 A2]; subst. cbn [fold_left]. unfold kb_step at 2. assert (KI : In k (dkeys kp)) by (apply B; left; auto).
      assert (BP : (0 < max_list (concat (match dget Nat.eqb kp k with Some rows => rows | None => [] end)))%Q).
      { unfold dkeys in KI. apply in_map_iff in KI. destruct KI as ([k0 rows] & E & KI). cbn [fst] in E. subst k0. rewrite (In_dget Nat.eqb Nat.eqb_spec _ _ _ K2 KI).
        destruct (K1 k rows KI) as (R1 & R2). apply max_pos.
        - destruct rows as [|r rows]; [congruence|]. destruct (R2 r (or_introl eq_refl)) as (v & -> & _). discriminate.
        - intros q Hq. apply in_concat in Hq. destruct Hq as (r & Hr & Hq). destruct (R2 r Hr) as (v & -> & L). destruct Hq as [<-|[]]. eapply Qlt_le_trans; eauto. }
      cbn [fst]. rewrite (proj2 (Qlt_bool_iff' _ _) BP). cbn [snd app].
      match goal with |- context [fold_left (kb_step init kp) ks ?acc] => destruct (kb_extends init kp ks acc) as (ext & E & H) end.
      rewrite E. cbn [snd app]. unfold min_states. cbn [map fst]. rewrite fold_min by (intros x Hx; apply A1, H; auto).
      split; [exact KI|]. intros k' Hk'. apply B in Hk'. destruct Hk' as [<-|Hk']; auto.
  Qed.

  (** ** Distances *)
  Lemma bfs_keeps : forall fuel E k front d v x, v < length d -> nth v d None = Some x -> nth v (bfs fuel E k front d) None = Some x.
  Proof.
    induction fuel as [|fuel IH]; intros E k front d v x L H; [exact H|]. cbn [bfs].
    set (next := nodup Nat.eq_dec _). apply IH.
    - assert (G : forall nx d, length (fold_left (fun d v => upd d v (Some (Datatypes.S k))) nx d) = length d).
      { induction nx as [|a nx IHn]; intros d'; [reflexivity|]. cbn [fold_left]. rewrite IHn. apply upd_length. }
      rewrite G. exact L.
    - assert (NV : ~ In v next).
      { intros Hv. unfold next in Hv. apply nodup_In in Hv. apply in_map_iff in Hv. destruct Hv as (e & <- & He). apply filter_In in He. destruct He as [_ He].
        apply andb_prop in He. destruct He as [_ He]. rewrite (nth_indep _ (Some 0) None L), H in He. discriminate. }
      assert (G : forall nx d, ~ In v nx -> nth v (fold_left (fun d v => upd d v (Some (Datatypes.S k))) nx d) None = nth v d None).
      { induction nx as [|a nx IHn]; intros d' N; [reflexivity|]. cbn [fold_left]. rewrite IHn by (intros Q; apply N; right; auto). apply nth_upd_other. intros ->. apply N. left; auto. }
      rewrite G; auto.
  Qed.
  Lemma dist_init : nth init (distances (n, es) init) None = Some 0.
  Proof.
    unfold distances. apply bfs_keeps; [rewrite upd_length, repeat_length; exact INIT|]. apply nth_upd_same. rewrite repeat_length. exact INIT.
  Qed.
End TreeMin.
