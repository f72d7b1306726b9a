(** The exact models: what their solutions are, and minimality. *)
From Coq Require Import String List Arith ZArith QArith Qreals Reals Bool Lia Lra Permutation Classical.
From Coq Require Lqa.
From Verif Require Import Base BaseFacts Num Matrix MatFacts InvDict SccSpec SpecMdp SpecEc SpecSystem SpecForm SpecBuilt SpecProb SpecSub SpecLp SpecMilp SumFacts MdpValue RfTheory SubTheory
  Amdp ReachForm ReachFormProofs RfFacts BuiltFacts RfBridge Farkas FarkReal Milp MilpProofs LpExists FarkProofs CertProofs Subsystem SubProofs4 SubProofs5 RfLpProofs Formulations MilpBuild GroupProofs MilpForm MilpMax MilpKeep Problems.
Import ListNotations.
Local Open Scope nat_scope.

Lemma in_combine_seq : forall (gs : list (list nat)) a sigma G, In (sigma, G) (combine (seq a (length gs)) gs) -> exists i, nth_error gs i = Some G /\ sigma = a + i.
Proof.
  induction gs as [|G0 gs IH]; intros a sigma G H; [destruct H|]. cbn [length seq combine] in H. destruct H as [E|H].
  - injection E as <- <-. exists 0. split; [reflexivity|lia].
  - destruct (IH _ _ _ H) as (i & E & ->). exists (Datatypes.S i). split; [exact E|lia].
Qed.
Lemma combine_seq_in : forall (gs : list (list nat)) a i G, nth_error gs i = Some G -> In (a + i, G) (combine (seq a (length gs)) gs).
Proof.
  induction gs as [|G0 gs IH]; intros a i G H; [destruct i; discriminate|]. cbn [length seq combine]. destruct i as [|i]; cbn in H.
  - injection H as <-. left. f_equal. lia.
  - right. replace (a + Datatypes.S i) with (Datatypes.S a + i) by lia. apply IH; auto.
Qed.

Lemma ones_le : forall (ss : list nat) a keep x, (forall i s, nth_error ss i = Some s -> keep s = true -> x (a + i) = 1%R) -> length (filter keep ss) <= ones (seq a (length ss)) x.
Proof.
  induction ss as [|s ss IH]; intros a keep x H; [cbn; lia|]. cbn [filter length seq ones].
  assert (L : length (filter keep ss) <= ones (seq (Datatypes.S a) (length ss)) x).
  { apply IH. intros i s' Hn K. replace (Datatypes.S a + i) with (a + Datatypes.S i) by lia. apply (H (Datatypes.S i) s'); auto. }
  destruct (keep s) eqn:K; [|lia]. cbn [length]. specialize (H 0 s eq_refl K). rewrite Nat.add_0_r in H. destruct (Req_EM_T (x a) 1); [lia|contradiction].
Qed.
Lemma ones_exact : forall (ss : list nat) a keep x, (forall i s, nth_error ss i = Some s -> x (a + i) = if (keep s : bool) then 1%R else 0%R) -> ones (seq a (length ss)) x = length (filter keep ss).
Proof.
  induction ss as [|s ss IH]; intros a keep x H; [reflexivity|]. cbn [filter length seq ones].
  rewrite (IH (Datatypes.S a) keep x). 2:{ intros i s' Hn. replace (Datatypes.S a + i) with (a + Datatypes.S i) by lia. apply (H (Datatypes.S i) s'); auto. }
  specialize (H 0 s eq_refl). rewrite Nat.add_0_r in H. destruct (keep s); rewrite H; destruct (Req_EM_T _ _); try lra; cbn [length]; lia.
Qed.

Lemma count_perm : forall keep ss n, NoDup ss -> (forall s, In s ss <-> s < n) -> length (filter keep ss) = count keep n.
Proof.
  intros keep ss n ND H. unfold count. apply Permutation_length.
  apply NoDup_Permutation; [apply NoDup_filter; auto|apply NoDup_filter, seq_NoDup|]. intros s. rewrite !filter_In, H, in_seq. split; intros [A B]; (split; [lia|auto]).
Qed.

Lemma Forall2_impl : forall A B (R R' : A -> B -> Prop) l l', (forall a b, R a b -> R' a b) -> Forall2 R l l' -> Forall2 R' l l'.
Proof. intros A B R R' l l' H F. induction F; constructor; auto. Qed.

Section Exact.
  Variable rf : rform.
  Hypothesis BF : built_form rf.
  Hypothesis Hi : rf_init rf < a_N (rf_sys rf) - 2.
  Let m := rf_sys rf.
  Let P := a_P m.
  Let inv := a_inv m.
  Let n := rf_N rf.
  Let c := rf_C rf.
  Let M := form_mdp rf.

  Lemma polytope_ext : forall md t x y, (forall v, v < cert_dim rf md -> x v = y v) -> polytope rf md t x -> polytope rf md t y.
  Proof.
    intros md t x y E. destruct md; cbn [polytope cert_dim] in *.
    - intros [A B]. split; [|rewrite <- E; auto]. intros i s a Hic Ei. specialize (A i s a Hic Ei).
      destruct (br_row rf BF i Hic) as (a' & E' & L). rewrite Ei in E'. injection E' as Es _. rewrite <- E by (rewrite Es; exact L).
      rewrite (sumn_ext _ (fun d => Q2R (mget (a_P (rf_sys rf)) i d) * y d)%R (fun d => Q2R (mget (a_P (rf_sys rf)) i d) * x d)%R) by (intros d Hd; rewrite E; auto). exact A.
    - intros [A B]. split.
      + intros s Hs. specialize (A s Hs).
        rewrite (sumn_ext _ (fun i => if belongs (a_inv (rf_sys rf)) i s then y i else 0%R) (fun i => if belongs (a_inv (rf_sys rf)) i s then x i else 0%R)) by (intros d Hd; rewrite E; auto).
        rewrite (sumn_ext _ (fun d => Q2R (mget (a_P (rf_sys rf)) d s) * y d)%R (fun d => Q2R (mget (a_P (rf_sys rf)) d s) * x d)%R) by (intros d Hd; rewrite E; auto). exact A.
      + rewrite (sumn_ext _ (fun i => Q2R (mget (a_P (rf_sys rf)) i (a_N (rf_sys rf) - 2)) * y i)%R (fun i => Q2R (mget (a_P (rf_sys rf)) i (a_N (rf_sys rf) - 2)) * x i)%R) by (intros d Hd; rewrite E; auto). exact B.
    - auto.
  Qed.

  (** Rational points. *)
  Lemma polytope_z : forall t z, polytope rf Min t (vec z) -> z_constraints P inv (rf_init rf) t z.
  Proof. intros t z H. apply (polytope_min rf BF) in H. apply (z_real rf BF). exact H. Qed.
  Lemma polytope_y : forall t y, polytope rf Max t (vec y) -> y_constraints P inv (rf_init rf) t y.
  Proof.
    intros t y H. apply (polytope_max rf BF) in H. destruct H as [A B]. split.
    - intros s Hs. specialize (A s Hs). unfold vec in A. change (fun j => Q2R (nth j y 0%Q)) with (fun j => Q2R (entry y j)) in A. rewrite (balance_vec rf BF y s Hs) in A.
      apply Rle_Qle. eapply Rle_trans; [exact A|]. destruct (s =? rf_init rf); [rewrite RMicromega.Q2R_1|rewrite RMicromega.Q2R_0]; lra.
    - change (vec y) with (fun j => Q2R (entry y j)) in B. rewrite (to_goal_vec rf) in B. apply Rle_Qle. exact B.
  Qed.
  Lemma point_cert : forall md t ub cert, length cert = cert_dim rf md -> polytope rf md t (vec cert) -> (forall v, v < cert_dim rf md -> vb rf md ub v (vec cert v)) -> cert_point rf md t cert.
  Proof.
    intros md t ub cert L HP HV. destruct md; cbn [cert_point cert_dim] in *; [| |contradiction].
    - split; [apply polytope_z; auto|]. split; [exact L|]. intros s Hs HE. destruct (HV s Hs) as (_ & B & _). specialize (B eq_refl HE). apply Rle_Qle. rewrite RMicromega.Q2R_0. exact B.
    - split; [apply polytope_y; auto|]. split; [exact L|]. intros i Hic. destruct (HV i Hic) as (B & _). apply Rle_Qle. rewrite RMicromega.Q2R_0. exact B.
  Qed.

  (** ** The state a variable belongs to *)
  Definition own (md : mode) (v : nat) : nat := match md with Max => row_src m v | _ => v end.

  Lemma belongs_src : forall i s, i < c -> (belongs inv i s = true <-> row_src m i = s).
  Proof. intros i s H. destruct (br_row rf BF i H) as (a & E & _). unfold belongs, row_src. change (inv i) with (a_inv (rf_sys rf) i). unfold m. rewrite E. apply Nat.eqb_eq. Qed.
  Lemma own_lt : forall md v, v < cert_dim rf md -> own md v < n.
  Proof.
    intros md v H. destruct md; cbn [own cert_dim] in *; [exact H| |exact H]. destruct (br_row rf BF v H) as (a & E & L). unfold row_src, m. rewrite E. exact L.
  Qed.
  Lemma own_src : forall v, v < c -> own Max v = src M v.
  Proof. intros v H. destruct (br_row rf BF v H) as (a & E & L). unfold own, row_src, m. rewrite E. reflexivity. Qed.

  Lemma chosen_iff : forall md cert s, md <> OtherMode -> s < n -> (chosen m md cert s = true <-> exists v, v < cert_dim rf md /\ own md v = s /\ (0 < vec cert v)%R).
  Proof.
    intros md cert s Hm Hs. destruct md; [| |congruence]; cbn [chosen own cert_dim].
    - rewrite positive_iff. split; [intros H; exists s; auto|intros (v & _ & -> & H); exact H].
    - rewrite existsb_exists. split.
      + intros (i & Hin & HB). apply in_seq in Hin. apply andb_prop in HB. destruct HB as [B1 B2]. exists i. split; [unfold m in Hin; lia|]. split; [apply belongs_src; [unfold c, rf_C; unfold m in Hin; lia|exact B1]|apply positive_iff; exact B2].
      + intros (i & Hic & Ho & Hp). exists i. split; [apply in_seq; unfold m; lia|]. apply andb_true_iff. split; [apply belongs_src; [exact Hic|exact Ho]|apply positive_iff; exact Hp].
  Qed.

  Lemma group_states : forall md gs, md <> OtherMode -> grouping rf md None (match md with Max => true | _ => false end) gs ->
    exists ss, NoDup ss /\ (forall s, In s ss <-> s < n) /\ Forall2 (fun s G => forall v, In v G <-> v < cert_dim rf md /\ own md v = s) ss gs.
  Proof.
    intros md gs Hm H. destruct md; [| |congruence]; cbn [grouping] in H.
    - subst gs. change (cert_dim rf Min) with n. exists (seq 0 n). split; [apply seq_NoDup|]. split; [intros s; rewrite in_seq; lia|].
      assert (K : forall l, (forall s, In s l -> s < n) -> Forall2 (fun s G => forall v, In v G <-> v < n /\ own Min v = s) l (map (fun i => [i]) l)).
      { induction l as [|s l IH]; intros HL; [constructor|]. cbn [map]. constructor; [|apply IH; intros; apply HL; right; auto]. intros v. cbn [own In]. split.
        - intros [<-|[]]. split; [apply HL; left; auto|auto].
        - intros [_ ->]. left; auto. }
      apply K. intros s Hs. apply in_seq in Hs. lia.
    - destruct H as (ss & ND & HS & F). exists ss. split; [exact ND|]. split; [exact HS|].
      eapply Forall2_impl; [|exact F]. cbn beta. intros s G [_ HG] v. rewrite HG. cbn [cert_dim own]. split; intros [A B]; (split; [exact A|]); apply (belongs_src v s A); exact B.
  Qed.

  (** ** The solutions of the non-relaxed models *)
  Lemma ind_sat_bin : forall u x sigma G, (forall v, In v G -> v < length u /\ v <> sigma) ->
    (ind_sat DBinary (Some u) x sigma G <-> (x sigma = 0%R \/ x sigma = 1%R) /\ forall v, In v G -> (x v <= vec u v * x sigma)%R).
  Proof.
    intros u x sigma G HG. unfold ind_sat. cbn [sat_dom k_of]. split; intros [A B]; (split; [exact A|]).
    - intros v Hv. destruct (HG v Hv) as [L N]. destruct (nth_error u v) as [q|] eqn:E; [|apply nth_error_None in E; lia].
      specialize (B v q Hv E). rewrite ind_con_sat in B by auto. unfold vec. rewrite (nth_error_nth _ _ _ E). exact B.
    - intros v k Hv E. destruct (HG v Hv) as [L N]. rewrite ind_con_sat by auto. specialize (B v Hv). unfold vec in B. rewrite (nth_error_nth _ _ _ E) in B. exact B.
  Qed.

  Lemma vb_some : forall md u v r, v < length u -> (vb rf md (Some u) v r <-> (0 <= r)%R /\ (md = Min -> in_some_ec P inv v -> (r <= 0)%R) /\ (~ (md = Min /\ in_some_ec P inv v) -> (r <= vec u v)%R)).
  Proof.
    intros md u v r L. unfold vb. destruct (nth_error u v) as [q|] eqn:E; [|apply nth_error_None in E; lia]. unfold vec. rewrite (nth_error_nth _ _ _ E). cbn [below]. fold m P inv. tauto.
  Qed.


  Lemma bounds_length : forall S t A b u, (forall lp, upper_bound_lp A c b = Ok lp -> sr_status (S lp) = Optimal -> length (sr_vec (S lp)) = length (mi_vars lp)) ->
    fark_constraints rf t Max = Ok (A, b) -> compute_upper_bounds S A c b = Ok (Optimal, u) -> length u = c.
  Proof.
    intros S t A b u HS EA EC. destruct (upper_bound_lp_spec rf BF Hi t) as (A' & b' & lp & EA' & LA & EL & _ & LV & _). rewrite EA in EA'. injection EA' as <- <-.
    fold c in EL, LV. unfold compute_upper_bounds in EC. rewrite EL in EC. cbn [bind] in EC. apply bind_ok in EC. destruct EC as (u0 & _ & EC). injection EC as E1 E2.
    rewrite <- E2. destruct (c + 1 =? length A); [|apply repeat_length]. rewrite (HS lp EL E1). exact LV.
  Qed.

  Lemma construct_exact : forall S t md labels mm ind, sized S -> construct_milp S rf t md labels false None = Ok (Some (mm, ind)) ->
    exists u, length u = cert_dim rf md /\ md <> OtherMode /\ (md = Min -> u = repeat 1%Q (cert_dim rf md)) /\
      (md = Max -> is_ec_free rf = true /\ exists A b, fark_constraints rf t Max = Ok (A, b) /\ compute_upper_bounds S A c b = Ok (Optimal, u)) /\
      exists gs, grouping rf md labels (match md with Max => true | _ => false end) gs /\ construct_spec rf md t false (Some u) gs mm ind.
  Proof.
    intros S t md labels mm ind HS H.
    assert (HU : forall u, (exists A b, fark_constraints rf t md = Ok (A, b) /\ choose_bounds S rf A (cert_dim rf md) b md None = Ok (Some (Some u))) ->
       length u = cert_dim rf md /\ (md = Min -> u = repeat 1%Q (cert_dim rf md)) /\
       (md = Max -> is_ec_free rf = true /\ exists A b, fark_constraints rf t Max = Ok (A, b) /\ compute_upper_bounds S A c b = Ok (Optimal, u))).
    { intros u (A & b & EA & EC). destruct md; cbn [choose_bounds] in EC.
      - injection EC as <-. split; [apply repeat_length|]. split; [auto|discriminate].
      - destruct (is_ec_free rf) eqn:EF; [|discriminate]. apply bind_ok in EC. destruct EC as ([st u'] & E & EC). destruct st; try discriminate. injection EC as ->.
        split; [|split; [discriminate|intros _; split; [auto|exists A, b; auto]]]. eapply bounds_length; [|exact EA|exact E]. intros lp _; apply HS.
      - cbn in EA. discriminate. }
    destruct (construct_inv rf BF Hi S t md labels false mm ind H (fun u Hu => proj1 (HU u Hu))) as (ub & gs & A & b & Hm & EA & EC & N1 & N2 & EG & CS).
    destruct ub as [u|]; [|exfalso; apply N1; auto]. destruct (HU u ltac:(eauto)) as (L & U1 & U2). exists u. split; [exact L|]. split; [exact Hm|]. split; [exact U1|]. split; [exact U2|].
    exists gs. split; [|exact CS]. apply (groups_ok rf BF). destruct md; exact EG.
  Qed.

  Lemma exact_members : forall md t u gs mm ind, length u = cert_dim rf md -> construct_spec rf md t false (Some u) gs mm ind ->
    forall sigma G, In (sigma, G) ind -> cert_dim rf md <= sigma /\ forall v, In v G -> v < length u /\ v <> sigma.
  Proof.
    intros md t u gs mm ind L (EI & _ & _ & _ & _ & HM & _) sigma G Hin. rewrite EI in Hin. apply in_combine_seq in Hin. destruct Hin as (i & EG & ->). split; [lia|].
    intros v Hv. destruct (HM G v (nth_error_In _ _ EG) Hv) as [_ K]. cbn [k_of] in K. apply nth_error_Some in K. split; [exact K|lia].
  Qed.

  Lemma vb_point : forall md t u gs mm ind x, length u = cert_dim rf md -> (md = Min -> u = repeat 1%Q (cert_dim rf md)) -> construct_spec rf md t false (Some u) gs mm ind ->
    (feasible mm x <-> polytope rf md t x /\ (forall v, v < cert_dim rf md -> (0 <= x v <= vec u v)%R /\ (md = Min -> in_some_ec P inv v -> x v = 0%R)) /\
      forall sigma G, In (sigma, G) ind -> (x sigma = 0%R \/ x sigma = 1%R) /\ forall v, In v G -> (0 < x v)%R -> x sigma = 1%R).
  Proof.
    intros md t u gs mm ind x L U1 CS. pose proof (exact_members md t u gs mm ind L CS) as MB. destruct CS as (_ & _ & _ & _ & _ & _ & _ & F). rewrite F. clear F. cbn match.
    assert (EV : (forall v, v < cert_dim rf md -> vb rf md (Some u) v (x v)) <-> (forall v, v < cert_dim rf md -> (0 <= x v <= vec u v)%R /\ (md = Min -> in_some_ec P inv v -> x v = 0%R))).
    { split; intros H v Hv; specialize (H v Hv).
      - rewrite vb_some in H by lia. destruct H as (A & B & C). split; [|intros E1 E2; specialize (B E1 E2); lra]. split; [exact A|].
        destruct (classic (md = Min /\ in_some_ec P inv v)) as [[E1 E2]|N]; [|auto]. specialize (B E1 E2). rewrite (U1 E1). unfold vec. rewrite (nth_indep _ _ 1%Q) by (rewrite repeat_length; auto). rewrite nth_repeat, RMicromega.Q2R_1. lra.
      - rewrite vb_some by lia. destruct H as ((A & B) & C). split; [exact A|]. split; [intros E1 E2; rewrite C; auto; lra|auto]. }
    rewrite EV. split; intros (H1 & H2 & H3); (split; [exact H1|split; [exact H2|]]); intros sigma G Hin; specialize (H3 sigma G Hin); destruct (MB sigma G Hin) as (_ & HG).
    - rewrite ind_sat_bin in H3 by exact HG. destruct H3 as (B & C). split; [exact B|]. intros v Hv Hp. specialize (C v Hv). destruct B as [E|E]; [rewrite E in C; exfalso; lra|exact E].
    - rewrite ind_sat_bin by exact HG. destruct H3 as (B & C). split; [exact B|]. intros v Hv. destruct (HG v Hv) as [Lv _]. destruct (H2 v ltac:(lia)) as ((X0 & X1) & _).
      destruct (Rle_lt_or_eq_dec _ _ X0) as [Hp|E0]; [rewrite (C v Hv Hp); lra|]. destruct B as [E|E]; rewrite E; lra.
  Qed.

  (** ** C38 *)
  Lemma C38_lemma : forall S t md labels mm ind, sized S -> construct_milp S rf t md labels false None = Ok (Some (mm, ind)) ->
    exists u, length u = cert_dim rf md /\ (md = Min -> u = repeat 1%Q (cert_dim rf md)) /\
      (md = Max -> exists A b, fark_constraints rf t Max = Ok (A, b) /\ compute_upper_bounds S A (cert_dim rf md) b = Ok (Optimal, u)) /\
      map fst ind = seq (cert_dim rf md) (length ind) /\ grouping rf md labels true (map snd ind) /\
      (forall x, feasible mm x <-> polytope rf md t x /\
        (forall v, v < cert_dim rf md -> (0 <= x v <= vec u v)%R /\ (md = Min -> in_some_ec P inv v -> x v = 0%R)) /\
        forall sigma G, In (sigma, G) ind -> (x sigma = 0%R \/ x sigma = 1%R) /\ forall v, In v G -> (0 < x v)%R -> x sigma = 1%R) /\
      (forall x, feasible mm x -> objective mm x = INR (ones (map fst ind) x)) /\ mi_dir mm = Minimise.
  Proof.
    intros S t md labels mm ind HS H. destruct (construct_exact S t md labels mm ind HS H) as (u & L & Hm & U1 & U2 & gs & HG & CS). exists u.
    pose proof (vb_point md t u gs mm ind) as VP.
    pose proof CS as (EI & LV & D & _ & _ & _ & OB & _).
    assert (LI : length ind = length gs) by (rewrite EI, combine_length, seq_length; lia).
    assert (FX : map fst ind = seq (cert_dim rf md) (length ind)) by (rewrite LI, EI; apply combine_fst; rewrite seq_length; auto).
    assert (SX : map snd ind = gs). { rewrite EI. clear. generalize (cert_dim rf md). induction gs as [|G gs IH]; intros k; [reflexivity|]. cbn. rewrite IH. reflexivity. }
    split; [exact L|]. split; [exact U1|]. split; [intros ->; destruct (U2 eq_refl) as (_ & A & b & E1 & E2); exists A, b; auto|]. split; [exact FX|]. split.
    { rewrite SX. destruct md; [|exact HG|congruence]. destruct labels; exact HG. }
    split; [intros x; apply VP; auto|]. split; [|exact D].
    intros x F. rewrite OB. apply ones_sum. intros j Hj. apply in_map_iff in Hj. destruct Hj as ([s G] & <- & Hin). apply (VP x L U1 CS) in F. destruct F as (_ & _ & F). apply (F _ _ Hin).
  Qed.

  (** ** Construction succeeds *)
  Lemma grouping_members : forall md gs, md <> OtherMode -> grouping rf md None (match md with Max => true | _ => false end) gs ->
    forall G v, In G gs -> In v G -> v < cert_dim rf md.
  Proof.
    intros md gs Hm H G v HG Hv. destruct (group_states md gs Hm H) as (ss & _ & _ & F). clear H. induction F as [|s G' ss gs' HF F IH]; [destruct HG|].
    destruct HG as [->|HG]; [apply HF in Hv; apply Hv|auto].
  Qed.

  Lemma construct_total : forall S t md A b u, md <> OtherMode -> fark_constraints rf t md = Ok (A, b) -> choose_bounds S rf A (cert_dim rf md) b md None = Ok (Some (Some u)) ->
    length u = cert_dim rf md -> exists mm ind, construct_milp S rf t md None false None = Ok (Some (mm, ind)).
  Proof.
    intros S t md A b u Hm EA EC L. unfold construct_milp. rewrite EA. cbn [bind]. rewrite (size_ok rf md Hm). cbn [bind]. rewrite EC. cbn [bind].
    destruct (groups_none_total rf BF md (match md with Max => negb false | _ => false end) Hm) as (gs & EG).
    replace (assert_ (negb (negb false && match md with Max => false | _ => false end))) with (Ok tt) by (destruct md; reflexivity). cbn [bind].
    rewrite EG. cbn [bind].
    destruct (base_model rf BF Hi md t (Some u) Hm) as (A' & b' & bs & m0 & EA' & Eb & E0 & X1 & X2 & X3 & X4 & X5 & X6). { intros u' E. injection E as <-. exact L. }
    rewrite EA in EA'. injection EA' as <- <-. rewrite Eb. cbn [bind]. rewrite E0. cbn [bind].
    assert (HG : grouping rf md None (match md with Max => true | _ => false end) gs). { apply (groups_ok rf BF). destruct md; exact EG. }
    destruct (indicators_total DBinary (Some u) gs m0 [] ltac:(discriminate) X1 X2 ltac:(intros s []) ) as (m1 & ind & E1).
    { intros G v HGi Hv. pose proof (grouping_members md gs Hm HG G v HGi Hv). rewrite X3. split; [auto|]. cbn [k_of]. apply nth_error_Some. lia. }
    change (if false then DReal else DBinary) with DBinary. assert (E1' : add_indicator_constraints m0 (Some u) gs DBinary = Ok (m1, ind)) by exact E1. rewrite E1'. cbn [bind].
    destruct (indicators_inv _ _ _ _ _ _ _ X1 X2 (fun s (H : In s (dkeys (V := list nat) [])) => match H return _ with end) E1) as (A1 & A2 & A3 & A4 & A5 & A6 & A7 & A8).
    assert (EO : exists m2, set_objective m1 (all_ones ind) = Ok m2).
    { unfold set_objective, assert_expression. replace (forallb _ _) with true; [cbn; eauto|]. symmetry. apply forallb_forall. intros [v q] Hin. cbn [fst]. apply Nat.ltb_lt.
      unfold all_ones in Hin. apply in_map_iff in Hin. destruct Hin as ([s G] & Eq & Hin). cbn [fst] in Eq. injection Eq as <- <-. rewrite A6 in Hin. cbn [app] in Hin.
      apply in_combine_seq in Hin. destruct Hin as (i & EGi & ->). assert (i < length gs) by (apply nth_error_Some; congruence). lia. }
    destruct EO as (m2 & ->). cbn [bind]. eauto.
  Qed.

  (** ** Minimality *)
  Hypothesis EX : exact_rows P.
  Let SH : shape_mdp M := proj1 (br_rf rf BF EX).
  Definition WRk keep := RFW (restrict M keep) (R_shape M SH keep).

  Lemma witness_min : forall t keep, witness rf Min t keep <-> (Q2R t <= Vmin (restrict M keep) (WRk keep) (is_goal M) (rf_init rf))%R.
  Proof.
    intros t keep. assert (L : rf_init rf < nS (restrict M keep)) by (change (nS (restrict M keep)) with (a_N (rf_sys rf)); lia). split.
    - intros (p & HP & Ht). apply (PrMin_iff _ (WRk keep)) in HP; auto. subst p. exact Ht.
    - intros H. eexists. split; [apply (PrMin_iff _ (WRk keep)); [exact L|reflexivity]|exact H].
  Qed.
  Lemma witness_max : forall t keep, witness rf Max t keep <-> (Q2R t <= Vmax (restrict M keep) (WRk keep) (is_goal M) (rf_init rf))%R.
  Proof.
    intros t keep. assert (L : rf_init rf < nS (restrict M keep)) by (change (nS (restrict M keep)) with (a_N (rf_sys rf)); lia). split.
    - intros (p & HP & Ht). apply (PrMax_iff _ (WRk keep)) in HP; auto. subst p. exact Ht.
    - intros H. eexists. split; [apply (PrMax_iff _ (WRk keep)); [exact L|reflexivity]|exact H].
  Qed.

  (** The whole system. *)
  Definition opt_value (md : mode) : R := match md with Max => Vmx rf BF EX (rf_init rf) | _ => Vmn rf BF EX (rf_init rf) end.
  Lemma witness_below : forall md t keep, md <> OtherMode -> witness rf md t keep -> (Q2R t <= opt_value md)%R.
  Proof.
    intros md t keep Hm H. destruct md; [| |congruence]; cbn [opt_value].
    - apply witness_min in H. eapply Rle_trans; [exact H|]. unfold Vmn. rewrite (Vmin_irrel _ _ (RFW M SH)). apply (R_Vmin_le M SH keep). exact Hi.
    - apply witness_max in H. eapply Rle_trans; [exact H|]. unfold Vmx. rewrite (Vmax_irrel _ _ (RFW M SH)). apply (R_Vmax_le M SH keep). exact Hi.
  Qed.
  Lemma all_prob : forall r d, r < nA M -> d < nS M -> prob (restrict M (fun _ => true)) r d = prob M r d.
  Proof.
    intros r d Hr Hd. unfold restrict. cbn [prob]. destruct (Nat.ltb_spec r (nA M - 2)); [|reflexivity]. destruct (Nat.ltb_spec d (nS M - 2)); [reflexivity|].
    destruct (Nat.eqb_spec d (goal M)) as [->|Hg]; [reflexivity|]. pose proof (RFW M SH) as W. pose proof (W_sum M W r Hr) as HS. destruct (RF2 M SH) as [N2 _]. rewrite sumn_split2 in HS by lia.
    assert (d = fail M) as -> by (unfold goal, fail in *; lia). unfold kept_to. change (nS M - 2) with (goal M) in HS at 2. change (nS M - 1) with (fail M) in HS. rewrite (sumn_ext _ (fun d => if true then prob M r d else 0%R) (prob M r)) by reflexivity. lra.
  Qed.
  Lemma all_ex : forall r f, r < nA M -> ex (restrict M (fun _ => true)) r f = ex M r f.
  Proof. intros r f Hr. unfold ex. apply sumn_ext. intros d Hd. rewrite all_prob by auto. reflexivity. Qed.
  Lemma witness_all : forall md t, md <> OtherMode -> (Q2R t <= opt_value md)%R -> witness rf md t (fun _ => true).
  Proof.
    intros md t Hm H. assert (L : rf_init rf < nS M) by (change (nS M) with (a_N (rf_sys rf)); lia). destruct md; [| |congruence]; cbn [opt_value] in H.
    - apply witness_min. eapply Rle_trans; [exact H|]. unfold Vmn. rewrite (Vmin_irrel _ _ (RFW M SH)).
      assert (K : forall k s, s < nS M -> (vmin M (is_goal M) k s <= vmin (restrict M (fun _ => true)) (is_goal M) k s)%R).
      { induction k as [|k IH]; intros s Hs; [simpl; lra|]. simpl. destruct (is_goal M s); [lra|]. apply minr_glb; [apply minr_le1|]. intros r Hr Es.
        eapply Rle_trans; [apply (minr_le M s (fun r => ex M r (vmin M (is_goal M) k)) (nA M) r Hr Es)|]. rewrite all_ex by exact Hr. apply (ex_le M (RFW M SH)); auto. }
      apply Vmin_le. intros k. eapply Rle_trans; [apply K; exact L|]. apply vmin_le_Vmin.
    - apply witness_max. eapply Rle_trans; [exact H|]. unfold Vmx. rewrite (Vmax_irrel _ _ (RFW M SH)). apply Vmax_least; [| | |exact L].
      + intros s Hs. apply Vmax_bounds.
      + intros s Hs Ht. rewrite Vmax_T; auto. lra.
      + intros r Hr Ht. rewrite <- all_ex by exact Hr. apply (Vmax_ge_ex (restrict M (fun _ => true)) (WRk _) (is_goal M) r Hr Ht).
  Qed.
End Exact.
