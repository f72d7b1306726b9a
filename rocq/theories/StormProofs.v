(** Proofs about reading storm models. *)
From Coq Require Import String List Arith ZArith QArith Bool Lia.
From Coq Require Lqa.
From Verif Require Import Base BaseFacts Num Matrix MatFacts InvDict InvDictProofs SpecSystem SpecBuilt Amdp AmdpProofs ReachFormProofs BuiltFacts GroupProofs Storm SpecStorm FilesProofs3 FilesProofs4.
Import ListNotations.
Local Open Scope nat_scope.

(** ** Numbered lists *)
Lemma seq_nth : forall (A : Type) (l : list A) b i x, In (i, x) (combine (seq b (length l)) l) <-> b <= i /\ nth_error l (i - b) = Some x.
Proof.
  intros A. induction l as [|y l IH]; intros b i x; cbn [length seq combine In].
  - split; [tauto|]. intros [_ H]. destruct (i - b); discriminate.
  - rewrite IH. split.
    + intros [E|[H1 H2]]; [inversion E; subst; rewrite Nat.sub_diag; auto|]. split; [lia|]. replace (i - b) with (S (i - S b)) by lia. exact H2.
    + intros [H1 H2]. destruct (Nat.eq_dec b i) as [->|]; [left; rewrite Nat.sub_diag in H2; inversion H2; auto|]. right. split; [lia|]. replace (i - b) with (S (i - S b)) in H2 by lia. exact H2.
Qed.
Lemma numbered_nth : forall (A : Type) (l : list A) i x, In (i, x) (numbered l) <-> nth_error l i = Some x.
Proof. intros. unfold numbered. rewrite seq_nth, Nat.sub_0_r. split; [tauto|]. intros H. split; [lia|exact H]. Qed.
Lemma numbered_snoc : forall (A : Type) (l : list A) x, numbered (l ++ [x]) = numbered l ++ [(length l, x)].
Proof.
  intros. unfold numbered. rewrite app_length. cbn [length]. rewrite Nat.add_1_r, seq_S. cbn [plus].
  assert (G : forall (l1 : list nat) (l2 : list A) a b, length l1 = length l2 -> combine (l1 ++ [a]) (l2 ++ [b]) = combine l1 l2 ++ [(a, b)]).
  { induction l1; intros [|y l2] a' b' H; simpl in *; try discriminate; auto. f_equal. apply IHl1. lia. }
  apply G. apply seq_length.
Qed.
Lemma numbered_map : forall (A : Type) (l : list A), map snd (numbered l) = l.
Proof.
  intros. unfold numbered. generalize 0. induction l as [|x l IH]; intros b; [reflexivity|]. cbn [length seq combine map snd]. f_equal. apply IH.
Qed.
Lemma numbered_length : forall (A : Type) (l : list A), length (numbered l) = length l.
Proof. intros. unfold numbered. rewrite combine_length, seq_length. lia. Qed.
Lemma numbered_nodup : forall (A : Type) (l : list A), NoDup (map fst (numbered l)).
Proof.
  intros. unfold numbered. replace (map fst (combine (seq 0 (length l)) l)) with (seq 0 (length l)); [apply seq_NoDup|].
  generalize 0. induction l as [|x l IH]; intros b; [reflexivity|]. cbn [length seq combine map fst]. f_equal. apply IH.
Qed.

Lemma nodup_app : forall (A : Type) (l r : list A), NoDup l -> NoDup r -> (forall x, In x l -> In x r -> False) -> NoDup (l ++ r).
Proof.
  intros A. induction l as [|x l IH]; intros r N1 N2 D; [exact N2|]. inversion N1; subst. cbn [app]. constructor.
  - rewrite in_app_iff. intros [H|H]; [auto|]. apply (D x); [left; auto|auto].
  - apply IH; auto. intros y Y1 Y2. apply (D y); [right; auto|auto].
Qed.

(** ** Choices *)
Definition flat (l : list (nat * storm_state)) : list (nat * nat * storm_action) :=
  flat_map (fun e : nat * storm_state => map (fun x : nat * storm_action => ((fst e, fst x), snd x)) (numbered (st_actions (snd e)))) l.
Lemma choices_flat : forall sm, choices sm = flat (numbered sm). Proof. reflexivity. Qed.
Lemma flat_app : forall l1 l2, flat (l1 ++ l2) = flat l1 ++ flat l2.
Proof. intros. unfold flat. apply flat_map_app. Qed.
Lemma choices_length : forall sm, length (choices sm) = nr_choices sm.
Proof.
  intros sm. unfold nr_choices. rewrite <- (numbered_map _ sm) at 2. rewrite choices_flat. induction (numbered sm) as [|[i s] l IH]; [reflexivity|].
  change ((i, s) :: l) with ([(i, s)] ++ l). rewrite flat_app, app_length, IH, map_app, flat_map_app, app_length. f_equal. unfold flat. cbn [flat_map map snd fst]. rewrite !app_nil_r, map_length, numbered_length. reflexivity.
Qed.
Lemma choices_in : forall sm s a ac, In ((s, a), ac) (choices sm) <-> exists st, nth_error sm s = Some st /\ nth_error (st_actions st) a = Some ac.
Proof.
  intros sm s a ac. unfold choices. rewrite in_flat_map. split.
  - intros ([i st] & H1 & H2). apply in_map_iff in H2. destruct H2 as ([a' ac'] & E & H2). inversion E; subst. apply numbered_nth in H1, H2. eauto.
  - intros (st & H1 & H2). exists (s, st). split; [apply numbered_nth; auto|]. apply in_map_iff. exists (a, ac). split; auto. apply numbered_nth. auto.
Qed.
Lemma choices_nodup : forall sm, NoDup (map fst (choices sm)).
Proof.
  intros sm. rewrite choices_flat. pose proof (numbered_nodup _ sm) as N. induction (numbered sm) as [|[i s] l IH]; [constructor|]. cbn [map fst] in N. inversion N; subst.
  change ((i, s) :: l) with ([(i, s)] ++ l). rewrite flat_app, map_app. apply nodup_app; [|apply IH; auto|].
  - unfold flat. cbn [flat_map fst snd]. rewrite app_nil_r, map_map. cbn [fst]. apply nodup_map_inj.
    + intros [a ac] [b bc] H H' E. cbn [fst] in E. inversion E; subst. apply numbered_nth in H, H'. congruence.
    + eapply NoDup_map_inv. apply numbered_nodup.
  - intros [s' a'] H H'. apply in_map_iff in H. destruct H as ([sa ac] & E & H). cbn [fst] in E. subst sa. unfold flat in H. cbn [flat_map fst snd] in H. rewrite app_nil_r in H. apply in_map_iff in H. destruct H as ([b bc] & E & H). inversion E; subst.
    apply in_map_iff in H'. destruct H' as ([sa' ac'] & E' & H'). cbn [fst] in E'. subst sa'. unfold flat in H'. apply in_flat_map in H'. destruct H' as ([j t] & J1 & J2). apply in_map_iff in J2. destruct J2 as ([c cc] & E2 & J2). inversion E2; subst.
    apply H1. apply in_map_iff. exists (s', t). auto.
Qed.

(** ** Matrices *)
Definition msetE (P : mat) (e : nat * nat * Q) : res mat := mset P (fst (fst e)) (snd (fst e)) (snd e).
Lemma mfold_ok : forall R K L, NoDup (map fst L) -> (forall i d q, In ((i, d), q) L -> i < R /\ d < K) ->
  exists P, foldM msetE L (mzero R K) = Ok P /\ mrows P = R /\ mcols P = K /\ NoDup (map fst (mitems P)) /\
    forall s d q, In ((s, d), q) (mitems P) <-> In ((s, d), q) L /\ ~ (q == 0)%Q.
Proof.
  intros R K L LN LB.
  apply foldM_ok with (I := fun pre P => mrows P = R /\ mcols P = K /\ NoDup (map fst (mitems P)) /\ forall s d q, In ((s, d), q) (mitems P) <-> In ((s, d), q) pre /\ ~ (q == 0)%Q).
  - simpl. split; [auto|]. split; [auto|]. split; [constructor|]. intros. tauto.
  - intros pre [[s d] q] P (I1 & I2 & I3 & I4) (post & EL). unfold msetE. cbn [fst snd]. destruct (LB s d q) as [B1 B2]; [rewrite EL; apply in_or_app; right; left; auto|].
    assert (FR : forall q', ~ In ((s, d), q') pre).
    { intros q' X. rewrite EL, map_app in LN. apply NoDup_remove_2 in LN. apply LN. apply in_or_app. left. apply in_map_iff. exists ((s, d), q'). auto. }
    assert (FI : ~ In (s, d) (map fst (mitems P))). { intros X. apply in_map_iff in X. destruct X as ([k q'] & X1 & X2). simpl in X1. subst. apply I4 in X2. eapply FR. apply X2. }
    rewrite mset_fresh by (auto; lia). eexists. split; [reflexivity|]. cbn [mrows mcols mitems]. split; [auto|]. split; [auto|]. split.
    + destruct (Qeq_bool q 0); [auto|]. rewrite map_app. cbn [map fst]. apply NoDup_snoc_iff. auto.
    + intros s' d' q'. rewrite in_snoc. destruct (Qeq_bool q 0) eqn:Eq.
      * apply Qeq_bool_iff in Eq. rewrite I4. split; [tauto|]. intros [[X|X] Y]; [auto|inversion X; subst; contradiction].
      * assert (NZ : ~ (q == 0)%Q) by (intros X; apply Qeq_bool_iff in X; congruence). rewrite in_snoc, I4. split; [intros [X|X]; [tauto|inversion X; subst; auto]|intros [[X|X] Y]; auto].
Qed.
Lemma foldM_app : forall (S X : Type) (f : S -> X -> res S) l1 l2 s, foldM f (l1 ++ l2) s = (let* t := foldM f l1 s in foldM f l2 t).
Proof. intros S X f. induction l1 as [|x l1 IH]; intros l2 s; [reflexivity|]. cbn [app foldM]. destruct (f s x); [apply IH|reflexivity]. Qed.
Lemma set_row_E : forall i ts P, set_row P i ts = foldM msetE (map (fun t => ((i, fst t), snd t)) ts) P.
Proof. intros i. unfold set_row. induction ts as [|t ts IH]; intros P; [reflexivity|]. cbn [map foldM]. unfold msetE at 1. cbn [fst snd]. destruct (mset P i (fst t) (snd t)); [apply IH|reflexivity]. Qed.

(** ** Labels *)
Lemma add_state_labels_E : forall ls s d, add_state_labels d ls s = collect String.eqb Nat.eqb (map (fun l => (l, s)) ls) d.
Proof. intros ls s. unfold add_state_labels, collect. induction ls as [|l ls IH]; intros d; [reflexivity|]. cbn [fold_left map fst snd]. apply IH. Qed.
Lemma add_action_labels_E : forall ls s d, add_action_labels d ls s = collect String.eqb pair_eqb (map (fun l => (l, s)) ls) d.
Proof. intros ls s. unfold add_action_labels, collect. induction ls as [|l ls IH]; intros d; [reflexivity|]. cbn [fold_left map fst snd]. apply IH. Qed.

(** ** The loop over all actions, generically *)
Section Loop.
  Variable sm : storm.
  Variable idxf : nat -> nat * nat -> list ((nat * nat) * nat).
  Variable entf : nat -> storm_action -> list (nat * nat * Q).
  Variable alf : nat * nat -> storm_action -> list (string * (nat * nat)).
  Variable slf : nat -> storm_action -> list (string * nat).
  Variable ssf : nat -> storm_state -> list (string * nat).
  Variable act : nat -> conv -> nat * storm_action -> res conv.
  Variable sta : conv -> nat * storm_state -> res conv.
  Variable P0 Pf : mat.
  Definition IDX (pre : list (nat * nat * storm_action)) := flat_map (fun e : nat * (nat * nat * storm_action) => idxf (fst e) (fst (snd e))) (numbered pre).
  Definition ENT (pre : list (nat * nat * storm_action)) := flat_map (fun e : nat * (nat * nat * storm_action) => entf (fst e) (snd (snd e))) (numbered pre).
  Definition ALL (pre : list (nat * nat * storm_action)) := flat_map (fun e : nat * nat * storm_action => alf (fst e) (snd e)) pre.
  Definition ACT (pre : list (nat * nat * storm_action)) := flat_map (fun e : nat * (nat * nat * storm_action) => slf (fst e) (snd (snd e))) (numbered pre).
  Definition STE (pre : list (nat * storm_state)) := flat_map (fun e : nat * storm_state => ssf (fst e) (snd e)) pre.
  Hypothesis TOT : foldM msetE (ENT (choices sm)) P0 = Ok Pf.
  Hypothesis HA : forall pre post sid aid ac P al sl P', choices sm = pre ++ ((sid, aid), ac) :: post -> foldM msetE (entf (length pre) ac) P = Ok P' ->
    act sid (MkConv P (IDX pre) al sl (length pre)) (aid, ac) =
    Ok (MkConv P' (IDX pre ++ idxf (length pre) (sid, aid)) (collect String.eqb pair_eqb (alf (sid, aid) ac) al) (collect String.eqb Nat.eqb (slf (length pre) ac) sl) (S (length pre))).
  Hypothesis HS : forall st sid s, sta st (sid, s) = foldM (act sid) (numbered (st_actions s)) (MkConv (c_P st) (c_idx st) (c_al st) (collect String.eqb Nat.eqb (ssf sid s) (c_sl st)) (c_max st)).

  Lemma IDX_snoc : forall pre x, IDX (pre ++ [x]) = IDX pre ++ idxf (length pre) (fst x).
  Proof. intros. unfold IDX. rewrite numbered_snoc, flat_map_app. cbn [flat_map fst snd]. rewrite app_nil_r. reflexivity. Qed.
  Lemma ENT_snoc : forall pre x, ENT (pre ++ [x]) = ENT pre ++ entf (length pre) (snd x).
  Proof. intros. unfold ENT. rewrite numbered_snoc, flat_map_app. cbn [flat_map fst snd]. rewrite app_nil_r. reflexivity. Qed.
  Lemma ACT_snoc : forall pre x, ACT (pre ++ [x]) = ACT pre ++ slf (length pre) (snd x).
  Proof. intros. unfold ACT. rewrite numbered_snoc, flat_map_app. cbn [flat_map fst snd]. rewrite app_nil_r. reflexivity. Qed.
  Lemma ENT_app : forall post pre, exists r, ENT (pre ++ post) = ENT pre ++ r.
  Proof.
    induction post as [|x post IH]; intros pre; [exists []; rewrite !app_nil_r; auto|]. replace (pre ++ x :: post) with ((pre ++ [x]) ++ post) by (rewrite <- app_assoc; auto).
    destruct (IH (pre ++ [x])) as (r & E). rewrite E, ENT_snoc, <- app_assoc. eauto.
  Qed.
  Definition inv (st : conv) (pre : list (nat * nat * storm_action)) (S : string * nat -> Prop) : Prop :=
    foldM msetE (ENT pre) P0 = Ok (c_P st) /\ c_idx st = IDX pre /\ c_max st = length pre /\ c_al st = collect String.eqb pair_eqb (ALL pre) [] /\
    exists ev, c_sl st = collect String.eqb Nat.eqb ev [] /\ forall x, In x ev <-> S x \/ In x (ACT pre).

  Lemma inner : forall sid acts pre post st S, choices sm = pre ++ map (fun x : nat * storm_action => ((sid, fst x), snd x)) acts ++ post -> inv st pre S ->
    exists st', foldM (act sid) acts st = Ok st' /\ inv st' (pre ++ map (fun x => ((sid, fst x), snd x)) acts) S.
  Proof.
    intros sid. induction acts as [|[aid ac] acts IH]; intros pre post st S E I; [exists st; split; [reflexivity|]; rewrite app_nil_r; auto|]. cbn [map fst snd] in E. cbn [foldM].
    destruct I as (I1 & I2 & I3 & I4 & ev & I5 & I6). destruct st as [P idx al sl mx]. cbn [c_P c_idx c_al c_sl c_max] in *. subst idx mx al sl.
    assert (E' : choices sm = (pre ++ [((sid, aid), ac)]) ++ map (fun x : nat * storm_action => ((sid, fst x), snd x)) acts ++ post) by (rewrite <- app_assoc; exact E).
    assert (EX : exists P', foldM msetE (entf (length pre) ac) P = Ok P' /\ foldM msetE (ENT (pre ++ [((sid, aid), ac)])) P0 = Ok P').
    { pose proof TOT as X. rewrite E' in X. destruct (ENT_app (map (fun x : nat * storm_action => ((sid, fst x), snd x)) acts ++ post) (pre ++ [((sid, aid), ac)])) as (r & Er). rewrite Er, foldM_app in X. rewrite ENT_snoc, foldM_app in *. rewrite I1 in *. cbn [bind snd] in *.
      destruct (foldM msetE (entf (length pre) ac) P) as [P'|]; [eauto|discriminate]. }
    destruct EX as (P' & E1 & E2). rewrite (HA pre (map (fun x : nat * storm_action => ((sid, fst x), snd x)) acts ++ post) sid aid ac P _ _ P' E E1). cbn [bind].
    destruct (IH (pre ++ [((sid, aid), ac)]) post (MkConv P' (IDX pre ++ idxf (length pre) (sid, aid)) (collect String.eqb pair_eqb (alf (sid, aid) ac) (collect String.eqb pair_eqb (ALL pre) []))
      (collect String.eqb Nat.eqb (slf (length pre) ac) (collect String.eqb Nat.eqb ev [])) (Datatypes.S (length pre))) S E') as (st' & F1 & F2).
    { split; [exact E2|]. cbn [c_idx c_max c_al c_sl]. split; [rewrite IDX_snoc; reflexivity|]. split; [rewrite app_length; cbn [length]; lia|]. split.
      - rewrite <- collect_app. unfold ALL. rewrite flat_map_app. cbn [flat_map fst snd]. rewrite app_nil_r. reflexivity.
      - exists (ev ++ slf (length pre) ac). split; [rewrite collect_app; reflexivity|]. intros x. rewrite in_app_iff, I6, ACT_snoc, in_app_iff. cbn [snd]. tauto. }
    exists st'. split; [exact F1|]. cbn [map fst snd]. rewrite <- app_assoc in F2. exact F2.
  Qed.
  Lemma outer : forall ss spre st, numbered sm = spre ++ ss -> inv st (flat spre) (fun x => In x (STE spre)) -> exists st', foldM sta ss st = Ok st' /\ inv st' (choices sm) (fun x => In x (STE (numbered sm))).
  Proof.
    induction ss as [|[sid s] ss IH]; intros spre st E I.
    - exists st. split; [reflexivity|]. rewrite app_nil_r in E. rewrite choices_flat, E. exact I.
    - cbn [foldM]. rewrite HS.
      assert (E' : numbered sm = (spre ++ [(sid, s)]) ++ ss) by (rewrite <- app_assoc; exact E).
      assert (FE : flat (spre ++ [(sid, s)]) = flat spre ++ map (fun x => ((sid, fst x), snd x)) (numbered (st_actions s))). { rewrite flat_app. f_equal. unfold flat. cbn [flat_map fst snd]. apply app_nil_r. }
      destruct (inner sid (numbered (st_actions s)) (flat spre) (flat ss) (MkConv (c_P st) (c_idx st) (c_al st) (collect String.eqb Nat.eqb (ssf sid s) (c_sl st)) (c_max st)) (fun x => In x (STE (spre ++ [(sid, s)])))) as (st' & F1 & F2).
      { rewrite choices_flat, E', flat_app, FE, <- app_assoc. reflexivity. }
      { destruct I as (I1 & I2 & I3 & I4 & ev & I5 & I6). split; [exact I1|]. split; [exact I2|]. split; [exact I3|]. split; [exact I4|]. cbn [c_sl]. exists (ev ++ ssf sid s). split; [rewrite collect_app, I5; reflexivity|].
        intros x. unfold STE. rewrite flat_map_app, !in_app_iff, I6. cbn [flat_map fst snd]. rewrite app_nil_r. unfold STE. tauto. }
      rewrite F1. cbn [bind]. apply (IH (spre ++ [(sid, s)])); [exact E'|]. rewrite FE. exact F2.
  Qed.
  Lemma loop : exists st, foldM sta (numbered sm) (MkConv P0 [] [] [] 0) = Ok st /\ c_P st = Pf /\ c_idx st = IDX (choices sm) /\ c_al st = collect String.eqb pair_eqb (ALL (choices sm)) [] /\
    exists ev, c_sl st = collect String.eqb Nat.eqb ev [] /\ forall x, In x ev <-> In x (STE (numbered sm)) \/ In x (ACT (choices sm)).
  Proof.
    destruct (outer (numbered sm) [] (MkConv P0 [] [] [] 0) eq_refl) as (st & E & I1 & I2 & _ & I4 & I5).
    - split; [reflexivity|]. split; [reflexivity|]. split; [reflexivity|]. split; [reflexivity|]. exists []. split; [reflexivity|]. intros x. simpl. tauto.
    - exists st. split; [exact E|]. split; [rewrite TOT in I1; congruence|]. auto.
  Qed.
End Loop.
