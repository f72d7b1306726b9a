(** Proofs about reading and writing: label files. *)
From Coq Require Import String List Arith NArith ZArith QArith Bool Ascii Lia.
From Verif Require Import Base BaseFacts Num Matrix InvDict InvDictProofs SpecFiles Amdp BuiltFacts Files FilesProofs.
Import ListNotations.
Local Open Scope nat_scope.

Lemma unstr_str : forall s, unstr (str s) = s.
Proof. intros. apply string_of_list_ascii_of_string. Qed.

(** ** The header *)
Definition mark (il : nat * string) : text := show_nat (fst il) ++ EQUALS :: QUOTE :: str (snd il) ++ [QUOTE].

Lemma marks_digits : forall w ds rest, forallb is_digit w = true -> marks (MOut ds) (w ++ rest) = marks (MOut (ds ++ w)) rest.
Proof.
  induction w as [|c w IH]; intros ds rest H; [rewrite app_nil_r; auto|]. cbn [forallb] in H. apply andb_true_iff in H. destruct H as [H1 H2].
  cbn [app marks]. rewrite H1, IH by auto. rewrite <- app_assoc. reflexivity.
Qed.
Lemma marks_in : forall l ds cur rest, (forall c, In c l -> c <> QUOTE /\ c <> LF) -> marks (MIn ds cur) (l ++ QUOTE :: rest) = (ds, cur ++ l) :: marks (MOut []) rest.
Proof.
  induction l as [|c l IH]; intros ds cur rest H; [rewrite app_nil_r; reflexivity|]. destruct (H c ltac:(left; auto)) as [A B].
  cbn [app marks]. destruct (Ascii.eqb_spec c QUOTE); [congruence|]. destruct (Ascii.eqb_spec c LF); [congruence|]. rewrite IH; [rewrite <- app_assoc; reflexivity|]. intros d Hd. apply H. right. auto.
Qed.
Lemma marks_mark : forall il rest, plain (snd il) -> marks (MOut []) (mark il ++ rest) = (show_nat (fst il), str (snd il)) :: marks (MOut []) rest.
Proof.
  intros [k l] rest H. unfold mark. cbn [fst snd] in *. destruct (show_ok (N.of_nat k)) as (A & B & _). fold (show_nat k) in A, B.
  rewrite <- app_assoc. rewrite marks_digits by auto. cbn [app]. destruct (show_nat k) as [|c w]; [congruence|]. set (ds := c :: w).
  change (marks (MOut ds) (EQUALS :: QUOTE :: (str l ++ [QUOTE]) ++ rest)) with (marks (MIn ds []) ((str l ++ [QUOTE]) ++ rest)).
  rewrite <- app_assoc. cbn [app]. rewrite marks_in; [reflexivity|]. intros d Hd. destruct (H d Hd) as (X & Y & _). auto.
Qed.
Lemma marks_header : forall ils, (forall il, In il ils -> plain (snd il)) -> marks (MOut []) (join (map mark ils) ++ [LF]) = map (fun il => (show_nat (fst il), str (snd il))) ils.
Proof.
  induction ils as [|il ils IH]; intros H; [reflexivity|]. destruct ils as [|il' ils].
  - cbn [map join]. rewrite marks_mark by (apply H; left; auto). reflexivity.
  - change (join (map mark (il :: il' :: ils))) with (mark il ++ SP :: join (map mark (il' :: ils))). rewrite <- app_assoc. rewrite marks_mark by (apply H; left; auto).
    cbn [app]. change (marks (MOut []) (SP :: join (map mark (il' :: ils)) ++ [LF])) with (marks (MOut []) (join (map mark (il' :: ils)) ++ [LF])). rewrite IH; [reflexivity|].
    intros x Hx. apply H. right. auto.
Qed.
Lemma show_line : forall n, one_line (show_nat n).
Proof. intros n. apply clean_line. apply show_clean. Qed.
Lemma mark_line : forall il, plain (snd il) -> one_line (mark il).
Proof.
  intros il H. unfold mark. apply one_line_app; [apply show_line|]. apply one_line_cons; [discriminate|discriminate|]. apply one_line_cons; [discriminate|discriminate|].
  apply one_line_app; [|apply one_line_cons; [discriminate|discriminate|intros c []]]. intros c Hc. destruct (H c Hc) as (_ & X & Y). auto.
Qed.

Section Labels.
  Variable names : list string.
  Hypothesis ND : NoDup names.
  Hypothesis PL : forall l, In l names -> plain l.

  Definition pos (l : string) : nat := match index_of l names with Ok k => k | Err _ => 0 end.
  Lemma index_of_ok : forall ns l, In l ns -> exists k, index_of l ns = Ok k /\ nth_error ns k = Some l.
  Proof.
    induction ns as [|x ns IH]; intros l H; [destruct H|]. cbn [index_of]. destruct (String.eqb_spec l x) as [->|N]; [exists 0; auto|].
    destruct H as [E|H]; [congruence|]. destruct (IH l H) as (k & E1 & E2). rewrite E1. exists (S k). auto.
  Qed.
  Lemma pos_ok : forall l, In l names -> index_of l names = Ok (pos l) /\ nth_error names (pos l) = Some l.
  Proof. intros l H. unfold pos. destruct (index_of_ok names l H) as (k & E1 & E2). rewrite E1. auto. Qed.
  Lemma mapM_pos : forall ls, (forall l, In l ls -> In l names) -> mapM (fun l => index_of l names) ls = Ok (map pos ls).
  Proof.
    induction ls as [|l ls IH]; intros H; [reflexivity|]. cbn [mapM map]. destruct (pos_ok l (H l (or_introl eq_refl))) as [E _]. rewrite E. cbn [bind].
    rewrite IH by (intros; apply H; right; auto). reflexivity.
  Qed.

  Definition lab_line (e : nat * list string) : list text :=
    match snd e with [] => [] | ls => [show_nat (fst e) ++ COLON :: SP :: join (map show_nat (map pos ls))] end.

  Lemma save_fold : forall items t, (forall s ls l, In (s, ls) items -> In l ls -> In l names) ->
    foldM (fun t (e : nat * list string) =>
           match snd e with
           | [] => Ok t
           | ls => let* ids := mapM (fun l => index_of l names) ls in
                   Ok (t ++ (show_nat (fst e) ++ COLON :: SP :: join (map show_nat ids)) ++ [LF])
           end) items t = Ok (t ++ file_of (flat_map lab_line items)).
  Proof.
    induction items as [|[s ls] items IH]; intros t H; [cbn; rewrite app_nil_r; auto|]. cbn [foldM fst snd]. 
    assert (HL : forall l, In l ls -> In l names) by (intros l Hl; eapply H; [left; eauto|auto]).
    assert (HI : forall s0 ls0 l, In (s0, ls0) items -> In l ls0 -> In l names) by (intros s0 ls0 l H0 H1; eapply H; [right; eauto|auto]).
    cbn [flat_map]. rewrite file_app. destruct ls as [|l ls]; [cbn [bind]; rewrite IH by auto; reflexivity|].
    rewrite mapM_pos by auto. cbn [bind]. rewrite IH by auto. f_equal. unfold lab_line at 2. cbn [fst snd]. unfold file_of at 2. cbn [map concat]. rewrite app_nil_r, <- !app_assoc. reflexivity.
  Qed.

  (** Reading back. *)
  Definition istep (st : dict nat string * dict string (list nat)) (mk : text * text) : res (dict nat string * dict string (list nat)) :=
    let* k := read_int (fst mk) in
    let label := unstr (snd mk) in
    Ok (dset Nat.eqb (fst st) k label, dset String.eqb (snd st) label []).
  Lemma istep_fold : forall ns k ids sets, NoDup ns -> (forall i, In i (dkeys ids) -> i < k) -> (forall l, In l ns -> ~ In l (dkeys sets)) ->
    foldM istep (map (fun il => (show_nat (fst il), str (snd il))) (combine (seq k (length ns)) ns)) (ids, sets) =
    Ok (ids ++ combine (seq k (length ns)) ns, sets ++ map (fun l => (l, [])) ns).
  Proof.
    induction ns as [|l ns IH]; intros k ids sets N H1 H2; [cbn; rewrite !app_nil_r; auto|]. inversion N; subst.
    cbn [length seq combine map foldM fst snd]. change (istep (ids, sets) (show_nat k, str l)) with (let* k' := read_int (show_nat k) in Ok (dset Nat.eqb ids k' (unstr (str l)), dset String.eqb sets (unstr (str l)) [])).
    rewrite read_show, unstr_str. cbn [bind].
    rewrite (dset_fresh Nat.eqb Nat.eqb_spec) by (intros X; apply H1 in X; lia). rewrite (dset_fresh String.eqb String.eqb_spec) by (apply H2; left; auto).
    rewrite IH; auto.
    - rewrite <- !app_assoc. reflexivity.
    - intros i Hi. unfold dkeys in Hi. rewrite map_app in Hi. apply in_app_or in Hi. destruct Hi as [Hi|[<-|[]]]; [|simpl; lia]. specialize (H1 i Hi). lia.
    - intros x Hx X. unfold dkeys in X. rewrite map_app in X. apply in_app_or in X. destruct X as [X|[X|[]]]; [eapply H2; [right; eauto|auto]|]. simpl in X. subst. auto.
  Qed.

  Definition ids : dict nat string := combine (seq 0 (length names)) names.
  Lemma ids_get : forall k l, nth_error names k = Some l -> dget Nat.eqb ids k = Some l.
  Proof.
    intros k l H. unfold ids. assert (G : forall ns a k, nth_error ns k = Some l -> dget Nat.eqb (combine (seq a (length ns)) ns) (a + k) = Some l).
    { induction ns as [|x ns IH]; intros a j Hj; [destruct j; discriminate|]. cbn [length seq combine dget]. destruct j as [|j].
      - rewrite Nat.add_0_r, Nat.eqb_refl. simpl in Hj. auto.
      - replace (a + S j =? a) with false by (symmetry; apply Nat.eqb_neq; lia). replace (a + S j) with (S a + j) by lia. apply IH. auto. }
    apply (G names 0 k H).
  Qed.

  Definition wstep (s : nat) (sets : dict string (list nat)) (w : text) : res (dict string (list nat)) :=
    let* k := read_int w in
    let* label := of_opt KeyError (dget Nat.eqb ids k) in
    let* cur := of_opt KeyError (dget String.eqb sets label) in
    Ok (dset String.eqb sets label (sadd Nat.eqb cur s)).
  Definition lstep (sets : dict string (list nat)) (line : text) : res (dict string (list nat)) :=
    let* (g1, g2) := of_opt AttributeError (line_match [] line) in
    let* s := read_int g1 in
    foldM (wstep s) (words g2) sets.

  Definition sets_ok (R : string -> nat -> Prop) (sets : dict string (list nat)) : Prop :=
    (forall l, In l (dkeys sets) <-> In l names) /\ NoDup (dkeys sets) /\ (forall l c, dget String.eqb sets l = Some c -> NoDup c) /\
    (forall l s, has String.eqb sets l s <-> R l s).
  Lemma sets_ext : forall R R' sets, (forall l s, R l s <-> R' l s) -> sets_ok R sets -> sets_ok R' sets.
  Proof. intros R R' sets E (A & B & C & D). split; [auto|]. split; [auto|]. split; [auto|]. intros. rewrite D. auto. Qed.

  Lemma wstep_ok : forall R s sets l, sets_ok R sets -> In l names ->
    exists sets', wstep s sets (show_nat (pos l)) = Ok sets' /\ sets_ok (fun l' s' => R l' s' \/ (l' = l /\ s' = s)) sets'.
  Proof.
    intros R s sets l (A & B & C & D) Hl. unfold wstep. rewrite read_show. cbn [bind]. rewrite (ids_get (pos l) l) by (apply pos_ok; auto). cbn [of_opt bind].
    assert (HK : In l (dkeys sets)) by (apply A; auto). apply (dget_Some_key String.eqb String.eqb_spec) in HK. destruct HK as (cur & E). rewrite E. cbn [of_opt bind].
    eexists. split; [reflexivity|]. split; [|split; [|split]].
    - intros l'. rewrite (dset_keys_in String.eqb String.eqb_spec), A. split; [intros [->|]; auto|auto].
    - apply (dset_nodup String.eqb String.eqb_spec). auto.
    - intros l' c Hc. destruct (String.eqb_spec l l') as [->|N].
      + rewrite (dget_dset_same String.eqb String.eqb_spec) in Hc. inversion Hc; subst. apply (BaseFacts.sadd_nodup Nat.eqb Nat.eqb_spec). eauto.
      + rewrite (dget_dset_other String.eqb String.eqb_spec) in Hc by auto. eauto.
    - intros l' s'. rewrite <- D. unfold has. destruct (String.eqb_spec l l') as [->|N].
      + rewrite (dget_dset_same String.eqb String.eqb_spec). split.
        * intros (c & Hc & Hi). inversion Hc; subst. apply (sadd_In Nat.eqb Nat.eqb_spec) in Hi. destruct Hi as [->|Hi]; [right; auto|left; eauto].
        * intros [(c & Hc & Hi)|[_ ->]]; eexists; (split; [reflexivity|]); apply (sadd_In Nat.eqb Nat.eqb_spec); [right; congruence|left; auto].
      + rewrite (dget_dset_other String.eqb String.eqb_spec) by auto. split; [auto|]. intros [H|[H _]]; [auto|congruence].
  Qed.
  Lemma wfold_ok : forall ls R s sets, sets_ok R sets -> (forall l, In l ls -> In l names) ->
    exists sets', foldM (wstep s) (map show_nat (map pos ls)) sets = Ok sets' /\ sets_ok (fun l' s' => R l' s' \/ (In l' ls /\ s' = s)) sets'.
  Proof.
    induction ls as [|l ls IH]; intros R s sets H HL; [exists sets; split; [reflexivity|]; eapply sets_ext; [|eauto]; intros; simpl; tauto|].
    cbn [map foldM]. destruct (wstep_ok R s sets l H (HL l (or_introl eq_refl))) as (s1 & E & H1). rewrite E. cbn [bind].
    destruct (IH _ s s1 H1) as (s2 & E2 & H2); [intros; apply HL; right; auto|]. exists s2. split; [auto|]. eapply sets_ext; [|eauto]. intros l' s'. simpl. split.
    - intros [[H'|[-> ->]]|[X ->]]; tauto.
    - intros [H'|[[->|X] ->]]; tauto.
  Qed.

  Lemma line_match_ok : forall w rest, w <> [] -> forallb is_digit w = true -> rest <> [] -> forallb (fun c => is_digit c || negb (is_word c)) rest = true ->
    line_match [] (w ++ COLON :: rest) = Some (w, rest).
  Proof.
    intros w rest Hw Dw Hr Dr.
    assert (T : take_nonword rest = rest).
    { clear - Dr. induction rest as [|c r IH]; [auto|]. cbn [forallb] in Dr. apply andb_true_iff in Dr. destruct Dr as [A B]. cbn [take_nonword]. rewrite A. f_equal. auto. }
    assert (G : forall w ds, forallb is_digit w = true -> (ds ++ w) <> [] -> line_match ds (w ++ COLON :: rest) = Some (ds ++ w, rest)).
    { clear w Hw Dw. induction w as [|c w IH]; intros ds D N.
      - rewrite app_nil_r in *. cbn [app line_match]. change (is_digit COLON) with false. change (Ascii.eqb COLON COLON) with true. cbn iota. rewrite T. destruct ds; [congruence|]. destruct rest; [congruence|reflexivity].
      - cbn [forallb] in D. apply andb_true_iff in D. destruct D as [D1 D2]. cbn [app line_match]. rewrite D1. rewrite IH; [rewrite <- app_assoc; reflexivity|auto|]. destruct ds; discriminate. }
    apply (G w []); auto.
  Qed.
  Lemma nonword_join : forall ns, forallb (fun c => is_digit c || negb (is_word c)) (join (map show_nat ns)) = true.
  Proof.
    assert (D : forall n, forallb (fun c => is_digit c || negb (is_word c)) (show_nat n) = true).
    { intros n. apply forallb_forall. intros c Hc. destruct (show_ok (N.of_nat n)) as (_ & B & _). rewrite forallb_forall in B. rewrite (B c Hc). auto. }
    induction ns as [|n ns IH]; [auto|]. destruct ns as [|n' ns]; [apply D|].
    change (join (map show_nat (n :: n' :: ns))) with (show_nat n ++ SP :: join (map show_nat (n' :: ns))). rewrite forallb_app, D. cbn [forallb andb].
    rewrite IH. reflexivity.
  Qed.
  Lemma lstep_ok : forall R sets s ls, sets_ok R sets -> (forall l, In l ls -> In l names) -> ls <> [] ->
    exists sets', lstep sets ((show_nat s ++ COLON :: SP :: join (map show_nat (map pos ls))) ++ [LF]) = Ok sets' /\ sets_ok (fun l' s' => R l' s' \/ (In l' ls /\ s' = s)) sets'.
  Proof.
    intros R sets s ls H HL NE. unfold lstep. rewrite <- app_assoc. cbn [app]. destruct (show_ok (N.of_nat s)) as (A & B & _). fold (show_nat s) in A, B.
    rewrite line_match_ok; [|auto|auto|discriminate|].
    - cbn [of_opt bind]. rewrite read_show. cbn [bind]. rewrite words_space, words_join; [apply wfold_ok; auto|]. apply Forall_forall. intros w Hw. apply in_map_iff in Hw. destruct Hw as (k & <- & _). apply show_clean.
    - cbn [forallb andb]. change (is_digit SP || negb (is_word SP)) with true. cbn [andb]. rewrite forallb_app, nonword_join. reflexivity.
  Qed.
  Lemma lfold_ok : forall items R sets, sets_ok R sets -> (forall s ls l, In (s, ls) items -> In l ls -> In l names) ->
    exists sets', foldM lstep (map (fun l => l ++ [LF]) (flat_map lab_line items)) sets = Ok sets' /\
      sets_ok (fun l' s' => R l' s' \/ exists ls, In (s', ls) items /\ In l' ls) sets'.
  Proof.
    induction items as [|[s ls] items IH]; intros R sets H HL.
    - exists sets. split; [reflexivity|]. eapply sets_ext; [|eauto]. intros. split; [auto|]. intros [X|(ls & [] & _)]; auto.
    - assert (HI : forall s0 ls0 l, In (s0, ls0) items -> In l ls0 -> In l names) by (intros s0 ls0 l H0 H1; eapply HL; [right; eauto|auto]).
      cbn [flat_map]. unfold lab_line at 1. cbn [fst snd]. destruct ls as [|l ls].
      + cbn [app]. destruct (IH R sets H HI) as (s1 & E & H1). exists s1. split; [auto|]. eapply sets_ext; [|eauto]. intros l' s'. simpl. split.
        * intros [X|(x & X & Y)]; [auto|right; eauto].
        * intros [X|(x & [X|X] & Y)]; [auto|inversion X; subst; destruct Y|right; eauto].
      + cbn [app map foldM]. destruct (lstep_ok R sets s (l :: ls) H) as (s1 & E & H1); [intros x Hx; eapply HL; [left; eauto|auto]|discriminate|]. cbn [map] in E. rewrite E. cbn [bind].
        destruct (IH _ s1 H1 HI) as (s2 & E2 & H2). exists s2. split; [auto|]. eapply sets_ext; [|eauto]. intros l' s'. cbn [In]. split.
        * intros [[X|[X ->]]|(x & X & Y)]; [auto|right; exists (l :: ls); auto|right; exists x; auto].
        * intros [X|(x & [X|X] & Y)]; [auto|inversion X; subst; auto|right; eauto].
  Qed.

  Lemma label_file_ok : forall items, (forall s ls l, In (s, ls) items -> In l ls -> In l names) ->
    exists sets, parse_label_file (file_of (join (map mark (combine (seq 0 (length names)) names)) :: flat_map lab_line items)) = Ok sets /\
      sets_ok (fun l s => exists ls, In (s, ls) items /\ In l ls) sets.
  Proof.
    intros items HL. unfold parse_label_file.
    assert (PC : forall il, In il (combine (seq 0 (length names)) names) -> plain (snd il)).
    { intros [k l] H. apply in_combine_r in H. auto. }
    rewrite read_file.
    2:{ constructor.
        - apply join_line. intros w Hw. apply in_map_iff in Hw. destruct Hw as (il & <- & Hi). apply mark_line. auto.
        - apply Forall_forall. intros t Ht. apply in_flat_map in Ht. destruct Ht as ([s ls] & _ & Ht). unfold lab_line in Ht. cbn [fst snd] in Ht. destruct ls; [destruct Ht|]. destruct Ht as [<-|[]].
          apply one_line_app; [apply show_line|]. apply one_line_cons; [discriminate|discriminate|]. apply one_line_cons; [discriminate|discriminate|]. apply join_line. intros w Hw. apply in_map_iff in Hw. destruct Hw as (k & <- & _). apply show_line. }
    cbn [map]. rewrite marks_header by auto. fold istep. rewrite istep_fold; [|auto|intros i []|intros l _ []]. cbn [bind app]. fold ids.
    change (foldM (fun sets line => let* (g1, g2) := of_opt AttributeError (line_match [] line) in let* s := read_int g1 in
          foldM (fun sets0 w => let* k := read_int w in let* label := of_opt KeyError (dget Nat.eqb ids k) in let* cur := of_opt KeyError (dget String.eqb sets0 label) in
              Ok (dset String.eqb sets0 label (sadd Nat.eqb cur s))) (words g2) sets)) with (foldM lstep).
    assert (S0 : sets_ok (fun _ _ => False) (map (fun l => (l, [])) names)).
    { split; [|split; [|split]].
      - intros l. unfold dkeys. rewrite map_map. simpl. rewrite map_id. tauto.
      - unfold dkeys. rewrite map_map. simpl. rewrite map_id. auto.
      - intros l c Hc. apply (dget_In String.eqb String.eqb_spec) in Hc. apply in_map_iff in Hc. destruct Hc as (x & E & _). inversion E; subst. constructor.
      - intros l s. split; [|intros []]. intros (c & Hc & Hi). apply (dget_In String.eqb String.eqb_spec) in Hc. apply in_map_iff in Hc. destruct Hc as (x & E & _). inversion E; subst. destruct Hi. }
    destruct (lfold_ok items _ _ S0 HL) as (s2 & E2 & H2). exists s2. split; [exact E2|]. eapply sets_ext; [|eauto]. intros. simpl. tauto.
  Qed.
End Labels.

Lemma labels_ok : forall m, labs_ok m -> (forall l, In l (label_names m) -> plain l) ->
  exists lab sets, save_lab m = Ok lab /\ parse_label_file lab = Ok sets /\
    NoDup (dkeys sets) /\ (forall l c, In (l, c) sets -> NoDup c) /\
    forall l s, In s (match dget String.eqb sets l with Some c => c | None => [] end) <-> SpecBuilt.has_label m l s.
Proof.
  intros m (D & _) PL. destruct D as (ND & HF & HB). unfold label_names in PL.
  assert (D' : describes String.eqb Nat.eqb (a_slab m) (fun l s => In s (states_by_label m l))) by (split; auto).
  apply (force_describes String.eqb Nat.eqb String.eqb_spec Nat.eqb_spec) in D'.
  unfold save_lab. destruct (force_bwd String.eqb Nat.eqb (a_slab m)) as (items & EI). rewrite EI. cbn [of_opt bind].
  destruct D' as (_ & _ & HB'). rewrite EI in HB'. destruct HB' as (NI & HI). set (names := dkeys (fwd (a_slab m))) in *.
  assert (IT : forall s ls l, In (s, ls) items -> In l ls -> In s (states_by_label m l)).
  { intros s ls l H1 H2. apply HI. exists ls. split; auto. apply (In_dget Nat.eqb Nat.eqb_spec); auto. }
  assert (HN : forall s ls l, In (s, ls) items -> In l ls -> In l names).
  { intros s ls l H1 H2. pose proof (IT s ls l H1 H2) as X. apply HF in X. destruct X as (c & X & _). apply (dget_Some_key String.eqb String.eqb_spec). eauto. }
  fold (mark). rewrite (save_fold names items _ HN).
  destruct (label_file_ok names ND PL items HN) as (sets & E & (K1 & K2 & K3 & K4)).
  eexists. exists sets. split; [reflexivity|]. split.
  - rewrite <- E. f_equal.
  - split; [auto|]. split. { intros l c Hc. eapply K3. apply (In_dget String.eqb String.eqb_spec); eauto. }
    intros l s. unfold SpecBuilt.has_label. transitivity (has String.eqb sets l s).
    + unfold has. destruct (dget String.eqb sets l) as [c|]; [split; [eauto|intros (c' & X & Y); inversion X; subst; auto]|split; [intros []|intros (c' & X & _); discriminate]].
    + rewrite K4. split; [intros (ls & H1 & H2); eauto|]. intros H. apply HI in H. destruct H as (ls & H1 & H2). exists ls. split; auto. apply (dget_In Nat.eqb Nat.eqb_spec). auto.
Qed.
