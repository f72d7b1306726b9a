(** Proofs about loading explicit models: numbers, lines and labels. *)
From Coq Require Import String List Arith NArith ZArith QArith Qpower Bool Ascii Lia.
From Coq Require Lqa.
From Verif Require Import Base BaseFacts Num Matrix InvDict InvDictProofs SpecSystem SpecBuilt SpecFiles SpecPrism SpecTra Amdp BuiltFacts Files FilesProofs FilesProofs2 FilesProofs3 PrismProofs.
Import ListNotations.
Local Open Scope nat_scope.

(** ** Numbers *)
Lemma decimal_read : forall t n, decimal t n -> t <> [] /\ forallb is_digit t = true /\ read_digits t = n.
Proof.
  intros t n H. split; [destruct H; [discriminate|intros E; apply app_eq_nil in E; destruct E; discriminate]|]. split.
  - apply forallb_forall. apply (decimal_chars t n H).
  - induction H as [d H|t n d H IH Hd].
    + unfold read_digits. cbn [fold_left]. fold (digit d). rewrite value_digit by auto. lia.
    + rewrite read_app1, IH. fold (digit d). rewrite value_digit by auto. reflexivity.
Qed.
Lemma natural_read : forall t n, natural t n -> read_int t = Ok n /\ clean t.
Proof.
  intros t n H. destruct (decimal_read _ _ H) as (A & B & C). split; [|apply digits_clean; auto]. unfold read_int. destruct t; [congruence|]. rewrite B, C, Nat2N.id. reflexivity.
Qed.

Lemma cut_dot_none : forall a, forallb is_digit a = true -> cut_dot a = (a, None).
Proof.
  induction a as [|c a IH]; intros H; [reflexivity|]. cbn [forallb] in H. apply andb_true_iff in H. destruct H as [H1 H2]. cbn [cut_dot].
  destruct (Ascii.eqb_spec c DOT) as [->|_]; [discriminate|]. rewrite IH; auto.
Qed.
Lemma mantissa_read : forall m n k, mantissa m n k -> read_unsigned m = Ok (Z.of_N n # Z.to_pos (10 ^ Z.of_nat k))%Q /\ (forall c, In c m -> is_digit c = true \/ c = DOT) /\ m <> [].
Proof.
  intros m n k H. destruct H as [t n H|a f n H].
  - destruct (decimal_read _ _ H) as (A & B & C). split; [|split].
    + unfold read_unsigned. rewrite cut_dot_none by auto. rewrite app_nil_r, B, C. cbn [forallb andb]. destruct t; [congruence|]. reflexivity.
    + intros c I. left. rewrite forallb_forall in B. auto.
    + auto.
  - destruct (decimal_read _ _ H) as (A & B & C). rewrite forallb_app in B. apply andb_true_iff in B. destruct B as [B1 B2]. split; [|split].
    + unfold read_unsigned. fold DOT. rewrite cut_dot_ok by auto. rewrite B1, B2, C. cbn [andb]. destruct (a ++ f); [congruence|]. reflexivity.
    + rewrite forallb_forall in B1, B2. intros c I. apply in_app_or in I. destruct I as [I|[I|I]]; auto.
    + intros E. apply app_eq_nil in E. destruct E; discriminate.
Qed.
Lemma mantissa_value : forall n k, (Z.of_N n # Z.to_pos (10 ^ Z.of_nat k) == inject_Z (Z.of_N n) * Qpower 10 (- Z.of_nat k))%Q.
Proof.
  intros n k. rewrite Qpower_opp. assert (E : (Qpower 10 (Z.of_nat k) == inject_Z (10 ^ Z.of_nat k))%Q) by (symmetry; apply Zpower_Qpower; lia).
  rewrite E. assert (0 < 10 ^ Z.of_nat k)%Z by (apply Z.pow_pos_nonneg; lia). destruct (10 ^ Z.of_nat k)%Z as [|p|p] eqn:Ep; try lia.
  cbn [Z.to_pos]. unfold Qeq, Qinv, inject_Z, Qmult. cbn. lia.
Qed.
Lemma sign_take : forall s sv r, sign s sv -> (forall c r', r = c :: r' -> c <> "-"%char /\ c <> "+"%char) -> take_sign (s ++ r) = (match sv with Zneg _ => true | _ => false end, r).
Proof.
  intros s sv r H N. destruct H; [apply take_sign_none; exact N|reflexivity|reflexivity].
Qed.
Lemma cut_exp_at : forall m c r, (forall c, In c m -> c <> "e"%char /\ c <> "E"%char) -> c = "e"%char \/ c = "E"%char -> cut_exp (m ++ c :: r) = (m, Some r).
Proof.
  induction m as [|x m IH]; intros c r H C; [destruct C as [-> | ->]; reflexivity|]. cbn [app cut_exp]. destruct (H x (or_introl eq_refl)) as [A B].
  destruct (Ascii.eqb_spec x "e"%char); [congruence|]. destruct (Ascii.eqb_spec x "E"%char); [congruence|]. cbn [orb]. rewrite IH by (auto; intros y Hy; apply H; right; exact Hy). reflexivity.
Qed.
Lemma sign_chars : forall s sv, sign s sv -> forall c, In c s -> is_space c = false.
Proof. intros s sv H c I. destruct H; [destruct I|destruct I as [<-|[]]; reflexivity|destruct I as [<-|[]]; reflexivity]. Qed.

Lemma number_read : forall t q, number t q -> exists q', read_float t = Ok q' /\ (q' == q)%Q /\ clean t.
Proof.
  intros t q (s & sv & m & n & k & e & x & -> & S & M & E & V). destruct (mantissa_read _ _ _ M) as (R & MC & MN).
  assert (ME : forall c, In c m -> c <> "e"%char /\ c <> "E"%char).
  { intros c I. destruct (MC c I) as [X|X]; [destruct (digit_char c X) as (_ & _ & A & B & _); auto|subst; split; discriminate]. }
  assert (MS : forall c, In c m -> is_space c = false). { intros c I. destruct (MC c I) as [X|X]; [apply digit_not_space; auto|subst; reflexivity]. }
  assert (HS : forall c r', m ++ e = c :: r' -> c <> "-"%char /\ c <> "+"%char).
  { intros c r' X. destruct m as [|y m]; [congruence|]. cbn [app] in X. injection X as -> _. destruct (MC c (or_introl eq_refl)) as [Y|Y]; [destruct (digit_char c Y) as (A & B & _); auto|subst; split; discriminate]. }
  unfold read_float. rewrite (sign_take s sv _ S HS).
  assert (EV : exists y, (let (m0, e0) := cut_exp (m ++ e) in let* q := read_unsigned m0 in let* q := match e0 with None => Ok q | Some e => let* x := read_exp e in Ok (q * Qpower 10 x)%Q end in
      Ok (if match sv with Zneg _ => true | _ => false end then (- q)%Q else q)) = Ok (if match sv with Zneg _ => true | _ => false end then (- y)%Q else y) /\ (y == inject_Z (Z.of_N n) * Qpower 10 (x - Z.of_nat k))%Q).
  { destruct E as [|c s' sv' t n' C S' D].
    - rewrite app_nil_r, cut_exp_none by exact ME. rewrite R. cbn [bind]. eexists. split; [reflexivity|]. rewrite mantissa_value. reflexivity.
    - rewrite cut_exp_at by auto. rewrite R. cbn [bind]. destruct (decimal_read _ _ D) as (A1 & A2 & A3).
      assert (RE : read_exp (s' ++ t) = Ok (sv' * Z.of_N n')%Z).
      { unfold read_exp. rewrite (sign_take s' sv' t S').
        - destruct t; [congruence|]. rewrite A2, A3. destruct S'; f_equal; lia.
        - intros y r' ->. cbn [forallb] in A2. apply andb_true_iff in A2. destruct A2 as [A2 _]. destruct (digit_char y A2) as (B1 & B2 & _). auto. }
      rewrite RE. cbn [bind]. eexists. split; [reflexivity|]. rewrite mantissa_value. rewrite <- Qmult_assoc, <- Qpower_plus by (intros X; discriminate X). replace (sv' * Z.of_N n' - Z.of_nat k)%Z with (- Z.of_nat k + sv' * Z.of_N n')%Z by lia. reflexivity. }
  destruct EV as (y & EV & YV). rewrite EV. eexists. split; [reflexivity|]. split.
  - rewrite V. destruct S; rewrite YV; rewrite inject_Z_mult; [change (inject_Z 1) with 1%Q; ring|change (inject_Z 1) with 1%Q; ring|change (inject_Z (-1)) with (- (1))%Q; ring].
  - split; [intros X; apply app_eq_nil in X; destruct X as [_ X]; apply app_eq_nil in X; destruct X; congruence|]. apply forallb_forall. intros c I. apply negb_true_iff.
    apply in_app_or in I. destruct I as [I|I]; [apply (sign_chars s sv S c I)|]. apply in_app_or in I. destruct I as [I|I]; [auto|].
    destruct E as [|c' s' sv' t n' C S' D]; [destruct I|]. destruct I as [<-|I]; [destruct C as [-> | ->]; reflexivity|]. apply in_app_or in I. destruct I as [I|I]; [apply (sign_chars s' sv' S' c I)|].
    apply digit_not_space. apply (decimal_chars _ _ D c I).
Qed.

(** ** Words and lines *)
Lemma fields_are_join : forall t l, fields SPACE t l -> t = join l.
Proof.
  intros t l H. induction H as [x H|x r l H F IH]; [reflexivity|]. rewrite IH. destruct l as [|y l]; [inversion F|]. reflexivity.
Qed.
Lemma fields_words : forall t l, fields SPACE t l -> Forall clean l -> words (t ++ [LF]) = l /\ one_line t.
Proof.
  intros t l F C. rewrite (fields_are_join t l F). split; [apply words_join; auto|apply clean_list; auto].
Qed.
Lemma word_clean : forall w, word w -> clean w.
Proof.
  intros w [A B]. split; [auto|]. apply forallb_forall. intros c I. destruct (B c I) as [L U]. apply negb_true_iff. unfold is_space.
  rewrite !orb_false_iff, !andb_false_iff, !Nat.leb_gt, !Nat.eqb_neq. lia.
Qed.
Lemma names_clean : forall o, (forall l, o = Some l -> word l) -> Forall clean (name_words o).
Proof. intros [l|] H; [constructor; [apply word_clean; auto|constructor]|constructor]. Qed.

Lemma lines_file : forall ls, lines ls = file_of ls.
Proof. reflexivity. Qed.

(** ** Label files *)
Section Lab.
  Variable names : list (nat * string).
  Variable rows : list (nat * list nat).
  Hypothesis ND : NoDup (map fst names).
  Hypothesis DECL : forall s ids k, In (s, ids) rows -> In k ids -> In k (map fst names).

  Lemma marks_word : forall t il rest, mark_word t il -> exists d, natural d (fst il) /\ marks (MOut []) (t ++ rest) = (d, str (snd il)) :: marks (MOut []) rest.
  Proof.
    intros t [k l] rest (d & D & P & ->). cbn [fst snd] in *. exists d. split; [exact D|]. destruct (decimal_read _ _ D) as (A & B & _).
    rewrite <- app_assoc. rewrite marks_digits by auto. cbn [app]. destruct d as [|c w]; [congruence|]. set (ds := c :: w).
    change (marks (MOut ds) ("="%char :: """"%char :: (list_ascii_of_string l ++ [""""%char]) ++ rest)) with (marks (MIn ds []) ((list_ascii_of_string l ++ [""""%char]) ++ rest)).
    rewrite <- app_assoc. cbn [app]. fold QUOTE. rewrite marks_in; [reflexivity|]. intros x Hx. destruct (P x Hx) as (X & Y & _). auto.
  Qed.
  Lemma mark_word_line : forall t il, mark_word t il -> one_line t.
  Proof.
    intros t [k l] (d & D & P & ->). cbn [fst snd] in *. apply one_line_app; [apply clean_line; apply (natural_read _ _ D)|]. apply one_line_cons; [discriminate|discriminate|]. apply one_line_cons; [discriminate|discriminate|].
    apply one_line_app; [|apply one_line_cons; [discriminate|discriminate|intros c []]]. intros c Hc. destruct (P c Hc) as (_ & X & Y). auto.
  Qed.
  Lemma header_marks : forall h l, header h l -> one_line h /\ exists ds, Forall2 natural ds (map fst l) /\ marks (MOut []) (h ++ [LF]) = combine ds (map str (map snd l)).
  Proof.
    intros h l H. induction H as [|t il M|t il r l M H (L & ds & F & E)].
    - split; [intros c []|]. exists []. split; [constructor|reflexivity].
    - split; [eapply mark_word_line; eauto|]. destruct (marks_word t il [LF] M) as (d & D & E). exists [d]. split; [repeat constructor; exact D|]. rewrite E. reflexivity.
    - split; [apply one_line_app; [eapply mark_word_line; eauto|apply one_line_cons; [discriminate|discriminate|exact L]]|]. destruct (marks_word t il ((SPACE :: r) ++ [LF]) M) as (d & D & E'). exists (d :: ds).
      split; [constructor; [exact D|exact F]|]. rewrite <- app_assoc, E'. cbn [map combine]. f_equal. exact E.
  Qed.

  Lemma istep_all : forall l ds ids sets, Forall2 natural ds (map fst l) -> NoDup (map fst l) -> (forall k, In k (map fst l) -> ~ In k (dkeys ids)) ->
    exists sets', foldM istep (combine ds (map str (map snd l))) (ids, sets) = Ok (ids ++ l, sets') /\ (forall x, In x (dkeys sets') <-> In x (dkeys sets) \/ In x (map snd l)) /\
      (NoDup (dkeys sets) -> NoDup (dkeys sets')) /\ ((forall x c, dget String.eqb sets x = Some c -> c = []) -> (forall x c, dget String.eqb sets' x = Some c -> c = [])).
  Proof.
    induction l as [|[k x] l IH]; intros ds ids sets F N H.
    - inversion F; subst. exists sets. rewrite app_nil_r. split; [reflexivity|]. split; [intros; cbn; tauto|auto].
    - inversion F as [|d k' ds' l' Fd Fr]; subst. cbn [map] in N. inversion N; subst. cbn [map combine foldM fst snd]. unfold istep at 1. cbn [fst snd]. rewrite (proj1 (natural_read _ _ Fd)). cbn [bind]. rewrite unstr_str.
      rewrite (dset_fresh Nat.eqb Nat.eqb_spec) by (apply H; left; reflexivity).
      destruct (IH ds' (ids ++ [(k, x)]) (dset String.eqb sets x []) Fr H3) as (sets' & E & A & B & C).
      { intros j Hj X. unfold dkeys in X. rewrite map_app in X. apply in_app_or in X. destruct X as [X|[X|[]]]; [apply (H j); [right; exact Hj|exact X]|]. cbn in X. subst. auto. }
      exists sets'. split; [rewrite E, <- app_assoc; reflexivity|]. split; [|split].
      + intros y. rewrite A, (dset_keys_in String.eqb String.eqb_spec). cbn [map In]. cbn [snd]. split; [intros [[X|X]|X]; auto|intros [X|[X|X]]; auto].
      + intros X. apply B. apply (dset_nodup String.eqb String.eqb_spec). exact X.
      + intros X. apply C. intros y c Hc. destruct (String.eqb_spec x y) as [->|NE].
        * rewrite (dget_dset_same String.eqb String.eqb_spec) in Hc. congruence.
        * rewrite (dget_dset_other String.eqb String.eqb_spec) in Hc by auto. eapply X; eauto.
  Qed.

  Definition wstep2 (s : nat) (sets : dict string (list nat)) (w : text) : res (dict string (list nat)) :=
    let* k := read_int w in
    let* label := of_opt KeyError (dget Nat.eqb names k) in
    let* cur := of_opt KeyError (dget String.eqb sets label) in
    Ok (dset String.eqb sets label (sadd Nat.eqb cur s)).
  Definition lstep2 (sets : dict string (list nat)) (line : text) : res (dict string (list nat)) :=
    let* (g1, g2) := of_opt AttributeError (line_match [] line) in
    let* s := read_int g1 in
    foldM (wstep2 s) (words g2) sets.

  Let lnames := map snd names.
  Lemma wstep2_ok : forall R s sets w k, sets_ok lnames R sets -> natural w k -> In k (map fst names) ->
    exists sets', wstep2 s sets w = Ok sets' /\ sets_ok lnames (fun l' s' => R l' s' \/ (In (k, l') names /\ s' = s)) sets'.
  Proof.
    intros R s sets w k (A & B & C & D) W Hk. unfold wstep2. rewrite (proj1 (natural_read _ _ W)). cbn [bind].
    apply in_map_iff in Hk. destruct Hk as ([k' l] & E & Hl). cbn in E. subst k'. rewrite (In_dget Nat.eqb Nat.eqb_spec names k l ND Hl). cbn [of_opt bind].
    assert (UN : forall l', In (k, l') names -> l' = l). { intros l' H. apply (In_dget Nat.eqb Nat.eqb_spec) in H; auto. apply (In_dget Nat.eqb Nat.eqb_spec) in Hl; auto. congruence. }
    assert (LI : In l lnames) by (unfold lnames; apply in_map_iff; exists (k, l); auto).
    assert (HK : In l (dkeys sets)) by (apply A; auto). apply (dget_Some_key String.eqb String.eqb_spec) in HK. destruct HK as (cur & E). rewrite E. cbn [of_opt bind].
    eexists. split; [reflexivity|]. split; [|split; [|split]].
    - intros l'. rewrite (dset_keys_in String.eqb String.eqb_spec), A. split; [intros [->|]; auto|auto].
    - apply (dset_nodup String.eqb String.eqb_spec). auto.
    - intros l' c Hc. destruct (String.eqb_spec l l') as [->|N].
      + rewrite (dget_dset_same String.eqb String.eqb_spec) in Hc. inversion Hc; subst. apply (BaseFacts.sadd_nodup Nat.eqb Nat.eqb_spec). eauto.
      + rewrite (dget_dset_other String.eqb String.eqb_spec) in Hc by auto. eauto.
    - intros l' s'. rewrite <- D. unfold has. destruct (String.eqb_spec l l') as [->|N].
      + rewrite (dget_dset_same String.eqb String.eqb_spec). split.
        * intros (c & Hc & Hi). inversion Hc; subst. apply (sadd_In Nat.eqb Nat.eqb_spec) in Hi. destruct Hi as [->|Hi]; [right; auto|left; eauto].
        * intros [(c & Hc & Hi)|[_ ->]]; eexists; (split; [reflexivity|]); apply (sadd_In Nat.eqb Nat.eqb_spec); [right; congruence|left; auto].
      + rewrite (dget_dset_other String.eqb String.eqb_spec) by auto. split; [auto|]. intros [H|[H _]]; [auto|]. apply UN in H. congruence.
  Qed.
  Lemma wfold2_ok : forall ids ws R s sets, sets_ok lnames R sets -> Forall2 natural ws ids -> (forall k, In k ids -> In k (map fst names)) ->
    exists sets', foldM (wstep2 s) ws sets = Ok sets' /\ sets_ok lnames (fun l' s' => R l' s' \/ ((exists k, In k ids /\ In (k, l') names) /\ s' = s)) sets'.
  Proof.
    induction ids as [|k ids IH]; intros ws R s sets H F HL.
    - inversion F; subst. exists sets. split; [reflexivity|]. eapply sets_ext; [|eauto]. intros; cbn. split; [auto|]. intros [X|[(k & [] & _) _]]. auto.
    - inversion F as [|w k' ws' ids' Fw Fr]; subst. cbn [foldM]. destruct (wstep2_ok R s sets w k H Fw (HL k (or_introl eq_refl))) as (s1 & E & H1). rewrite E. cbn [bind].
      destruct (IH ws' _ s s1 H1 Fr) as (s2 & E2 & H2); [intros; apply HL; right; auto|]. exists s2. split; [auto|]. eapply sets_ext; [|eauto]. intros l' s'. cbn [In]. split.
      + intros [[X|[X ->]]|[(j & X & Y) ->]]; [auto|right; split; [exists k; auto|auto]|right; split; [exists j; auto|auto]].
      + intros [X|[(j & [<-|X] & Y) ->]]; [auto|left; right; auto|right; split; [exists j; auto|auto]].
  Qed.

  Lemma nonword_digits : forall t, forallb is_digit t = true -> forallb (fun c => is_digit c || negb (is_word c)) t = true.
  Proof. intros t H. apply forallb_forall. intros c Hc. rewrite forallb_forall in H. rewrite (H c Hc). reflexivity. Qed.
  Lemma nonword_words : forall ws ids, Forall2 natural ws ids -> forallb (fun c => is_digit c || negb (is_word c)) (join ws) = true.
  Proof.
    induction 1 as [|w k ws ids W F IH]; [reflexivity|]. destruct (decimal_read _ _ W) as (_ & B & _). destruct ws as [|w' ws]; [apply nonword_digits; exact B|].
    change (join (w :: w' :: ws)) with (w ++ SP :: join (w' :: ws)). rewrite forallb_app, nonword_digits by auto. cbn [andb]. cbn [forallb]. rewrite IH. reflexivity.
  Qed.
  Lemma naturals_clean : forall ws ids, Forall2 natural ws ids -> Forall clean ws.
  Proof. induction 1; constructor; [eapply natural_read; eauto|auto]. Qed.
  Lemma lstep2_ok : forall R sets t r, sets_ok lnames R sets -> lab_row t r -> (forall k, In k (snd r) -> In k (map fst names)) ->
    exists sets', lstep2 sets (t ++ [LF]) = Ok sets' /\ sets_ok lnames (fun l' s' => R l' s' \/ ((exists k, In k (snd r) /\ In (k, l') names) /\ s' = fst r)) sets'.
  Proof.
    intros R sets t [s ids] H (d & rest & ws & D & -> & F & W) HL. cbn [fst snd] in *. unfold lstep2. rewrite <- app_assoc. cbn [app]. destruct (decimal_read _ _ D) as (A & B & _). fold COLON.
    rewrite line_match_ok; [|auto|auto|discriminate|].
    - cbn [of_opt bind]. rewrite (proj1 (natural_read _ _ D)). cbn [bind]. change (SPACE :: rest ++ [LF]) with (SP :: (rest ++ [LF])). rewrite words_space, (proj1 (fields_words rest ws F (naturals_clean _ _ W))). apply wfold2_ok; auto.
    - cbn [forallb andb]. change (is_digit SPACE || negb (is_word SPACE)) with true. cbn [andb]. rewrite forallb_app, (fields_are_join _ _ F), (nonword_words _ _ W). reflexivity.
  Qed.
  Lemma lfold2_ok : forall rs ts R sets, sets_ok lnames R sets -> Forall2 lab_row ts rs -> (forall s ids k, In (s, ids) rs -> In k ids -> In k (map fst names)) ->
    exists sets', foldM lstep2 (map (fun l => l ++ [LF]) ts) sets = Ok sets' /\
      sets_ok lnames (fun l' s' => R l' s' \/ exists k ids, In (k, l') names /\ In (s', ids) rs /\ In k ids) sets'.
  Proof.
    induction rs as [|[s ids] rs IH]; intros ts R sets H F HL.
    - inversion F; subst. exists sets. split; [reflexivity|]. eapply sets_ext; [|eauto]. intros. split; [auto|]. intros [X|(k & ids & _ & [] & _)]; auto.
    - inversion F as [|t r ts' rs' Ft Fr]; subst. cbn [map foldM]. destruct (lstep2_ok R sets t (s, ids) H Ft) as (s1 & E & H1); [cbn; intros k Hk; eapply HL; [left; reflexivity|exact Hk]|]. rewrite E. cbn [bind].
      destruct (IH ts' _ s1 H1 Fr) as (s2 & E2 & H2); [intros s0 i0 k X; apply (HL s0 i0 k); right; exact X|]. exists s2. split; [auto|]. eapply sets_ext; [|eauto]. intros l' s'. cbn [fst snd In]. split.
      + intros [[X|[(k & X & Y) ->]]|(k & i & X & Y & Z)]; [auto|right; exists k, ids; auto|right; exists k, i; auto].
      + intros [X|(k & i & X & [Y|Y] & Z)]; [auto|inversion Y; subst; left; right; split; [exists k; auto|auto]|right; exists k, i; auto].
  Qed.
  Lemma lab_row_line : forall t r, lab_row t r -> one_line t.
  Proof.
    intros t r (d & rest & ws & D & -> & F & W). apply one_line_app; [apply clean_line; apply (natural_read _ _ D)|]. apply one_line_cons; [discriminate|discriminate|]. apply one_line_cons; [discriminate|discriminate|].
    apply (fields_words rest ws F (naturals_clean _ _ W)).
  Qed.

  Lemma lab_file_ok : forall f, lab_file f names rows -> exists sets, parse_label_file f = Ok sets /\ NoDup (dkeys sets) /\ (forall l c, In (l, c) sets -> NoDup c) /\
    forall l s, In s (match dget String.eqb sets l with Some c => c | None => [] end) <-> labelled names rows l s.
  Proof.
    intros f (h & ts & -> & H & F). destruct (header_marks h names H) as (LH & ds & DN & EM). unfold parse_label_file. rewrite lines_file, read_file.
    2:{ constructor; [exact LH|]. clear -F. induction F; constructor; [eapply lab_row_line; eauto|auto]. }
    cbn [map]. rewrite EM. match goal with |- context [foldM ?g (combine _ _) _] => change g with istep end. destruct (istep_all names ds [] [] DN ND) as (sets & E & A & B & C); [intros k _ []|]. match goal with |- context [bind ?x _] => replace x with (@Ok (dict nat string * dict string (list nat)) (names, sets)) by (symmetry; exact E) end. cbn [bind].
    change (foldM (fun sets line => let* (g1, g2) := of_opt AttributeError (line_match [] line) in let* s := read_int g1 in
          foldM (fun sets0 w => let* k := read_int w in let* label := of_opt KeyError (dget Nat.eqb names k) in let* cur := of_opt KeyError (dget String.eqb sets0 label) in
              Ok (dset String.eqb sets0 label (sadd Nat.eqb cur s))) (words g2) sets)) with (foldM lstep2).
    assert (EC : forall x c, dget String.eqb sets x = Some c -> c = []) by (apply C; intros x c X; discriminate X).
    assert (S0 : sets_ok lnames (fun _ _ => False) sets).
    { split; [|split; [|split]].
      - intros l. rewrite A. unfold lnames. cbn. tauto.
      - apply B. constructor.
      - intros l c Hc. apply EC in Hc. subst. constructor.
      - intros l s. split; [|intros []]. intros (c & Hc & Hi). apply EC in Hc. subst. destruct Hi. }
    destruct (lfold2_ok rows ts _ sets S0 F DECL) as (s2 & E2 & K1 & K2 & K3 & K4). exists s2. split; [exact E2|]. split; [exact K2|]. split. { intros l c Hc. eapply K3. apply (In_dget String.eqb String.eqb_spec); eauto. }
    intros l s. transitivity (has String.eqb s2 l s).
    - unfold has. destruct (dget String.eqb s2 l) as [c|]; [split; [eauto|intros (c' & X & Y); inversion X; subst; auto]|split; [intros []|intros (c' & X & _); discriminate]].
    - rewrite K4. unfold labelled. split; [intros [[]|X]; exact X|auto].
  Qed.
End Lab.
