(** Concrete files for the property of loading explicit models. *)
From Coq Require Import String List Arith NArith ZArith QArith Bool Ascii Lia.
From Verif Require Import Base Num Matrix SpecSystem SpecBuilt SpecFiles SpecPrism SpecTra Amdp Files FilesProofs Prism PrismProofs.
Import ListNotations.
Local Open Scope string_scope.
Local Open Scope nat_scope.

Definition nl : string := String "010"%char EmptyString.
(** A decision process with three states, four choices and named actions. *)
Definition tr_mdp : text := str ("3 4 5" ++ nl ++ "0 0 1 0.5 go" ++ nl ++ "0 0 2 +5.0e-1 go" ++ nl ++ "0 1 0 1 stay" ++ nl ++ "1 0 1 1" ++ nl ++ "2 0 2 1." ++ nl).
Definition tr_es : list entry :=
  [Entry 0 0 1 (1 # 2) (Some (str "go")); Entry 0 0 2 (1 # 2) (Some (str "go")); Entry 0 1 0 1 (Some (str "stay")); Entry 1 0 1 1 None; Entry 2 0 2 1 None].
Definition tr_ps : list (nat * nat) := [(0, 0); (0, 1); (1, 0); (2, 0)].
Definition tr_dtmc : text := str ("2 3" ++ nl ++ "0 0 0.25" ++ nl ++ "0 1 .75" ++ nl ++ "1 1 1" ++ nl).
Definition tr_ds : list entry := [Entry 0 0 0 (1 # 4) None; Entry 0 0 1 (3 # 4) None; Entry 1 0 1 1 None].
Definition tr_lab : text := str ("0=""init"" 2=""my goal"" 1=""deadlock""" ++ nl ++ "0: 0" ++ nl ++ "1: 1 2" ++ nl).
Definition tr_names : list (nat * string) := [(0, "init"); (2, "my goal"); (1, "deadlock")].
Definition tr_rows : list (nat * list nat) := [(0, [0]); (1, [1; 2])].

Ltac nat_of n := change (natural (show_nat n) n); apply show_dec.
Lemma nat_text : forall n t, show_nat n = t -> natural t n.
Proof. intros n t <-. apply show_dec. Qed.
Lemma dec_text : forall n t, show n = t -> decimal t n.
Proof. intros n t <-. apply show_dec. Qed.
Lemma space_fields : forall l t, t = join_with SPACE l -> l <> [] -> forallb (fun x => forallb (fun c => negb (Ascii.eqb c SPACE)) x) l = true -> fields SPACE t l.
Proof.
  intros l t -> N H. apply fields_join; [exact N|]. intros x I X. rewrite forallb_forall in H. specialize (H x I). rewrite forallb_forall in H. specialize (H _ X). discriminate H.
Qed.
Lemma int_number : forall n t q, show n = t -> (q == inject_Z (Z.of_N n))%Q -> number t q.
Proof.
  intros n t q E V. exists [], 1%Z, t, n, 0, [], 0%Z. rewrite app_nil_r. split; [reflexivity|]. split; [constructor|]. split; [apply mant_int; apply dec_text; exact E|]. split; [constructor|]. rewrite V. rewrite Z.mul_1_l. cbn [Z.of_nat Z.sub Z.add Z.opp Qpower]. ring.
Qed.
Lemma word_text : forall t, t <> [] -> forallb (fun c => (33 <=? nat_of_ascii c) && (nat_of_ascii c <=? 126)) t = true -> word t.
Proof. intros t N H. split; [exact N|]. intros c I. rewrite forallb_forall in H. specialize (H c I). apply andb_true_iff in H. destruct H as [A B]. apply Nat.leb_le in A. apply Nat.leb_le in B. auto. Qed.

Lemma half_1 : number (str "0.5") (1 # 2).
Proof.
  exists [], 1%Z, (str "0.5"), 5%N, 1, [], 0%Z. split; [reflexivity|]. split; [constructor|]. split; [|split; [constructor|reflexivity]].
  apply (mant_point (str "0") (str "5") 5). apply (dec_more (str "0") 0 5); [apply (dec_one 0); reflexivity|reflexivity].
Qed.
Lemma half_2 : number (str "+5.0e-1") (1 # 2).
Proof.
  exists (str "+"), 1%Z, (str "5.0"), 50%N, 1, (str "e-1"), (-1)%Z. split; [reflexivity|]. split; [constructor|]. split; [|split; [|reflexivity]].
  - apply (mant_point (str "5") (str "0") 50). apply (dec_more (str "5") 5 0); [apply (dec_one 5); reflexivity|reflexivity].
  - apply (exp_some "e"%char (str "-") (-1) (str "1") 1); [left; reflexivity|constructor|apply (dec_one 1); reflexivity].
Qed.
Lemma one_point : number (str "1.") 1.
Proof.
  exists [], 1%Z, (str "1."), 1%N, 0, [], 0%Z. split; [reflexivity|]. split; [constructor|]. split; [|split; [constructor|reflexivity]].
  apply (mant_point (str "1") [] 1). apply (dec_one 1). reflexivity.
Qed.
Lemma quarter : number (str "0.25") (1 # 4).
Proof.
  exists [], 1%Z, (str "0.25"), 25%N, 2, [], 0%Z. split; [reflexivity|]. split; [constructor|]. split; [|split; [constructor|reflexivity]].
  apply (mant_point (str "0") (str "25") 25). apply (dec_more (str "02") 2 5); [|reflexivity]. apply (dec_more (str "0") 0 2); [apply (dec_one 0); reflexivity|reflexivity].
Qed.
Lemma three_quarters : number (str ".75") (3 # 4).
Proof.
  exists [], 1%Z, (str ".75"), 75%N, 2, [], 0%Z. split; [reflexivity|]. split; [constructor|]. split; [|split; [constructor|reflexivity]].
  apply (mant_point [] (str "75") 75). apply dec_text. reflexivity.
Qed.
Lemma one_int : number (str "1") 1.
Proof. apply (int_number 1); reflexivity. Qed.

Lemma tr_mdp_ok : mdp_file tr_mdp 3 4 tr_es.
Proof.
  exists (str "3 4 5"), (map str ["0 0 1 0.5 go"; "0 0 2 +5.0e-1 go"; "0 1 0 1 stay"; "1 0 1 1"; "2 0 2 1."]), (str "3"), (str "4"), (str "5"), 5.
  split; [reflexivity|]. split; [apply space_fields; [reflexivity|discriminate|reflexivity]|]. do 3 (split; [apply nat_text; reflexivity|]).
  unfold tr_es. cbn [map].
  constructor; [exists (str "0"), (str "0"), (str "1"), (str "0.5")|].
  { split; [apply space_fields; [reflexivity|discriminate|reflexivity]|]. do 3 (split; [apply nat_text; reflexivity|]). split; [apply half_1|]. intros l [= <-]. apply word_text; [discriminate|reflexivity]. }
  constructor; [exists (str "0"), (str "0"), (str "2"), (str "+5.0e-1")|].
  { split; [apply space_fields; [reflexivity|discriminate|reflexivity]|]. do 3 (split; [apply nat_text; reflexivity|]). split; [apply half_2|]. intros l [= <-]. apply word_text; [discriminate|reflexivity]. }
  constructor; [exists (str "0"), (str "1"), (str "0"), (str "1")|].
  { split; [apply space_fields; [reflexivity|discriminate|reflexivity]|]. do 3 (split; [apply nat_text; reflexivity|]). split; [apply one_int|]. intros l [= <-]. apply word_text; [discriminate|reflexivity]. }
  constructor; [exists (str "1"), (str "0"), (str "1"), (str "1")|].
  { split; [apply space_fields; [reflexivity|discriminate|reflexivity]|]. do 3 (split; [apply nat_text; reflexivity|]). split; [apply one_int|]. intros l X. discriminate X. }
  constructor; [exists (str "2"), (str "0"), (str "2"), (str "1.")|constructor].
  split; [apply space_fields; [reflexivity|discriminate|reflexivity]|]. do 3 (split; [apply nat_text; reflexivity|]). split; [apply one_point|]. intros l X. discriminate X.
Qed.
Lemma tr_dtmc_ok : dtmc_file tr_dtmc 2 tr_ds.
Proof.
  exists (str "2 3"), (map str ["0 0 0.25"; "0 1 .75"; "1 1 1"]), (str "2"), (str "3"), 3.
  split; [reflexivity|]. split; [apply space_fields; [reflexivity|discriminate|reflexivity]|]. do 2 (split; [apply nat_text; reflexivity|]).
  unfold tr_ds. cbn [map].
  constructor; [split; [reflexivity|]; exists (str "0"), (str "0"), (str "0.25")|].
  { split; [apply space_fields; [reflexivity|discriminate|reflexivity]|]. do 2 (split; [apply nat_text; reflexivity|]). split; [apply quarter|]. intros l X. discriminate X. }
  constructor; [split; [reflexivity|]; exists (str "0"), (str "1"), (str ".75")|].
  { split; [apply space_fields; [reflexivity|discriminate|reflexivity]|]. do 2 (split; [apply nat_text; reflexivity|]). split; [apply three_quarters|]. intros l X. discriminate X. }
  constructor; [split; [reflexivity|]; exists (str "1"), (str "1"), (str "1")|constructor].
  split; [apply space_fields; [reflexivity|discriminate|reflexivity]|]. do 2 (split; [apply nat_text; reflexivity|]). split; [apply one_int|]. intros l X. discriminate X.
Qed.
Lemma tr_lab_ok : lab_file tr_lab tr_names tr_rows /\ declared_once tr_names tr_rows.
Proof.
  assert (PL : forall l, forallb (fun c => negb (Ascii.eqb c """"%char) && negb (Ascii.eqb c "010"%char) && negb (Ascii.eqb c "013"%char)) (list_ascii_of_string l) = true -> plain l).
  { intros l H c I. rewrite forallb_forall in H. specialize (H c I). apply andb_true_iff in H. destruct H as [H C]. apply andb_true_iff in H. destruct H as [A B]. repeat split; intros ->; discriminate. }
  split.
  - exists (str "0=""init"" 2=""my goal"" 1=""deadlock"""), (map str ["0: 0"; "1: 1 2"]). split; [reflexivity|]. split.
    + apply (header_more (str "0=""init""") (0, "init")); [exists (str "0"); split; [apply nat_text; reflexivity|]; split; [apply PL; reflexivity|reflexivity]|].
      apply (header_more (str "2=""my goal""") (2, "my goal")); [exists (str "2"); split; [apply nat_text; reflexivity|]; split; [apply PL; reflexivity|reflexivity]|].
      apply header_one. exists (str "1"). split; [apply nat_text; reflexivity|]. split; [apply PL; reflexivity|reflexivity].
    + cbn [map]. constructor; [exists (str "0"), (str "0"), [str "0"]|].
      { split; [apply nat_text; reflexivity|]. split; [reflexivity|]. split; [apply space_fields; [reflexivity|discriminate|reflexivity]|]. repeat constructor; apply nat_text; reflexivity. }
      constructor; [exists (str "1"), (str "1 2"), [str "1"; str "2"]|constructor].
      split; [apply nat_text; reflexivity|]. split; [reflexivity|]. split; [apply space_fields; [reflexivity|discriminate|reflexivity]|]. repeat constructor; apply nat_text; reflexivity.
  - split.
    + repeat constructor; cbn; intuition discriminate.
    + intros s ids k [X|[X|[]]] K; inversion X; subst; cbn in K |- *; intuition (subst; auto).
Qed.
Lemma tr_es_ok : well_formed 3 tr_es /\ pairs tr_es tr_ps /\ probabilities tr_es /\ forall s a, In (s, a) tr_ps -> near_one (given_sum 3 tr_es s a).
Proof.
  split; [|split; [|split]].
  - split; [intros e X; cbn in X; intuition (subst; cbn; lia)|repeat constructor; cbn; intuition discriminate].
  - split; [repeat constructor; cbn; intuition discriminate|]. intros s a. split.
    + intros X. cbn in X. destruct X as [X|[X|[X|[X|[]]]]]; inversion X; subst; [exists (Entry 0 0 1 (1 # 2) (Some (str "go")))|exists (Entry 0 1 0 1 (Some (str "stay")))|exists (Entry 1 0 1 1 None)|exists (Entry 2 0 2 1 None)]; cbn; auto 10.
    + intros (e & X & <- & <-). cbn in X. intuition (subst; cbn; auto).
  - intros e X. cbn in X. intuition (subst; cbn; discriminate).
  - intros s a X. cbn in X. destruct X as [X|[X|[X|[X|[]]]]]; inversion X; subst; vm_compute; discriminate.
Qed.
Lemma tr_ds_ok : well_formed 2 tr_ds /\ probabilities tr_ds /\ forall s, s < 2 -> near_one (given_sum 2 tr_ds s 0).
Proof.
  split; [|split].
  - split; [intros e X; cbn in X; intuition (subst; cbn; lia)|repeat constructor; cbn; intuition discriminate].
  - intros e X. cbn in X. intuition (subst; cbn; discriminate).
  - intros s X. destruct s as [|[|s]]; [vm_compute; discriminate|vm_compute; discriminate|lia].
Qed.
