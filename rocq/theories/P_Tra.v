(** Property C78: loading explicit models.  [mdp_file], [dtmc_file] and
    [lab_file] say that a text describes transitions and labels; [described]
    and [action_names] that a system is the described one (SpecTra). *)
From Coq Require Import String List Arith NArith ZArith QArith Bool Ascii Lia.
From Verif Require Import Base Num Matrix SpecSystem SpecBuilt SpecFiles SpecPrism SpecTra Amdp Files Prism TraProofs3 ExTra.
Import ListNotations.
Local Open Scope string_scope.
Local Open Scope nat_scope.

(** C78.  Loading the files of a decision process gives the described system
    if the announced number of choices occurs, all numbers are probabilities
    and the probabilities of every pair sum to one (up to nine decimals), and
    an assertion error otherwise. *)
Theorem C78_mdp : forall lab tra names rows N C es ps, lab_file lab names rows -> declared_once names rows -> mdp_file tra N C es -> well_formed N es -> pairs es ps -> length ps <= C ->
  let ok := length ps = C /\ probabilities es /\ (forall s a, In (s, a) ps -> near_one (given_sum N es s a)) in
  (ok -> exists m, from_file KMdp lab tra = Ok m /\ built m /\ described m KMdp N C es names rows /\ action_names m es) /\
  (~ ok -> from_file KMdp lab tra = Err AssertionError).
Proof. exact C78_mdp_lemma. Qed.
Print Assumptions C78_mdp.

(** More choices than announced. *)
Theorem C78_overflow : forall lab tra names rows N C es ps, lab_file lab names rows -> declared_once names rows -> mdp_file tra N C es -> well_formed N es -> pairs es ps -> C < length ps ->
  from_file KMdp lab tra = Err IndexError.
Proof. exact C78_overflow_lemma. Qed.
Print Assumptions C78_overflow.

(** Chains. *)
Theorem C78_dtmc : forall lab tra names rows N es, lab_file lab names rows -> declared_once names rows -> dtmc_file tra N es -> well_formed N es ->
  let ok := probabilities es /\ (forall s, s < N -> near_one (given_sum N es s 0)) in
  (ok -> exists m, from_file KDtmc lab tra = Ok m /\ built m /\ described m KDtmc N N es names rows) /\
  (~ ok -> from_file KDtmc lab tra = Err AssertionError).
Proof. exact C78_dtmc_lemma. Qed.
Print Assumptions C78_dtmc.

Example C78_mdp_case : exists m, from_file KMdp tr_lab tr_mdp = Ok m /\ described m KMdp 3 4 tr_es tr_names tr_rows /\ action_names m tr_es /\ has_label m "my goal" 1.
Proof.
  destruct tr_es_ok as (W & P & A & B). destruct (C78_mdp tr_lab tr_mdp tr_names tr_rows 3 4 tr_es tr_ps (proj1 tr_lab_ok) (proj2 tr_lab_ok) tr_mdp_ok W P (le_n 4)) as [H _].
  destruct H as (m & E & _ & D & AN); [split; [reflexivity|split; assumption]|]. exists m. split; [exact E|]. split; [exact D|]. split; [exact AN|].
  destruct D as (_ & _ & _ & _ & _ & _ & L). apply L. exists 2, [1; 2]. cbn. auto.
Qed.
Example C78_dtmc_case : exists m, from_file KDtmc tr_lab tr_dtmc = Ok m /\ described m KDtmc 2 2 tr_ds tr_names tr_rows.
Proof.
  destruct tr_ds_ok as (W & A & B). destruct (C78_dtmc tr_lab tr_dtmc tr_names tr_rows 2 tr_ds (proj1 tr_lab_ok) (proj2 tr_lab_ok) tr_dtmc_ok W) as [H _].
  destruct H as (m & E & _ & D); [split; assumption|]. exists m. split; [exact E|exact D].
Qed.

(** C77.  If prism exports files that describe a model, from_prism_model returns
    this model; if prism fails it raises. *)
Theorem C77_prism_model_partial : forall run dir tmp model consts labels args file, prism_call tmp model (dir ++ str "/model")%list consts labels = Ok (args, file) ->
  (forall tra lab names rows N C es ps, run args file = Exported tra lab -> lab_file lab names rows -> declared_once names rows -> mdp_file tra N C es -> well_formed N es -> pairs es ps ->
     length ps = C -> probabilities es -> (forall s a, In (s, a) ps -> near_one (given_sum N es s a)) ->
     exists m, from_prism_model KMdp run dir tmp model consts labels = Ok m /\ built m /\ described m KMdp N C es names rows /\ action_names m es) /\
  (forall tra lab names rows N es, run args file = Exported tra lab -> lab_file lab names rows -> declared_once names rows -> dtmc_file tra N es -> well_formed N es ->
     probabilities es -> (forall s, s < N -> near_one (given_sum N es s 0)) ->
     exists m, from_prism_model KDtmc run dir tmp model consts labels = Ok m /\ built m /\ described m KDtmc N N es names rows) /\
  (forall k, run args file = CallFailed -> from_prism_model k run dir tmp model consts labels = Err AssertionError).
Proof.
  intros run dir tmp model consts labels args file E. unfold from_prism_model, prism_to_tra. rewrite E. cbn [bind]. split; [|split].
  - intros tra lab names rows N C es ps R L D M W P LC PR SU. rewrite R. cbn [bind].
    apply (proj1 (C78_mdp_lemma lab tra names rows N C es ps L D M W P (Nat.eq_le_incl _ _ LC))). split; [exact LC|split; assumption].
  - intros tra lab names rows N es R L D M W PR SU. rewrite R. cbn [bind]. apply (proj1 (C78_dtmc_lemma lab tra names rows N es L D M W)). split; assumption.
  - intros k R. rewrite R. reflexivity.
Qed.
Print Assumptions C77_prism_model_partial.

Example C77_prism_model_case : exists args file, prism_call (str "t") (str "mdp" ++ ["010"%char])%list (str "d/model") (Pairs []) (Pairs [(str "goal", str "x=1")]) = Ok (args, file) /\
  exists m, from_prism_model KMdp (fun _ _ => Exported tr_mdp tr_lab) (str "d") (str "t") (str "mdp" ++ ["010"%char])%list (Pairs []) (Pairs [(str "goal", str "x=1")]) = Ok m /\ described m KMdp 3 4 tr_es tr_names tr_rows.
Proof.
  eexists. eexists. split; [vm_compute; reflexivity|]. destruct tr_es_ok as (W & P & A & B).
  destruct (C77_prism_model_partial (fun _ _ => Exported tr_mdp tr_lab) (str "d") (str "t") (str "mdp" ++ ["010"%char])%list (Pairs []) (Pairs [(str "goal", str "x=1")]) _ _ eq_refl) as [H _].
  destruct (H tr_mdp tr_lab tr_names tr_rows 3 4 tr_es tr_ps eq_refl (proj1 tr_lab_ok) (proj2 tr_lab_ok) tr_mdp_ok W P eq_refl A B) as (m & E & _ & D & _). exists m. split; [exact E|exact D].
Qed.
