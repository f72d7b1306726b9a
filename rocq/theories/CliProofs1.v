(** Proofs about the command line: whatever is loaded from files is a built
    system with plain label names. *)
From Coq Require Import String List Arith ZArith QArith Bool Ascii Lia.
From Verif Require Import Base BaseFacts Num Matrix MatFacts InvDict InvDictProofs SpecSystem SpecBuilt SpecFiles Amdp AmdpProofs ReachFormProofs BuiltFacts Reduce ReduceProofs3 Files.
Import ListNotations.
Local Open Scope nat_scope.

Tactic Notation "step" hyp(H) "as" ident(a) ident(E) := let R := fresh in apply bind_ok in H; destruct H as (a & E & R); cbv beta in R; rename R into H.

Lemma foldM_pres : forall A S (f : S -> A -> res S) (I : S -> Prop) l s s', (forall x a b, In x l -> I a -> f a x = Ok b -> I b) -> I s -> foldM f l s = Ok s' -> I s'.
Proof.
  intros A S f I l. induction l as [|x l IH]; intros s s' H H0 E; [inversion E; subst; auto|]. cbn [foldM] in E. apply bind_ok in E. destruct E as (s1 & E1 & E2).
  eapply IH; [|eapply (H x); [left; auto|exact H0|exact E1]|exact E2]. intros y a b Hy. apply H. right. auto.
Qed.

(** ** Matrices *)
Lemma dset_in : forall K V (eqb : K -> K -> bool), (forall a b, reflect (a = b) (eqb a b)) -> forall (d : dict K V) k v x, In x (dset eqb d k v) -> x = (k, v) \/ In x d.
Proof.
  intros K V eqb HE. induction d as [|[k' v'] d IH]; intros k v x H; [destruct H as [H|[]]; auto|]. cbn [dset] in H. destruct (HE k k') as [->|N].
  - destruct H as [H|H]; [auto|right; right; auto].
  - destruct H as [H|H]; [right; left; auto|]. apply IH in H. destruct H; auto. right. right. auto.
Qed.
Lemma ddel_in : forall K V (eqb : K -> K -> bool) (d : dict K V) k x, In x (ddel eqb d k) -> In x d.
Proof.
  intros K V eqb. induction d as [|[k' v'] d IH]; intros k x H; [destruct H|]. cbn [ddel] in H. destruct (eqb k k'); [right; auto|]. destruct H as [H|H]; [left; auto|right; eapply IH; eauto].
Qed.
Lemma mset_wf : forall P i j q P', wf_mat P -> mset P i j q = Ok P' -> wf_mat P' /\ mrows P' = mrows P /\ mcols P' = mcols P.
Proof.
  intros P i j q P' [WN WI] E. unfold mset in E. destruct ((i <? mrows P) && (j <? mcols P)) eqn:B; [|discriminate]. injection E as <-. apply andb_true_iff in B. destruct B as [B1 B2]. apply Nat.ltb_lt in B1. apply Nat.ltb_lt in B2.
  split; [|split; reflexivity]. split; cbn [mitems mrows mcols].
  - destruct (Qeq_bool q 0); [apply (ddel_nodup pair_eqb pair_eqbP); auto|apply (dset_nodup pair_eqb pair_eqbP); auto].
  - intros i' d' p H. destruct (Qeq_bool q 0) eqn:Z.
    + apply ddel_in in H. auto.
    + apply (dset_in _ _ pair_eqb pair_eqbP) in H. destruct H as [H|H]; [|auto]. inversion H; subst. split; [auto|]. split; [auto|]. intros X. apply Qeq_bool_iff in X. congruence.
Qed.
Lemma mresize_wf : forall P r c, wf_mat P -> wf_mat (mresize P r c).
Proof.
  intros P r c [WN WI]. split; cbn [mresize mitems mrows mcols].
  - clear WI. induction (mitems P) as [|x l IH]; [constructor|]. cbn [map] in WN. inversion WN; subst. cbn [filter]. destruct (_ && _); [|auto]. cbn [map]. constructor; [|auto].
    intros H. apply H1. apply in_map_iff in H. destruct H as (y & E & Hy). apply in_map_iff. exists y. split; auto. apply filter_In in Hy. apply Hy.
  - intros i d p H. apply filter_In in H. destruct H as [H1 H2]. cbn [fst snd] in H2. apply andb_true_iff in H2. destruct H2 as [A B]. apply Nat.ltb_lt in A. apply Nat.ltb_lt in B. split; [auto|]. split; [auto|]. apply (WI i d p H1).
Qed.
Lemma mzero_wf : forall r c, wf_mat (mzero r c).
Proof. intros. split; [constructor|intros ? ? ? []]. Qed.

(** ** Transition files *)
Lemma bput_keys : forall (b : dict (nat * nat) nat) k v b', NoDup (map fst b) -> bput pair_eqb Nat.eqb b k v = Ok b' -> NoDup (map fst b').
Proof.
  intros b k v b' H E. unfold bput in E. destruct (binv Nat.eqb b v); [destruct (pair_eqb k p); [injection E as <-; auto|discriminate]|]. injection E as <-. apply (dset_nodup pair_eqb pair_eqbP). auto.
Qed.
Lemma load_mdp_wf : forall file st, load_mdp file = Ok st -> wf_mat (l_P st) /\ NoDup (map fst (l_idx st)) /\ sets_ok (l_acts st).
Proof.
  intros file st E. unfold load_mdp in E. destruct (match read_lines file with [] => ([], []) | x :: r => (x, r) end) as [first rest]. step E as a Ea. step E as b Eb.
  refine (foldM_pres _ _ load_line (fun st => wf_mat (l_P st) /\ NoDup (map fst (l_idx st)) /\ sets_ok (l_acts st)) rest _ st _ _ E).
  - intros x s s' _ (W & N & S) Es. unfold load_line in Es. cbv zeta in Es. step Es as a1 E1. step Es as a2 E2. step Es as a3 E3. step Es as w E4. step Es as q E5.
    set (acts := match words x with [_; _; _; _; l] => side_add String.eqb pair_eqb (l_acts s) (unstr l) (a1, a2) | _ => l_acts s end) in Es.
    assert (SA : sets_ok acts).
    { unfold acts. destruct (words x) as [|? [|? [|? [|? [|l [|? ?]]]]]]; auto. apply (lab_add_spec _ pair_eqb pair_eqbP _ (unstr l) (a1, a2) S). }
    clearbody acts. step Es as z Ez. destruct z as [[i idx] mx]. step Es as P' EP. injection Es as <-. cbn [l_P l_idx l_acts].
    split; [eapply mset_wf; eauto|]. split; [|auto]. destruct (dget pair_eqb (l_idx s) (a1, a2)); [injection Ez as _ <- _; auto|]. step Ez as b' Eb'. injection Ez as _ <- _. eapply bput_keys; eauto.
  - cbn [l_P l_idx l_acts map]. split; [apply mresize_wf, mzero_wf|]. split; [constructor|]. split; [constructor|intros ? ? []].
Qed.
Lemma load_dtmc_wf : forall file P, load_dtmc file = Ok P -> wf_mat P.
Proof.
  intros file P E. unfold load_dtmc in E. refine (foldM_pres _ _ _ wf_mat _ _ _ _ (mzero_wf 1 1) E). intros x s s' _ W Es. cbv zeta in Es.
  assert (G : forall a b c, (let* s0 := a in let* d := b in let* w := c in let* p := read_float w in mset s s0 d p) = Ok s' -> wf_mat s').
  { intros a b c H. step H as a1 E1. step H as a2 E2. step H as a3 E3. step H as a4 E4. eapply mset_wf; eauto. }
  destruct (words x) as [|w0 [|w1 [|w2 r]]]; try (eapply G; exact Es). step Es as n En. injection Es as <-. apply mresize_wf. auto.
Qed.

(** ** Label files *)
Lemma universal_no_CR : forall t, ~ In CR (universal t).
Proof.
  induction t as [|c t IH]; [intros []|]. cbn [universal]. destruct (Ascii.eqb_spec c CR) as [->|N].
  - destruct t as [|d t']; [intros [H|[]]; discriminate|]. destruct (Ascii.eqb d LF); [exact IH|]. intros [H|H]; [discriminate|auto].
  - intros [H|H]; [congruence|auto].
Qed.
Lemma lines_from_in : forall t cur l c, In l (lines_from cur t) -> In c l -> In c cur \/ In c t \/ c = LF.
Proof.
  induction t as [|x t IH]; intros cur l c H Hc; cbn [lines_from] in H.
  - destruct cur; [destruct H|]. destruct H as [<-|[]]. auto.
  - destruct (Ascii.eqb_spec x LF) as [->|N].
    + destruct H as [<-|H]; [apply in_app_iff in Hc; destruct Hc as [Hc|[Hc|[]]]; auto|]. apply (IH [] l c H) in Hc. destruct Hc as [[]|[Hc|Hc]]; auto. right; left; right; auto.
    + apply (IH (cur ++ [x]) l c H) in Hc. destruct Hc as [Hc|[Hc|Hc]]; auto. 2:{ right; left; right; auto. } apply in_app_iff in Hc. destruct Hc as [Hc|[Hc|[]]]; auto. right; left; left; auto.
Qed.
Lemma read_lines_no_CR : forall t l, In l (read_lines t) -> ~ In CR l.
Proof. intros t l H X. destruct (lines_from_in _ _ _ _ H X) as [[]|[Y|Y]]; [eapply universal_no_CR; eauto|discriminate]. Qed.
Definition plain_t (l : text) : Prop := forall c, In c l -> c <> QUOTE /\ c <> LF /\ c <> CR.
Lemma marks_plain : forall t st, ~ In CR t -> match st with MIn _ l => plain_t l | _ => True end -> forall ds l, In (ds, l) (marks st t) -> plain_t l.
Proof.
  induction t as [|c t IH]; intros st NC HS ds l H; [destruct H|]. assert (NC' : ~ In CR t) by (intros X; apply NC; right; auto). cbn [marks] in H. destruct st as [d|d|d k].
  - destruct (is_digit c); [eapply IH; eauto; exact I|]. destruct (Ascii.eqb c EQUALS); [|eapply IH; eauto; exact I]. destruct d; eapply IH; eauto; exact I.
  - destruct (Ascii.eqb c QUOTE); [eapply IH; [eauto| |exact H]; intros ? []|]. destruct (is_digit c); eapply IH; eauto; exact I.
  - destruct (Ascii.eqb_spec c QUOTE) as [->|N1].
    + destruct H as [H|H]; [inversion H; subst; exact HS|eapply IH; eauto; exact I].
    + destruct (Ascii.eqb_spec c LF) as [->|N2]; [destruct H|]. eapply IH; [eauto| |exact H]. intros x Hx. apply in_app_iff in Hx. destruct Hx as [Hx|[<-|[]]]; [apply HS; auto|]. split; [auto|]. split; [auto|]. intros ->. apply NC. left. auto.
Qed.
Lemma plain_unstr : forall l, plain_t l -> plain (unstr l).
Proof. intros l H c Hc. unfold unstr in Hc. rewrite list_ascii_of_string_of_list_ascii in Hc. apply H. auto. Qed.

Lemma parse_labels_ok : forall file sl, parse_label_file file = Ok sl -> sets_ok sl /\ forall l, In l (dkeys sl) -> plain l.
Proof.
  intros file sl E. unfold parse_label_file in E. destruct (read_lines file) as [|first rest] eqn:RL; [discriminate|]. step E as st0 Hok. destruct st0 as [ids sets].
  assert (NC : ~ In CR first) by (apply (read_lines_no_CR file); rewrite RL; left; auto).
  assert (I0 : (fun st : dict nat string * dict string (list nat) => sets_ok (snd st) /\ forall l, In l (dkeys (snd st)) -> plain l) (ids, sets)).
  { refine (foldM_pres _ _ _ (fun st : dict nat string * dict string (list nat) => sets_ok (snd st) /\ forall l, In l (dkeys (snd st)) -> plain l) _ _ _ _ _ Hok); [|split; [split; [constructor|intros ? ? []]|intros ? []]].
    intros [ds l] [i s] b Hin [[HN HS] HP] Eb. step Eb as id Ei. injection Eb as <-. cbn [snd fst] in *. split; [split|].
    - apply (dset_nodup String.eqb String.eqb_spec); auto.
    - intros l0 s0 H. apply (dset_in _ _ String.eqb String.eqb_spec) in H. destruct H as [H|H]; [inversion H; constructor|eauto].
    - intros l0 H. apply (dset_keys_in String.eqb String.eqb_spec) in H. destruct H as [->|H]; auto. apply plain_unstr. eapply marks_plain; [exact NC| |exact Hin]. exact I. }
  cbn [snd] in I0. clear Hok.
  refine (foldM_pres _ _ _ (fun sl => sets_ok sl /\ forall l, In l (dkeys sl) -> plain l) _ _ _ _ I0 E).
  intros line s s' _ HI Es. cbv beta in Es. step Es as g Eg. destruct g as [g1 g2]. step Es as z Ez.
  refine (foldM_pres _ _ _ (fun sl => sets_ok sl /\ forall l, In l (dkeys sl) -> plain l) _ _ _ _ HI Es).
  intros w sa sb _ [[HN HS] HP] Ew. cbv beta in Ew. step Ew as a1 E1. step Ew as a2 E2. step Ew as a3 E3. injection Ew as <-. split; [split|].
  - apply (dset_nodup String.eqb String.eqb_spec); auto.
  - intros l0 s0 H. apply (dset_in _ _ String.eqb String.eqb_spec) in H. destruct H as [H|H]; [|eauto]. inversion H; subst. apply (sadd_nodup _ Nat.eqb Nat.eqb_spec). destruct (dget String.eqb sa a2) eqn:G; [|discriminate]. injection E3 as ->. apply (dget_In String.eqb String.eqb_spec) in G. eauto.
  - intros l0 H. apply (dset_keys_in String.eqb String.eqb_spec) in H. destruct H as [->|H]; auto. apply HP. destruct (dget String.eqb sa a2) eqn:G; [|discriminate]. apply (dget_In String.eqb String.eqb_spec) in G. apply in_map_iff. exists (a2, l). auto.
Qed.

Lemma from_file_ok : forall k lab tra m, from_file k lab tra = Ok m -> built m /\ (forall l, In l (label_names m) -> plain l) /\ a_kind m = k /\ a_rew m = None.
Proof.
  intros k lab tra m E. unfold from_file in E. step E as a Hok. destruct (parse_labels_ok lab a Hok) as [[SN SS] SP]. destruct k.
  - step E as a0 Hok1. destruct (load_mdp_wf tra _ Hok1) as (W & N & AN & AS). assert (C : constructed m).
    { exists (l_P a0), (l_idx a0), (l_acts a0), a, None. split; [|left; exact E]. split; [auto|]. split; [auto|]. split; [split; auto|]. split; auto. }
    split; [apply built_new; auto|]. unfold mk_mdp in E. apply mk_abstract_inv in E; [|auto]. destruct E as (F1 & F2 & F3 & F4 & F5 & F6 & _). unfold label_names. rewrite F6. cbn [fwd mk_idict]. auto.
  - step E as a0 Hok1. pose proof (load_dtmc_wf tra _ Hok1) as W. set (idx := map (fun i => ((i, 0), i)) (seq 0 (mrows a0))).
    assert (NI : NoDup (map fst idx)). { unfold idx. rewrite map_map. cbn [fst]. apply FinFun.Injective_map_NoDup; [intros x y X; inversion X; auto|apply seq_NoDup]. }
    assert (C : constructed m). { exists a0, idx, [], a, None. split; [|right; right; exact E]. split; [auto|]. split; [auto|]. split; [split; [constructor|intros ? ? []]|]. split; auto. }
    split; [apply built_new; auto|]. unfold mk_dtmc in E. step E as u Eu. cbn [bind] in E. apply mk_abstract_inv in E; [|exact NI]. destruct E as (F1 & F2 & F3 & F4 & F5 & F6 & _). unfold label_names. rewrite F6. cbn [fwd mk_idict]. auto.
Qed.
