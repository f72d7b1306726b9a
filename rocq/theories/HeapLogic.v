(** A separation logic for the memory of Heap.v: assertions about the blocks a
    program part owns, as an instance of the logics of Iris' proof mode (not
    step indexed, linear: what is not given back is visible), and weakest
    preconditions.  Only used in proofs. *)
From Coq Require Import List Arith ZArith.
From stdpp Require Import gmap.
From iris.bi Require Import interface.
From iris.proofmode Require Import proofmode.
From Verif Require Import Base Graph Heap.
From iris.prelude Require Import options.

Local Set Warnings "-redundant-canonical-projection".

Notation hmap := (gmap nat block).

Record hp := Hp { hp_holds :> hmap → Prop }.

Section ofe.
  Inductive hp_equiv' (P Q : hp) : Prop := { hp_in_equiv : ∀ σ, P σ ↔ Q σ }.
  Global Instance hp_equiv : Equiv hp := hp_equiv'.
  Global Instance hp_equivalence : Equivalence (≡@{hp}).
  Proof. split; repeat destruct 1; constructor; naive_solver. Qed.
  Canonical Structure hpO := discreteO hp.
End ofe.

Inductive hp_entails (P Q : hp) : Prop := { hp_in_entails : ∀ σ, P σ → Q σ }.

Definition hp_emp_def : hp := {| hp_holds σ := σ = ∅ |}.
Definition hp_emp_aux : seal (@hp_emp_def). Proof. by eexists. Qed.
Definition hp_emp := unseal hp_emp_aux.
Definition hp_emp_eq : @hp_emp = @hp_emp_def := seal_eq hp_emp_aux.

Definition hp_pure_def (φ : Prop) : hp := {| hp_holds _ := φ |}.
Definition hp_pure_aux : seal (@hp_pure_def). Proof. by eexists. Qed.
Definition hp_pure := unseal hp_pure_aux.
Definition hp_pure_eq : @hp_pure = @hp_pure_def := seal_eq hp_pure_aux.

Definition hp_and_def (P Q : hp) : hp := {| hp_holds σ := P σ ∧ Q σ |}.
Definition hp_and_aux : seal (@hp_and_def). Proof. by eexists. Qed.
Definition hp_and := unseal hp_and_aux.
Definition hp_and_eq : @hp_and = @hp_and_def := seal_eq hp_and_aux.

Definition hp_or_def (P Q : hp) : hp := {| hp_holds σ := P σ ∨ Q σ |}.
Definition hp_or_aux : seal (@hp_or_def). Proof. by eexists. Qed.
Definition hp_or := unseal hp_or_aux.
Definition hp_or_eq : @hp_or = @hp_or_def := seal_eq hp_or_aux.

Definition hp_impl_def (P Q : hp) : hp := {| hp_holds σ := P σ → Q σ |}.
Definition hp_impl_aux : seal (@hp_impl_def). Proof. by eexists. Qed.
Definition hp_impl := unseal hp_impl_aux.
Definition hp_impl_eq : @hp_impl = @hp_impl_def := seal_eq hp_impl_aux.

Definition hp_forall_def {A} (Ψ : A → hp) : hp := {| hp_holds σ := ∀ a, Ψ a σ |}.
Definition hp_forall_aux : seal (@hp_forall_def). Proof. by eexists. Qed.
Definition hp_forall {A} := unseal hp_forall_aux A.
Definition hp_forall_eq : @hp_forall = @hp_forall_def := seal_eq hp_forall_aux.

Definition hp_exist_def {A} (Ψ : A → hp) : hp := {| hp_holds σ := ∃ a, Ψ a σ |}.
Definition hp_exist_aux : seal (@hp_exist_def). Proof. by eexists. Qed.
Definition hp_exist {A} := unseal hp_exist_aux A.
Definition hp_exist_eq : @hp_exist = @hp_exist_def := seal_eq hp_exist_aux.

Definition hp_sep_def (P Q : hp) : hp :=
  {| hp_holds σ := ∃ σ1 σ2, σ = σ1 ∪ σ2 ∧ σ1 ##ₘ σ2 ∧ P σ1 ∧ Q σ2 |}.
Definition hp_sep_aux : seal (@hp_sep_def). Proof. by eexists. Qed.
Definition hp_sep := unseal hp_sep_aux.
Definition hp_sep_eq : @hp_sep = @hp_sep_def := seal_eq hp_sep_aux.

Definition hp_wand_def (P Q : hp) : hp :=
  {| hp_holds σ := ∀ σ', σ ##ₘ σ' → P σ' → Q (σ ∪ σ') |}.
Definition hp_wand_aux : seal (@hp_wand_def). Proof. by eexists. Qed.
Definition hp_wand := unseal hp_wand_aux.
Definition hp_wand_eq : @hp_wand = @hp_wand_def := seal_eq hp_wand_aux.

Definition hp_persistently_def (P : hp) : hp := {| hp_holds σ := P ∅ |}.
Definition hp_persistently_aux : seal (@hp_persistently_def). Proof. by eexists. Qed.
Definition hp_persistently := unseal hp_persistently_aux.
Definition hp_persistently_eq : @hp_persistently = @hp_persistently_def := seal_eq hp_persistently_aux.

Definition hp_later (P : hp) : hp := P.

Definition unseal_eqs :=
  (hp_emp_eq, hp_pure_eq, hp_and_eq, hp_or_eq, hp_impl_eq, hp_forall_eq,
   hp_exist_eq, hp_sep_eq, hp_wand_eq, hp_persistently_eq).
Ltac unseal_raw := rewrite !unseal_eqs /=.

Section mixins.
  Lemma hp_bi_mixin :
    BiMixin hp_entails hp_emp hp_pure hp_and hp_or hp_impl (@hp_forall) (@hp_exist) hp_sep hp_wand hp_persistently.
  Proof.
    split.
    - split; repeat destruct 1; constructor; naive_solver.
    - intros P Q; split.
      + intros [HPQ]; split; split; naive_solver.
      + intros [[HPQ] [HQP]]; split; naive_solver.
    - unseal_raw=> n φ1 φ2 Hφ; split; naive_solver.
    - unseal_raw=> n P1 P2 [HP] Q1 Q2 [HQ]; split; naive_solver.
    - unseal_raw=> n P1 P2 [HP] Q1 Q2 [HQ]; split; naive_solver.
    - unseal_raw=> n P1 P2 [HP] Q1 Q2 [HQ]; split; naive_solver.
    - unseal_raw=> A n Φ1 Φ2 HΦ; split=> σ /=; split=> ? x; by apply HΦ.
    - unseal_raw=> A n Φ1 Φ2 HΦ; split=> σ /=; split=> -[x ?]; exists x; by apply HΦ.
    - unseal_raw=> n P1 P2 [HP] Q1 Q2 [HQ]; split; naive_solver.
    - unseal_raw=> n P1 P2 [HP] Q1 Q2 [HQ]; split; naive_solver.
    - unseal_raw=> n P1 P2 [HP]; split; naive_solver.
    - unseal_raw=> φ P ?; by split.
    - unseal_raw=> φ P HP; split=> σ ?. by apply HP.
    - unseal_raw=> P Q; split=> σ [??]; done.
    - unseal_raw=> P Q; split=> σ [??]; done.
    - unseal_raw=> P Q R [HPQ] [HPR]; split=> σ; split; auto.
    - unseal_raw=> P Q; split=> σ; by left.
    - unseal_raw=> P Q; split=> σ; by right.
    - unseal_raw=> P Q R [HPQ] [HQR]; split=> σ [?|?]; auto.
    - unseal_raw=> P Q R [HPQR]; split=> σ HP HQ. by apply HPQR.
    - unseal_raw=> P Q R [HPQR]; split=> σ [??]. by apply HPQR.
    - unseal_raw=> A P Ψ HPΨ; split=> σ ? a; by apply HPΨ.
    - unseal_raw=> A Ψ a; split=> σ; auto.
    - unseal_raw=> A Ψ a; split=> σ; by exists a.
    - unseal_raw=> A Φ Q HΦ; split=> σ [a ?]; by eapply HΦ.
    - unseal_raw=> P P' Q Q' [HPQ] [HP'Q']; split; naive_solver.
    - unseal_raw=> P; split=> σ ? /=. eexists ∅, σ. rewrite left_id_L.
      split_and!; done || apply map_disjoint_empty_l.
    - unseal_raw=> P; split; intros ? (?&?&->&?&->&?). by rewrite left_id_L.
    - unseal_raw=> P Q; split; intros ? (σ1&σ2&->&?&?&?).
      exists σ2, σ1. by rewrite map_union_comm.
    - unseal_raw=> P Q R; split; intros ? (?&σ3&->&?&(σ1&σ2&->&?&?&?)&?).
      exists σ1, (σ2 ∪ σ3). split_and!; [by rewrite assoc_L|solve_map_disjoint|done|].
      exists σ2, σ3; split_and!; [done|solve_map_disjoint|done..].
    - unseal_raw=> P Q R [HPQR]; split=> σ1 ? σ2 ??. apply HPQR. by exists σ1, σ2.
    - unseal_raw=> P Q R [HPQR]; split; intros ? (σ1&σ2&->&?&?&?). by apply HPQR.
    - unseal_raw=> P Q [HPQ]; split=> σ. apply HPQ.
    - unseal_raw=> P; by split=> σ.
    - unseal_raw; by split=> σ.
    - unseal_raw=> P Q; by split.
    - unseal_raw=> A Ψ; by split=> σ.
    - unseal_raw=> P Q; split. intros σ (σ1&σ2&->&?&?&?). done.
    - unseal_raw=> P Q; split=> σ [??]. eexists ∅, σ. rewrite left_id_L.
      split_and!; done || apply map_disjoint_empty_l.
  Qed.

  Lemma hp_bi_later_mixin :
    BiLaterMixin hp_entails hp_pure hp_or hp_impl (@hp_forall) (@hp_exist) hp_sep hp_persistently hp_later.
  Proof. eapply bi_later_mixin_id, hp_bi_mixin; done. Qed.
End mixins.

Global Arguments hp_holds : simpl never.

Canonical Structure hpI : bi :=
  {| bi_ofe_mixin := ofe_mixin_of hp; bi_bi_mixin := hp_bi_mixin; bi_bi_later_mixin := hp_bi_later_mixin |}.

Global Instance hp_pure_forall : BiPureForall hpI.
Proof. intros A φ. split. rewrite /bi_forall /bi_pure /=. unseal_raw. by intros σ H. Qed.

Lemma hp_entails_iff (P Q : hp) : (P ⊢ Q) ↔ ∀ σ, P σ → Q σ.
Proof. split; [by intros []|]. by intros H; split. Qed.

Lemma hp_sep_iff (P Q : hp) σ : (P ∗ Q)%I σ ↔ ∃ σ1 σ2, σ = σ1 ∪ σ2 ∧ σ1 ##ₘ σ2 ∧ P σ1 ∧ Q σ2.
Proof. rewrite {1}/bi_sep /=. rewrite hp_sep_eq //. Qed.
Lemma hp_wand_iff (P Q : hp) σ : (P -∗ Q)%I σ ↔ ∀ σ', σ ##ₘ σ' → P σ' → Q (σ ∪ σ').
Proof. rewrite {1}/bi_wand /=. rewrite hp_wand_eq //. Qed.
Lemma hp_forall_iff {A} (Ψ : A → hp) σ : (∀ a, Ψ a)%I σ ↔ ∀ a, Ψ a σ.
Proof. rewrite {1}/bi_forall /=. rewrite hp_forall_eq //. Qed.
Lemma hp_exist_iff {A} (Ψ : A → hp) σ : (∃ a, Ψ a)%I σ ↔ ∃ a, Ψ a σ.
Proof. rewrite {1}/bi_exist /=. rewrite hp_exist_eq //. Qed.
Lemma hp_emp_iff σ : (emp : hp)%I σ ↔ σ = ∅.
Proof. rewrite {1}/bi_emp /=. rewrite hp_emp_eq //. Qed.
Lemma hp_pure_iff (φ : Prop) σ : (⌜φ⌝ : hp)%I σ ↔ φ.
Proof. rewrite {1}/bi_pure /=. rewrite hp_pure_eq //. Qed.
Lemma hp_and_iff (P Q : hp) σ : (P ∧ Q)%I σ ↔ P σ ∧ Q σ.
Proof. rewrite {1}/bi_and /=. rewrite hp_and_eq //. Qed.
Lemma hp_affinely_iff (φ : Prop) σ : (<affine> ⌜φ⌝ : hp)%I σ ↔ σ = ∅ ∧ φ.
Proof. rewrite /bi_affinely hp_and_iff hp_emp_iff hp_pure_iff //. Qed.

(** ** Assertions *)
Definition pt_def (p : addr) (b : block) : hp := Hp (λ σ, σ = {[p := b]} ∧ p ≠ 0).
Definition pt_aux : seal (@pt_def). Proof. by eexists. Qed.
Definition pt := unseal pt_aux.
Definition pt_eq : @pt = @pt_def := seal_eq pt_aux.
Notation "p ↦ b" := (pt p b) (at level 20, format "p  ↦  b") : bi_scope.

(** [n] blocks nobody knows. *)
Definition junk_def (n : nat) : hp := Hp (λ σ, size σ = n).
Definition junk_aux : seal (@junk_def). Proof. by eexists. Qed.
Definition junk := unseal junk_aux.
Definition junk_eq : @junk = @junk_def := seal_eq junk_aux.

(** At least [n] blocks. *)
Definition hge (n : nat) : hp := Hp (λ σ, n ≤ size σ).

(** ** The memory and the blocks in it *)
Definition agree (m : mem) (σ : hmap) : Prop := ∀ a b, σ !! a = Some b ↔ nth_error m a = Some (Some b).
Definition wp_def {A} (E : exn → hp) (c : M A) (Φ : A → hp) : hp := Hp (λ σ,
  ∀ m σf, σ ##ₘ σf → agree m (σ ∪ σf) → mem_ok m →
  (∃ a m' σ', c m = Done a m' ∧ mem_ok m' ∧ σ' ##ₘ σf ∧ agree m' (σ' ∪ σf) ∧ Φ a σ') ∨
  (∃ e m' σ', c m = Raised e m' ∧ mem_ok m' ∧ σ' ##ₘ σf ∧ agree m' (σ' ∪ σf) ∧ E e σ')).
Definition wp_aux : seal (@wp_def). Proof. by eexists. Qed.
Definition wp {A} := unseal wp_aux A.
Definition wp_eq : @wp = @wp_def := seal_eq wp_aux.

Definition quiet : exn → hp := λ _, False%I.

Section rules.
  Context (E : exn → hp).

  Lemma pt_iff p b σ : (p ↦ b)%I σ ↔ σ = {[p := b]} ∧ p ≠ 0.
  Proof. rewrite pt_eq //. Qed.
  Lemma junk_iff n σ : junk n σ ↔ size σ = n.
  Proof. rewrite junk_eq //. Qed.
  Lemma wp_iff {A} (c : M A) Φ σ : wp E c Φ σ ↔ wp_def E c Φ σ.
  Proof. rewrite wp_eq //. Qed.

  Lemma agree_length m σ a b : agree m σ → σ !! a = Some b → a < length m.
  Proof. intros H1 H2. apply H1 in H2. apply nth_error_Some. by rewrite H2. Qed.

  Lemma agree_size m σ : agree m σ → mem_ok m → S (size σ) ≤ length m.
  Proof.
    intros Ha Hm.
    assert (Hs : dom σ ⊆ set_seq (C := gset nat) 1 (length m - 1)).
    { intros a Hi. apply elem_of_dom in Hi as [b Hb]. apply elem_of_set_seq.
      pose proof (agree_length _ _ _ _ Ha Hb). destruct a; [|lia].
      apply Ha in Hb. rewrite Hm in Hb. done. }
    apply subseteq_size in Hs. rewrite size_dom in Hs.
    rewrite size_set_seq in Hs. destruct m; [done|]. simpl in *. lia.
  Qed.

  Lemma nth_error_upd {A} (l : list A) i j x : i < length l → nth_error (upd l i x) j = if decide (i = j) then Some x else nth_error l j.
  Proof.
    revert i j. induction l as [|y l IH]; simpl; [lia|]. intros [|i] [|j] H; simpl; try done.
    rewrite IH; [|lia]. repeat case_decide; naive_solver.
  Qed.

  Lemma upd_len {A} (l : list A) i x : length (upd l i x) = length l.
  Proof. revert i. induction l; intros [|i]; simpl; congruence. Qed.

  Lemma agree_store m σ p b b' : agree m σ → σ !! p = Some b → agree (upd m p (Some b')) (<[p:=b']> σ).
  Proof.
    intros Ha Hp a c. pose proof (agree_length _ _ _ _ Ha Hp).
    rewrite nth_error_upd //. case_decide; subst.
    - rewrite lookup_insert. naive_solver.
    - rewrite lookup_insert_ne //.
  Qed.

  Lemma agree_free m σ p b : agree m σ → σ !! p = Some b → agree (upd m p None) (delete p σ).
  Proof.
    intros Ha Hp a c. pose proof (agree_length _ _ _ _ Ha Hp).
    rewrite nth_error_upd //. case_decide; subst.
    - rewrite lookup_delete. naive_solver.
    - rewrite lookup_delete_ne //.
  Qed.

  Lemma agree_malloc m σ b : agree m σ → agree (m ++ [Some b]) (<[length m:=b]> σ).
  Proof.
    intros Ha a c. destruct (decide (a = length m)) as [->|Hn].
    - rewrite lookup_insert nth_error_app2 // Nat.sub_diag /=. naive_solver.
    - rewrite lookup_insert_ne //. destruct (decide (a < length m)).
      + rewrite nth_error_app1 //.
      + rewrite nth_error_app2; [|lia]. destruct (a - length m) eqn:Hq; [lia|]. simpl.
        split; [|destruct n0; done]. intros Hs. apply (agree_length _ _ _ _ Ha) in Hs. lia.
  Qed.

  Lemma agree_fresh m σ : agree m σ → σ !! length m = None.
  Proof. intros Ha. destruct (σ !! length m) eqn:H; [|done]. apply (agree_length _ _ _ _ Ha) in H. lia. Qed.

  Lemma mem_ok_upd m p c : mem_ok m → p ≠ 0 → mem_ok (upd m p c).
  Proof. destruct m; [done|]. destruct p; [done|]. by simpl. Qed.
  Lemma mem_ok_app m c : mem_ok m → mem_ok (m ++ [c]).
  Proof. destruct m; done. Qed.

  Lemma wp_ret {A} (a : A) Φ : Φ a ⊢ wp E (ret a) Φ.
  Proof. apply hp_entails_iff. intros σ H. apply wp_iff. intros m σf Hd Ha Hm. left. by exists a, m, σ. Qed.

  Lemma wp_raise {A} e (Φ : A → hp) : E e ⊢ wp E (raise e) Φ.
  Proof. apply hp_entails_iff. intros σ H. apply wp_iff. intros m σf Hd Ha Hm. right. by exists e, m, σ. Qed.

  Lemma wp_bind {A B} (c : M A) (k : A → M B) Φ : wp E c (λ a, wp E (k a) Φ) ⊢ wp E (mbind c k) Φ.
  Proof.
    apply hp_entails_iff. intros σ H. apply wp_iff. intros m σf Hd Ha Hm. apply wp_iff in H.
    destruct (H m σf Hd Ha Hm) as [(a & m' & σ' & Hc & Hm' & Hd' & Ha' & H') | (e & m' & σ' & Hc & Hm' & Hd' & Ha' & H')].
    - unfold mbind. rewrite Hc. apply wp_iff in H'. by apply H'.
    - right. exists e, m', σ'. unfold mbind. by rewrite Hc.
  Qed.

  Lemma wp_wand {A} (c : M A) Φ Ψ : wp quiet c Φ ⊢ (∀ a, Φ a -∗ Ψ a) -∗ wp E c Ψ.
  Proof.
    apply bi.wand_intro_r. apply hp_entails_iff. intros σ H. apply hp_sep_iff in H as (σ1 & σ2 & -> & Hd12 & H1 & H2).
    apply wp_iff. intros m σf Hd Ha Hm. rewrite wp_eq in H1.
    rewrite hp_forall_iff in H2.
    destruct (H1 m (σ2 ∪ σf)) as [(a & m' & σ' & Hc & Hm' & Hd' & Ha' & H') | (e & m' & σ' & Hc & Hm' & Hd' & Ha' & H')].
    { solve_map_disjoint. } { by rewrite assoc_L. } { done. }
    - left. exists a, m', (σ' ∪ σ2). split_and!; [done|done|solve_map_disjoint|by rewrite -assoc_L|].
      specialize (H2 a). rewrite hp_wand_iff in H2. rewrite map_union_comm; [|solve_map_disjoint].
      apply H2; [solve_map_disjoint|done].
    - unfold quiet in H'. by apply hp_pure_iff in H'.
  Qed.

  Lemma wp_wand2 {A} E' (c : M A) Φ Ψ : wp E' c Φ ⊢ ((∀ a, Φ a -∗ Ψ a) ∧ (∀ e, E' e -∗ E e)) -∗ wp E c Ψ.
  Proof.
    apply bi.wand_intro_r. apply hp_entails_iff. intros σ H. apply hp_sep_iff in H as (σ1 & σ2 & -> & Hd12 & H1 & H2).
    apply wp_iff. intros m σf Hd Ha Hm. rewrite wp_eq in H1. apply hp_and_iff in H2 as [H2 H3].
    rewrite hp_forall_iff in H2. rewrite hp_forall_iff in H3.
    destruct (H1 m (σ2 ∪ σf)) as [(a & m' & σ' & Hc & Hm' & Hd' & Ha' & H') | (e & m' & σ' & Hc & Hm' & Hd' & Ha' & H')].
    { solve_map_disjoint. } { by rewrite assoc_L. } { done. }
    - left. exists a, m', (σ' ∪ σ2). split_and!; [done|done|solve_map_disjoint|by rewrite -assoc_L|].
      specialize (H2 a). rewrite hp_wand_iff in H2. rewrite map_union_comm; [|solve_map_disjoint].
      apply H2; [solve_map_disjoint|done].
    - right. exists e, m', (σ' ∪ σ2). split_and!; [done|done|solve_map_disjoint|by rewrite -assoc_L|].
      specialize (H3 e). rewrite hp_wand_iff in H3. rewrite map_union_comm; [|solve_map_disjoint].
      apply H3; [solve_map_disjoint|done].
  Qed.

  Lemma wp_malloc b Φ : (∀ p, p ↦ b -∗ Φ p) ⊢ wp E (malloc b) Φ.
  Proof.
    apply hp_entails_iff. intros σ H. apply wp_iff. intros m σf Hd Ha Hm. left.
    pose proof (agree_fresh _ _ Ha) as Hf. apply lookup_union_None in Hf as [Hf1 Hf2].
    exists (length m), (m ++ [Some b]), (<[length m := b]> σ). split_and!.
    - done.
    - by apply mem_ok_app.
    - by apply map_disjoint_insert_l_2.
    - rewrite -insert_union_l. by apply agree_malloc.
    - rewrite hp_forall_iff in H. specialize (H (length m)). rewrite hp_wand_iff in H.
      rewrite insert_union_singleton_l map_union_comm; [|by apply map_disjoint_singleton_l].
      apply H; [by apply map_disjoint_singleton_r|]. apply pt_iff. split; [done|]. destruct m; done.
  Qed.

  Lemma wp_load p b Φ : p ↦ b -∗ (p ↦ b -∗ Φ b) -∗ wp E (load p) Φ.
  Proof.
    apply bi.wand_intro_r. apply hp_entails_iff.
    intros σ H. apply hp_sep_iff in H as (σ1 & σ2 & -> & Hd12 & H1 & H2). apply pt_iff in H1 as [-> H0].
    apply wp_iff. intros m σf Hd Ha Hm. left. rewrite hp_wand_iff in H2.
    exists b, m, ({[p := b]} ∪ σ2). split_and!; [|done..|].
    - assert (Hl : nth_error m p = Some (Some b)).
      { apply Ha. apply lookup_union_Some_l, lookup_union_Some_l, lookup_singleton. }
      unfold load. by rewrite Hl.
    - rewrite map_union_comm //. apply H2; [done|]. by apply pt_iff.
  Qed.

  Lemma wp_store p b b' Φ : p ↦ b -∗ (p ↦ b' -∗ Φ tt) -∗ wp E (store p b') Φ.
  Proof.
    apply bi.wand_intro_r. apply hp_entails_iff.
    intros σ H. apply hp_sep_iff in H as (σ1 & σ2 & -> & Hd12 & H1 & H2). apply pt_iff in H1 as [-> H0].
    apply wp_iff. intros m σf Hd Ha Hm. left. rewrite hp_wand_iff in H2.
    assert (Hs : ({[p := b]} ∪ σ2 ∪ σf) !! p = Some b).
    { apply lookup_union_Some_l, lookup_union_Some_l, lookup_singleton. }
    exists tt, (upd m p (Some b')), ({[p := b']} ∪ σ2).
    apply map_disjoint_singleton_l in Hd12. apply map_disjoint_union_l in Hd as [Hd1 Hd2].
    apply map_disjoint_singleton_l in Hd1. split_and!.
    - apply Ha in Hs. unfold store. by rewrite Hs.
    - by apply mem_ok_upd.
    - apply map_disjoint_union_l. split; [by apply map_disjoint_singleton_l|done].
    - replace ({[p := b']} ∪ σ2 ∪ σf) with (<[p := b']> ({[p := b]} ∪ σ2 ∪ σf)); [by eapply agree_store|].
      rewrite !insert_union_l. by rewrite insert_singleton.
    - rewrite map_union_comm; [|by apply map_disjoint_singleton_l]. apply H2; [by apply map_disjoint_singleton_r|]. by apply pt_iff.
  Qed.

  Lemma wp_free p b Φ : p ↦ b -∗ Φ tt -∗ wp E (free p) Φ.
  Proof.
    apply bi.wand_intro_r. apply hp_entails_iff.
    intros σ H. apply hp_sep_iff in H as (σ1 & σ2 & -> & Hd12 & H1 & H2). apply pt_iff in H1 as [-> H0].
    apply wp_iff. intros m σf Hd Ha Hm. left.
    assert (Hs : ({[p := b]} ∪ σ2 ∪ σf) !! p = Some b).
    { apply lookup_union_Some_l, lookup_union_Some_l, lookup_singleton. }
    exists tt, (upd m p None), σ2.
    apply map_disjoint_singleton_l in Hd12. apply map_disjoint_union_l in Hd as [Hd1 Hd2].
    apply map_disjoint_singleton_l in Hd1. split_and!.
    - unfold free. destruct (Nat.eqb_spec p null); [done|]. pose proof Hs as Hs'. apply Ha in Hs'. by rewrite Hs'.
    - by apply mem_ok_upd.
    - done.
    - replace (σ2 ∪ σf) with (delete p ({[p := b]} ∪ σ2 ∪ σf)); [by eapply agree_free|].
      rewrite !delete_union delete_singleton left_id_L. rewrite !delete_notin //.
    - done.
  Qed.

  Lemma wp_free_null Φ : Φ tt ⊢ wp E (free null) Φ.
  Proof. exact (wp_ret tt Φ). Qed.

  (** More blocks than the memory has cells cannot be owned. *)
  Lemma wp_fueled {A} k (P Q : hp) (f : nat → M A) Φ :
    (P ⊢ hge k) → (∀ n, k < n → P ∗ Q ⊢ wp E (f n) Φ) → P ∗ Q ⊢ wp E (fueled f) Φ.
  Proof.
    intros Hk Hn. apply hp_entails_iff. intros σ H. apply wp_iff. intros m σf Hd Ha Hm.
    assert (k < S (length m)).
    { pose proof (agree_size _ _ Ha Hm) as Hs. apply hp_sep_iff in H as (σ1 & σ2 & -> & H12 & H1 & H2).
      rewrite hp_entails_iff in Hk. apply Hk in H1. unfold hge, hp_holds in H1.
      rewrite !map_size_disj_union in Hs; [|done..]. lia. }
    specialize (Hn _ H0). rewrite hp_entails_iff in Hn. specialize (Hn _ H). apply wp_iff in Hn.
    exact (Hn m σf Hd Ha Hm).
  Qed.
End rules.

(** ** Facts about assertions *)
Lemma pt_nonnull p b : p ↦ b ⊢ <affine> ⌜p ≠ 0⌝ ∗ p ↦ b.
Proof.
  apply hp_entails_iff. intros σ H. pose proof H as H'. apply pt_iff in H' as [-> H0]. apply hp_sep_iff.
  exists ∅, {[p := b]}. split_and!; [by rewrite left_id_L|apply map_disjoint_empty_l| |done]. by apply hp_affinely_iff.
Qed.

Lemma junk_pt p b : p ↦ b ⊢ junk 1.
Proof. apply hp_entails_iff. intros σ H. apply pt_iff in H as [-> _]. apply junk_iff. apply map_size_singleton. Qed.
Lemma junk_0 : emp ⊢ junk 0.
Proof. apply hp_entails_iff. intros σ H. apply hp_emp_iff in H as ->. apply junk_iff. apply map_size_empty. Qed.
Lemma junk_0_emp : junk 0 ⊢ emp.
Proof. apply hp_entails_iff. intros σ H. apply junk_iff, map_size_empty_inv in H. by apply hp_emp_iff. Qed.
Lemma junk_add n k : junk n ∗ junk k ⊢ junk (n + k).
Proof.
  apply hp_entails_iff. intros σ H. apply hp_sep_iff in H as (σ1 & σ2 & -> & Hd & H1 & H2).
  apply junk_iff. apply junk_iff in H1 as <-. apply junk_iff in H2 as <-. by apply map_size_disj_union.
Qed.
Lemma hge_pt p b : p ↦ b ⊢ hge 1.
Proof. apply hp_entails_iff. intros σ H. apply pt_iff in H as [-> _]. unfold hge, hp_holds. by rewrite map_size_singleton. Qed.
Lemma hge_0 P : P ⊢ hge 0.
Proof. apply hp_entails_iff. intros σ H. unfold hge, hp_holds. lia. Qed.
Lemma hge_add n k : hge n ∗ hge k ⊢ hge (n + k).
Proof.
  apply hp_entails_iff. intros σ H. apply hp_sep_iff in H as (σ1 & σ2 & -> & Hd & H1 & H2).
  unfold hge, hp_holds in *. rewrite map_size_disj_union //. lia.
Qed.

(** ** From the logic to runs *)
Lemma live_size m σ : agree m σ → live m = size σ.
Proof.
  revert σ. induction m as [|c m IH] using rev_ind; intros σ Ha.
  - assert (σ = ∅) as ->. { apply map_empty. intros a. destruct (σ !! a) eqn:H; [|done]. apply Ha in H. by destruct a. }
    by rewrite map_size_empty.
  - unfold live. rewrite List.filter_app app_length.
    change (length (List.filter _ m)) with (live m).
    assert (Hm : agree m (delete (length m) σ)).
    { intros a b. destruct (decide (a = length m)) as [->|Hn].
      - rewrite lookup_delete. split; [done|]. intros H. assert (length m < length m); [|lia]. apply nth_error_Some. by rewrite H.
      - rewrite lookup_delete_ne //. rewrite (Ha a b). destruct (decide (a < length m)).
        + rewrite nth_error_app1 //.
        + rewrite nth_error_app2; [|lia]. destruct (a - length m) eqn:Hq; [lia|]. simpl.
          split; [destruct n0; done|]. intros H. assert (a < length m); [|lia]. apply nth_error_Some. by rewrite H. }
    rewrite (IH _ Hm).
    assert (Hl : nth_error (m ++ [c]) (length m) = Some c). { rewrite nth_error_app2 // Nat.sub_diag //. }
    destruct c as [b|]; simpl.
    + apply Ha in Hl. erewrite map_size_delete_Some; [|by eexists]. assert (size σ ≠ 0); [|lia].
      intros Hz. apply map_size_empty_inv in Hz. subst. done.
    + rewrite delete_notin; [lia|]. destruct (σ !! length m) eqn:H; [|done]. apply Ha in H. congruence.
Qed.

Lemma agree_exists m : ∃ σ, agree m σ.
Proof.
  induction m as [|c m [σ IH]] using rev_ind.
  - exists ∅. intros a b. rewrite lookup_empty. by destruct a.
  - destruct c as [b|].
    + exists (<[length m := b]> σ). by apply agree_malloc.
    + exists σ. intros a b. rewrite (IH a b). destruct (decide (a < length m)).
      * rewrite nth_error_app1 //.
      * rewrite nth_error_app2; [|lia]. split.
        -- intros H. assert (a < length m); [|lia]. apply nth_error_Some. by rewrite H.
        -- destruct (a - length m) as [|[|]]; done.
Qed.

(** What an assertion about the initial empty part says of a whole run. *)
Lemma wp_run {A} (E : exn → hp) (c : M A) Φ : (⊢ wp E c Φ) → ∀ m, mem_ok m →
  (∃ a m' σ, c m = Done a m' ∧ mem_ok m' ∧ keeps m m' ∧ live m' = live m + size σ ∧ Φ a σ ∧
     ∀ p b, σ !! p = Some b → nth_error m' p = Some (Some b)) ∨
  (∃ e m' σ, c m = Raised e m' ∧ mem_ok m' ∧ keeps m m' ∧ live m' = live m + size σ ∧ E e σ).
Proof.
  intros H m Hm. destruct (agree_exists m) as [σf Hf].
  assert (Hw : wp E c Φ ∅). { rewrite /bi_emp_valid hp_entails_iff in H. apply H. by apply hp_emp_iff. }
  apply wp_iff in Hw. destruct (Hw m σf) as [(a & m' & σ' & Hc & Hm' & Hd & Ha & H') | (a & m' & σ' & Hc & Hm' & Hd & Ha & H')].
  { apply map_disjoint_empty_l. } { by rewrite left_id_L. } { done. }
  - left. exists a, m', σ'. split_and!; try done.
    + intros p b Hp. apply Ha. apply Hf in Hp. by apply lookup_union_Some_r.
    + rewrite (live_size _ _ Hf) (live_size _ _ Ha). rewrite map_size_disj_union //. lia.
    + intros p b Hp. apply Ha. by apply lookup_union_Some_l.
  - right. exists a, m', σ'. split_and!; try done.
    + intros p b Hp. apply Ha. apply Hf in Hp. by apply lookup_union_Some_r.
    + rewrite (live_size _ _ Hf) (live_size _ _ Ha). rewrite map_size_disj_union //. lia.
Qed.
