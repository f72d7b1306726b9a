(** Reachability in memory behaves as in Graph.v and leaves nothing behind. *)
From Coq Require Import List Arith ZArith QArith.
From stdpp Require Import gmap.
From iris.bi Require Import interface.
From iris.proofmode Require Import proofmode.
From Verif Require Import Base Num Matrix Graph GraphProofs Treap Heap HeapTreap HeapGraph HeapLogic HeapTreapProofs HeapGraphProofs.
From iris.prelude Require Import options.
Local Open Scope nat_scope.

Definition bit (b : bool) : nat := if b then 1 else 0.
Definition bits (l : list bool) : list (option nat) := map (λ b, Some (bit b)) l.

Lemma bits_upd l i b : upd (bits l) i (Some (bit b)) = bits (upd l i b).
Proof. unfold bits. rewrite (map_insert (λ b, Some (bit b))). by rewrite upd_insert. Qed.
Lemma bits_get l i : i < length l → nth_error (bits l) i = Some (Some (bit (nth i l false))).
Proof.
  intros Hi. unfold bits. rewrite (map_nth_error _ i l (d := nth i l false)); [done|]. by apply nth_error_nth'.
Qed.
Lemma bits_length l : length (bits l) = length l.
Proof. apply map_length. Qed.
Lemma bits_false n : bits (repeat false n) = repeat (Some 0) n.
Proof. induction n; simpl; [done|]. by f_equal. Qed.

Lemma closed_nb g fwd c nd x : closed_graph g → g !! c = Some nd → In x (if fwd : bool then succs nd else preds nd) → sap_state x < length g.
Proof.
  intros Hc Hg Hx. pose proof (lookup_lt_Some _ _ _ Hg) as Hl. apply (Hc c fwd _ Hl). exists x. split; [|done].
  rewrite -nth_lookup in Hg. rewrite (nth_error_nth g c node0 Hg). done.
Qed.

Lemma fold_left_M {A S} (f : S → A → S) l s : foldM (λ s x, Ok (f s x)) l s = Ok (fold_left f l s).
Proof. revert s. induction l as [|x l IH]; intros s; simpl; [done|]. apply IH. Qed.

Lemma wp_reach_loop E g p cs fwd block pm pi pb : closed_graph g → length block = length g →
  ∀ fuel stack instack mask out ps, length instack = length g → length mask = length g → Forall (λ x, x < length g) stack →
  reach_loop fuel g fwd block stack instack mask = Ok out →
  grepc p cs g ∗ stk ps stack ∗ pm ↦ BInts (bits mask) ∗ pi ↦ BInts (bits instack) ∗ pb ↦ BInts (bits block) ⊢
  wp E (c_reach_loop fuel (MkCG p (length g)) fwd pm pi pb ps)
    (λ ps', grepc p cs g ∗ stk ps' [] ∗ <affine> ⌜length out = length g⌝ ∗ pm ↦ BInts (bits out) ∗ (∃ ins, pi ↦ BInts ins) ∗ pb ↦ BInts (bits block))%I.
Proof.
  intros Hcl Hb. induction fuel as [|fuel IH]; intros stack instack mask out ps Hi Hm Hs Hok; [done|]. simpl in Hok.
  iIntros "(Hg & Hs & Hm & Hi & Hb)". cbn [c_reach_loop]. destruct stack as [|c stack].
  - injection Hok as ->. iDestruct "Hs" as %->. wpr. iFrame "Hg Hm Hb". iSplitR; [done|]. iSplitR; [done|]. by iExists _.
  - destruct (nth_error g c) as [nd|] eqn:Hn; [|done]. rewrite nth_lookup in Hn.
    pose proof (lookup_lt_Some _ _ _ Hn) as Hcg. apply Forall_cons in Hs as [_ Hs].
    iDestruct (stk_nonnull with "Hs") as "[%Hz Hs]". rewrite Hz.
    wpb. iApply (wp_pop with "Hs"). iIntros (q) "Hs".
    iDestruct (grepc_length with "Hg") as "[%Hlen Hg]".
    destruct (cs !! c) as [cc|] eqn:Hc; [|apply lookup_ge_None in Hc; rewrite Hlen in Hc; by apply Nat.le_ngt in Hc].
    wpb. iApply (wp_get_node_rep with "Hg"); [done|]. iIntros "Hg".
    wpb. iApply (wp_set_int with "Hi"); [by rewrite bits_length Hi|]. iIntros "Hi". rewrite (bits_upd _ _ false).
    wpb. iApply (wp_set_int with "Hm"); [by rewrite bits_length Hm|]. iIntros "Hm". rewrite (bits_upd _ _ true).
    wpb. iApply (wp_get_int with "Hb"). { apply bits_get. by rewrite Hb. } iIntros "Hb".
    destruct (nth c block false); simpl.
    + wpb. wpr. iApply IH; [| | |done|iFrame]; [by rewrite upd_len|by rewrite upd_len|done].
    + destruct (push_neighbours (upd mask c true) (if fwd then succs nd else preds nd) stack (upd instack c false)) as [stk' ins'] eqn:Hp.
      iDestruct (grepc_counts with "Hg") as "[[%H1 %H2] Hg]"; [done..|].
      set (L := if fwd then succs nd else preds nd) in *.
      replace (if fwd then c_sn cc else c_pn cc) with (length L) by (subst L; by destruct fwd).
      set (mk := upd mask c true) in *.
      wpb. set (R := (λ (q : addr) (st : list nat * list bool),
        grepc p cs g ∗ stk q (fst st) ∗ pm ↦ BInts (bits mk) ∗ pi ↦ BInts (bits (snd st)) ∗ pb ↦ BInts (bits block) ∗
        <affine> ⌜length (snd st) = length g ∧ Forall (λ x, x < length g) (fst st)⌝)%I).
      iApply (wp_wand _ _ (λ q, R q (stk', ins')) with "[Hg Hs Hm Hi Hb]").
      * unfold push_neighbours in Hp. pose proof (fold_left_M (λ st x,
               let '(stk, ins) := st in
               let n := sap_state x in
               if negb (nth n mk false) && negb (nth n ins false)
               then (n :: stk, upd ins n true) else (stk, ins)) L (stack, upd instack c false)) as Hp'.
        rewrite Hp in Hp'.
        iApply (wp_fold quiet _ _ R (seq 0 (length L)) L _ _ q (stack, upd instack c false) (stk', ins') Hp' with "[Hg Hs Hm Hi Hb]").
        Unshelve. 2: by rewrite seq_length.
        -- unfold R. simpl. iFrame. iPureIntro. by rewrite upd_len.
        -- intros i a b s [stk1 ins1] fs' Ha Hb' [= <-]. apply lookup_seq in Ha as [-> _].
           iIntros "(Hg & Hs & Hm & Hi & Hb & [%HL %HF])". simpl in HL, HF. wpb. iApply (wp_get_nb with "Hg"); [done|done|done|]. iIntros "Hg".
           assert (Hx : sap_state b < length g). { eapply (closed_nb g fwd c nd); [done|done|]. apply elem_of_list_In, elem_of_list_lookup. by exists i. }
           wpb. iApply (wp_get_int with "Hm"). { apply bits_get. subst mk. by rewrite upd_len Hm. } iIntros "Hm".
           destruct (nth (sap_state b) mk false); simpl.
           { wpr. unfold R. simpl. iFrame. done. }
           wpb. iApply (wp_get_int with "Hi"). { apply bits_get. by rewrite HL. } iIntros "Hi".
           destruct (nth (sap_state b) ins1 false); simpl.
           { wpr. unfold R. simpl. iFrame. done. }
           wpb. iApply (wp_set_int with "Hi"). { by rewrite bits_length HL. } iIntros "Hi". rewrite (bits_upd _ _ true).
           iApply (wp_push with "Hs"). iIntros (q') "Hs". unfold R. simpl. iFrame "Hg Hm Hi Hb Hs". iPureIntro. rewrite upd_len. split; [done|]. by constructor.
      * iIntros (q') "(Hg & Hs & Hm & Hi & Hb & [%HL %HF])". simpl. iApply IH; [| | |done|iFrame]; [done|subst mk; by rewrite upd_len|done].
Qed.

Lemma mark_all_length l : ∀ m m', mark_all l m = Ok m' → length m' = length m ∧ Forall (λ x, x < length m) l.
Proof.
  induction l as [|i l IH]; intros m m' H; unfold mark_all in *; simpl in H; [by injection H as ->|].
  destruct (Nat.ltb_spec i (length m)); simpl in H; [|done]. apply IH in H as [H1 H2]. rewrite upd_len in H1. rewrite upd_len in H2.
  split; [done|]. by constructor.
Qed.

Lemma mark_push l : ∀ m m' s, mark_all l m = Ok m' →
  foldM (λ st i, if i <? length (snd st) then Ok (i :: fst st, upd (snd st) i true) else Err OutOfBounds) l (s, m) = Ok (rev l ++ s, m').
Proof.
  induction l as [|i l IH]; intros m m' s H; unfold mark_all in *; simpl in *; [by injection H as ->|].
  destruct (i <? length m); simpl in *; [|done]. rewrite (IH _ _ _ H). by rewrite -assoc_L.
Qed.

(** graph.pyx 298-360 *)
Lemma wp_reachable E g p cs fuel fromset dir blocklist out Φ : closed_graph g →
  reachable_fuel fuel g fromset dir blocklist = Ok out →
  grepc p cs g -∗ (grepc p cs g -∗ Φ (map bit out)) -∗ wp E (c_reachable_fuel fuel (MkCG p (length g)) fromset dir blocklist) Φ.
Proof.
  intros Hcl Hok. unfold reachable_fuel in Hok. unfold c_reachable_fuel. simpl.
  destruct (0 <? length fromset); [|done]. simpl in Hok.
  destruct (match dir with OtherDirection => false | _ => true end) eqn:Hd; [|done]. simpl in Hok.
  set (N := length g) in *.
  destruct (mark_all fromset (repeat false N)) as [ins|] eqn:Hf; [|done]. simpl in Hok.
  destruct (mark_all blocklist (repeat false N)) as [blk|] eqn:Hb; [|done]. simpl in Hok.
  iIntros "Hg HΦ". wpb. wpr. wpb.
  assert (Hdir : (match dir with OtherDirection => raise AssertionError | _ => ret tt end) = ret tt) by by destruct dir.
  rewrite Hdir. wpr.
  wpb. iApply wp_malloc. iIntros (pm) "Hm". wpb. iApply wp_malloc. iIntros (pi) "Hi". wpb. iApply wp_malloc. iIntros (pb) "Hb".
  set (half k := repeat (Some 0) k ++ repeat (@None nat) (N - k)).
  assert (Hh0 : repeat None N = half 0) by (rewrite /half /= Nat.sub_0_r //).
  assert (HhN : half N = bits (repeat false N)) by (rewrite /half Nat.sub_diag app_nil_r bits_false //).
  assert (Hhl : ∀ k, k < N → k < length (half k)) by (intros k Hk; rewrite /half app_length !repeat_length; lia).
  assert (Hhu : ∀ k, k < N → upd (half k) k (Some 0) = half (S k)).
  { intros k Hk. rewrite /half. assert (HN : N - k = S (N - S k)) by lia. rewrite HN.
    change (repeat None (S (N - S k))) with (@None nat :: repeat None (N - S k)).
    rewrite upd_app_at; [|by rewrite repeat_length]. replace (S k) with (k + 1) at 2 by lia. rewrite repeat_app -assoc_L //. }
  rewrite Hh0. wpb.
  iApply (wp_wand _ _ (λ _, pm ↦ BInts (half N) ∗ pi ↦ BInts (half N) ∗ pb ↦ BInts (half N))%I with "[Hm Hi Hb]").
  { iApply (wp_loop quiet N _ (λ k, pm ↦ BInts (half k) ∗ pi ↦ BInts (half k) ∗ pb ↦ BInts (half k))%I with "[Hm Hi Hb]"); [|iFrame].
    intros k Hk. iIntros "(Hm & Hi & Hb)". wpb. iApply (wp_set_int with "Hm"); [auto|]. iIntros "Hm".
    wpb. iApply (wp_set_int with "Hi"); [auto|]. iIntros "Hi". iApply (wp_set_int with "Hb"); [auto|]. iIntros "Hb".
    rewrite Hhu //. iFrame. }
  iIntros ([]) "(Hm & Hi & Hb)". rewrite HhN. wpb.
  pose proof (mark_push _ _ _ [] Hf) as Hpush. rewrite app_nil_r in Hpush.
  pose proof (mark_all_length _ _ _ Hf) as [Hfl Hfr]. pose proof (mark_all_length _ _ _ Hb) as [Hbl Hbr].
  rewrite !repeat_length in Hfl, Hfr, Hbl, Hbr.
  set (R := (λ (q : addr) (st : list nat * list bool), stk q (fst st) ∗ pi ↦ BInts (bits (snd st)))%I).
  iApply (wp_wand _ _ (λ q, R q (rev fromset, ins)) with "[Hi]").
  { iApply (wp_fold quiet _ _ R fromset fromset _ _ null ([], repeat false N) (rev fromset, ins) Hpush with "[Hi]").
    Unshelve. 2: done.
    - unfold R. simpl. iFrame. done.
    - intros i a b s [s1 i1] fs' Ha Hb' Hg. rewrite Ha in Hb'. injection Hb' as <-. simpl in Hg.
      destruct (Nat.ltb_spec a (length i1)); [|done]. injection Hg as <-. iIntros "[Hs Hi]". simpl. wpb.
      iApply (wp_set_int with "Hi"); [by rewrite bits_length|]. iIntros "Hi". rewrite (bits_upd _ _ true).
      iApply (wp_push with "Hs"). iIntros (q) "Hs". unfold R. simpl. iFrame. }
  iIntros (ps) "[Hs Hi]". simpl. wpb.
  iApply (wp_wand _ _ (λ _, pb ↦ BInts (bits blk))%I with "[Hb]").
  { iApply (wp_fold quiet _ _ (λ _ m, pb ↦ BInts (bits m))%I blocklist blocklist eq_refl _ tt (repeat false N) blk Hb with "[Hb]").
    Unshelve.
    - done.
    - intros i a b s m m' Ha Hb' Hg. rewrite Ha in Hb'. injection Hb' as <-.
      destruct (Nat.ltb_spec a (length m)); [|done]. injection Hg as <-. iIntros "Hb".
      iApply (wp_set_int with "Hb"); [by rewrite bits_length|]. iIntros "Hb". by rewrite (bits_upd _ _ true). }
  iIntros ([]) "Hb". wpb. iApply (wp_wand with "[Hg Hs Hm Hi Hb]").
  { iApply (wp_reach_loop quiet with "[$Hg $Hs $Hm $Hi $Hb]"); [done|done|done|apply repeat_length| |done].
    apply Forall_forall. intros x Hx. apply elem_of_list_In, in_rev, elem_of_list_In in Hx. rewrite Forall_forall in Hfr. by apply Hfr. }
  simpl. iIntros (ps') "(Hg & -> & %Ho & Hm & (%ins' & Hi) & Hb)". wpb.
  iApply (wp_wand _ _ (λ r, <affine> ⌜r = map bit out⌝ ∗ pm ↦ BInts (bits out))%I with "[Hm]").
  { assert (HF : ∀ l r, foldM (λ r x, Ok (r ++ [bit x])) l r = Ok (r ++ map bit l)).
    { clear. induction l as [|x l IH]; intros r; simpl; [by rewrite app_nil_r|]. rewrite IH. by rewrite -assoc_L. }
    specialize (HF out []). simpl in HF. assert (Hsl : length (seq 0 N) = length out) by (by rewrite seq_length).
    iApply (wp_fold quiet _ _ (λ r fr, <affine> ⌜r = fr⌝ ∗ pm ↦ BInts (bits out))%I (seq 0 N) out Hsl _ [] [] _ HF with "[Hm]").
    Unshelve.
    - iFrame. done.
    - intros i a b s fs fs' Ha Hb' [= <-]. apply lookup_seq in Ha as [-> _]. iIntros "[-> Hm]". wpb.
      iApply (wp_get_int with "Hm"). { apply (map_lookup (λ b, Some (bit b))). exact Hb'. } iIntros "Hm". wpr. iFrame. done. }
  iIntros (r) "[-> Hm]". wpb. iApply (wp_free with "Hb"). wpb. iApply (wp_free with "Hm"). wpb. iApply (wp_free with "Hi").
  wpb. iApply (wp_free_stack _ _ [] with "[//]"). wpr. by iApply "HΦ".
Qed.
