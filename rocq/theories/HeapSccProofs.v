(** Tarjan's algorithm in memory behaves as in Scc.v; what it leaves behind. *)
From Coq Require Import List Arith ZArith QArith.
From stdpp Require Import gmap.
From iris.bi Require Import interface.
From iris.proofmode Require Import proofmode.
From Verif Require Import Base Num Matrix Graph GraphProofs Treap TreapSpec TreapProofs Scc Heap HeapTreap HeapGraph HeapLogic
  HeapTreapProofs HeapGraphProofs HeapReachProofs.
From iris.prelude Require Import options.
Local Open Scope nat_scope.

(** Some lost blocks, none if [F]. *)
Definition leak (F : Prop) : hp := (∃ j, junk j ∗ <affine> ⌜F → j = 0⌝)%I.
Lemma leak_0 F : emp ⊢ leak F.
Proof. iIntros. iExists 0. iSplitL; [by iApply junk_0|done]. Qed.
Lemma leak_add F : leak F ∗ leak F ⊢ leak F.
Proof.
  iIntros "[(%j & Hj & %H1) (%k & Hk & %H2)]". iExists (j + k). iSplitL; [iApply junk_add; iFrame|].
  iPureIntro. intros HF. rewrite H1 // H2 //.
Qed.
Lemma leak_junk (F : Prop) j : (F → j = 0) → junk j ⊢ leak F.
Proof. iIntros (H) "Hj". iExists j. by iFrame. Qed.

(** ** Indices once given stay *)
Definition known (s : tj) (i : nat) : Prop := nth i (t_idx s) None ≠ None.

Lemma nth_upd_same {A} (l : list A) i x d : i < length l → nth i (upd l i x) d = x.
Proof. revert i. induction l; intros [|i] H; simpl in *; try lia; auto. apply IHl. lia. Qed.
Lemma nth_upd_ne {A} (l : list A) i j x d : i ≠ j → nth j (upd l i x) d = nth j l d.
Proof. revert i j. induction l; intros [|i] [|j] H; simpl; try done. apply IHl. lia. Qed.

Lemma leave_idx s v s' : leave s v = Ok s' → t_idx s' = t_idx s ∧ known s v.
Proof.
  unfold leave, known. destruct (nth v (t_idx s) None) as [iv|] eqn:H; simpl; [|done].
  destruct (_ =? _); [|intros [= <-]; done].
  destruct (pop_until _ _ _ _ _) as [[[??]?]|]; simpl; [|done]. intros [= <-]. done.
Qed.

Section mono.
  Context (g : graph) (rnd : nat → Z) (sub : treap).

  Lemma visit_mono rec bad v ss : (∀ s w s', rec s w = Ok s' → (∀ i, known s i → known s' i)) →
    ∀ s s', foldM (visit_succ rec bad v) ss s = Ok s' → ∀ i, known s i → known s' i.
  Proof.
    intros Hrec. induction ss as [|x ss IH]; intros s s' H i Hi; simpl in H; [by injection H as <-|].
    destruct (visit_succ rec bad v s x) as [s1|] eqn:Hv; [|done]. simpl in H. apply (IH _ _ H). clear IH H.
    unfold visit_succ in Hv. destruct (in_treap _ _); [by injection Hv as <-|].
    destruct (nth_error _ _) as [[iw|]|]; [| |done].
    - destruct (nth _ (t_on s) false); injection Hv as <-; done.
    - destruct (rec s (sap_state x)) as [s2|] eqn:Hr; [|done]. injection Hv as <-. by apply (Hrec _ _ _ Hr).
  Qed.

  Lemma sc_mono fuel : ∀ s v s', strongconnect fuel g rnd sub s v = Ok s' → known s' v ∧ ∀ i, known s i → known s' i.
  Proof.
    induction fuel as [|fuel IH]; intros s v s' H; simpl in H; [done|].
    destruct (nth_error g v) as [nd|]; [|done].
    destruct (bad_actions _ _ _ _) as [bad rc].
    destruct (foldM _ _ _) as [s2|] eqn:Hf; [|done]. simpl in H. apply leave_idx in H as [HE Hk].
    unfold known in *. rewrite HE. split; [done|]. intros i Hi.
    eapply (visit_mono _ bad v (succs nd)); [|exact Hf|].
    - intros a b c Hr. apply IH in Hr as [_ ?]. done.
    - unfold known. simpl. destruct (decide (v = i)) as [->|Hn]; [|by rewrite nth_upd_ne].
      destruct (decide (i < length (t_idx s))); [by rewrite nth_upd_same|].
      rewrite nth_overflow in Hi; [done|lia].
  Qed.
End mono.

(** ** The array of TarjanNodes *)
Record tjr (N : nat) (a : list ctarjan) (s : tj) : Prop := {
  r_len : length a = N;
  r_idx : length (t_idx s) = N;
  r_low : length (t_low s) = N;
  r_on : length (t_on s) = N;
  r_scc : length (t_scc s) = N;
  r_stk : Forall (λ x, x < N) (t_stk s);
  r_at : ∀ i x, a !! i = Some x → k_idx x = Some (nth i (t_idx s) None) ∧
    (known s i → k_low x = Some (nth i (t_low s) 0) ∧ k_on x = Some (nth i (t_on s) false)) }.

Lemma tjr_get N a s i : tjr N a s → i < N → ∃ x, a !! i = Some x.
Proof. intros H Hi. destruct (a !! i) eqn:Hx; [by eexists|]. apply lookup_ge_None in Hx. rewrite (r_len _ _ _ H) in Hx. lia. Qed.

Lemma lookup_upd {A} (l : list A) i j x y : i < length l → upd l i x !! j = Some y → (i = j ∧ y = x) ∨ (i ≠ j ∧ l !! j = Some y).
Proof.
  intros Hi H. rewrite upd_insert in H. apply list_lookup_insert_Some in H as [(-> & -> & _)|[H1 H2]]; auto.
Qed.

Definition srp (N : nat) (pt pcc ps : addr) (s : tj) : hp :=
  (∃ a, <affine> ⌜tjr N a s⌝ ∗ pt ↦ BTarjans a ∗ pcc ↦ BInts (map Some (t_scc s)) ∗ stk ps (t_stk s))%I.

(** Lowering the low link. *)
Lemma wp_lower E N pt pcc ps s v l Φ : v < N → known s v →
  srp N pt pcc ps s -∗ (srp N pt pcc ps (set_low s v (Nat.min (nth v (t_low s) 0) l)) -∗ Φ tt) -∗ wp E (c_lower pt v l) Φ.
Proof.
  intros Hv Hk. iIntros "(%a & %Ha & Hp & Hc & Hs) HΦ". destruct (tjr_get _ _ _ _ Ha Hv) as [x Hx].
  destruct (r_at _ _ _ Ha _ _ Hx) as [Hx1 Hx2]. destruct (Hx2 Hk) as [Hx3 Hx4].
  wpb. iApply (wp_get_tj with "Hp"); [by rewrite nth_lookup|]. iIntros "Hp". wpb. iApply wp_field; [done|].
  iApply (wp_set_tj with "Hp"); [by rewrite (r_len _ _ _ Ha)|]. iIntros "Hp". iApply "HΦ".
  iExists _. iFrame "Hp Hc Hs". iPureIntro. destruct Ha. split; simpl; rewrite ?upd_len //.
  intros i y Hy. apply lookup_upd in Hy as [[-> ->]|[Hn Hy]]; [| |by rewrite r_len0].
  - simpl. split; [done|]. intros _. rewrite nth_upd_same; [done|by rewrite r_low0].
  - rewrite nth_upd_ne //. by apply r_at0.
Qed.

(** Popping a component. *)
Lemma wp_pop_until E N pt pcc v num l : ∀ n a s ps stk' on' scc' Φ, length l < n → t_stk s = l → tjr N a s →
  pop_until v num (t_stk s) (t_on s) (t_scc s) = Ok (stk', on', scc') →
  pt ↦ BTarjans a -∗ pcc ↦ BInts (map Some (t_scc s)) -∗ stk ps (t_stk s) -∗
  (∀ q, srp N pt pcc q (MkTj (t_idx s) (t_low s) on' stk' (t_cnt s) scc' (S num) (t_rc s)) -∗ Φ q) -∗
  wp E (c_pop_until n v num ps pt pcc) Φ.
Proof.
  induction l as [|w l IH]; intros n a s ps stk' on' scc' Φ Hn Hl Ha Hp; rewrite Hl in Hp; [done|]. destruct n as [|n]; [simpl in Hn; lia|].
  simpl in Hp. iIntros "Hp Hc Hs HΦ". cbn [c_pop_until]. rewrite Hl. wpb. iApply (wp_pop with "Hs"). iIntros (q) "Hs".
  pose proof (r_stk _ _ _ Ha) as HF. rewrite Hl in HF. apply Forall_cons in HF as [Hw HF].
  destruct (tjr_get _ _ _ _ Ha Hw) as [x Hx]. destruct (r_at _ _ _ Ha _ _ Hx) as [Hx1 Hx2].
  wpb. iApply (wp_get_tj with "Hp"); [by rewrite nth_lookup|]. iIntros "Hp".
  wpb. iApply (wp_set_tj with "Hp"); [by rewrite (r_len _ _ _ Ha)|]. iIntros "Hp".
  wpb. iApply (wp_set_int with "Hc"); [by rewrite map_length (r_scc _ _ _ Ha)|]. iIntros "Hc". rewrite (map_insert Some) -upd_insert.
  set (s1 := MkTj (t_idx s) (t_low s) (upd (t_on s) w false) l (t_cnt s) (upd (t_scc s) w num) (t_num s) (t_rc s)).
  set (a1 := upd a w (MkT (k_idx x) (k_low x) (Some false))).
  assert (Ha1 : tjr N a1 s1).
  { destruct Ha. subst a1 s1. split; simpl; rewrite ?upd_len //.
    intros i y Hy. apply lookup_upd in Hy as [[-> ->]|[Hne Hy]]; [| |by rewrite r_len0].
    - simpl. split; [done|]. intros Hk. split; [by apply Hx2|]. rewrite nth_upd_same; [done|by rewrite r_on0].
    - rewrite nth_upd_ne //. by apply r_at0. }
  destruct (w =? v) eqn:Hv.
  - injection Hp as <- <- <-. wpr. iApply "HΦ". iExists a1. iFrame. iPureIntro. destruct Ha1. by split.
  - iApply (IH n a1 s1 with "Hp Hc Hs HΦ"); [simpl in Hn; lia|done|done|done].
Qed.

(** ** Actions that leave the subset *)
Section scc.
  Context (g : graph) (rnd : nat → Z) (sub : treap) (p : addr) (cs : list cnode) (pt pcc psub : addr).
  Hypothesis Hcl : closed_graph g.
  Let N := length g.
  Let full : Prop := ∀ x, x < N → in_treap sub x = true.

  Lemma wp_bad E v c nd rc Φ : cs !! v = Some c → g !! v = Some nd →
    grepc p cs g -∗ trep psub sub -∗
    (∀ q, grepc p cs g -∗ trep psub sub -∗ trep q (fst (bad_actions rnd sub (succs nd) rc)) -∗ leak full -∗
          Φ (q, snd (bad_actions rnd sub (succs nd) rc))) -∗
    wp E (c_bad_actions rnd c psub rc) Φ.
  Proof using Hcl.
    intros Hc Hg. iIntros "Hg Ht HΦ". iDestruct (grepc_counts with "Hg") as "[[_ %Hn] Hg]"; [done..|]. unfold c_bad_actions. rewrite Hn.
    set (f := (λ st x, let '(t, rc) := st in
               if in_treap sub (sap_state x) then (t, rc)
               else (add_to_treap t (sap_action x) (rnd rc), S rc)) : treap * nat → sap → treap * nat).
    set (R := (λ (q : addr * nat) (st : treap * nat), grepc p cs g ∗ trep psub sub ∗ trep (fst q) (fst st) ∗ leak full ∗ <affine> ⌜snd q = snd st⌝)%I).
    pose proof (fold_left_M f (succs nd) (TNull, rc)) as HF.
    iApply (wp_wand _ _ (λ q, R q (fold_left f (succs nd) (TNull, rc))) with "[Hg Ht]").
    - iApply (wp_fold quiet _ _ R (seq 0 (length (succs nd))) (succs nd) (seq_length _ _) _ (null, rc) (TNull, rc) _ HF with "[Hg Ht]").
      Unshelve.
      + unfold R. simpl. iFrame. iSplitR; [done|]. iSplitL; [|done]. by iApply leak_0.
      + intros i a x [q r] [t r'] fs' Ha Hx [= <-]. apply lookup_seq in Ha as [-> _].
        iIntros "(Hg & Ht & Hq & Hl & %Hr)". simpl in Hr. subst r'. simpl.
        wpb. iApply (wp_get_nb _ p cs g v c nd true with "Hg"); [done|done|done|]. iIntros "Hg".
        wpb. iApply (wp_in_treap with "Ht"). iIntros "Ht". destruct (in_treap sub (sap_state x)) eqn:Hin.
        * wpr. iFrame. done.
        * wpb. iApply (wp_add with "Hq"). iIntros (q') "Hq Hj". wpr. unfold R. simpl. iFrame "Hg Ht Hq". iSplitL; [|done].
          iApply leak_add. iFrame "Hl". iApply (leak_junk with "Hj"). intros HF'. rewrite HF' in Hin; [done|].
          eapply (closed_nb g true v nd); [done|done|]. apply elem_of_list_In, elem_of_list_lookup. by exists i.
    - iIntros ([q r]) "(Hg & Ht & Hq & Hl & %Hr)". simpl in *. subst r. unfold bad_actions. iApply ("HΦ" with "Hg Ht Hq Hl").
  Qed.

  Definition post (s' : tj) (r : nat * nat * addr * nat) : hp :=
    let '(i, cnt, ps, rc) := r in
    (grepc p cs g ∗ trep psub sub ∗ srp N pt pcc ps s' ∗ leak full ∗ <affine> ⌜i = t_cnt s' ∧ cnt = t_num s' ∧ rc = t_rc s'⌝)%I.

  Lemma wp_sc fuel : ∀ s v s' ps, strongconnect fuel g rnd sub s v = Ok s' →
    grepc p cs g ∗ trep psub sub ∗ srp N pt pcc ps s ⊢
    wp quiet (c_strongconnect fuel rnd p pt pcc psub v ps (t_cnt s) (t_num s) (t_rc s)) (post s').
  Proof using Hcl.
    induction fuel as [|fuel IH]; intros s v s' ps Hok; [done|]. simpl in Hok.
    destruct (nth_error g v) as [nd|] eqn:Hg; [|done]. rewrite nth_lookup in Hg.
    pose proof (lookup_lt_Some _ _ _ Hg) as Hv. fold N in Hv.
    destruct (bad_actions rnd sub (succs nd) (t_rc s)) as [bad rc] eqn:Hbad. simpl in Hok.
    destruct (foldM _ _ _) as [s2|] eqn:Hf; [|done]. simpl in Hok.
    iIntros "(Hg & Ht & (%a & %Ha & Hp & Hc & Hs))". cbn [c_strongconnect].
    wpb. iApply (wp_set_tj with "Hp"); [by rewrite (r_len _ _ _ Ha)|]. iIntros "Hp".
    wpb. iApply (wp_push with "Hs"). iIntros (ps1) "Hs".
    iDestruct (grepc_length with "Hg") as "[%Hlen Hg]".
    destruct (cs !! v) as [c|] eqn:Hcv; [|apply lookup_ge_None in Hcv; rewrite Hlen in Hcv; fold N in Hcv; lia].
    wpb. iApply (wp_get_node_rep with "Hg"); [done|]. iIntros "Hg".
    wpb. iApply (wp_bad with "Hg Ht"); [done|done|]. iIntros (q) "Hg Ht Hq Hl". rewrite Hbad. simpl.
    match type of Hf with foldM _ _ ?x = _ => set (s1 := x) in * end.
    iAssert (srp N pt pcc ps1 s1) with "[Hp Hc Hs]" as "Hsr".
    { iExists _. iFrame "Hp Hc Hs". iPureIntro. destruct Ha. subst s1. split; simpl; rewrite ?upd_len //.
      - by constructor.
      - intros i y Hy. apply lookup_upd in Hy as [[-> ->]|[Hne Hy]]; [| |by rewrite r_len0].
        + simpl. rewrite nth_upd_same; [|by rewrite r_idx0]. split; [done|]. intros _.
          rewrite nth_upd_same; [|by rewrite r_low0]. rewrite nth_upd_same; [|by rewrite r_on0]. done.
        + unfold known. simpl. rewrite !nth_upd_ne //. by apply r_at0. }
    assert (Hidx : length (t_idx s1) = N) by (subst s1; simpl; rewrite upd_len; exact (r_idx _ _ _ Ha)).
    assert (Hk1 : known s1 v).
    { unfold known. subst s1. simpl. rewrite nth_upd_same; [done|]. by rewrite (r_idx _ _ _ Ha). }
    iDestruct (grepc_counts with "Hg") as "[[_ %Hn] Hg]"; [done..|]. rewrite Hn.
    set (R := (λ (r : nat * nat * addr * nat) (s : tj), post s r ∗ trep q bad ∗ <affine> ⌜known s v⌝)%I).
    wpb. iApply (wp_wand _ _ (λ r, R r s2) with "[Hg Ht Hq Hl Hsr]").
    { iApply (wp_fold quiet _ _ R (seq 0 (length (succs nd))) (succs nd) (seq_length _ _) _ (S (t_cnt s), t_num s, ps1, rc) s1 s2 Hf with "[Hg Ht Hq Hl Hsr]").
      Unshelve.
      - unfold R, post. simpl. iFrame. done.
      - intros i j x [[[ci cn] cps] crc] t t' Hj Hx Hvis. apply lookup_seq in Hj as [-> _].
        iIntros "((Hg & Ht & Hsr & Hl & %Heq) & Hq & %Hk)". destruct Heq as (-> & -> & ->). simpl. unfold visit_succ in Hvis.
        wpb. iApply (wp_get_nb _ p cs g v c nd true with "Hg"); [done|done|done|]. iIntros "Hg".
        wpb. iApply (wp_in_treap with "Hq"). iIntros "Hq". destruct (in_treap bad (sap_action x)) eqn:Hin.
        { injection Hvis as <-. wpr. unfold R, post. iFrame. done. }
        destruct (nth_error (t_idx t) (sap_state x)) as [iw|] eqn:Hw; [|done].
        assert (Hwn : sap_state x < N). { eapply (closed_nb g true v nd); [done|done|]. apply elem_of_list_In, elem_of_list_lookup. by exists i. }
        iDestruct "Hsr" as (a1) "(%Ha1 & Hp & Hc & Hs)". destruct (tjr_get _ _ _ _ Ha1 Hwn) as [xw Hxw].
        destruct (r_at _ _ _ Ha1 _ _ Hxw) as [Hx1 Hx2].
        pose proof (nth_error_nth _ _ None Hw) as Hnw. rewrite Hnw in Hx1.
        wpb. iApply (wp_get_tj with "Hp"); [by rewrite nth_lookup|]. iIntros "Hp". wpb. iApply wp_field; [done|].
        iAssert (srp N pt pcc cps t) with "[Hp Hc Hs]" as "Hsr". { iExists _. iFrame. done. }
        destruct iw as [iw|].
        + assert (Hkw : known t (sap_state x)) by (unfold known; by rewrite Hnw).
          destruct (Hx2 Hkw) as [Hx3 Hx4]. wpb. iApply wp_field; [done|].
          destruct (nth (sap_state x) (t_on t) false).
          * injection Hvis as <-. wpb. iApply (wp_lower with "Hsr"); [done|done|]. iIntros "Hsr". wpr. unfold R, post. iFrame. done.
          * injection Hvis as <-. wpr. unfold R, post. iFrame. done.
        + destruct (strongconnect fuel g rnd sub t (sap_state x)) as [t1|] eqn:Hrec; [|done]. simpl in Hvis. injection Hvis as <-.
          destruct (sc_mono _ _ _ _ _ _ _ Hrec) as [Hm1 Hm2].
          wpb. iApply (wp_wand _ _ (post t1) with "[Hg Ht Hsr]"). { iApply (IH _ _ _ _ Hrec). iFrame. }
          iIntros ([[[di dn] dps] drc]) "(Hg & Ht & Hsr & Hl2 & %Heq)". destruct Heq as (-> & -> & ->).
          iDestruct "Hsr" as (a2) "(%Ha2 & Hp & Hc & Hs)". destruct (tjr_get _ _ _ _ Ha2 Hwn) as [xw2 Hxw2].
          destruct (r_at _ _ _ Ha2 _ _ Hxw2) as [Hy1 Hy2]. destruct (Hy2 Hm1) as [Hy3 Hy4].
          wpb. iApply (wp_get_tj with "Hp"); [by rewrite nth_lookup|]. iIntros "Hp". wpb. iApply wp_field; [done|].
          iAssert (srp N pt pcc dps t1) with "[Hp Hc Hs]" as "Hsr". { iExists _. iFrame. done. }
          wpb. iApply (wp_lower with "Hsr"); [done|by apply Hm2|]. iIntros "Hsr". wpr. unfold R, post. iFrame "Hg Ht Hsr Hq".
          iSplitL; [|iPureIntro; by apply Hm2]. iSplitL; [iApply leak_add; iFrame|done]. }
    iIntros ([[[ci cn] cps] crc]) "((Hg & Ht & Hsr & Hl & %Heq) & Hq & %Hk2)". destruct Heq as (-> & -> & ->).
    unfold leave in Hok. iDestruct "Hsr" as (a2) "(%Ha2 & Hp & Hc & Hs)". destruct (tjr_get _ _ _ _ Ha2 Hv) as [xv Hxv].
    destruct (r_at _ _ _ Ha2 _ _ Hxv) as [Hx1 Hx2]. destruct (Hx2 Hk2) as [Hx3 Hx4].
    destruct (nth v (t_idx s2) None) as [iv|] eqn:Hiv; [|done]. simpl in Hok.
    wpb. iApply (wp_get_tj with "Hp"); [by rewrite nth_lookup|]. iIntros "Hp". wpb. iApply wp_field; [done|]. wpb. iApply wp_field; [done|].
    destruct (nth v (t_low s2) 0 =? iv).
    - destruct (pop_until _ _ _ _ _) as [[[stk' on'] scc']|] eqn:Hpop; [|done]. simpl in Hok. injection Hok as <-.
      wpb. wpb.
      iApply (wp_fueled _ (length (t_stk s2)) (stk cps (t_stk s2)) (pt ↦ BTarjans a2 ∗ pcc ↦ BInts (map Some (t_scc s2)) ∗ grepc p cs g ∗ trep psub sub ∗ trep q bad ∗ leak full)%I with "[$Hs $Hp $Hc $Hg $Ht $Hq $Hl]");
        [apply stk_hge|].
      intros n Hn'. iIntros "(Hs & Hp & Hc & Hg & Ht & Hq & Hl)".
      iApply (wp_pop_until _ N _ _ _ _ (t_stk s2) n a2 s2 with "Hp Hc Hs"); [done|done|done|done|]. iIntros (q') "Hsr". wpr. simpl.
      wpb. iApply (wp_free_treap with "Hq"). wpr. unfold post. simpl. iFrame. done.
    - injection Hok as <-. wpb. wpr. simpl. wpb. iApply (wp_free_treap with "Hq"). wpr. unfold post. iFrame "Hg Ht Hl". iSplitL; [|done].
      iExists a2. iFrame. done.
  Qed.
End scc.

(** ** The whole algorithm *)
(** Reading the size of a treap that is not NULL. *)
Lemma wp_tsize {A} E q t (f : nat → M A) Φ : t ≠ TNull → trep q t -∗ (trep q t -∗ wp E (f (tsize t)) Φ) -∗
  wp E (let! (_, _, n, _, _) := tnode q in f n) Φ.
Proof.
  intros Ht. destruct t as [|l k h n r]; [done|]. iIntros "(%pl & %pr & Hq & Hl & Hr) HΦ".
  wpb. iApply (wp_tnode with "Hq"). iIntros "Hq". iApply "HΦ". iExists pl, pr. iFrame.
Qed.

Lemma wp_scc E g rnd sub p cs pcc psub b rc out k rc' Φ : closed_graph g → sub ≠ TNull → sized sub → length b = length g →
  strongly_connected g rnd rc sub = Ok (out, k, rc') →
  grepc p cs g -∗ trep psub sub -∗ pcc ↦ BInts b -∗
  (grepc p cs g -∗ trep psub sub -∗ pcc ↦ BInts (map Some out) -∗
   leak (∀ x, x < length g → in_treap sub x = true) -∗ Φ (k, rc')) -∗
  wp E (c_scc rnd (MkCG p (length g)) psub pcc rc) Φ.
Proof.
  intros Hcl Hsub Hsz Hb Hok. iIntros "Hg Ht Hc HΦ". unfold c_scc. cbn [cg_count cg_nodes].
  iApply (wp_tsize with "Ht"); [done|]. iIntros "Ht". unfold strongly_connected in Hok.
  rewrite treap_to_arr_spec in Hok; [|rewrite repeat_length; by apply tsize_sized]. cbn [bind] in Hok.
  destruct (foldM _ _ _) as [s|] eqn:Hf; [|done]. injection Hok as <- <- <-.
  wpb. iApply wp_malloc. iIntros (parr) "Harr".
  wpb. iApply (wp_treap_to_arr with "Ht Harr"); [rewrite repeat_length; by apply tsize_sized|]. iIntros "Ht Harr".
  wpb. iApply (wp_wand _ _ (λ _, pcc ↦ BInts (map Some (repeat 0 (length g))))%I with "[Hc]").
  { pose proof (wp_loop quiet (length g) (λ j, set_int pcc j 0) (λ i, pcc ↦ BInts (repeat (Some 0) i ++ drop i b))%I) as HL.
    assert (He : map Some (repeat 0 (length g)) = repeat (Some 0) (length g) ++ drop (length g) b).
    { rewrite drop_ge; [|rewrite Hb; done]. rewrite app_nil_r. clear. induction (length g) as [|n IH]; [done|]. simpl. f_equal. exact IH. }
    rewrite He. iApply HL; [|by iFrame]. intros i Hi. iIntros "Hc". iApply (wp_set_int with "Hc").
    - rewrite app_length repeat_length drop_length. lia.
    - iIntros "Hc". assert (Hd : drop i b = (b !!! i) :: drop (S i) b).
      { apply drop_S. apply list_lookup_lookup_total_lt. lia. }
      rewrite Hd (upd_app_at _ _ _ _ _ (repeat_length _ _)). rewrite (cons_middle _ (repeat _ _)) app_assoc.
      by rewrite -(repeat_cons i (Some 0)). }
  iIntros (_) "Hc". wpb. iApply wp_malloc. iIntros (pt) "Hp".
  wpb. iApply (wp_wand _ _ (λ _, pt ↦ BTarjans (repeat (MkT (Some None) None None) (length g)))%I with "[Hp]").
  { set (f := (λ j, let! t := get_tj pt j in set_tj pt j (MkT (Some None) (k_low t) (k_on t)))).
    pose proof (wp_loop quiet (length g) f (λ i, pt ↦ BTarjans (repeat (MkT (Some None) None None) i ++ repeat (MkT None None None) (length g - i)))%I) as HL.
    rewrite Nat.sub_diag app_nil_r Nat.sub_0_r in HL. iApply (HL with "Hp"). intros i Hi. iIntros "Hp". unfold f.
    assert (Hr : length g - i = S (length g - S i)) by lia. rewrite Hr. cbn -[Nat.sub].
    wpb. iApply (wp_get_tj with "Hp"). { rewrite nth_lookup lookup_app_r repeat_length // Nat.sub_diag. done. }
    iIntros "Hp". iApply (wp_set_tj with "Hp"). { rewrite app_length /= !repeat_length. lia. }
    iIntros "Hp". rewrite (upd_app_at _ _ _ _ _ (repeat_length _ _)). simpl.
    rewrite (cons_middle _ (repeat _ _)) app_assoc. by rewrite -(repeat_cons i). }
  iIntros (_) "Hp".
  set (full := ∀ x, x < length g → in_treap sub x = true).
  set (R := (λ (r : nat * nat * addr * nat) (s : tj), post g sub p cs pt pcc psub s r ∗ parr ↦ BInts (map Some (elems sub)))%I).
  wpb. iApply (wp_wand _ _ (λ r, R r s) with "[Hg Ht Hc Hp Harr]").
  { rewrite (tsize_sized _ Hsz).
    iApply (wp_fold quiet _ _ R (seq 0 (length (elems sub))) (elems sub) (seq_length _ _) _ (0, 1, null, rc) (scc_init (length g) rc) s Hf with "[Hg Ht Hc Hp Harr]").
    Unshelve.
    - unfold R, post. simpl. iFrame. iSplitL; [|iSplitL; [by iApply leak_0|done]].
      iExists _. iFrame. iSplitL; [|done]. iPureIntro. split; simpl; rewrite ?repeat_length //.
      intros i x Hx. apply elem_of_list_lookup_2, elem_of_list_In, repeat_spec in Hx. subst x. simpl. unfold known. simpl.
      assert (Hn : nth i (repeat (@None nat) (length g)) None = None).
      { clear. revert i. induction (length g); intros [|]; simpl; auto. }
      rewrite Hn. done.
    - intros i j u [[[ci cn] cps] crc] t t' Hj Hu Hstep. apply lookup_seq in Hj as [-> _].
      iIntros "((Hg & Ht & Hsr & Hl & %Heq) & Harr)". destruct Heq as (-> & -> & ->). simpl.
      wpb. iApply (wp_get_int with "Harr"). { rewrite nth_lookup list_lookup_fmap Hu. done. } iIntros "Harr".
      destruct (nth_error (t_idx t) u) as [iu|] eqn:Hiu; [|done].
      iDestruct "Hsr" as (a) "(%Ha & Hp & Hc & Hs)".
      assert (Hun : u < length g). { rewrite -(r_idx _ _ _ Ha). apply nth_error_Some. by rewrite Hiu. }
      destruct (tjr_get _ _ _ _ Ha Hun) as [x Hx]. destruct (r_at _ _ _ Ha _ _ Hx) as [Hx1 _].
      rewrite (nth_error_nth _ _ None Hiu) in Hx1.
      wpb. iApply (wp_get_tj with "Hp"); [by rewrite nth_lookup|]. iIntros "Hp". wpb. iApply wp_field; [done|].
      iAssert (srp (length g) pt pcc cps t) with "[Hp Hc Hs]" as "Hsr". { iExists _. iFrame. done. }
      destruct iu as [iu|].
      + injection Hstep as <-. wpr. unfold R, post. iFrame. done.
      + iApply (wp_wand _ _ (post g sub p cs pt pcc psub t') with "[Hg Ht Hsr]").
        { iApply (wp_sc _ _ _ _ _ _ _ _ Hcl _ _ _ _ _ Hstep). iFrame. }
        iIntros ([[[di dn] dps] drc]) "(Hg & Ht & Hsr & Hl2 & %Heq)". unfold R, post. iFrame "Hg Ht Hsr Harr". iSplitL; [|done].
        iApply leak_add. iFrame. }
  iIntros ([[[ci cn] cps] crc]) "((Hg & Ht & Hsr & Hl & %Heq) & Harr)". destruct Heq as (-> & -> & ->).
  iDestruct "Hsr" as (a) "(%Ha & Hp & Hc & Hs)".
  wpb. iApply (wp_free with "Hp"). wpb. iApply (wp_free with "Harr"). wpb. iApply (wp_free_stack with "Hs"). wpr.
  iApply ("HΦ" with "Hg Ht Hc Hl").
Qed.
