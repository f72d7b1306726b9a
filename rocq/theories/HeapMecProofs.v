(** The maximal end components in memory are those of Mec.v; what the
    computation leaves behind. *)
From Coq Require Import List Arith ZArith QArith.
From stdpp Require Import gmap.
From iris.bi Require Import interface big_op.
From iris.proofmode Require Import proofmode.
From Verif Require Import Base Num Matrix Graph GraphProofs Treap TreapSpec TreapProofs Scc SccProofs Mec MecProofs
  Heap HeapTreap HeapGraph HeapLogic HeapTreapProofs HeapGraphProofs HeapReachProofs HeapSccProofs.
From iris.prelude Require Import options.
Local Open Scope nat_scope.

(** All blocks of a list of treaps. *)
Notation treps ps ts := ([∗ list] q;t ∈ ps;ts, trep q t)%I.

Lemma wp_push_all E pn : ∀ ps ts pre ls st Φ,
  pn ↦ BPtrs (map Some (pre ++ ps)) -∗ treps ps ts -∗ tstk st ls -∗
  (∀ q, pn ↦ BPtrs (map Some (pre ++ ps)) -∗ tstk q (rev ts ++ ls) -∗ Φ q) -∗
  wp E (foldH (λ stk j, let! q := get_ptr pn j in c_ts_push stk q) (seq (length pre) (length ps)) st) Φ.
Proof.
  induction ps as [|q ps IH]; intros [|t ts] pre ls st Φ; simpl; iIntros "Hp Ht Hs HΦ"; try done.
  - wpr. iApply ("HΦ" with "Hp Hs").
  - iDestruct "Ht" as "[Hq Ht]". wpb. wpb. iApply (wp_get_ptr with "Hp").
    { rewrite nth_lookup list_lookup_fmap lookup_app_r // Nat.sub_diag. done. }
    iIntros "Hp". iApply (wp_ts_push with "Hs Hq"). iIntros (st') "Hs".
    specialize (IH ts (pre ++ [q]) (t :: ls) st' Φ). rewrite app_length Nat.add_1_r -app_assoc in IH.
    iApply (IH with "Hp Ht Hs"). iIntros (q') "Hp Hs". rewrite -app_assoc. iApply ("HΦ" with "Hp Hs").
Qed.

Section mec.
  Context (g : graph) (rnd : nat → Z) (p : addr) (cs : list cnode) (pcc : addr).
  Hypothesis Hcl : closed_graph g.
  Let N := length g.
  Let cg := MkCG p N.

  Definition mrep (s : mecst) (c : cmec) : hp :=
    (tstk (cm_stk c) (m_stk s) ∗ trep (cm_single c) (m_single s) ∗ (∃ b, pcc ↦ BInts b ∗ <affine> ⌜length b = N⌝) ∗
     <affine> ⌜cm_ret c = m_ret s ∧ cm_cnt c = m_cnt s ∧ cm_rc c = m_rc s⌝)%I.

  (** Before the first round nothing is lost.  Afterwards one array is held;
      if there was more than one component, as many arrays as components are
      lost, otherwise nothing. *)
  Definition lost (s : mecst) (c : cmec) : hp :=
    ((<affine> ⌜cm_arr c = null ∧ m_cnt s = 0 ∧ m_single s = TNull ∧ ∃ t, m_stk s = [t] ∧ ∀ x, x < N → in_treap t x = true⌝) ∨
     (∃ j a, cm_arr c ↦ BInts a ∗ junk j ∗
        <affine> ⌜(2 ≤ m_cnt s + length (m_stk s) ∧ m_cnt s ≤ j) ∨ (m_cnt s = 1 ∧ m_stk s = [] ∧ j = 0 ∧ (2 ≤ N → m_single s = TNull))⌝))%I.

  Lemma elems_two t : wf_treap t → 2 ≤ N → (∀ x, x < N → in_treap t x = true) → tsize t ≠ 1.
  Proof using.
    intros (H1 & H2 & _) HN Hf Hs. rewrite tsize_sized // in Hs. destruct (elems t) as [|x [|]] eqn:He; try done.
    assert (G : ∀ y, y < N → y = x).
    { intros y Hy. specialize (Hf y Hy). apply in_treap_elems in Hf; [|done]. rewrite He in Hf. destruct Hf as [->|[]]. done. }
    assert (0 = 1); [|done]. transitivity x; [|symmetry]; apply G; lia.
  Qed.

  Lemma wp_mec_step s fin t rest s' c : MInv g s fin → m_stk s = t :: rest → mec_step g rnd s t rest = Ok s' →
    grepc p cs g ∗ mrep s c ∗ lost s c ⊢ wp quiet (c_mec_step rnd cg pcc c) (λ c', grepc p cs g ∗ mrep s' c' ∗ lost s' c')%I.
  Proof using Hcl.
    intros HI Es Hok. iIntros "(Hg & (Hs & Hsi & (%b & Hc & %Hb) & %Heq) & Hlost)". destruct Heq as (Eret & Ecnt & Erc).
    destruct (mi_wf _ _ _ HI t) as [Wt Nt]; [rewrite Es; by left|]. pose proof Wt as (W1 & W2 & W3).
    assert (Xlt : ∀ v, In v (elems t) → v < N).
    { intros v Hv. destruct (mi_blocks _ _ _ HI) as (_ & HB & _). apply HB. rewrite Es. simpl. apply in_app_iff. by left. }
    rewrite Es. unfold c_mec_step. wpb. iApply (wp_ts_pop with "Hs"). iIntros (st pt) "Hs Ht".
    iApply (wp_tsize with "Ht"); [done|]. iIntros "Ht".
    wpb. iApply wp_malloc. iIntros (parr) "Harr".
    wpb. iApply (wp_treap_to_arr with "Ht Harr"); [rewrite repeat_length; by apply tsize_sized|]. iIntros "Ht Harr".
    unfold mec_step in Hok. destruct t as [|tl tk th tn tr] eqn:Et; [done|]. rewrite -Et in W1 W2 W3 Wt Nt Xlt Hok Es |- *. clear Et tl tk th tn tr.
    rewrite treap_arr // in Hok. cbn [bind] in Hok.
    destruct (strongly_connected_ok g rnd t W1 Xlt W2 (m_rc s)) as (sccs & k & rc & Esc & L & S1 & S2 & S3 & S4).
    rewrite Esc in Hok. cbn [bind] in Hok.
    wpb. rewrite Erc. iApply (wp_scc with "Hg Ht Hc"); [done|done|done|done|exact Esc|]. iIntros "Hg Ht Hc Hl".
    rewrite (tsize_sized _ W2) in Hok |- *. cbn beta iota.
    destruct (Nat.eqb_spec k 1) as [->|Nk].
    - destruct (foldM _ (elems t) (m_ret s)) as [ret|] eqn:Hret; [|done]. cbn [bind] in Hok.
      set (R := (λ (r r' : list nat), parr ↦ BInts (map Some (elems t)) ∗ <affine> ⌜r = r'⌝)%I).
      wpb. iApply (wp_wand _ _ (λ r, R r ret) with "[Harr]").
      { rewrite Eret Ecnt.
        iApply (wp_fold quiet _ _ R (seq 0 (length (elems t))) (elems t) (seq_length _ _) _ (m_ret s) (m_ret s) ret Hret with "[Harr]").
        Unshelve.
        - unfold R. iFrame. done.
        - intros i j u r r' r'' Hj Hu Hst. apply lookup_seq in Hj as [-> _]. iIntros "[Harr ->]".
          wpb. iApply (wp_get_int with "Harr"). { rewrite nth_lookup list_lookup_fmap Hu. done. } iIntros "Harr". simpl.
          cbn beta in Hst. unfold np_set. destruct (u <? length r'); [|done]. injection Hst as <-. wpr. unfold R. iFrame. done. }
      iIntros (r) "[Harr ->]".
      set (sr := if length (elems t) =? 1 then (add_to_treap (m_single s) (m_cnt s) (rnd rc), S rc) else (m_single s, rc)) in Hok.
      wpb. iApply (wp_wand _ _ (λ q, trep (fst q) (fst sr) ∗ <affine> ⌜snd q = snd sr⌝ ∗ ∃ j, junk j ∗ <affine> ⌜m_single s = TNull → j = 0⌝)%I with "[Hsi]").
      { unfold sr. destruct (length (elems t) =? 1).
        - wpb. iApply (wp_add with "Hsi"). iIntros (q) "Hq Hj". wpr. rewrite Ecnt. simpl. iFrame "Hq". iSplitR; [done|].
          iExists _. iFrame "Hj". iPureIntro. by intros ->.
        - wpr. simpl. iFrame. iSplitR; [done|]. iExists 0. iSplitL; [by iApply junk_0|done]. }
      iIntros ([q rc2]) "(Hsi & %Hrc & (%j2 & Hj2 & %Hj2))". simpl in Hrc. subst rc2.
      destruct sr as [single rc2] eqn:Hsr. injection Hok as <-. simpl.
      wpb. iApply (wp_free_treap with "Ht"). wpr. iFrame "Hg". unfold mrep. simpl. iFrame "Hs Hsi". rewrite Ecnt.
      iSplitL "Hc". { iSplitL; [|done]. iExists _. iFrame. by rewrite map_length. }
      iRight. simpl. iDestruct "Hl" as (j3) "[Hj3 %Hj3]".
      iDestruct "Hlost" as "[%Hf|(%j & %a & Ha & Hj & %Hor)]".
      + destruct Hf as (Hn & H0 & Hsi & t' & Hst & Hfull). rewrite Es in Hst. injection Hst as <- ->.
        iExists (j2 + j3), _. iFrame "Harr". iSplitL; [iApply junk_add; iFrame|]. iPureIntro. right.
        rewrite H0. split; [done|]. split; [done|]. rewrite Hj2 // Hj3 //. split; [done|]. intros HN.
        destruct (Nat.eqb_spec (length (elems t)) 1) as [Hl1|Hl1].
        * exfalso. apply (elems_two t); [done|done|done|]. by rewrite tsize_sized.
        * rewrite -Hsi. unfold sr in Hsr. by injection Hsr.
      + iExists (j + (1 + (j2 + j3))), _. iFrame "Harr". iSplitL.
        { iApply junk_add. iFrame "Hj". iApply junk_add. iSplitL "Ha"; [by iApply junk_pt|]. iApply junk_add. iFrame. }
        iPureIntro. left. rewrite Es in Hor. simpl in Hor. destruct Hor as [[Ha Hb']|(? & ? & _)]; [|done]. lia.
    - destruct (split_nodes rnd sccs (elems t) k rc) as [[news rc']|] eqn:Hsp; [|done]. cbn [bind] in Hok. injection Hok as <-.
      assert (Hk : 2 ≤ k).
      { destruct (elems t) as [|u r] eqn:Eu; [by apply elems_nonnull in Nt|]. pose proof (S2 u (or_introl eq_refl)). lia. }
      destruct (split_nodes_spec g rnd sccs (elems t) k rc) as (news' & rc'' & En & Ln & _); [by apply bst_nodup|done|].
      rewrite Hsp in En. injection En as <- <-.
      wpb. iApply wp_malloc. iIntros (pn) "Hn".
      wpb. iApply (wp_wand _ _ (λ _, pn ↦ BPtrs (map Some (repeat null k)))%I with "[Hn]").
      { pose proof (wp_loop quiet k (λ j, set_ptr pn j null) (λ i, pn ↦ BPtrs (repeat (Some null) i ++ repeat None (k - i)))%I) as HL.
        rewrite Nat.sub_diag app_nil_r Nat.sub_0_r in HL. assert (Hmr : map Some (repeat null k) = repeat (Some null) k) by (clear; induction k as [|k IH]; [done|]; simpl; f_equal; exact IH).
        rewrite Hmr. iApply (HL with "Hn"). intros i Hi. iIntros "Hp".
        assert (Hr : k - i = S (k - S i)) by lia. rewrite Hr. cbn -[Nat.sub].
        iApply (wp_set_ptr with "Hp"). { rewrite app_length /= !repeat_length. lia. }
        iIntros "Hp". rewrite (upd_app_at _ _ _ _ _ (repeat_length _ _)). simpl.
        rewrite (cons_middle _ (repeat _ _)) app_assoc. by rewrite -(repeat_cons i). }
      iIntros (_) "Hn".
      set (R := (λ (r : nat) (st : list treap * nat), parr ↦ BInts (map Some (elems t)) ∗ pcc ↦ BInts (map Some sccs) ∗
                 <affine> ⌜r = snd st⌝ ∗ (∃ ps, pn ↦ BPtrs (map Some ps) ∗ treps ps (fst st)) ∗ ∃ j, junk j)%I).
      wpb. iApply (wp_wand _ _ (λ r, R r (news, rc')) with "[Hn Harr Hc]").
      { unfold split_nodes in Hsp.
        iApply (wp_fold quiet _ _ R (seq 0 (length (elems t))) (elems t) (seq_length _ _) _ rc (repeat TNull k, rc) (news, rc') Hsp with "[Hn Harr Hc]").
        Unshelve.
        - unfold R. simpl. iFrame. iSplitR; [done|]. iSplitL; [|iExists 0; by iApply junk_0]. iExists _. iFrame.
          clear. induction k as [|k IH]; simpl; [done|]. iSplitR; done.
        - intros i j u r [nw r'] [nw' r''] Hj Hu Hst. apply lookup_seq in Hj as [-> _]. simpl.
          iIntros "(Harr & Hc & %Hr & (%ps & Hn & Hps) & (%jj & Hjj))". simpl in Hr. subst r'.
          assert (Hin : In u (elems t)) by (apply elem_of_list_In, elem_of_list_lookup; by exists i).
          pose proof (S2 u Hin) as Hc1. pose proof (Xlt u Hin) as Hun.
          assert (Hget : nth_error (map Some (elems t)) i = Some (Some u)) by (rewrite nth_lookup list_lookup_fmap Hu; done).
          wpb. iApply (wp_get_int with "Harr"); [exact Hget|]. iIntros "Harr".
          wpb. iApply (wp_get_int _ _ _ u (nth u sccs 0) with "Hc").
          { rewrite nth_error_map. rewrite (nth_error_nth' sccs 0); [done|]. rewrite L. exact Hun. }
          iIntros "Hc". destruct (Nat.eqb_spec (nth u sccs 0) 0); [lia|].
          destruct (nth_error nw (nth u sccs 0 - 1)) as [tt|] eqn:Htt; [|done]. injection Hst as <- <-. rewrite nth_lookup in Htt.
          iDestruct (big_sepL2_length with "Hps") as "%Hlen".
          destruct (ps !! (nth u sccs 0 - 1)) as [q|] eqn:Hq.
          2:{ simpl in Hlen. apply lookup_ge_None in Hq. apply lookup_lt_Some in Htt. rewrite Hlen in Hq. lia. }
          wpb. iApply (wp_get_ptr with "Hn"). { rewrite nth_lookup list_lookup_fmap Hq. done. } iIntros "Hn".
          wpb. iApply (wp_get_int with "Harr"); [exact Hget|]. iIntros "Harr".
          iDestruct (big_sepL2_insert_acc with "Hps") as "[Hq Hps]"; [exact Hq|exact Htt|].
          wpb. iApply (wp_add with "Hq"). iIntros (q') "Hq Hj".
          wpb. iApply (wp_set_ptr with "Hn"). { rewrite map_length. by eapply lookup_lt_Some. }
          iIntros "Hn". wpr. unfold R. simpl. iFrame "Harr Hc". iSplitR; [done|]. iSplitL "Hn Hq Hps".
          + iExists _. rewrite (map_insert Some). iFrame "Hn". rewrite upd_insert. iApply ("Hps" with "Hq").
          + iExists _. iApply junk_add. iFrame. }
      iIntros (r) "(Harr & Hc & -> & (%ps & Hn & Hps) & (%j2 & Hj2))". simpl.
      iDestruct (big_sepL2_length with "Hps") as "%Hlen".
      wpb. pose proof (wp_push_all quiet pn ps news [] rest st) as HP. simpl in HP. rewrite Hlen Ln in HP.
      iApply (HP with "Hn Hps Hs"). clear HP. iIntros (st') "Hn Hs".
      wpb. iApply (wp_free_treap with "Ht"). wpb. iApply (wp_free with "Hn"). wpr.
      iFrame "Hg". unfold mrep. simpl. iFrame "Hs Hsi".
      iSplitL "Hc". { iSplitL; [|done]. iExists _. iFrame. by rewrite map_length. }
      iRight. simpl. iDestruct "Hl" as (j3) "[Hj3 _]". rewrite app_length rev_length Ln.
      iDestruct "Hlost" as "[%Hf|(%j & %a & Ha & Hj & %Hor)]".
      + destruct Hf as (Hn & H0 & _). iExists (j2 + j3), _. iFrame "Harr". iSplitL; [iApply junk_add; iFrame|].
        iPureIntro. left. rewrite H0. lia.
      + iExists (j + (1 + (j2 + j3))), _. iFrame "Harr". iSplitL.
        { iApply junk_add. iFrame "Hj". iApply junk_add. iSplitL "Ha"; [by iApply junk_pt|]. iApply junk_add. iFrame. }
        iPureIntro. left. rewrite Es in Hor. simpl in Hor. destruct Hor as [[Ha Hb']|(? & ? & _)]; [|done]. lia.
  Qed.

  Lemma wp_mec_loop fuel : ∀ s fin s' c, MInv g s fin → mec_loop fuel g rnd s = Ok s' →
    grepc p cs g ∗ mrep s c ∗ lost s c ⊢
    wp quiet (c_mec_loop fuel rnd cg pcc c)
      (λ c', grepc p cs g ∗ mrep s' c' ∗ lost s' c' ∗ <affine> ⌜m_stk s' = [] ∧ length (m_ret s') = N⌝)%I.
  Proof using Hcl.
    induction fuel as [|fuel IH]; intros s fin s' c HI Hok; [done|]. simpl in Hok. cbn [c_mec_loop].
    destruct (m_stk s) as [|t rest] eqn:Es.
    - injection Hok as <-. iIntros "(Hg & Hm & Hl)". unfold mrep. rewrite Es. iDestruct "Hm" as "(%Hs & Hm)". rewrite Hs. simpl. wpr.
      iFrame "Hg Hl". rewrite Hs. iSplitL; [|iPureIntro; split; [done|exact (mi_len _ _ _ HI)]]. iSplitR; [done|]. iFrame.
    - destruct (mec_step_ok g rnd s fin t rest HI Es) as (s1 & fin1 & Hst & HI1 & _). rewrite Hst in Hok. simpl in Hok.
      iIntros "(Hg & Hm & Hl)". iAssert (<affine> ⌜(cm_stk c =? null) = false⌝ ∗ mrep s c)%I with "[Hm]" as "[%Hn Hm]".
      { unfold mrep. rewrite Es. iDestruct "Hm" as "(Hs & Hm)". iDestruct (tstk_nonnull with "Hs") as "[% Hs]". iFrame. done. }
      rewrite Hn. wpb. iApply (wp_wand _ _ (λ c', grepc p cs g ∗ mrep s1 c' ∗ lost s1 c')%I with "[Hg Hm Hl]").
      + iApply (wp_mec_step s fin t rest s1 c HI Es Hst). iFrame.
      + iIntros (c') "H". iApply (IH s1 fin1 s' c' HI1 Hok with "H").
  Qed.

  (** ** The proper components *)
  Lemma fold_left_ext' {A B} (f f' : A → B → A) l a : (∀ a b, f a b = f' a b) → fold_left f l a = fold_left f' l a.
  Proof using. intros H. revert a. induction l as [|b l IH]; intros a; simpl; [done|]. by rewrite H IH. Qed.

  Lemma wp_loop_actions i c nd rc Φ : cs !! i = Some c → g !! i = Some nd →
    grepc p cs g -∗
    (∀ pa pn, grepc p cs g -∗ trep pa (fst (fst (loop_actions rnd i (succs nd) rc))) -∗
       trep pn (snd (fst (loop_actions rnd i (succs nd) rc))) -∗ (∃ j, junk j) -∗
       Φ (pa, pn, snd (loop_actions rnd i (succs nd) rc))) -∗
    wp quiet (foldH (fun st j => let '(all, non, rc) := st in
        let! x := get_sap (c_succs c) j in
        let! all := c_add all (sap_action x) (rnd rc) in
        if sap_state x =? i then ret (all, non, S rc)
        else let! non := c_add non (sap_action x) (rnd (S rc)) in ret (all, non, S (S rc)))
      (seq 0 (c_sn c)) (null, null, rc)) Φ.
  Proof using.
    intros Hc Hg. iIntros "Hg HΦ". iDestruct (grepc_counts with "Hg") as "[[_ %Hn] Hg]"; [done..|]. rewrite Hn.
    unfold loop_actions.
    set (f := (λ st x, let '(all, non, rc) := st in
               let all := add_to_treap all (sap_action x) (rnd rc) in
               if sap_state x =? i then (all, non, S rc)
               else (all, add_to_treap non (sap_action x) (rnd (S rc)), S (S rc))) : treap * treap * nat → sap → treap * treap * nat).
    set (R := (λ (q : addr * addr * nat) (st : treap * treap * nat), grepc p cs g ∗ trep (fst (fst q)) (fst (fst st)) ∗
               trep (snd (fst q)) (snd (fst st)) ∗ (∃ j, junk j) ∗ <affine> ⌜snd q = snd st⌝)%I).
    pose proof (fold_left_M f (succs nd) (TNull, TNull, rc)) as HF.
    iApply (wp_wand _ _ (λ q, R q (fold_left f (succs nd) (TNull, TNull, rc))) with "[Hg]").
    - iApply (wp_fold quiet _ _ R (seq 0 (length (succs nd))) (succs nd) (seq_length _ _) _ (null, null, rc) (TNull, TNull, rc) _ HF with "[Hg]").
      Unshelve.
      + unfold R. simpl. iFrame. iSplitR; [done|]. iSplitR; [done|]. iSplitL; [|done]. iExists 0. by iApply junk_0.
      + intros k j x [[qa qn] r] [[ta tn] r'] fs' Hj Hx [= <-]. apply lookup_seq in Hj as [-> _].
        iIntros "(Hg & Ha & Hn & (%jj & Hj) & %Hr)". simpl in Hr. subst r'. simpl.
        wpb. iApply (wp_get_nb _ p cs g i c nd true with "Hg"); [done|done|done|]. iIntros "Hg".
        wpb. iApply (wp_add with "Ha"). iIntros (qa') "Ha Hj1". destruct (sap_state x =? i).
        * wpr. unfold R. simpl. iFrame "Hg Ha Hn". iSplitL; [|done]. iExists _. iApply junk_add. iFrame.
        * wpb. iApply (wp_add with "Hn"). iIntros (qn') "Hn Hj2". wpr. unfold R. simpl. iFrame "Hg Ha Hn". iSplitL; [|done].
          iExists _. iApply junk_add. iFrame "Hj". iApply junk_add. iFrame.
    - iIntros ([[qa qn] r]) "(Hg & Ha & Hn & Hj & %Hr)". simpl in *. subst r. iApply ("HΦ" with "Hg Ha Hn Hj").
  Qed.

  Lemma trep_null q t : trep q t ⊢ <affine> ⌜(q =? null) = match t with TNull => true | _ => false end⌝ ∗ trep q t.
  Proof using.
    destruct t as [|l k h n r]; simpl.
    - iIntros "->". done.
    - iIntros "(%pl & %pr & Hp & Ht)". iDestruct (node_nonnull with "Hp") as "[% Hp]". iSplitR; [done|]. iExists pl, pr. iFrame.
  Qed.

  Lemma loop_actions_nonnull i ss rc : snd (fst (loop_actions rnd i ss rc)) ≠ TNull → fst (fst (loop_actions rnd i ss rc)) ≠ TNull.
  Proof using.
    unfold loop_actions.
    assert (HA : ∀ t k h, wf_treap t → add_to_treap t k h ≠ TNull).
    { intros t k h Ht He. assert (Hin : In k (elems (add_to_treap t k h))) by (apply elems_add; auto). rewrite He in Hin. destruct Hin. }
    assert (G : ∀ a n r, wf_treap a → (n ≠ TNull → a ≠ TNull) →
      let st := fold_left (fun st x => let '(all, non, rc) := st in
               let all := add_to_treap all (sap_action x) (rnd rc) in
               if sap_state x =? i then (all, non, S rc)
               else (all, add_to_treap non (sap_action x) (rnd (S rc)), S (S rc))) ss (a, n, r) in
      snd (fst st) ≠ TNull → fst (fst st) ≠ TNull).
    { induction ss as [|x ss IH]; intros a n r Wa Hn; simpl; [done|]. destruct (sap_state x =? i).
      - apply IH; [by apply wf_add|]. intros _. by apply HA.
      - apply IH; [by apply wf_add|]. intros _. by apply HA. }
    apply G; [apply wf_null|done].
  Qed.

  Lemma wp_proper_step r single psi st st' i : length r = N → i < N → proper_step g rnd r single st i = Ok st' →
    grepc p cs g ∗ trep psi single ∗ leak (single = TNull) ⊢
    wp quiet (c_proper_step rnd cg r psi st i) (λ q, grepc p cs g ∗ trep psi single ∗ leak (single = TNull) ∗ <affine> ⌜q = st'⌝)%I.
  Proof using.
    intros Hr Hi Hok. destruct st as [proper rc]. iIntros "(Hg & Hs & Hl)". unfold c_proper_step, proper_step in *.
    wpb. unfold np_get. rewrite (nth_error_nth' r 0); [|by rewrite Hr]. wpr.
    wpb. iApply (wp_in_treap with "Hs"). iIntros "Hs". destruct (in_treap single (nth i r 0)) eqn:Hin; simpl in *.
    - iDestruct (grepc_length with "Hg") as "[%Hlen Hg]".
      assert (exists c, cs !! i = Some c) as [c Hc].
      { destruct (cs !! i) eqn:Hc; [by eexists|]. apply lookup_ge_None in Hc. rewrite Hlen in Hc. exfalso. clear -Hc Hi. subst N. lia. }
      assert (exists nd, g !! i = Some nd) as [nd Hnd].
      { destruct (g !! i) eqn:Hc'; [by eexists|]. apply lookup_ge_None in Hc'. exfalso. clear -Hc' Hi. subst N. lia. }
      assert (Hnn : nth i g node0 = nd). { apply nth_error_nth. by rewrite nth_lookup. }
      rewrite Hnn in Hok.
      wpb. iApply (wp_get_node_rep with "Hg"); [done|]. iIntros "Hg".
      wpb. iApply (wp_loop_actions with "Hg"); [done|done|]. iIntros (pa pn) "Hg Ha Hn Hj".
      pose proof (loop_actions_nonnull i (succs nd) rc) as Hnull.
      destruct (loop_actions rnd i (succs nd) rc) as [[all non] rc2]. simpl in *.
      iDestruct (trep_null with "Hn") as "[%Hnn2 Hn]". rewrite Hnn2.
      iAssert (leak (single = TNull)) with "[Hl Hj]" as "Hl".
      { iApply leak_add. iFrame "Hl". iDestruct "Hj" as (j) "Hj". iApply (leak_junk with "Hj"). by intros ->. }
      iAssert (wp quiet (if match non with TNull => true | TNode _ _ _ _ _ => false end then np_set proper (nth i r 0) true
         else let! (_, _, n1, _, _) := tnode pn in let! (_, _, n2, _, _) := tnode pa in
              if negb (n1 =? n2) then np_set proper (nth i r 0) true else ret proper)
         (λ q, <affine> ⌜st' = (q, rc2)⌝ ∗ trep pn non ∗ trep pa all))%I with "[Hn Ha]" as "Hw".
      { assert (Hdz : non = TNull ∨ non ≠ TNull) by (destruct non; auto). destruct Hdz as [Hz|Hz].
        - rewrite Hz in Hok |- *. unfold np_set. destruct (nth i r 0 <? length proper); [|done]. injection Hok as <-. wpr. iFrame. done.
        - assert (Ht : match non with TNull => true | TNode _ _ _ _ _ => false end = false) by (by destruct non).
          assert (Ht2 : match non with TNull => true | TNode _ _ _ _ _ => negb (tsize non =? tsize all) end = negb (tsize non =? tsize all)) by (by destruct non).
          rewrite Ht. rewrite Ht2 in Hok.
          iApply (wp_tsize with "Hn"); [done|]. iIntros "Hn". iApply (wp_tsize with "Ha"); [by apply Hnull|]. iIntros "Ha".
          destruct (negb (tsize non =? tsize all)).
          + unfold np_set. destruct (nth i r 0 <? length proper); [|done]. injection Hok as <-. wpr. iFrame. done.
          + injection Hok as <-. wpr. iFrame. done. }
      wpb. iApply (wp_wand with "Hw"). iIntros (q) "(-> & Hn & Ha)".
      wpb. iApply (wp_free_treap with "Hn"). wpb. iApply (wp_free_treap with "Ha"). wpr. iFrame. done.
    - unfold np_set. destruct (nth i r 0 <? length proper); [|done]. injection Hok as <-. wpb. wpr. wpr. iFrame. done.
  Qed.
End mec.

(** ** The whole computation *)
Lemma wp_all_nodes rnd N Φ :
  (∀ q, trep q (fst (all_nodes rnd 0 N)) -∗ Φ (q, snd (all_nodes rnd 0 N))) ⊢
  wp quiet (foldH (fun st i => let '(t, rc) := st in let! t := c_add t i (rnd rc) in ret (t, S rc)) (seq 0 N) (null, 0)) Φ.
Proof.
  iIntros "HΦ". unfold all_nodes.
  set (f := (λ st i, let '(t, rc) := st in (add_to_treap t i (rnd rc), S rc)) : treap * nat → nat → treap * nat).
  assert (G : ∀ k a t rc q Ψ, wf_treap t → (∀ x, In x (elems t) ↔ x < a) →
    trep q t -∗ (∀ q', trep q' (fst (fold_left f (seq a k) (t, rc))) -∗ Ψ (q', snd (fold_left f (seq a k) (t, rc)))) -∗
    wp quiet (foldH (fun st i => let '(t, rc) := st in let! t := c_add t i (rnd rc) in ret (t, S rc)) (seq a k) (q, rc)) Ψ).
  { induction k as [|k IH]; intros a t rc q Ψ Wt Ht; simpl; iIntros "Hq HΦ".
    - wpr. by iApply "HΦ".
    - wpb. wpb. iApply (wp_add with "Hq"). iIntros (q') "Hq Hj". wpr.
      assert (Hin : in_treap t a = false).
      { destruct (in_treap t a) eqn:Hin; [|done]. destruct Wt as (W1 & _). apply (in_treap_elems t a W1) in Hin. apply Ht in Hin. lia. }
      rewrite Hin. iDestruct (junk_0_emp with "Hj") as "_". iApply (IH with "Hq HΦ"); [by apply wf_add|].
      intros x. rewrite elems_add // Ht. lia. }
  iApply (G N 0 TNull 0 null with "[] HΦ"); [apply wf_null|simpl; intros; lia|done].
Qed.

Lemma wp_mec g rnd p cs fuel comp proper k Φ : closed_graph g → 0 < length g → 2 * length g ≤ fuel →
  mec_fuel fuel g rnd = Ok (comp, proper, k) →
  grepc p cs g -∗
  (∀ j, grepc p cs g -∗ junk j -∗ <affine> ⌜(2 ≤ k → k ≤ j) ∧ (k = 1 → 2 ≤ length g → j = 0)⌝ -∗ Φ (comp, proper, k)) -∗
  wp quiet (c_mec_fuel fuel rnd (MkCG p (length g))) Φ.
Proof.
  intros Hcl HN Hfuel Hok. iIntros "Hg HΦ". unfold c_mec_fuel, mec_fuel in *. cbn [cg_count].
  wpb. iApply wp_malloc. iIntros (pcc) "Hc". wpb. iApply wp_all_nodes. iIntros (q) "Ht".
  pose proof (all_nodes_spec g rnd 0) as HA. destruct (all_nodes rnd 0 (length g)) as [t rc] eqn:Ea. simpl in HA. destruct HA as [Wt It].
  assert (Ht : t ≠ TNull). { intros ->. apply (It 0) in HN. contradiction. }
  cbn [fst snd]. wpb. iApply (wp_ts_push _ _ [] with "[] Ht"); [done|]. iIntros (st) "Hs".
  set (s0 := MkMec [t] (repeat 0 (length g)) 0 TNull rc) in *.
  destruct (mec_loop fuel g rnd s0) as [s|] eqn:Hloop; [|done]. cbn [bind] in Hok.
  destruct (foldM _ _ _) as [[pr rc2]|] eqn:Hprop; [|done]. cbn [bind] in Hok. injection Hok as <- <- <-.
  assert (HI : MInv g s0 []).
  { constructor; simpl.
    - split; [|split].
      + simpl. rewrite app_nil_r. apply bst_nodup. apply Wt.
      + intros n. simpl. rewrite app_nil_r. auto.
      + intros X B HE. exists (elems t). split; [left; auto|]. intros x Hx. apply It.
        destruct HE as (_ & H2 & H3 & _). destruct (H2 x Hx) as (a & Hb). destruct (H3 x a Hb) as (_ & (d & Hd) & _).
        apply (gpe_lt g Hcl) in Hd. tauto.
    - intros t' [<-|[]]. auto.
    - apply repeat_length.
    - done.
    - intros i b Hi. by destruct i.
    - split; [apply wf_null|]. intros i. split; [intros []|]. intros (b & Hb & _). by destruct i. }
  wpb. iApply (wp_wand _ _ (λ c', grepc p cs g ∗ mrep g pcc s c' ∗ lost g s c' ∗ <affine> ⌜m_stk s = [] ∧ length (m_ret s) = length g⌝)%I with "[Hg Hs Hc]").
  { iApply (wp_mec_loop g rnd p cs pcc Hcl fuel s0 [] s _ HI Hloop). iFrame "Hg". iSplitL.
    - unfold mrep. simpl. iFrame "Hs". iSplitR; [done|]. iSplitL; [|done]. iExists _. iFrame. by rewrite repeat_length.
    - iLeft. iPureIntro. simpl. split_and!; [done..|]. exists t. split; [done|]. intros x Hx.
      apply in_treap_elems; [apply Wt|]. by apply It. }
  iIntros (c) "(Hg & (Hs & Hsi & (%b & Hc & %Hb) & %Heq) & Hlost & %Hs)". destruct Heq as (Er & Ek & Erc). destruct Hs as [Hs Hr].
  iDestruct "Hlost" as "[%Hf|(%j & %a & Ha & Hj & %Hor)]".
  { destruct Hf as (_ & _ & _ & t' & Hst & _). by rewrite Hs in Hst. }
  wpb. iApply (wp_free with "Ha"). wpb. iApply (wp_free_tstack with "Hs"). wpb. iApply (wp_free with "Hc").
  rewrite Er Ek Erc.
  set (R := (λ (q st : list bool * nat), grepc p cs g ∗ trep (cm_single c) (m_single s) ∗ leak (m_single s = TNull) ∗ <affine> ⌜q = st⌝)%I).
  wpb. iApply (wp_wand _ _ (λ q, R q (pr, rc2)) with "[Hg Hsi]").
  { iApply (wp_fold quiet _ _ R (seq 0 (length g)) (seq 0 (length g)) eq_refl _ (repeat false (m_cnt s), m_rc s) (repeat false (m_cnt s), m_rc s) (pr, rc2) Hprop with "[Hg Hsi]").
    Unshelve.
    - unfold R. iFrame. iSplitL; [by iApply leak_0|done].
    - intros i x y q1 q2 q3 Hx Hy Hst. rewrite Hx in Hy. injection Hy as <-. apply lookup_seq in Hx as [-> Hi].
      iIntros "(Hg & Hsi & Hl & ->)". iApply (wp_proper_step g rnd p cs (m_ret s) (m_single s) (cm_single c) q2 q3 _ Hr Hi Hst). iFrame. }
  iIntros (q') "(Hg & Hsi & (%j2 & Hj2 & %Hj2) & ->)". cbn beta iota.
  wpb. iApply (wp_free_treap with "Hsi"). wpr. iApply ("HΦ" $! (j + j2) with "Hg [Hj Hj2]"); [iApply junk_add; iFrame|].
  iPureIntro. rewrite Hs in Hor. simpl in Hor. split.
  - intros H2. destruct Hor as [[_ H]|[H _]]; lia.
  - intros H1 HN2. destruct Hor as [[H _]|(_ & _ & -> & Hn)]; [lia|]. by rewrite Hj2 // Hn.
Qed.
