(** The treaps and stacks in memory behave as those of Treap.v and as lists,
    without undefined behaviour. *)
From Coq Require Import List Arith ZArith.
From stdpp Require Import gmap.
From iris.bi Require Import interface.
From iris.proofmode Require Import proofmode.
From Verif Require Import Base Graph Treap TreapSpec TreapProofs Heap HeapTreap HeapLogic.
From iris.prelude Require Import options.
Local Open Scope nat_scope.

Fixpoint trep (p : addr) (t : treap) : hp :=
  match t with
  | TNull => <affine> ⌜p = 0⌝
  | TNode l k h n r => ∃ pl pr, p ↦ BNode k h n pl pr ∗ trep pl l ∗ trep pr r
  end%I.

Fixpoint nodes (t : treap) : nat := match t with TNull => 0 | TNode l _ _ _ r => S (nodes l + nodes r) end.

Ltac wpb := iApply wp_bind.
Ltac wpr := iApply wp_ret.

Section specs.
  Context (E : exn → hp).
  Implicit Types (p q : addr) (t : treap).

  Lemma trep_hge p t : trep p t ⊢ hge (nodes t).
  Proof.
    revert p. induction t as [|l IHl k h n r IHr]; intros p; simpl; [apply hge_0|].
    iIntros "(%pl & %pr & Hp & Hl & Hr)". change (S (nodes l + nodes r)) with (1 + (nodes l + nodes r)).
    iApply hge_add. iSplitL "Hp"; [by iApply hge_pt|]. iApply hge_add. iSplitL "Hl"; [by iApply IHl|by iApply IHr].
  Qed.

  Lemma trep_junk p t : trep p t ⊢ junk (nodes t).
  Proof.
    revert p. induction t as [|l IHl k h n r IHr]; intros p; simpl.
    - iIntros "->". by iApply junk_0.
    - iIntros "(%pl & %pr & Hp & Hl & Hr)". change (S (nodes l + nodes r)) with (1 + (nodes l + nodes r)).
      iApply junk_add. iSplitL "Hp"; [by iApply junk_pt|]. iApply junk_add. iSplitL "Hl"; [by iApply IHl|by iApply IHr].
  Qed.

  Lemma wp_tnode p k h n l r Φ : p ↦ BNode k h n l r -∗ (p ↦ BNode k h n l r -∗ Φ (k, h, n, l, r)) -∗ wp E (tnode p) Φ.
  Proof. iIntros "Hp HΦ". wpb. iApply (wp_load with "Hp"). iIntros "Hp". wpr. by iApply "HΦ". Qed.

  Lemma node_nonnull p k h n l r : p ↦ BNode k h n l r ⊢ <affine> ⌜(p =? null) = false⌝ ∗ p ↦ BNode k h n l r.
  Proof. iIntros "Hp". iDestruct (pt_nonnull with "Hp") as "[% $]". iPureIntro. by apply Nat.eqb_neq. Qed.

  Lemma wp_size_of p t Φ : trep p t -∗ (trep p t -∗ Φ (tsize t)) -∗ wp E (size_of p) Φ.
  Proof.
    destruct t as [|l k h n r]; iIntros "Ht HΦ"; unfold size_of; simpl.
    - iDestruct "Ht" as %->. wpr. by iApply "HΦ".
    - iDestruct "Ht" as (pl pr) "(Hp & Hl & Hr)". iDestruct (node_nonnull with "Hp") as "[%H Hp]". rewrite H.
      wpb. iApply (wp_tnode with "Hp"). iIntros "Hp". wpr. iApply "HΦ". iExists pl, pr. iFrame.
  Qed.

  Lemma wp_update_size p k h n pl pr l r Φ :
    p ↦ BNode k h n pl pr -∗ trep pl l -∗ trep pr r -∗ (trep p (mk_node l k h r) -∗ Φ tt) -∗ wp E (c_update_size p) Φ.
  Proof.
    iIntros "Hp Hl Hr HΦ". unfold c_update_size. iDestruct (node_nonnull with "Hp") as "[%H Hp]". rewrite H.
    wpb. iApply (wp_tnode with "Hp"). iIntros "Hp". wpb. iApply (wp_size_of with "Hr"). iIntros "Hr".
    wpb. iApply (wp_size_of with "Hl"). iIntros "Hl". iApply (wp_store with "Hp"). iIntros "Hp". iApply "HΦ". iExists pl, pr. iFrame.
  Qed.

  Lemma wp_set_left p k h n l r q Φ : p ↦ BNode k h n l r -∗ (p ↦ BNode k h n q r -∗ Φ tt) -∗ wp E (set_left p q) Φ.
  Proof. iIntros "Hp HΦ". wpb. iApply (wp_tnode with "Hp"). iIntros "Hp". by iApply (wp_store with "Hp"). Qed.
  Lemma wp_set_right p k h n l r q Φ : p ↦ BNode k h n l r -∗ (p ↦ BNode k h n l q -∗ Φ tt) -∗ wp E (set_right p q) Φ.
  Proof. iIntros "Hp HΦ". wpb. iApply (wp_tnode with "Hp"). iIntros "Hp". by iApply (wp_store with "Hp"). Qed.

  Lemma wp_in n t : nodes t < n → ∀ p key Φ, trep p t -∗ (trep p t -∗ Φ (in_treap t key)) -∗ wp E (c_in n p key) Φ.
  Proof.
    revert n. induction t as [|l IHl k h sz r IHr]; intros n Hn p key Φ; iIntros "Ht HΦ"; (destruct n as [|n]; [lia|]); simpl.
    - iDestruct "Ht" as %->. wpr. by iApply "HΦ".
    - simpl in Hn. iDestruct "Ht" as (pl pr) "(Hp & Hl & Hr)". iDestruct (node_nonnull with "Hp") as "[%H Hp]". rewrite H.
      wpb. iApply (wp_tnode with "Hp"). iIntros "Hp". destruct (key =? k).
      + wpr. iApply "HΦ". iExists pl, pr. iFrame.
      + destruct (key <? k).
        * iApply (IHl with "Hl"); [lia|]. iIntros "Hl". iApply "HΦ". iExists pl, pr. iFrame.
        * iApply (IHr with "Hr"); [lia|]. iIntros "Hr". iApply "HΦ". iExists pl, pr. iFrame.
  Qed.

  Lemma wp_in_treap p t key Φ : trep p t -∗ (trep p t -∗ Φ (in_treap t key)) -∗ wp E (c_in_treap p key) Φ.
  Proof.
    apply bi.wand_intro_r. apply (wp_fueled _ (nodes t)); [apply trep_hge|]. intros n Hn.
    iIntros "[Ht HΦ]". by iApply (wp_in with "Ht").
  Qed.

  (** Splitting loses a node exactly if the key is met. *)
  Fixpoint meets (t : treap) (key : nat) : bool :=
    match t with
    | TNull => false
    | TNode l k _ _ r => if key =? k then true else if key <? k then meets l key else meets r key
    end.

  Lemma meets_in t key : meets t key = in_treap t key.
  Proof. induction t as [|l IHl k h n r IHr]; simpl; [done|]. by rewrite IHl IHr. Qed.

  Lemma wp_split n t : nodes t < n → ∀ p key Φ, trep p t -∗
    (∀ pl pr, trep pl (fst (split_treap t key)) -∗ trep pr (snd (split_treap t key)) -∗ junk (if meets t key then 1 else 0) -∗ Φ (pl, pr)) -∗
    wp E (c_split n p key) Φ.
  Proof.
    revert n. induction t as [|l IHl k h sz r IHr]; intros n Hn p key Φ; iIntros "Ht HΦ"; (destruct n as [|n]; [lia|]); simpl.
    - iDestruct "Ht" as %->. wpr. iApply "HΦ"; [done|done|]. by iApply junk_0.
    - simpl in Hn. iDestruct "Ht" as (pl pr) "(Hp & Hl & Hr)". iDestruct (node_nonnull with "Hp") as "[%H Hp]". rewrite H.
      wpb. iApply (wp_tnode with "Hp"). iIntros "Hp". destruct (key =? k).
      + wpr. iApply ("HΦ" with "Hl Hr"). by iApply junk_pt.
      + destruct (key <? k).
        * wpb. iApply (IHl with "Hl"); [lia|]. iIntros (ql qr) "Hql Hqr Hj". wpb. iApply (wp_set_left with "Hp"). iIntros "Hp".
          wpb. iApply (wp_update_size with "Hp Hqr Hr"). iIntros "Hp". wpr. destruct (split_treap l key) as [a b]. iApply ("HΦ" with "Hql Hp Hj").
        * wpb. iApply (IHr with "Hr"); [lia|]. iIntros (ql qr) "Hql Hqr Hj". wpb. iApply (wp_set_right with "Hp"). iIntros "Hp".
          wpb. iApply (wp_update_size with "Hp Hl Hql"). iIntros "Hp". wpr. destruct (split_treap r key) as [a b]. iApply ("HΦ" with "Hp Hqr Hj").
  Qed.

  Lemma wp_insert n t : nodes t < n → ∀ p new nk nh Φ, trep p t -∗ new ↦ BNode nk nh 1 null null -∗
    (∀ q, trep q (insert t nk nh) -∗ junk (if in_treap t nk then 1 else 0) -∗ Φ q) -∗ wp E (c_insert n p new) Φ.
  Proof.
    revert n. induction t as [|l IHl k h sz r IHr]; intros n Hn p new nk nh Φ; iIntros "Ht Hnew HΦ"; (destruct n as [|n]; [lia|]).
    - simpl. iDestruct "Ht" as %->. wpr. iApply ("HΦ" with "[Hnew]"); [|by iApply junk_0]. iExists null, null. iFrame. done.
    - simpl in Hn. cbn [c_insert]. iDestruct "Ht" as (pl pr) "(Hp & Hl & Hr)". iDestruct (node_nonnull with "Hp") as "[%H Hp]". rewrite H.
      wpb. iApply (wp_tnode with "Hp"). iIntros "Hp". wpb. iApply (wp_tnode with "Hnew"). iIntros "Hnew".
      cbn [insert in_treap]. rewrite (Nat.eqb_sym nk k). destruct (Nat.eqb_spec k nk) as [->|Hk].
      + wpr. iApply ("HΦ" with "[Hp Hl Hr]"); [|by iApply junk_pt]. iExists pl, pr. iFrame.
      + destruct (h >? nh)%Z.
        * destruct (nk <? k).
          -- wpb. wpb. iApply (IHl with "Hl Hnew"); [lia|]. iIntros (q) "Hq Hj". iApply (wp_set_left with "Hp"). iIntros "Hp".
             wpb. iApply (wp_update_size with "Hp Hq Hr"). iIntros "Hp". wpr. iApply ("HΦ" with "Hp Hj").
          -- wpb. wpb. iApply (IHr with "Hr Hnew"); [lia|]. iIntros (q) "Hq Hj". iApply (wp_set_right with "Hp"). iIntros "Hp".
             wpb. iApply (wp_update_size with "Hp Hl Hq"). iIntros "Hp". wpr. iApply ("HΦ" with "Hp Hj").
        * wpb. iApply (wp_split (S n) (TNode l k h sz r) with "[Hp Hl Hr]"); [simpl; lia|iExists pl, pr; iFrame|].
          iIntros (ql qr) "Hql Hqr Hj". wpb. iApply (wp_set_left with "Hnew"). iIntros "Hnew". wpb. iApply (wp_set_right with "Hnew"). iIntros "Hnew".
          wpb. iApply (wp_update_size with "Hnew Hql Hqr"). iIntros "Hnew". wpr.
          destruct (split_treap (TNode l k h sz r) nk) as [a b]. iApply ("HΦ" with "Hnew"). rewrite meets_in. cbn [in_treap].
          rewrite (Nat.eqb_sym nk k). by destruct (Nat.eqb_spec k nk).
  Qed.

  Lemma wp_add p t key rnd Φ : trep p t -∗ (∀ q, trep q (add_to_treap t key rnd) -∗ junk (if in_treap t key then 1 else 0) -∗ Φ q) -∗
    wp E (c_add p key rnd) Φ.
  Proof.
    iIntros "Ht HΦ". wpb. iApply wp_malloc. iIntros (new) "Hnew".
    iApply (wp_fueled _ (nodes t) (trep p t) (new ↦ BNode key rnd 1 null null ∗ _)%I with "[$Ht $Hnew HΦ]"); [apply trep_hge| |iExact "HΦ"].
    intros n Hn. iIntros "[Ht [Hnew HΦ]]". by iApply (wp_insert with "Ht Hnew").
  Qed.

  Lemma wp_free_t n t : nodes t < n → ∀ p Φ, trep p t -∗ Φ tt -∗ wp E (c_free n p) Φ.
  Proof.
    revert n. induction t as [|l IHl k h sz r IHr]; intros n Hn p Φ; iIntros "Ht HΦ"; (destruct n as [|n]; [lia|]); simpl.
    - iDestruct "Ht" as %->. by wpr.
    - simpl in Hn. iDestruct "Ht" as (pl pr) "(Hp & Hl & Hr)". iDestruct (node_nonnull with "Hp") as "[%H Hp]". rewrite H.
      wpb. iApply (wp_tnode with "Hp"). iIntros "Hp". wpb. iApply (IHl with "Hl"); [lia|]. wpb. iApply (IHr with "Hr"); [lia|].
      by iApply (wp_free with "Hp").
  Qed.

  Lemma wp_free_treap p t Φ : trep p t -∗ Φ tt -∗ wp E (c_free_treap p) Φ.
  Proof.
    apply bi.wand_intro_r. apply (wp_fueled _ (nodes t)); [apply trep_hge|]. intros n Hn.
    iIntros "[Ht HΦ]". by iApply (wp_free_t with "Ht").
  Qed.

  (** ** Arrays *)
  Lemma wp_set_int p a i x Φ : i < length a → p ↦ BInts a -∗ (p ↦ BInts (upd a i (Some x)) -∗ Φ tt) -∗ wp E (set_int p i x) Φ.
  Proof.
    intros Hi. iIntros "Hp HΦ". wpb. iApply (wp_load with "Hp"). iIntros "Hp". apply Nat.ltb_lt in Hi. rewrite Hi.
    by iApply (wp_store with "Hp").
  Qed.
  Lemma wp_get_int p a i x Φ : nth_error a i = Some (Some x) → p ↦ BInts a -∗ (p ↦ BInts a -∗ Φ x) -∗ wp E (get_int p i) Φ.
  Proof.
    intros Hi. iIntros "Hp HΦ". wpb. iApply (wp_load with "Hp"). iIntros "Hp". unfold elem. rewrite Hi. wpr. by iApply "HΦ".
  Qed.
  Lemma wp_set_ptr p a i x Φ : i < length a → p ↦ BPtrs a -∗ (p ↦ BPtrs (upd a i (Some x)) -∗ Φ tt) -∗ wp E (set_ptr p i x) Φ.
  Proof.
    intros Hi. iIntros "Hp HΦ". wpb. iApply (wp_load with "Hp"). iIntros "Hp". apply Nat.ltb_lt in Hi. rewrite Hi.
    by iApply (wp_store with "Hp").
  Qed.
  Lemma wp_get_ptr p a i x Φ : nth_error a i = Some (Some x) → p ↦ BPtrs a -∗ (p ↦ BPtrs a -∗ Φ x) -∗ wp E (get_ptr p i) Φ.
  Proof.
    intros Hi. iIntros "Hp HΦ". wpb. iApply (wp_load with "Hp"). iIntros "Hp". unfold elem. rewrite Hi. wpr. by iApply "HΦ".
  Qed.
  Lemma wp_set_sap p a i x Φ : i < length a → p ↦ BSaps a -∗ (p ↦ BSaps (upd a i (Some x)) -∗ Φ tt) -∗ wp E (set_sap p i x) Φ.
  Proof.
    intros Hi. iIntros "Hp HΦ". wpb. iApply (wp_load with "Hp"). iIntros "Hp". apply Nat.ltb_lt in Hi. rewrite Hi.
    by iApply (wp_store with "Hp").
  Qed.
  Lemma wp_get_sap p a i x Φ : nth_error a i = Some (Some x) → p ↦ BSaps a -∗ (p ↦ BSaps a -∗ Φ x) -∗ wp E (get_sap p i) Φ.
  Proof.
    intros Hi. iIntros "Hp HΦ". wpb. iApply (wp_load with "Hp"). iIntros "Hp". unfold elem. rewrite Hi. wpr. by iApply "HΦ".
  Qed.
  Lemma wp_set_node p a i x Φ : i < length a → p ↦ BNodes a -∗ (p ↦ BNodes (upd a i (Some x)) -∗ Φ tt) -∗ wp E (set_node p i x) Φ.
  Proof.
    intros Hi. iIntros "Hp HΦ". wpb. iApply (wp_load with "Hp"). iIntros "Hp". apply Nat.ltb_lt in Hi. rewrite Hi.
    by iApply (wp_store with "Hp").
  Qed.
  Lemma wp_get_node p a i x Φ : nth_error a i = Some (Some x) → p ↦ BNodes a -∗ (p ↦ BNodes a -∗ Φ x) -∗ wp E (get_node p i) Φ.
  Proof.
    intros Hi. iIntros "Hp HΦ". wpb. iApply (wp_load with "Hp"). iIntros "Hp". unfold elem. rewrite Hi. wpr. by iApply "HΦ".
  Qed.
  Lemma wp_set_tj p a i x Φ : i < length a → p ↦ BTarjans a -∗ (p ↦ BTarjans (upd a i x) -∗ Φ tt) -∗ wp E (set_tj p i x) Φ.
  Proof.
    intros Hi. iIntros "Hp HΦ". wpb. iApply (wp_load with "Hp"). iIntros "Hp". apply Nat.ltb_lt in Hi. rewrite Hi.
    by iApply (wp_store with "Hp").
  Qed.
  Lemma wp_get_tj p a i x Φ : nth_error a i = Some x → p ↦ BTarjans a -∗ (p ↦ BTarjans a -∗ Φ x) -∗ wp E (get_tj p i) Φ.
  Proof.
    intros Hi. iIntros "Hp HΦ". wpb. iApply (wp_load with "Hp"). iIntros "Hp". rewrite Hi. wpr. by iApply "HΦ".
  Qed.
  Lemma wp_field {A} (o : option A) x Φ : o = Some x → Φ x ⊢ wp E (field o) Φ.
  Proof. intros ->. apply wp_ret. Qed.

  Lemma nodes_elems t : nodes t = length (elems t).
  Proof. induction t as [|l IHl k h n r IHr]; simpl; [done|]. by rewrite app_length IHl IHr. Qed.

  Lemma wp_fill n t : nodes t < n → ∀ p arr pre mid post Φ, length mid = length (elems t) →
    trep p t -∗ arr ↦ BInts (pre ++ mid ++ post) -∗
    (trep p t -∗ arr ↦ BInts (pre ++ map Some (elems t) ++ post) -∗ Φ (length pre + length (elems t))) -∗
    wp E (c_fill n p arr (length pre)) Φ.
  Proof.
    revert n. induction t as [|l IHl k h sz r IHr]; intros n Hn p arr pre mid post Φ Hm; iIntros "Ht Ha HΦ"; (destruct n as [|n]; [lia|]); simpl.
    - iDestruct "Ht" as %->. wpr. destruct mid; [|done]. rewrite Nat.add_0_r. iApply ("HΦ" with "[//] Ha").
    - simpl in Hn, Hm. iDestruct "Ht" as (pl pr) "(Hp & Hl & Hr)". iDestruct (node_nonnull with "Hp") as "[%H Hp]". rewrite H.
      wpb. iApply (wp_tnode with "Hp"). iIntros "Hp". wpb. destruct mid as [|y mid]; [done|]. simpl in Hm. rewrite app_length in Hm.
      iApply (wp_set_int with "Ha"). { rewrite !app_length /=. lia. }
      iIntros "Ha". simpl. rewrite upd_app.
      set (L := map Some (elems l)). set (R := map Some (elems r)).
      assert (HL : length L = length (elems l)) by (subst L; by rewrite map_length).
      assert (E1 : pre ++ Some k :: mid ++ post = (pre ++ [Some k]) ++ take (length (elems l)) mid ++ drop (length (elems l)) mid ++ post).
      { rewrite (assoc_L app (take _ _)) take_drop. by rewrite -assoc_L. }
      assert (E2 : (pre ++ [Some k]) ++ L ++ drop (length (elems l)) mid ++ post = ((pre ++ [Some k]) ++ L) ++ drop (length (elems l)) mid ++ post).
      { by rewrite !assoc_L. }
      assert (E3 : ((pre ++ [Some k]) ++ L) ++ R ++ post = pre ++ (Some k :: map Some (elems l ++ elems r)) ++ post).
      { rewrite map_app. subst L R. simpl. by rewrite -!assoc_L. }
      assert (Hd : length (drop (length (elems l)) mid) = length (elems r)) by (rewrite drop_length; lia).
      assert (Htk : length (take (length (elems l)) mid) = length (elems l)) by (rewrite take_length; lia).
      assert (E4 : S (length pre) = length (pre ++ [Some k])) by (rewrite app_length /=; lia).
      assert (E5 : length (pre ++ [Some k]) + length (elems l) = length ((pre ++ [Some k]) ++ L)) by (rewrite !app_length HL /=; lia).
      assert (E6 : length ((pre ++ [Some k]) ++ L) + length (elems r) = length pre + S (length (elems l ++ elems r))) by (rewrite !app_length HL /=; lia).
      rewrite E1 E4. wpb. iApply (IHl with "Hl Ha"); [lia|done|].
      iIntros "Hl Ha". fold L. rewrite E2 E5.
      iApply (IHr with "Hr Ha"); [lia|done|].
      iIntros "Hr Ha". fold R. rewrite E3 E6.
      iApply ("HΦ" with "[Hp Hl Hr] Ha"). iExists pl, pr. iFrame.
  Qed.

  Lemma wp_treap_to_arr p t arr a Φ : length a = length (elems t) →
    trep p t -∗ arr ↦ BInts a -∗ (trep p t -∗ arr ↦ BInts (map Some (elems t)) -∗ Φ tt) -∗ wp E (c_treap_to_arr p arr) Φ.
  Proof.
    intros Ha. iIntros "Ht Ha HΦ". wpb.
    iApply (wp_fueled _ (nodes t) (trep p t) (arr ↦ BInts a ∗ (trep p t -∗ arr ↦ BInts (map Some (elems t)) -∗ Φ tt))%I with "[$Ht $Ha $HΦ]"); [apply trep_hge|].
    intros n Hn. iIntros "(Ht & Ha & HΦ)".
    iApply (wp_fill n t Hn p arr [] a [] with "Ht [Ha]"); [done|by rewrite app_nil_r|].
    iIntros "Ht Ha". rewrite app_nil_r. wpr. iApply ("HΦ" with "Ht Ha").
  Qed.

  (** ** Stacks *)
  Fixpoint stk (p : addr) (l : list nat) : hp :=
    match l with
    | [] => <affine> ⌜p = 0⌝
    | x :: r => ∃ q, p ↦ BStack x q ∗ stk q r
    end%I.

  Lemma stk_hge p l : stk p l ⊢ hge (length l).
  Proof.
    revert p. induction l as [|x l IH]; intros p; simpl; [apply hge_0|].
    iIntros "(%q & Hp & Hl)". change (S (length l)) with (1 + length l). iApply hge_add. iSplitL "Hp"; [by iApply hge_pt|by iApply IH].
  Qed.

  Lemma wp_push p l x Φ : stk p l -∗ (∀ q, stk q (x :: l) -∗ Φ q) -∗ wp E (c_push p x) Φ.
  Proof. iIntros "Hl HΦ". iApply wp_malloc. iIntros (q) "Hq". iApply "HΦ". iExists p. iFrame. Qed.

  Lemma wp_pop p x l Φ : stk p (x :: l) -∗ (∀ q, stk q l -∗ Φ (q, x)) -∗ wp E (c_pop p) Φ.
  Proof.
    iIntros "(%q & Hp & Hl) HΦ". wpb. iApply (wp_load with "Hp"). iIntros "Hp". wpb. iApply (wp_free with "Hp"). wpr. by iApply "HΦ".
  Qed.

  Lemma stk_nonnull p x l : stk p (x :: l) ⊢ <affine> ⌜(p =? null) = false⌝ ∗ stk p (x :: l).
  Proof. iIntros "(%q & Hp & Hl)". iDestruct (pt_nonnull with "Hp") as "[%H Hp]". iSplitR; [iPureIntro; by apply Nat.eqb_neq|]. iExists q. iFrame. Qed.

  Lemma wp_freestack n l : length l < n → ∀ p Φ, stk p l -∗ Φ tt -∗ wp E (c_freestack n p) Φ.
  Proof.
    revert n. induction l as [|x l IH]; intros n Hn p Φ; iIntros "Hl HΦ"; (destruct n as [|n]; [simpl in Hn; lia|]); simpl.
    - iDestruct "Hl" as %->. by wpr.
    - iDestruct "Hl" as (q) "(Hp & Hl)". iDestruct (pt_nonnull with "Hp") as "[%H Hp]". apply Nat.eqb_neq in H. rewrite H.
      wpb. iApply (wp_load with "Hp"). iIntros "Hp". wpb. iApply (wp_free with "Hp"). iApply (IH with "Hl"); [simpl in Hn; lia|done].
  Qed.

  Lemma wp_free_stack p l Φ : stk p l -∗ Φ tt -∗ wp E (c_free_stack p) Φ.
  Proof.
    apply bi.wand_intro_r. apply (wp_fueled _ (length l)); [apply stk_hge|]. intros n Hn.
    iIntros "[Ht HΦ]". by iApply (wp_freestack with "Ht").
  Qed.

  Fixpoint tstk (p : addr) (l : list treap) : hp :=
    match l with
    | [] => <affine> ⌜p = 0⌝
    | t :: r => ∃ q pt, p ↦ BTStack pt q ∗ trep pt t ∗ tstk q r
    end%I.

  Lemma tstk_hge p l : tstk p l ⊢ hge (length l).
  Proof.
    revert p. induction l as [|x l IH]; intros p; simpl; [apply hge_0|].
    iIntros "(%q & %pt & Hp & Hx & Hl)". change (S (length l)) with (1 + length l). iApply hge_add. iSplitL "Hp"; [by iApply hge_pt|].
    iDestruct (IH with "Hl") as "Hl". change (length l) with (0 + length l). iApply hge_add. iFrame "Hl". by iApply (hge_0 with "Hx").
  Qed.

  Lemma wp_ts_push p l pt t Φ : tstk p l -∗ trep pt t -∗ (∀ q, tstk q (t :: l) -∗ Φ q) -∗ wp E (c_ts_push p pt) Φ.
  Proof. iIntros "Hl Ht HΦ". iApply wp_malloc. iIntros (q) "Hq". iApply "HΦ". iExists p, pt. iFrame. Qed.

  Lemma wp_ts_pop p t l Φ : tstk p (t :: l) -∗ (∀ q pt, tstk q l -∗ trep pt t -∗ Φ (q, pt)) -∗ wp E (c_ts_pop p) Φ.
  Proof.
    iIntros "(%q & %pt & Hp & Ht & Hl) HΦ". wpb. iApply (wp_load with "Hp"). iIntros "Hp". wpb. iApply (wp_free with "Hp"). wpr.
    iApply ("HΦ" with "Hl Ht").
  Qed.

  Lemma tstk_nonnull p x l : tstk p (x :: l) ⊢ <affine> ⌜(p =? null) = false⌝ ∗ tstk p (x :: l).
  Proof.
    iIntros "(%q & %pt & Hp & Hl)". iDestruct (pt_nonnull with "Hp") as "[%H Hp]". iSplitR; [iPureIntro; by apply Nat.eqb_neq|].
    iExists q, pt. iFrame.
  Qed.

  Lemma wp_freetstack n l : length l < n → ∀ p Φ, tstk p l -∗ Φ tt -∗ wp E (c_freetstack n p) Φ.
  Proof.
    revert n. induction l as [|x l IH]; intros n Hn p Φ; iIntros "Hl HΦ"; (destruct n as [|n]; [simpl in Hn; lia|]); simpl.
    - iDestruct "Hl" as %->. by wpr.
    - iDestruct "Hl" as (q pt) "(Hp & Ht & Hl)". iDestruct (pt_nonnull with "Hp") as "[%H Hp]". apply Nat.eqb_neq in H. rewrite H.
      wpb. iApply (wp_load with "Hp"). iIntros "Hp". wpb. iApply (wp_free_treap with "Ht"). wpb. iApply (wp_free with "Hp").
      iApply (IH with "Hl"); [simpl in Hn; lia|done].
  Qed.

  Lemma wp_free_tstack p l Φ : tstk p l -∗ Φ tt -∗ wp E (c_free_tstack p) Φ.
  Proof.
    apply bi.wand_intro_r. apply (wp_fueled _ (length l)); [apply tstk_hge|]. intros n Hn.
    iIntros "[Ht HΦ]". by iApply (wp_freetstack with "Ht").
  Qed.
End specs.
