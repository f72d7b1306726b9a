(** The graph in memory: construction, neighbour queries, reachability and
    deallocation behave as in Graph.v. *)
From Coq Require Import List Arith ZArith QArith.
From stdpp Require Import gmap.
From iris.bi Require Import interface.
From iris.proofmode Require Import proofmode.
From Verif Require Import Base Num Matrix Graph Treap Heap HeapTreap HeapGraph HeapLogic HeapTreapProofs.
From iris.prelude Require Import options.
Local Open Scope nat_scope.

(** ** Lists *)
Lemma nth_lookup {A} (l : list A) i : nth_error l i = l !! i.
Proof. revert i. induction l as [|x l IH]; intros [|i]; simpl; done. Qed.

Lemma upd_insert {A} (l : list A) i x : upd l i x = <[i:=x]> l.
Proof. revert i. induction l as [|y l IH]; intros [|i]; simpl; try done. by rewrite IH. Qed.

Lemma map_insert {A B} (f : A → B) l i x : upd (map f l) i (f x) = map f (<[i:=x]> l).
Proof. rewrite upd_insert. symmetry. apply (list_fmap_insert f). Qed.

Lemma map_lookup {A B} (f : A → B) l i x : l !! i = Some x → nth_error (map f l) i = Some (f x).
Proof. intros H. rewrite nth_lookup. change (map f l) with (f <$> l). by rewrite list_lookup_fmap H. Qed.

Lemma repeat_replicate {A} (x : A) n : repeat x n = replicate n x.
Proof. induction n; simpl; congruence. Qed.

Lemma upd_app_at {A} (pre : list A) y post i x : length pre = i → upd (pre ++ y :: post) i x = pre ++ x :: post.
Proof. intros <-. apply TreapProofs.upd_app. Qed.

(** ** Loops *)
Section loops.
  Context (E : exn → hp).

  Lemma wp_fold {A B S FS} (f : S → A → M S) (g : FS → B → res FS) (R : S → FS → hp) la lb :
    length la = length lb →
    (∀ i a b s fs fs', la !! i = Some a → lb !! i = Some b → g fs b = Ok fs' → R s fs ⊢ wp E (f s a) (λ s', R s' fs')) →
    ∀ s fs fs', foldM g lb fs = Ok fs' → R s fs ⊢ wp E (foldH f la s) (λ s', R s' fs').
  Proof.
    revert lb. induction la as [|a la IH]; intros [|b lb] Hl Hs s fs fs' Hf; try done; simpl in *.
    - injection Hf as ->. apply (wp_ret E s (λ s', R s' fs')).
    - destruct (g fs b) as [fs1|] eqn:Hg; [|done]. simpl in Hf. iIntros "HR". wpb.
      rewrite (Hs 0 a b s fs fs1); [|done..].
      iApply (wp_wand2 with "HR"). iSplit; [|by iIntros]. iIntros (s1) "HR".
      iApply (IH lb with "HR"); [by injection Hl| |done]. intros i a' b' s' fs'' fs''' H1 H2 H3. by apply (Hs (Datatypes.S i) a' b').
  Qed.

  Lemma wp_loop n (f : nat → M unit) (I : nat → hp) :
    (∀ i, i < n → I i ⊢ wp E (f i) (λ _, I (S i))) → I 0 ⊢ wp E (loop n f) (λ _, I n).
  Proof.
    intros Hs. unfold loop.
    assert (H : ∀ k a, a + k = n → I a ⊢ wp E (foldH (λ _ i, f i) (seq a k) tt) (λ _, I n)).
    { induction k as [|k IH]; intros a Ha; simpl.
      - replace a with n by lia. apply (wp_ret E tt (λ _, I n)).
      - iIntros "HI". wpb. rewrite (Hs a); [|lia]. iApply (wp_wand2 with "HI"). iSplit; [|by iIntros]. iIntros ([]) "HI".
        iApply (IH with "HI"). lia. }
    by apply H.
  Qed.
End loops.

(** ** Representation *)
Definition srep (p : addr) (l : list sap) : hp :=
  match l with [] => <affine> ⌜p = 0⌝ | _ => p ↦ BSaps (map Some l) end%I.
Definition cnrep (c : cnode) (nd : gnode) : hp :=
  (srep (c_preds c) (preds nd) ∗ srep (c_succs c) (succs nd) ∗
   <affine> ⌜c_pn c = length (preds nd) ∧ c_sn c = length (succs nd)⌝)%I.
Definition grepc (p : addr) (cs : list cnode) (g : graph) : hp :=
  (p ↦ BNodes (map Some cs) ∗ [∗ list] c;nd ∈ cs;g, cnrep c nd)%I.

Section graph.
  Context (E : exn → hp).

  Lemma wp_get_sap_rep p l j x Φ : l !! j = Some x → srep p l -∗ (srep p l -∗ Φ x) -∗ wp E (get_sap p j) Φ.
  Proof. intros Hj. destruct l as [|y l]; [done|]. simpl. apply wp_get_sap. by apply (map_lookup Some (y :: l)). Qed.

  Lemma wp_free_srep p l Φ : srep p l -∗ Φ tt -∗ wp E (free p) Φ.
  Proof.
    destruct l as [|y l]; simpl.
    - iIntros "-> HΦ". by iApply wp_free_null.
    - iIntros "Hp HΦ". by iApply (wp_free with "Hp").
  Qed.

End graph.

Section graph2.
  Context (E : exn → hp).

  Lemma wp_copy q l new Φ : srep q l -∗ new ↦ BSaps (repeat None (S (length l))) -∗
    (srep q l -∗ new ↦ BSaps (map Some l ++ [None]) -∗ Φ tt) -∗
    wp E (loop (length l) (λ i, let! x := get_sap q i in set_sap new i x)) Φ.
  Proof.
    iIntros "Hq Hn HΦ".
    set (I i := (srep q l ∗ new ↦ BSaps (map Some (take i l) ++ repeat None (S (length l) - i)))%I).
    assert (Hw : I 0 ⊢ wp quiet (loop (length l) (λ i, let! x := get_sap q i in set_sap new i x)) (λ _, I (length l))).
    { apply wp_loop. intros i Hi. iIntros "[Hq Hn]". wpb.
      destruct (l !! i) as [x|] eqn:Hx; [|apply lookup_ge_None in Hx; lia].
      iApply (wp_get_sap_rep with "Hq"); [done|]. iIntros "Hq".
      iApply (wp_set_sap with "Hn"). { rewrite app_length map_length take_length repeat_length. lia. }
      iIntros "Hn". iFrame "Hq". rewrite (take_S_r _ _ x) //. rewrite map_app. simpl.
      replace (S (length l) - i) with (S (S (length l) - S i)) by lia. simpl repeat.
      assert (Hlen : length (map Some (take i l)) = i) by (rewrite map_length take_length; lia).
      rewrite (upd_app_at _ _ _ _ _ Hlen). by rewrite -assoc_L. }
    iApply (wp_wand with "[Hq Hn]").
    - iApply Hw. iFrame.
    - iIntros ([]) "[Hq Hn]". iApply ("HΦ" with "Hq"). rewrite firstn_all. replace (S (length l) - length l) with 1 by lia. done.
  Qed.

  (** Reading a node. *)
  Lemma wp_get_node_rep p cs g v c Φ : cs !! v = Some c → grepc p cs g -∗ (grepc p cs g -∗ Φ c) -∗ wp E (get_node p v) Φ.
  Proof.
    intros Hv. iIntros "[Hp Hc] HΦ". iApply (wp_get_node with "Hp"). { by apply map_lookup. }
    iIntros "Hp". iApply "HΦ". iFrame.
  Qed.

  Lemma grepc_length p cs g : grepc p cs g ⊢ <affine> ⌜length cs = length g⌝ ∗ grepc p cs g.
  Proof.
    iIntros "[Hp Hc]". iDestruct (big_sepL2_length with "Hc") as %H. iSplitR; [done|]. iFrame.
  Qed.

  Lemma grepc_counts p cs g v c nd : cs !! v = Some c → g !! v = Some nd →
    grepc p cs g ⊢ <affine> ⌜c_pn c = length (preds nd) ∧ c_sn c = length (succs nd)⌝ ∗ grepc p cs g.
  Proof.
    intros H1 H2. iIntros "[Hp Hc]". iDestruct (big_sepL2_lookup_acc with "Hc") as "[(Ha & Hb & %H) Hc]"; [done..|].
    iSplitR; [done|]. iFrame "Hp". iApply "Hc". iFrame. done.
  Qed.

  (** Reading a neighbour. *)
  Lemma wp_get_nb p cs g v c nd (fwd : bool) j x Φ : cs !! v = Some c → g !! v = Some nd →
    (if fwd then succs nd else preds nd) !! j = Some x →
    grepc p cs g -∗ (grepc p cs g -∗ Φ x) -∗ wp E (get_sap (if fwd then c_succs c else c_preds c) j) Φ.
  Proof.
    intros H1 H2 Hx. iIntros "[Hp Hc] HΦ". iDestruct (big_sepL2_lookup_acc with "Hc") as "[(Ha & Hb & %H) Hc]"; [done..|].
    destruct fwd.
    - iApply (wp_get_sap_rep with "Hb"); [done|]. iIntros "Hb". iApply "HΦ". iFrame "Hp". iApply "Hc". iFrame. done.
    - iApply (wp_get_sap_rep with "Ha"); [done|]. iIntros "Ha". iApply "HΦ". iFrame "Hp". iApply "Hc". iFrame. done.
  Qed.

  (** graph.pyx 46-64 *)
  Lemma wp_add_successor p cs g s a pr d g' Φ : add_successor g s a pr d = Ok g' →
    grepc p cs g -∗ (∀ cs', grepc p cs' g' -∗ Φ tt) -∗ wp E (c_add_successor p s a pr d) Φ.
  Proof.
    unfold add_successor. intros Hok. destruct (nth_error g s) as [nf|] eqn:Hs; [|done]. rewrite nth_lookup in Hs.
    cbv zeta in Hok. match type of Hok with context [ nth_error ?g1 d ] => set (G1 := g1) in * end.
    destruct (nth_error G1 d) as [nt|] eqn:Hd; [|done]. injection Hok as <-. rewrite nth_lookup in Hd.
    subst G1. rewrite !upd_insert. rewrite upd_insert in Hd.
    iIntros "Hg HΦ". iDestruct (grepc_length with "Hg") as "[%Hlen Hg]".
    destruct (cs !! s) as [c|] eqn:Hc; [|apply lookup_ge_None in Hc; apply lookup_lt_Some in Hs; lia].
    iDestruct "Hg" as "[Hp Hc]".
    iDestruct (big_sepL2_insert_acc with "Hc") as "[(Ha & Hb & [%Hn1 %Hn2]) Hc]"; [done..|].
    wpb. iApply (wp_get_node with "Hp"); [by apply map_lookup|]. iIntros "Hp". rewrite Hn2.
    wpb. iApply (wp_set_node with "Hp"). { rewrite map_length. by eapply lookup_lt_Some. }
    iIntros "Hp". rewrite map_insert. wpb. iApply wp_malloc. iIntros (new) "Hn".
    replace (S (length (succs nf)) - 1) with (length (succs nf)) by lia.
    wpb. iApply (wp_copy with "Hb Hn"). iIntros "Hb Hn".
    wpb. iApply (wp_set_sap with "Hn"). { rewrite app_length map_length /=. lia. }
    iIntros "Hn". assert (E1 : upd (map Some (succs nf) ++ [None]) (length (succs nf)) (Some (d, a, f32 pr)) = map Some (succs nf ++ [(d, a, f32 pr)])).
    { rewrite -(map_length Some (succs nf)). rewrite TreapProofs.upd_app. by rewrite map_app. }
    rewrite E1. wpb. iApply (wp_free_srep with "Hb").
    wpb. iApply (wp_set_node with "Hp"). { rewrite map_length insert_length. by eapply lookup_lt_Some. }
    iIntros "Hp". rewrite map_insert list_insert_insert.
    set (c1 := MkC (c_preds c) new (c_pn c) (S (length (succs nf)))).
    iSpecialize ("Hc" $! c1 (MkNode (preds nf) (succs nf ++ [(d, a, f32 pr)])) with "[Ha Hn]").
    { iFrame "Ha". iSplitL "Hn"; [|iPureIntro; simpl; rewrite app_length /=; split; [done|lia]].
      simpl. unfold srep. destruct (succs nf); done. }
    assert (Hlen' : length (<[s:=c1]> cs) = length (<[s:={| preds := preds nf; succs := succs nf ++ [(d, a, f32 pr)] |}]> g)).
    { by rewrite !insert_length. }
    set (cs1 := <[s:=c1]> cs) in *. set (g1 := <[s:={| preds := preds nf; succs := succs nf ++ [(d, a, f32 pr)] |}]> g) in *.
    destruct (cs1 !! d) as [ct|] eqn:Hct; [|apply lookup_ge_None in Hct; apply lookup_lt_Some in Hd; rewrite Hlen' in Hct; by apply Nat.le_ngt in Hct].
    iDestruct (big_sepL2_insert_acc with "Hc") as "[(Ha & Hb & [%Hm1 %Hm2]) Hc]"; [done..|].
    wpb. iApply (wp_get_node with "Hp"); [by apply map_lookup|]. iIntros "Hp". rewrite Hm1.
    wpb. iApply (wp_set_node with "Hp"). { rewrite map_length. by eapply lookup_lt_Some. }
    iIntros "Hp". rewrite map_insert. wpb. iApply wp_malloc. iIntros (new2) "Hn".
    replace (S (length (preds nt)) - 1) with (length (preds nt)) by lia.
    wpb. iApply (wp_copy with "Ha Hn"). iIntros "Ha Hn".
    wpb. iApply (wp_set_sap with "Hn"). { rewrite app_length map_length /=. lia. }
    iIntros "Hn". assert (E2 : upd (map Some (preds nt) ++ [None]) (length (preds nt)) (Some (s, a, f32 pr)) = map Some (preds nt ++ [(s, a, f32 pr)])).
    { rewrite -(map_length Some (preds nt)). rewrite TreapProofs.upd_app. by rewrite map_app. }
    rewrite E2. wpb. iApply (wp_free_srep with "Ha").
    iApply (wp_set_node with "Hp"). { rewrite map_length insert_length. by eapply lookup_lt_Some. }
    iIntros "Hp". rewrite map_insert list_insert_insert. iApply "HΦ". iFrame "Hp". iApply "Hc". iFrame "Hb".
    iSplitL "Hn"; [|iPureIntro; simpl; rewrite app_length /=; split; [lia|done]].
    simpl. unfold srep. destruct (preds nt); done.
  Qed.
End graph2.

Section graph3.
  Context (E : exn → hp).

  (** graph.pyx 362-369 *)
  Lemma wp_dealloc p cs g Φ : grepc p cs g -∗ Φ tt -∗ wp E (c_dealloc (MkCG p (length g))) Φ.
  Proof.
    iIntros "Hg HΦ". iDestruct (grepc_length with "Hg") as "[%Hlen [Hp Hc]]". wpb. simpl.
    set (I i := (p ↦ BNodes (map Some cs) ∗ [∗ list] c;nd ∈ drop i cs;drop i g, cnrep c nd)%I).
    iApply (wp_wand _ _ (λ _, I (length g)) with "[Hp Hc]").
    - iApply (wp_loop quiet (length g) _ I with "[Hp Hc]"); [|iFrame].
      intros i Hi. iIntros "[Hp Hc]".
      destruct (cs !! i) as [c|] eqn:Hci; [|apply lookup_ge_None in Hci; lia].
      destruct (g !! i) as [nd|] eqn:Hgi; [|apply lookup_ge_None in Hgi; lia].
      rewrite (drop_S cs c i Hci) (drop_S g nd i Hgi). iDestruct "Hc" as "[(Ha & Hb & _) Hc]".
      wpb. iApply (wp_get_node with "Hp"); [by apply map_lookup|]. iIntros "Hp".
      wpb. iApply (wp_free_srep with "Ha"). iApply (wp_free_srep with "Hb"). iFrame.
    - iIntros ([]) "[Hp Hc]". rewrite drop_ge; [|lia]. rewrite drop_ge; [|done]. simpl. iApply (wp_free with "Hp"). done.
  Qed.
End graph3.

Definition gstep (inv : nat → option (nat * nat)) (g : graph) (e : nat * nat * Q) : res graph :=
  let '((i, d), p) := e in let* (s, a) := of_opt KeyError (inv i) in add_successor g s a p d.

Lemma mk_graph_gstep P inv : mk_graph P inv = foldM (gstep inv) (mitems P) (repeat node0 (mcols P)).
Proof. done. Qed.

Lemma add_successor_length g s a p d g' : add_successor g s a p d = Ok g' → length g' = length g.
Proof.
  unfold add_successor. destruct (nth_error g s); [|done]. cbv zeta. destruct (nth_error _ d); [|done].
  intros [= <-]. by rewrite !upd_len.
Qed.

Lemma add_successor_err g s a p d e : add_successor g s a p d = Err e → e = OutOfBounds.
Proof.
  unfold add_successor. destruct (nth_error g s); [|by intros [= <-]]. cbv zeta. destruct (nth_error _ d); [done|]. by intros [= <-].
Qed.

(** graph.pyx 39-41 *)
Lemma wp_items p inv items : ∀ cs g, foldM (gstep inv) items g ≠ Err OutOfBounds →
  grepc p cs g ⊢ wp (λ e, <affine> ⌜foldM (gstep inv) items g = Err e⌝)%I
    (foldH (fun _ e => let '((i, d), q) := e in
              match inv i with
              | None => let! _ := c_dealloc (MkCG p (length g)) in raise KeyError
              | Some (s, a) => c_add_successor p s a q d
              end) items tt)
    (λ _, ∃ g' cs', <affine> ⌜foldM (gstep inv) items g = Ok g' ∧ length g' = length g⌝ ∗ grepc p cs' g')%I.
Proof.
  induction items as [|[[i d] q] items IH]; intros cs g Hok; simpl; iIntros "Hg".
  - wpr. iExists g, cs. iFrame. done.
  - simpl in Hok. destruct (inv i) as [[s a]|] eqn:Hi; simpl in *.
    + destruct (add_successor g s a q d) as [g1|e] eqn:Ha; simpl in *.
      * wpb. iApply (wp_add_successor with "Hg"); [done|]. iIntros (cs1) "Hg".
        rewrite -(add_successor_length _ _ _ _ _ _ Ha). by iApply IH.
      * apply add_successor_err in Ha as ->. done.
    + wpb. wpb. iApply (wp_dealloc with "Hg"). by iApply wp_raise.
Qed.

(** graph.pyx 33-41 *)
Lemma wp_graph P inv : mk_graph P inv ≠ Err OutOfBounds →
  ⊢ wp (λ e, <affine> ⌜mk_graph P inv = Err e⌝)%I (c_graph P inv)
     (λ cg, ∃ g p cs, <affine> ⌜mk_graph P inv = Ok g ∧ length g = mcols P ∧ cg = MkCG p (mcols P)⌝ ∗ grepc p cs g)%I.
Proof.
  intros Hok. unfold c_graph. iStartProof. wpb. iApply wp_malloc. iIntros (p) "Hp". wpb.
  set (c0 := MkC null null 0 0). set (N := mcols P).
  set (I i := (p ↦ BNodes (map Some (repeat c0 i) ++ repeat None (N - i)))%I).
  iApply (wp_wand _ _ (λ _, I N) with "[Hp]").
  - iApply (wp_loop quiet N _ I with "[Hp]"); [|by rewrite /I /= Nat.sub_0_r].
    intros i Hi. iIntros "Hp". iApply (wp_set_node with "Hp"). { rewrite app_length map_length. rewrite !repeat_length. lia. }
    iIntros "Hp". unfold I. assert (HN : N - i = S (N - S i)) by lia. rewrite HN.
    assert (Hr : length (map Some (repeat c0 i)) = i) by (by rewrite map_length repeat_length).
    change (repeat None (S (N - S i))) with (@None cnode :: repeat None (N - S i)).
    rewrite (upd_app_at (map Some (repeat c0 i)) None (repeat None (N - S i)) i (Some c0) Hr).
    assert (HE : map Some (repeat c0 i) ++ Some c0 :: repeat None (N - S i) = map Some (repeat c0 (S i)) ++ repeat None (N - S i)).
    { replace (S i) with (i + 1) at 2 by lia. rewrite repeat_app map_app -assoc_L. done. }
    by rewrite HE.
  - iIntros ([]) "Hp". unfold I. rewrite Nat.sub_diag /= app_nil_r. wpb.
    rewrite mk_graph_gstep in Hok.
    iAssert (grepc p (repeat c0 N) (repeat node0 N)) with "[Hp]" as "Hg".
    { iFrame "Hp". iClear "". clear. induction N as [|N IH]; simpl; [done|]. iSplitL; [|done]. by rewrite /cnrep /=. }
    iPoseProof (wp_items p inv (mitems P) _ _ Hok with "Hg") as "Hw". rewrite repeat_length.
    iApply (wp_wand2 with "Hw"). iSplit.
    + iIntros ([]) "(%g' & %cs' & [%H1 %H2] & Hg)". wpr. iExists g', p, cs'. iFrame "Hg". iPureIntro. done.
    + iIntros (e) "$".
Qed.

Section graph4.
  Context (E : exn → hp).

  (** graph.pyx 66-76 *)
  Lemma wp_neighbours (fwd : bool) p cs g n act l Φ :
    (if fwd then successors g n act else predecessors g n act) = Ok l →
    grepc p cs g -∗ (grepc p cs g -∗ Φ l) -∗ wp E (c_neighbours fwd (MkCG p (length g)) n act) Φ.
  Proof.
    intros Hl. unfold successors, predecessors in Hl.
    destruct (nth_error g n) as [nd|] eqn:Hn; [|by destruct fwd]. rewrite nth_lookup in Hn.
    assert (Hl' : l = filter_action act (if fwd then succs nd else preds nd)) by (destruct fwd; by injection Hl). subst l. clear Hl.
    iIntros "Hg HΦ". unfold c_neighbours. simpl.
    iDestruct (grepc_length with "Hg") as "[%Hlen Hg]".
    destruct (cs !! n) as [c|] eqn:Hc; [|apply lookup_ge_None in Hc; apply lookup_lt_Some in Hn; rewrite Hlen in Hc; lia].
    wpb. iApply (wp_get_node_rep with "Hg"); [done|]. iIntros "Hg".
    iDestruct (grepc_counts with "Hg") as "[[%H1 %H2] Hg]"; [done..|].
    set (L := if fwd then succs nd else preds nd).
    replace (if fwd then c_sn c else c_pn c) with (length L) by (subst L; by destruct fwd).
    iApply (wp_wand _ _ (λ r, <affine> ⌜r = filter_action act L⌝ ∗ grepc p cs g)%I with "[Hg]"); [|iIntros (r) "[-> Hg]"; by iApply "HΦ"].
    iApply (wp_fold quiet _ (λ r x, Ok (r ++ filter_action act [x])) (λ r fr, <affine> ⌜r = fr⌝ ∗ grepc p cs g)%I (seq 0 (length L)) L with "[Hg]").
    - by rewrite seq_length.
    - intros i a b s fs fs' Ha Hb [= <-]. iIntros "[-> Hg]". wpb. apply lookup_seq in Ha as [-> _].
      iApply (wp_get_nb with "Hg"); [done|done|done|]. iIntros "Hg". wpr. iFrame. iPureIntro.
      unfold filter_action. simpl. destruct act; simpl; [|done]. destruct (_ =? _); [done|by rewrite app_nil_r].
    - assert (HF : ∀ L r, foldM (λ r x, Ok (r ++ filter_action act [x])) L r = Ok (r ++ filter_action act L)).
      { clear. induction L as [|x L IH]; intros r; simpl; [by rewrite app_nil_r|]. rewrite IH. rewrite -assoc_L.
        unfold filter_action. simpl. destruct (match act with None => _ | Some a => _ end); done. }
      exact (HF L []).
    - iFrame. done.
  Qed.
End graph4.
