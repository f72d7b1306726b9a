(** Whole runs of the programs of HeapClient.v. *)
From Coq Require Import List Arith ZArith QArith.
From stdpp Require Import gmap.
From iris.bi Require Import interface big_op.
From iris.proofmode Require Import proofmode.
From Verif Require Import Base Num Matrix Graph GraphSpec GraphProofs Treap TreapSpec TreapProofs Scc SccSpec SccProofs Mec MecProofs
  Heap HeapTreap HeapGraph HeapClient HeapSpec HeapLogic HeapTreapProofs HeapGraphProofs HeapReachProofs HeapSccProofs HeapMecProofs.
From iris.prelude Require Import options.
Local Open Scope nat_scope.

(** ** Treaps *)
Lemma wp_read_arr E arr (ks : list nat) Φ :
  arr ↦ BInts (map Some ks) -∗ (arr ↦ BInts (map Some ks) -∗ Φ ks) -∗
  wp E (foldH (λ l i, let! x := get_int arr i in ret (l ++ [x])) (seq 0 (length ks)) []) Φ.
Proof.
  iIntros "Ha HΦ".
  assert (G : ∀ k pre l, length pre + k = length ks → ks = pre ++ drop (length pre) ks → l = pre →
    arr ↦ BInts (map Some ks) -∗ (arr ↦ BInts (map Some ks) -∗ Φ ks) -∗
    wp E (foldH (λ l i, let! x := get_int arr i in ret (l ++ [x])) (seq (length pre) k) l) Φ).
  { induction k as [|k IH]; intros pre l Hl Hks ->; simpl; iIntros "Ha HΦ".
    - wpr. rewrite drop_ge in Hks; [|lia]. rewrite app_nil_r in Hks. rewrite -Hks. by iApply "HΦ".
    - assert (exists x, ks !! length pre = Some x) as [x Hx] by (apply lookup_lt_is_Some; lia).
      wpb. wpb. iApply (wp_get_int with "Ha"). { rewrite nth_lookup list_lookup_fmap Hx. done. } iIntros "Ha". wpr.
      specialize (IH (pre ++ [x]) (pre ++ [x])). rewrite app_length Nat.add_1_r in IH.
      iApply (IH with "Ha HΦ"); [lia| |done].
      rewrite -app_assoc. simpl. rewrite -(drop_S _ _ _ Hx). done. }
  iApply (G (length ks) [] [] with "Ha HΦ"); done.
Qed.

Lemma wp_tcalls calls : ∀ t keys p l Φ, wf_treap t → (∀ x, In x (elems t) ↔ In x keys) →
  trep p t -∗ (∀ q t' ans, trep q t' -∗ junk (again keys calls) -∗ <affine> ⌜tspec keys calls ans⌝ -∗ Φ (q, l ++ ans)) -∗
  wp quiet (foldH (fun st c => let '(p, l) := st in let! (p, a) := c_tcall p c in ret (p, l ++ [a])) calls (p, l)) Φ.
Proof.
  induction calls as [|c calls IH]; intros t keys p l Φ Wt Ht; simpl; iIntros "Hp HΦ".
  - wpr. iSpecialize ("HΦ" $! p t []). rewrite app_nil_r. iApply ("HΦ" with "Hp"); [by iApply junk_0|done].
  - assert (Hin : ∀ x, in_treap t x = true ↔ In x keys). { intros x. rewrite -Ht. apply in_treap_elems. apply Wt. }
    wpb. wpb. destruct c as [k h|k|]; simpl.
    + wpb. iApply (wp_add with "Hp"). iIntros (q) "Hq Hj". wpr. wpr.
      iApply (IH (add_to_treap t k h) (k :: keys) with "Hq"); [by apply wf_add| |].
      { intros x. rewrite elems_add // Ht /=. naive_solver. }
      iIntros (q' t' ans) "Hq Hj2 %Hs". rewrite -app_assoc. simpl. iApply ("HΦ" $! q' t' (ADone :: ans) with "Hq [Hj Hj2]"); [|done].
      assert (He : (if in_treap t k then 1 else 0) = (if in_dec Nat.eq_dec k keys then 1 else 0)).
      { destruct (in_dec Nat.eq_dec k keys) as [H|H]; [by apply Hin in H as ->|]. destruct (in_treap t k) eqn:Hk; [|done]. by apply Hin in Hk. }
      rewrite He. iApply junk_add. iFrame.
    + wpb. iApply (wp_in_treap with "Hp"). iIntros "Hp". wpr. wpr. iApply (IH t keys with "Hp"); [done..|].
      iIntros (q' t' ans) "Hq Hj2 %Hs". rewrite -app_assoc. simpl. iApply ("HΦ" $! q' t' (ABool (in_treap t k) :: ans) with "Hq Hj2").
      iPureIntro. split; [apply Hin|done].
    + iDestruct (trep_null with "Hp") as "[%Hn Hp]". rewrite Hn. destruct (decide (elems t = [])) as [He|He].
      * assert (t = TNull) as -> by (by destruct t). wpr. wpr. iApply (IH TNull keys with "Hp"); [done..|].
        iIntros (q' t' ans) "Hq Hj2 %Hs". rewrite -app_assoc. simpl. iApply ("HΦ" $! q' t' (AKeys [] :: ans) with "Hq Hj2").
        iPureIntro. split; [|done]. split; [apply List.NoDup_nil|done].
      * assert (Hnn : t ≠ TNull) by (by intros ->). assert (match t with TNull => true | TNode _ _ _ _ _ => false end = false) as -> by (by destruct t).
        pose proof Wt as (W1 & W2 & W3).
        iApply (wp_tsize with "Hp"); [done|]. iIntros "Hp". rewrite (tsize_sized _ W2). wpb. iApply wp_malloc. iIntros (arr) "Ha".
        wpb. iApply (wp_treap_to_arr with "Hp Ha"); [by rewrite repeat_length|]. iIntros "Hp Ha".
        wpb. iApply (wp_read_arr with "Ha"). iIntros "Ha". wpb. iApply (wp_free with "Ha"). wpr. wpr.
        iApply (IH t keys with "Hp"); [done..|].
        iIntros (q' t' ans) "Hq Hj2 %Hs". rewrite -app_assoc. simpl. iApply ("HΦ" $! q' t' (AKeys (elems t) :: ans) with "Hq Hj2").
        iPureIntro. split; [|done]. split; [by apply bst_nodup|done].
Qed.

Lemma run_treap : forall calls m, mem_ok m -> exists ans m',
  c_tsession calls m = Done ans m' /\ tspec [] calls ans /\ mem_ok m' /\ keeps m m' /\ live m' = live m + again [] calls.
Proof.
  intros calls m Hm.
  assert (H : ⊢ wp quiet (c_tsession calls) (λ ans, junk (again [] calls) ∗ <affine> ⌜tspec [] calls ans⌝)%I).
  { unfold c_tsession. iStartProof. wpb. iApply (wp_tcalls calls TNull []); [apply wf_null|done|done|].
    iIntros (q t ans) "Hq Hj %Hs". wpb. iApply (wp_free_treap with "Hq"). wpr. iFrame. done. }
  destruct (wp_run _ _ _ H m Hm) as [(ans & m' & σ & Hc & Hm' & Hk & Hl & HΦ & _)|(e & m' & σ & _ & _ & _ & _ & HF)]; [|by apply hp_pure_iff in HF].
  apply hp_sep_iff in HΦ as (σ1 & σ2 & -> & _ & Hj & Hs). apply hp_affinely_iff in Hs as [-> Hs]. apply junk_iff in Hj.
  rewrite right_id_L in Hl. exists ans, m'. rewrite -Hj. done.
Qed.

(** ** Stacks *)
Lemma run_stack : forall calls out m, mem_ok m -> sspec [] calls = Some out -> exists m',
  c_ssession calls m = Done out m' /\ mem_ok m' /\ keeps m m' /\ live m' = live m.
Proof.
  intros calls out m Hm Hs.
  assert (G : ∀ calls l s acc out, sspec l calls = Some out → stk s l ⊢
    wp quiet (foldH (fun st c => let '(s, l) := st in
                          match c with
                          | SPush x => let! s := c_push s x in ret (s, l)
                          | SPop => let! (s, x) := c_pop s in ret (s, l ++ [x])
                          end) calls (s, acc)) (λ st, ∃ l', stk (fst st) l' ∗ <affine> ⌜snd st = acc ++ out⌝)%I).
  { clear. induction calls as [|c calls IH]; intros l s acc out Hs; simpl in *.
    - injection Hs as <-. iIntros "Hs". wpr. iExists l. iFrame. by rewrite app_nil_r.
    - iIntros "Hs". wpb. destruct c as [x|].
      + wpb. iApply (wp_push with "Hs"). iIntros (q) "Hs". wpr. iApply (IH _ _ _ _ Hs with "Hs").
      + destruct l as [|x l]; [done|]. destruct (sspec l calls) as [o|] eqn:Ho; [|done]. injection Hs as <-.
        wpb. iApply (wp_pop with "Hs"). iIntros (q) "Hs". wpr.
        iApply (wp_wand with "[Hs]"); [by iApply (IH _ q (acc ++ [x]) _ Ho)|]. iIntros (st) "(%l' & Hs & %He)". iExists l'. iFrame.
        iPureIntro. by rewrite He -app_assoc. }
  assert (H : ⊢ wp quiet (c_ssession calls) (λ o, <affine> ⌜o = out⌝)%I).
  { unfold c_ssession. iStartProof. wpb. iApply (wp_wand); [by iApply (G _ [] null [] _ Hs)|]. iIntros ([s l]) "(%l' & Hs & %He)". simpl in *.
    wpb. iApply (wp_free_stack with "Hs"). wpr. done. }
  destruct (wp_run _ _ _ H m Hm) as [(ans & m' & σ & Hc & Hm' & Hk & Hl & HΦ & _)|(e & m' & σ & _ & _ & _ & _ & HF)]; [|by apply hp_pure_iff in HF].
  apply hp_affinely_iff in HΦ as [-> ->]. rewrite map_size_empty Nat.add_0_r in Hl. exists m'. done.
Qed.

Lemma pop_empty : forall m, mem_ok m -> c_pop null m = Fault BadAccess /\ c_ts_pop null m = Fault BadAccess.
Proof. intros m Hm. unfold c_pop, c_ts_pop, mbind, load, null. rewrite Hm. done. Qed.

(** ** Graphs *)
Lemma mk_graph_kinds P inv : indices_ok P inv → mk_graph P inv ≠ Err OutOfBounds.
Proof.
  intros H. rewrite mk_graph_gstep.
  assert (G : ∀ l g, (∀ e, In e l → In e (mitems P)) → length g = mcols P → foldM (gstep inv) l g ≠ Err OutOfBounds).
  { induction l as [|[[i d] p] l IH]; intros g Hl Hg; simpl; [done|].
    destruct (H i d p) as [Hd Hs]; [apply Hl; by left|].
    destruct (inv i) as [[s a]|] eqn:Hi; simpl; [|done]. specialize (Hs s a eq_refl).
    destruct (add_successor g s a p d) as [g'|e] eqn:Ha; simpl.
    - apply IH; [intros; apply Hl; by right|]. rewrite (add_successor_length _ _ _ _ _ _ Ha). done.
    - exfalso. unfold add_successor in Ha. destruct (nth_error g s) eqn:H1; [|apply nth_error_None in H1; lia]. cbv zeta in Ha.
      destruct (nth_error _ d) eqn:H2; [done|]. apply nth_error_None in H2. rewrite upd_len in H2. lia. }
  apply G; [done|apply repeat_length].
Qed.

Lemma mk_graph_keyerror P inv e : indices_ok P inv → mk_graph P inv = Err e → e = KeyError.
Proof.
  intros H He. pose proof (mk_graph_kinds P inv H) as Hn. revert He. rewrite mk_graph_gstep. rewrite mk_graph_gstep in Hn.
  revert Hn. generalize (repeat node0 (mcols P)). clear. induction (mitems P) as [|[[i d] p] l IH]; intros g Hn He; simpl in *; [done|].
  destruct (inv i) as [[s a]|]; simpl in *; [|congruence]. destruct (add_successor g s a p d) as [g'|e'] eqn:Ha; simpl in *.
  - by apply (IH g').
  - apply add_successor_err in Ha as ->. done.
Qed.

Section calls.
  Context (P : mat) (inv : nat → option (nat * nat)) (g : graph) (p : addr) (cs : list cnode).
  Hypothesis Hg : mk_graph P inv = Ok g.
  Hypothesis HL : length g = mcols P.

  Lemma wp_gcall c Φ : gvalid P c →
    grepc p cs g -∗
    (∀ a j, grepc p cs g -∗ junk j -∗ <affine> ⌜gspec P inv c a ∧ gloss a ≤ j ∧ (no_loss a → j = 0)⌝ -∗ Φ a) -∗
    wp quiet (c_gcall (MkCG p (mcols P)) c) Φ.
  Proof using Hg HL.
    intros Hv. iIntros "Hg HΦ". pose proof (mk_graph_closed P inv g Hg) as Hcl. rewrite -HL. destruct c as [fwd n act|fs d bl|rnd]; simpl in Hv |- *.
    - pose proof (C05_lemma P inv g Hg n Hv act) as [H1 H2]. cbv zeta in H1, H2.
      destruct fwd; wpb; [iApply (wp_neighbours _ true _ _ _ _ _ _ _ H1 with "Hg")|iApply (wp_neighbours _ false _ _ _ _ _ _ _ H2 with "Hg")];
        iIntros "Hg"; wpr; (iApply ("HΦ" $! _ 0 with "Hg"); [by iApply junk_0|]); iPureIntro; (split; [done|split; [simpl; lia|done]]).
    - destruct Hv as (H1 & H2 & H3 & H4).
      destruct (C06_lemma P inv g fs d bl Hg H1 H2 H3 H4) as (mask & Hm & Hlen & Hspec).
      wpb. unfold c_reachable. simpl. iApply (wp_reachable with "Hg"); [done|exact Hm|]. iIntros "Hg". wpr.
      iApply ("HΦ" $! _ 0 with "Hg"); [by iApply junk_0|]. iPureIntro. split; [|split; [simpl; lia|done]]. simpl. rewrite map_length. split; [done|].
      intros n Hn. specialize (Hspec n). assert (Hb : nth n (map bit mask) 0 = bit (nth n mask false)) by (change 0 with (bit false); apply map_nth).
      rewrite Hb. destruct (nth n mask false); [left|right]; split; [done|by apply Hspec|done|]. intros Hr. by apply Hspec in Hr.
    - destruct (mec_spec P inv g Hg Hv rnd (2 * length g + 1)) as (comp & proper & k & A1 & A2 & A3 & A4 & A5 & A6 & A7); [lia|].
      wpb. unfold c_mec. simpl. iApply (wp_mec g rnd p cs _ comp proper k with "Hg"); [done|by rewrite HL|simpl; lia|exact A1|].
      iIntros (j) "Hg Hj %Hj". destruct Hj as [Hj1 Hj2]. wpr. iApply ("HΦ" with "Hg Hj"). iPureIntro. split; [|split].
      + simpl. split_and!; try done. intros Hact n Hn. apply (C09_lemma P inv g Hg Hv rnd Hact comp proper k); [|done].
        unfold maximal_end_components. exact A1.
      + unfold gloss. destruct (2 <=? k) eqn:H2; [|lia]. apply Nat.leb_le in H2. by apply Hj1.
      + simpl. intros [-> H2]. apply Hj2; [done|]. rewrite HL -A2. done.
  Qed.

  Lemma wp_gcalls calls : ∀ l Φ, Forall (gvalid P) calls →
    grepc p cs g -∗
    (∀ ans j, grepc p cs g -∗ junk j -∗ <affine> ⌜Forall2 (gspec P inv) calls ans ∧ glosses ans ≤ j ∧ (Forall no_loss ans → j = 0)⌝ -∗ Φ (l ++ ans)) -∗
    wp quiet (foldH (fun l c => let! a := c_gcall (MkCG p (mcols P)) c in ret (l ++ [a])) calls l) Φ.
  Proof using Hg HL.
    induction calls as [|c calls IH]; intros l Φ Hv; simpl; iIntros "Hg HΦ".
    - wpr. iSpecialize ("HΦ" $! [] 0). rewrite app_nil_r. iApply ("HΦ" with "Hg"); [by iApply junk_0|]. iPureIntro. done.
    - apply Forall_cons in Hv as [Hc Hv]. wpb. wpb. iApply (wp_gcall with "Hg"); [done|]. iIntros (a j) "Hg Hj %Ha". destruct Ha as (Ha1 & Ha2 & Ha3).
      wpr. iApply (IH with "Hg"); [done|]. iIntros (ans j2) "Hg Hj2 %Hb". destruct Hb as (Hb1 & Hb2 & Hb3). rewrite -app_assoc. simpl.
      iApply ("HΦ" $! (a :: ans) (j + j2) with "Hg [Hj Hj2]"); [iApply junk_add; iFrame|]. iPureIntro. split; [by constructor|]. split.
      + simpl. lia.
      + intros HF. apply Forall_cons in HF as [HF1 HF2]. rewrite Ha3 // Hb3 //.
  Qed.
End calls.

Lemma run_graph : forall P inv calls m, mem_ok m -> indices_ok P inv -> (forall c, In c calls -> gvalid P c) ->
  ((exists i d p, In ((i, d), p) (mitems P) /\ inv i = None) /\
   exists m', c_gsession P inv calls m = Raised KeyError m' /\ mem_ok m' /\ keeps m m' /\ live m' = live m) \/
  ((forall i d p, In ((i, d), p) (mitems P) -> inv i <> None) /\
   exists ans m' j, c_gsession P inv calls m = Done ans m' /\ Forall2 (gspec P inv) calls ans /\ mem_ok m' /\ keeps m m' /\
     live m' = live m + j /\ glosses ans <= j /\ (Forall no_loss ans -> j = 0)).
Proof.
  intros P inv calls m Hm Hidx Hv. pose proof (mk_graph_kinds P inv Hidx) as Hk.
  assert (H : ⊢ wp (λ e, <affine> ⌜mk_graph P inv = Err e⌝)%I (c_gsession P inv calls)
     (λ ans, ∃ j, junk j ∗ <affine> ⌜(exists g, mk_graph P inv = Ok g) ∧ Forall2 (gspec P inv) calls ans ∧ glosses ans ≤ j ∧ (Forall no_loss ans → j = 0)⌝)%I).
  { unfold c_gsession. iStartProof. wpb. iPoseProof (wp_graph P inv Hk) as "Hw". iApply (wp_wand2 with "Hw"). iSplit; [|by iIntros].
    iIntros (cg) "(%g & %p & %cs & %H & Hg)". destruct H as (Hg & HL & ->).
    wpb. iApply (wp_wand _ _ (λ ans, grepc p cs g ∗ ∃ j, junk j ∗ <affine> ⌜Forall2 (gspec P inv) calls ans ∧ glosses ans ≤ j ∧ (Forall no_loss ans → j = 0)⌝)%I with "[Hg]").
    - iApply (wp_gcalls P inv g p cs Hg HL calls [] with "Hg"); [by apply List.Forall_forall|].
      iIntros (ans j) "Hg Hj %Ha". iFrame "Hg". iExists j. iFrame. done.
    - iIntros (ans) "(Hg & %j & Hj & %Ha)". wpb. rewrite -HL. iApply (wp_dealloc with "Hg"). wpr. iExists j. iFrame "Hj". iPureIntro. split; [by eexists|done]. }
  destruct (wp_run _ _ _ H m Hm) as [(ans & m' & σ & Hc & Hm' & Hkp & Hl & HΦ & _)|(e & m' & σ & Hc & Hm' & Hkp & Hl & HE)].
  - right. apply hp_exist_iff in HΦ as (j & HΦ). apply hp_sep_iff in HΦ as (σ1 & σ2 & -> & _ & Hj & Hs). apply hp_affinely_iff in Hs as [-> (Hg & Hs1 & Hs2 & Hs3)].
    apply junk_iff in Hj. rewrite right_id_L Hj in Hl. split.
    + intros i d q Hin. apply C05_builds_lemma with (i := i) (d := d) (p := q) in Hg as [_ (s & a & -> & _)]; done.
    + exists ans, m', j. done.
  - left. apply hp_affinely_iff in HE as [-> HE]. rewrite map_size_empty Nat.add_0_r in Hl.
    pose proof (mk_graph_keyerror _ _ _ Hidx HE) as ->. split; [|by exists m'].
    destruct (List.existsb (λ e, match inv (fst (fst e)) with None => true | _ => false end) (mitems P)) eqn:Hex.
    + apply existsb_exists in Hex as ([[i d] q] & Hin & Hi). exists i, d, q. split; [done|]. simpl in Hi. by destruct (inv i).
    + exfalso. destruct (proj2 (C05_builds_lemma P inv)) as [g Hg]; [|congruence]. intros i d q Hin.
      destruct (Hidx i d q Hin) as [Hd Hs]. split; [done|]. destruct (inv i) as [[s a]|] eqn:Hi; [by exists s, a; split; [|apply (Hs s a)]|].
      exfalso. assert (Ht : existsb (λ e, match inv (fst (fst e)) with None => true | _ => false end) (mitems P) = true).
      { apply existsb_exists. exists (i, d, q). split; [done|]. simpl. by rewrite Hi. }
      congruence.
Qed.

(** ** Undefined behaviour *)
Definition wpf_def {A} (F : fault) (c : M A) : hp := Hp (λ σ, ∀ m σf, σ ##ₘ σf → agree m (σ ∪ σf) → mem_ok m → c m = Fault F).
Definition wpf_aux : seal (@wpf_def). Proof. by eexists. Qed.
Definition wpf {A} := unseal wpf_aux A.
Definition wpf_eq : @wpf = @wpf_def := seal_eq wpf_aux.

Lemma wpf_bind {A B} F (c : M A) (k : A → M B) : wp quiet c (λ a, wpf F (k a)) ⊢ wpf F (mbind c k).
Proof.
  apply hp_entails_iff. intros σ H. rewrite wpf_eq. intros m σf Hd Ha Hm. apply wp_iff in H.
  destruct (H m σf Hd Ha Hm) as [(a & m' & σ' & Hc & Hm' & Hd' & Ha' & H')|(e & m' & σ' & _ & _ & _ & _ & HF)]; [|by apply hp_pure_iff in HF].
  unfold mbind. rewrite Hc. rewrite wpf_eq in H'. by apply (H' m' σf).
Qed.
Lemma wpf_here {A B} F (c : M A) (k : A → M B) : wpf F c ⊢ wpf F (mbind c k).
Proof.
  apply hp_entails_iff. intros σ H. rewrite wpf_eq in H |- *. intros m σf Hd Ha Hm. unfold mbind. by rewrite (H m σf).
Qed.
Lemma wpf_run {A} F (c : M A) : (⊢ wpf F c) → ∀ m, mem_ok m → c m = Fault F.
Proof.
  intros H m Hm. destruct (agree_exists m) as [σf Hf].
  assert (Hw : wpf F c ∅). { rewrite /bi_emp_valid hp_entails_iff in H. apply H. by apply hp_emp_iff. }
  rewrite wpf_eq in Hw. apply (Hw m σf); [apply map_disjoint_empty_l|by rewrite left_id_L|done].
Qed.
Lemma agree_pt p b σ m σf : (p ↦ b)%I σ → agree m (σ ∪ σf) → nth_error m p = Some (Some b).
Proof. intros H Ha. apply pt_iff in H as [-> _]. apply Ha. apply lookup_union_Some_l, lookup_singleton. Qed.

Lemma wpf_frame {A} F (c : M A) Q : wpf F c -∗ Q -∗ wpf F c.
Proof.
  apply bi.wand_intro_r. apply hp_entails_iff. intros σ H. apply hp_sep_iff in H as (σ1 & σ2 & -> & Hd12 & H1 & _).
  rewrite wpf_eq in H1 |- *. intros m σf Hd Ha Hm. apply (H1 m (σ2 ∪ σf)); [solve_map_disjoint|by rewrite assoc_L|done].
Qed.

Lemma wpf_set_int p a i x Q : length a ≤ i → p ↦ BInts a -∗ Q -∗ wpf Bounds (set_int p i x).
Proof.
  intros Hi. apply bi.wand_intro_r. apply hp_entails_iff. intros σ H. apply hp_sep_iff in H as (σ1 & σ2 & -> & Hd12 & H1 & _).
  rewrite wpf_eq. intros m σf Hd Ha Hm. rewrite -assoc_L in Ha. pose proof (agree_pt _ _ _ _ _ H1 Ha) as Hp.
  unfold set_int, mbind, load. rewrite Hp. destruct (Nat.ltb_spec i (length a)); [lia|done].
Qed.
Lemma wpf_get_node p a i Q : length a ≤ i → p ↦ BNodes a -∗ Q -∗ wpf Bounds (get_node p i).
Proof.
  intros Hi. apply bi.wand_intro_r. apply hp_entails_iff. intros σ H. apply hp_sep_iff in H as (σ1 & σ2 & -> & Hd12 & H1 & _).
  rewrite wpf_eq. intros m σf Hd Ha Hm. rewrite -assoc_L in Ha. pose proof (agree_pt _ _ _ _ _ H1 Ha) as Hp.
  unfold get_node, mbind, load. rewrite Hp. unfold elem. assert (nth_error a i = None) as -> by (by apply nth_error_None). done.
Qed.
Lemma wpf_null Q : Q ⊢ wpf BadAccess (tnode null).
Proof.
  apply hp_entails_iff. intros σ H. rewrite wpf_eq. intros m σf Hd Ha Hm. unfold tnode, mbind, load, null. by rewrite Hm.
Qed.

Lemma foldH_app {A S} (f : S → A → M S) l1 l2 s m : foldH f (l1 ++ l2) s m = mbind (foldH f l1 s) (foldH f l2) m.
Proof.
  revert s m. induction l1 as [|x l1 IH]; intros s m; simpl; [done|]. unfold mbind at 1. unfold mbind at 1. unfold mbind at 1.
  destruct (f s x m) as [s1 m1| | |]; try done. rewrite IH. done.
Qed.
Lemma wpf_ext {A} F (c c' : M A) : (∀ m, c m = c' m) → wpf F c ⊢ wpf F c'.
Proof. intros H. apply hp_entails_iff. intros σ Hs. rewrite wpf_eq in Hs |- *. intros m σf Hd Ha Hm. rewrite -H. by apply (Hs m σf). Qed.

Lemma split_wild N (l : list nat) : (∃ s, In s l ∧ N ≤ s) → ∃ pre s post, l = pre ++ s :: post ∧ Forall (λ x, x < N) pre ∧ N ≤ s.
Proof.
  induction l as [|x l IH]; intros (s & Hs & HN); [done|]. destruct (decide (N ≤ x)) as [Hx|Hx].
  - exists [], x, l. done.
  - destruct IH as (pre & s' & post & -> & Hp & Hs'). { exists s. split; [|done]. destruct Hs as [->|Hs]; [lia|done]. }
    exists (x :: pre), s', post. split; [done|]. split; [|done]. constructor; [lia|done].
Qed.

Definition warr (p : addr) (N : nat) : hp := (∃ a, p ↦ BInts a ∗ <affine> ⌜length a = N⌝)%I.
Lemma wp_warr E p N i x Φ : i < N → warr p N -∗ (warr p N -∗ Φ tt) -∗ wp E (set_int p i x) Φ.
Proof.
  intros Hi. iIntros "(%a & Hp & %Ha) HΦ". iApply (wp_set_int with "Hp"); [by rewrite Ha|]. iIntros "Hp". iApply "HΦ". iExists _. iFrame. by rewrite upd_len.
Qed.

Lemma wp_push_starts E pi N pre : ∀ s Φ, Forall (λ x, x < N) pre → warr pi N -∗ (∃ l, stk s l) -∗
  (∀ q, warr pi N -∗ (∃ l, stk q l) -∗ Φ q) -∗ wp E (foldH (fun stk i => let! _ := set_int pi i 1 in c_push stk i) pre s) Φ.
Proof.
  induction pre as [|x pre IH]; intros s Φ HF; simpl; iIntros "Hp Hs HΦ".
  - wpr. iApply ("HΦ" with "Hp Hs").
  - apply Forall_cons in HF as [Hx HF]. iDestruct "Hs" as (l) "Hs". wpb. wpb. iApply (wp_warr with "Hp"); [done|]. iIntros "Hp".
    iApply (wp_push with "Hs"). iIntros (q) "Hs". iApply (IH with "Hp [Hs] HΦ"); [done|]. by iExists _.
Qed.
Lemma wp_set_ones E pb N pre : ∀ u Φ, Forall (λ x, x < N) pre → warr pb N -∗ (warr pb N -∗ Φ tt) -∗ wp E (foldH (fun _ i => set_int pb i 1) pre u) Φ.
Proof.
  induction pre as [|x pre IH]; intros [] Φ HF; simpl; iIntros "Hp HΦ".
  - wpr. iApply ("HΦ" with "Hp").
  - apply Forall_cons in HF as [Hx HF]. wpb. iApply (wp_warr with "Hp"); [done|]. iIntros "Hp". iApply (IH with "Hp HΦ"); done.
Qed.

Lemma wpf_gcall P p cs g c : length g = mcols P → gwild P c →
  grepc p cs g ⊢ wpf (match c with GMec _ => BadAccess | _ => Bounds end) (c_gcall (MkCG p (mcols P)) c).
Proof.
  intros HL Hw. destruct c as [fwd n act|fs d bl|rnd]; simpl in Hw |- *; iIntros "Hg"; iApply wpf_here.
  - iDestruct (grepc_length with "Hg") as "[%Hlen [Hp Hg]]". iApply wpf_here. simpl. iApply (wpf_get_node with "Hp Hg"). rewrite map_length Hlen HL. done.
  - destruct Hw as (H1 & H2 & s & Hs & HN). unfold c_reachable, c_reachable_fuel. simpl. set (N := mcols P) in *.
    iApply wpf_bind. assert (0 <? length fs = true) as -> by (destruct fs; done). wpr.
    iApply wpf_bind. assert ((match d with OtherDirection => raise AssertionError | _ => ret tt end) = ret tt) as -> by by destruct d. wpr.
    iApply wpf_bind. iApply wp_malloc. iIntros (pm) "Hm". iApply wpf_bind. iApply wp_malloc. iIntros (pi) "Hi". iApply wpf_bind. iApply wp_malloc. iIntros (pb) "Hb".
    iApply wpf_bind.
    iApply (wp_wand _ _ (λ _, warr pm N ∗ warr pi N ∗ warr pb N)%I with "[Hm Hi Hb]").
    { iApply (wp_loop quiet N _ (λ _, warr pm N ∗ warr pi N ∗ warr pb N)%I with "[Hm Hi Hb]").
      - intros i Hi. iIntros "(Hm & Hi & Hb)". wpb. iApply (wp_warr with "Hm"); [done|]. iIntros "Hm". wpb. iApply (wp_warr with "Hi"); [done|]. iIntros "Hi".
        iApply (wp_warr with "Hb"); [done|]. iIntros "Hb". iFrame.
      - iSplitL "Hm"; [|iSplitL "Hi"]; iExists _; iFrame; by rewrite repeat_length. }
    iIntros (_) "(Hm & Hi & Hb)".
    destruct (decide (Exists (λ x, N ≤ x) fs)) as [Hex|Hex].
    + apply Exists_exists in Hex as (x & Hx & HxN). destruct (split_wild N fs) as (pre & y & post & -> & Hpre & Hy). { exists x. split; [by apply elem_of_list_In|done]. }
      iApply wpf_here. iApply (wpf_ext _ (mbind (foldH (fun stk i => let! _ := set_int pi i 1 in c_push stk i) pre null) (foldH (fun stk i => let! _ := set_int pi i 1 in c_push stk i) (y :: post)))).
      { intros m. symmetry. apply foldH_app. }
      iApply wpf_bind. iApply (wp_push_starts with "Hi []"); [done|by iExists []|]. iIntros (q) "(%a & Hi & %Ha) Hs". cbn [foldH].
      iApply wpf_here. iApply wpf_here. iApply (wpf_set_int with "Hi [Hs Hm Hb Hg]"); [by rewrite Ha|]. iCombine "Hs Hm Hb Hg" as "H". iExact "H".
    + assert (Hfs : Forall (λ x, x < N) fs). { apply Forall_forall. intros x Hx. destruct (decide (N ≤ x)); [|lia]. exfalso. apply Hex, Exists_exists. by exists x. }
      iApply wpf_bind. iApply (wp_push_starts with "Hi []"); [done|by iExists []|]. iIntros (q) "Hi Hs".
      destruct (split_wild N bl) as (pre & y & post & -> & Hpre & Hy).
      { exists s. split; [|done]. destruct Hs as [Hs|Hs]; [|done]. apply elem_of_list_In in Hs. rewrite Forall_forall in Hfs. specialize (Hfs s Hs). lia. }
      iApply wpf_here. iApply (wpf_ext _ (mbind (foldH (fun _ i => set_int pb i 1) pre tt) (foldH (fun _ i => set_int pb i 1) (y :: post)))).
      { intros m. symmetry. apply foldH_app. }
      iApply wpf_bind. iApply (wp_set_ones with "Hb"); [done|]. iIntros "(%a & Hb & %Ha)". cbn [foldH].
      iApply wpf_here. iApply (wpf_set_int with "Hb [Hs Hm Hi Hg]"); [by rewrite Ha|]. iCombine "Hs Hm Hi Hg" as "H". iExact "H".
  - unfold c_mec, c_mec_fuel. rewrite Hw. simpl. iApply wpf_bind. iApply wp_malloc. iIntros (pcc) "Hc". iApply wpf_bind. wpr.
    iApply wpf_bind. iApply (wp_ts_push _ _ [] null TNull); [done|done|]. iIntros (st) "Hs". iApply wpf_here.
    iDestruct (tstk_nonnull with "Hs") as "[%Hn Hs]". rewrite Hn. iApply wpf_here. unfold c_mec_step. iApply wpf_bind. iApply (wp_ts_pop with "Hs"). iIntros (q pt) "Hq ->".
    iApply wpf_here. iCombine "Hq Hg Hc" as "H". iApply (wpf_null with "H").
Qed.

Lemma run_wild : forall P inv good bad rest m, mem_ok m ->
  (forall i d p, In ((i, d), p) (mitems P) -> d < mcols P /\ exists s a, inv i = Some (s, a) /\ s < mcols P) ->
  (forall c, In c good -> gvalid P c) -> gwild P bad ->
  c_gsession P inv (good ++ bad :: rest) m = Fault (match bad with GMec _ => BadAccess | _ => Bounds end).
Proof.
  intros P inv good bad rest m Hm Hbuild Hv Hw. apply C05_builds_lemma in Hbuild as [g Hg].
  apply wpf_run; [|done]. unfold c_gsession. iStartProof. iApply wpf_bind.
  assert (Hk : mk_graph P inv ≠ Err OutOfBounds) by (by rewrite Hg).
  iPoseProof (wp_graph P inv Hk) as "Hwp". iApply (wp_wand2 with "Hwp"). iSplit; [|iIntros (e) "%He"; congruence].
  iIntros (cg) "(%g' & %p & %cs & %H & Hg)". destruct H as (Hg' & HL & ->).
  iApply wpf_here. unfold c_gcalls.
  iApply (wpf_ext _ (mbind (foldH (fun l c => let! a := c_gcall (MkCG p (mcols P)) c in ret (l ++ [a])) good []) (foldH (fun l c => let! a := c_gcall (MkCG p (mcols P)) c in ret (l ++ [a])) (bad :: rest)))).
  { intros m'. symmetry. apply foldH_app. }
  iApply wpf_bind. iApply (wp_gcalls P inv g' p cs Hg' HL with "Hg"); [by apply List.Forall_forall|].
  iIntros (ans j) "Hg Hj _". cbn [foldH]. iApply wpf_here. iApply wpf_here.
  iApply (wpf_frame with "[Hg] Hj"). iApply (wpf_gcall P p cs g' bad HL Hw with "Hg").
Qed.
