(** Proofs about drawings: forms. *)
From Coq Require Import String List Arith NArith ZArith QArith Bool Ascii Lia.
From Verif Require Import Base BaseFacts Num Matrix MatFacts InvDict Graph GraphProofs Amdp Files FilesProofs SpecSystem SpecBuilt SpecPrism PrismProofs SpecReduce
  ReachForm ReachFormProofs BuiltFacts Reduce ReduceProofs2 ReduceProofs3 ReduceProofs4 ReduceProofs5 Draw SpecDraw DrawProofs.
Import ListNotations.
Local Open Scope string_scope.
Local Open Scope nat_scope.

Lemma shows_mdp_ext : forall m name n p e t n' p' e' t' dg,
  (forall s a, touched m s -> (n s a <-> n' s a)) -> (forall s x a, enabled m s x -> (p s x a <-> p' s x a)) ->
  (forall s x a, enabled m s x -> (e s x a <-> e' s x a)) -> (forall s x d q a, transition m s x d q -> (t s x d q a <-> t' s x d q a)) ->
  shows_mdp m name n p e t dg -> shows_mdp m name n' p' e' t' dg.
Proof.
  intros m name n p e t n' p' e' t' dg H1 H2 H3 H4 [A B C D E F G H]. constructor; auto.
  - intros t0 a. rewrite A. split; (intros [(s & T & E1 & K)|(s & x & T & E1 & K)]; [left; exists s|right; exists s, x]; (split; [exact T|]; split; [exact E1|]; [apply (H1 s a T) || apply (H2 s x a T)]; exact K)).
  - intros t0 h a. rewrite E. split.
    + intros [(s & x & T & E1 & E2 & K)|(s & x & d & q & T & E1 & E2 & K)]; [left; exists s, x|right; exists s, x, d, q]; (split; [exact T|]; split; [exact E1|]; split; [exact E2|]).
      * apply (H3 s x a T). exact K.
      * apply (H4 s x d q a T). exact K.
    + intros [(s & x & T & E1 & E2 & K)|(s & x & d & q & T & E1 & E2 & K)]; [left; exists s, x|right; exists s, x, d, q]; (split; [exact T|]; split; [exact E1|]; split; [exact E2|]).
      * apply (H3 s x a T). exact K.
      * apply (H4 s x d q a T). exact K.
Qed.

Lemma shows_dtmc_ext : forall m name n t n' t' dg,
  (forall s a, touched m s -> (n s a <-> n' s a)) -> (forall s x d q a, transition m s x d q -> (t s d q a <-> t' s d q a)) ->
  shows_dtmc m name n t dg -> shows_dtmc m name n' t' dg.
Proof.
  intros m name n t n' t' dg H1 H4 [A B C E F H]. constructor; auto.
  - intros t0 a. rewrite A. split; (intros (s & T & E1 & K); exists s; (split; [exact T|]; split; [exact E1|]; apply (H1 s a T); exact K)).
  - intros t0 h a. rewrite E. split; (intros (s & x & d & q & T & E1 & E2 & K); exists s, x, d, q; split; [exact T|]; split; [exact E1|]; split; [exact E2|]; apply (H4 s x d q a T); exact K).
Qed.

Lemma dtmc_zero : forall m, built m -> a_kind m = KDtmc -> forall s a i, a_inv m i = Some (s, a) -> a = 0.
Proof. intros m B K s a i E. destruct (built_facts m B) as (_ & _ & KO). destruct (KO K) as (_ & Z & _). apply (Z s a i). apply (binv_In Nat.eqb Nat.eqb_spec) in E. exact E. Qed.

(** * C79 *)
Lemma C79_mdp_lemma : forall m sm tm am small, built m -> a_kind m = KMdp ->
  (forall s, touched m s -> exists at_, sm s (labels_by_state m s) = Ok at_) ->
  (forall s a d p, transition m s a d p -> exists at_, tm s a d p = Ok at_) ->
  (forall s a, enabled m s a -> exists aa na ea, am s a (labels_by_action m (s, a)) = Ok aa /\ dget String.eqb aa "node" = Some na /\ dget String.eqb aa "edge" = Some ea) ->
  exists dg, digraph m (VMdp sm tm am) None None small = Ok dg /\ exists name, naming name /\
    shows_mdp m name (fun s at_ => sm s (labels_by_state m s) = Ok at_)
      (fun s a at_ => exists aa, am s a (labels_by_action m (s, a)) = Ok aa /\ dget String.eqb aa "node" = Some at_)
      (fun s a at_ => exists aa, am s a (labels_by_action m (s, a)) = Ok aa /\ dget String.eqb aa "edge" = Some at_)
      (fun s a d p at_ => tm s a d p = Ok at_) dg.
Proof.
  intros m sm tm am small B K T1 T2 T3. pose proof (built_ok m B) as OK. destruct (draw_mdp_total m OK sm tm am small (conj T1 (conj T2 T3))) as (dg & E).
  exists dg. split; [unfold digraph; rewrite K; exact E|]. exists the_name. split; [exact the_naming|]. exact (draw_mdp_shows m OK sm tm am small dg E).
Qed.

Lemma C79_dtmc_lemma : forall m sm tm small, built m -> a_kind m = KDtmc ->
  (forall s, touched m s -> exists at_, sm s (labels_by_state m s) = Ok at_) ->
  (forall s a d p, transition m s a d p -> exists at_, tm s d p = Ok at_) ->
  exists dg, digraph m (VDtmc sm tm) None None small = Ok dg /\ exists name, naming name /\
    shows_dtmc m name (fun s at_ => sm s (labels_by_state m s) = Ok at_) (fun s d p at_ => tm s d p = Ok at_) dg.
Proof.
  intros m sm tm small B K T1 T2. pose proof (built_ok m B) as OK. destruct (draw_dtmc_total m OK sm tm (conj T1 T2)) as (dg & E).
  exists dg. split; [unfold digraph; rewrite K; exact E|]. exists the_name. split; [exact the_naming|]. exact (draw_dtmc_shows m OK sm tm dg (dtmc_zero m B K) E).
Qed.

(** Which states are drawn. *)
Lemma C79_touched_lemma : forall m s, built m -> s < a_N m -> (touched m s <->
  (exists a i, i < a_C m /\ a_inv m i = Some (s, a)) \/ exists i p, In ((i, s), p) (mitems (a_P m))).
Proof.
  intros m s B L. pose proof (built_ok m B) as OK. split.
  - intros [(a & d & p & i & E & H)|(s' & a & p & i & E & H)].
    + left. exists a, i. split; [|exact E]. destruct OK as ((_ & W) & _). apply (W _ _ _ H).
    + right. exists i, p. auto.
  - intros [(a & i & Li & E)|(i & p & H)].
    + left. exists a. destruct OK as (W & _ & (_ & V & _) & _). specialize (V i Li).
      destruct (existsb (fun e : nat * nat * Q => fst (fst e) =? i) (mitems (a_P m))) eqn:X.
      * apply existsb_exists in X. destruct X as ([[j d] p] & H & J). cbn in J. apply Nat.eqb_eq in J. subst j. exists d, p, i. auto.
      * exfalso. assert (Z : (row_total (a_P m) i == 0)%Q).
        { rewrite (row_total_sum _ _ W). unfold row_sum. replace (filter _ (mitems (a_P m))) with (@nil (nat * nat * Q)); [reflexivity|]. symmetry.
          apply (proj1 (Forall_filter_nil _ _)) || idtac.
          clear -X. induction (mitems (a_P m)) as [|e l IH]; [reflexivity|]. cbn in *. apply orb_false_iff in X. destruct X as [X1 X2]. rewrite X1. auto. }
        unfold near_one in V. rewrite Z in V. unfold Qle in V. cbn in V. lia.
    + right. destruct (item_inv m OK i s p H) as (s' & a & E & _). exists s', a, p, i. auto.
Qed.

(** * C80 *)
Section Reduced.
  Context (m : amdp) (tl ntl nfl : string) (init : nat) (rows : dict (nat * nat) (nat * nat)) (cols : dict nat nat) (tmask : list bool) (P : mat) (m' : amdp).
  Context (D : red_mid m tl ntl nfl init rows cols tmask P m') (B : built m).
  Context (v vt vf : vconfig).

  Lemma rd_all : reduced m rows cols tmask P ntl nfl m'. Proof. apply (md_red _ _ _ _ _ _ _ _ _ _ D). Qed.
  Lemma rdN : a_N m' = length cols + 2. Proof. apply (rd_N _ _ _ _ _ _ _ _ rd_all). Qed.
  Lemma rdB : built m'. Proof. apply built_new. apply (rd_built _ _ _ _ _ _ _ _ rd_all). Qed.

  Lemma rows_bidict : bid_ok rows.
  Proof. split; [apply (md_rn _ _ _ _ _ _ _ _ _ _ D)|]. eapply rows_vals; eauto; apply D. Qed.

  Lemma old_state : forall s' s, binv Nat.eqb cols s' = Some s <-> In (s, s') cols.
  Proof.
    intros s' s. pose proof (md_cb _ _ _ _ _ _ _ _ _ _ D) as CB. rewrite (binv_dget Nat.eqb Nat.eqb Nat.eqb_spec Nat.eqb_spec) by exact CB. apply (cols_get cols CB).
  Qed.
  Lemma old_pair : forall k' k, binv pair_eqb rows k' = Some k <-> In (k, k') rows.
  Proof.
    intros k' k. rewrite (binv_dget pair_eqb pair_eqb pair_eqbP pair_eqbP) by exact rows_bidict. split; [apply (dget_In pair_eqb pair_eqbP)|apply (In_dget pair_eqb pair_eqbP); apply rows_bidict].
  Qed.

  Lemma new_state : forall s', s' < length cols -> exists s, In (s, s') cols.
  Proof.
    intros s' L. assert (H : In s' (map snd cols)) by (rewrite (md_cs _ _ _ _ _ _ _ _ _ _ D); apply in_seq; lia). apply in_map_iff in H. destruct H as ([s x] & E & H). cbn in E. subst. eauto.
  Qed.
  Lemma state_lt : forall s s', In (s, s') cols -> s' < length cols.
  Proof.
    intros s s' H. assert (K : In s' (map snd cols)) by (apply in_map_iff; exists (s, s'); auto). rewrite (md_cs _ _ _ _ _ _ _ _ _ _ D) in K. apply in_seq in K. lia.
  Qed.

  Lemma touched_lt : forall s, touched m' s -> s < length cols + 2.
  Proof.
    intros s H. rewrite <- rdN. pose proof (built_ok m' rdB) as OK'. destruct H as [(a & d & p & i & E & K)|(s0 & a & p & i & E & K)]; destruct (item_inv m' OK' _ _ _ K) as (s1 & a1 & E1 & L1 & L2); [|exact L2].
    rewrite E in E1. injection E1 as <- <-. exact L1.
  Qed.

  Lemma pair_cases : forall s' a', enabled m' s' a' -> (exists s, In ((s, a'), (s', a')) rows /\ In (s, s') cols) \/ (s' = length cols /\ a' = 0) \/ (s' = S (length cols) /\ a' = 0).
  Proof.
    intros s' a' (d & p & i & E & H). apply (inv'_cases m tl ntl nfl init rows cols tmask P m' D) in E. destruct E as [(s & N1 & N2)|[(-> & -> & ->)|(-> & -> & ->)]]; [|auto|auto].
    left. exists s. split; [apply nth_error_In in N1; exact N1|exact N2].
  Qed.

  Lemma trans_cases : forall s' a' d' p, transition m' s' a' d' p -> d' < length cols -> exists s d, In ((s, a'), (s', a')) rows /\ In (s, s') cols /\ In (d, d') cols.
  Proof.
    intros s' a' d' p (i & E & H) L. destruct (new_state d' L) as (d & Hd). apply (inv'_cases m tl ntl nfl init rows cols tmask P m' D) in E.
    destruct E as [(s & N1 & N2)|[(-> & -> & ->)|(-> & -> & ->)]].
    - exists s, d. apply nth_error_In in N1. auto.
    - exfalso. apply (rd_goal_row _ _ _ _ _ _ _ _ rd_all) in H. lia.
    - exfalso. apply (rd_fail_row _ _ _ _ _ _ _ _ rd_all) in H. lia.
  Qed.

  Local Notation N' := (a_N m').

  Ltac nb := match goal with |- context [?a =? ?b] => destruct (Nat.eqb_spec a b); try lia end.

  (** The adapted styles do what they should. *)
  Lemma adapt_state : forall s at_, touched m' s ->
    (v_state (adapt_style N' cols rows v vt vf) s (labels_by_state m' s) = Ok at_ <-> copy_node m' cols v vt vf s at_).
  Proof.
    intros s at_ T. apply touched_lt in T. pose proof rdN as EN. unfold copy_node.
    assert (E : v_state (adapt_style N' cols rows v vt vf) s (labels_by_state m' s) =
      if s =? N' - 2 then v_state vt s (labels_by_state m' s) else if s =? N' - 1 then v_state vf s (labels_by_state m' s) else
        let* s0 := of_opt KeyError (binv Nat.eqb cols s) in v_state v s0 (labels_by_state m' s)) by (destruct v; reflexivity).
    rewrite E. clear E. destruct (Nat.eqb_spec s (N' - 2)) as [E1|E1]; [|destruct (Nat.eqb_spec s (N' - 1)) as [E2|E2]].
    - split; [auto|]. intros [(s0 & H & _)|[[_ K]|[K _]]]; [apply state_lt in H; lia|exact K|lia].
    - split; [auto|]. intros [(s0 & H & _)|[[K _]|[_ K]]]; [apply state_lt in H; lia|lia|exact K].
    - destruct (new_state s) as (s0 & H); [lia|]. assert (E := H). apply old_state in E. rewrite E. cbn. split.
      + intros K. left. eauto.
      + intros [(s1 & H1 & K)|[[K _]|[K _]]]; [|lia|lia]. apply old_state in H1. congruence.
  Qed.

  Lemma adapt_action : forall sm tm am s a aa, v = VMdp sm tm am -> enabled m' s a ->
    (v_action (adapt_style N' cols rows v vt vf) s a (labels_by_action m' (s, a)) = Ok aa <->
      (exists s0 a0, In ((s0, a0), (s, a)) rows /\ v_action v s0 a0 (labels_by_action m' (s, a)) = Ok aa) \/
       (s = N' - 2 /\ v_action vt s a (labels_by_action m' (s, a)) = Ok aa) \/ (s = N' - 1 /\ v_action vf s a (labels_by_action m' (s, a)) = Ok aa)).
  Proof.
    intros sm tm am s a aa Ev EN0. pose proof rdN as EN. pose proof (pair_cases s a EN0) as PC.
    assert (E : v_action (adapt_style N' cols rows v vt vf) s a (labels_by_action m' (s, a)) =
      if s =? N' - 2 then v_action vt s a (labels_by_action m' (s, a)) else if s =? N' - 1 then v_action vf s a (labels_by_action m' (s, a)) else
        let* (s0, a0) := of_opt KeyError (binv pair_eqb rows (s, a)) in v_action v s0 a0 (labels_by_action m' (s, a))) by (rewrite Ev; reflexivity).
    rewrite E. clear E.
    assert (RL : forall s0 a0, In ((s0, a0), (s, a)) rows -> s < length cols).
    { intros s0 a0 H. destruct (md_rc _ _ _ _ _ _ _ _ _ _ D _ _ _ _ H) as [_ K]. apply (state_lt _ _ K). }
    destruct (Nat.eqb_spec s (N' - 2)) as [E1|E1]; [|destruct (Nat.eqb_spec s (N' - 1)) as [E2|E2]].
    - split; [auto|]. intros [(s0 & a0 & H & _)|[[_ K]|[K _]]]; [apply RL in H; lia|exact K|lia].
    - split; [auto|]. intros [(s0 & a0 & H & _)|[[K _]|[_ K]]]; [apply RL in H; lia|lia|exact K].
    - destruct PC as [(s0 & H & _)|[[K _]|[K _]]]; [|lia|lia]. assert (E := H). apply old_pair in E. rewrite E. cbn. split.
      + intros K. left. eauto.
      + intros [(s1 & a1 & H1 & K)|[[K _]|[K _]]]; [|lia|lia]. apply old_pair in H1. congruence.
  Qed.

  Lemma adapt_trans : forall sm tm am s a d p at_, v = VMdp sm tm am -> transition m' s a d p ->
    (v_trans (adapt_style N' cols rows v vt vf) s a d p = Ok at_ <-> copy_trans m' cols rows v vt vf s a d p at_).
  Proof.
    intros sm tm am s a d p at_ Ev T. pose proof rdN as EN. pose proof (trans_cases _ _ _ _ T) as TC. unfold copy_trans.
    assert (L : d < length cols + 2). { apply touched_lt. right. exists s, a, p. exact T. }
    assert (E : v_trans (adapt_style N' cols rows v vt vf) s a d p =
      if d =? N' - 2 then v_trans vt s a d p else if d =? N' - 1 then v_trans vf s a d p else
        let* (s0, a0) := of_opt KeyError (binv pair_eqb rows (s, a)) in let* d0 := of_opt KeyError (binv Nat.eqb cols d) in v_trans v s0 a0 d0 p) by (rewrite Ev; reflexivity).
    rewrite E. clear E. destruct (Nat.eqb_spec d (N' - 2)) as [E1|E1]; [|destruct (Nat.eqb_spec d (N' - 1)) as [E2|E2]].
    - split; [auto|]. intros [(s0 & a0 & d0 & _ & H & _)|[[_ K]|[K _]]]; [apply state_lt in H; lia|exact K|lia].
    - split; [auto|]. intros [(s0 & a0 & d0 & _ & H & _)|[[K _]|[_ K]]]; [apply state_lt in H; lia|lia|exact K].
    - destruct TC as (s0 & d0 & H & _ & Hd); [lia|]. assert (E := H). apply old_pair in E. rewrite E. cbn. assert (E3 := Hd). apply old_state in E3. rewrite E3. cbn. split.
      + intros K. left. eauto 8.
      + intros [(s1 & a1 & d1 & H1 & H2 & K)|[[K _]|[K _]]]; [|lia|lia]. apply old_pair in H1. apply old_state in H2. congruence.
  Qed.

  Lemma adapt_chain : forall sm tm s a d p at_, v = VDtmc sm tm -> transition m' s a d p ->
    (v_chain (adapt_style N' cols rows v vt vf) s d p = Ok at_ <-> copy_chain m' cols v vt vf s d p at_).
  Proof.
    intros sm tm s a d p at_ Ev T. pose proof rdN as EN. pose proof (trans_cases _ _ _ _ T) as TC. unfold copy_chain.
    assert (L : d < length cols + 2). { apply touched_lt. right. exists s, a, p. exact T. }
    assert (E : v_chain (adapt_style N' cols rows v vt vf) s d p =
      if d =? N' - 2 then v_chain vt s d p else if d =? N' - 1 then v_chain vf s d p else
        let* s0 := of_opt KeyError (binv Nat.eqb cols s) in let* d0 := of_opt KeyError (binv Nat.eqb cols d) in v_chain v s0 d0 p) by (rewrite Ev; reflexivity).
    rewrite E. clear E. destruct (Nat.eqb_spec d (N' - 2)) as [E1|E1]; [|destruct (Nat.eqb_spec d (N' - 1)) as [E2|E2]].
    - split; [auto|]. intros [(s0 & d0 & _ & H & _)|[[_ K]|[K _]]]; [apply state_lt in H; lia|exact K|lia].
    - split; [auto|]. intros [(s0 & d0 & _ & H & _)|[[K _]|[_ K]]]; [apply state_lt in H; lia|lia|exact K].
    - destruct TC as (s0 & d0 & _ & H & Hd); [lia|]. assert (E := H). apply old_state in E. rewrite E. cbn. assert (E3 := Hd). apply old_state in E3. rewrite E3. cbn. split.
      + intros K. left. eauto 8.
      + intros [(s1 & d1 & H1 & H2 & K)|[[K _]|[K _]]]; [|lia|lia]. apply old_state in H1. apply old_state in H2. congruence.
  Qed.

  Lemma tot_state : forall k w s l, total_config k w -> exists at_, v_state w s l = Ok at_.
  Proof. intros [|] [sm tm am|sm tm] s l H; cbn in *; try tauto; apply H. Qed.

  Lemma adapt_state_total : forall k s, total_config k v -> total_config k vt -> total_config k vf -> touched m' s ->
    exists at_, v_state (adapt_style N' cols rows v vt vf) s (labels_by_state m' s) = Ok at_.
  Proof.
    intros k s A1 A2 A3 T. setoid_rewrite (adapt_state s _ T). apply touched_lt in T. pose proof rdN as EN. unfold copy_node.
    assert (C : s < length cols \/ s = N' - 2 \/ s = N' - 1) by lia. destruct C as [C|[C|C]].
    - destruct (new_state s C) as (s0 & H). destruct (tot_state k v s0 (labels_by_state m' s) A1) as (x & K). exists x. left. eauto.
    - destruct (tot_state k vt s (labels_by_state m' s) A2) as (x & K). eauto.
    - destruct (tot_state k vf s (labels_by_state m' s) A3) as (x & K). eauto.
  Qed.

  Lemma reduced_mdp : a_kind m = KMdp -> total_config KMdp v -> total_config KMdp vt -> total_config KMdp vf ->
    exists dg, digraph m' (adapt_style N' cols rows v vt vf) None None false = Ok dg /\ exists name, naming name /\
      shows_mdp m' name (copy_node m' cols v vt vf) (copy_pair m' rows v vt vf "node") (copy_pair m' rows v vt vf "edge") (copy_trans m' cols rows v vt vf) dg.
  Proof.
    intros K A1 A2 A3. pose proof rdB as B'. pose proof rdN as EN. assert (K' : a_kind m' = KMdp) by (rewrite (rd_kind _ _ _ _ _ _ _ _ rd_all); exact K).
    destruct v as [sm0 tm0 am0|] eqn:Ev; [|destruct A1]. rewrite <- Ev in *.
    assert (EV : exists sm tm am, adapt_style N' cols rows v vt vf = VMdp sm tm am) by (rewrite Ev; cbn; eauto). destruct EV as (sm & tm & am & EV).
    assert (XS : forall s at_, touched m' s -> (sm s (labels_by_state m' s) = Ok at_ <-> copy_node m' cols v vt vf s at_)).
    { intros s at_ T. rewrite <- (adapt_state s at_ T), EV. reflexivity. }
    assert (XA : forall s a aa, enabled m' s a -> (am s a (labels_by_action m' (s, a)) = Ok aa <-> (exists s0 a0, In ((s0, a0), (s, a)) rows /\ v_action v s0 a0 (labels_by_action m' (s, a)) = Ok aa) \/
       (s = N' - 2 /\ v_action vt s a (labels_by_action m' (s, a)) = Ok aa) \/ (s = N' - 1 /\ v_action vf s a (labels_by_action m' (s, a)) = Ok aa))).
    { intros s a aa T. rewrite <- (adapt_action sm0 tm0 am0 s a aa Ev T), EV. reflexivity. }
    assert (XT : forall s a d p at_, transition m' s a d p -> (tm s a d p = Ok at_ <-> copy_trans m' cols rows v vt vf s a d p at_)).
    { intros s a d p at_ T. rewrite <- (adapt_trans sm0 tm0 am0 s a d p at_ Ev T), EV. reflexivity. }
    assert (TA : forall w s a l, total_config KMdp w -> exists aa na ea, v_action w s a l = Ok aa /\ dget String.eqb aa "node" = Some na /\ dget String.eqb aa "edge" = Some ea).
    { intros [? ? ?|? ?] s a l H; [apply H|destruct H]. }
    assert (TT : forall w s a d p, total_config KMdp w -> exists at_, v_trans w s a d p = Ok at_).
    { intros [? ? ?|? ?] s a d p H; [apply H|destruct H]. }
    rewrite EV. destruct (C79_mdp_lemma m' sm tm am false B' K') as (dg & E & name & NA & SH).
    - intros s T. destruct (adapt_state_total KMdp s A1 A2 A3 T) as (x & Hx). exists x. rewrite EV in Hx. exact Hx.
    - intros s a d p T. setoid_rewrite (XT s a d p _ T). unfold copy_trans. assert (L : d < length cols + 2). { apply touched_lt. right. exists s, a, p. exact T. }
      assert (C : d < length cols \/ d = N' - 2 \/ d = N' - 1) by lia. destruct C as [C|[C|C]].
      + destruct (trans_cases s a d p T C) as (s0 & d0 & H1 & _ & H2). destruct (TT v s0 a d0 p A1) as (x & Hx). exists x. left. eauto 8.
      + destruct (TT vt s a d p A2) as (x & Hx). eauto.
      + destruct (TT vf s a d p A3) as (x & Hx). eauto.
    - intros s a T. setoid_rewrite (XA s a _ T). destruct (pair_cases s a T) as [(s0 & H & _)|[[C _]|[C _]]].
      + destruct (TA v s0 a (labels_by_action m' (s, a)) A1) as (aa & na & ea & E1 & E2 & E3). exists aa, na, ea. split; [left; eauto|auto].
      + destruct (TA vt s a (labels_by_action m' (s, a)) A2) as (aa & na & ea & E1 & E2 & E3). exists aa, na, ea. split; [right; left; split; [lia|exact E1]|auto].
      + destruct (TA vf s a (labels_by_action m' (s, a)) A3) as (aa & na & ea & E1 & E2 & E3). exists aa, na, ea. split; [right; right; split; [lia|exact E1]|auto].
    - exists dg. split; [exact E|]. exists name. split; [exact NA|]. revert SH. apply shows_mdp_ext; [exact XS| | |exact XT].
      + intros s a at_ T. unfold copy_pair. split; intros (aa & H1 & H2); exists aa; (split; [|apply (XA s a aa T)]) || (split; [apply (XA s a aa T)|]); assumption.
      + intros s a at_ T. unfold copy_pair. split; intros (aa & H1 & H2); exists aa; (split; [|apply (XA s a aa T)]) || (split; [apply (XA s a aa T)|]); assumption.
  Qed.

  Lemma reduced_dtmc : a_kind m = KDtmc -> total_config KDtmc v -> total_config KDtmc vt -> total_config KDtmc vf ->
    exists dg, digraph m' (adapt_style N' cols rows v vt vf) None None false = Ok dg /\ exists name, naming name /\
      shows_dtmc m' name (copy_node m' cols v vt vf) (copy_chain m' cols v vt vf) dg.
  Proof.
    intros K A1 A2 A3. pose proof rdB as B'. pose proof rdN as EN. assert (K' : a_kind m' = KDtmc) by (rewrite (rd_kind _ _ _ _ _ _ _ _ rd_all); exact K).
    destruct v as [|sm0 tm0] eqn:Ev; [destruct A1|]. rewrite <- Ev in *.
    assert (EV : exists sm tm, adapt_style N' cols rows v vt vf = VDtmc sm tm) by (rewrite Ev; cbn; eauto). destruct EV as (sm & tm & EV).
    assert (XS : forall s at_, touched m' s -> (sm s (labels_by_state m' s) = Ok at_ <-> copy_node m' cols v vt vf s at_)).
    { intros s at_ T. rewrite <- (adapt_state s at_ T), EV. reflexivity. }
    assert (XT : forall s a d p at_, transition m' s a d p -> (tm s d p = Ok at_ <-> copy_chain m' cols v vt vf s d p at_)).
    { intros s a d p at_ T. rewrite <- (adapt_chain sm0 tm0 s a d p at_ Ev T), EV. reflexivity. }
    assert (TT : forall w s d p, total_config KDtmc w -> exists at_, v_chain w s d p = Ok at_).
    { intros [? ? ?|? ?] s d p H; [destruct H|apply H]. }
    rewrite EV. destruct (C79_dtmc_lemma m' sm tm false B' K') as (dg & E & name & NA & SH).
    - intros s T. destruct (adapt_state_total KDtmc s A1 A2 A3 T) as (x & Hx). exists x. rewrite EV in Hx. exact Hx.
    - intros s a d p T. setoid_rewrite (XT s a d p _ T). unfold copy_chain. assert (L : d < length cols + 2). { apply touched_lt. right. exists s, a, p. exact T. }
      assert (C : d < length cols \/ d = N' - 2 \/ d = N' - 1) by lia. destruct C as [C|[C|C]].
      + destruct (trans_cases s a d p T C) as (s0 & d0 & _ & H1 & H2). destruct (TT v s0 d0 p A1) as (x & Hx). exists x. left. eauto 8.
      + destruct (TT vt s d p A2) as (x & Hx). eauto.
      + destruct (TT vf s d p A3) as (x & Hx). eauto.
    - exists dg. split; [exact E|]. exists name. split; [exact NA|]. revert SH. apply shows_dtmc_ext; [exact XS|exact XT].
  Qed.
End Reduced.

Lemma set_styles : forall sf vt vf sf1 sf2, set_target_style sf vt = Ok sf1 -> set_fail_style sf1 vf = Ok sf2 -> current_vis sf2 = sf_vis sf vt vf /\ sf_rf sf2 = sf_rf sf.
Proof.
  intros sf vt vf sf1 sf2 E1 E2. unfold set_target_style in E1. apply bind_ok in E1. destruct E1 as (u & _ & E1). injection E1 as <-.
  unfold set_fail_style in E2. apply bind_ok in E2. destruct E2 as (u' & _ & E2). injection E2 as <-. cbn. auto.
Qed.

Lemma C80_mdp_lemma : forall f rnd m v il tl ntl nfl sf cols rows vt vf sf1 sf2, built m -> a_kind m = KMdp ->
  reduce_styled f rnd m v il tl ntl nfl = Ok (sf, cols, rows) -> set_target_style sf vt = Ok sf1 -> set_fail_style sf1 vf = Ok sf2 ->
  total_config KMdp v -> total_config KMdp vt -> total_config KMdp vf ->
  let m' := rf_sys (sf_rf sf2) in
  exists dg, draw_form sf2 = Ok dg /\ exists name, naming name /\
    shows_mdp m' name (copy_node m' cols v vt vf) (copy_pair m' rows v vt vf "node") (copy_pair m' rows v vt vf "edge") (copy_trans m' cols rows v vt vf) dg.
Proof.
  intros f rnd m v il tl ntl nfl sf cols rows vt vf sf1 sf2 B K E E1 E2 A1 A2 A3 m'. unfold reduce_styled in E. apply bind_ok in E. destruct E as ([[rf cols'] rows'] & E & E'). injection E' as <- <- <-.
  destruct (set_styles _ _ _ _ _ E1 E2) as (V & R). cbn in V, R. destruct (reduce_returns _ _ _ _ _ _ _ _ _ B E) as (init & tmk & P & _ & D & _ & _).
  unfold m', draw_form. rewrite V, R. exact (reduced_mdp _ _ _ _ _ _ _ _ _ _ D v vt vf K A1 A2 A3).
Qed.

Lemma C80_dtmc_lemma : forall f rnd m v il tl ntl nfl sf cols rows vt vf sf1 sf2, built m -> a_kind m = KDtmc ->
  reduce_styled f rnd m v il tl ntl nfl = Ok (sf, cols, rows) -> set_target_style sf vt = Ok sf1 -> set_fail_style sf1 vf = Ok sf2 ->
  total_config KDtmc v -> total_config KDtmc vt -> total_config KDtmc vf ->
  let m' := rf_sys (sf_rf sf2) in
  exists dg, draw_form sf2 = Ok dg /\ exists name, naming name /\ shows_dtmc m' name (copy_node m' cols v vt vf) (copy_chain m' cols v vt vf) dg.
Proof.
  intros f rnd m v il tl ntl nfl sf cols rows vt vf sf1 sf2 B K E E1 E2 A1 A2 A3 m'. unfold reduce_styled in E. apply bind_ok in E. destruct E as ([[rf cols'] rows'] & E & E'). injection E' as <- <- <-.
  destruct (set_styles _ _ _ _ _ E1 E2) as (V & R). cbn in V, R. destruct (reduce_returns _ _ _ _ _ _ _ _ _ B E) as (init & tmk & P & _ & D & _ & _).
  unfold m', draw_form. rewrite V, R. exact (reduced_dtmc _ _ _ _ _ _ _ _ _ _ D v vt vf K A1 A2 A3).
Qed.

(** The default styles never raise, and setting a style of the right class
    works. *)
Lemma C80_default_lemma : forall f rnd m v il tl ntl nfl sf cols rows, built m -> total_config (a_kind m) v -> reduce_styled f rnd m v il tl ntl nfl = Ok (sf, cols, rows) ->
  total_config (a_kind m) (sf_target sf) /\ total_config (a_kind m) (sf_fail sf) /\
  forall vt vf, total_config (a_kind m) vt -> total_config (a_kind m) vf -> exists sf1 sf2, set_target_style sf vt = Ok sf1 /\ set_fail_style sf1 vf = Ok sf2.
Proof.
  intros f rnd m v il tl ntl nfl sf cols rows B A E. unfold reduce_styled in E. apply bind_ok in E. destruct E as ([[rf cols'] rows'] & E & E'). injection E' as <- <- <-.
  destruct (reduce_returns _ _ _ _ _ _ _ _ _ B E) as (init & tmk & P & _ & D & _ & _). cbn [sf_target sf_fail].
  assert (K : a_kind (rf_sys rf) = a_kind m) by apply (rd_kind _ _ _ _ _ _ _ _ (rd_all _ _ _ _ _ _ _ _ _ _ D)). rewrite K.
  assert (TS : forall c l, total_config (a_kind m) (special_style f (a_kind m) c l)).
  { intros c l. destruct (a_kind m); cbn; (split; [intros; eexists; reflexivity|]); [split; [intros; eexists; reflexivity|]; intros; do 3 eexists; split; [reflexivity|split; reflexivity]|intros; eexists; reflexivity]. }
  split; [apply TS|]. split; [apply TS|]. intros vt vf Bt Bf. unfold set_target_style, set_fail_style, current_vis. cbn [sf_vis sf_target sf_fail sf_rf].
  destruct (a_kind m); destruct v; try destruct A; destruct vt; try destruct Bt; destruct vf; try destruct Bf; do 2 eexists; split; reflexivity.
Qed.

(** * C82: styles of forms that are not reduced. *)
Lemma C82_partial_lemma : forall f rf v vt vf sf1 sf2, set_target_style (style_form f rf v) vt = Ok sf1 -> set_fail_style sf1 vf = Ok sf2 ->
  draw_form sf2 = digraph (rf_sys rf) v None None false.
Proof. intros f rf v vt vf sf1 sf2 E1 E2. destruct (set_styles _ _ _ _ _ E1 E2) as (V & R). unfold draw_form. rewrite V, R. reflexivity. Qed.
