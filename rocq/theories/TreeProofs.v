(** Proofs about the tree algorithm's control flow, the combination counter
    and quotient graphs. *)
From Coq Require Import String List Arith ZArith QArith Bool Lia Permutation.
From Coq Require Lqa.
From Verif Require Import Base BaseFacts Num Matrix MatFacts InvDict Graph SpecSystem Amdp ReachForm Milp Subsystem Formulations Problems SpecTree Tree.
Import ListNotations.
Local Open Scope nat_scope.

(** ** Combination counter *)
Lemma upd_last : forall A (l : list A) x y, upd (l ++ [x]) (length l) y = l ++ [y].
Proof. induction l as [|a l IH]; intros x y; cbn; [reflexivity|rewrite IH; reflexivity]. Qed.

Lemma nth_last : forall A (l : list A) x d, nth (length l) (l ++ [x]) d = x.
Proof. intros. rewrite app_nth2, Nat.sub_diag by lia. reflexivity. Qed.

Lemma increase_last : forall q c k, k < c -> increase_iterator (repeat 0 (length q) ++ [k]) (q ++ [c]) = repeat 0 (length q) ++ [S k].
Proof.
  intros q c k H. unfold increase_iterator. rewrite app_length. cbn [length]. rewrite Nat.add_1_r.
  assert (E : nth (length q) (repeat 0 (length q) ++ [k]) 0 = k).
  { pose proof (nth_last nat (repeat 0 (length q)) k 0) as E. rewrite repeat_length in E. exact E. }
  pose proof (upd_last nat (repeat 0 (length q)) k (S k)) as U. rewrite repeat_length in U.
  destruct (length q) as [|l] eqn:EL; cbn [inc_from]; rewrite E; rewrite <- EL, nth_last; destruct (Nat.eqb_spec k c); try lia; rewrite EL; exact U.
Qed.

Lemma visit_prefix : forall q c n k, k + n <= S c -> visit n (repeat 0 (length q) ++ [k]) (q ++ [c]) = map (fun j => repeat 0 (length q) ++ [j]) (seq k n).
Proof.
  intros q c. induction n as [|n IH]; intros k H; [reflexivity|]. cbn [visit seq map]. f_equal.
  destruct n as [|n]; [reflexivity|]. rewrite increase_last by lia. apply IH. lia.
Qed.
Lemma visit_app : forall m n it pps, exists it', visit (m + n) it pps = visit m it pps ++ visit n it' pps.
Proof.
  induction m as [|m IH]; intros n it pps; cbn; [exists it; reflexivity|]. destruct (IH n (increase_iterator it pps) pps) as (it' & ->). exists it'. reflexivity.
Qed.

Lemma fold_mul : forall l a, fold_left Nat.mul l a = a * fold_left Nat.mul l 1.
Proof.
  induction l as [|x l IH]; intros a; cbn; [lia|]. rewrite IH, (IH (x + 0)). lia.
Qed.
Lemma rounds_snoc : forall q c, rounds (q ++ [c]) = rounds q * c.
Proof. intros. unfold rounds. rewrite fold_left_app. reflexivity. Qed.
Lemma rounds_cons : forall x q, rounds (x :: q) = x * rounds q.
Proof. intros. unfold rounds. cbn. rewrite fold_mul. lia. Qed.
Lemma rounds_zero : forall q, rounds q = 0 <-> In 0 q.
Proof.
  induction q as [|x q IH]; [cbn; lia|]. rewrite rounds_cons. cbn [In]. rewrite <- IH. split; intros H; [apply Nat.eq_mul_0 in H; tauto|]. destruct H as [->| ->]; lia.
Qed.
Lemma rounds_one : forall q, rounds q = 1 <-> forall i, i < length q -> nth i q 0 = 1.
Proof.
  induction q as [|x q IH]; [cbn; split; [lia|reflexivity]|]. rewrite rounds_cons. split.
  - intros H. apply Nat.eq_mul_1 in H. destruct H as (-> & H). intros [|i] Hi; [reflexivity|]. cbn in *. apply IH; [exact H|lia].
  - intros H. pose proof (H 0 ltac:(cbn; lia)) as E. cbn in E. subst x. rewrite Nat.mul_1_l. apply IH. intros i Hi. apply (H (S i)). cbn. lia.
Qed.

Lemma F2_zero : forall it pps, Forall2 lt it pps -> ~ In 0 pps.
Proof. intros it pps F. induction F; cbn; [tauto|]. intros [->|I]; [lia|contradiction]. Qed.

Lemma F2_ones : forall q it, rounds q = 1 -> Forall2 lt it q -> it = repeat 0 (length q).
Proof.
  induction q as [|x q IH]; intros it H F; inversion F; subst; [reflexivity|]. rewrite rounds_cons in H. apply Nat.eq_mul_1 in H. destruct H as (-> & H).
  cbn. f_equal; [lia|apply IH; assumption].
Qed.
Lemma F2_zeros : forall q, ~ In 0 q -> Forall2 lt (repeat 0 (length q)) q.
Proof.
  induction q as [|x q IH]; intros H; cbn; constructor; [destruct x; [exfalso; apply H; left; reflexivity|lia]|apply IH; intros I; apply H; right; exact I].
Qed.

Lemma C47_lemma : forall pps,
  ((forall it, In it (visited pps) -> Forall2 lt it pps) /\ NoDup (visited pps) /\ (forall it, Forall2 lt it pps -> In it (visited pps)))
  <-> In 0 pps \/ forall i, S i < length pps -> nth i pps 0 = 1.
Proof.
  intros pps. destruct (in_dec Nat.eq_dec 0 pps) as [Z|NZ].
  { assert (V : visited pps = []) by (unfold visited; apply rounds_zero in Z; rewrite Z; reflexivity).
    split; [intros _; left; exact Z|intros _]. rewrite V. split; [intros it []|]. split; [constructor|]. intros it F. exfalso. apply (F2_zero _ _ F). exact Z. }
  destruct (list_eq_dec Nat.eq_dec pps []) as [->|NE].
  { split; [intros _; right; intros i H; cbn in H; lia|intros _]. unfold visited. cbn. split; [intros it [<-|[]]; constructor|]. split; [constructor; [intros []|constructor]|].
    intros it F. inversion F. left. reflexivity. }
  destruct (exists_last NE) as (q & c & ->).
  assert (ZQ : ~ In 0 q) by (intros I; apply NZ; apply in_or_app; left; exact I).
  assert (ZC : 0 < c) by (destruct c; [exfalso; apply NZ; apply in_or_app; right; left; reflexivity|lia]).
  assert (START : repeat 0 (length (q ++ [c])) = repeat 0 (length q) ++ [0]) by (rewrite app_length; cbn [length]; rewrite repeat_app; reflexivity).
  assert (NTH : (forall i, S i < length (q ++ [c]) -> nth i (q ++ [c]) 0 = 1) <-> rounds q = 1).
  { rewrite rounds_one, app_length. cbn [length]. split; intros H i Hi.
    - specialize (H i ltac:(lia)). rewrite app_nth1 in H by exact Hi. exact H.
    - rewrite app_nth1 by lia. apply H. lia. }
  rewrite NTH. unfold visited. rewrite START, rounds_snoc. split.
  - intros (A & _ & _). right. destruct (Nat.eq_dec (rounds q) 1) as [E|NE1]; [exact E|exfalso].
    assert (rounds q <> 0) by (rewrite rounds_zero; exact ZQ).
    replace (rounds q * c) with (S c + (rounds q * c - S c)) in A by nia.
    destruct (visit_app (S c) (rounds q * c - S c) (repeat 0 (length q) ++ [0]) (q ++ [c])) as (it' & E). rewrite E, visit_prefix in A by lia.
    assert (I : In (repeat 0 (length q) ++ [c]) (map (fun j => repeat 0 (length q) ++ [j]) (seq 0 (S c)) ++ visit (rounds q * c - S c) it' (q ++ [c]))).
    { apply in_or_app. left. apply in_map_iff. exists c. split; [reflexivity|]. apply in_seq. lia. }
    apply A in I. apply Forall2_app_inv_l in I. destruct I as (l1 & l2 & F1 & F2 & EQ).
    inversion F2 as [|x y l l' L F3]; subst. inversion F3; subst. apply app_inj_tail in EQ. destruct EQ as (_ & ->). lia.
  - intros [I|E]; [contradiction|]. rewrite E, Nat.mul_1_l, visit_prefix by lia. split; [|split].
    + intros it I. apply in_map_iff in I. destruct I as (j & <- & J). apply in_seq in J. apply Forall2_app; [apply F2_zeros; exact ZQ|]. constructor; [lia|constructor].
    + apply FinFun.Injective_map_NoDup; [|apply seq_NoDup]. intros a b H. apply app_inj_tail in H. apply H.
    + intros it F. apply Forall2_app_inv_r in F. destruct F as (l1 & l2 & F1 & F2 & ->). inversion F2 as [|x y l l' L F3]; subst. inversion F3; subst.
      rewrite (F2_ones q l1 E F1). apply in_map_iff. exists x. split; [reflexivity|]. apply in_seq. lia.
Qed.

(** ** Quotient graphs *)
Lemma label_inner : forall n i vs l, length l = n -> (forall v, In v vs -> v < n) ->
  exists l', foldM (fun l v => if v <? n then Ok (upd l v i) else Err ValueError) vs l = Ok l' /\ length l' = n /\
    forall v, (In v vs /\ nth v l' 0 = i) \/ (~ In v vs /\ nth v l' 0 = nth v l 0).
Proof.
  intros n i. induction vs as [|w vs IH]; intros l L H; cbn [foldM].
  - exists l. split; [reflexivity|]. split; [exact L|]. intros v. right. split; [intros []|reflexivity].
  - assert (Hw : w < n) by (apply H; left; reflexivity). destruct (Nat.ltb_spec w n); [|lia]. cbn [bind].
    destruct (IH (upd l w i)) as (l' & E & L' & N); [rewrite upd_length; exact L|intros v Hv; apply H; right; exact Hv|].
    exists l'. split; [exact E|]. split; [exact L'|]. intros v. destruct (N v) as [(I & Ev)|(NI & Ev)]; [left; split; [right; exact I|exact Ev]|].
    destruct (Nat.eq_dec w v) as [->|NE].
    + left. split; [left; reflexivity|]. rewrite Ev. apply nth_upd_same. lia.
    + right. split; [intros [->|I]; [congruence|contradiction]|]. rewrite Ev. apply nth_upd_other. exact NE.
Qed.

Lemma label_outer : forall n ps l, length l = n -> (forall i p v, In (i, p) ps -> In v p -> v < n) ->
  exists l', foldM (fun l (pv : nat * list nat) => foldM (fun l v => if v <? n then Ok (upd l v (fst pv)) else Err ValueError) (snd pv) l) ps l = Ok l' /\ length l' = n /\
    forall v, (exists i p, In (i, p) ps /\ In v p /\ nth v l' 0 = i) \/ ((forall i p, In (i, p) ps -> ~ In v p) /\ nth v l' 0 = nth v l 0).
Proof.
  intros n. induction ps as [|(i & p) ps IH]; intros l L H; cbn [foldM].
  - exists l. split; [reflexivity|]. split; [exact L|]. intros v. right. split; [intros i p []|reflexivity].
  - cbn [fst snd]. destruct (label_inner n i p l L) as (l1 & E1 & L1 & N1); [intros v Hv; apply (H i p v); [left; reflexivity|exact Hv]|].
    rewrite E1. cbn [bind]. destruct (IH l1 L1) as (l' & E & L' & N); [intros j q v Hj Hv; apply (H j q v); [right; exact Hj|exact Hv]|].
    exists l'. split; [exact E|]. split; [exact L'|]. intros v. destruct (N v) as [(j & q & Ij & Iv & Ev)|(NI & Ev)].
    + left. exists j, q. split; [right; exact Ij|]. split; assumption.
    + destruct (N1 v) as [(I & E2)|(NI2 & E2)].
      * left. exists i, p. split; [left; reflexivity|]. split; [exact I|]. congruence.
      * right. split; [|congruence]. intros j q [Ij|Ij]; [injection Ij as <- <-; exact NI2|exact (NI j q Ij)].
Qed.

Lemma in_combine_seq : forall A (l : list A) k i x, In (i, x) (combine (seq k (length l)) l) <-> exists j, i = k + j /\ nth_error l j = Some x.
Proof.
  induction l as [|a l IH]; intros k i x; cbn [length seq combine In].
  - split; [intros []|intros (j & _ & E); destruct j; discriminate].
  - rewrite IH. split.
    + intros [E|(j & -> & E)]; [injection E as <- <-; exists 0; split; [lia|reflexivity]|exists (S j); split; [lia|exact E]].
    + intros ([|j] & -> & E); [left; cbn in E; injection E as <-; f_equal; lia|right; exists j; split; [lia|exact E]].
Qed.

Lemma label_spec : forall n ps, partition_of n ps -> exists lab, label_parts n ps = Ok lab /\ length lab = n /\
  forall v i p, v < n -> nth_error ps i = Some p -> (nth v lab 0 = i <-> In v p).
Proof.
  intros n ps (IN & EX). unfold label_parts.
  destruct (label_outer n (combine (seq 0 (length ps)) ps) (repeat 0 n)) as (lab & E & L & N); [apply repeat_length| |].
  { intros i p v H Hv. apply in_combine_seq in H. destruct H as (j & -> & H). apply (IN j p v H Hv). }
  exists lab. split; [exact E|]. split; [exact L|]. intros v i p Hv Hp.
  destruct (EX v Hv) as (i0 & p0 & E0 & I0 & U).
  assert (LV : nth v lab 0 = i0).
  { destruct (N v) as [(j & q & Ij & Iv & Ev)|(NI & _)].
    - apply in_combine_seq in Ij. destruct Ij as (j' & -> & Ij). rewrite Ev. apply (U _ q Ij Iv).
    - exfalso. apply (NI i0 p0); [apply in_combine_seq; exists i0; auto|exact I0]. }
  rewrite LV. split; [intros ->; congruence|]. intros I. symmetry. apply (U i p Hp I).
Qed.

Section Edges.
Variable lab : list nat.
Variable n : nat.
Definition qstep (acc : list (nat * nat) * list bool) (e : nat * nat) : list (nat * nat) * list bool :=
    let '(qe, itf) := acc in
    let ls := nth (fst e) lab 0 in
    let lt := nth (snd e) lab 0 in
    if ls =? lt then (qe, itf)
    else (if existsb (pair_eqb (ls, lt)) qe then qe else qe ++ [(ls, lt)], upd itf (snd e) true).

Lemma qstep_spec : forall es qe itf qe' itf', fold_left qstep es (qe, itf) = (qe', itf') -> NoDup qe -> length itf = n -> (forall u v, In (u, v) es -> v < n) ->
  NoDup qe' /\ length itf' = n /\
  (forall i j, In (i, j) qe' <-> In (i, j) qe \/ (i <> j /\ exists u v, In (u, v) es /\ nth u lab 0 = i /\ nth v lab 0 = j)) /\
  (forall v, nth v itf' false = true <-> nth v itf false = true \/ exists u, In (u, v) es /\ nth u lab 0 <> nth v lab 0).
Proof.
  induction es as [|(u & v) es IH]; intros qe itf qe' itf' H ND L B; cbn [fold_left] in H.
  - injection H as <- <-. split; [exact ND|]. split; [exact L|]. split; intros; split; auto; [intros [I|(_ & x & y & [] & _)]; exact I|intros [I|(x & [] & _)]; exact I].
  - unfold qstep at 2 in H. cbn [fst snd] in H. destruct (Nat.eqb_spec (nth u lab 0) (nth v lab 0)) as [E|NE].
    + destruct (IH _ _ _ _ H ND L) as (A1 & A2 & A3 & A4); [intros x y I; apply (B x y); right; exact I|].
      split; [exact A1|]. split; [exact A2|]. split.
      * intros i j. rewrite A3. split.
        { intros [I|(N & x & y & I & E1 & E2)]; [left; exact I|right; split; [exact N|]; exists x, y; split; [right; exact I|auto]]. }
        { intros [I|(N & x & y & [I|I] & E1 & E2)]; [left; exact I| |right; split; [exact N|]; exists x, y; auto]. injection I as -> ->. congruence. }
      * intros w. rewrite A4. split.
        { intros [I|(x & I & E1)]; [left; exact I|right; exists x; split; [right; exact I|exact E1]]. }
        { intros [I|(x & [I|I] & E1)]; [left; exact I| |right; exists x; auto]. injection I as -> ->. congruence. }
    + set (qe1 := if existsb (pair_eqb (nth u lab 0, nth v lab 0)) qe then qe else qe ++ [(nth u lab 0, nth v lab 0)]) in H.
      assert (Q1 : NoDup qe1 /\ forall i j, In (i, j) qe1 <-> In (i, j) qe \/ (i = nth u lab 0 /\ j = nth v lab 0)).
      { unfold qe1. destruct (existsb (pair_eqb (nth u lab 0, nth v lab 0)) qe) eqn:EX.
        - apply existsb_exists in EX. destruct EX as (x & Ix & Ex). destruct (pair_eqbP (nth u lab 0, nth v lab 0) x) as [<-|]; [|discriminate].
          split; [exact ND|]. intros i j. split; [auto|]. intros [I|(-> & ->)]; auto.
        - assert (NI : ~ In (nth u lab 0, nth v lab 0) qe).
          { intros I. assert (existsb (pair_eqb (nth u lab 0, nth v lab 0)) qe = true); [|congruence]. apply existsb_exists. exists (nth u lab 0, nth v lab 0). split; [exact I|].
            destruct (pair_eqbP (nth u lab 0, nth v lab 0) (nth u lab 0, nth v lab 0)); [reflexivity|congruence]. }
          split; [apply (Permutation_NoDup (Permutation_cons_append qe (nth u lab 0, nth v lab 0))); constructor; assumption|].
          intros i j. rewrite in_app_iff. cbn [In]. split; [intros [I|[I|[]]]; [auto|injection I as <- <-; auto]|intros [I|(-> & ->)]; auto]. }
      destruct Q1 as (ND1 & IN1).
      destruct (IH _ _ _ _ H ND1) as (A1 & A2 & A3 & A4); [rewrite upd_length; exact L|intros x y I; apply (B x y); right; exact I|].
      split; [exact A1|]. split; [exact A2|]. split.
      * intros i j. rewrite A3, IN1. split.
        { intros [[I|(-> & ->)]|(N & x & y & I & E1 & E2)]; [left; exact I| |right; split; [exact N|]; exists x, y; split; [right; exact I|auto]].
          right. split; [exact NE|]. exists u, v. split; [left; reflexivity|auto]. }
        { intros [I|(N & x & y & [I|I] & E1 & E2)]; [left; left; exact I| |right; split; [exact N|]; exists x, y; auto]. injection I as -> ->. left. right. auto. }
      * intros w. rewrite A4. pose proof (B u v (or_introl eq_refl)) as Hv. split.
        { intros [I|(x & I & E1)]; [|right; exists x; split; [right; exact I|exact E1]]. destruct (Nat.eq_dec v w) as [->|NW]; [|rewrite nth_upd_other in I by exact NW; auto].
          right. exists u. split; [left; reflexivity|exact NE]. }
        { intros [I|(x & [I|I] & E1)].
          - left. destruct (Nat.eq_dec v w) as [->|NW]; [apply nth_upd_same; lia|rewrite nth_upd_other by exact NW; exact I].
          - injection I as -> ->. left. apply nth_upd_same. lia.
          - right. exists x. auto. }
Qed.
End Edges.

Lemma C53_lemma : forall P ps, wf_mat P -> mrows P <= mcols P -> partition_of (mcols P) ps ->
  exists G qe lab itf, underlying_graph P = Ok G /\ quotient G ps = Ok (qe, lab, itf) /\ NoDup qe /\ length lab = mcols P /\ length itf = mcols P /\
    (forall v i p, v < mcols P -> nth_error ps i = Some p -> (nth v lab 0 = i <-> In v p)) /\
    (forall i j p q, nth_error ps i = Some p -> nth_error ps j = Some q ->
       (In (i, j) qe <-> i <> j /\ exists u v, In u p /\ In v q /\ ~ (mget P u v == 0)%Q)) /\
    (forall i j, In (i, j) qe -> i < length ps /\ j < length ps) /\
    (forall v j q, nth_error ps j = Some q -> In v q -> (nth v itf false = true <-> exists u, ~ In u q /\ ~ (mget P u v == 0)%Q)).
Proof.
  intros P ps WF RC PO. pose proof PO as (PIN & PEX).
  assert (UG : underlying_graph P = Ok (mcols P, map fst (mitems P))).
  { unfold underlying_graph. assert (M : forall l : list (nat * nat * Q), (forall e, In e l -> fst (fst e) < mcols P) ->
      mapM (fun e : (nat * nat) * Q => if fst (fst e) <? mcols P then Ok (fst e) else Err ValueError) l = Ok (map fst l)).
    { induction l as [|e l IH]; intros H; cbn [mapM map]; [reflexivity|]. destruct (Nat.ltb_spec (fst (fst e)) (mcols P)) as [_|Bad]; [|specialize (H e (or_introl eq_refl)); lia].
      cbn [bind]. rewrite IH by (intros x Hx; apply H; right; exact Hx). reflexivity. }
    rewrite M; [reflexivity|]. intros ((i & j) & q) He. cbn. destruct WF as (_ & W). specialize (W i j q He). lia. }
  assert (ED : forall u v, In (u, v) (map fst (mitems P)) <-> ~ (mget P u v == 0)%Q).
  { intros u v. split.
    - intros I. apply in_map_iff in I. destruct I as ((k & q) & E & I). cbn in E. subst k. rewrite (mget_In P u v q WF I). destruct WF as (_ & W). apply (W u v q I).
    - intros N. apply mget_nonzero in N. apply in_map_iff. eexists. split; [|exact N]. reflexivity. }
  assert (EB : forall u v, In (u, v) (map fst (mitems P)) -> u < mcols P /\ v < mcols P).
  { intros u v I. apply in_map_iff in I. destruct I as ((k & q) & E & I). cbn in E. subst k. destruct WF as (_ & W). specialize (W u v q I). lia. }
  destruct (label_spec _ _ PO) as (lab & EL & LL & LS).
  unfold quotient. exists (mcols P, map fst (mitems P)). cbn [fst snd]. rewrite EL. cbn [bind].
  change (fun (acc : list (nat * nat) * list bool) (e : nat * nat) => let '(qe, itf) := acc in if nth (fst e) lab 0 =? nth (snd e) lab 0 then (qe, itf) else (if existsb (pair_eqb (nth (fst e) lab 0, nth (snd e) lab 0)) qe then qe else qe ++ [(nth (fst e) lab 0, nth (snd e) lab 0)], upd itf (snd e) true)) with (qstep lab).
  destruct (fold_left (qstep lab) (map fst (mitems P)) ([], repeat false (mcols P))) as (qe & itf) eqn:EF.
  destruct (qstep_spec lab (mcols P) _ _ _ _ _ EF) as (A1 & A2 & A3 & A4); [constructor|apply repeat_length|intros u v I; apply (EB u v I)|].
  exists qe, lab, itf. split; [exact UG|]. split; [reflexivity|]. split; [exact A1|]. split; [exact LL|]. split; [exact A2|]. split; [exact LS|]. split; [|split].
  - intros i j p q Hp Hq. rewrite A3. split.
    + intros [[]|(N & u & v & I & E1 & E2)]. split; [exact N|]. destruct (EB _ _ I) as (B1 & B2). exists u, v.
      split; [apply (LS u i p B1 Hp); exact E1|]. split; [apply (LS v j q B2 Hq); exact E2|]. apply ED. exact I.
    + intros (N & u & v & Iu & Iv & M). right. split; [exact N|]. apply ED in M. destruct (EB _ _ M) as (B1 & B2). exists u, v. split; [exact M|].
      split; [apply (LS u i p B1 Hp); exact Iu|apply (LS v j q B2 Hq); exact Iv].
  - intros i j I. apply A3 in I. destruct I as [[]|(_ & u & v & I & <- & <-)]. destruct (EB _ _ I) as (B1 & B2).
    assert (LT : forall w, w < mcols P -> nth w lab 0 < length ps).
    { intros w Hw. destruct (PEX w Hw) as (k & r & Er & Ir & _). rewrite (proj2 (LS w k r Hw Er) Ir). apply nth_error_Some. congruence. }
    split; apply LT; assumption.
  - intros v j q Hq Hv. assert (Bv : v < mcols P) by (apply (PIN j q v Hq Hv)). rewrite A4. rewrite (proj2 (LS v j q Bv Hq) Hv).
    assert (RF : nth v (repeat false (mcols P)) false = false) by (apply nth_repeat). split.
    + intros [I|(u & I & N)]; [congruence|]. exists u. destruct (EB _ _ I) as (B1 & _). split; [|apply ED; exact I]. intros Iu. apply N. apply (LS u j q B1 Hq). exact Iu.
    + intros (u & NI & M). right. apply ED in M. destruct (EB _ _ M) as (B1 & _). exists u. split; [exact M|]. intros E. apply NI. apply (LS u j q B1 Hq). exact E.
Qed.

Lemma C53_interface_lemma : forall ns1 ns2 P, wf_mat P -> (exists u v, In u ns1 /\ In v ns2 /\ ~ (mget P u v == 0)%Q) <-> interface ns1 ns2 P = Err NameError.
Proof.
  intros ns1 ns2 P WF. unfold interface.
  assert (K : forall l acc, (exists e, In e l /\ In (fst (fst e)) ns1 /\ In (snd (fst e)) ns2) <->
    foldM (fun (acc : mat) (e : (nat * nat) * Q) => if existsb (Nat.eqb (fst (fst e))) ns1 && existsb (Nat.eqb (snd (fst e))) ns2 then Err NameError else Ok acc) l acc = Err NameError).
  { assert (EX : forall x l, existsb (Nat.eqb x) l = true <-> In x l).
    { intros x l. rewrite existsb_exists. split; [intros (y & I & E); apply Nat.eqb_eq in E; subst; exact I|intros I; exists x; split; [exact I|apply Nat.eqb_refl]]. }
    induction l as [|e l IH]; intros acc; cbn [foldM].
    - split; [intros (e & [] & _)|discriminate].
    - destruct (existsb (Nat.eqb (fst (fst e))) ns1 && existsb (Nat.eqb (snd (fst e))) ns2) eqn:E; cbn [bind].
      + apply andb_true_iff in E. rewrite !EX in E. split; [reflexivity|]. intros _. exists e. split; [left; reflexivity|exact E].
      + rewrite <- (IH acc). split; [|intros (x & I & J); exists x; split; [right; exact I|exact J]].
        intros (x & [->|I] & J1 & J2); [|exists x; auto]. apply EX in J1, J2. rewrite J1, J2 in E. discriminate. }
  rewrite <- (K (mitems P) (mzero (length ns1) (length ns2))). split.
  - intros (u & v & Iu & Iv & M). apply mget_nonzero in M. eexists. split; [exact M|]. cbn. auto.
  - intros (((u & v) & q) & I & J1 & J2). cbn in J1, J2. exists u, v. split; [exact J1|]. split; [exact J2|]. rewrite (mget_In P u v q WF I). destruct WF as (_ & W). apply (W u v q I).
Qed.

(** ** Control flow of the tree algorithm *)
Lemma loop_values : forall S up rf md n rounds i m obj r, In r (g_items (fst (qs_loop S up rf md n rounds i m obj))) -> is_success r = false -> pr_value r = None.
Proof.
  intros S up rf md n. induction rounds as [|rounds IH]; intros i m obj r H F; cbn [qs_loop] in H; [destruct H|].
  destruct (set_objective m obj) as [m1|e]; [|destruct H].
  cbv zeta in H. destruct (sr_status (S i m1)); try (destruct H as [<-|[]]; reflexivity).
  destruct (mk_subsystem _ _ _ _) as [w|e]; [|destruct H].
  destruct (let* (obj0, cs) := up (sr_vec (S i m1)) in let* m2 := add_constraints m1 cs in Ok (obj0, m2)) as [(obj2 & m2)|e].
  - destruct H as [<-|H]; [discriminate|]. eapply IH; eassumption.
  - destruct H as [<-|[]]. discriminate.
Qed.
Lemma qs_values : forall SB S k ini up rf t md labels r, In r (g_items (qs_heur SB S k ini up rf t md labels)) -> is_success r = false -> pr_value r = None.
Proof.
  intros SB S k ini up rf t md labels r H F. unfold qs_heur, qs_run in H. destruct (construct_milp SB rf t md labels true None) as [[(mm & ind)|]|e]; [| |].
  - destruct (let* n := certificate_size rf md in let* obj := ini rf md ind in Ok (n, obj)) as [(n & obj)|e]; [|destruct H]. eapply loop_values; eassumption.
  - destruct H as [<-|[]]. reflexivity.
  - destruct H.
Qed.
Lemma solve_in : forall it rf t md labels r, solve it rf t md labels = Ok r -> In r (g_items (it rf t md labels)).
Proof.
  intros it rf t md labels r H. unfold solve in H. apply bind_ok in H. destruct H as (g & E & H).
  assert (g = it rf t md labels) as ->.
  { unfold solveiter, assert_ in E. destruct (Qle_bool 0 t), (Qle_bool t 1); cbn [bind] in E; try discriminate. destruct md; cbn [bind] in E; congruence. }
  destruct (g_exn _); [discriminate|]. destruct (rev (g_items (it rf t md labels))) as [|x l] eqn:ER; [discriminate|]. injection H as <-.
  apply in_rev. rewrite ER. left. reflexivity.
Qed.
Lemma solve_gen : forall it rf t md labels, (0 <= t <= 1)%Q -> md <> OtherMode -> solve it rf t md labels =
  match g_exn (it rf t md labels) with Some e => Err e | None => match rev (g_items (it rf t md labels)) with [] => Err IndexError | x :: _ => Ok x end end.
Proof.
  intros it rf t md labels (T0 & T1) M. unfold solve, solveiter. apply Qle_bool_iff in T0, T1. rewrite T0, T1. destruct md; [reflexivity|reflexivity|congruence].
Qed.
Lemma solve_dom : forall it rf t md labels r, solve it rf t md labels = Ok r -> (0 <= t <= 1)%Q /\ md <> OtherMode.
Proof.
  intros it rf t md labels r H. unfold solve, solveiter, assert_ in H. destruct (Qle_bool 0 t) eqn:E0; [|discriminate]. destruct (Qle_bool t 1) eqn:E1; [|discriminate].
  apply Qle_bool_iff in E0, E1. split; [auto|]. intros ->. discriminate.
Qed.

Lemma tree_final_rev : forall TW rf t u r, g_exn (tree_final TW rf t u) = None -> (exists l, rev (g_items (tree_final TW rf t u)) = r :: l) ->
  exists z, TW rf t u = Ok z /\ r = MkPRes Success None (Some (inject_Z z)) None /\ (z <> (-1)%Z -> g_items (tree_final TW rf t u) = [r]).
Proof.
  intros TW rf t u r E (l & H). unfold tree_final in *. destruct (TW rf t u) as [z|e]; [|discriminate]. cbn [g_items g_exn] in *.
  exists z. split; [reflexivity|]. destruct (Z.eqb_spec z (-1)) as [->|N]; cbn in H; injection H as <- _; split; try reflexivity; intros; try congruence.
Qed.

Lemma C46_success_lemma : forall SB S TW kub rf t md labels r, solve (tree_iter SB S TW kub) rf t md labels = Ok r ->
  a_kind (rf_sys rf) = KDtmc /\
  exists u z, TW rf t u = Ok z /\ r = MkPRes Success None (Some (inject_Z z)) None /\
    (z <> (-1)%Z -> g_items (tree_iter SB S TW kub rf t md labels) = [r]) /\
    match kub with
    | Some u' => u = u'
    | None => ~ (u == 0)%Q /\ exists rmax rmin a b, solve (qs_heur SB S 5 all_ones_init inverse_result) rf t Max None = Ok rmax /\ solve (qs_heur SB S 5 all_ones_init inverse_result) rf t Min None = Ok rmin /\
        pr_status rmax = Success /\ pr_status rmin = Success /\ pr_value rmax = Some a /\ pr_value rmin = Some b /\ (u <= a)%Q /\ (u <= b)%Q /\ (u = a \/ u = b)
    end.
Proof.
  intros SB S TW kub rf t md labels r H. destruct (solve_dom _ _ _ _ _ _ H) as (T & M). rewrite solve_gen in H by assumption.
  unfold tree_iter in *. destruct (a_kind (rf_sys rf)); [discriminate|]. split; [reflexivity|]. destruct kub as [u|].
  - destruct (g_exn (tree_final TW rf t u)) eqn:EE; [discriminate|]. destruct (rev (g_items (tree_final TW rf t u))) as [|x l] eqn:ER; [discriminate|]. injection H as ->.
    destruct (tree_final_rev TW rf t u r EE (ex_intro _ l ER)) as (z & A & B & C). exists u, z. auto.
  - cbv zeta in *. destruct (solve (qs_heur SB S 5 all_ones_init inverse_result) rf t Max None) as [rmax|e] eqn:EMx; [|discriminate].
    destruct (solve (qs_heur SB S 5 all_ones_init inverse_result) rf t Min None) as [rmin|e] eqn:EMn; [|discriminate]. cbn [bind] in *.
    destruct (pr_value rmax) as [a|] eqn:EA; [|discriminate]. destruct (pr_value rmin) as [b|] eqn:EB; [|destruct (pr_value rmax); discriminate].
    assert (S1 : is_success rmax = true). { destruct (is_success rmax) eqn:F; [reflexivity|]. rewrite (qs_values _ _ _ _ _ _ _ _ _ _ (solve_in _ _ _ _ _ _ EMx) F) in EA. discriminate. }
    assert (S2 : is_success rmin = true). { destruct (is_success rmin) eqn:F; [reflexivity|]. rewrite (qs_values _ _ _ _ _ _ _ _ _ _ (solve_in _ _ _ _ _ _ EMn) F) in EB. discriminate. }
    rewrite S1, S2 in *. cbn [negb orb] in *. set (u := if Qlt_bool b a then b else a) in *.
    destruct (Qeq_bool u 0) eqn:EU; [discriminate|]. cbn [app g_exn g_items] in *.
    destruct (g_exn (tree_final TW rf t u)) eqn:EE; [discriminate|]. destruct (rev (g_items (tree_final TW rf t u))) as [|x l] eqn:ER; [discriminate|]. injection H as ->.
    destruct (tree_final_rev TW rf t u r EE (ex_intro _ l ER)) as (z & A & B & C). exists u, z. split; [exact A|]. split; [exact B|]. split; [exact C|].
    split; [intros Z; apply Qeq_bool_iff in Z; congruence|]. exists rmax, rmin, a, b. split; [reflexivity|]. split; [reflexivity|].
    split; [unfold is_success in S1; destruct (pr_status rmax); [reflexivity|discriminate]|]. split; [unfold is_success in S2; destruct (pr_status rmin); [reflexivity|discriminate]|].
    split; [exact EA|]. split; [exact EB|]. unfold u, Qlt_bool. destruct (Qle_bool a b) eqn:E; cbn [negb].
    + apply Qle_bool_iff in E. split; [Lqa.lra|]. split; [exact E|]. left. reflexivity.
    + assert (b < a)%Q by (apply Qnot_le_lt; intros L; apply Qle_bool_iff in L; congruence). split; [Lqa.lra|]. split; [Lqa.lra|]. right. reflexivity.
Qed.

(** If the heuristic finds nothing, solve raises an exception. *)
Lemma C46_infeasible_lemma : forall SB S TW rf t md labels rmax rmin, a_kind (rf_sys rf) = KDtmc -> md <> OtherMode ->
  solve (qs_heur SB S 5 all_ones_init inverse_result) rf t Max None = Ok rmax -> solve (qs_heur SB S 5 all_ones_init inverse_result) rf t Min None = Ok rmin ->
  pr_status rmax <> Success \/ pr_status rmin <> Success ->
  g_items (tree_iter SB S TW None rf t md labels) = [failure Infeasible] /\ solve (tree_iter SB S TW None) rf t md labels = Err TypeError.
Proof.
  intros SB S TW rf t md labels rmax rmin K M EMx EMn F. destruct (solve_dom _ _ _ _ _ _ EMx) as (T & _).
  assert (V : forall r md0, solve (qs_heur SB S 5 all_ones_init inverse_result) rf t md0 None = Ok r -> pr_status r <> Success -> is_success r = false /\ pr_value r = None).
  { intros r md0 E N. assert (FS : is_success r = false) by (unfold is_success; destruct (pr_status r); [congruence|reflexivity]). split; [exact FS|]. eapply qs_values; [eapply solve_in; exact E|exact FS]. }
  assert (G : tree_iter SB S TW None rf t md labels = MkGen [failure Infeasible] (Some TypeError)).
  { unfold tree_iter. rewrite K. cbv zeta. rewrite EMx, EMn. cbn [bind]. destruct F as [F|F].
    - destruct (V _ _ EMx F) as (-> & ->). rewrite orb_true_r. reflexivity.
    - destruct (V _ _ EMn F) as (-> & ->). cbn [negb orb]. destruct (pr_value rmax); reflexivity. }
  split; [rewrite G; reflexivity|]. rewrite solve_gen by assumption. rewrite G. reflexivity.
Qed.
