(** Minimality of the solutions of models with binary indicators of groups,
    for any polytope of certificates. *)
From Coq Require Import String List Arith ZArith QArith Qreals Reals Bool Lia Lra.
From Verif Require Import Base BaseFacts Num SpecLp SpecMilp SumFacts Milp MilpProofs LpExists MilpForm MilpExact MilpMin RfLpProofs.
Import ListNotations.
Local Open Scope nat_scope.

Lemma F2_right : forall A B (R : A -> B -> Prop) l l', Forall2 R l l' -> forall i b, nth_error l' i = Some b -> exists a, nth_error l i = Some a /\ R a b.
Proof. intros A B R l l' H. induction H as [|a b l l' HR F IH]; intros [|i] x E; cbn in E; try discriminate; [injection E as <-; exists a; auto|apply IH; auto]. Qed.
Lemma F2_left : forall A B (R : A -> B -> Prop) l l', Forall2 R l l' -> forall i a, nth_error l i = Some a -> exists b, nth_error l' i = Some b /\ R a b.
Proof. intros A B R l l' H. induction H as [|a b l l' HR F IH]; intros [|i] x E; cbn in E; try discriminate; [injection E as <-; exists b; auto|apply IH; auto]. Qed.

Section Gen.
  Variable K : Type.
  Variables (k n : nat) (own : nat -> nat) (touch : K -> nat -> bool) (ks : list K) (gs : list (list nat)).
  (** A key is hit if one of its states is kept. *)
  Definition hit (keep : nat -> bool) (key : K) : bool := existsb (fun s => keep s && touch key s) (seq 0 n).
  Definition hits (keep : nat -> bool) : nat := length (filter (hit keep) ks).

  Lemma hit_iff : forall keep key, hit keep key = true <-> exists s, s < n /\ keep s = true /\ touch key s = true.
  Proof.
    intros keep key. unfold hit. rewrite existsb_exists. split.
    - intros (s & Hs & H). apply in_seq in Hs. apply andb_prop in H. exists s. split; [lia|exact H].
    - intros (s & Hs & H1 & H2). exists s. split; [apply in_seq; lia|]. rewrite H1, H2. reflexivity.
  Qed.
  Variable mm : milp.
  Variable poly : (nat -> R) -> Prop.
  Variable wit : (nat -> bool) -> Prop.
  Variable pick : list Q -> nat -> bool.
  Hypothesis OWN : forall v, v < k -> own v < n.
  Hypothesis GR : Forall2 (fun key G => forall v, In v G <-> v < k /\ touch key (own v) = true) ks gs.
  Hypothesis EXT : forall x y, (forall v, v < k -> x v = y v) -> poly x -> poly y.
  Hypothesis FEAS : forall x, feasible mm x <-> poly x /\ forall sigma G, In (sigma, G) (combine (seq k (length gs)) gs) ->
    (x sigma = 0%R \/ x sigma = 1%R) /\ forall v, In v G -> (0 < x v)%R -> x sigma = 1%R.
  Hypothesis OBJ : forall x, feasible mm x -> objective mm x = INR (ones (seq k (length gs)) x).
  Hypothesis DIR : mi_dir mm = Minimise.
  Hypothesis LEN : length (mi_vars mm) = k + length gs.
  Hypothesis PT : forall keep, wit keep -> exists y, poly y /\ forall v, v < k -> (0 < y v)%R -> keep (own v) = true.
  Hypothesis WT : forall cert, length cert = k -> poly (vec cert) -> wit (pick cert).
  Hypothesis PICK : forall cert s, s < n -> length cert = k -> (pick cert s = true <-> exists v, v < k /\ own v = s /\ (0 < vec cert v)%R).

  Lemma key_group : forall i G, nth_error gs i = Some G -> exists key, nth_error ks i = Some key /\ forall v, In v G <-> v < k /\ touch key (own v) = true.
  Proof. intros i G E. apply (F2_right _ _ _ ks gs GR i G E). Qed.
  Lemma group_key : forall i key, nth_error ks i = Some key -> exists G, nth_error gs i = Some G /\ forall v, In v G <-> v < k /\ touch key (own v) = true.
  Proof. intros i key E. apply (F2_left _ _ _ ks gs GR i key E). Qed.
  Lemma gen_ones_exact : forall (l : list K) a keep x, (forall i key, nth_error l i = Some key -> x (a + i) = if hit keep key then 1%R else 0%R) ->
    ones (seq a (length l)) x = length (filter (hit keep) l).
  Proof.
    induction l as [|s l IH]; intros a keep x H; [reflexivity|]. cbn [filter length seq ones].
    rewrite (IH (Datatypes.S a) keep x). 2:{ intros i s' Hn. replace (Datatypes.S a + i) with (a + Datatypes.S i) by lia. apply (H (Datatypes.S i) s'); auto. }
    specialize (H 0 s eq_refl). rewrite Nat.add_0_r in H. destruct (hit keep s); rewrite H; destruct (Req_EM_T _ _); try lra; cbn [length]; lia.
  Qed.
  Lemma gen_ones_le : forall (l : list K) a keep x, (forall i key, nth_error l i = Some key -> hit keep key = true -> x (a + i) = 1%R) ->
    length (filter (hit keep) l) <= ones (seq a (length l)) x.
  Proof.
    induction l as [|s l IH]; intros a keep x H; [cbn; lia|]. cbn [filter length seq ones].
    assert (L : length (filter (hit keep) l) <= ones (seq (Datatypes.S a) (length l)) x).
    { apply IH. intros i s' Hn E. replace (Datatypes.S a + i) with (a + Datatypes.S i) by lia. apply (H (Datatypes.S i) s'); auto. }
    destruct (hit keep s) eqn:E; [|lia]. cbn [length]. specialize (H 0 s eq_refl E). rewrite Nat.add_0_r in H. destruct (Req_EM_T (x a) 1); [lia|contradiction].
  Qed.

  Lemma gen_feasible : forall keep, wit keep -> exists x, feasible mm x /\ objective mm x = INR (hits keep).
  Proof.
    intros keep HW. destruct (PT keep HW) as (y & H1 & H3).
    set (x := fun j => if j <? k then y j else match nth_error ks (j - k) with Some key => if hit keep key then 1%R else 0%R | None => 0%R end).
    assert (X1 : forall v, v < k -> x v = y v). { intros v Hv. unfold x. apply Nat.ltb_lt in Hv. rewrite Hv. auto. }
    assert (X2 : forall i key, nth_error ks i = Some key -> x (k + i) = if hit keep key then 1%R else 0%R).
    { intros i key E. unfold x. destruct (Nat.ltb_spec (k + i) k); [lia|]. replace (k + i - k) with i by lia. rewrite E. auto. }
    assert (LS : length ks = length gs) by (eapply F2_length; eauto).
    assert (F : feasible mm x).
    { apply FEAS. split; [eapply EXT; [|exact H1]; intros v Hv; symmetry; apply X1; exact Hv|].
      intros sigma G Hin. apply in_combine_seq in Hin. destruct Hin as (i & EG & ->). destruct (key_group i G EG) as (key & Ek & HG).
      rewrite (X2 i key Ek). split; [destruct (hit keep key); auto|]. intros v Hv Hp. apply HG in Hv. destruct Hv as [Hv Ho]. rewrite X1 in Hp by exact Hv.
      replace (hit keep key) with true; [auto|]. symmetry. apply hit_iff. exists (own v). auto. }
    exists x. split; [exact F|]. rewrite (OBJ x F). f_equal. rewrite <- LS. apply gen_ones_exact. exact X2.
  Qed.

  Lemma gen_witness : forall v, length v = length (mi_vars mm) -> feasible mm (vec v) ->
    length (firstn k v) = k /\ poly (vec (firstn k v)) /\ wit (pick (firstn k v)) /\ (INR (hits (pick (firstn k v))) <= objective mm (vec v))%R.
  Proof.
    intros v L F. set (cert := firstn k v). assert (LC : length cert = k) by (unfold cert; rewrite firstn_length; lia).
    pose proof F as F0. apply FEAS in F. destruct F as (H1 & H3).
    assert (HP : poly (vec cert)). { eapply EXT; [|exact H1]. intros j Hj. symmetry. apply firstn_vec. exact Hj. }
    split; [exact LC|]. split; [exact HP|]. split; [apply WT; auto|].
    rewrite (OBJ _ F0). apply le_INR. unfold hits. rewrite <- (F2_length _ _ _ _ _ GR). apply gen_ones_le. intros i key Ek HK.
    destruct (group_key i key Ek) as (G & EG & HG). apply hit_iff in HK. destruct HK as (s & Hs & HK & HT).
    apply (PICK cert s Hs LC) in HK. destruct HK as (j & Hj & Ho & Hp). unfold cert in Hp. rewrite firstn_vec in Hp by exact Hj.
    destruct (H3 (k + i) G) as (_ & H4). { apply combine_seq_in. exact EG. } apply (H4 j); [apply HG; rewrite Ho; auto|exact Hp].
  Qed.

  Lemma gen_result : forall r, exact_answer mm r ->
    ((forall keep, ~ wit keep) /\ sr_status r = Infeasible) \/
    (sr_status r = Optimal /\ length (firstn k (sr_vec r)) = k /\ poly (vec (firstn k (sr_vec r))) /\
      exists j, Q2R (sr_val r) = INR j /\ wit (pick (firstn k (sr_vec r))) /\ hits (pick (firstn k (sr_vec r))) = j /\ forall keep, wit keep -> j <= hits keep).
  Proof.
    intros r HA. pose proof HA as HA'. unfold exact_answer in HA. destruct (sr_status r) eqn:ES; try contradiction.
    - right. split; [auto|]. destruct HA as (L & (Fv & OPT) & HV). destruct (gen_witness _ L Fv) as (LC & HP & W & CO). split; [exact LC|]. split; [exact HP|].
      exists (ones (seq k (length gs)) (vec (sr_vec r))). rewrite (OBJ _ Fv) in HV, CO. apply INR_le in CO. split; [exact HV|]. split; [exact W|].
      assert (LE : forall keep, wit keep -> ones (seq k (length gs)) (vec (sr_vec r)) <= hits keep).
      { intros keep HK. destruct (gen_feasible keep HK) as (y & Fy & Oy). specialize (OPT y Fy). rewrite DIR in OPT. cbn [better] in OPT. rewrite (OBJ _ Fv), Oy in OPT. apply INR_le. exact OPT. }
      split; [apply Nat.le_antisymm; [exact CO|apply LE; exact W]|exact LE].
    - left. split; [|auto]. intros keep HW. destruct (gen_feasible keep HW) as (x & F & _). apply (HA x F).
    - exfalso. destruct HA as (_ & HA). destruct (HA 0%R) as (x & F & NB). apply NB. rewrite DIR. cbn [better]. rewrite (OBJ x F). apply pos_INR.
  Qed.
End Gen.
