(** The check in double precision against the check in exact numbers. *)
From Coq Require Import String List Arith ZArith QArith Qreals Reals Bool Lia Lra Permutation.
From Coq Require Lqa.
From Flocq Require Import Core BinarySingleNaN.
From Verif Require Import Base BaseFacts Num Matrix MatFacts Graph SpecMdp SpecSystem SpecEc SpecForm SpecBuilt SumFacts Amdp AmdpProofs
  ReachForm ReachFormProofs RfFacts FarkProofs BuiltFacts Milp SpecLp Certificates CertProofs FloatRow SpecFloatRow FloatProofs FloatCheck SpecFloatCheck FloatCheckProofs.
Import ListNotations.
Local Open Scope nat_scope.

Definition rowrel (fr : list double) (qr : list Q) : Prop :=
  length fr = length qr /\
  forall k, k < length fr -> fin (nth k fr d0) = true /\ (Rabs (val (nth k fr d0)) <= 1)%R /\ (Rabs (val (nth k fr d0) - Q2R (nth k qr 0%Q)) <= u)%R.
Definition matrel (D : nat) (A : list (list double)) (A' : list (list Q)) : Prop :=
  length A = length A' /\ forall k, k < length A -> rowrel (nth k A []) (nth k A' []) /\ length (nth k A []) = D.
Definition rhsrel (b : list double) (b' : list Q) : Prop :=
  length b = length b' /\ forall k, k < length b -> fin (nth k b d0) = true /\ val (nth k b d0) = Q2R (nth k b' 0%Q).

Lemma cons_rel : forall f fr q qr, rowrel (f :: fr) (q :: qr) ->
  (fin f = true /\ (Rabs (val f) <= 1)%R /\ (Rabs (val f - Q2R q) <= u)%R) /\ rowrel fr qr.
Proof.
  intros f fr q qr [L H]. cbn [length] in *. split; [apply (H 0); lia|]. split; [lia|]. intros k Hk. apply (H (S k)). lia.
Qed.

Section Row.
  Variable v : list double.
  Variable B : R.
  Hypothesis B1 : (1 <= B)%R.
  Hypothesis B2 : (B <= bpow radix2 500)%R.
  Hypothesis V : forall x, In x v -> fin x = true /\ (Rabs (val x) <= B)%R.

  Lemma v_nth : forall k, fin (nth k v d0) = true /\ (Rabs (val (nth k v d0)) <= B)%R.
  Proof.
    intros k. destruct (nth_in_or_default k v d0) as [H| ->]; [apply V; exact H|]. split; [reflexivity|]. rewrite val_d0, Rabs_R0. lra.
  Qed.
  Lemma exact_row : forall fr qr vs a, rowrel fr qr -> length vs = length fr -> (forall k, nth (a + k) v d0 = nth k vs d0) ->
    (Rabs (wsum v (combine (seq a (length fr)) fr) - Q2R (dotQ qr (map dq vs))) <= INR (length fr) * (u * B))%R.
  Proof.
    induction fr as [|f fr IH]; intros [|q qr] vs a R HL HV; destruct R as [L H]; try discriminate L.
    - destruct vs; [|discriminate HL]. cbn. unfold Q2R. cbn. rewrite Rabs_pos_eq; lra.
    - destruct vs as [|x vs]; [discriminate HL|]. destruct (cons_rel f fr q qr (conj L H)) as [(F & A & D) R'].
      cbn [length seq combine wsum fst snd map]. unfold dotQ. cbn [map combine sumQ fold_right fst snd]. fold (sumQ (map (fun p => (fst p * snd p)%Q) (combine qr (map dq vs)))). fold (dotQ qr (map dq vs)).
      rewrite Q2R_plus, Q2R_mult, dq_val.
      assert (IH' := IH qr vs (S a) R' ltac:(cbn in HL; lia)). assert (HV' : forall k, nth (S a + k) v d0 = nth k vs d0). { intros k. replace (S a + k) with (a + S k) by lia. rewrite HV. reflexivity. }
      specialize (IH' HV'). assert (X : nth a v d0 = x). { specialize (HV 0). rewrite Nat.add_0_r in HV. exact HV. } rewrite X.
      assert (AX : (Rabs (val x) <= B)%R) by (rewrite <- X; apply v_nth).
      replace (val f * val x + wsum v (combine (seq (S a) (length fr)) fr) - (Q2R q * val x + Q2R (dotQ qr (map dq vs))))%R
        with ((val f - Q2R q) * val x + (wsum v (combine (seq (S a) (length fr)) fr) - Q2R (dotQ qr (map dq vs))))%R by ring.
      apply Rle_trans with (1 := Rabs_triang _ _). rewrite Rabs_mult. rewrite S_INR.
      assert ((Rabs (val f - Q2R q) * Rabs (val x) <= u * B)%R) by (apply Rmult_le_compat; auto; apply Rabs_pos). lra.
  Qed.
  Lemma combine_in : forall fr a e, In e (combine (seq a (length fr)) fr) -> exists k, k < length fr /\ snd e = nth k fr d0.
  Proof.
    induction fr as [|f fr IH]; intros a e H; [destruct H|]. cbn [length seq combine] in H. destruct H as [<-|H]; [exists 0; split; [cbn; lia|reflexivity]|].
    destruct (IH (S a) e H) as (k & K1 & K2). exists (S k). split; [cbn; lia|exact K2].
  Qed.
  Lemma filter_len : forall A (f : A -> bool) l, length (filter f l) <= length l.
  Proof. intros A f. induction l as [|x l IH]; cbn; [lia|]. destruct (f x); cbn; lia. Qed.

  (** One line of a check. *)
  Lemma row_err : forall fr qr es n, rowrel fr qr -> length v = length fr -> Permutation es (stored fr) -> length fr <= n -> (INR n <= 16777216)%R ->
    fin (fdot v es) = true /\ (Rabs (Q2R (dotQ qr (map dq v))) <= (INR n + 1) * B)%R /\
    (Rabs (val (fdot v es) - Q2R (dotQ qr (map dq v))) <= (6 * (INR n * INR n) + INR n) * (u * B))%R.
  Proof.
    intros fr qr es n R HL HP Hn Hbig. pose proof R as [L H].
    assert (GS : forall e, In e (combine (seq 0 (length fr)) fr) -> good v B e).
    { intros e He. destruct (combine_in _ _ _ He) as (k & K1 & K2). destruct (H k K1) as (H1 & H2 & _). destruct (v_nth (fst e)) as [H3 H4]. unfold good. rewrite K2. auto. }
    assert (GE : forall e, In e es -> good v B e).
    { intros e He. apply GS. apply (Permutation_in _ HP) in He. unfold stored in He. apply filter_In in He. apply He. }
    assert (LE : length es <= n). { rewrite (Permutation_length HP). unfold stored. pose proof (filter_len _ (fun e : nat * double => negb (Beqb (snd e) d0)) (combine (seq 0 (length fr)) fr)) as F. rewrite combine_length, seq_length, Nat.min_id in F. exact (Nat.le_trans _ _ _ F Hn). }
    assert (LR : (INR (length es) <= INR n)%R) by (apply le_INR; exact LE).
    destruct (fdot_err v B B1 B2 es GE ltac:(lra)) as (F & W & D).
    assert (WE : wsum v es = wsum v (combine (seq 0 (length fr)) fr)).
    { rewrite (wsum_perm v _ _ HP). unfold stored. apply wsum_stored. intros e He. apply (GS e He). }
    pose proof (exact_row fr qr v 0 R HL (fun k => eq_refl)) as X. rewrite <- WE in X.
    assert (LF : (INR (length fr) <= INR n)%R) by (apply le_INR; exact Hn).
    pose proof u_pos as U0. assert (UB : (0 <= u * B)%R) by (apply Rmult_le_pos; lra). pose proof (pos_INR (length es)) as P1. pose proof (pos_INR n) as P2.
    assert (D' : (6 * (INR (length es) * INR (length es)) * (u * B) <= 6 * (INR n * INR n) * (u * B))%R). { apply Rmult_le_compat_r; [exact UB|]. apply Rmult_le_compat_l; [lra|]. apply Rmult_le_compat; lra. }
    assert (X' : (INR (length fr) * (u * B) <= INR n * (u * B))%R) by (apply Rmult_le_compat_r; auto).
    set (E := Q2R (dotQ qr (map dq v))) in *. set (w := wsum v es) in *. set (r := val (fdot v es)) in *.
    split; [exact F|]. split.
    - assert ((INR n * (u * B) <= B)%R). { apply Rle_trans with (16777216 * (u * B))%R; [apply Rmult_le_compat_r; auto|]. rewrite u_val. lra. }
      replace E with (w - (w - E))%R by ring. apply Rle_trans with (1 := Rabs_triang _ _). rewrite Rabs_Ropp. assert ((INR (length es) * B <= INR n * B)%R) by (apply Rmult_le_compat_r; lra). lra.
    - replace (r - E)%R with ((r - w) + (w - E))%R by ring. apply Rle_trans with (1 := Rabs_triang _ _). lra.
  Qed.

  Lemma line_err : forall fr qr es n tol, rowrel fr qr -> length v = length fr -> Permutation es (stored fr) -> length fr <= n -> 4 <= n -> (INR n <= 16777216)%R ->
    fin tol = true -> (0 <= val tol <= B)%R ->
    let E := Q2R (dotQ qr (map dq v)) in
    (fin (dadd (fdot v es) tol) = true /\ (Rabs (val (dadd (fdot v es) tol) - (E + val tol)) <= 8 * (INR n * INR n) * (u * B))%R) /\
    (fin (dsub (fdot v es) tol) = true /\ (Rabs (val (dsub (fdot v es) tol) - (E - val tol)) <= 8 * (INR n * INR n) * (u * B))%R).
  Proof.
    intros fr qr es n tol R HL HP Hn H4 Hbig FT TT E. destruct (row_err fr qr es n R HL HP Hn Hbig) as (F & W & D). fold E in W, D.
    set (r := val (fdot v es)) in *. pose proof u_pos as U0. assert (UB : (0 <= u * B)%R) by (apply Rmult_le_pos; lra).
    assert (N4 : (4 <= INR n)%R) by (apply (le_INR 4) in H4; cbn in H4; lra).
    assert (NN : (4 * INR n <= INR n * INR n)%R) by (apply Rmult_le_compat_r; lra).
    assert (SM : ((6 * (INR n * INR n) + INR n) * (u * B) <= B)%R).
    { apply Rle_trans with ((6 * (16777216 * 16777216) + 16777216) * (u * B))%R.
      - apply Rmult_le_compat_r; [exact UB|]. assert ((INR n * INR n <= 16777216 * 16777216)%R) by (apply Rmult_le_compat; lra). lra.
      - rewrite u_val. lra. }
    assert (RA : (Rabs r <= (INR n + 2) * B)%R). { replace r with ((r - E) + E)%R by ring. apply Rle_trans with (1 := Rabs_triang _ _). lra. }
    assert (TA : (Rabs (val tol) <= B)%R) by (rewrite Rabs_pos_eq; lra).
    assert (BIG : ((INR n + 3) * B <= bpow radix2 600)%R) by (apply (small_k B B1 B2); lra).
    assert (FIN : forall x y, (Rabs (x - y) <= (6 * (INR n * INR n) + INR n) * (u * B))%R -> (Rabs x <= (INR n + 3) * B)%R -> (Rabs (rnd x - y) <= 8 * (INR n * INR n) * (u * B))%R).
    { intros x y XY XA. pose proof (rnd_rel x) as RR. assert (RR' : (Rabs (rnd x - x) <= (INR n + 4) * (u * B))%R). { apply Rle_trans with (1 := RR). replace ((INR n + 4) * (u * B))%R with (u * ((INR n + 4) * B))%R by ring. apply Rmult_le_compat_l; lra. }
      replace (rnd x - y)%R with ((rnd x - x) + (x - y))%R by ring. apply Rle_trans with (1 := Rabs_triang _ _).
      assert (((6 * (INR n * INR n) + INR n) * (u * B) + (INR n + 4) * (u * B) <= 8 * (INR n * INR n) * (u * B))%R).
      { rewrite <- Rmult_plus_distr_r. apply Rmult_le_compat_r; [exact UB|]. lra. } lra. }
    split.
    - assert (XA : (Rabs (r + val tol) <= (INR n + 3) * B)%R) by (apply Rle_trans with (1 := Rabs_triang _ _); lra).
      destruct (dadd_ok' (fdot v es) tol F FT ltac:(fold r; lra)) as [V1 F1]. split; [exact F1|]. rewrite V1. fold r. apply FIN; [|exact XA].
      replace (r + val tol - (E + val tol))%R with (r - E)%R by ring. exact D.
    - assert (XA : (Rabs (r - val tol) <= (INR n + 3) * B)%R) by (apply Rle_trans with (1 := Rabs_triang _ _); rewrite Rabs_Ropp; lra).
      destruct (dsub_ok' (fdot v es) tol F FT ltac:(fold r; lra)) as [V1 F1]. split; [exact F1|]. rewrite V1. fold r. apply FIN; [|exact XA].
      replace (r - val tol - (E - val tol))%R with (r - E)%R by ring. exact D.
  Qed.
End Row.
