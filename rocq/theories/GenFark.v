(** The linear program of find_interior_point: feasible points, optimum. *)
From Coq Require Import String List Arith ZArith QArith Qreals Reals Bool Lia Lra.
From Verif Require Import Base Num Matrix SpecMdp SumFacts Amdp ReachForm Milp SpecLp MilpProofs FarkReal FarkProofs Certificates.
Import ListNotations.
Local Open Scope nat_scope.

Section Gen.
  Variables (A : list (list Q)) (D : nat) (b : list Q) (zs : list nat).
  Hypothesis HR : forall row, In row A -> length row = D.
  Hypothesis HB : length b = length A.
  Hypothesis HZ : forall z, In z zs -> z < D.

  (** [x] satisfies the rows up to [s], and so do the signs. *)
  Definition gsat (x : nat -> R) (s : R) : Prop :=
    (forall i, i < length A -> (rowR A D i x <= Q2R (nth i b 0%Q) + s)%R) /\ (forall j, j < D -> (- s <= x j)%R) /\ (forall z, In z zs -> x z = 0%R).

  Lemma rowR_ext : forall M k i x y, (forall j, j < k -> x j = y j) -> rowR M k i x = rowR M k i y.
  Proof. intros M k i x y H. unfold rowR. apply sumn_ext. intros j Hj. rewrite H; auto. Qed.

  Lemma nth_ext_row : forall i x, i < length A ->
    (sumn (S D) (fun j => Q2R (nth j (nth i (map (fun row => row ++ [(-1)%Q]) A) []) 0%Q) * x j) = rowR A D i x - x D)%R.
  Proof.
    intros i x Hi. assert (EN : nth i (map (fun row => row ++ [(-1)%Q]) A) [] = nth i A [] ++ [(-1)%Q]).
    { rewrite (nth_indep _ [] ([] ++ [(-1)%Q])) by (rewrite map_length; auto). apply (map_nth (fun row => row ++ [(-1)%Q])). }
    rewrite EN.
    assert (L : length (nth i A []) = D) by (apply HR; apply nth_In; auto).
    cbn [sumn]. rewrite app_nth2 by lia. rewrite L, Nat.sub_diag. simpl nth.
    replace (Q2R (-1)) with (-1)%R by (unfold Q2R; simpl; lra). unfold Rminus. replace (-1 * x D)%R with (- x D)%R by ring. f_equal. unfold rowR. apply sumn_ext. intros j Hj. rewrite app_nth1 by lia. reflexivity.
  Qed.

  Lemma interior_spec : exists lp, interior_lp A D b true zs = Ok lp /\ length (mi_vars lp) = S D /\ mi_dir lp = Minimise /\ (forall x, objective lp x = x D) /\
    forall x, feasible lp x <-> gsat x (x D).
  Proof.
    unfold interior_lp.
    destruct (lp_spec (map (fun row => row ++ [(-1)%Q]) A) (S D) b (unit_vec (S D) D 1) SLe Minimise) as (l1 & E1 & OK1 & V1 & D1 & O1 & F1).
    - discriminate.
    - discriminate.
    - intros row Hr. apply in_map_iff in Hr. destruct Hr as (row' & <- & Hr). rewrite app_length, (HR _ Hr). simpl. lia.
    - rewrite map_length. lia.
    - rewrite unit_length. lia.
    - rewrite E1. cbn [bind].
      destruct (add_constraints_spec (map (fun i => ([(i, 1%Q); (D, 1%Q)], SGe, 0%Q)) (seq 0 D)) l1 OK1) as (l2 & E2 & OK2 & V2 & O2 & D2 & F2).
      { intros x Hx. apply in_map_iff in Hx. destruct Hx as (i & <- & Hin). apply in_seq in Hin. rewrite V1. split; [discriminate|]. split.
        - intros v q [Hv|[Hv|[]]]; inversion Hv; subst; lia.
        - simpl. constructor; [intros [H|[]]; lia|]. constructor; [intros []|constructor]. }
      rewrite E2. cbn [bind].
      destruct (add_constraints_spec (map (fun i => ([(i, 1%Q)], SEq, 0%Q)) zs) l2 OK2) as (l3 & E3 & OK3 & V3 & O3 & D3 & F3).
      { intros x Hx. apply in_map_iff in Hx. destruct Hx as (i & <- & Hin). rewrite V2, V1. split; [discriminate|]. split.
        - intros v q [Hv|[]]; inversion Hv; subst. specialize (HZ _ Hin). lia.
        - simpl. constructor; [intros []|constructor]. }
      exists l3. split; [exact E3|]. split; [rewrite V3, V2; exact V1|]. split; [rewrite D3, D2; exact D1|]. split.
      + intros x. rewrite <- O2, <- O3 in O1. rewrite (objective_spec _ _ _ _ O1). rewrite (sumn_single (S D) D); [|lia|].
        * rewrite unit_nth by lia. rewrite Nat.eqb_refl. rewrite RMicromega.Q2R_1. ring.
        * intros i Hi Hne. rewrite unit_nth by lia. destruct (Nat.eqb_spec i D); [congruence|]. rewrite RMicromega.Q2R_0. ring.
      + intros x. rewrite F3, F2, F1. rewrite map_length. unfold gsat. split.
        * intros ((H1 & H2) & H3). split; [|split].
          -- intros i Hi. specialize (H1 i Hi). unfold rel in H1. rewrite nth_ext_row in H1 by auto. lra.
          -- intros j Hj. specialize (H2 [(j, 1%Q); (D, 1%Q)] SGe 0%Q). unfold rel in H2. simpl lin in H2. rewrite RMicromega.Q2R_1, RMicromega.Q2R_0 in H2.
             assert ((1 * x j + (1 * x D + 0) >= 0)%R); [|lra]. apply H2. apply in_map_iff. exists j. split; auto. apply in_seq. lia.
          -- intros z Hz. specialize (H3 [(z, 1%Q)] SEq 0%Q). unfold rel in H3. simpl lin in H3. rewrite RMicromega.Q2R_1, RMicromega.Q2R_0 in H3.
             assert ((1 * x z + 0 = 0)%R); [|lra]. apply H3. apply in_map_iff. exists z. auto.
        * intros (H1 & H2 & H3). split; [split|].
          -- intros i Hi. unfold rel. rewrite nth_ext_row by auto. specialize (H1 i Hi). lra.
          -- intros l s r Hi. apply in_map_iff in Hi. destruct Hi as (j & E & Hj). injection E as <- <- <-. apply in_seq in Hj. unfold rel. simpl. rewrite RMicromega.Q2R_1, RMicromega.Q2R_0.
             specialize (H2 j ltac:(lia)). lra.
          -- intros l s r Hi. apply in_map_iff in Hi. destruct Hi as (j & E & Hj). injection E as <- <- <-. unfold rel. simpl. rewrite RMicromega.Q2R_1, RMicromega.Q2R_0. rewrite (H3 j Hj). lra.
  Qed.

  Definition pt (x : nat -> R) (s : R) : nat -> R := fun j => if j =? D then s else x j.

  Lemma gsat_pt : forall x s, gsat x s -> gsat (pt x s) (pt x s D).
  Proof.
    intros x s (H1 & H2 & H3). unfold pt. rewrite Nat.eqb_refl. split; [|split].
    - intros i Hi. rewrite (rowR_ext A D i _ x); auto. intros j Hj. destruct (Nat.eqb_spec j D); [lia|auto].
    - intros j Hj. destruct (Nat.eqb_spec j D); [lia|auto].
    - intros z Hz. destruct (Nat.eqb_spec z D); [specialize (HZ z Hz); lia|auto].
  Qed.

  (** A bound of the right-hand sides. *)
  Definition bb : R := sumn (length A) (fun i => Rabs (Q2R (nth i b 0%Q))).
  Lemma bb_nonneg : (0 <= bb)%R. Proof. apply sumn_nonneg. intros. apply Rabs_pos. Qed.
  Lemma bb_le : forall i, i < length A -> (- bb <= Q2R (nth i b 0%Q) <= bb)%R.
  Proof.
    intros i Hi. assert (Rabs (Q2R (nth i b 0%Q)) <= bb)%R. { apply (sumn_term_le (length A) i (fun i => Rabs (Q2R (nth i b 0%Q)))); auto. intros; apply Rabs_pos. }
    pose proof (Rle_abs (Q2R (nth i b 0%Q))). pose proof (Rle_abs (- Q2R (nth i b 0%Q))). rewrite Rabs_Ropp in H1. lra.
  Qed.

  Lemma gsat_zero : gsat (fun _ => 0%R) bb.
  Proof.
    split; [|split].
    - intros i Hi. assert (E : rowR A D i (fun _ => 0%R) = 0%R). { unfold rowR. apply sumn_zero. intros. ring. } rewrite E. pose proof (bb_le i Hi). lra.
    - intros. pose proof bb_nonneg. lra.
    - reflexivity.
  Qed.

  Definition gopt (v : list Q) (s : Q) : Prop := length v = D /\ gsat (vec v) (Q2R s) /\ forall x s', gsat x s' -> (Q2R s <= s')%R.

  Lemma removelast_vec : forall (l : list Q) k, length l = S k -> length (removelast l) = k /\ (forall j, j < k -> nth j (removelast l) 0%Q = nth j l 0%Q) /\ nth_error l (length l - 1) = Some (nth k l 0%Q).
  Proof.
    intros l k HL. assert (NE : l <> []) by (intros ->; discriminate). destruct (exists_last NE) as (l' & q & E). subst l.
    rewrite app_length in HL. simpl in HL. assert (length l' = k) by lia. rewrite removelast_last. split; auto. split.
    - intros j Hj. rewrite app_nth1; auto. lia.
    - rewrite app_length. simpl. rewrite nth_error_app2 by lia. replace (length l' + 1 - 1 - length l') with 0 by lia. rewrite app_nth2 by lia. replace (k - length l') with 0 by lia. reflexivity.
  Qed.

  (** An exact solver finds an optimal point, if the optimum is bounded. *)
  Lemma interior_solved : forall S lp, interior_lp A D b true zs = Ok lp -> exact_answer lp (S lp) -> (exists B, forall x s, gsat x s -> (B <= s)%R) ->
    exists v s o q, find_interior_point S A D b true zs = Ok (v, o, q) /\ gopt v s.
  Proof.
    intros S lp E EX (B & HBd). destruct interior_spec as (lp' & E' & V & Dr & O & F). assert (lp' = lp) by congruence. subst lp'. clear E'.
    unfold find_interior_point. rewrite E. cbn [bind]. unfold exact_answer in EX. destruct (sr_status (S lp)) eqn:ES; try contradiction.
    - destruct EX as (L & (FE & OP) & _). rewrite V in L. destruct (removelast_vec _ _ L) as (L1 & L2 & L3). rewrite L3. cbn [of_opt bind].
      exists (removelast (sr_vec (S lp))), (nth D (sr_vec (S lp)) 0%Q). do 2 eexists. split; [reflexivity|]. split; [exact L1|].
      assert (EQ : forall j, j < D -> vec (sr_vec (S lp)) j = vec (removelast (sr_vec (S lp))) j) by (intros j Hj; unfold vec; rewrite L2; auto).
      split.
      + apply F in FE. destruct FE as (F1 & F2 & F3). change (vec (sr_vec (S lp)) D) with (Q2R (nth D (sr_vec (S lp)) 0%Q)) in *. split; [|split].
        * intros i Hi. rewrite <- (rowR_ext A D i _ _ EQ). auto.
        * intros j Hj. rewrite <- EQ; auto.
        * intros z Hz. rewrite <- EQ; auto.
      + intros x s' Hs. specialize (OP (pt x s')). rewrite !O, Dr in OP. unfold better, pt in OP. rewrite Nat.eqb_refl in OP. apply OP. apply F. apply gsat_pt. auto.
    - exfalso. apply (EX (pt (fun _ => 0%R) bb)). apply F. apply gsat_pt. apply gsat_zero.
    - exfalso. destruct EX as (_ & UB). destruct (UB B) as (x & Fx & Nb). rewrite O, Dr in Nb. apply Nb. unfold better. apply (HBd x). apply F. auto.
  Qed.

  (** What the check accepts is nearly non-negative. *)
  Lemma rowR_scale : forall i x c, rowR A D i (fun j => c * x j)%R = (c * rowR A D i x)%R.
  Proof. intros. unfold rowR. rewrite <- sumn_scal. apply sumn_ext. intros. ring. Qed.

  Lemma opt_tol : forall v s tol, gopt v s -> (0 <= tol)%R -> (forall i, i < length A -> (rowR A D i (vec v) <= Q2R (nth i b 0%Q) + tol)%R) -> (Q2R s <= tol)%R.
  Proof.
    intros v s tol (L & (G1 & G2 & G3) & OP) HT HA. destruct (Rle_or_lt (Q2R s) tol) as [|Hlt]; auto. exfalso.
    set (sg := Q2R s) in *. pose proof bb_nonneg as HB0. set (B := bb) in *.
    set (d := ((sg - tol) / (2 * (B + sg + 1)))%R).
    assert (P0 : (0 < 2 * (B + sg + 1))%R) by lra.
    assert (D0 : (0 < d)%R) by (apply Rdiv_lt_0_compat; lra).
    assert (DE : (d * (2 * (B + sg + 1)) = sg - tol)%R) by (unfold d; field; lra).
    assert (D1 : (d < 1)%R). { destruct (Rlt_or_le d 1); auto. exfalso. assert (1 * (2 * (B + sg + 1)) <= d * (2 * (B + sg + 1)))%R by (apply Rmult_le_compat_r; lra). lra. }
    assert (DS : (0 < d * sg)%R) by (apply Rmult_lt_0_compat; lra). assert (DB : (0 <= d * B)%R) by (apply Rmult_le_pos; lra). assert (DT : (0 <= d * tol)%R) by (apply Rmult_le_pos; lra).
    set (s' := Rmax (sg - d * sg)%R (tol + d * B)%R).
    assert (GS : gsat (fun j => (1 - d) * vec v j)%R s').
    { split; [|split].
      - intros i Hi. rewrite rowR_scale. specialize (HA i Hi). pose proof (bb_le i Hi) as HBi. fold B in HBi. set (q := Q2R (nth i b 0%Q)) in *.
        assert (((1 - d) * rowR A D i (vec v) <= (1 - d) * (q + tol))%R) by (apply Rmult_le_compat_l; lra).
        assert ((d * - B <= d * q)%R) by (apply Rmult_le_compat_l; lra). assert (tol + d * B <= s')%R by apply Rmax_r. lra.
      - intros j Hj. specialize (G2 j Hj). assert (((1 - d) * - sg <= (1 - d) * vec v j)%R) by (apply Rmult_le_compat_l; lra). assert (sg - d * sg <= s')%R by apply Rmax_l. lra.
      - intros z Hz. rewrite (G3 z Hz). ring. }
    specialize (OP _ _ GS). unfold s' in OP. apply Rmax_Rle in OP. destruct OP as [OP|OP]; lra.
  Qed.

  (** If the rows can be satisfied by a non-negative point, the optimal point
      satisfies them and is non-negative. *)
  Lemma opt_feasible : forall v s x, gopt v s -> gsat x 0%R -> gsat (vec v) 0%R.
  Proof.
    intros v s x (L & (G1 & G2 & G3) & OP) HX. specialize (OP _ _ HX). split; [|split]; auto.
    - intros i Hi. specialize (G1 i Hi). lra.
    - intros j Hj. specialize (G2 j Hj). lra.
  Qed.
End Gen.
