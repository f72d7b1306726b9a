(** The Farkas constraint matrices applied to real vectors. *)
From Coq Require Import String List Arith ZArith QArith Qreals Reals Bool Lia Lra.
From Coq Require Lqa.
From Verif Require Import Base BaseFacts Num Matrix MatFacts SpecMdp SpecSystem SpecEc SpecForm SpecBuilt SpecProb SumFacts MdpValue RfTheory Amdp
  ReachForm ReachFormProofs RfFacts FarkProofs BuiltFacts RfBridge.
Import ListNotations.
Local Open Scope nat_scope.

Section FR.
  Variable rf : rform.
  Hypothesis BF : built_form rf.
  Let P := a_P (rf_sys rf).
  Let inv := a_inv (rf_sys rf).
  Let init := rf_init rf.
  Let n := rf_N rf.
  Let c := rf_C rf.
  Let M := form_mdp rf.
  Let RO : rf_ok rf := br_ro rf BF.

  Definition rowR (A : list (list Q)) (k i : nat) (x : nat -> R) : R := sumn k (fun j => Q2R (nth j (nth i A []) 0%Q) * x j)%R.

  Lemma fark_z_real : forall t, init < n -> exists A b, fark_z rf t = Ok (A, b) /\ length A = S c /\ length b = S c /\
    (forall row, In row A -> length row = n) /\
    (forall i x, i < c -> rowR A n i x = (x (src M i) - sumn n (fun d => prob M i d * x d))%R) /\
    (forall i, i < c -> Q2R (nth i b 0%Q) = prob M i n) /\
    (forall x, rowR A n c x = (- x init)%R) /\ Q2R (nth c b 0%Q) = (- Q2R t)%R.
  Proof.
    intros t Hi. assert (Hz : length (repeat 0%Q n) = n) by apply repeat_length.
    destruct (fark_z_rows rf RO t (repeat 0%Q n) Hi Hz) as (A & b & E & LA & LB & HR & _ & HB). exists A, b. split; [exact E|]. split; [exact LA|]. split; [exact LB|].
    unfold fark_z in E. fold n init in E. rewrite (proj2 (Nat.ltb_lt _ _) Hi) in E. injection E as EA Eb.
    pose proof (ro_lenA rf RO) as LA0. fold c in LA0.
    assert (NA : forall i, i < c -> nth i A [] = Arow_spec P n i (src M i) /\ src M i < n).
    { intros i Hic. rewrite <- EA. rewrite app_nth1 by (unfold c in *; lia).
      destruct (A_rows rf RO i Hic) as (s & a & Ei & Hs & En). assert (ES := br_src rf i s a Ei). fold M in ES. rewrite ES. split; auto. }
    split; [|split; [|split; [|split]]].
    - intros row Hrow. apply In_nth with (d := []) in Hrow. destruct Hrow as (i & Hl & <-). rewrite LA in Hl.
      assert (i < c \/ i = c) as [Hlt| ->] by (unfold c; lia).
      + rewrite (proj1 (NA i Hlt)). unfold Arow_spec. rewrite map_length, seq_length. auto.
      + rewrite <- EA. rewrite app_nth2 by lia. rewrite LA0, Nat.sub_diag. simpl. apply unit_length.
    - intros i x Hic. unfold rowR. destruct (NA i Hic) as (-> & Hs).
      rewrite (sumn_ext n _ (fun j => (if src M i =? j then x j else 0) - prob M i j * x j)%R).
      + rewrite sumn_minus. f_equal. rewrite (sumn_single n (src M i)); [rewrite Nat.eqb_refl; auto|auto|].
        intros j _ Hj. destruct (Nat.eqb_spec (src M i) j); congruence.
      + intros j Hj. unfold Arow_spec. rewrite nth_map_seq by auto. rewrite Q2R_minus. rewrite (br_prob rf i j : prob M i j = _). fold P.
        destruct (src M i =? j); rewrite ?RMicromega.Q2R_1, ?RMicromega.Q2R_0; ring.
    - intros i Hic. destruct (HR i Hic) as (s & a & _ & _ & _ & ->). reflexivity.
    - intros x. unfold rowR. rewrite <- EA. rewrite app_nth2 by lia. rewrite LA0, Nat.sub_diag. simpl nth.
      rewrite (sumn_single n init); auto.
      + rewrite unit_nth by auto. rewrite Nat.eqb_refl. unfold Q2R; simpl. lra.
      + intros j Hj Hne. rewrite unit_nth by auto. destruct (Nat.eqb_spec j init); [congruence|]. rewrite RMicromega.Q2R_0. ring.
    - rewrite (HB : nth c b 0%Q = _). apply Q2R_opp.
  Qed.

  Lemma fark_y_real : forall t, init <= n -> exists A b, fark_y rf t = Ok (A, b) /\ length A = S n /\ length b = S n /\
    (forall row, In row A -> length row = c) /\
    (forall s x, s < n -> rowR A c s x = balance M x s) /\
    (forall s, s < n -> Q2R (nth s b 0%Q) = if s =? init then 1%R else 0%R) /\
    (forall x, rowR A c n x = (- to_goal M x)%R) /\ Q2R (nth n b 0%Q) = (- Q2R t)%R.
  Proof.
    intros t Hi. assert (Hz : length (repeat 0%Q c) = c) by apply repeat_length.
    destruct (fark_y_rows rf RO t (repeat 0%Q c) Hi Hz) as (A & b & E & LA & LB & HR & _ & HB). exists A, b. split; [exact E|]. split; [exact LA|]. split; [exact LB|].
    unfold fark_y in E. fold n init in E. rewrite (proj2 (Nat.ltb_lt _ _) (le_n_S _ _ Hi)) in E. injection E as EA Eb.
    assert (L1 : length (map (column (rf_A rf)) (seq 0 n)) = n) by (rewrite map_length, seq_length; auto).
    assert (NA : forall s, s < n -> nth s A [] = map (fun i => ((if belongs inv i s then 1 else 0) - mget P i s)%Q) (seq 0 c)).
    { intros s Hs. rewrite <- EA. rewrite app_nth1 by lia. rewrite nth_map_seq by auto. apply (column_A rf RO); auto. }
    assert (NL : nth n A [] = map Qopp (rf_to_target rf)). { rewrite <- EA. rewrite app_nth2 by lia. rewrite L1, Nat.sub_diag. auto. }
    split; [|split; [|split; [|split]]].
    - intros row Hrow. apply In_nth with (d := []) in Hrow. destruct Hrow as (i & Hl & <-). rewrite LA in Hl.
      assert (i < n \/ i = n) as [Hlt| ->] by (unfold n; lia).
      + rewrite (NA i Hlt). rewrite map_length, seq_length. auto.
      + rewrite NL, map_length. apply (tt_len rf RO).
    - intros s x Hs. unfold rowR, balance. rewrite (NA s Hs). change (nA M - 2) with c. apply sumn_ext. intros i Hic. rewrite nth_map_seq by auto.
      destruct (br_row rf BF i Hic) as (a & H1 & _). unfold belongs. rewrite (H1 : inv i = _), Q2R_minus. fold M. rewrite (br_prob rf i s : prob M i s = _).
      fold P. destruct (src M i =? s); rewrite ?RMicromega.Q2R_1, ?RMicromega.Q2R_0; ring.
    - intros s Hs. destruct (HR s Hs) as (_ & ->). fold init. destruct (s =? init); [apply RMicromega.Q2R_1|apply RMicromega.Q2R_0].
    - intros x. unfold rowR, to_goal. rewrite NL. change (nA M - 2) with c. rewrite <- sumn_opp. apply sumn_ext. intros i Hic.
      rewrite (ro_tt rf RO), map_map. fold c. rewrite nth_map_seq by auto. rewrite Q2R_opp.
      change (prob M i (goal M)) with (Q2R (mget P i n)). fold P n. ring.
    - rewrite (HB : nth n b 0%Q = _). apply Q2R_opp.
  Qed.
End FR.
