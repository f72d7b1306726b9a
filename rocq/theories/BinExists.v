(** Models with real and binary variables have exact answers. *)
From Coq Require Import String List Arith ZArith QArith Qreals Reals Bool Lia Lra Classical.
From Verif Require Import Base BaseFacts Num Matrix InvDict SpecMdp SpecLp SumFacts Milp MilpProofs LpExists RfFacts Amdp ReachForm Formulations MilpBuild.
Import ListNotations.
Local Open Scope nat_scope.

Definition bin_var (v : lpvar) : Prop := v_int v = true -> v_lb v = Some 0%Q /\ v_ub v = Some 1%Q.
Definition bin_wf (m : milp) : Prop := exprs_ok m /\ forall v, In v (mi_vars m) -> bin_var v.

Definition with_vars (m : milp) (vs : list lpvar) : milp := MkMilp (mi_dir m) vs (mi_constrs m) (mi_count m) (mi_obj m).
Definition fix_var (q : Q) : lpvar := MkVar false (Some q) (Some q).

Lemma int_split : forall vs, (forall v, In v vs -> v_int v = false) \/ exists pre v post, vs = pre ++ v :: post /\ v_int v = true.
Proof.
  induction vs as [|v vs [IH|(pre & w & post & -> & H)]]; [left; intros v []| |].
  - destruct (v_int v) eqn:E; [right; exists [], v, vs; auto|left]. intros w [<-|Hw]; auto.
  - right. exists (v :: pre), w, post. auto.
Qed.

Lemma int01 : forall r, is_int r -> (0 <= r <= 1)%R -> r = 0%R \/ r = 1%R.
Proof.
  intros r (z & ->) [H1 H2]. apply le_IZR in H1. apply le_IZR in H2. assert (z = 0 \/ z = 1)%Z as [-> | ->] by lia; auto.
Qed.

Lemma split_feasible : forall m pre v post x, mi_vars m = pre ++ v :: post -> v_int v = true -> bin_var v ->
  (feasible m x <-> feasible (with_vars m (pre ++ fix_var 0 :: post)) x \/ feasible (with_vars m (pre ++ fix_var 1 :: post)) x).
Proof.
  intros m pre v post x E HI HB. destruct (HB HI) as [HL HU]. unfold feasible, with_vars. cbn [mi_vars mi_constrs]. rewrite E.
  assert (K : forall w, (forall j v0, nth_error (pre ++ w :: post) j = Some v0 -> sat_var v0 (x j)) <->
     (forall j v0, j <> length pre -> nth_error (pre ++ w :: post) j = Some v0 -> sat_var v0 (x j)) /\ sat_var w (x (length pre))).
  { intros w. split.
    - intros H. split; [intros; apply H; auto|]. apply H. rewrite nth_error_app2 by lia. rewrite Nat.sub_diag. auto.
    - intros [H1 H2] j v0 Hj. destruct (Nat.eq_dec j (length pre)) as [->|N]; [|apply H1; auto]. rewrite nth_error_app2 in Hj by lia. rewrite Nat.sub_diag in Hj. injection Hj as <-. auto. }
  assert (K2 : forall w w', (forall j v0, j <> length pre -> nth_error (pre ++ w :: post) j = Some v0 -> sat_var v0 (x j)) -> (forall j v0, j <> length pre -> nth_error (pre ++ w' :: post) j = Some v0 -> sat_var v0 (x j))).
  { intros w w' H j v0 N Hj. apply H; auto. destruct (Nat.lt_ge_cases j (length pre)).
    - rewrite nth_error_app1 in * by auto. auto.
    - rewrite nth_error_app2 in * by auto. destruct (j - length pre) eqn:Ej; [lia|]. exact Hj. }
  assert (S : sat_var v (x (length pre)) <-> sat_var (fix_var 0) (x (length pre)) \/ sat_var (fix_var 1) (x (length pre))).
  { unfold sat_var. rewrite HL, HU, HI. cbn [fix_var v_lb v_ub v_int above below]. rewrite RMicromega.Q2R_0, RMicromega.Q2R_1. split.
    - intros (A & B & C). destruct (int01 _ (C eq_refl)); [lra|left|right]; (split; [lra|split; [lra|discriminate]]).
    - intros [(A & B & _)|(A & B & _)]; (split; [lra|split; [lra|intros _]]); [exists 0%Z|exists 1%Z]; lra. }
  rewrite !K, S. split.
  - intros ((A & [B|B]) & C); [left|right]; split; auto; split; auto; eapply K2; eauto.
  - intros [((A & B) & C)|((A & B) & C)]; split; auto; split; auto; eapply K2; eauto.
Qed.

Lemma combine_answers : forall m m0 m1, mi_dir m0 = mi_dir m -> mi_dir m1 = mi_dir m -> length (mi_vars m0) = length (mi_vars m) -> length (mi_vars m1) = length (mi_vars m) ->
  (forall x, objective m0 x = objective m x) -> (forall x, objective m1 x = objective m x) -> (forall x, feasible m x <-> feasible m0 x \/ feasible m1 x) ->
  (exists r, exact_answer m0 r) -> (exists r, exact_answer m1 r) -> exists r, exact_answer m r.
Proof.
  intros m m0 m1 D0 D1 L0 L1 O0 O1 F (r0 & A0) (r1 & A1).
  assert (TOT : forall a b, better (mi_dir m) a b \/ better (mi_dir m) b a). { intros a b. destruct (mi_dir m); cbn [better]; lra. }
  assert (TR : forall a b d, better (mi_dir m) a b -> better (mi_dir m) b d -> better (mi_dir m) a d). { intros a b d. destruct (mi_dir m); cbn [better]; lra. }
  assert (UB : forall mi ri, mi_dir mi = mi_dir m -> (forall x, objective mi x = objective m x) -> (forall x, feasible mi x -> feasible m x) -> exact_answer mi ri -> sr_status ri = Unbounded -> exists r, exact_answer m r).
  { intros mi ri Di Oi Fi Ai Ei. exists (MkRes Unbounded [] 0%Q). unfold exact_answer in *. rewrite Ei in Ai. cbn [sr_status]. destruct Ai as ((x & Fx) & H). split; [exists x; auto|].
    intros B. destruct (H B) as (y & Fy & N). exists y. split; [auto|]. rewrite <- Di, <- Oi. exact N. }
  assert (INF : forall ma mb ra, mi_dir ma = mi_dir m -> length (mi_vars ma) = length (mi_vars m) -> (forall x, objective ma x = objective m x) -> (forall x, feasible m x <-> feasible ma x \/ feasible mb x) ->
     (forall x, ~ feasible mb x) -> exact_answer ma ra -> exists r, exact_answer m r).
  { intros ma mb ra Da La Oa Fa Nb Aa. exists ra. assert (Q : forall x, feasible m x <-> feasible ma x) by (intros x; rewrite Fa; split; [intros [|H]; auto; destruct (Nb x H)|auto]).
    unfold exact_answer in *. destruct (sr_status ra); auto.
    - destruct Aa as (B1 & (B2 & B3) & B4). split; [congruence|]. split; [split; [apply Q; auto|]|rewrite <- Oa; auto]. intros y Fy. rewrite <- Da, <- !Oa. apply B3. apply Q. auto.
    - intros x Fx. apply (Aa x). apply Q; auto.
    - destruct Aa as ((x & Fx) & H). split; [exists x; apply Q; auto|]. intros B. destruct (H B) as (y & Fy & N). exists y. split; [apply Q; auto|]. rewrite <- Da, <- Oa. auto. }
  destruct (sr_status r0) eqn:E0; [|apply (INF m1 m0 r1); auto; [intros x; rewrite F; tauto|unfold exact_answer in A0; rewrite E0 in A0; exact A0]|eapply (UB m0 r0); eauto; intros; apply F; auto| |];
    try (exfalso; unfold exact_answer in A0; rewrite E0 in A0; contradiction).
  destruct (sr_status r1) eqn:E1; [|apply (INF m0 m1 r0); auto; unfold exact_answer in A1; rewrite E1 in A1; exact A1|eapply (UB m1 r1); eauto; intros; apply F; auto| |];
    try (exfalso; unfold exact_answer in A1; rewrite E1 in A1; contradiction).
  unfold exact_answer in A0, A1. rewrite E0 in A0. rewrite E1 in A1. destruct A0 as (L0' & (F0 & P0) & V0). destruct A1 as (L1' & (F1 & P1) & V1).
  destruct (TOT (objective m (vec (sr_vec r0))) (objective m (vec (sr_vec r1)))) as [T|T]; [exists r0|exists r1]; unfold exact_answer; rewrite ?E0, ?E1.
  - split; [congruence|]. split; [|rewrite <- O0; auto]. split; [apply F; auto|]. intros y Fy. apply F in Fy. destruct Fy as [Fy|Fy].
    + specialize (P0 y Fy). rewrite D0, !O0 in P0. exact P0.
    + specialize (P1 y Fy). rewrite D1, !O1 in P1. eapply TR; eauto.
  - split; [congruence|]. split; [|rewrite <- O1; auto]. split; [apply F; auto|]. intros y Fy. apply F in Fy. destruct Fy as [Fy|Fy].
    + specialize (P0 y Fy). rewrite D0, !O0 in P0. eapply TR; eauto.
    + specialize (P1 y Fy). rewrite D1, !O1 in P1. exact P1.
Qed.

Definition ints (vs : list lpvar) : nat := length (filter v_int vs).

Lemma bin_answer_exists : forall m, bin_wf m -> exists r, exact_answer m r.
Proof.
  assert (K : forall k m, ints (mi_vars m) = k -> bin_wf m -> exists r, exact_answer m r).
  { induction k as [k IH] using lt_wf_ind. intros m Ek [XO HB]. destruct (int_split (mi_vars m)) as [R|(pre & v & post & E & HI)].
    - apply lp_answer_exists. apply lp_wf_iff. split; auto.
    - assert (LV : forall q, length (pre ++ fix_var q :: post) = length (mi_vars m)) by (intros q; rewrite E, !app_length; reflexivity).
      assert (W : forall q, bin_wf (with_vars m (pre ++ fix_var q :: post))).
      { intros q. split.
        - unfold exprs_ok, with_vars. cbn [mi_vars mi_constrs mi_obj]. rewrite LV. exact XO.
        - intros w Hw. cbn [with_vars mi_vars] in Hw. apply in_app_or in Hw. destruct Hw as [Hw|[<-|Hw]]; [apply HB; rewrite E; apply in_or_app; auto|intros H; discriminate|apply HB; rewrite E; apply in_or_app; right; right; auto]. }
      assert (LT : forall q, ints (pre ++ fix_var q :: post) < k).
      { intros q. subst k. rewrite E. unfold ints. rewrite !filter_app, !app_length. cbn [filter fix_var v_int]. rewrite HI. cbn [length]. lia. }
      apply (combine_answers m (with_vars m (pre ++ fix_var 0 :: post)) (with_vars m (pre ++ fix_var 1 :: post))); try reflexivity; try apply LV.
      + intros x. apply split_feasible with (v := v); auto. apply HB. rewrite E. apply in_or_app. right; left; auto.
      + apply (IH _ (LT 0%Q)); auto.
      + apply (IH _ (LT 1%Q)); auto. }
  intros m W. apply (K _ m eq_refl W).
Qed.

(** ** Constructed models *)
Lemma con_steps_vars : forall ub sigma G m m', foldM (con_step ub sigma) G m = Ok m' -> mi_vars m' = mi_vars m.
Proof.
  intros ub sigma. induction G as [|v G IH]; intros m m' H; cbn [foldM] in H; [injection H as <-; auto|].
  apply bind_ok in H. destruct H as (m1 & E & H). rewrite (IH m1 m' H). unfold con_step in E. apply bind_ok in E. destruct E as (k & Ek & E).
  apply bind_ok in E. destruct E as ((m2 & i) & E & E'). injection E' as <-. unfold add_constraint in E. apply bind_ok in E. destruct E as (u & _ & E). apply bind_ok in E. destruct E as (u' & _ & E). injection E as <- <-. reflexivity.
Qed.

Lemma push_exprs : forall m v, exprs_ok m -> exprs_ok (push_var m v).
Proof.
  intros m v [E1 E2]. unfold exprs_ok. cbn [push_var mi_vars mi_constrs mi_obj]. rewrite app_length. cbn [length]. split.
  - intros k c Hin w q Hw. specialize (E1 k c Hin w q Hw). lia.
  - intros e He w q Hw. specialize (E2 e He w q Hw). lia.
Qed.

Lemma indicators_bin : forall (relaxed : bool) ub groups m ind m' ind', bin_wf m -> foldM (add_group (if relaxed then DReal else DBinary) ub) groups (m, ind) = Ok (m', ind') ->
  bin_wf m' /\ (relaxed = true -> real_vars m -> real_vars m').
Proof.
  intros relaxed ub. induction groups as [|G groups IH]; intros m ind m' ind' W H; cbn [foldM] in H; [injection H as <- <-; auto|].
  apply bind_ok in H. destruct H as ((m1 & ind1) & E & H).
  assert (S : bin_wf m1 /\ (relaxed = true -> real_vars m -> real_vars m1)).
  { unfold add_group in E. apply bind_ok in E. destruct E as ((m2 & vs) & E1 & E). unfold add_variables_w_bounds in E1. cbn [foldM] in E1. apply bind_ok in E1. destruct E1 as ((m3 & l3) & E1 & E2). injection E2 as -> ->.
    apply bind_ok in E1. destruct E1 as (v & Ev & E1). injection E1 as <- <-. cbn [app nth_error of_opt bind] in E.
    apply bind_ok in E. destruct E as (m3 & E3 & E). injection E as <- <-. change (foldM (con_step ub (length (mi_vars m))) G (push_var m v) = Ok m3) in E3.
    pose proof (con_steps_vars _ _ _ _ _ E3) as EV. split; [split|].
    - eapply con_steps_exprs; [|exact E3]. apply push_exprs. apply W.
    - rewrite EV. intros w Hw. cbn [push_var mi_vars] in Hw. apply in_app_or in Hw. destruct Hw as [Hw|[<-|[]]]; [apply W; auto|]. destruct relaxed; cbn in Ev; injection Ev as <-; intros Hw; [discriminate|auto].
    - intros -> R. unfold real_vars. rewrite EV. cbn [push_var mi_vars]. intros w Hw. apply in_app_or in Hw. destruct Hw as [Hw|[<-|[]]]; [apply R; auto|]. cbn in Ev. injection Ev as <-. reflexivity. }
  destruct S as (S1 & S2). destruct (IH m1 ind1 m' ind' S1 H) as (T1 & T2). split; auto.
Qed.

Lemma construct_bin : forall S rf t md labels relaxed known mm ind, construct_milp S rf t md labels relaxed known = Ok (Some (mm, ind)) -> bin_wf mm /\ (relaxed = true -> lp_wf mm).
Proof.
  intros S rf t md labels relaxed known mm ind H. unfold construct_milp in H. apply bind_ok in H. destruct H as ((A & b) & EA & H). apply bind_ok in H. destruct H as (n & En & H).
  apply bind_ok in H. destruct H as (cb & Ec & H). destruct cb as [ub|]; [|discriminate].
  apply bind_ok in H. destruct H as (u0 & Eas & H). apply bind_ok in H. destruct H as (gs & Eg & H). apply bind_ok in H. destruct H as (bs & Eb & H).
  apply bind_ok in H. destruct H as (m0 & E0 & H). apply bind_ok in H. destruct H as ((m1 & ind1) & E1 & H). apply bind_ok in H. destruct H as (m2 & E2 & H). injection H as <- <-.
  destruct (from_coefficients_exprs _ _ _ _ _ _ _ _ _ E0) as (X & R). assert (RV : real_vars m0). { apply R. intros j d Hd. apply nth_error_In in Hd. apply repeat_spec in Hd. auto. }
  assert (W0 : bin_wf m0). { split; [exact X|]. intros v Hv Hb. rewrite (RV v Hv) in Hb. discriminate. }
  destruct (indicators_bin relaxed ub gs m0 [] m1 ind1 W0 E1) as (W1 & R1). destruct (set_objective_exprs _ _ _ (proj1 W1) E2) as (X2 & V2). split.
  - split; [exact X2|]. rewrite V2. apply W1.
  - intros Hr. apply lp_wf_iff. split; [exact X2|]. unfold real_vars. rewrite V2. apply R1; auto.
Qed.
