(** Proofs about benchmark runs. *)
From Coq Require Import String List Arith ZArith QArith Qround Bool Lia.
From Coq Require Lqa.
From Verif Require Import Base BaseFacts Num Matrix InvDict Graph Amdp ReachForm Milp Problems Benchmarks SpecBench.
Import ListNotations.
Local Open Scope nat_scope.

Section Loop.
Variable it : rform -> Q -> mode -> option (list string) -> gen.
Variable rf : rform.
Variable md : mode.
Variable labels : option (list string).
Variables stop debug : bool.

Lemma results_spec : forall items done vals,
  Forall2 recorded done vals -> (forall x, In x done -> pr_status x <> Failed Infeasible /\ (stop = true -> pr_status x = Success)) ->
  (stop = true -> vals = map pr_value done) ->
  match results_loop stop items vals with
  | Finished vs => Forall2 recorded (done ++ items) vs /\ forall x, In x (done ++ items) -> pr_status x <> Failed Infeasible /\ (stop = true -> pr_status x = Success)
  | StopNow => exists l1 r l2, done ++ items = l1 ++ r :: l2 /\ pr_status r = Failed Infeasible /\ forall x, In x l1 -> pr_status x <> Failed Infeasible /\ (stop = true -> pr_status x = Success)
  | StopWith vs => stop = true /\ exists l1 r l2 s, done ++ items = l1 ++ r :: l2 /\ pr_status r = Failed s /\ s <> Infeasible /\
      (forall x, In x l1 -> pr_status x = Success) /\ vs = map pr_value l1 ++ [Some (-1)%Q]
  end.
Proof.
  induction items as [|r items IH]; intros done vals F A M; cbn [results_loop].
  - rewrite app_nil_r. auto.
  - assert (AP : done ++ r :: items = (done ++ [r]) ++ items) by (rewrite <- app_assoc; reflexivity).
    assert (NI : forall s, pr_status r = Failed s -> s <> Infeasible -> stop = false ->
      (forall x, In x (done ++ [r]) -> pr_status x <> Failed Infeasible /\ (stop = true -> pr_status x = Success))).
    { intros s E N ES x Hx. apply in_app_iff in Hx. destruct Hx as [Hx|[<-|[]]]; [apply A; exact Hx|]. rewrite E. split; [congruence|congruence]. }
    assert (TO : forall s, pr_status r = Failed s -> s <> Infeasible ->
      match (if stop then StopWith (vals ++ [Some (-1)%Q]) else results_loop stop items (vals ++ [Some (-1)%Q])) with
      | Finished vs => Forall2 recorded (done ++ r :: items) vs /\ forall x, In x (done ++ r :: items) -> pr_status x <> Failed Infeasible /\ (stop = true -> pr_status x = Success)
      | StopNow => exists l1 r' l2, done ++ r :: items = l1 ++ r' :: l2 /\ pr_status r' = Failed Infeasible /\ forall x, In x l1 -> pr_status x <> Failed Infeasible /\ (stop = true -> pr_status x = Success)
      | StopWith vs => stop = true /\ exists l1 r' l2 s, done ++ r :: items = l1 ++ r' :: l2 /\ pr_status r' = Failed s /\ s <> Infeasible /\
          (forall x, In x l1 -> pr_status x = Success) /\ vs = map pr_value l1 ++ [Some (-1)%Q]
      end).
    { intros s E N. destruct stop eqn:ES.
      - split; [reflexivity|]. exists done, r, items, s. split; [reflexivity|]. split; [exact E|]. split; [exact N|]. split; [intros x Hx; apply A; auto|]. rewrite M by reflexivity. reflexivity.
      - rewrite AP. apply IH; [|apply (NI s); auto|discriminate].
        apply Forall2_app; [exact F|]. constructor; [|constructor]. right. exists s. auto. }
    destruct (pr_status r) as [|s] eqn:E.
    + rewrite AP. apply IH.
      * apply Forall2_app; [exact F|]. constructor; [|constructor]. left. auto.
      * intros x Hx. apply in_app_iff in Hx. destruct Hx as [Hx|[<-|[]]]; [apply A; exact Hx|]. rewrite E. split; [discriminate|reflexivity].
      * intros ES. rewrite map_app, M by exact ES. reflexivity.
    + destruct s; try (eapply TO; [reflexivity|discriminate]).
      exists done, r, items. split; [reflexivity|]. split; [exact E|exact A].
Qed.

Definition last_timeout (data : list entry) : Prop :=
  exists d thr vals, data = d ++ [(thr, vals)] /\ timeout_at stop (it rf thr md labels) vals.

Lemma loop_spec : forall ths data data', thresholds_loop it rf md labels stop debug ths data = Ok data' ->
  exists new, data' = data ++ new /\ length new <= length ths /\
    (forall i thr vals, nth_error new i = Some (thr, vals) -> nth_error ths i = Some thr /\ (0 <= thr <= 1)%Q /\
       (complete_at stop (it rf thr md labels) vals \/ (S i = length new /\ timeout_at stop (it rf thr md labels) vals))) /\
    (length new = length ths \/ last_timeout new \/ exists thr, nth_error ths (length new) = Some thr /\ infeasible_at stop (it rf thr md labels)).
Proof.
  induction ths as [|thr ths IH]; intros data data' H; cbn [thresholds_loop] in H.
  - injection H as <-. exists []. split; [symmetry; apply app_nil_r|]. split; [cbn; lia|]. split; [intros [|i] t v E; discriminate|]. left. reflexivity.
  - apply bind_ok in H. destruct H as (g & EG & H).
    assert (GG : g = it rf thr md labels /\ (0 <= thr <= 1)%Q).
    { unfold solveiter, assert_ in EG. destruct (Qle_bool 0 thr) eqn:E0; [|discriminate]. destruct (Qle_bool thr 1) eqn:E1; [|discriminate]. apply Qle_bool_iff in E0, E1.
      cbn [bind] in EG. destruct md; cbn [bind] in EG; try discriminate; injection EG as <-; auto. }
    destruct GG as (-> & TR).
    pose proof (results_spec (g_items (it rf thr md labels)) [] [] (Forall2_nil _) (fun x F => match F with end) (fun _ => eq_refl)) as RS.
    destruct (results_loop stop (g_items (it rf thr md labels)) []) as [vals| |vals] eqn:ER.
    + destruct (g_exn (it rf thr md labels)) as [e|] eqn:EE; [discriminate|].
      destruct (debug && match vals with [] => true | _ => false end); [discriminate|].
      destruct (IH _ _ H) as (new & -> & LN & EN & TN).
      exists ((thr, vals) :: new). split; [rewrite <- app_assoc; reflexivity|]. split; [cbn; lia|]. split.
      * intros [|i] t v E; cbn in E.
        { injection E as <- <-. cbn. split; [reflexivity|]. split; [exact TR|]. left. cbn [app] in RS. destruct RS as (F & A). split; [exact EE|]. split; [exact F|exact A]. }
        destruct (EN i t v E) as (A & B & C). split; [exact A|]. split; [exact B|]. destruct C as [C|(C & D)]; [left; exact C|right; cbn; split; [lia|exact D]].
      * cbn [length]. destruct TN as [E|[(d & t & v & -> & T)|(t & E & T)]].
        { left. lia. }
        { right. left. exists ((thr, vals) :: d), t, v. split; [reflexivity|exact T]. }
        { right. right. exists t. split; [exact E|exact T]. }
    + injection H as <-. exists []. split; [symmetry; apply app_nil_r|]. split; [cbn; lia|]. split; [intros [|i] t v E; discriminate|].
      right. right. exists thr. split; [reflexivity|]. cbn [app] in RS. exact RS.
    + injection H as <-. exists [(thr, vals)]. split; [reflexivity|]. split; [cbn; lia|]. cbn [app] in RS.
      split.
      * intros [|[|i]] t v E; cbn in E; try discriminate. injection E as <- <-. split; [reflexivity|]. split; [exact TR|]. right. split; [reflexivity|exact RS].
      * right. left. exists [], thr, vals. split; [reflexivity|exact RS].
Qed.
End Loop.

(** Elements of arange. *)
Lemma arange_spec : forall a b s l, (0 < s)%Q -> arange a b s = Ok l ->
  (forall i t, nth_error l i = Some t -> t = (a + inject_Z (Z.of_nat i) * s)%Q /\ (t < b)%Q) /\
  (forall i, (a + inject_Z (Z.of_nat i) * s < b)%Q <-> i < length l).
Proof.
  intros a b s l Hs H. unfold arange in H. destruct (Qeq_bool s 0) eqn:E; [discriminate|]. injection H as <-.
  set (n := Z.to_nat (Qceiling ((b - a) / s))).
  assert (K : forall i, (a + inject_Z (Z.of_nat i) * s < b)%Q <-> i < n).
  { intros i. split; intros H.
    - assert (D : (inject_Z (Z.of_nat i) < (b - a) / s)%Q).
      { apply Qlt_shift_div_l; [exact Hs|]. Lqa.lra. }
      assert (Z.of_nat i < Qceiling ((b - a) / s))%Z.
      { apply Z.lt_nge. intros L. rewrite Zle_Qle in L. pose proof (Qle_ceiling ((b - a) / s)). Lqa.lra. }
      unfold n. lia.
    - assert (D : (inject_Z (Z.of_nat i) < (b - a) / s)%Q).
      { apply Qnot_le_lt. intros L. apply Qceiling_resp_le in L. rewrite Qceiling_Z in L. unfold n in H. lia. }
      assert (M : (inject_Z (Z.of_nat i) * s < (b - a) / s * s)%Q) by (apply Qmult_lt_compat_r; assumption).
      rewrite Qmult_comm in M. assert ((b - a) / s * s == b - a)%Q by (field; intros Z; rewrite Z in Hs; discriminate Hs). Lqa.lra. }
  split.
  - intros i t H. rewrite nth_error_map in H. destruct (nth_error (seq 0 n) i) as [x|] eqn:EX; [|discriminate]. cbn in H. injection H as <-.
    assert (L : i < n) by (rewrite <- (seq_length n 0); apply nth_error_Some; rewrite EX; discriminate).
    assert (x = i) as ->.
    { pose proof (nth_error_nth (seq 0 n) i 0 EX). rewrite seq_nth in H by exact L. cbn in H. auto. }
    split; [reflexivity|]. apply K. exact L.
  - intros i. rewrite map_length, seq_length. apply K.
Qed.

Lemma C51_lemma : forall it rf md from to step debug labels stop data, (0 < step)%Q ->
  bench_one it rf md from to step debug labels stop = Ok data ->
  (forall i thr vals, nth_error data i = Some (thr, vals) ->
     thr = (from + inject_Z (Z.of_nat i) * step)%Q /\ (0 <= thr)%Q /\ (thr < 1)%Q /\ (thr < to + step)%Q /\
     (complete_at stop (it rf thr md labels) vals \/ (S i = length data /\ timeout_at stop (it rf thr md labels) vals))) /\
  let next := (from + inject_Z (Z.of_nat (length data)) * step)%Q in
  (1 <= next)%Q \/ (to + step <= next)%Q \/ infeasible_at stop (it rf next md labels) \/
  exists d thr vals, data = d ++ [(thr, vals)] /\ timeout_at stop (it rf thr md labels) vals.
Proof.
  intros it rf md from to step debug labels stop data Hs H. unfold bench_one in H.
  set (b := (if Qlt_bool (to + step) 1 then to + step else 1)%Q) in *.
  assert (HB : forall t, (t < b)%Q <-> (t < 1 /\ t < to + step)%Q).
  { intros t. unfold b, Qlt_bool. destruct (Qle_bool 1 (to + step)) eqn:E; cbn [negb].
    - apply Qle_bool_iff in E. split; [intros L; split; Lqa.lra|tauto].
    - assert (to + step < 1)%Q by (apply Qnot_le_lt; intros L; apply Qle_bool_iff in L; congruence). split; [intros L; split; Lqa.lra|tauto]. }
  apply bind_ok in H. destruct H as (ths & EA & H). destruct (arange_spec _ _ _ _ Hs EA) as (A & B).
  destruct (loop_spec _ _ _ _ _ _ _ _ _ H) as (new & E & LN & EN & TN). cbn [app] in E. subst new. split.
  - intros i thr vals E. destruct (EN i thr vals E) as (E1 & (T0 & _) & C). destruct (A i thr E1) as (E2 & E3). apply HB in E3. tauto.
  - cbv zeta. destruct TN as [E|[T|(t & E & T)]].
    + assert (N : ~ (from + inject_Z (Z.of_nat (length data)) * step < b)%Q) by (rewrite B, E; lia).
      rewrite HB in N. destruct (Qlt_le_dec (from + inject_Z (Z.of_nat (length data)) * step) 1) as [L|L]; [|left; exact L].
      right. left. apply Qnot_lt_le. tauto.
    + right. right. right. exact T.
    + destruct (A _ _ E) as (<- & _). right. right. left. exact T.
Qed.

Lemma C51_many_lemma : forall its rf mds from to step debug labels stop ds,
  bench_many its rf mds from to step debug labels stop = Ok ds ->
  length ds = length its * length mds /\
  forall i j it md, nth_error its i = Some it -> nth_error mds j = Some md ->
    exists data, nth_error ds (i * length mds + j) = Some data /\ bench_one it rf md from to step debug labels stop = Ok data.
Proof.
  intros its rf mds from to step debug labels stop ds H. unfold bench_many in H.
  assert (F : Forall2 (fun mm data => bench_one (fst mm) rf (snd mm) from to step debug labels stop = Ok data) (list_prod its mds) ds).
  { revert ds H. induction (list_prod its mds) as [|x l IH]; intros ds H; cbn [mapM] in H.
    - injection H as <-. constructor.
    - apply bind_ok in H. destruct H as (d & E & H). apply bind_ok in H. destruct H as (ds' & E' & H). injection H as <-. constructor; [exact E|apply IH; exact E']. }
  clear H. split.
  - rewrite <- prod_length. clear - F. induction F; cbn; congruence.
  - assert (NP : forall i j it md, nth_error its i = Some it -> nth_error mds j = Some md -> nth_error (list_prod its mds) (i * length mds + j) = Some (it, md)).
    { clear F. induction its as [|x its IH]; intros [|i] j it md H1 H2; try discriminate; cbn [list_prod].
      - cbn in H1. injection H1 as <-. rewrite nth_error_app1.
        + cbn. rewrite nth_error_map, H2. reflexivity.
        + rewrite map_length. cbn. apply nth_error_Some. congruence.
      - rewrite nth_error_app2; rewrite map_length; [|cbn; lia]. replace (S i * length mds + j - length mds) with (i * length mds + j) by (cbn; lia). apply IH; assumption. }
    intros i j it md H1 H2. pose proof (NP i j it md H1 H2) as E. clear NP. revert E. generalize (i * length mds + j) as k.
    induction F as [|x d l l' Hx F IH]; intros [|k] E; cbn in E; try discriminate.
    + injection E as ->. exists d. split; [reflexivity|exact Hx].
    + apply IH. exact E.
Qed.

From Verif Require Import SpecBuilt HeurFinal MilpFinal Examples ExProofs2 ExProofs5.
Lemma C51_range_lemma : exists it rf from to step data thr vals, built_form rf /\ (0 < step)%Q /\ bench_one it rf Min from to step false None true = Ok data /\ In (thr, vals) data /\ (to < thr)%Q.
Proof.
  exists (qs_heur sized_ex heur_S 1 all_ones_init inverse_result), ch3rf, (1#10)%Q, (1#4)%Q, (1#10)%Q. do 3 eexists. split; [apply ch3rf_built|]. split; [reflexivity|].
  split; [vm_compute; reflexivity|]. split; [right; right; left; reflexivity|]. reflexivity.
Qed.
