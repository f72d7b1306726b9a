(** Proofs: the entries that MILPExact and QSHeur give. *)
From Coq Require Import String List Arith ZArith QArith Bool Lia.
From Verif Require Import Base BaseFacts Num ReachForm Milp Subsystem Formulations Problems Benchmarks BenchRun BenchRunProofs SpecRender.
Import ListNotations.
Local Open Scope nat_scope.

(** * What entries of a run look like *)

Lemma loop_entries : forall it rf md labels stop debug ths data d, thresholds_loop it rf md labels stop debug ths data = Ok d ->
  forall thr vals, In (thr, vals) d -> In (thr, vals) data \/ exists g, solveiter it rf thr md labels = Ok g /\
    (results_loop stop (g_items g) [] = StopWith vals \/ (results_loop stop (g_items g) [] = Finished vals /\ g_exn g = None)).
Proof.
  intros it rf md labels stop debug. induction ths as [|t ths IH]; intros data d E thr vals HI; cbn in E; [injection E as <-; auto|].
  destruct (solveiter it rf t md labels) as [g|e] eqn:ES; cbn [bind] in E; [|discriminate]. destruct (results_loop stop (g_items g) []) as [v| |v] eqn:ER.
  - destruct (g_exn g) eqn:EG; [discriminate|]. destruct (debug && _); [discriminate|]. destruct (IH _ _ E thr vals HI) as [H|H]; [|auto].
    apply in_app_iff in H. destruct H as [H|[H|[]]]; [auto|]. injection H as <- <-. right. exists g. auto.
  - injection E as <-. auto.
  - injection E as <-. apply in_app_iff in HI. destruct HI as [H|[H|[]]]; [auto|]. injection H as <- <-. right. exists g. auto.
Qed.

Lemma run_entries : forall clock rf me md a fs d fs', run_one clock rf me md a fs = (Ok d, fs') -> forall e, In e (r_run d) ->
  exists g, g = m_iter me rf (e_thr e) md (b_labels a) /\ (results_loop (b_stop a) (g_items g) [] = StopWith (e_values e) \/ (results_loop (b_stop a) (g_items g) [] = Finished (e_values e) /\ g_exn g = None)).
Proof.
  intros clock rf me md a fs d fs' E e He. destruct (C103_times_lemma _ _ _ _ _ _ _ _ E) as (B & _). unfold bench_one in B. destruct (arange _ _ _) as [ths|x]; cbn [bind] in B; [|discriminate].
  destruct (loop_entries _ _ _ _ _ _ _ _ _ B (e_thr e) (e_values e)) as [[]|(g & ES & H)]; [apply (in_map (fun e => (e_thr e, e_values e))); exact He|].
  exists g. split; [|exact H]. unfold solveiter in ES. repeat (match type of ES with context [assert_ ?b] => destruct b; cbn [assert_ bind] in ES; [|discriminate ES] end). congruence.
Qed.

Lemma exact_items : forall SB S rf t md labels, match g_items (milp_exact SB S rf t md labels) with
  | [] => g_exn (milp_exact SB S rf t md labels) <> None
  | [r] => (exists s, pr_status r = Failed s) \/ (pr_status r = Success /\ exists q, pr_value r = Some q)
  | _ => False end.
Proof.
  intros SB S rf t md labels. unfold milp_exact. destruct (construct_milp SB rf t md labels false None) as [[(m & ind)|]|e]; cbn [bind]; [|cbn; left; eauto|cbn; discriminate].
  cbv zeta. destruct (sr_status (S m)); try (cbn; left; eauto; fail). destruct (certificate_size rf md) as [n|e]; cbn [bind]; [|cbn; discriminate].
  destruct (mk_subsystem rf _ md false) as [w|e]; cbn [bind]; cbn; [right; eauto|discriminate].
Qed.

Lemma exact_even : forall SB S dets clock rf md a fs d fs', run_one clock rf (MkMethod dets (milp_exact SB S)) md a fs = (Ok d, fs') -> even_run 1 (r_run d).
Proof.
  intros SB S dets clock rf md a fs d fs' E e He. destruct (run_entries _ _ _ _ _ _ _ _ E e He) as (g & -> & H). cbn [m_iter] in H.
  pose proof (exact_items SB S rf (e_thr e) md (b_labels a)) as X. destruct (g_items (milp_exact SB S rf (e_thr e) md (b_labels a))) as [|r [|? ?]]; [|clear He E|destruct X].
  - cbn in H. destruct H as [H|(_ & H)]; [discriminate|contradiction].
  - cbn [results_loop app] in H. destruct X as [(s & X)|(X & q & XQ)]; rewrite X in H; try rewrite XQ in H.
    + assert (e_values e = [Some (-1)%Q]) as ->. { destruct s, (b_stop a), H as [H|(H & _)]; cbn in H; congruence. } split; [reflexivity|]. cbn. intros [?|[]]; discriminate.
    + assert (e_values e = [Some q]) as ->. { destruct H as [H|(H & _)]; cbn in H; congruence. } split; [reflexivity|]. cbn. intros [?|[]]; discriminate.
Qed.

(** Values of a threshold without failures. *)
Lemma results_no_failure : forall stop items v vals, (results_loop stop items v = StopWith vals \/ results_loop stop items v = Finished vals) -> (forall q, In (Some q) vals -> ~ (q == -1)%Q) ->
  vals = (v ++ map pr_value items)%list /\ forall r, In r items -> pr_status r = Success.
Proof.
  intros stop. induction items as [|r items IH]; intros v vals H N; cbn in H.
  - destruct H as [H|H]; [discriminate|]. injection H as <-. cbn. rewrite app_nil_r. split; [reflexivity|intros r []].
  - destruct (pr_status r) as [|s] eqn:ES.
    + destruct (IH _ _ H N) as (A & B). split; [rewrite A, <- app_assoc; reflexivity|]. intros x [<-|Hx]; auto.
    + exfalso. assert (X : exists k, results_loop stop items (v ++ [Some (-1)%Q]) = k) by eauto. destruct X as (k & X).
      assert (In (Some (-1)%Q) vals); [|eapply N; eauto; reflexivity]. destruct s; try (destruct H; discriminate); (destruct stop; [destruct H as [H|H]; [injection H as <-|discriminate]; apply in_app_iff; right; left; reflexivity|]); 
        rewrite X in H; clear IH; assert (P : exists t, vals = (v ++ [Some (-1)%Q] ++ t)%list) by
          (clear - X H; assert (Q : forall its w u, results_loop false its w = StopWith u \/ results_loop false its w = Finished u -> exists t, u = (w ++ t)%list) by
             (clear; induction its as [|r its IH]; intros w u H; cbn in H; [destruct H as [H|H]; [discriminate|]; injection H as <-; exists []; rewrite app_nil_r; reflexivity|];
              destruct (pr_status r) as [|[]]; try (destruct H; discriminate); destruct (IH _ _ H) as (t & ->); eexists; rewrite <- app_assoc; reflexivity);
           destruct (Q items (v ++ [Some (-1)%Q])%list vals) as (t & ->); [rewrite X; exact H|exists t; rewrite <- app_assoc; reflexivity]);
        destruct P as (t & ->); apply in_app_iff; right; left; reflexivity.
Qed.

Lemma qs_full : forall S up rf md n rounds i m obj, let g := fst (qs_loop S up rf md n rounds i m obj) in
  g_exn g = None -> (forall r, In r (g_items g) -> pr_status r = Success) -> length (g_items g) = rounds /\ forall r, In r (g_items g) -> pr_value r <> None.
Proof.
  intros S up rf md n. induction rounds as [|rounds IH]; intros i m obj; cbn [qs_loop]; cbv zeta; [cbn; intros _ _; split; [reflexivity|intros r []]|].
  destruct (set_objective m obj) as [m1|e]; cbn; [|discriminate]. destruct (sr_status (S i m1)) eqn:ES; try (cbn; intros _ H; specialize (H _ (or_introl eq_refl)); discriminate).
  destruct (mk_subsystem rf (firstn n (sr_vec (S i m1))) md false) as [w|e]; [|cbn; discriminate].
  destruct (up (sr_vec (S i m1))) as [(obj2 & cs)|e]; cbn [bind]; [|cbn; discriminate]. destruct (add_constraints m1 cs) as [m2|e]; cbn [bind]; [|cbn; discriminate].
  specialize (IH (Datatypes.S i) m2 obj2). cbv zeta in IH. cbn [fst gcons g_exn g_items]. intros HE HI. destruct IH as (A & B); [exact HE|intros r Hr; apply HI; right; exact Hr|].
  split; [cbn; rewrite A; reflexivity|]. intros r [<-|Hr]; [cbn; discriminate|auto].
Qed.

Lemma qs_even : forall SB S iterations ini up dets clock rf md a fs d fs', run_one clock rf (MkMethod dets (qs_heur SB S iterations ini up)) md a fs = (Ok d, fs') ->
  (forall e q, In e (r_run d) -> In (Some q) (e_values e) -> ~ (q == -1)%Q) -> even_run iterations (r_run d).
Proof.
  intros SB S it ini up dets clock rf md a fs d fs' E N e He. destruct (run_entries _ _ _ _ _ _ _ _ E e He) as (g & -> & H). cbn [m_iter] in H.
  set (g := qs_heur SB S it ini up rf (e_thr e) md (b_labels a)) in *.
  assert (ST : results_loop (b_stop a) (g_items g) [] = StopWith (e_values e) -> False).
  { intros X. assert (Q : forall its w u, results_loop (b_stop a) its w = StopWith u -> In (Some (-1)%Q) u).
    { induction its as [|r its IH]; intros w u HX; cbn in HX; [discriminate|]. destruct (pr_status r) as [|[]]; try discriminate; [eauto|..]; destruct (b_stop a); eauto; injection HX as <-; apply in_app_iff; right; left; reflexivity. }
    apply (N e (-1)%Q He); [apply (Q _ _ _ X)|reflexivity]. }
  destruct H as [H|(H & HX)]; [contradiction|]. destruct (results_no_failure _ _ _ _ (or_intror H) (fun q => N e q He)) as (EV & HS). cbn [app] in EV.
  assert (F : length (g_items g) = it /\ forall r, In r (g_items g) -> pr_value r <> None).
  { unfold g, qs_heur, qs_run in *. destruct (construct_milp SB rf (e_thr e) md (b_labels a) true None) as [[(m & ind)|]|x]; [|cbn in HS; specialize (HS _ (or_introl eq_refl)); discriminate|cbn in HX; discriminate].
    destruct (certificate_size rf md) as [n|x]; cbn [bind] in *; [|cbn in HX; discriminate]. destruct (ini rf md ind) as [obj|x]; cbn [bind] in *; [|cbn in HX; discriminate].
    apply qs_full; assumption. }
  destruct F as (F1 & F2). rewrite EV. split; [rewrite map_length; exact F1|]. intros X. apply in_map_iff in X. destruct X as (r & A & B). apply (F2 r B). exact A.
Qed.

Lemma C104_exact_lemma : forall SB S dets clock rf md a fs d fs' ra, run_one clock rf (MkMethod dets (milp_exact SB S)) md a fs = (Ok d, fs') -> r_run d <> [] -> 1 <= ra_plot_no ra <= 3 -> ra_range ra = None ->
  (forall pm, pm = AllStates \/ pm = LastStates -> exists c, render (r_run d) pm ra = Ok [c] /\ c_index c = None /\ draws_values (r_run d) (ra_timeout ra) (ra_normalize ra) 0 (c_points c)) /\
  (forall wall : bool, exists c, render (r_run d) (if wall then WallTime else ProcTime) ra = Ok [c] /\ c_index c = None /\ draws_times (r_run d) (if wall then e_wall else e_proc) (ra_timeout ra) (ra_cap ra) (c_points c)).
Proof.
  intros SB S dets clock rf md a fs d fs' ra E NE HP HR. pose proof (exact_even _ _ _ _ _ _ _ _ _ _ E) as EV. split.
  - destruct (C104_states_lemma (r_run d) 1 ra NE EV ltac:(lia) HP HR) as ((cs & RA & LA & CA) & (c & RL & IL & DL)). intros pm [->| ->].
    + destruct cs as [|c0 [|? ?]]; try discriminate LA. destruct (CA 0 ltac:(lia)) as (c' & E0 & I0 & D0). injection E0 as <-. exists c0. auto.
    + exists c. auto.
  - intros wall. apply C104_times_lemma; auto. intros e He. destruct (C103_times_lemma _ _ _ _ _ _ _ _ E) as (_ & HT). destruct (In_nth_error _ _ He) as (i & Hi). destruct (HT i e Hi) as (LW & LP & _).
    destruct (EV e He) as (L & _). intros X. destruct wall; rewrite X in *; cbn in *; lia.
Qed.

Lemma C104_qs_lemma : forall SB S iterations ini up dets clock rf md a fs d fs' ra, run_one clock rf (MkMethod dets (qs_heur SB S iterations ini up)) md a fs = (Ok d, fs') -> r_run d <> [] -> 0 < iterations ->
  (forall e q, In e (r_run d) -> In (Some q) (e_values e) -> ~ (q == -1)%Q) -> 1 <= ra_plot_no ra <= 3 -> ra_range ra = None ->
  (exists cs, render (r_run d) AllStates ra = Ok cs /\ length cs = iterations /\ forall i, i < iterations -> exists c, nth_error cs i = Some c /\
     c_index c = (if iterations =? 1 then None else Some (Z.of_nat (Datatypes.S i))) /\ draws_values (r_run d) (ra_timeout ra) (ra_normalize ra) i (c_points c)) /\
  (exists c, render (r_run d) LastStates ra = Ok [c] /\ c_index c = (if iterations =? 1 then None else Some (Z.of_nat iterations)) /\ draws_values (r_run d) (ra_timeout ra) (ra_normalize ra) (iterations - 1) (c_points c)).
Proof. intros SB S it ini up dets clock rf md a fs d fs' ra E NE HI N HP HR. apply C104_states_lemma; auto. eapply qs_even; eauto. Qed.
