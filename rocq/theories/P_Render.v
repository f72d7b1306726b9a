(** Properties C103 and C104: times, files and curves of benchmark runs. *)
From Coq Require Import String List Arith ZArith QArith Bool Lia.
From Verif Require Import Base Num Matrix SpecSystem SpecBuilt SpecLp SpecTreeMin Amdp ReachForm Milp Formulations Problems Benchmarks BenchRun SpecRender TreeMinWit LinSolve
  BenchRunProofs BenchRunProofs2 MilpFinal HeurFinal Examples ExProofs2 ExProofs5 ExRender.
Import ListNotations.
Local Open Scope nat_scope.

(** C103, times: the entries are those of C51, and every value comes with the
    times at which its result arrived. *)
Theorem C103_times : forall clock rf me md a fs d fs', run_one clock rf me md a fs = (Ok d, fs') ->
  bench_one (m_iter me) rf md (b_from a) (b_to a) (b_step a) (b_debug a) (b_labels a) (b_stop a) = Ok (map (fun e => (e_thr e, e_values e)) (r_run d)) /\
  forall i e, nth_error (r_run d) i = Some e -> length (e_wall e) = length (e_values e) /\ length (e_proc e) = length (e_values e) /\
    forall j, j < length (e_values e) -> nth_error (e_wall e) j = Some (fst (clock i j)) /\ nth_error (e_proc e) j = Some (snd (clock i j)).
Proof. exact C103_times_lemma. Qed.
Print Assumptions C103_times.

(** C103, one method: the file contains what is returned, other files are
    untouched; a run that raises writes nothing. *)
Theorem C103_files : forall clock rf me md a fs o fs', run_one clock rf me md a fs = (o, fs') ->
  match o with
  | Ok d => r_method d = m_details me /\ r_mode d = md /\ (b_json a = true -> dget String.eqb fs' (json_name (m_details me) md) = Some d) /\
      (forall n, b_json a = false \/ n <> json_name (m_details me) md -> dget String.eqb fs' n = dget String.eqb fs n)
  | Err _ => fs' = fs
  end.
Proof. exact C103_files_lemma. Qed.
Print Assumptions C103_files.

(** C103, several methods: every pair of method and mode has its file, if the
    printed forms of the methods differ. *)
Theorem C103_many_partial : forall clock rf mes mds a fs ds fs', run_many clock rf mes mds a fs = (Ok ds, fs') ->
  length ds = length mes * length mds /\
  forall i j me md, nth_error mes i = Some me -> nth_error mds j = Some md ->
    exists d f g, nth_error ds (i * length mds + j) = Some d /\ run_one (clock (i * length mds + j)) rf me md a f = (Ok d, g) /\
      (b_json a = true -> NoDup (map (fun me => method_repr (m_details me)) mes) -> NoDup mds -> ~ In OtherMode mds -> dget String.eqb fs' (json_name (m_details me) md) = Some d).
Proof. exact C103_many_lemma. Qed.
Print Assumptions C103_many_partial.

(** Two instances of TreeAlgo with different partitions have the same printed
    form: the data of the first are not in any file. *)
Theorem C103_overwritten_refuted : exists rf ps1 ps2 clock ds d1 d2 fs', built_form rf /\ exact_rows (a_P (rf_sys rf)) /\ tree_call gauss in_order rf ps1 (1 # 2) /\ tree_call gauss in_order rf ps2 (1 # 2) /\
  run_many clock rf [tree_m ps1; tree_m ps2] [Min] (one_thr (1 # 2)) [] = (Ok ds, fs') /\ ds = [d1; d2] /\ map e_values (r_run d1) <> map e_values (r_run d2) /\ forall n, dget String.eqb fs' n <> Some d1.
Proof. exact C103_overwritten_lemma. Qed.
Print Assumptions C103_overwritten_refuted.

Example C103_nonvacuous : (exists d fs', run_one ex_clock ch3rf (qs2 heur_S) Min std_args [] = (Ok d, fs') /\ length (r_run d) = 3 /\ map fst fs' = ["QSHeur(solver=cbc,iterations=2,initializertype=AllOnesInitializer,updatertype=InverseResultUpdater)-min.json"%string]) /\
  (exists ds fs', run_many (fun _ => ex_clock) ch3rf [qs2 heur_S; exact_m high_S] [Min] std_args [] = (Ok ds, fs') /\ length ds = 2 /\ length fs' = 2) /\
  NoDup (map (fun me => method_repr (m_details me)) [qs2 heur_S; exact_m high_S]) /\
  run_one ex_clock ch3rf (qs2 heur_S) OtherMode std_args [] = (Err AssertionError, []).
Proof.
  split; [do 2 eexists; split; [vm_compute; reflexivity|split; reflexivity]|]. split; [do 2 eexists; split; [vm_compute; reflexivity|split; reflexivity]|]. split; [|vm_compute; reflexivity].
  vm_compute. constructor; [intros [H|[]]; discriminate|]. constructor; [intros []|constructor].
Qed.

(** C104, the claim: every run that [run] returns can be drawn, and the points
    are its thresholds and values.  It holds if the run is not empty and all
    thresholds have the same number of values. *)
Theorem C104_states_partial : forall run k a, run <> [] -> even_run k run -> 0 < k -> 1 <= ra_plot_no a <= 3 -> ra_range a = None ->
  (exists cs, render run AllStates a = Ok cs /\ length cs = k /\ forall i, i < k -> exists c, nth_error cs i = Some c /\
     c_index c = (if k =? 1 then None else Some (Z.of_nat (S i))) /\ draws_values run (ra_timeout a) (ra_normalize a) i (c_points c)) /\
  (exists c, render run LastStates a = Ok [c] /\ c_index c = (if k =? 1 then None else Some (Z.of_nat k)) /\ draws_values run (ra_timeout a) (ra_normalize a) (k - 1) (c_points c)).
Proof. exact C104_states_lemma. Qed.
Print Assumptions C104_states_partial.

Theorem C104_times_partial : forall run a (wall : bool), run <> [] -> (forall e, In e run -> (if wall then e_wall e else e_proc e) <> []) -> 1 <= ra_plot_no a <= 3 -> ra_range a = None ->
  exists c, render run (if wall then WallTime else ProcTime) a = Ok [c] /\ c_index c = None /\ draws_times run (if wall then e_wall else e_proc) (ra_timeout a) (ra_cap a) (c_points c).
Proof. exact C104_times_lemma. Qed.
Print Assumptions C104_times_partial.

(** Every run of MILPExact that is not empty can be drawn. *)
Theorem C104_exact_partial : forall SB S dets clock rf md a fs d fs' ra, run_one clock rf (MkMethod dets (milp_exact SB S)) md a fs = (Ok d, fs') -> r_run d <> [] -> 1 <= ra_plot_no ra <= 3 -> ra_range ra = None ->
  (forall pm, pm = AllStates \/ pm = LastStates -> exists c, render (r_run d) pm ra = Ok [c] /\ c_index c = None /\ draws_values (r_run d) (ra_timeout ra) (ra_normalize ra) 0 (c_points c)) /\
  (forall wall : bool, exists c, render (r_run d) (if wall then WallTime else ProcTime) ra = Ok [c] /\ c_index c = None /\ draws_times (r_run d) (if wall then e_wall else e_proc) (ra_timeout ra) (ra_cap ra) (c_points c)).
Proof. exact C104_exact_lemma. Qed.
Print Assumptions C104_exact_partial.

(** So can every run of QSHeur without failures. *)
Theorem C104_qs_partial : forall SB S iterations ini up dets clock rf md a fs d fs' ra, run_one clock rf (MkMethod dets (qs_heur SB S iterations ini up)) md a fs = (Ok d, fs') -> r_run d <> [] -> 0 < iterations ->
  (forall e q, In e (r_run d) -> In (Some q) (e_values e) -> ~ (q == -1)%Q) -> 1 <= ra_plot_no ra <= 3 -> ra_range ra = None ->
  (exists cs, render (r_run d) AllStates ra = Ok cs /\ length cs = iterations /\ forall i, i < iterations -> exists c, nth_error cs i = Some c /\
     c_index c = (if iterations =? 1 then None else Some (Z.of_nat (Datatypes.S i))) /\ draws_values (r_run d) (ra_timeout ra) (ra_normalize ra) i (c_points c)) /\
  (exists c, render (r_run d) LastStates ra = Ok [c] /\ c_index c = (if iterations =? 1 then None else Some (Z.of_nat iterations)) /\ draws_values (r_run d) (ra_timeout ra) (ra_normalize ra) (iterations - 1) (c_points c)).
Proof. exact C104_qs_lemma. Qed.
Print Assumptions C104_qs_partial.

(** If the first threshold is infeasible, the run is empty and every drawing
    raises IndexError. *)
Theorem C104_empty_refuted : exists rf dets SB S clock md a d fs', built_form rf /\ exact_rows (a_P (rf_sys rf)) /\
  (forall ths t mm ind, arange (b_from a) 1 (b_step a) = Ok ths -> In t ths -> construct_milp SB rf t md None false None = Ok (Some (mm, ind)) -> exact_answer mm (S mm)) /\
  run_one clock rf (MkMethod dets (milp_exact SB S)) md a [] = (Ok d, fs') /\ forall pm ra, pm <> OtherPlot -> 1 <= ra_plot_no ra <= 3 -> render (r_run d) pm ra = Err IndexError.
Proof. exact C104_empty_lemma. Qed.
Print Assumptions C104_empty_refuted.

(** If QSHeur is stopped by a timeout, the last entry is shorter and drawing
    the states raises IndexError. *)
Theorem C104_short_refuted : exists rf dets S clock md d fs', built_form rf /\ exact_rows (a_P (rf_sys rf)) /\
  run_one clock rf (MkMethod dets (qs_heur sized_ex S 2 all_ones_init inverse_result)) md std_args [] = (Ok d, fs') /\ length (r_run d) = 2 /\
  forall pm ra, pm = AllStates \/ pm = LastStates -> ra_range ra = None -> 1 <= ra_plot_no ra <= 3 -> render (r_run d) pm ra = Err IndexError.
Proof. exact C104_short_lemma. Qed.
Print Assumptions C104_short_refuted.

Example C104_nonvacuous : exists d fs' c, run_one ex_clock ch3rf (qs2 heur_S) Min std_args [] = (Ok d, fs') /\ even_run 2 (r_run d) /\ r_run d <> [] /\
  (forall e q, In e (r_run d) -> In (Some q) (e_values e) -> ~ (q == -1)%Q) /\ (forall e, In e (r_run d) -> e_wall e <> []) /\
  render (r_run d) LastStates std_rargs = Ok [c] /\ map snd (c_points c) = [Some (1 # 1000); Some (1 # 1000); Some (1 # 1000)]%Q /\
  (exists d2 f2, run_one ex_clock ch3rf (exact_m (fun _ => MkRes NotSolved [] 0%Q)) Min std_args [] = (Ok d2, f2) /\ r_run d2 <> []).
Proof.
  do 3 eexists. split; [vm_compute; reflexivity|]. cbn [r_run]. split.
  { intros e He. repeat (destruct He as [<-|He]; [split; [reflexivity|cbn; intros [H|[H|[]]]; discriminate]|]). destruct He. }
  split; [discriminate|]. split.
  { intros e q He Hq. repeat (destruct He as [<-|He]; [cbn in Hq; destruct Hq as [H|[H|[]]]; injection H as <-; discriminate|]). destruct He. }
  split. { intros e He. repeat (destruct He as [<-|He]; [discriminate|]). destruct He. }
  split; [vm_compute; reflexivity|]. split; [vm_compute; reflexivity|]. do 2 eexists. split; [vm_compute; reflexivity|discriminate].
Qed.
