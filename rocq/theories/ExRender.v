(** Examples: benchmark runs, their files and their curves. *)
From Coq Require Import String List Arith ZArith QArith Qreals Reals Bool Lia Lra.
From Verif Require Import Base BaseFacts Num Matrix InvDict SpecMdp SpecBuilt SpecProb SpecLp SpecTreeMin SpecSystem Amdp ReachForm Milp Subsystem Formulations Problems Benchmarks BenchRun BenchRunProofs SpecRender Tree TreeDecomp TreeMinWit LinSolve
  MilpFinal HeurFinal Examples ExProofs2 ExProofs5.
Import ListNotations.
Local Open Scope nat_scope.
Local Open Scope string_scope.

Definition ex_clock (i j : nat) : Q * Q := (inject_Z (Z.of_nat (1 + j)), (1 # 2) * inject_Z (Z.of_nat (1 + j)))%Q.
Definition qs2 (S : nat -> solver) : bmethod :=
  MkMethod (MkDetails "QSHeur" [("solver", "cbc"); ("iterations", "2"); ("initializertype", "AllOnesInitializer"); ("updatertype", "InverseResultUpdater")]) (qs_heur sized_ex S 2 all_ones_init inverse_result).
Definition exact_m (S : solver) : bmethod := MkMethod (MkDetails "MILPExact" [("solver", "cbc")]) (milp_exact sized_ex S).
(** TreeAlgo(partition, known_upper_bound=4); tree_algo.py 16-22: the details do
    not mention the partition. *)
Definition tree_m (ps : list (list nat)) : bmethod :=
  MkMethod (MkDetails "TreeAlgo" [("known_upper_bound", "4"); ("tol", "1e-12")]) (tree_iter sized_ex heur_S (fun rf t u => min_witnesses gauss in_order no_hull never rf ps t (Some 4)) (Some 4%Q)).

Definition std_args : bargs := MkArgs (1 # 10) (1 # 2) (2 # 10) true true None true.
Definition one_thr (t : Q) : bargs := MkArgs t t (1 - t)%Q false true None true.
Definition std_rargs : rargs := MkRArgs true None None true 1 3.

(** The solver of the second threshold does not finish. *)
Definition late_S (i : nat) : solver := fun m => if existsb (fun kc => Qeq_bool (c_rhs (snd kc)) (- (3 # 10))%Q) (mi_constrs m) then MkRes NotSolved [] 0%Q else heur_S i m.

(** Threshold 9/10 is above the probability 3/4. *)
Definition high_S : solver := fun _ => MkRes Infeasible [] 0%Q.
Definition high_mm : milp * dict nat (list nat) := Eval vm_compute in some_milp (construct_milp sized_ex ch3rf ((9 # 10) + inject_Z (Z.of_nat 0) * (1 - (9 # 10))) Min None false None).
Lemma high_infeasible : forall x, ~ feasible (fst high_mm) x.
Proof.
  intros x (_ & FC). cbn [high_mm fst mi_constrs] in FC.
  pose proof (FC _ _ (or_introl eq_refl)) as A. pose proof (FC _ _ (or_intror (or_introl eq_refl))) as B. pose proof (FC _ _ (or_intror (or_intror (or_introl eq_refl)))) as C.
  pose proof (FC _ _ (or_intror (or_intror (or_intror (or_introl eq_refl))))) as D. clear FC. unfold sat_constr, SpecLp.rel in *. cbn [c_sense c_lhs c_rhs lin] in *. unfold Q2R in *. cbn in *. lra.
Qed.

Lemma C104_empty_lemma : exists rf dets SB S clock md a d fs', built_form rf /\ exact_rows (a_P (rf_sys rf)) /\ (forall ths t mm ind, arange (b_from a) 1 (b_step a) = Ok ths -> In t ths -> construct_milp SB rf t md None false None = Ok (Some (mm, ind)) -> exact_answer mm (S mm)) /\
  run_one clock rf (MkMethod dets (milp_exact SB S)) md a [] = (Ok d, fs') /\ forall pm ra, pm <> OtherPlot -> 1 <= ra_plot_no ra <= 3 -> render (r_run d) pm ra = Err IndexError.
Proof.
  exists ch3rf, (m_details (exact_m high_S)), sized_ex, high_S, ex_clock, Min, (one_thr (9 # 10)). do 2 eexists. split; [apply ch3rf_built|]. split; [apply exact_ch3|]. split.
  { intros ths t mm ind EA Ht EC. unfold exact_answer, high_S. cbn [sr_status]. vm_compute in EA. injection EA as <-. destruct Ht as [<-|[]]. 
    assert (E2 : mm = fst high_mm) by (vm_compute in EC; injection EC as <- _; reflexivity). rewrite E2. apply high_infeasible. }
  split; [vm_compute; reflexivity|]. intros pm ra H1 H2. unfold render. destruct (Nat.leb_spec 1 (ra_plot_no ra)); [|lia]. destruct (Nat.leb_spec (ra_plot_no ra) 3); [|lia]. destruct pm; try congruence; reflexivity.
Qed.

(** The second threshold ends in a timeout: its entry is shorter. *)
Lemma C104_short_lemma : exists rf dets S clock md d fs', built_form rf /\ exact_rows (a_P (rf_sys rf)) /\
  run_one clock rf (MkMethod dets (qs_heur sized_ex S 2 all_ones_init inverse_result)) md std_args [] = (Ok d, fs') /\ length (r_run d) = 2 /\
  forall pm ra, pm = AllStates \/ pm = LastStates -> ra_range ra = None -> 1 <= ra_plot_no ra <= 3 -> render (r_run d) pm ra = Err IndexError.
Proof.
  exists ch3rf, (m_details (qs2 late_S)), late_S, ex_clock, Min. do 2 eexists. split; [apply ch3rf_built|]. split; [apply exact_ch3|]. split; [vm_compute; reflexivity|]. split; [reflexivity|].
  intros pm ra HM HR HP. unfold render. destruct (Nat.leb_spec 1 (ra_plot_no ra)); [|lia]. destruct (Nat.leb_spec (ra_plot_no ra) 3); [|lia]. rewrite HR.
  destruct HM as [->| ->]; cbn [andb assert_ bind r_run nth_error of_opt]; cbn -[state_curve mapM]; destruct ra as [nm rg tv cap pn mk]; cbn in *; destruct tv as [q|], nm; vm_compute; reflexivity.
Qed.

Lemma C103_overwritten_lemma : exists rf ps1 ps2 clock ds d1 d2 fs', built_form rf /\ exact_rows (a_P (rf_sys rf)) /\ tree_call gauss in_order rf ps1 (1 # 2) /\ tree_call gauss in_order rf ps2 (1 # 2) /\
  run_many clock rf [tree_m ps1; tree_m ps2] [Min] (one_thr (1 # 2)) [] = (Ok ds, fs') /\ ds = [d1; d2] /\ map e_values (r_run d1) <> map e_values (r_run d2) /\ forall n, dget String.eqb fs' n <> Some d1.
Proof.
  exists looprf, [[0; 1; 2]; [3]], [[0; 1; 2; 3]], (fun _ => ex_clock). do 4 eexists. split; [exact loop_built|]. split; [exact exact_loop|]. split; [apply loop_call; reflexivity|].
  split; [apply tree_call_one; [exact loop_built|exact exact_loop| | | |]; vm_compute; reflexivity|]. split; [vm_compute; reflexivity|]. split; [reflexivity|]. split; [cbn; discriminate|].
  intros n. cbn [dget]. destruct (String.eqb n _); discriminate.
Qed.
