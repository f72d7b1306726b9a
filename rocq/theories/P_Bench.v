(** Property C51: benchmark runs. *)
From Coq Require Import String List Arith ZArith QArith Bool.
From Verif Require Import Base Num Matrix SpecBuilt SpecBench Amdp ReachForm Milp Problems Benchmarks BenchProofs HeurFinal MilpFinal Examples ExProofs2 ExProofs5.
Import ListNotations.
Local Open Scope nat_scope.

(** C51.  Entries are those of the first thresholds, in order; the run ends at
    the end of the range, at an infeasible threshold (not recorded), or at a
    timeout (recorded).  The end of the range is min(1, to + step). *)
Theorem C51_entries_partial : forall it rf md from to step debug labels stop data, (0 < step)%Q ->
  bench_one it rf md from to step debug labels stop = Ok data ->
  (forall i thr vals, nth_error data i = Some (thr, vals) ->
     thr = (from + inject_Z (Z.of_nat i) * step)%Q /\ (0 <= thr)%Q /\ (thr < 1)%Q /\ (thr < to + step)%Q /\
     (complete_at stop (it rf thr md labels) vals \/ (S i = length data /\ timeout_at stop (it rf thr md labels) vals))) /\
  let next := (from + inject_Z (Z.of_nat (length data)) * step)%Q in
  (1 <= next)%Q \/ (to + step <= next)%Q \/ infeasible_at stop (it rf next md labels) \/
  exists d thr vals, data = (d ++ [(thr, vals)])%list /\ timeout_at stop (it rf thr md labels) vals.
Proof. exact C51_lemma. Qed.
Print Assumptions C51_entries_partial.

(** Several methods and modes: one run for each pair. *)
Theorem C51_methods : forall its rf mds from to step debug labels stop ds,
  bench_many its rf mds from to step debug labels stop = Ok ds ->
  length ds = length its * length mds /\
  forall i j it md, nth_error its i = Some it -> nth_error mds j = Some md ->
    exists data, nth_error ds (i * length mds + j) = Some data /\ bench_one it rf md from to step debug labels stop = Ok data.
Proof. exact C51_many_lemma. Qed.
Print Assumptions C51_methods.

(** The range is one step longer than requested. *)
Theorem C51_range_refuted : exists it rf from to step data thr vals, built_form rf /\ (0 < step)%Q /\ bench_one it rf Min from to step false None true = Ok data /\ In (thr, vals) data /\ (to < thr)%Q.
Proof. exact C51_range_lemma. Qed.
Print Assumptions C51_range_refuted.

Example C51_nonvacuous : bench_one (qs_heur sized_ex heur_S 2 all_ones_init inverse_result) ch3rf Min (1#10) (1#2) (2#10) true None true =
  Ok [((1#10) + 0 * (2#10), [Some 3; Some 1]); ((1#10) + 1 * (2#10), [Some 3; Some 1]); ((1#10) + 2 * (2#10), [Some 3; Some 1])]%Q.
Proof. vm_compute. reflexivity. Qed.
