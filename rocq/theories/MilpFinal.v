(** The statements about the exact models, over probabilities of schedulers. *)
From Coq Require Import String List Arith ZArith QArith Qreals Reals Bool Lia Lra.
From Verif Require Import Base BaseFacts Num Matrix InvDict SccSpec SpecMdp SpecEc SpecSystem SpecForm SpecBuilt SpecProb SpecSub SpecLp SpecMilp SumFacts MdpValue
  Amdp ReachForm RfFacts BuiltFacts RfBridge Milp Subsystem Formulations MilpMax MilpExact MilpMin BinExists Problems Examples.
Import ListNotations.
Local Open Scope nat_scope.

Lemma min_value : forall rf (BF : built_form rf) (EX : exact_rows (a_P (rf_sys rf))), rf_init rf < a_N (rf_sys rf) - 2 -> PrMinForm rf (rf_init rf) (Vmn rf BF EX (rf_init rf)).
Proof. intros rf BF EX Hi. apply (Vmn_min rf BF EX); [|reflexivity]. change (nS (form_mdp rf)) with (a_N (rf_sys rf)). lia. Qed.
Lemma max_value : forall rf (BF : built_form rf) (EX : exact_rows (a_P (rf_sys rf))), rf_init rf < a_N (rf_sys rf) - 2 -> PrMaxForm rf (rf_init rf) (Vmx rf BF EX (rf_init rf)).
Proof. intros rf BF EX Hi. apply (Vmx_max rf BF EX); [|reflexivity]. change (nS (form_mdp rf)) with (a_N (rf_sys rf)). lia. Qed.

Lemma C39_final : forall rf t SB, built_form rf -> exact_rows (a_P (rf_sys rf)) -> rf_init rf < a_N (rf_sys rf) - 2 ->
  exists pr mm ind, PrMinForm rf (rf_init rf) pr /\ construct_milp SB rf t Min None false None = Ok (Some (mm, ind)) /\ (exists r, exact_answer mm r) /\
    forall S, exact_answer mm (S mm) ->
      g_exn (milp_exact SB S rf t Min None) = None /\
      ((pr < Q2R t)%R -> g_items (milp_exact SB S rf t Min None) = [failure Infeasible]) /\
      ((Q2R t <= pr)%R -> exists sub v cert j, g_items (milp_exact SB S rf t Min None) = [MkPRes Success (Some sub) (Some v) (Some cert)] /\
        mk_subsystem rf cert Min false = Ok sub /\ cert_point rf Min t cert /\ Q2R v = INR j /\
        witness rf Min t (chosen (rf_sys rf) Min cert) /\ count (chosen (rf_sys rf) Min cert) (a_N (rf_sys rf) - 2) = j /\
        forall keep, witness rf Min t keep -> j <= count keep (a_N (rf_sys rf) - 2)).
Proof.
  intros rf t SB BF EX Hi. destruct (C39_lemma rf BF Hi EX SB t) as (mm & ind & E & H). exists (Vmn rf BF EX (rf_init rf)), mm, ind.
  split; [apply min_value; auto|]. split; [exact E|]. split; [apply bin_answer_exists; eapply construct_bin; eauto|]. exact H.
Qed.

Lemma C40_final : forall rf t, built_form rf -> exact_rows (a_P (rf_sys rf)) -> rf_init rf < a_N (rf_sys rf) - 2 ->
  (forall s, s < a_N (rf_sys rf) - 2 -> ~ in_some_ec (a_P (rf_sys rf)) (a_inv (rf_sys rf)) s) ->
  exists pr A b lp, PrMaxForm rf (rf_init rf) pr /\ fark_constraints rf t Max = Ok (A, b) /\ upper_bound_lp A (a_C (rf_sys rf) - 2) b = Ok lp /\ (exists r, exact_answer lp r) /\
    forall SB, exact_answer lp (SB lp) ->
      ((pr < Q2R t)%R -> forall S, milp_exact SB S rf t Max None = MkGen [failure Infeasible] None) /\
      ((Q2R t <= pr)%R -> exists mm ind, construct_milp SB rf t Max None false None = Ok (Some (mm, ind)) /\ (exists r, exact_answer mm r) /\
        forall S, exact_answer mm (S mm) -> g_exn (milp_exact SB S rf t Max None) = None /\
        exists sub v cert j, g_items (milp_exact SB S rf t Max None) = [MkPRes Success (Some sub) (Some v) (Some cert)] /\
          mk_subsystem rf cert Max false = Ok sub /\ cert_point rf Max t cert /\ Q2R v = INR j /\
          witness rf Max t (chosen (rf_sys rf) Max cert) /\ count (chosen (rf_sys rf) Max cert) (a_N (rf_sys rf) - 2) = j /\
          forall keep, witness rf Max t keep -> j <= count keep (a_N (rf_sys rf) - 2)).
Proof.
  intros rf t BF EX Hi FREE. destruct (C40_lemma rf BF Hi EX FREE t) as (A & b & lp & EA & EL & XA & H). exists (Vmx rf BF EX (rf_init rf)), A, b, lp.
  split; [apply max_value; auto|]. do 3 (split; [assumption|]). intros SB HA. destruct (H SB HA) as [(V & _ & G)|(V & mm & ind & E & G)].
  - split; [intros _; exact G|intros; lra].
  - split; [intros; lra|]. intros _. exists mm, ind. split; [exact E|]. split; [apply bin_answer_exists; eapply construct_bin; eauto|exact G].
Qed.

Lemma C41_final : forall rf t, built_form rf -> exact_rows (a_P (rf_sys rf)) -> rf_init rf < a_N (rf_sys rf) - 2 ->
  (forall s, s < a_N (rf_sys rf) - 2 -> ~ in_some_ec (a_P (rf_sys rf)) (a_inv (rf_sys rf)) s) ->
  exists A b lp, fark_constraints rf t Max = Ok (A, b) /\ upper_bound_lp A (a_C (rf_sys rf) - 2) b = Ok lp /\ (exists r, exact_answer lp r) /\
    forall S, exact_answer lp (S lp) -> exists st u, compute_upper_bounds S A (a_C (rf_sys rf) - 2) b = Ok (st, u) /\
      ((st = Infeasible /\ forall x, ~ (polytope rf Max t x /\ forall i, i < a_C (rf_sys rf) - 2 -> (0 <= x i)%R)) \/
       (st = Optimal /\ length u = a_C (rf_sys rf) - 2 /\
        forall x, polytope rf Max t x -> (forall i, i < a_C (rf_sys rf) - 2 -> (0 <= x i)%R) -> forall i, i < a_C (rf_sys rf) - 2 -> (x i <= vec u i)%R)).
Proof.
  intros rf t BF EX Hi FREE. assert (FR : ec_free (form_mdp rf)). { intros s Hs HE. apply (FREE s Hs). apply (br_ec rf BF EX). exact HE. }
  destruct (bounds_max rf BF EX Hi FR t) as (A & b & lp & EA & EL & XA & HB). exists A, b, lp. do 3 (split; [assumption|]). intros S HA.
  destruct (HB S HA) as [(NO & u & EU)|(_ & u & EU & LU & HU)]; [exists Infeasible, u|exists Optimal, u]; (split; [exact EU|]); [left|right].
  - split; [auto|]. intros x [P1 P2]. apply (NO x). split; auto.
  - split; [auto|]. split; [exact LU|]. intros x P1 P2 i Hic. apply (HU x); auto. split; auto.
Qed.

Lemma C38_final : forall rf S t md labels mm ind, built_form rf -> rf_init rf < a_N (rf_sys rf) - 2 ->
  (forall lp, sr_status (S lp) = Optimal -> length (sr_vec (S lp)) = length (mi_vars lp)) ->
  construct_milp S rf t md labels false None = Ok (Some (mm, ind)) ->
  exists u, length u = cert_dim rf md /\ (md = Min -> u = repeat 1%Q (cert_dim rf md)) /\
    (md = Max -> exists A b, fark_constraints rf t Max = Ok (A, b) /\ compute_upper_bounds S A (cert_dim rf md) b = Ok (Optimal, u)) /\
    map fst ind = seq (cert_dim rf md) (length ind) /\ grouping rf md labels true (map snd ind) /\
    (forall x, feasible mm x <->
      polytope rf md t x /\
      (forall v, v < cert_dim rf md -> (0 <= x v <= vec u v)%R /\ (md = Min -> in_some_ec (a_P (rf_sys rf)) (a_inv (rf_sys rf)) v -> x v = 0%R)) /\
      forall sigma G, In (sigma, G) ind -> (x sigma = 0%R \/ x sigma = 1%R) /\ forall v, In v G -> (0 < x v)%R -> x sigma = 1%R) /\
    (forall x, feasible mm x -> objective mm x = INR (ones (map fst ind) x)) /\ mi_dir mm = Minimise.
Proof. intros rf S t md labels mm ind BF Hi HS H. exact (C38_lemma rf BF Hi S t md labels mm ind HS H). Qed.

(** ** Examples *)
Lemma toy2_ecfree : forall s, s < a_N (rf_sys toy2rf) - 2 -> ~ in_some_ec (a_P (rf_sys toy2rf)) (a_inv (rf_sys toy2rf)) s.
Proof.
  apply (is_ec_free_iff toy2rf (rf_init toy2rf) (br_ro toy2rf toy2rf_built) (br_form toy2rf toy2rf_built)). vm_compute. reflexivity.
Qed.
(** A solver that answers "optimal" with vectors of the right length. *)
Definition sized_ex (lp : milp) : sresult := MkRes Optimal (repeat 2%Q (length (mi_vars lp))) 2%Q.
Definition some_milp (r : res (option (milp * dict nat (list nat)))) : milp * dict nat (list nat) :=
  match r with Ok (Some p) => p | _ => (MkMilp Minimise [] [] 0 None, []) end.
