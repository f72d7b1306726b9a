(** Proofs about the command line: minimize and certify. *)
From Coq Require Import String List Arith ZArith QArith Qreals Reals Bool Lia.
From Verif Require Import Base BaseFacts Num Matrix MatFacts InvDict GraphSpec SccSpec SpecMdp SpecEc SpecSystem SpecForm SpecBuilt SpecProb SpecReduce SpecFiles SpecSub
  Amdp AmdpProofs ReachForm ReachFormProofs RfFacts FarkProofs BuiltFacts RfBridge Milp Formulations Certificates CertProofs CertProofs2 Files Subsystem Problems Cli SpecCli CliProofs1 CliProofs5.
Import ListNotations.
Local Open Scope nat_scope.
Local Open Scope string_scope.

Lemma iobind_done : forall A B (x : io A) (f : A -> world -> io B) b w', iobind x f = Done b w' -> exists a w, x = Done a w /\ f a w = Done b w'.
Proof. intros A B x f b w' H. destruct x as [a w|e w]; [|discriminate]. exists a, w. auto. Qed.
Lemma lift_done : forall A (r : res A) w a w', lift r w = Done a w' -> r = Ok a /\ w' = w.
Proof. intros A r w a w' H. destruct r; [|discriminate]. cbn in H. injection H as <- <-. auto. Qed.
Tactic Notation "ios" hyp(H) "as" ident(a) ident(w) ident(E) := apply iobind_done in H; destruct H as (a & w & E & H).
Tactic Notation "iol" hyp(H) "as" ident(a) ident(E) := apply iobind_done in H; let w := fresh "w" in destruct H as (a & w & E & H); apply lift_done in E; destruct E as [E ->].

Lemma exited : forall E c a w w', switss E c a w = Exited w' ->
  (match c with CRf => rf_cmd | CInfo => info_cmd | CMinimize => minimize_cmd | CCertify => certify_cmd | CSubsystem => subsystem_cmd end) E a w = Done tt w'.
Proof.
  intros E c a w w' H. unfold switss in H. destruct ((match c with CRf => rf_cmd | CInfo => info_cmd | CMinimize => minimize_cmd | CCertify => certify_cmd | CSubsystem => subsystem_cmd end) E a w) as [[] w1|e w1].
  - injection H as ->. reflexivity.
  - destruct e as [[]|]; discriminate.
Qed.

(** ** minimize *)

Lemma keys_in_none : forall d ks k, keys_in d ks = true -> memb k ks = false -> dget String.eqb d k = None.
Proof.
  intros d ks k H M. apply (dget_None String.eqb String.eqb_spec). intros X. unfold keys_in in H. rewrite forallb_forall in H. specialize (H k X). congruence.
Qed.
Lemma method_no_mode : forall name mp me, mk_method name mp = Ok me -> dget String.eqb mp "mode" = None.
Proof.
  intros name mp me H. unfold mk_method in H. destruct (String.eqb name "QSHeur").
  - destruct (keys_in mp ["iterations"; "initializertype"; "updatertype"; "solver"]) eqn:K; [|discriminate]. eapply keys_in_none; [exact K|reflexivity].
  - destruct (keys_in mp ["solver"]) eqn:K; [|discriminate]. eapply keys_in_none; [exact K|reflexivity].
Qed.
Lemma process_nothing : forall E a rf mp sp idx rs e w js w', dget String.eqb mp "mode" = None -> process_all E a rf mp sp idx rs e w = Done js w' -> js = []%list /\ w' = w.
Proof.
  intros E a rf mp sp idx rs e w js w' M H. destruct rs as [|r rs]; cbn [process_all] in H.
  - destruct e; [discriminate|]. injection H as <- <-. auto.
  - ios H as j w1 Ej. unfold process_result in Ej. iol Ej as sub Es. iol Ej as tvb Et. rewrite M in Et. discriminate Et.
Qed.

Lemma C90_lemma : forall E a w w', switss E CMinimize a w = Exited w' -> w_out w' = w_out w /\ changes_only [min_output a] w w' /\
  exists j, w_fs w' (min_output a) = Some (FJson j) /\ getitem j "instances" = Ok (JArr []).
Proof.
  intros E a w w' H. apply exited in H. unfold minimize_cmd in H. ios H as m w1 E1. apply load_stored in E1. destruct E1 as [-> _]. iol H as u1 A1. iol H as u2 A2. iol H as rf E2. cbv zeta in H.
  iol H as u3 E3. iol H as mp E4. iol H as me E5. iol H as sp E6. ios H as js w2 E7. injection H as <-. apply method_no_mode in E5.
  assert (X : js = []%list /\ w2 = w).
  { destruct (negb (Nat.eqb (length (solve_iter_args a)) 0)); iol E7 as g Eg; eapply process_nothing; eauto. }
  destruct X as [-> ->]. split; [reflexivity|]. split.
  - intros p Hp. unfold write, store. cbn [w_fs]. destruct (String.eqb_spec p (min_output a)); [exfalso; apply Hp; left; auto|reflexivity].
  - eexists. split; [unfold write, store; cbn [w_fs]; rewrite String.eqb_refl; reflexivity|]. reflexivity.
Qed.

(** ** certify *)

Lemma check_total : forall rf md t v tol, built_form rf -> md <> OtherMode -> rf_init rf < a_N (rf_sys rf) - 2 -> (0 <= t)%Q -> (t <= 1)%Q ->
  length v = (match md with Min => a_N (rf_sys rf) - 2 | _ => a_C (rf_sys rf) - 2 end) -> exists b, check_farkas rf md FGe t v tol = Ok b.
Proof.
  intros rf md t v tol BF HM HI T0 T1 HL. unfold check_farkas. rewrite (proj2 (unit_assert t)) by (split; auto). cbn [assert_ bind].
  pose proof (br_ro rf BF) as RO. destruct md; [| |congruence].
  - unfold right_constraint_set. cbn [right_form bind]. destruct (proj2 (fark_z_ok rf t) HI) as (A & b & ->). cbn [bind]. change (rf_N rf) with (a_N (rf_sys rf) - 2). rewrite HL, Nat.eqb_refl. cbn [assert_ bind].
    destruct (ec_zero_z rf BF v (seq 0 (a_N (rf_sys rf) - 2))) as (z & Ez & _); [intros i Hx; apply in_seq in Hx; split; [unfold rf_N|]; lia|]. cbn [is_upper]. rewrite Ez. cbn [bind]. destruct z; eauto.
  - unfold right_constraint_set. cbn [right_form bind]. destruct (proj2 (fark_y_ok rf t)) as (A & b & ->); [unfold rf_N; lia|]. cbn [bind]. change (rf_C rf) with (a_C (rf_sys rf) - 2). rewrite HL, Nat.eqb_refl. cbn [assert_ bind]. eauto.
Qed.

Lemma check_accepted : forall rf md t v tol, built_form rf -> md = "min" \/ md = "max" -> rf_init rf < a_N (rf_sys rf) - 2 -> (0 <= t)%Q -> (t <= 1)%Q ->
  length v = (if String.eqb md "min" then a_N (rf_sys rf) - 2 else a_C (rf_sys rf) - 2) ->
  exists b, check_farkas rf (as_mode (JStr md)) FGe t v tol = Ok b /\ (b = true <-> accepted (rf_sys rf) (rf_init rf) md t v tol).
Proof.
  intros rf md t v tol BF HM HI T0 T1 HL. destruct HM as [->| ->].
  - destruct (check_total rf Min t v tol BF ltac:(discriminate) HI T0 T1 HL) as (b & E). exists b. split; [exact E|].
    assert (X : b = true <-> check_farkas rf Min FGe t v tol = Ok true) by (rewrite E; split; [intros ->; auto|intros Y; injection Y; auto]).
    rewrite X, (check_z_min rf BF FGe t v tol (or_introl eq_refl)). unfold accepted. cbv zeta. cbn [String.eqb Ascii.eqb Bool.eqb]. split.
    + intros (_ & _ & _ & A1 & A2 & A3 & _). split; [exact A1|]. split; [|exact A3]. intros i s a Hi Ei. specialize (A2 i s a Hi Ei). unfold step_value in A2. change (rf_N rf) with (a_N (rf_sys rf) - 2) in A2. Lqa.lra.
    + intros (A1 & A2 & A3). split; [split; auto|]. split; [exact HI|]. split; [exact HL|]. split; [exact A1|]. split; [|split; [exact A3|discriminate]].
      intros i s a Hi Ei. specialize (A2 i s a Hi Ei). unfold step_value. change (rf_N rf) with (a_N (rf_sys rf) - 2). Lqa.lra.
  - destruct (check_total rf Max t v tol BF ltac:(discriminate) HI T0 T1 HL) as (b & E). exists b. split; [exact E|].
    assert (X : b = true <-> check_farkas rf Max FGe t v tol = Ok true) by (rewrite E; split; [intros ->; auto|intros Y; injection Y; auto]).
    rewrite X, (check_y_max rf BF FGe t v tol (or_introl eq_refl)). unfold accepted. cbv zeta. cbn [String.eqb Ascii.eqb Bool.eqb]. split.
    + intros (_ & _ & _ & A2 & A3 & _). split; [|exact A3]. intros s Hs. specialize (A2 s Hs). unfold flow, at_init in A2. change (rf_C rf) with (a_C (rf_sys rf) - 2) in A2. Lqa.lra.
    + intros (A2 & A3). split; [split; auto|]. split; [change (rf_N rf) with (a_N (rf_sys rf) - 2); lia|]. split; [exact HL|]. split; [|split; [exact A3|discriminate]].
      intros s Hs. specialize (A2 s Hs). unfold flow, at_init. change (rf_C rf) with (a_C (rf_sys rf) - 2). Lqa.lra.
Qed.

Lemma as_vector_map : forall v, as_vector (JArr (map JNum v)) = Ok v.
Proof. intros v. cbn [as_vector]. induction v as [|q v IH]; [reflexivity|]. cbn. cbn in IH. rewrite IH. reflexivity. Qed.

Section Certify.
  Variables (E : env) (a : args) (w : world) (m : amdp) (rf : rform) (p : string) (j : json).
  Hypothesis ST : stored w (modeltype a) (modelpath a) m.
  Hypothesis GF : gen_rf E m a = Ok rf.
  Hypothesis CP : certificate a = Some p.
  Hypothesis FJ : w_fs w p = Some (FJson j).

  Lemma cert_form : built_form rf /\ rf_sys rf = m.
  Proof.
    pose proof ST as (lab0 & tra0 & _ & _ & F). destruct (from_file_ok _ _ _ _ F) as (B & _). split.
    - exists (e_rnd E), m, (initial_label a), (target_label_rf a), (fail_label_rf a). auto.
    - apply (C11_contents_lemma _ _ _ _ _ _ B GF).
  Qed.

  Lemma certify_run : forall l i, getitem j "instances" = Ok i -> elements i = Ok l -> certify_cmd E a w = each (certify_one a rf j) l w.
  Proof.
    intros l i G1 G2. unfold certify_cmd. rewrite (stored_load a w m ST). cbn [iobind]. rewrite GF. cbn [lift iobind]. unfold load_results, open_json. rewrite CP, FJ. cbn [iobind]. rewrite G1. cbn [bind]. rewrite G2. reflexivity.
  Qed.

  Lemma C91_lemma : forall md es, rf_init rf < a_N m - 2 -> certificates_file j md es -> md = "min" \/ md = "max" -> (forall e, In e es -> checkable m md e) ->
    exists bs, switss E CCertify a w = Exited (MkWorld (w_fs w) (w_out w ++ verdicts es bs)) /\
      Forall2 (fun e b => b = true <-> accepted m (rf_init rf) md (en_threshold e) (en_cert e) (tolerance a)) es bs.
  Proof.
    intros md es HI ((me & M1 & M2) & l & L & F) HM CK. destruct cert_form as [BF ES]. unfold switss. rewrite (certify_run l (JArr l) L eq_refl). clear L.
    assert (W0 : w = MkWorld (w_fs w) (w_out w)) by (destruct w; auto). rewrite W0. cbn [w_fs w_out]. generalize (w_out w) as out. generalize (w_fs w) as fs. clear W0 FJ ST.
    induction F as [|x e l es (X1 & X2 & X3) F IH]; intros fs out.
    - exists []%list. cbn. rewrite app_nil_r. split; [reflexivity|constructor].
    - destruct (CK e (or_introl eq_refl)) as (T0 & T1 & LN). rewrite <- ES in HI, LN. destruct (check_accepted rf md (en_threshold e) (en_cert e) (tolerance a) BF HM HI T0 T1 LN) as (b & Eb & Hb). rewrite ES in HI, Hb.
      cbn [each]. unfold certify_one at 1, unpack. rewrite X3. cbn [bind]. rewrite as_vector_map. cbn [bind]. rewrite M1, X1, X2. cbn [bind lift iobind in_method in_iteration in_threshold in_cert]. rewrite M2. cbn [bind as_number]. rewrite Eb. cbn [lift iobind].
      unfold say. cbn [w_fs w_out].
      destruct (IH (fun e' H => CK e' (or_intror H)) fs (out ++ [Verdict (en_iteration e) (JNum (en_threshold e)) b])%list) as (bs & R & FB).
      exists (b :: bs). split; [|constructor; auto]. unfold verdicts in *. cbn [combine map fst snd]. rewrite <- app_assoc in R. exact R.
  Qed.
End Certify.
