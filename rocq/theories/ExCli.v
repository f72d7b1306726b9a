(** Concrete runs of the command line tool. *)
From Coq Require Import String List Arith ZArith QArith Qreals Reals Bool Ascii Lia.
From Verif Require Import Base Num Matrix InvDict GraphSpec SccSpec SpecMdp SpecSystem SpecForm SpecBuilt SpecProb SpecReduce SpecFiles SpecSub
  Amdp AmdpProofs ReachForm ReachFormProofs BuiltFacts Reduce ReduceProofs5 ReduceProofs6 RfBridge Milp Certificates CertProofs CertProofs2 ExProofs2 Files Cli SpecCli Examples ExTra ExFiles CliProofs1.
Import ListNotations.
Local Open Scope nat_scope.
Local Open Scope string_scope.

(** Four states; state 2 is a sink, the target 3 goes on. *)
Definition clm_tra : text := str ("4 6 9" ++ nl ++ "0 0 1 0.5" ++ nl ++ "0 0 2 0.5" ++ nl ++ "0 1 3 0.25" ++ nl ++ "0 1 2 0.75" ++ nl ++ "1 0 3 1" ++ nl ++ "1 1 3 0.4" ++ nl ++ "1 1 2 0.6" ++ nl ++ "2 0 2 1" ++ nl ++ "3 0 0 1" ++ nl).
Definition clm_lab : text := str ("0=""init"" 1=""goal"" 2=""red""" ++ nl ++ "0: 0 2" ++ nl ++ "3: 1" ++ nl).
Definition clm : amdp := Eval vm_compute in get_amdp (from_file KMdp clm_lab clm_tra).
Definition clw : world := MkWorld (store (store (fun _ => None) "m.lab" (FText clm_lab)) "m.tra" (FText clm_tra)) [].
Definition cl_solver : solver := fun _ => MkRes Optimal [] 0.
Definition clE : env := MkEnv exrnd (fun _ => "0") (fun s => if String.eqb s "0" then Ok 0%Z else Err ValueError)
  (fun s => if String.eqb s "0.2" then Ok (1 # 5)%Q else Err ValueError) (fun m => Ok m) cl_solver cl_solver (fun _ _ => cl_solver).
Definition cla : args := MkArgs KMdp "m" "init" "goal" "rf_target" "rf_fail" None None [] [] [] default_tolerance "subsystem".

Lemma clm_stored : stored clw KMdp "m" clm.
Proof. exists clm_lab, clm_tra. split; [reflexivity|]. split; [reflexivity|]. vm_compute. reflexivity. Qed.
Lemma clm_built : built clm.
Proof. destruct clm_stored as (lab & tra & _ & _ & E). apply (from_file_ok _ _ _ _ E). Qed.
Lemma clm_reducible : reducible clm "init" "goal" "rf_target" "rf_fail" 0.
Proof.
  split.
  { intros s Hs. change (a_N clm) with 4 in Hs. destruct s as [|[|[|[|s]]]]; [exists 0, 0|exists 0, 2|exists 0, 4|exists 0, 5|lia]; (split; [change (a_C clm) with 6; lia|vm_compute; reflexivity]). }
  split. { intros s H. unfold has_label in H. vm_compute in H. destruct H as [<-|[]]. vm_compute. lia. }
  split. { intros s. unfold has_label. vm_compute. intuition. }
  split; [vm_compute; lia|].
  split. { exists 3. split; [vm_compute; auto|]. apply rtc_step with 3; [|constructor]. exists 1, 1, (0.25)%Q. split; [vm_compute; auto|vm_compute; reflexivity]. }
  split; [vm_compute; intuition discriminate|]. split; [vm_compute; intuition discriminate|discriminate].
Qed.
Lemma clm_six : six_decimals clm. Proof. apply six_ok. vm_compute. reflexivity. Qed.
Lemma clm_exact : exact_rows (a_P clm). Proof. apply exact_rows_ok. vm_compute. reflexivity. Qed.
Lemma plain_name : forall l, forallb (fun c => negb (Ascii.eqb c """") && negb (Ascii.eqb c "010") && negb (Ascii.eqb c "013")) (list_ascii_of_string l) = true -> plain l.
Proof.
  intros l H c Hc. rewrite forallb_forall in H. specialize (H c Hc). apply andb_true_iff in H. destruct H as [H H3]. apply andb_true_iff in H. destruct H as [H1 H2].
  apply negb_true_iff in H1, H2, H3. apply Ascii.eqb_neq in H1, H2, H3. auto.
Qed.
Lemma plain_target : plain "rf_target". Proof. apply plain_name. vm_compute. reflexivity. Qed.
Lemma plain_fail : plain "rf_fail". Proof. apply plain_name. vm_compute. reflexivity. Qed.
Lemma plain_sub : plain "subsystem". Proof. apply plain_name. vm_compute. reflexivity. Qed.

(** After rf: files of certificates, and later commands. *)
Definition clw1 : world := final (switss clE CRf cla clw).
Definition cl_cert (md : string) (t : Q) (v : list Q) : json :=
  JObj [("method", JObj [("mode", JStr md)]); ("instances", JArr [JObj [("iteration", jnat 0); ("threshold", JNum t); ("certificate", JArr (map JNum v))]])].
Definition clw2 (md : string) (t : Q) (v : list Q) : world := write "c.json" (FJson (cl_cert md t v)) clw1.
Definition cla1 (tol : Q) : args := MkArgs KMdp "m-rf" "init" "goal" "rf_target" "rf_fail" None (Some "c.json") [] [] [] tol "subsystem".
Definition clm1 : amdp := Eval vm_compute in match load_model (cla1 0) clw1 with Done m _ => m | Raised _ _ => clm end.
Definition clrf1 : rform := get dummy_rf (gen_rf clE clm1 (cla1 0)).

Lemma clm1_stored : forall md t v, stored (clw2 md t v) KMdp "m-rf" clm1.
Proof.
  intros md t v. exists (match w_fs clw1 "m-rf.lab" with Some (FText x) => x | _ => [] end), (match w_fs clw1 "m-rf.tra" with Some (FText x) => x | _ => [] end).
  split; [vm_compute; reflexivity|]. split; [vm_compute; reflexivity|]. vm_compute. reflexivity.
Qed.
Lemma clrf1_ok : forall tol, gen_rf clE clm1 (cla1 tol) = Ok clrf1.
Proof. intros tol. vm_compute. reflexivity. Qed.
Lemma cl_cert_file : forall md t v, certificates_file (cl_cert md t v) md [MkCinst (jnat 0) t v].
Proof. intros md t v. split; [eexists; split; reflexivity|]. eexists. split; [reflexivity|]. constructor; [|constructor]. split; [reflexivity|]. split; reflexivity. Qed.

(** Values. *)
Definition clmrf : rform := get dummy_rf (let* r := reduce exrnd clm "init" "goal" "rf_target" "rf_fail" in Ok (fst (fst r))).
Definition clmcols : dict nat nat := [(0, 0); (1, 1); (3, 2)].
Definition clmrows : dict (nat * nat) (nat * nat) := [((0, 0), (0, 0)); ((0, 1), (0, 1)); ((1, 0), (1, 0)); ((1, 1), (1, 1)); ((3, 0), (2, 0))].
Lemma clm_reduce : reduce exrnd clm "init" "goal" "rf_target" "rf_fail" = Ok (clmrf, clmcols, clmrows).
Proof. vm_compute. reflexivity. Qed.
Lemma clmrf_form : built_form clmrf /\ exact_rows (a_P (rf_sys clmrf)).
Proof.
  destruct clm_reducible as (R1 & R2 & R3 & R4 & R5 & R6 & R7 & R8).
  destruct (C12_lemma exrnd clm "init" "goal" "rf_target" "rf_fail" 0 clm_built R1 R2 R3 R4 R5 R6 R7 R8) as (rf & cols & rows & E & RR).
  rewrite clm_reduce in E. assert (X : clmrf = rf) by congruence. rewrite X. split; [apply RR|apply RR; exact clm_exact].
Qed.
Lemma clm_values : exists p q, IsPrMin (mdp_of clm) (label_set clm "goal") 0 p /\ (p <= Q2R (1 # 5))%R /\ IsPrMax (mdp_of clm) (label_set clm "goal") 0 q /\ (q <= Q2R (1 # 2))%R.
Proof.
  destruct clmrf_form as [BF EX]. destruct clm_reducible as (R1 & _ & _ & _ & _ & _ & _ & R8).
  destruct (C13_lemma _ _ _ _ _ _ _ _ _ clm_built R1 clm_exact R8 clm_reduce 0 0 eq_refl) as [V1 V2].
  exists (Vmn clmrf BF EX (rf_init clmrf)), (Vmx clmrf BF EX (rf_init clmrf)). change 0 with (rf_init clmrf) in V1, V2 at 2. split; [apply V1; apply PrMin_Vmn|]. split; [|split; [apply V2; apply PrMax_Vmx|]].
  - apply (C22_partial_lemma clmrf BF EX (1 # 5)%Q [1; 0; 0; 1 # 2; 1 # 5]%Q); [vm_compute; reflexivity| |vm_compute; lia|apply PrMin_Vmn].
    intros i Hi. change (rf_C clmrf) with 5 in Hi. destruct i as [|[|[|[|[|i]]]]]; [vm_compute; discriminate ..|]. lia.
  - destruct (PrMax_Vmx clmrf BF EX) as [_ HM]. apply HM. intros x (sigma & HV & HP). apply (C20_lemma clmrf BF EX (1 # 2)%Q [1 # 2; 1; 1]%Q) with (sigma := sigma); [vm_compute; reflexivity|auto|auto].
Qed.

(** A chain that reaches its goal with probability one in ten million. *)
Definition rare_tra : text := str ("3 4" ++ nl ++ "0 1 0.0000001" ++ nl ++ "0 2 0.9999999" ++ nl ++ "1 1 1" ++ nl ++ "2 2 1" ++ nl).
Definition rare_lab : text := str ("0=""init"" 1=""goal""" ++ nl ++ "0: 0" ++ nl ++ "1: 1" ++ nl).
Definition rare : amdp := Eval vm_compute in get_amdp (from_file KDtmc rare_lab rare_tra).
Definition rarew : world := MkWorld (store (store (fun _ => None) "m.lab" (FText rare_lab)) "m.tra" (FText rare_tra)) [].
Definition rarea : args := MkArgs KDtmc "m" "init" "goal" "rf_target" "rf_fail" None None [] [] [] default_tolerance "subsystem".
Definition rarew1 : world := final (switss clE CRf rarea rarew).
Definition rare1 : amdp := Eval vm_compute in match load_model (MkArgs KDtmc "m-rf" "init" "goal" "rf_target" "rf_fail" None None [] [] [] default_tolerance "subsystem") rarew1 with Done m _ => m | Raised _ _ => rare end.
Lemma rare_stored : stored rarew KDtmc "m" rare.
Proof. exists rare_lab, rare_tra. split; [reflexivity|]. split; [reflexivity|]. vm_compute. reflexivity. Qed.
Lemma rare_reducible : reducible rare "init" "goal" "rf_target" "rf_fail" 0.
Proof.
  split.
  { intros s Hs. change (a_N rare) with 3 in Hs. destruct s as [|[|[|s]]]; [exists 0, 0|exists 0, 1|exists 0, 2|lia]; (split; [change (a_C rare) with 3; lia|vm_compute; reflexivity]). }
  split. { intros s H. unfold has_label in H. vm_compute in H. destruct H as [<-|[]]. vm_compute. lia. }
  split. { intros s. unfold has_label. vm_compute. intuition. }
  split; [vm_compute; lia|].
  split. { exists 1. split; [vm_compute; auto|]. apply rtc_step with 1; [|constructor]. exists 0, 0, (0.0000001)%Q. split; [vm_compute; auto|vm_compute; reflexivity]. }
  split; [vm_compute; intuition discriminate|]. split; [vm_compute; intuition discriminate|discriminate].
Qed.
Lemma rare_exact : exact_rows (a_P rare). Proof. apply exact_rows_ok. vm_compute. reflexivity. Qed.
