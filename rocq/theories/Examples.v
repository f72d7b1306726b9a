(** Concrete systems and forms used in the examples beside the theorems. *)
From Coq Require Import String List Arith ZArith QArith Bool.
From Verif Require Import Base Num Matrix InvDict SpecSystem Amdp ReachForm SpecBuilt BuiltFacts.
Import ListNotations.
Local Open Scope nat_scope.
Local Open Scope string_scope.

Definition dummy_amdp : amdp := MkAmdp KMdp (mzero 0 0) [] None (mk_idict [] true) (mk_idict [] true) [].
Definition dummy_rf : rform := MkRf dummy_amdp 0 "" "" "" [] [] [] [] 0%Z [].
Definition get {A} (d : A) (r : res A) : A := match r with Ok a => a | Err _ => d end.

Definition exrnd (n : nat) : Z := Z.of_nat (7 * n mod 5).

(** test/example_models.py, toy_mdp2: a form without end components. *)
Definition toy2P : mat := mat_of_rows 8
  [[0; 1; 0; 0; 0; 0; 0; 0]; [0; 0; 0; 0; 1; 0; 0; 0]; [0; 0; 3#5; 0; 0; 0; 1#5; 1#5]; [0; 0; 0; 7#10; 0; 0; 0; 3#10];
   [0; 0; 0; 0; 0; 0; 1; 0]; [0; 0; 0; 0; 0; 1#2; 0; 1#2]; [0; 0; 0; 0; 0; 0; 1; 0]; [0; 0; 0; 0; 0; 0; 1; 0]; [0; 0; 0; 0; 0; 0; 0; 1]]%Q.
Definition toy2I : dict (nat * nat) nat :=
  [((0, 0), 0); ((0, 1), 1); ((1, 0), 2); ((2, 0), 3); ((3, 0), 4); ((4, 0), 5); ((5, 0), 6); ((6, 0), 7); ((7, 0), 8)].
Definition toy2L : dict string (list nat) :=
  [("target", [6]); ("fail", [7]); ("rewtarget", [6; 7]); ("init", [0]); ("blue", [1; 2; 3]); ("lightblue", [4]); ("brown", [5])].
Definition toy2 : amdp := get dummy_amdp (mk_mdp toy2P toy2I [] toy2L None).
Definition toy2rf : rform := get dummy_rf (mk_rf exrnd toy2 "init" "target" "fail" false).

Lemma toy2_built : built toy2.
Proof. apply built_new. exists toy2P, toy2I, [], toy2L, None. split; [apply good_args_ok; vm_compute; reflexivity|]. left. vm_compute. reflexivity. Qed.
Lemma toy2rf_built : built_form toy2rf.
Proof. exists exrnd, toy2, "init", "target", "fail". split; [apply toy2_built|vm_compute; reflexivity]. Qed.

(** A form in which states 0 and 1 form an end component that can be left. *)
Definition ec1P : mat := mat_of_rows 4
  [[0; 1#2; 1#2; 0]; [0; 1; 0; 0]; [1; 0; 0; 0]; [0; 0; 1#4; 3#4]; [0; 0; 1; 0]; [0; 0; 0; 1]]%Q.
Definition ec1I : dict (nat * nat) nat := [((0, 0), 0); ((0, 1), 1); ((1, 0), 2); ((1, 1), 3); ((2, 0), 4); ((3, 0), 5)].
Definition ec1L : dict string (list nat) := [("init", [0]); ("target", [2]); ("fail", [3]); ("grey", [0; 1])].
Definition ec1A : dict string (list (nat * nat)) := [("stay", [(0, 1); (1, 0)])].
Definition ec1 : amdp := get dummy_amdp (mk_mdp ec1P ec1I ec1A ec1L (Some [1; 0; 2; 1#2; 0; 0]%Q)).
Definition ec1rf : rform := get dummy_rf (mk_rf exrnd ec1 "init" "target" "fail" false).

Lemma ec1_built : built ec1.
Proof. apply built_new. exists ec1P, ec1I, ec1A, ec1L, (Some [1; 0; 2; 1#2; 0; 0]%Q). split; [apply good_args_ok; vm_compute; reflexivity|]. left. vm_compute. reflexivity. Qed.
Lemma ec1rf_built : built_form ec1rf.
Proof. exists exrnd, ec1, "init", "target", "fail". split; [apply ec1_built|vm_compute; reflexivity]. Qed.

(** A Markov chain in reachability form with a loop. *)
Definition dt1P : mat := mat_of_rows 4 [[1#4; 1#2; 1#4; 0]; [1#3; 0; 1#3; 1#3]; [0; 0; 1; 0]; [0; 0; 0; 1]]%Q.
Definition dt1 : amdp := get dummy_amdp (mk_dtmc dt1P None ec1L None).
Definition dt1rf : rform := get dummy_rf (mk_rf exrnd dt1 "init" "target" "fail" false).
Lemma dt1_built : built dt1.
Proof. apply built_new. exists dt1P, [], [], ec1L, None. split; [apply good_args_ok; vm_compute; reflexivity|]. right; right. vm_compute. reflexivity. Qed.
Lemma dt1rf_built : built_form dt1rf.
Proof. exists exrnd, dt1, "init", "target", "fail". split; [apply dt1_built|vm_compute; reflexivity]. Qed.

(** One state, two actions of different quality. *)
Definition tinyL : dict string (list nat) := [("init", [0]); ("target", [1]); ("fail", [2])].
Definition tinyI : dict (nat * nat) nat := [((0, 0), 0); ((0, 1), 1); ((1, 0), 2); ((2, 0), 3)].
Definition tinyP (p q : Q) : mat := mat_of_rows 3 [[0; p; 1 - p]; [0; q; 1 - q]; [0; 1; 0]; [0; 0; 1]]%Q.
Definition tiny (p q : Q) : amdp := get dummy_amdp (mk_mdp (tinyP p q) tinyI [] tinyL None).
Definition tinyrf (p q : Q) : rform := get dummy_rf (mk_rf exrnd (tiny p q) "init" "target" "fail" false).

Lemma tiny1_built : built_form (tinyrf (1#2) 0).
Proof.
  exists exrnd, (tiny (1#2) 0), "init", "target", "fail". split; [|vm_compute; reflexivity].
  apply built_new. exists (tinyP (1#2) 0), tinyI, [], tinyL, None. split; [apply good_args_ok; vm_compute; reflexivity|]. left. vm_compute. reflexivity.
Qed.
Lemma tiny2_built : built_form (tinyrf (1#2) (9#10)).
Proof.
  exists exrnd, (tiny (1#2) (9#10)), "init", "target", "fail". split; [|vm_compute; reflexivity].
  apply built_new. exists (tinyP (1#2) (9#10)), tinyI, [], tinyL, None. split; [apply good_args_ok; vm_compute; reflexivity|]. left. vm_compute. reflexivity.
Qed.

(** A state that may stay or leave. *)
Definition stayP : mat := mat_of_rows 3 [[1; 0; 0]; [0; 1#2; 1#2]; [0; 1; 0]; [0; 0; 1]]%Q.
Definition stay : amdp := get dummy_amdp (mk_mdp stayP tinyI [] tinyL None).
Definition stayrf : rform := get dummy_rf (mk_rf exrnd stay "init" "target" "fail" false).
Lemma stayrf_built : built_form stayrf.
Proof.
  exists exrnd, stay, "init", "target", "fail". split; [|vm_compute; reflexivity].
  apply built_new. exists stayP, tinyI, [], tinyL, None. split; [apply good_args_ok; vm_compute; reflexivity|]. left. vm_compute. reflexivity.
Qed.

(** State 1 forms an end component, state 0 does not; the minimal probability
    from state 0 is 1/2. *)
Definition ec2P : mat := mat_of_rows 4
  [[0; 1#2; 1#2; 0]; [0; 0; 3#4; 1#4]; [0; 1; 0; 0]; [0; 0; 1#2; 1#2]; [0; 0; 1; 0]; [0; 0; 0; 1]]%Q.
Definition ec2L : dict string (list nat) := [("init", [0]); ("target", [2]); ("fail", [3])].
Definition ec2 : amdp := get dummy_amdp (mk_mdp ec2P ec1I [] ec2L None).
Definition ec2rf : rform := get dummy_rf (mk_rf exrnd ec2 "init" "target" "fail" false).
Lemma ec2rf_built : built_form ec2rf.
Proof.
  exists exrnd, ec2, "init", "target", "fail". split; [|vm_compute; reflexivity].
  apply built_new. exists ec2P, ec1I, [], ec2L, None. split; [apply good_args_ok; vm_compute; reflexivity|]. left. vm_compute. reflexivity.
Qed.

(** Deciding [exact_rows]. *)
Definition exact_rows_b (P : mat) : bool := forallb (fun i => Qeq_bool (row_total P i) 1) (seq 0 (mrows P)).
Lemma exact_rows_ok : forall P, exact_rows_b P = true -> exact_rows P.
Proof.
  intros P H i Hi. unfold exact_rows_b in H. rewrite forallb_forall in H. apply Qeq_bool_iff. apply H. apply in_seq. split; [apply Nat.le_0_l|exact Hi].
Qed.
