(** A form whose numbers are doubles, with vectors at the limit of the precision. *)
From Coq Require Import String List Arith ZArith QArith Qreals Reals Bool Lia Lra Permutation.
From Flocq Require Import Core BinarySingleNaN.
From Verif Require Import Base BaseFacts Num Matrix SpecMdp SpecSystem SpecForm SpecBuilt SpecProb Amdp ReachForm BuiltFacts
  RfBridge Milp SpecLp Certificates Examples FloatRow SpecFloatRow FloatProofs FloatCheck SpecFloatCheck FloatCheckProofs.
Import ListNotations.
Local Open Scope nat_scope.
Local Open Scope string_scope.

Definition eighthP : mat := mat_of_rows 5
  [[0; 1#8; 3#8; 0; 1#2]; [0; 0; 0; 1#2; 1#2]; [1#4; 0; 0; 1#4; 1#2]; [0; 0; 0; 1; 0]; [0; 0; 0; 0; 1]]%Q.
Definition eighthL : dict string (list nat) := [("init", [0]); ("target", [3]); ("fail", [4])].
Definition eighth : amdp := get dummy_amdp (mk_dtmc eighthP None eighthL None).
Definition eighthrf : rform := get dummy_rf (mk_rf exrnd eighth "init" "target" "fail" false).
Lemma eighthrf_built : built_form eighthrf.
Proof.
  exists exrnd, eighth, "init", "target", "fail". split; [|vm_compute; reflexivity].
  apply built_new. exists eighthP, [], [], eighthL, None. split; [apply good_args_ok; vm_compute; reflexivity|]. right; right. vm_compute. reflexivity.
Qed.
(** The stored doubles. *)
Definition eighthD (i d : nat) : double :=
  match i, d with
  | 0, 1 => dmake 1 (-3) | 0, 2 => dmake 3 (-3) | 1, 3 => dmake 1 (-1) | 2, 0 => dmake 1 (-2) | 2, 3 => dmake 1 (-2) | _, _ => d0
  end.
Lemma eighth_double : double_form eighthrf eighthD.
Proof.
  intros i d Hi Hd. change (a_C (rf_sys eighthrf) - 2) with 3 in Hi. change (a_N (rf_sys eighthrf) - 1) with 4 in Hd.
  assert (E : Qeq_bool (dq (eighthD i d)) (mget (a_P (rf_sys eighthrf)) i d) = true /\ is_finite (eighthD i d) = true).
  { destruct i as [|[|[|i]]]; [| | |lia]; (destruct d as [|[|[|[|d]]]]; [| | | |lia]); split; vm_compute; reflexivity. }
  destruct E as [E F]. split; [exact F|]. unfold dval. rewrite <- dq_val. apply Qeq_eqR. apply Qeq_bool_iff. exact E.
Qed.

(** Entries in the order of the columns, and the other way round. *)
Definition by_column (_ : nat) (l : list (nat * double)) : list (nat * double) := l.
Definition backwards (_ : nat) (l : list (nat * double)) : list (nat * double) := rev l.
Lemma by_column_ok : arrangement by_column. Proof. intros k l. apply Permutation_refl. Qed.
Lemma backwards_ok : arrangement backwards. Proof. intros k l. apply Permutation_sym, Permutation_rev. Qed.

(** 1/2 *)
Definition half : double := dmake 1 (-1).
(** Exactly at the limit; one order of the products gets below it. *)
Definition tightv : list double := [dmake (2 ^ 53 - 45) (-54); dmake (2 ^ 53 - 63) (-53); dmake (2 ^ 53 - 39) (-53)].
(** Just below the limit, but the sum is rounded to it. *)
Definition lowv : list double := [dmake (2 ^ 53 - 1) (-54); d1; dmake (2 ^ 53 - 1) (-53)].
(** First entry first, the others backwards. *)
Definition head_back (_ : nat) (l : list (nat * double)) : list (nat * double) := match l with [] => [] | e :: r => e :: rev r end.
Lemma head_back_ok : arrangement head_back.
Proof. intros k [|e r]; [constructor|]. cbn. constructor. apply Permutation_sym, Permutation_rev. Qed.
(** The default tolerance 1e-8 as a double. *)
Definition tol8 : double := ddiv d1 (dmake 100000000 0).
