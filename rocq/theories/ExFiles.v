(** Concrete systems for the properties of saving and loading. *)
From Coq Require Import String List Arith ZArith QArith Bool Ascii Lia.
From Verif Require Import Base Num Matrix InvDict SpecSystem SpecBuilt SpecFiles Amdp MatFacts BuiltFacts Files.
Import ListNotations.
Local Open Scope nat_scope.

Definition get_amdp (r : res amdp) : amdp := match r with Ok m => m | Err _ => MkAmdp KMdp (mzero 0 0) [] None (mk_idict [] true) (mk_idict [] true) [] end.

(** Three states, two actions in the first; all probabilities are decimal. *)
Definition fi1_P : mat := MkMat 4 3 [((0, 1), 1 # 2); ((0, 2), 1 # 2); ((1, 0), 3 # 4); ((1, 2), 1 # 4); ((2, 1), 1%Q); ((3, 2), 1%Q)].
Definition fi1_idx := [((0, 0), 0); ((0, 1), 1); ((1, 0), 2); ((2, 0), 3)].
Definition fi1_al : dict string (list (nat * nat)) := [("go"%string, [(0, 1)])].
Definition fi1_sl : dict string (list nat) := [("init"%string, [0]); ("goal"%string, [1]); ("both"%string, [0; 1])].
Definition fi1_rew : option (list Q) := Some [0; 1; 2; 3]%Q.
Definition fi1_r : res amdp := Eval vm_compute in mk_mdp fi1_P fi1_idx fi1_al fi1_sl fi1_rew.
Definition fi1 : amdp := Eval vm_compute in get_amdp fi1_r.
Definition fi1_back : res amdp := Eval vm_compute in save_and_load fi1.

(** Three equal branches. *)
Definition fi2_P : mat := MkMat 3 3 [((0, 0), 1 # 3); ((0, 1), 1 # 3); ((0, 2), 1 # 3); ((1, 1), 1%Q); ((2, 2), 1%Q)].
Definition fi2_sl : dict string (list nat) := [("init"%string, [0])].
Definition fi2 : amdp := Eval vm_compute in get_amdp (mk_dtmc fi2_P None fi2_sl None).

(** Thirds that still sum to one. *)
Definition fi3_P : mat := MkMat 2 2 [((0, 0), 1 # 3); ((0, 1), 2 # 3); ((1, 1), 1%Q)].
Definition fi3 : amdp := Eval vm_compute in get_amdp (mk_dtmc fi3_P None fi2_sl None).

(** A label with a quote. *)
Definition fi4_P : mat := MkMat 2 2 [((0, 1), 1%Q); ((1, 1), 1%Q)].
Definition fi4_sl : dict string (list nat) := [("a""b"%string, [0]); ("t"%string, [1])].
Definition fi4 : amdp := Eval vm_compute in get_amdp (mk_dtmc fi4_P None fi4_sl None).

Lemma fi1_built : built fi1.
Proof. apply built_new. exists fi1_P, fi1_idx, fi1_al, fi1_sl, fi1_rew. split; [apply good_args_ok; vm_compute; reflexivity|]. left. vm_compute. reflexivity. Qed.
Lemma fi2_built : built fi2.
Proof. apply built_new. exists fi2_P, [], [], fi2_sl, None. split; [apply good_args_ok; vm_compute; reflexivity|]. right; right. vm_compute. reflexivity. Qed.
Lemma fi3_built : built fi3.
Proof. apply built_new. exists fi3_P, [], [], fi2_sl, None. split; [apply good_args_ok; vm_compute; reflexivity|]. right; right. vm_compute. reflexivity. Qed.
Lemma fi4_built : built fi4.
Proof. apply built_new. exists fi4_P, [], [], fi4_sl, None. split; [apply good_args_ok; vm_compute; reflexivity|]. right; right. vm_compute. reflexivity. Qed.

Definition six_b (m : amdp) : bool := forallb (fun e : nat * nat * Q => (Qnum (snd e) * 1000000 mod Zpos (Qden (snd e)) =? 0)%Z) (mitems (a_P m)).
Lemma six_ok : forall m, six_b m = true -> six_decimals m.
Proof.
  intros m H i d. destruct (Qeq_dec (mget (a_P m) i d) 0) as [E|N]; [exists 0%Z; rewrite E; reflexivity|]. apply mget_nonzero in N. unfold six_b in H. rewrite forallb_forall in H. specialize (H _ N). cbn [snd] in H. apply Z.eqb_eq in H.
  exists (Qnum (mget (a_P m) i d) * 1000000 / Zpos (Qden (mget (a_P m) i d)))%Z. unfold Qeq. cbn [Qnum Qden]. set (n := Qnum _) in *. set (k := Zpos (Qden _)) in *. pose proof (Z.div_mod (n * 1000000) k) as X. rewrite H in X. assert (k <> 0)%Z by discriminate. specialize (X H0). lia.
Qed.
Definition plain_b (m : amdp) : bool := forallb (fun l => forallb (fun c => negb (Ascii.eqb c """"%char) && negb (Ascii.eqb c "010"%char) && negb (Ascii.eqb c "013"%char)) (list_ascii_of_string l)) (label_names m).
Lemma plain_ok : forall m, plain_b m = true -> forall l, In l (label_names m) -> plain l.
Proof.
  intros m H l Hl c Hc. unfold plain_b in H. rewrite forallb_forall in H. specialize (H l Hl). rewrite forallb_forall in H. specialize (H c Hc).
  apply andb_true_iff in H. destruct H as [H H3]. apply andb_true_iff in H. destruct H as [H1 H2]. apply negb_true_iff in H1, H2, H3. apply Ascii.eqb_neq in H1, H2, H3. auto.
Qed.
