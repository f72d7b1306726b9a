(** Proof of property C57: label and action queries of a system. *)
From Coq Require Import String List Arith ZArith QArith Bool Lia.
From Verif Require Import Base BaseFacts Num Matrix MatFacts InvDict InvDictSpec InvDictProofs SpecSystem SpecBuilt Amdp AmdpProofs ReachFormProofs BuiltFacts.
Import ListNotations.
Local Open Scope nat_scope.

Lemma C57_labels_lemma : forall m, built m -> 
  (forall l s, In l (labels_by_state m s) <-> In s (states_by_label m l)) /\
  (forall l x, In l (labels_by_action m x) <-> In x (actions_by_label m l)).
Proof.
  intros m H. destruct (built_facts m H) as (_ & L & _). split; [apply labels_state_iff|apply labels_action_iff]; auto.
Qed.

Lemma add_states : forall m s l l' s', In s' (states_by_label (add_label m s l) l') <-> (l' = l /\ s' = s) \/ In s' (states_by_label m l').
Proof.
  intros m s l l' s'. pose proof (side_add_has String.eqb Nat.eqb String.eqb_spec Nat.eqb_spec (fwd (a_slab m)) l s l' s') as HH.
  assert (G : forall d, has String.eqb d l' s' <-> In s' (match dget String.eqb d l' with Some x => x | None => [] end)).
  { intros d. unfold has. destruct (dget String.eqb d l'); [split; [intros (x & E & I); inversion E; subst; auto|eauto]|split; [intros (x & E & _); discriminate|intros []]]. }
  rewrite (G (side_add _ _ _ _ _)) in HH. rewrite (G (fwd (a_slab m))) in HH. exact HH.
Qed.

Lemma C57_add_lemma : forall m s l, built m -> let m' := add_label m s l in
  (forall l' s', In s' (states_by_label m' l') <-> In s' (states_by_label m l') \/ (l' = l /\ s' = s)) /\
  (forall l' s', In l' (labels_by_state m' s') <-> In l' (labels_by_state m s') \/ (l' = l /\ s' = s)) /\
  (forall l', actions_by_label m' l' = actions_by_label m l') /\ (forall x, labels_by_action m' x = labels_by_action m x) /\
  a_kind m' = a_kind m /\ a_P m' = a_P m /\ a_idx m' = a_idx m /\ a_rew m' = a_rew m /\ a_graph m' = a_graph m.
Proof.
  intros m s l H m'. assert (B : built m') by (apply built_label; auto).
  split; [intros l' s'; unfold m'; rewrite add_states; tauto|]. split.
  - intros l' s'. rewrite (proj1 (C57_labels_lemma m' B)), (proj1 (C57_labels_lemma m H)). unfold m'. rewrite add_states. tauto.
  - repeat split; reflexivity.
Qed.

Lemma C57_actions_lemma : forall m, built m -> exists d, actions_by_state m = Ok d /\
  (forall s a, (exists l, get Nat.eqb d s = Ok l /\ In a l) <-> exists i, i < a_C m /\ In ((s, a), i) (a_idx m)) /\
  (forall s a, (exists l, inv_get Nat.eqb Nat.eqb d a = Ok l /\ In s l) <-> exists i, i < a_C m /\ In ((s, a), i) (a_idx m)) /\
  (forall s, get Nat.eqb d s = Err KeyError <-> ~ exists a i, i < a_C m /\ In ((s, a), i) (a_idx m)).
Proof.
  intros m H. pose proof (built_ok m H) as OK. set (R := fun n s a => exists i, i < n /\ a_inv m i = Some (s, a)).
  assert (G : forall n, n <= a_C m -> exists d, foldM (fun d i => let* (s, a) := of_opt KeyError (a_inv m i) in Ok (add Nat.eqb Nat.eqb d s a)) (seq 0 n) (mk_idict [] false) = Ok d /\
    describes Nat.eqb Nat.eqb d (R n) /\ dflt d = false /\ forall s, In s (dkeys (fwd d)) -> exists a, R n s a).
  { induction n as [|n IH]; intros L.
    - eexists. split; [reflexivity|]. split; [|split; [reflexivity|intros s []]]. split; [constructor|]. split; [|exact I]. intros k v. split; [intros (x & E & _); discriminate|intros (i & Hi & _); lia].
    - destruct IH as (d & E & D & F & K); [lia|]. rewrite seq_S, foldM_app, E. cbn [bind foldM Nat.add].
      destruct (row_idx m OK n) as (s & a & Ei & _); [unfold a_C in L; lia|]. 
      rewrite Ei. cbn [of_opt bind]. eexists. split; [reflexivity|].
      assert (RR : forall k v, (k = s /\ v = a) \/ R n k v <-> R (Datatypes.S n) k v).
      { intros k v. split.
        - intros [[-> ->]|(i & Hi & E')]; [exists n|exists i]; split; auto; lia.
        - intros (i & Hi & E'). destruct (Nat.eq_dec i n) as [->|NE]; [left; rewrite Ei in E'; inversion E'; auto|right; exists i; split; auto; lia]. }
      split; [eapply describes_ext; [apply add_describes; [apply Nat.eqb_spec|apply Nat.eqb_spec|exact D]|exact RR]|]. split; [exact F|].
      intros k Hk. unfold add in Hk. cbn [fwd] in Hk. apply (side_add_keys Nat.eqb Nat.eqb Nat.eqb_spec) in Hk.
      destruct Hk as [->|Hk]; [exists a; apply RR; auto|]. destruct (K k Hk) as (v & HV). exists v. apply RR. auto. }
  destruct (G (a_C m) (le_n _)) as (d & E & D & F & K). exists d. split; [exact E|].
  assert (RI : forall s a, R (a_C m) s a <-> exists i, i < a_C m /\ In ((s, a), i) (a_idx m)).
  { intros s a. unfold R. split; intros (i & Hi & E'); exists i; split; auto.
    - apply (binv_In Nat.eqb Nat.eqb_spec) in E'. exact E'.
    - apply row_inv; auto. unfold a_row. apply (In_dget pair_eqb pair_eqbP); [apply OK|exact E']. }
  split; [|split].
  - intros s a. rewrite <- RI. apply (get_describes Nat.eqb Nat.eqb); auto.
  - intros s a. rewrite <- RI. apply (inv_get_describes Nat.eqb Nat.eqb Nat.eqb_spec Nat.eqb_spec); auto.
  - intros s. split.
    + intros E' (a & HR). apply RI in HR. apply (get_describes Nat.eqb Nat.eqb d _ s a D) in HR. destruct HR as (x & E2 & _). rewrite E' in E2. discriminate.
    + intros NR. unfold InvDict.get. rewrite F. destruct (dget Nat.eqb (fwd d) s) eqn:E'; [|reflexivity]. exfalso. apply NR.
      destruct (K s) as (a & HR); [|exists a; apply RI; auto]. apply (dget_In Nat.eqb Nat.eqb_spec) in E'. apply (in_map fst) in E'. exact E'.
Qed.
