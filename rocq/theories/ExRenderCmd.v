(** Runs of the command render. *)
From Coq Require Import String List Arith NArith ZArith QArith Bool Ascii Lia Sorted.
From Verif Require Import Base Num Matrix InvDict Graph Amdp Files SpecSystem SpecBuilt BuiltFacts Draw SpecDraw
  Cli SpecCli CliProofs1 CliProofs5 RenderCmd SpecRenderCmd RenderCmdProofs Examples ExTra ExFiles ExCli.
Import ListNotations.
Local Open Scope string_scope.
Local Open Scope nat_scope.

Definition rdP : painter := MkPainter (fun ls => match ls with [] => str "gold" | _ => str "coral" end) (fun _ => []) (fun dg => show_nat (length dg)) (fun t => t).
Definition rda : args := MkArgs KMdp "m" "init" "goal" "rf_target" "rf_fail" (Some "m.tra") None [] [] [] default_tolerance "subsystem".
Definition rdw1 : world := final (render rdP rda None clw).

(** The model is removed. *)
Lemma C109_refuted_lemma : exists P a w m w', stored w (modeltype a) (modelpath a) m /\ render P a None w = Exited w' /\
  forall k m', ~ stored w' k (modelpath a) m'.
Proof.
  exists rdP, rda, clw, clm, rdw1. split; [exact clm_stored|]. split; [vm_compute; reflexivity|].
  intros k m' (lab & tra & _ & T & _). assert (X : w_fs rdw1 (modelpath rda ++ ".tra") = None) by (vm_compute; reflexivity). rewrite X in T. discriminate T.
Qed.

(** A chain of 144 states that stay where they are, each with its own label:
    there are 143 colours. *)
Definition many_names : list string := map (fun i => unstr ("l"%char :: show_nat i)) (seq 0 144).
Definition many_tra : text := (str ("144 144" ++ nl) ++ flat_map (fun i => (show_nat i ++ str " " ++ show_nat i ++ str (" 1" ++ nl))%list) (seq 0 144))%list.
Definition many_lab : text :=
  (flat_map (fun i => (show_nat i ++ str "=""l" ++ show_nat i ++ str """ ")%list) (seq 0 144) ++ str nl ++
   flat_map (fun i => (show_nat i ++ str ": " ++ show_nat i ++ str nl)%list) (seq 0 144))%list.
Definition many : amdp := Eval vm_compute in get_amdp (from_file KDtmc many_lab many_tra).
Definition manyw : world := MkWorld (store (store (fun _ => None) "m.lab" (FText many_lab)) "m.tra" (FText many_tra)) [].
Definition manya : args := default_args KDtmc "m".
Lemma many_stored : stored manyw KDtmc "m" many.
Proof. exists many_lab, many_tra. split; [reflexivity|]. split; [reflexivity|]. vm_compute. reflexivity. Qed.
Lemma many_labels : forall s, s < 144 -> states_by_label many (nth s many_names "") = [s].
Proof.
  assert (X : forallb (fun s => if list_eq_dec Nat.eq_dec (states_by_label many (nth s many_names "")) [s] then true else false) (seq 0 144) = true) by (vm_compute; reflexivity).
  rewrite forallb_forall in X. intros s Hs. specialize (X s (proj2 (in_seq _ _ _) (conj (Nat.le_0_l _) Hs))).
  destruct (list_eq_dec Nat.eq_dec (states_by_label many (nth s many_names "")) [s]); [assumption|discriminate].
Qed.
Lemma many_touched : forall s, s < 144 -> touched many s.
Proof.
  assert (X : forallb (fun s => match a_inv many s with Some (s', 0) => Nat.eqb s s' | _ => false end && existsb (fun e => Nat.eqb (fst (fst e)) s) (mitems (a_P many))) (seq 0 144) = true) by (vm_compute; reflexivity).
  rewrite forallb_forall in X. intros s Hs. specialize (X s (proj2 (in_seq _ _ _) (conj (Nat.le_0_l _) Hs))).
  apply andb_true_iff in X. destruct X as (X1 & X2). destruct (a_inv many s) as [[s' [|a]]|] eqn:E; try discriminate. apply Nat.eqb_eq in X1. subst s'.
  apply existsb_exists in X2. destruct X2 as ([[i d] p] & X2 & X3). cbn in X3. apply Nat.eqb_eq in X3. subst i.
  left. exists 0, d, p, s. auto.
Qed.

Lemma repeated : forall l : list text, NoDup l \/ exists a l1 l2 l3, l = (l1 ++ a :: l2 ++ a :: l3)%list.
Proof.
  induction l as [|x l IH]; [left; constructor|]. destruct IH as [ND|(a & l1 & l2 & l3 & ->)]; [|right; exists a, (x :: l1), l2, l3; reflexivity].
  destruct (in_dec (list_eq_dec ascii_dec) x l) as [I|N]; [|left; constructor; auto].
  right. apply in_split in I. destruct I as (l2 & l3 & ->). exists x, [], l2, l3. reflexivity.
Qed.
Lemma pigeons : forall (f : nat -> text) (holes : list text) n, length holes < n -> (forall i, i < n -> In (f i) holes) -> exists i j, i < n /\ j < n /\ i <> j /\ f i = f j.
Proof.
  intros f holes n L H. assert (ND : ~ NoDup (map f (seq 0 n))).
  { intros ND. assert (X : length (map f (seq 0 n)) <= length holes).
    { apply NoDup_incl_length; [exact ND|]. intros y Hy. apply in_map_iff in Hy. destruct Hy as (i & <- & Hi). apply H. apply in_seq in Hi. lia. }
    rewrite map_length, seq_length in X. lia. }
  destruct (repeated (map f (seq 0 n))) as [X|(a & l1 & l2 & l3 & E)]; [contradiction|].
  assert (LE : length (map f (seq 0 n)) = n) by (rewrite map_length, seq_length; reflexivity).
  assert (G : forall i, i < n -> nth_error (map f (seq 0 n)) i = Some (f i)).
  { intros i Hi. rewrite (map_nth_error f i (seq 0 n) (d := i)); [reflexivity|]. rewrite (nth_error_nth' _ 0) by (rewrite seq_length; exact Hi). rewrite seq_nth by exact Hi. reflexivity. }
  assert (L1 : length l1 < n) by (rewrite <- LE, E, app_length; cbn; lia).
  assert (L2 : length l1 + S (length l2) < n) by (rewrite <- LE, E, app_length; cbn; rewrite app_length; cbn; lia).
  exists (length l1), (length l1 + S (length l2)). split; [exact L1|]. split; [exact L2|]. split; [lia|].
  pose proof (G _ L1) as G1. pose proof (G _ L2) as G2. rewrite E in G1, G2.
  rewrite nth_error_app2 in G1 by lia. rewrite Nat.sub_diag in G1. cbn in G1.
  rewrite nth_error_app2 in G2 by lia. replace (length l1 + S (length l2) - length l1) with (S (length l2)) in G2 by lia. cbn [nth_error] in G2.
  rewrite nth_error_app2 in G2 by lia. rewrite Nat.sub_diag in G2. cbn in G2. congruence.
Qed.

Lemma C109_colours_refuted_lemma : exists a w m, stored w (modeltype a) (modelpath a) m /\
  forall P colours, length colours = 143 -> (forall ls, In (p_colour P ls) colours) ->
  exists w' dg name s t at1 at2, render P a None w = Exited w' /\ w_fs w' (render_output a ++ ".svg")%string = Some (FText (p_dot P (p_source P dg))) /\
    naming name /\ In (NodeS (name (TState s)) at1) dg /\ In (NodeS (name (TState t)) at2) dg /\
    ~ same_key m None s t /\ dget String.eqb at1 "color" = dget String.eqb at2 "color".
Proof.
  exists manya, manyw, many. split; [exact many_stored|]. intros P colours LC HC.
  destruct (C109_lemma P manya None None manyw many many_stored eq_refl) as (w' & dg & name & node & R & _ & _ & _ & SV & NA & SH & PA).
  change (a_kind many) with KDtmc in SH. unfold shows in SH. change (a_kind many) with KDtmc in SH.
  set (f := fun s => match dget String.eqb (node s) "color" with Some c => c | None => [] end).
  assert (FC : forall s, dget String.eqb (node s) "color" = Some (f s) /\ In (f s) colours).
  { intros s. destruct (PA s) as (_ & (ls & _ & C) & _). unfold f. rewrite C. split; [reflexivity|apply HC]. }
  destruct (pigeons f colours 144) as (i & j & Hi & Hj & NE & EQ); [rewrite LC; apply Nat.lt_succ_diag_r|intros i _; apply FC|].
  exists w', dg, name, i, j, (node i), (node j). split; [exact R|]. split; [exact SV|]. split; [exact NA|].
  split; [apply (sd_nodes _ _ _ _ _ SH); exists i; split; [apply many_touched; exact Hi|auto]|].
  split; [apply (sd_nodes _ _ _ _ _ SH); exists j; split; [apply many_touched; exact Hj|auto]|]. split.
  - intros SK. specialize (SK (nth i many_names "") I). unfold has_label in SK. rewrite (many_labels i Hi) in SK. destruct (proj1 SK (or_introl eq_refl)) as [X|[]]. auto.
  - rewrite (proj1 (FC i)), (proj1 (FC j)), EQ. reflexivity.
Qed.

Lemma C109_example : stored clw (modeltype cla) (modelpath cla) clm /\ selects (Some ["goal"; "red"]) (Some "goal,red") /\
  selects None None /\ a_kind clm = KMdp /\ w_fs (final (render rdP cla (Some "goal,red") clw)) "m-render.svg" = Some (FText (str "25")) /\
  key clm (Some ["goal"; "red"]) 0 ["red"] /\ key clm None 0 ["init"; "red"] /\ ~ same_key clm (Some ["goal"; "red"]) 0 1 /\ same_key clm (Some ["goal"; "red"]) 1 2.
Proof.
  assert (HL : forall l s, has_label clm l s <-> (l = "init" /\ s = 0) \/ (l = "goal" /\ s = 3) \/ (l = "red" /\ s = 0)).
  { intros l s. unfold has_label, states_by_label.
    destruct (String.eqb_spec l "init") as [->|N1]; [vm_compute; intuition (try discriminate); subst; auto|].
    destruct (String.eqb_spec l "goal") as [->|N2]; [vm_compute; intuition (try discriminate); subst; auto|].
    destruct (String.eqb_spec l "red") as [->|N3]; [vm_compute; intuition (try discriminate); subst; auto|].
    assert (X : dget String.eqb (fwd (a_slab clm)) l = None).
    { cbn [clm a_slab fwd dget]. rewrite (proj2 (String.eqb_neq _ _) N1), (proj2 (String.eqb_neq _ _) N2), (proj2 (String.eqb_neq _ _) N3). reflexivity. }
    rewrite X. cbn. tauto. }
  split; [exact clm_stored|]. split; [split; [discriminate|split; [|reflexivity]]|].
  { repeat constructor; unfold no_comma; vm_compute; intuition discriminate. }
  split; [reflexivity|]. split; [reflexivity|]. split; [vm_compute; reflexivity|]. split; [|split; [|split]].
  - split; [repeat constructor|]. intros l. rewrite HL. cbn. intuition (try discriminate); subst; auto; try discriminate.
  - split; [repeat constructor; vm_compute; reflexivity|]. intros l. rewrite HL. cbn. intuition (try discriminate); subst; auto; try discriminate.
  - intros H. specialize (H "red" (or_intror (or_introl eq_refl))). rewrite !HL in H. assert (X : "red" = "red" /\ 0 = 0) by auto. destruct H as (H & _). specialize (H (or_intror (or_intror X))). intuition discriminate.
  - intros l _. rewrite !HL. intuition discriminate.
Qed.
