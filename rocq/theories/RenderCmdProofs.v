(** Proofs about the command render. *)
From Coq Require Import String List Arith NArith ZArith QArith Bool Ascii Lia Sorted.
From Verif Require Import Base Num Matrix InvDict Graph Amdp Files SpecSystem SpecBuilt BuiltFacts Draw SpecDraw DrawProofs DrawProofs2 DrawProofs4
  Cli SpecCli CliProofs1 CliProofs5 RenderCmd SpecRenderCmd.
Import ListNotations.
Local Open Scope string_scope.
Local Open Scope nat_scope.

(** * The order of strings *)
Notation slt := (fun x y : string => String.compare x y = Lt).

Lemma scmp_refl : forall x, String.compare x x = Eq.
Proof. intros x. pose proof (String.compare_antisym x x) as H. destruct (String.compare x x); cbn in H; congruence. Qed.
Lemma acmp_lt : forall a b, Ascii.compare a b = Lt <-> (N_of_ascii a < N_of_ascii b)%N.
Proof. intros a b. unfold Ascii.compare. apply N.compare_lt_iff. Qed.
Lemma slt_trans : forall x y z, String.compare x y = Lt -> String.compare y z = Lt -> String.compare x z = Lt.
Proof.
  induction x as [|a x IH]; intros [|b y] [|c z] H1 H2; cbn in *; try discriminate; auto.
  destruct (Ascii.compare a b) eqn:A; try discriminate.
  - apply Ascii.compare_eq_iff in A. subst b. destruct (Ascii.compare a c) eqn:C; try discriminate; auto. eauto.
  - destruct (Ascii.compare b c) eqn:B; try discriminate.
    + apply Ascii.compare_eq_iff in B. subst c. rewrite A. reflexivity.
    + assert (X : Ascii.compare a c = Lt) by (apply acmp_lt; eapply N.lt_trans; [apply (proj1 (acmp_lt _ _) A)|apply (proj1 (acmp_lt _ _) B)]). rewrite X. reflexivity.
Qed.
Lemma scmp_gt : forall x y, String.compare x y = Gt -> String.compare y x = Lt.
Proof. intros x y H. rewrite String.compare_antisym, H. reflexivity. Qed.

Lemma sort_in_In : forall x l y, In y (sort_in x l) <-> y = x \/ In y l.
Proof.
  intros x l y. induction l as [|z r IH]; cbn; [intuition|]. destruct (String.compare x z) eqn:C; cbn.
  - apply String.compare_eq_iff in C. subst z. intuition.
  - intuition.
  - rewrite IH. intuition.
Qed.
Lemma sort_in_ok : forall x l, StronglySorted slt l -> StronglySorted slt (sort_in x l).
Proof.
  intros x l H. induction H as [|y r H IH F]; cbn; [repeat constructor|]. destruct (String.compare x y) eqn:C.
  - constructor; auto.
  - constructor; [constructor; auto|]. constructor; [exact C|]. eapply Forall_impl; [|exact F]. cbn. intros z. apply slt_trans. exact C.
  - constructor; [exact IH|]. apply Forall_forall. intros z Hz. apply sort_in_In in Hz. destruct Hz as [->|Hz]; [apply scmp_gt; exact C|]. rewrite Forall_forall in F. auto.
Qed.
Lemma sorted_ok : forall l, alphabetical (sorted l).
Proof. intros l. induction l as [|x l IH]; cbn; [constructor|]. apply sort_in_ok. exact IH. Qed.
Lemma sorted_In : forall l y, In y (sorted l) <-> In y l.
Proof. intros l y. induction l as [|x l IH]; cbn; [tauto|]. rewrite sort_in_In, IH. intuition. Qed.

(** Two alphabetical lists with the same elements are equal. *)
Lemma alphabetical_unique : forall l1 l2, alphabetical l1 -> alphabetical l2 -> (forall x, In x l1 <-> In x l2) -> l1 = l2.
Proof.
  intros l1 l2 H1. revert l2. induction H1 as [|x l1 H1 IH F1]; intros l2 H2 E.
  - destruct l2 as [|y l2]; [reflexivity|]. exfalso. apply (E y). left. reflexivity.
  - destruct H2 as [|y l2 H2 F2]; [exfalso; apply (E x); left; reflexivity|]. rewrite Forall_forall in F1, F2.
    assert (X : x = y).
    { destruct (proj1 (E x) (or_introl eq_refl)) as [Y|Y]; [congruence|]. destruct (proj2 (E y) (or_introl eq_refl)) as [Z|Z]; [congruence|].
      pose proof (slt_trans _ _ _ (F2 x Y) (F1 y Z)) as L. rewrite scmp_refl in L. discriminate. }
    subst y. f_equal. apply IH; [exact H2|]. intros z. split; intros Hz.
    + destruct (proj1 (E z) (or_intror Hz)) as [<-|W]; [|exact W]. pose proof (F1 _ Hz) as L. cbn in L. rewrite scmp_refl in L. discriminate.
    + destruct (proj2 (E z) (or_intror Hz)) as [<-|W]; [|exact W]. pose proof (F2 _ Hz) as L. cbn in L. rewrite scmp_refl in L. discriminate.
Qed.

(** * Texts *)
Lemma str_app : forall a b, str (a ++ b)%string = (str a ++ str b)%list.
Proof. intros a b. unfold str. induction a as [|c a IH]; cbn; congruence. Qed.
Lemma join_concat : forall sep l, join_str (str sep) l = str (String.concat sep l).
Proof.
  intros sep l. induction l as [|x l IH]; [reflexivity|]. destruct l as [|y l]; [reflexivity|].
  change (String.concat sep (x :: y :: l)) with (x ++ sep ++ String.concat sep (y :: l))%string.
  change (join_str (str sep) (x :: y :: l)) with (str x ++ str sep ++ join_str (str sep) (y :: l))%list. rewrite IH, !str_app. reflexivity.
Qed.

Lemma split_on_free : forall c t cur, ~ In c t -> split_on c cur t = [(cur ++ t)%list].
Proof.
  intros c t. induction t as [|x t IH]; intros cur H; cbn; [rewrite app_nil_r; reflexivity|].
  destruct (Ascii.eqb_spec x c) as [->|N]; [exfalso; apply H; left; reflexivity|]. rewrite IH; [|intros X; apply H; right; exact X]. rewrite <- app_assoc. reflexivity.
Qed.
Lemma split_on_sep : forall c t r cur, ~ In c t -> split_on c cur (t ++ c :: r)%list = ((cur ++ t)%list :: split_on c [] r).
Proof.
  intros c t r. induction t as [|x t IH]; intros cur H; cbn.
  - rewrite Ascii.eqb_refl, app_nil_r. reflexivity.
  - destruct (Ascii.eqb_spec x c) as [->|N]; [exfalso; apply H; left; reflexivity|]. rewrite IH; [|intros X; apply H; right; exact X]. rewrite <- app_assoc. reflexivity.
Qed.
Lemma split_concat : forall ls, ls <> [] -> Forall no_comma ls -> split ","%char (String.concat "," ls) = ls.
Proof.
  intros ls NE F. unfold split. induction F as [|x ls NC F IH]; [congruence|]. destruct ls as [|y ls].
  - cbn [String.concat]. rewrite split_on_free by exact NC. cbn. unfold unstr, str. rewrite string_of_list_ascii_of_string. reflexivity.
  - change (String.concat "," (x :: y :: ls)) with (x ++ "," ++ String.concat "," (y :: ls))%string. rewrite !str_app.
    change (str "," ++ str (String.concat "," (y :: ls)))%list with (","%char :: str (String.concat "," (y :: ls))).
    rewrite split_on_sep by exact NC. cbn [map]. rewrite IH by discriminate. cbn. unfold unstr, str. rewrite string_of_list_ascii_of_string. reflexivity.
Qed.

(** * The drawing *)
Section Drawing.
  Context (P : painter) (m : amdp) (B : built m).
  Let L := proj1 (proj2 (built_facts m B)).

  Definition style_for (coloring : option string) : state_style :=
    match coloring with None => std_state_map (p_formats P) | Some c => coloured P (split ","%char c) end.
  Definition look (coloring : option string) (s : nat) : attrs := match style_for coloring s (labels_by_state m s) with Ok a => a | Err _ => [] end.

  Lemma style_total : forall c s ls, exists at_, style_for c s ls = Ok at_.
  Proof. intros [c|] s ls; eexists; reflexivity. Qed.
  Lemma style_look : forall c s at_, style_for c s (labels_by_state m s) = Ok at_ <-> at_ = look c s.
  Proof. intros c s at_. unfold look. destruct (style_total c s (labels_by_state m s)) as (x & ->). split; congruence. Qed.

  Lemma has_labels : forall l s, In l (labels_by_state m s) <-> has_label m l s.
  Proof. intros l s. apply (labels_state_iff m L). Qed.

  Lemma look_painted : forall sel c s, selects sel c -> painted (p_colour P) m sel (fun n => the_name (TState n)) s (look c s).
  Proof.
    intros sel c s SE. destruct sel as [ls|].
    - destruct SE as (NE & F & ->). unfold look, style_for, coloured. rewrite (split_concat ls NE F). split; [reflexivity|]. split.
      + eexists. split; [|reflexivity]. split; [apply sorted_ok|]. intros l. rewrite sorted_In, filter_In, existsb_exists. cbn [counts]. split.
        * intros (I1 & y & I2 & E). apply String.eqb_eq in E. subst y. split; [apply has_labels; exact I2|exact I1].
        * intros (I1 & I2). split; [exact I2|]. exists l. split; [apply has_labels; exact I1|apply String.eqb_refl].
      + exists (labels_by_state m s). split; [intros l; apply has_labels|]. cbn [dget String.eqb Ascii.eqb Bool.eqb]. rewrite join_concat. reflexivity.
    - cbn in SE. subst c. unfold look, style_for, std_state_map. split; [reflexivity|]. split.
      + eexists. split; [|reflexivity]. split; [apply sorted_ok|]. intros l. rewrite sorted_In, has_labels. cbn. tauto.
      + exists (labels_by_state m s). split; [intros l; apply has_labels|]. cbn [dget String.eqb Ascii.eqb Bool.eqb]. rewrite join_concat. reflexivity.
  Qed.

  Definition box (s a : nat) : attrs := match dget String.eqb (std_action a (labels_by_action m (s, a))) "node" with Some x => x | None => [] end.
  Lemma box_ok : forall s a, boxed m (fun n => the_name (TState n)) s a (box s a).
  Proof.
    intros s a. split; [reflexivity|]. exists (labels_by_action m (s, a)). split; [intros l; apply (labels_action_iff m L)|].
    unfold box, std_action. cbn [dget String.eqb Ascii.eqb Bool.eqb]. change [] with (str ""). rewrite join_concat. reflexivity.
  Qed.

  Definition the_call (coloring : option string) : res (list stmt) :=
    digraph m (std_config (p_formats P) (a_kind m)) (match coloring with None => None | Some c => Some (coloured P (split ","%char c)) end) None false.

  Lemma call_shows : forall c, exists dg, the_call c = Ok dg /\ shows (p_prob P) m the_name (look c) dg.
  Proof.
    intros c. pose proof (built_ok m B) as OK. unfold the_call, shows. destruct (a_kind m) eqn:K.
    - assert (X : digraph m (std_config (p_formats P) KMdp) (match c with None => None | Some c => Some (coloured P (split ","%char c)) end) None false =
                  draw_mdp m (style_for c) (std_trans_map_mdp (p_formats P)) std_action_map false) by (unfold digraph; rewrite K; destruct c; reflexivity).
      rewrite X. clear X. destruct (draw_mdp_total m OK (style_for c) (std_trans_map_mdp (p_formats P)) std_action_map false) as (dg & E).
      { split; [intros; apply style_total|]. split; [intros; eexists; reflexivity|]. intros; do 3 eexists; split; [reflexivity|split; reflexivity]. }
      exists dg. split; [exact E|]. exists box, (fun _ _ => [("color", str "black"); ("dir", str "none")]). split; [exact box_ok|].
      generalize (draw_mdp_shows m OK _ _ _ false dg E). apply shows_mdp_ext.
      + intros s a _. apply style_look.
      + intros s x a _. split; [intros (aa & E1 & E2); injection E1 as <-; unfold box; rewrite E2; reflexivity|intros ->; eexists; split; reflexivity].
      + intros s x a _. split; [intros (aa & E1 & E2); injection E1 as <-; injection E2 as <-; reflexivity|intros ->; eexists; split; reflexivity].
      + intros s x d q a _. unfold st_tedge, std_trans_map_mdp, std_trans. split; [intros H; injection H as <-; reflexivity|intros ->; reflexivity].
    - assert (X : digraph m (std_config (p_formats P) KDtmc) (match c with None => None | Some c => Some (coloured P (split ","%char c)) end) None false =
                  draw_dtmc m (style_for c) (std_trans_map_dtmc (p_formats P))) by (unfold digraph; rewrite K; destruct c; reflexivity).
      rewrite X. clear X. destruct (draw_dtmc_total m OK (style_for c) (std_trans_map_dtmc (p_formats P))) as (dg & E).
      { split; [intros; apply style_total|]. intros; eexists; reflexivity. }
      exists dg. split; [exact E|].
      generalize (draw_dtmc_shows m OK _ _ dg (dtmc_zero m B K) E). apply shows_dtmc_ext.
      + intros s a _. apply style_look.
      + intros s x d q a _. unfold st_cedge, std_trans_map_dtmc, std_trans. split; [intros H; injection H as <-; reflexivity|intros ->; reflexivity].
  Qed.
End Drawing.

(** * The command *)
Lemma svg_other : forall o : string, (o ++ ".svg")%string <> o.
Proof. intros o. induction o as [|c o IH]; cbn; [discriminate|]. intros H. injection H as H. auto. Qed.

Lemma C109_lemma : forall P a coloring sel w m, stored w (modeltype a) (modelpath a) m -> selects sel coloring ->
  exists w' dg name node, render P a coloring w = Exited w' /\
    changes_only [render_output a; (render_output a ++ ".svg")%string] w w' /\ w_out w' = w_out w /\
    w_fs w' (render_output a) = None /\ w_fs w' (render_output a ++ ".svg")%string = Some (FText (p_dot P (p_source P dg))) /\
    naming name /\ shows (p_prob P) m name node dg /\
    forall s, painted (p_colour P) m sel (fun n => name (TState n)) s (node s).
Proof.
  intros P a c sel w m ST SE. pose proof ST as (lab & tra & _ & _ & F). destruct (from_file_ok _ _ _ _ F) as (B & _ & K & _).
  destruct (call_shows P m B c) as (dg & E & SH). set (o := render_output a).
  exists (erase o (write (o ++ ".svg") (FText (p_dot P (p_source P dg))) (write o (FText (p_source P dg)) w))), dg, the_name, (look P m c).
  split. { unfold render, render_cmd. rewrite (stored_load a w m ST). cbn [iobind]. unfold the_call in E. rewrite E. cbn [lift iobind]. reflexivity. }
  assert (N := svg_other o). split.
  { intros p Hp. cbn. unfold store. destruct (String.eqb_spec p o) as [->|N1]; [exfalso; apply Hp; left; reflexivity|].
    destruct (String.eqb_spec p (o ++ ".svg")) as [->|N2]; [exfalso; apply Hp; right; left; reflexivity|]. reflexivity. }
  split; [reflexivity|]. split; [cbn; rewrite String.eqb_refl; reflexivity|]. split.
  { cbn. unfold store. rewrite (proj2 (String.eqb_neq (o ++ ".svg") o) N), String.eqb_refl. reflexivity. }
  split; [exact the_naming|]. split; [exact SH|]. intros s. apply look_painted; auto.
Qed.

Lemma app_other : forall p x y : string, x <> y -> (p ++ x)%string <> (p ++ y)%string.
Proof. intros p x y N. induction p as [|c p IH]; cbn; [exact N|]. intros H. injection H as H. auto. Qed.
Lemma app_assoc_str : forall p x y : string, ((p ++ x) ++ y)%string = (p ++ (x ++ y))%string.
Proof. intros p x y. induction p as [|c p IH]; cbn; congruence. Qed.
Lemma C109_keeps_lemma : forall P a coloring w w' m, stored w (modeltype a) (modelpath a) m -> output a = None ->
  render P a coloring w = Exited w' -> stored w' (modeltype a) (modelpath a) m.
Proof.
  intros P a c w w' m ST NO R. pose proof ST as (lab & tra & L & T & F). destruct (from_file_ok _ _ _ _ F) as (B & _ & K & _).
  destruct (call_shows P m B c) as (dg & E & _). unfold render, render_cmd in R. rewrite (stored_load a w m ST) in R. cbn [iobind] in R. unfold the_call in E. rewrite E in R. cbn [lift iobind] in R.
  injection R as <-. assert (O : render_output a = (modelpath a ++ "-render")%string) by (unfold render_output; rewrite NO; reflexivity). rewrite O.
  exists lab, tra. split; [|split; [|exact F]]; cbn; unfold store; rewrite app_assoc_str.
  - rewrite !(proj2 (String.eqb_neq _ _)) by (apply app_other; discriminate). exact L.
  - rewrite !(proj2 (String.eqb_neq _ _)) by (apply app_other; discriminate). exact T.
Qed.

Lemma C109_same_lemma : forall colour m sel number s t at1 at2, painted colour m sel number s at1 -> painted colour m sel number t at2 ->
  same_key m sel s t -> dget String.eqb at1 "color" = dget String.eqb at2 "color".
Proof.
  intros colour m sel number s t at1 at2 (_ & (l1 & (A1 & K1) & C1) & _) (_ & (l2 & (A2 & K2) & C2) & _) SK. rewrite C1, C2. do 2 f_equal.
  apply alphabetical_unique; auto. intros x. rewrite K1, K2. split; intros (H1 & H2); (split; [apply (SK x H2); exact H1|exact H2]).
Qed.
