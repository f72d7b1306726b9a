(** Property C109: the command render. *)
From Coq Require Import String List Arith NArith ZArith QArith Bool Ascii.
From Verif Require Import Base Num Matrix InvDict Graph Amdp Files SpecBuilt Draw SpecDraw Cli SpecCli RenderCmd SpecRenderCmd RenderCmdProofs ExCli ExRenderCmd.
Import ListNotations.
Local Open Scope string_scope.
Local Open Scope nat_scope.

(** C109.  The command ends without exception on every model that can be
    loaded, prints no verdict, writes the picture of a drawing of the model and
    changes nothing else, except for a file with the name of the picture
    without its extension, which is removed.  States have the colour of the
    alphabetical list of their labels, or of those given. *)
Theorem C109_render_partial : forall P a coloring sel w m, stored w (modeltype a) (modelpath a) m -> selects sel coloring ->
  exists w' dg name node, render P a coloring w = Exited w' /\
    changes_only [picture_path a; (picture_path a ++ ".svg")%string] w w' /\ w_out w' = w_out w /\
    w_fs w' (picture_path a) = None /\ w_fs w' (picture_path a ++ ".svg")%string = Some (FText (p_dot P (p_source P dg))) /\
    naming name /\ shows (p_prob P) m name node dg /\
    forall s, painted (p_colour P) m sel (fun n => name (TState n)) s (node s).
Proof. exact C109_lemma. Qed.
Print Assumptions C109_render_partial.

(** Equal labels, equal colours. *)
Theorem C109_same_colour : forall colour m sel number s t at1 at2, painted colour m sel number s at1 -> painted colour m sel number t at2 ->
  same_key m sel s t -> dget String.eqb at1 "color" = dget String.eqb at2 "color".
Proof. exact C109_same_lemma. Qed.
Print Assumptions C109_same_colour.

(** Without [--output] the model is kept. *)
Theorem C109_keeps_model : forall P a coloring w w' m, stored w (modeltype a) (modelpath a) m -> output a = None ->
  render P a coloring w = Exited w' -> stored w' (modeltype a) (modelpath a) m.
Proof. exact C109_keeps_lemma. Qed.
Print Assumptions C109_keeps_model.

(** With it, the file that is removed may be the model. *)
Theorem C109_render_refuted : exists P a w m w', stored w (modeltype a) (modelpath a) m /\ render P a None w = Exited w' /\
  forall k m', ~ stored w' k (modelpath a) m'.
Proof. exact C109_refuted_lemma. Qed.
Print Assumptions C109_render_refuted.

(** "every label-combination a separate coloring" (line 264): there are 143
    colours; whichever is chosen for a combination, some system has two states
    with different labels and the same colour. *)
Theorem C109_colours_refuted : exists a w m, stored w (modeltype a) (modelpath a) m /\
  forall P colours, length colours = 143 -> (forall ls, In (p_colour P ls) colours) ->
  exists w' dg name s t at1 at2, render P a None w = Exited w' /\ w_fs w' (picture_path a ++ ".svg")%string = Some (FText (p_dot P (p_source P dg))) /\
    naming name /\ In (NodeS (name (TState s)) at1) dg /\ In (NodeS (name (TState t)) at2) dg /\
    ~ same_key m None s t /\ dget String.eqb at1 "color" = dget String.eqb at2 "color".
Proof. exact C109_colours_refuted_lemma. Qed.
Print Assumptions C109_colours_refuted.

Example C109_nonvacuous : stored clw (modeltype cla) (modelpath cla) clm /\ selects (Some ["goal"; "red"]) (Some "goal,red") /\
  selects None None /\ a_kind clm = KMdp /\ w_fs (final (render rdP cla (Some "goal,red") clw)) "m-render.svg" = Some (FText (str "25")) /\
  key clm (Some ["goal"; "red"]) 0 ["red"] /\ key clm None 0 ["init"; "red"] /\ ~ same_key clm (Some ["goal"; "red"]) 0 1 /\ same_key clm (Some ["goal"; "red"]) 1 2.
Proof. exact C109_example. Qed.
