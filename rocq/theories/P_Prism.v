(** Properties C76 and C77: calls of prism.  [constants], [name_ok],
    [declares], [declared] and [line_start] are in SpecPrism. *)
From Coq Require Import String List Arith NArith ZArith Bool Ascii.
From Verif Require Import Base Num Matrix Amdp Files SpecPrism Prism PrismProofs ExFiles.
Import ListNotations.
Local Open Scope string_scope.
Local Open Scope nat_scope.

(** C76.  Constants given as pairs reach prism, and prism is told where to
    write the model.  Missing: constants given as a dictionary. *)
Theorem C76_constants_partial : forall tmp model dest l labels, (forall n z, In (n, z) l -> name_ok n) -> (forall n e, In (n, e) labels -> ~ In """"%char n) ->
  exists cs file, prism_call tmp model dest (Pairs l) (Pairs labels) = Ok ([str "prism"; tmp] ++ cs ++ [str "-exportmodel"; dest ++ str ".tra,sta,lab"], file)%list /\
    (l = [] /\ cs = [] \/ l <> [] /\ exists t, cs = [str "-const"; t] /\ constants t l).
Proof. intros tmp model dest l labels H H'. destruct (prism_call_lemma tmp model dest l labels H H') as (cs & ts & E & C & _). exists cs. eexists. split; [exact E|exact C]. Qed.
Print Assumptions C76_constants_partial.

(** A dictionary of constants (as documented) raises unless all names have two
    letters, and then its values do not reach prism. *)
Theorem C76_dictionary_partial : forall tmp model dest l labels,
  ((exists k v, In (k, v) l /\ length k <> 2) -> prism_call tmp model dest (Dictionary l) labels = Err ValueError) /\
  (forall l', map fst l = map fst l' -> prism_call tmp model dest (Dictionary l') labels = prism_call tmp model dest (Dictionary l) labels).
Proof. exact C76_dict_lemma. Qed.
Print Assumptions C76_dictionary_partial.

Theorem C76_dictionary_refuted : (exists n z, name_ok n /\ forall tmp model dest labels, prism_call tmp model dest (Dictionary [(n, z)]) labels = Err ValueError) /\
  exists n z, name_ok n /\ forall tmp model dest, exists cs file,
    prism_call tmp model dest (Dictionary [(n, z)]) (Pairs []) = Ok ([str "prism"; tmp; str "-const"; cs; str "-exportmodel"; dest ++ str ".tra,sta,lab"]%list, file) /\ ~ constants cs [(n, z)].
Proof. exact C76_refuted_lemma. Qed.
Print Assumptions C76_dictionary_refuted.

Example C76_nonvacuous : (forall n z, In (n, z) [(str "N", 12%Z); (str "MAX", (-1)%Z)] -> name_ok n) /\
  exists file, prism_call (str "tmp1") (str "dtmc") (str "out") (Pairs [(str "N", 12%Z); (str "MAX", (-1)%Z)]) (Pairs []) =
    Ok ([str "prism"; str "tmp1"; str "-const"; str "N=12,MAX=-1"; str "-exportmodel"; str "out.tra,sta,lab"], file).
Proof.
  split; [|eexists; vm_compute; reflexivity]. intros n z [[= <- _]|[[= <- _]|[]]] c I; cbn in I; repeat (destruct I as [<-|I]; [repeat split; discriminate|]); destruct I.
Qed.

(** C77.  The file prism reads is the model followed by the declarations of the
    labels; each is on a line of its own if the model ends with a line end.
    Missing: models that do not, and labels given as a dictionary. *)
Theorem C77_labels_partial : forall tmp model dest l labels args file, (forall n z, In (n, z) l -> name_ok n) -> (forall n e, In (n, e) labels -> ~ In """"%char n) ->
  prism_call tmp model dest (Pairs l) (Pairs labels) = Ok (args, file) ->
  (exists ts, file = (model ++ concat (map (fun t => t ++ ["010"%char]) ts))%list /\ Forall2 (fun t l => declares t (fst l) (snd l)) ts labels) /\
  (line_start model -> forall n e, In (n, e) labels -> declared file n e).
Proof.
  intros tmp model dest l labels args file H H' E. destruct (prism_call_lemma tmp model dest l labels H H') as (cs & ts & E' & _ & F). rewrite E in E'. injection E' as _ ->.
  split; [exists ts; split; [reflexivity|exact F]|]. intros LS n e I. exact (C77_declared_lemma model ts labels n e LS F I).
Qed.
Print Assumptions C77_labels_partial.

(** Without a line end the declaration continues the last line, for example a
    comment. *)
Theorem C77_labels_refuted : exists tmp model dest n e args file, prism_call tmp model dest (Pairs []) (Pairs [(n, e)]) = Ok (args, file) /\ ~ In """"%char n /\ ~ declared file n e.
Proof. exact C77_refuted_lemma. Qed.
Print Assumptions C77_labels_refuted.

Theorem C77_dictionary_partial : forall tmp model dest consts l cs, const_strings consts = Ok cs ->
  ((exists k v, In (k, v) l /\ length k <> 2) -> prism_call tmp model dest consts (Dictionary l) = Err ValueError) /\
  (forall l', map fst l = map fst l' -> prism_call tmp model dest consts (Dictionary l') = prism_call tmp model dest consts (Dictionary l)).
Proof. exact C77_dict_lemma. Qed.
Print Assumptions C77_dictionary_partial.

Example C77_nonvacuous : line_start (str "dtmc" ++ ["010"%char])%list /\ ~ In """"%char (str "goal") /\
  prism_call (str "t") (str "dtmc" ++ ["010"%char])%list (str "d") (Pairs []) (Pairs [(str "goal", str "x=1")]) =
    Ok ([str "prism"; str "t"; str "-exportmodel"; str "d.tra,sta,lab"], (str "dtmc" ++ "010"%char :: str "label ""goal"" = x=1;" ++ ["010"%char])%list).
Proof. split; [right; exists (str "dtmc"); left; reflexivity|]. split; [cbn; intros X; repeat (destruct X as [X|X]; [discriminate X|]); exact X|vm_compute; reflexivity]. Qed.
