(** Proofs for Prism.v. *)
From Coq Require Import String List Arith NArith ZArith Bool Ascii Lia.
From Verif Require Import Base Num Matrix Amdp Files FilesProofs SpecPrism Prism.
Import ListNotations.
Local Open Scope nat_scope.

Lemma show_fuel_dec : forall f n, (n < 2 ^ N.of_nat f)%N -> (0 < f) -> decimal (show_fuel f n) n.
Proof.
  induction f as [|f IH]; intros n H F; [lia|]. cbn [show_fuel]. destruct (N.ltb_spec n 10) as [L|L].
  - unfold digit. apply dec_one. exact L.
  - assert (E : n = (10 * (n / 10) + n mod 10)%N) by (apply N.div_mod; lia).
    rewrite E at 3. unfold digit. apply dec_more; [|apply N.mod_lt; lia].
    apply IH.
    + apply N.div_lt_upper_bound; [lia|]. rewrite Nat2N.inj_succ, N.pow_succ_r' in H. lia.
    + destruct f; [|lia]. cbn in H. lia.
Qed.

Lemma show_dec : forall n, decimal (show n) n.
Proof.
  intros n. unfold show. apply show_fuel_dec; [|lia]. rewrite Nat2N.inj_succ, N.pow_succ_r'.
  pose proof (size_bound n). lia.
Qed.

Lemma show_Z_int : forall z, integer (show_Z z) z.
Proof.
  intros z. unfold show_Z. destruct (Z.ltb_spec z 0) as [L|L].
  - replace z with (- Z.of_N (Z.to_N (- z)))%Z at 2 by lia. apply int_neg; [apply show_dec|lia].
  - replace z with (Z.of_N (Z.to_N z)) at 2 by lia. apply int_pos. apply show_dec.
Qed.

Lemma decimal_chars : forall t n, decimal t n -> forall c, In c t -> is_digit c = true.
Proof.
  induction 1 as [d H|t n d H IH Hd]; intros c I.
  - destruct I as [<-|[]]. apply (is_digit_digit d). exact H.
  - apply in_app_or in I. destruct I as [I|[<-|[]]]; [exact (IH c I)|].
    apply (is_digit_digit d). exact Hd.
Qed.

Lemma integer_chars : forall t z, integer t z -> ~ In ","%char t /\ ~ In "="%char t.
Proof.
  intros t z H. destruct H as [t n D|t n D _]; split; intros I.
  - pose proof (decimal_chars t n D _ I) as X. discriminate X.
  - pose proof (decimal_chars t n D _ I) as X. discriminate X.
  - destruct I as [I|I]; [discriminate I|]. pose proof (decimal_chars t n D _ I) as X. discriminate X.
  - destruct I as [I|I]; [discriminate I|]. pose proof (decimal_chars t n D _ I) as X. discriminate X.
Qed.

Lemma fields_join : forall sep l, l <> [] -> (forall x, In x l -> ~ In sep x) -> fields sep (join_with sep l) l.
Proof.
  intros sep. induction l as [|x r IH]; intros N H; [congruence|]. destruct r as [|y r].
  - cbn. apply field_last. apply H. left. reflexivity.
  - change (join_with sep (x :: y :: r)) with (x ++ sep :: join_with sep (y :: r)). apply field_more; [apply H; left; reflexivity|].
    apply IH; [discriminate|]. intros z I. apply H. right. exact I.
Qed.

Lemma assign_ok : forall n z, name_ok n -> assigns (n ++ EQUALS :: show_Z z) (n, z) /\ ~ In ","%char (n ++ EQUALS :: show_Z z).
Proof.
  intros n z H. pose proof (integer_chars _ _ (show_Z_int z)) as [C E]. split.
  - exists (show_Z z). split; [|apply show_Z_int]. cbn [fst]. apply (field_more "="%char n (show_Z z) [show_Z z]).
    + intros I. destruct (H _ I) as (_ & X & _). congruence.
    + apply field_last. exact E.
  - intros I. apply in_app_or in I. destruct I as [I|[I|I]]; [destruct (H _ I) as (X & _); congruence|discriminate I|exact (C I)].
Qed.

Lemma decl_ok : forall n e, ~ In """"%char n -> declares (label_string n e) n e.
Proof.
  intros n e H. exists [" "%char], [" "%char], [" "%char]. unfold label_string.
  split; [intros c [<-|[]]; reflexivity|]. split; [discriminate|]. split; [intros c [<-|[]]; reflexivity|]. split; [intros c [<-|[]]; reflexivity|]. split; [exact H|].
  cbn. rewrite <- ?app_assoc. reflexivity.
Qed.

Lemma file_fold : forall ls file, fold_left (fun file (e : text * text) => file ++ label_string (fst e) (snd e) ++ [LF]) ls file =
  file ++ concat (map (fun t => t ++ [LF]) (map (fun e => label_string (fst e) (snd e)) ls)).
Proof.
  induction ls as [|e r IH]; intros file; cbn [fold_left map concat]; [rewrite app_nil_r; reflexivity|]. rewrite IH. rewrite <- (app_assoc file). reflexivity.
Qed.

Lemma unpack_id : forall ls : list (text * text), map (fun e => (fst e, snd e)) ls = ls.
Proof. induction ls as [|[a b] r IH]; cbn; [reflexivity|]. f_equal. exact IH. Qed.

Lemma prism_call_lemma : forall tmp model dest l labels, (forall n z, In (n, z) l -> name_ok n) -> (forall n e, In (n, e) labels -> ~ In """"%char n) ->
  exists cs ts, prism_call tmp model dest (Pairs l) (Pairs labels) =
      Ok ([str "prism"; tmp] ++ cs ++ [str "-exportmodel"; dest ++ str ".tra,sta,lab"], model ++ concat (map (fun t => t ++ [LF]) ts)) /\
    (l = [] /\ cs = [] \/ l <> [] /\ exists t, cs = [str "-const"; t] /\ constants t l) /\
    Forall2 (fun t l => declares t (fst l) (snd l)) ts labels.
Proof.
  intros tmp model dest l labels Hl Hb.
  destruct l as [|e0 l0] eqn:EL.
  - exists [], (map (fun e => label_string (fst e) (snd e)) labels). split; [|split].
    + unfold prism_call, const_strings, unpack. cbn [glength length Nat.ltb Nat.leb bind]. rewrite unpack_id. rewrite file_fold. reflexivity.
    + left. split; reflexivity.
    + clear Hl EL. induction labels as [|[n e] r IH]; cbn; constructor; [apply decl_ok; apply (Hb n e); left; reflexivity|]. apply IH. intros n' e' I. apply (Hb n' e'). right. exact I.
  - rewrite <- EL in *. assert (NE : l <> []) by (rewrite EL; discriminate).
    exists [str "-const"; join_with ","%char (map (fun e : text * Z => fst e ++ EQUALS :: show_Z (snd e)) l)], (map (fun e => label_string (fst e) (snd e)) labels). split; [|split].
    + unfold prism_call, const_strings, unpack. assert (G : 0 <? glength (Pairs l) = true) by (rewrite EL; reflexivity). rewrite G. cbn [bind]. rewrite unpack_id, map_map, file_fold. cbn [fst snd]. reflexivity.
    + right. split; [exact NE|]. eexists. split; [reflexivity|]. exists (map (fun e : text * Z => fst e ++ EQUALS :: show_Z (snd e)) l). split.
      * apply fields_join; [intros X; apply map_eq_nil in X; exact (NE X)|]. intros x I. apply in_map_iff in I. destruct I as ([n z] & <- & I). apply (assign_ok n z (Hl n z I)).
      * clear EL NE. induction l as [|[n z] r IH]; cbn; constructor; [apply (assign_ok n z); apply (Hl n z); left; reflexivity|]. apply IH. intros n' z' I. apply (Hl n' z'). right. exact I.
    + clear Hl EL NE. induction labels as [|[n e] r IH]; cbn; constructor; [apply decl_ok; apply (Hb n e); left; reflexivity|]. apply IH. intros n' e' I. apply (Hb n' e'). right. exact I.
Qed.

(** Dictionaries. *)
Lemma unpack_dict : forall V (sh : V -> text) l, (exists p, unpack sh (Dictionary l) = Ok p) <-> forall k v, In (k, v) l -> length k = 2.
Proof.
  intros V sh l. unfold unpack. induction l as [|[k v] r IH]; cbn.
  - split; [intros _ k v []|]. intros _. eexists. reflexivity.
  - split.
    + intros (p & E) k' v' [[= <- <-]|I].
      * destruct k as [|a [|b [|c k]]]; try discriminate E. reflexivity.
      * destruct k as [|a [|b [|c k]]]; try discriminate E. cbn in E. destruct (mapM _ r) as [q|]; [|discriminate E]. apply (proj1 IH (ex_intro _ q eq_refl) k' v' I).
    + intros H. destruct (proj2 IH (fun k' v' I => H k' v' (or_intror I))) as (q & Eq). pose proof (H k v (or_introl eq_refl)) as L.
      destruct k as [|a [|b [|c k]]]; try discriminate L. cbn. rewrite Eq. cbn. eexists. reflexivity.
Qed.

Lemma unpack_dict_err : forall V (sh : V -> text) l, (exists k v, In (k, v) l /\ length k <> 2) -> unpack sh (Dictionary l) = Err ValueError.
Proof.
  intros V sh l. unfold unpack. induction l as [|[k v] r IH]; cbn; intros (k' & v' & I & L); [destruct I|].
  destruct k as [|a [|b [|c k]]]; try reflexivity. cbn. destruct I as [[= <- <-]|I]; [elim L; reflexivity|]. rewrite IH; [reflexivity|]. exists k', v'. split; assumption.
Qed.

Lemma unpack_dict_values : forall V (sh : V -> text) l l', map fst l = map fst l' -> unpack sh (Dictionary l) = unpack sh (Dictionary l').
Proof.
  intros V sh. unfold unpack. induction l as [|[k v] r IH]; intros [|[k' v'] r'] E; try discriminate E; [reflexivity|]. injection E as -> E. cbn. rewrite (IH r' E). reflexivity.
Qed.

Lemma glength_keys : forall V (l l' : list (text * V)), map fst l = map fst l' -> length l = length l'.
Proof. intros V l l' E. rewrite <- (map_length fst l), E, map_length. reflexivity. Qed.

Lemma C76_dict_lemma : forall tmp model dest l labels,
  ((exists k v, In (k, v) l /\ length k <> 2) -> prism_call tmp model dest (Dictionary l) labels = Err ValueError) /\
  (forall l', map fst l = map fst l' -> prism_call tmp model dest (Dictionary l') labels = prism_call tmp model dest (Dictionary l) labels).
Proof.
  intros tmp model dest l labels. split.
  - intros X. unfold prism_call, const_strings. assert (L : 0 <? glength (Dictionary l) = true). { destruct X as (k & v & I & _). destruct l; [destruct I|reflexivity]. }
    rewrite L, (unpack_dict_err Z show_Z l X). reflexivity.
  - intros l' E. unfold prism_call, const_strings. cbn [glength]. rewrite (glength_keys Z l l' E), (unpack_dict_values Z show_Z l l' E). reflexivity.
Qed.

Lemma C77_dict_lemma : forall tmp model dest consts l cs, const_strings consts = Ok cs ->
  ((exists k v, In (k, v) l /\ length k <> 2) -> prism_call tmp model dest consts (Dictionary l) = Err ValueError) /\
  (forall l', map fst l = map fst l' -> prism_call tmp model dest consts (Dictionary l') = prism_call tmp model dest consts (Dictionary l)).
Proof.
  intros tmp model dest consts l cs E. unfold prism_call. rewrite E. cbn [bind]. split.
  - intros X. rewrite (unpack_dict_err text _ l X). reflexivity.
  - intros l' K. rewrite (unpack_dict_values text _ l l' K). reflexivity.
Qed.

Lemma C77_declared_lemma : forall model ts (labels : list (text * text)) n e, line_start model -> Forall2 (fun t l => declares t (fst l) (snd l)) ts labels -> In (n, e) labels ->
  declared (model ++ concat (map (fun t => t ++ [LF]) ts)) n e.
Proof.
  intros model ts labels n e LS F. revert model LS. induction F as [|t [n' e'] ts ls D F IH]; intros model LS I; [destruct I|]. cbn [map concat].
  destruct I as [[= -> ->]|I].
  - exists model, t, (concat (map (fun t => t ++ [LF]) ts)). split; [rewrite <- app_assoc; reflexivity|]. split; [exact LS|exact D].
  - rewrite app_assoc. apply IH; [|exact I]. right. exists (model ++ t). left. rewrite app_assoc. reflexivity.
Qed.

Lemma C77_refuted_lemma : exists tmp model dest n e args file, prism_call tmp model dest (Pairs []) (Pairs [(n, e)]) = Ok (args, file) /\ ~ In """"%char n /\ ~ declared file n e.
Proof.
  exists (str "t"), (str "// end"), (str "d"), (str "a"), (str "x=1"). eexists. eexists. split; [vm_compute; reflexivity|]. split; [intros [X|[]]; discriminate X|].
  intros (before & t & after & E & LS & (b1 & b2 & b3 & _ & _ & _ & _ & _ & Dt)). rewrite Dt in E. clear Dt.
  destruct LS as [->|(p & [->| ->])].
  - discriminate E.
  - rewrite <- app_assoc in E. cbn in E. assert (X : forall p l r, p ++ LF :: l = r -> exists q, r = p ++ q /\ hd_error q = Some LF). { intros. subst. eexists. split; reflexivity. }
    (* the only line end is the last character *)
    repeat (destruct p as [|? p]; cbn in E; [discriminate E|injection E as ? E]). destruct p; discriminate E.
  - rewrite <- app_assoc in E. repeat (destruct p as [|? p]; cbn in E; [discriminate E|injection E as ? E]). destruct p; discriminate E.
Qed.

Lemma C76_refuted_lemma : (exists n z, name_ok n /\ forall tmp model dest labels, prism_call tmp model dest (Dictionary [(n, z)]) labels = Err ValueError) /\
  exists n z, name_ok n /\ forall tmp model dest, exists cs file, prism_call tmp model dest (Dictionary [(n, z)]) (Pairs []) = Ok ([str "prism"; tmp; str "-const"; cs; str "-exportmodel"; dest ++ str ".tra,sta,lab"], file) /\ ~ constants cs [(n, z)].
Proof.
  split.
  - exists (str "N"), 2%Z. split; [intros c [<-|[]]; repeat split; discriminate|]. intros tmp model dest labels. reflexivity.
  - exists (str "NX"), 2%Z. split; [intros c [<-|[<-|[]]]; repeat split; discriminate|]. intros tmp model dest. eexists. eexists. split; [reflexivity|].
    intros (fs & F & A). inversion A as [|f y fs' l' (v & A1 & _) A2]; subst. inversion A2; subst. cbn [fst] in A1. inversion A1; subst. inversion F; subst.
    match goal with H : _ = _ :> chars |- _ => cbn in H; discriminate H end.
Qed.
