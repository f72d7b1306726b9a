(** Proofs about benchmark runs with times and files, and their curves. *)
From Coq Require Import String List Arith ZArith QArith Bool Lia.
From Verif Require Import Base BaseFacts Num ReachForm Milp Subsystem Formulations Problems Benchmarks BenchRun SpecRender.
Import ListNotations.
Local Open Scope nat_scope.

(** * Times *)

Definition strip (x : tinner) : inner := match x with TFinished v _ _ => Finished v | TStopNow => StopNow | TStopWith v _ _ => StopWith v end.
Definition timed_ok (clock : nat -> Q * Q) (x : tinner) : Prop :=
  match x with
  | TStopNow => True
  | TFinished v w p | TStopWith v w p => w = map (fun j => fst (clock j)) (seq 0 (length v)) /\ p = map (fun j => snd (clock j)) (seq 0 (length v))
  end.

Lemma timed_results_strip : forall clock stop items j v w p, strip (timed_results clock stop items j v w p) = results_loop stop items v.
Proof.
  intros clock stop. induction items as [|r items IH]; intros j v w p; cbn; [reflexivity|]. destruct (pr_status r) as [|[]]; cbn; auto; destruct stop; cbn; auto.
Qed.

Lemma timed_results_ok : forall clock stop items v w p, w = map (fun j => fst (clock j)) (seq 0 (length v)) -> p = map (fun j => snd (clock j)) (seq 0 (length v)) ->
  timed_ok clock (timed_results clock stop items (length v) v w p).
Proof.
  intros clock stop. induction items as [|r items IH]; intros v w p Hw Hp; cbn [timed_results]; [split; assumption|].
  assert (N : forall x, S (length v) = length (v ++ [x])%list) by (intros x; rewrite app_length; cbn; lia).
  assert (W : forall x : option Q, (w ++ [fst (clock (length v))])%list = map (fun j => fst (clock j)) (seq 0 (length (v ++ [x])%list))) by (intros x; rewrite <- N, seq_S, map_app, <- Hw; reflexivity).
  assert (P : forall x : option Q, (p ++ [snd (clock (length v))])%list = map (fun j => snd (clock j)) (seq 0 (length (v ++ [x])%list))) by (intros x; rewrite <- N, seq_S, map_app, <- Hp; reflexivity).
  destruct (pr_status r) as [|s]; [rewrite (N (pr_value r)); apply IH; auto|].
  destruct s; try exact I; (destruct stop; [split; auto|rewrite (N (Some (-1)%Q)); apply IH; auto]).
Qed.

Definition plain (e : rentry) : entry := (e_thr e, e_values e).
Definition timed_entry (clock : nat -> nat -> Q * Q) (i : nat) (e : rentry) : Prop :=
  e_wall e = map (fun j => fst (clock i j)) (seq 0 (length (e_values e))) /\ e_proc e = map (fun j => snd (clock i j)) (seq 0 (length (e_values e))).

Lemma timed_plain : forall clock it rf md labels stop debug ths i data,
  thresholds_loop it rf md labels stop debug ths (map plain data) =
  match timed_thresholds clock it rf md labels stop debug ths i data with Ok d => Ok (map plain d) | Err e => Err e end.
Proof.
  intros clock it rf md labels stop debug. induction ths as [|thr ths IH]; intros i data; cbn; [reflexivity|].
  destruct (solveiter it rf thr md labels) as [g|e]; cbn [bind]; [|reflexivity].
  rewrite <- (timed_results_strip (clock i) stop (g_items g) 0 [] [] []). destruct (timed_results (clock i) stop (g_items g) 0 [] [] []) as [v w p| |v w p]; cbn [strip].
  - destruct (g_exn g); [reflexivity|]. destruct (debug && _); [reflexivity|]. rewrite <- (IH (S i) (data ++ [MkEntry thr v w p])%list). rewrite map_app. reflexivity.
  - reflexivity.
  - rewrite map_app. reflexivity.
Qed.

Lemma timed_entries : forall clock it rf md labels stop debug ths data d,
  (forall i e, nth_error data i = Some e -> timed_entry clock i e) ->
  timed_thresholds clock it rf md labels stop debug ths (length data) data = Ok d -> forall i e, nth_error d i = Some e -> timed_entry clock i e.
Proof.
  intros clock it rf md labels stop debug. induction ths as [|thr ths IH]; intros data d HD E; cbn in E; [injection E as <-; exact HD|].
  destruct (solveiter it rf thr md labels) as [g|e]; cbn [bind] in E; [|discriminate].
  pose proof (timed_results_ok (clock (length data)) stop (g_items g) [] [] [] eq_refl eq_refl) as TO.
  change (length (@nil (option Q))) with 0 in TO. destruct (timed_results (clock (length data)) stop (g_items g) 0 [] [] []) as [v w p| |v w p]; cbn [timed_ok] in TO.
  - assert (HD' : forall i e, nth_error (data ++ [MkEntry thr v w p]) i = Some e -> timed_entry clock i e).
    { intros i e H. destruct (lt_dec i (length data)); [rewrite nth_error_app1 in H by lia; apply HD; auto|]. rewrite nth_error_app2 in H by lia.
      destruct (i - length data) as [|k] eqn:EK; cbn in H; [|destruct k; discriminate]. injection H as <-. replace i with (length data) by lia. exact TO. }
    destruct (g_exn g); [discriminate|]. destruct (debug && _); [discriminate|].
    apply (IH (data ++ [MkEntry thr v w p])%list d HD'). rewrite app_length. cbn [length]. rewrite Nat.add_1_r. exact E.
  - injection E as <-. exact HD.
  - injection E as <-. intros i e H. destruct (lt_dec i (length data)); [rewrite nth_error_app1 in H by lia; apply HD; auto|]. rewrite nth_error_app2 in H by lia.
    destruct (i - length data) as [|k] eqn:EK; cbn in H; [|destruct k; discriminate]. injection H as <-. replace i with (length data) by lia. exact TO.
Qed.

Lemma run_one_cases : forall clock rf me md a fs,
  match bench_one (m_iter me) rf md (b_from a) (b_to a) (b_step a) (b_debug a) (b_labels a) (b_stop a) with
  | Err e => run_one clock rf me md a fs = (Err e, fs)
  | Ok es => exists r, run_one clock rf me md a fs = (Ok (MkData (m_details me) md r), if b_json a then dset String.eqb fs (json_name (m_details me) md) (MkData (m_details me) md r) else fs) /\
      map plain r = es /\ forall i e, nth_error r i = Some e -> timed_entry clock i e
  end.
Proof.
  intros clock rf me md a fs. unfold bench_one, run_one. destruct (arange _ _ _) as [ths|e]; cbn [bind]; [|reflexivity].
  pose proof (timed_plain clock (m_iter me) rf md (b_labels a) (b_stop a) (b_debug a) ths 0 []) as TP. cbn [map] in TP. rewrite TP.
  pose proof (fun d => timed_entries clock (m_iter me) rf md (b_labels a) (b_stop a) (b_debug a) ths [] d) as TE. cbn [length] in TE.
  destruct (timed_thresholds clock (m_iter me) rf md (b_labels a) (b_stop a) (b_debug a) ths 0 []) as [d|e]; [|reflexivity].
  exists d. split; [reflexivity|]. split; [reflexivity|]. apply TE; auto. intros [|i] e H; discriminate.
Qed.

(** * Files *)

Lemma String_eqb_refl : forall s, String.eqb s s = true.
Proof. apply String.eqb_refl. Qed.

Lemma dget_dset_eq : forall V (d : dict string V) k v, dget String.eqb (dset String.eqb d k v) k = Some v.
Proof. intros V d k v. induction d as [|(k', v') d IH]; cbn; [rewrite String.eqb_refl; reflexivity|]. destruct (String.eqb k k') eqn:E; cbn; rewrite E; auto. Qed.
Lemma dget_dset_neq : forall V (d : dict string V) k k0 v, k0 <> k -> dget String.eqb (dset String.eqb d k v) k0 = dget String.eqb d k0.
Proof.
  intros V d k k0 v H. induction d as [|(k', v') d IH]; cbn.
  - destruct (String.eqb_spec k0 k); [contradiction|reflexivity].
  - destruct (String.eqb_spec k k').
    + subst k'. cbn. destruct (String.eqb_spec k0 k); [contradiction|reflexivity].
    + cbn. destruct (String.eqb k0 k'); auto.
Qed.

(** * Several methods *)

Lemma append_cancel : forall s1 s2 t1 t2, String.length t1 = String.length t2 -> (s1 ++ t1 = s2 ++ t2)%string -> s1 = s2 /\ t1 = t2.
Proof.
  induction s1 as [|c s1 IH]; intros [|c2 s2] t1 t2 L E; cbn in E.
  - auto.
  - exfalso. apply (f_equal String.length) in E. cbn in E. assert (X : forall a b, String.length (a ++ b)%string = String.length a + String.length b) by (induction a; intros; cbn; auto). rewrite X in E. lia.
  - exfalso. apply (f_equal String.length) in E. cbn in E. assert (X : forall a b, String.length (a ++ b)%string = String.length a + String.length b) by (induction a; intros; cbn; auto). rewrite X in E. lia.
  - injection E as -> E. destruct (IH _ _ _ L E) as (-> & ->). auto.
Qed.

Lemma json_name_inj : forall d1 d2 m1 m2, m1 <> OtherMode -> m2 <> OtherMode -> json_name d1 m1 = json_name d2 m2 -> method_repr d1 = method_repr d2 /\ m1 = m2.
Proof.
  intros d1 d2 m1 m2 H1 H2 E. unfold json_name in E. apply append_cancel in E.
  - destruct E as (E & F). split; [exact E|]. destruct m1, m2; try reflexivity; try congruence; discriminate F.
  - destruct m1, m2; try reflexivity; congruence.
Qed.

Lemma run_pairs_ok : forall clock rf a l k fs ds fs', run_pairs clock rf a k l fs = (Ok ds, fs') ->
  length ds = length l /\
  (forall i me md, nth_error l i = Some (me, md) -> exists d f g, nth_error ds i = Some d /\ run_one (clock (k + i)) rf me md a f = (Ok d, g)) /\
  (b_json a = true -> NoDup (map (fun p => json_name (m_details (fst p)) (snd p)) l) -> forall i me md d, nth_error l i = Some (me, md) -> nth_error ds i = Some d -> dget String.eqb fs' (json_name (m_details me) md) = Some d) /\
  (forall n, (forall me md, In (me, md) l -> n <> json_name (m_details me) md) -> dget String.eqb fs' n = dget String.eqb fs n).
Proof.
  intros clock rf a. induction l as [|(me, md) l IH]; intros k fs ds fs' E; cbn in E.
  - injection E as <- <-. split; [reflexivity|]. split; [intros [|]; discriminate|]. split; [intros _ _ [|]; discriminate|reflexivity].
  - destruct (run_one (clock k) rf me md a fs) as [[d|e] f1] eqn:E1; [|discriminate]. destruct (run_pairs clock rf a (S k) l f1) as [[ds0|e] f2] eqn:E2; [|discriminate].
    injection E as <- <-. destruct (IH _ _ _ _ E2) as (L & R & F & O). split; [cbn; congruence|]. split; [|split].
    + intros [|i] me' md' H; cbn in H.
      * injection H as <- <-. exists d, fs, f1. split; [reflexivity|]. rewrite Nat.add_0_r. exact E1.
      * destruct (R i me' md' H) as (d' & f & g & A & B). exists d', f, g. split; [exact A|]. rewrite <- Nat.add_succ_comm. exact B.
    + intros J ND. cbn [map] in ND. apply NoDup_cons_iff in ND. destruct ND as (NI & ND). intros [|i] me' md' d' H HD; cbn in H, HD.
      * injection H as <- <-. injection HD as <-. rewrite O.
        -- pose proof (run_one_cases (clock k) rf me md a fs) as RC. destruct (bench_one _ _ _ _ _ _ _ _ _); [destruct RC as (r & RC & _)|]; rewrite RC in E1; [|discriminate].
           injection E1 as <- <-. rewrite J. apply dget_dset_eq.
        -- intros me' md' HI EQ. apply NI. cbn [fst snd]. rewrite EQ. apply (in_map (fun p => json_name (m_details (fst p)) (snd p)) l (me', md') HI).
      * apply (F J ND i me' md' d' H HD).
    + intros n HN. rewrite O by (intros; apply HN; right; auto). pose proof (run_one_cases (clock k) rf me md a fs) as RC. destruct (bench_one _ _ _ _ _ _ _ _ _); [destruct RC as (r & RC & _)|]; rewrite RC in E1; [|discriminate].
      injection E1 as _ <-. destruct (b_json a); [|reflexivity]. apply dget_dset_neq. apply HN. left. reflexivity.
Qed.

Lemma nth_error_prod : forall A B (l : list A) (m : list B) i j x y, nth_error l i = Some x -> nth_error m j = Some y -> nth_error (list_prod l m) (i * length m + j) = Some (x, y).
Proof.
  induction l as [|a l IH]; intros m [|i] j x y Hx Hy; cbn in Hx; try discriminate; cbn [list_prod].
  - injection Hx as <-. cbn. assert (j < length m) by (apply nth_error_Some; congruence). rewrite nth_error_app1 by (rewrite map_length; auto). rewrite nth_error_map, Hy. reflexivity.
  - rewrite nth_error_app2 by (rewrite map_length; cbn; lia). rewrite map_length. replace (S i * length m + j - length m) with (i * length m + j) by (cbn; lia). apply IH; auto.
Qed.

Lemma NoDup_app2 : forall A (l m : list A), NoDup l -> NoDup m -> (forall x, In x l -> In x m -> False) -> NoDup (l ++ m).
Proof.
  induction l as [|a l IH]; intros m Hl Hm D; cbn; [exact Hm|]. apply NoDup_cons_iff in Hl. destruct Hl as (NI & Hl). constructor.
  - rewrite in_app_iff. intros [H|H]; [auto|]. apply (D a); [left; reflexivity|exact H].
  - apply IH; auto. intros x H1 H2. apply (D x); [right|]; auto.
Qed.

Lemma NoDup_prod_names : forall (l : list bmethod) (m : list mode), NoDup (map (fun me => method_repr (m_details me)) l) -> NoDup m -> ~ In OtherMode m ->
  NoDup (map (fun p => json_name (m_details (fst p)) (snd p)) (list_prod l m)).
Proof.
  intros l m Hl Hm HO. induction l as [|a l IH]; cbn [list_prod map]; [constructor|]. cbn [map] in Hl. apply NoDup_cons_iff in Hl. destruct Hl as (NI & Hl).
  rewrite map_app, map_map. cbn [fst snd]. assert (NO : forall x, In x m -> x <> OtherMode) by (intros x Hx ->; auto). 
  apply NoDup_app2; auto.
  - clear - Hm NO. induction m as [|x m IH]; cbn; [constructor|]. apply NoDup_cons_iff in Hm. destruct Hm as (NI & Hm). constructor.
    + intros H. apply in_map_iff in H. destruct H as (y & E & Hy). destruct (json_name_inj _ _ _ _ (NO y (or_intror Hy)) (NO x (or_introl eq_refl)) E) as (_ & ->). auto.
    + apply IH; auto. intros y Hy. apply NO. right. auto.
  - intros n H1 H2. apply in_map_iff in H1, H2. destruct H1 as (x & E1 & Hx). destruct H2 as ((b, y) & E2 & Hy). cbn [fst snd] in E2. apply in_prod_iff in Hy. destruct Hy as (Hb & Hy).
    rewrite <- E2 in E1. destruct (json_name_inj _ _ _ _ (NO x Hx) (NO y Hy) E1) as (E & _). apply NI. rewrite E. apply (in_map (fun me => method_repr (m_details me)) l b Hb).
Qed.

Lemma C103_times_lemma : forall clock rf me md a fs d fs', run_one clock rf me md a fs = (Ok d, fs') ->
  bench_one (m_iter me) rf md (b_from a) (b_to a) (b_step a) (b_debug a) (b_labels a) (b_stop a) = Ok (map (fun e => (e_thr e, e_values e)) (r_run d)) /\
  forall i e, nth_error (r_run d) i = Some e -> length (e_wall e) = length (e_values e) /\ length (e_proc e) = length (e_values e) /\
    forall j, j < length (e_values e) -> nth_error (e_wall e) j = Some (fst (clock i j)) /\ nth_error (e_proc e) j = Some (snd (clock i j)).
Proof.
  intros clock rf me md a fs d fs' E. pose proof (run_one_cases clock rf me md a fs) as RC. destruct (bench_one _ _ _ _ _ _ _ _ _) as [es|e].
  - destruct RC as (r & RC & HP & HT). rewrite RC in E. injection E as <- _. split; [cbn; rewrite <- HP; reflexivity|]. cbn [r_run]. intros i e He. destruct (HT i e He) as (-> & ->).
    rewrite !map_length, seq_length. split; [reflexivity|]. split; [reflexivity|]. intros j Hj.
    rewrite !nth_error_map. replace (nth_error (seq 0 (length (e_values e))) j) with (Some j); [split; reflexivity|]. symmetry. rewrite (nth_error_nth' _ 0) by (rewrite seq_length; auto). rewrite seq_nth by auto. reflexivity.
  - rewrite RC in E. discriminate.
Qed.

Lemma C103_files_lemma : forall clock rf me md a fs o fs', run_one clock rf me md a fs = (o, fs') ->
  match o with
  | Ok d => r_method d = m_details me /\ r_mode d = md /\ (b_json a = true -> dget String.eqb fs' (json_name (m_details me) md) = Some d) /\
      (forall n, b_json a = false \/ n <> json_name (m_details me) md -> dget String.eqb fs' n = dget String.eqb fs n)
  | Err _ => fs' = fs
  end.
Proof.
  intros clock rf me md a fs o fs' E. pose proof (run_one_cases clock rf me md a fs) as RC. destruct (bench_one _ _ _ _ _ _ _ _ _) as [es|e].
  - destruct RC as (r & RC & _). rewrite RC in E. injection E as <- <-. cbn. split; [reflexivity|]. split; [reflexivity|]. split.
    + intros ->. apply dget_dset_eq.
    + intros n [->|H]; [reflexivity|]. destruct (b_json a); [apply dget_dset_neq; exact H|reflexivity].
  - rewrite RC in E. injection E as <- <-. reflexivity.
Qed.

Lemma C103_many_lemma : forall clock rf mes mds a fs ds fs', run_many clock rf mes mds a fs = (Ok ds, fs') ->
  length ds = length mes * length mds /\
  forall i j me md, nth_error mes i = Some me -> nth_error mds j = Some md ->
    exists d f g, nth_error ds (i * length mds + j) = Some d /\ run_one (clock (i * length mds + j)) rf me md a f = (Ok d, g) /\
      (b_json a = true -> NoDup (map (fun me => method_repr (m_details me)) mes) -> NoDup mds -> ~ In OtherMode mds -> dget String.eqb fs' (json_name (m_details me) md) = Some d).
Proof.
  intros clock rf mes mds a fs ds fs' E. destruct (run_pairs_ok _ _ _ _ _ _ _ _ E) as (L & R & F & _). split; [rewrite L; apply prod_length|].
  intros i j me md Hi Hj. pose proof (nth_error_prod _ _ mes mds i j me md Hi Hj) as HP. destruct (R _ _ _ HP) as (d & f & g & A & B). exists d, f, g. split; [exact A|]. split; [exact B|].
  intros J N1 N2 NO. apply (F J (NoDup_prod_names mes mds N1 N2 NO) _ me md d HP A).
Qed.

(** * Curves *)

Lemma pynth_nat : forall A (l : list A) i, pynth l (Z.of_nat i) = of_opt IndexError (nth_error l i).
Proof. intros A l i. unfold pynth. destruct (Z.ltb_spec (Z.of_nat i) 0); [lia|]. rewrite Nat2Z.id. reflexivity. Qed.
Lemma pynth_last : forall A (l : list A) x, pynth (l ++ [x]) (-1) = Ok x.
Proof.
  intros A l x. unfold pynth. change (-1 <? 0)%Z with true. cbv iota. rewrite app_length. cbn [length]. destruct (Z.ltb_spec (Z.of_nat (length l + 1) + -1) 0); [lia|].
  replace (Z.to_nat (Z.of_nat (length l + 1) + -1)) with (length l) by lia. rewrite nth_error_app2 by lia. rewrite Nat.sub_diag. reflexivity.
Qed.

Lemma pymax_ok : forall l, l <> [] -> ~ In None l -> exists q, pymax l = Ok (Some q).
Proof.
  intros [|x l] H N; [congruence|]. unfold pymax. destruct x as [q|]; [|exfalso; apply N; left; reflexivity]. clear H. assert (N' : ~ In None l) by (intros X; apply N; right; auto). clear N. revert q.
  induction l as [|y l IH]; intros q; cbn; [eauto|]. destruct y as [a|]; [|exfalso; apply N'; left; reflexivity]. cbn [bind]. apply IH. intros X. apply N'. right. auto.
Qed.

Lemma mapM_all : forall A B (f : A -> res B) l, (forall x, In x l -> exists y, f x = Ok y) -> exists ys, mapM f l = Ok ys /\ Forall2 (fun x y => f x = Ok y) l ys.
Proof.
  intros A B f. induction l as [|x l IH]; intros H; cbn; [exists []; split; [reflexivity|constructor]|]. destruct (H x (or_introl eq_refl)) as (y & Hy). rewrite Hy. cbn [bind].
  destruct IH as (ys & E & F); [intros z Hz; apply H; right; auto|]. rewrite E. cbn [bind]. exists (y :: ys). split; [reflexivity|constructor; auto].
Qed.

Lemma F2_len : forall A B (P : A -> B -> Prop) l m, Forall2 P l m -> length l = length m.
Proof. intros A B P l m H. induction H; cbn; auto. Qed.
Lemma F2_nth : forall A B (P : A -> B -> Prop) l m, Forall2 P l m -> forall i x y, nth_error l i = Some x -> nth_error m i = Some y -> P x y.
Proof. intros A B P l m H. induction H; intros [|i] a b Ha Hb; cbn in Ha, Hb; try discriminate; [congruence|eauto]. Qed.

Lemma drawn_height : forall tv nm v, exists y, drawn_value tv nm (Some v) = Ok (Some y) /\ height tv nm v y.
Proof.
  intros tv nm v. unfold drawn_value, height. destruct tv as [q|].
  - destruct (Qeq_bool v (-1)) eqn:E.
    + apply Qeq_bool_iff in E. destruct nm; eexists; (split; [reflexivity|]); exists q; split; auto; reflexivity.
    + apply Qeq_bool_neq in E. destruct nm; eexists; (split; [reflexivity|]); exists v; split; auto; reflexivity.
  - destruct nm; eexists; (split; [reflexivity|]); exists v; split; auto; reflexivity.
Qed.

Lemma state_curve_ok : forall run a k i, even_run k run -> i < k -> exists pts,
  state_curve run a k (Z.of_nat i) = Ok (MkCurve (if k =? 1 then None else Some (Z.of_nat (S i))) (Z.to_nat (Z.of_nat i mod Z.of_nat (ra_markers a))) pts) /\ draws_values run (ra_timeout a) (ra_normalize a) i pts.
Proof.
  intros run a k i HE Hi. unfold state_curve, draws_values.
  assert (X : exists ys ys2, mapM (fun e => pynth (e_values e) (Z.of_nat i)) run = Ok ys /\ mapM (drawn_value (ra_timeout a) (ra_normalize a)) ys = Ok ys2 /\
     Forall2 (fun e p => fst p = e_thr e /\ exists v y, nth_error (e_values e) i = Some (Some v) /\ snd p = Some y /\ height (ra_timeout a) (ra_normalize a) v y) run (combine (map e_thr run) ys2)).
  { clear - HE Hi. induction run as [|e run IH]; cbn [mapM map].
    - exists [], []. repeat split; constructor.
    - destruct IH as (ys & ys2 & A & B & C); [intros x Hx; apply HE; right; auto|]. destruct (HE e (or_introl eq_refl)) as (L & N). rewrite pynth_nat.
      destruct (nth_error (e_values e) i) as [o|] eqn:EN; [|exfalso; apply nth_error_None in EN; lia]. destruct o as [v|]; [|exfalso; apply N; eapply nth_error_In; eauto].
      destruct (drawn_height (ra_timeout a) (ra_normalize a) v) as (y & D & Hy). cbn [of_opt bind]. rewrite A. cbn [bind]. exists (Some v :: ys), (Some y :: ys2). split; [reflexivity|]. cbn [mapM]. rewrite D. cbn [bind]. rewrite B. split; [reflexivity|].
      cbn [combine]. constructor; [|exact C]. split; [reflexivity|]. exists v, y. rewrite EN. auto. }
  destruct X as (ys & ys2 & A & B & C). rewrite A. cbn [bind]. rewrite B. cbn [bind]. eexists. split; [|exact C]. destruct (k =? 1); [reflexivity|]. do 3 f_equal. lia.
Qed.

Lemma C104_states_lemma : forall run k a, run <> [] -> even_run k run -> 0 < k -> 1 <= ra_plot_no a <= 3 -> ra_range a = None ->
  (exists cs, render run AllStates a = Ok cs /\ length cs = k /\ forall i, i < k -> exists c, nth_error cs i = Some c /\
     c_index c = (if k =? 1 then None else Some (Z.of_nat (S i))) /\ draws_values run (ra_timeout a) (ra_normalize a) i (c_points c)) /\
  (exists c, render run LastStates a = Ok [c] /\ c_index c = (if k =? 1 then None else Some (Z.of_nat k)) /\ draws_values run (ra_timeout a) (ra_normalize a) (k - 1) (c_points c)).
Proof.
  intros run k a HR HE Hk HP HN. unfold render. cbn [assert_ bind]. destruct (Nat.leb_spec 1 (ra_plot_no a)); [|lia]. destruct (Nat.leb_spec (ra_plot_no a) 3); [|lia]. cbn [andb assert_ bind].
  destruct run as [|e0 run0] eqn:ER; [congruence|]. rewrite <- ER in *. assert (HF : nth_error run 0 = Some e0) by (rewrite ER; reflexivity). rewrite HF. cbn [of_opt bind].
  destruct (HE e0) as (L0 & _); [rewrite ER; left; reflexivity|]. rewrite L0.
  destruct (mapM_all _ _ (fun e => pymax (e_values e)) run) as (ms & EM & FM).
  { intros e He. destruct (HE e He) as (L & N). destruct (pymax_ok (e_values e)) as (q & Hq); [destruct (e_values e); [cbn in L; lia|discriminate]|exact N|eauto]. }
  rewrite EM. cbn [bind]. destruct (pymax_ok ms) as (q & Hq).
  { intros ->. inversion FM. congruence. }
  { intros HI. clear - FM HE HI Hk. revert HE. induction FM as [|e m run ms HM FM IH]; intros HE; [destruct HI|]. destruct HI as [->|HI]; [|apply IH; auto; intros x Hx; apply HE; right; auto].
    destruct (HE e (or_introl eq_refl)) as (L & N). destruct (pymax_ok (e_values e)) as (q & Hq); [destruct (e_values e); [cbn in L; lia|discriminate]|exact N|congruence]. }
  rewrite Hq. cbn [bind]. rewrite HN. split.
  - destruct (mapM_all _ _ (state_curve run a k) (map Z.of_nat (seq 0 k))) as (cs & EC & FC).
    { intros z Hz. apply in_map_iff in Hz. destruct Hz as (i & <- & Hi). apply in_seq in Hi. destruct (state_curve_ok run a k i HE ltac:(lia)) as (pts & E & _). eauto. }
    exists cs. split; [exact EC|]. pose proof (F2_len _ _ _ _ _ FC) as LC. rewrite map_length, seq_length in LC. split; [auto|]. intros i Hi.
    destruct (nth_error cs i) as [c|] eqn:EN; [|apply nth_error_None in EN; lia]. exists c. split; [reflexivity|].
    assert (E : state_curve run a k (Z.of_nat i) = Ok c).
    { apply (F2_nth _ _ _ _ _ FC i); [|exact EN]. rewrite nth_error_map. rewrite (nth_error_nth' _ 0) by (rewrite seq_length; auto). rewrite seq_nth by auto. reflexivity. }
    destruct (state_curve_ok run a k i HE Hi) as (pts & E2 & D). rewrite E in E2. injection E2 as ->. split; [reflexivity|exact D].
  - assert (EF : filter (fun i => (i =? Z.of_nat k - 1)%Z) (map Z.of_nat (seq 0 k)) = [Z.of_nat (k - 1)]).
    { destruct k as [|k']; [lia|]. rewrite seq_S, map_app, filter_app. cbn [map filter Nat.add]. replace (Z.of_nat k' =? Z.of_nat (S k') - 1)%Z with true by (symmetry; apply Z.eqb_eq; lia).
      replace (S k' - 1) with k' by lia. assert (EN : filter (fun i => (i =? Z.of_nat (S k') - 1)%Z) (map Z.of_nat (seq 0 k')) = []); [|rewrite EN; reflexivity].
      assert (X : forall l, (forall x, In x l -> x < k') -> filter (fun i => (i =? Z.of_nat (S k') - 1)%Z) (map Z.of_nat l) = []).
      { induction l as [|x l IH]; intros Hl; cbn [map filter]; [reflexivity|]. pose proof (Hl x (or_introl eq_refl)). destruct (Z.eqb_spec (Z.of_nat x) (Z.of_nat (S k') - 1)); [lia|]. apply IH. intros; apply Hl; right; auto. }
      apply X. intros x Hx. apply in_seq in Hx. lia. }
    cbv zeta. rewrite EF. cbn [mapM]. destruct (state_curve_ok run a k (k - 1) HE ltac:(lia)) as (pts & E & D). rewrite E. cbn [bind]. eexists. split; [reflexivity|]. cbn. split; [|exact D].
    destruct (k =? 1); [reflexivity|]. do 2 f_equal. lia.
Qed.

Lemma drawn_time_ok : forall tv cap t, time_height tv cap t (drawn_time tv cap t).
Proof.
  intros tv cap t. unfold time_height, drawn_time.
  assert (C : (Qle_bool 0 t && Qle_bool t 1 && cap = true /\ (0 <= t <= 1)%Q /\ cap = true) \/ (Qle_bool 0 t && Qle_bool t 1 && cap = false /\ (~ (0 <= t <= 1)%Q \/ cap = false))).
  { destruct (Qle_bool 0 t) eqn:E1; [|right; split; [reflexivity|]; left; intros (A & _); apply Qle_bool_iff in A; congruence].
    destruct (Qle_bool t 1) eqn:E2; [|right; split; [reflexivity|]; left; intros (_ & A); apply Qle_bool_iff in A; congruence].
    apply Qle_bool_iff in E1, E2. destruct cap; [left|right]; cbn; auto. }
  destruct tv as [q|]; [destruct (Qeq_bool t (-1)) eqn:E|].
  - apply Qeq_bool_iff in E. left. auto.
  - apply Qeq_bool_neq in E. right. split; [auto|]. destruct C as [(-> & C)|(-> & C)]; [left|right]; tauto.
  - right. split; [auto|]. destruct C as [(-> & C)|(-> & C)]; [left|right]; tauto.
Qed.

Lemma C104_times_lemma : forall run a (wall : bool), run <> [] -> (forall e, In e run -> (if wall then e_wall e else e_proc e) <> []) -> 1 <= ra_plot_no a <= 3 -> ra_range a = None ->
  exists c, render run (if wall then WallTime else ProcTime) a = Ok [c] /\ c_index c = None /\ draws_times run (if wall then e_wall else e_proc) (ra_timeout a) (ra_cap a) (c_points c).
Proof.
  intros run a wall HR HE HP HN. unfold render. destruct (Nat.leb_spec 1 (ra_plot_no a)); [|lia]. destruct (Nat.leb_spec (ra_plot_no a) 3); [|lia]. cbn [andb].
  assert (X : exists e0, nth_error run 0 = Some e0) by (destruct run; [congruence|cbn; eauto]). destruct X as (e0 & HF). rewrite HF. rewrite HN.
  assert (X : exists ts, mapM (fun e => pynth (if wall then e_wall e else e_proc e) (-1)) run = Ok ts /\
     draws_times run (if wall then e_wall else e_proc) (ra_timeout a) (ra_cap a) (combine (map e_thr run) (map (fun q => Some (drawn_time (ra_timeout a) (ra_cap a) q)) ts))).
  { clear - HE. induction run as [|e run IH]; cbn [mapM map].
    - exists []. split; [reflexivity|constructor].
    - destruct IH as (ts & A & B); [intros x Hx; apply HE; right; auto|]. pose proof (HE e (or_introl eq_refl)) as NE. destruct (exists_last NE) as (l & t & EL). rewrite EL, pynth_last. cbn [bind]. rewrite A. cbn [bind].
      exists (t :: ts). split; [reflexivity|]. cbn [map combine]. constructor; [|exact B]. split; [reflexivity|]. exists l, t, (drawn_time (ra_timeout a) (ra_cap a) t). split; [destruct wall; exact EL|]. split; [reflexivity|apply drawn_time_ok]. }
  destruct X as (ts & A & B). exists (MkCurve None (Z.to_nat ((-1) mod Z.of_nat (ra_markers a))) (combine (map e_thr run) (map (fun q => Some (drawn_time (ra_timeout a) (ra_cap a) q)) ts))).
  split; [|split; [reflexivity|exact B]].
  destruct wall; cbn [assert_ bind of_opt mapM]; unfold time_curve; rewrite A; reflexivity.
Qed.
