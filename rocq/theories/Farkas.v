(** Linear inequalities with rational coefficients: Fourier-Motzkin
    elimination, the lemma of Farkas, existence of rational optima. *)
From Coq Require Import List Arith ZArith QArith Qreals Reals Bool Lia Lra Lqa.
From Verif Require Import Num SpecMdp SpecForm SumFacts MatFacts FarkProofs.
Import ListNotations.
Local Open Scope Q_scope.

(** [a_0 x_0 + ... + a_(n-1) x_(n-1) <= b]. *)
Definition ineq := ((nat -> Q) * Q)%type.
Definition satQ (n : nat) (x : nat -> Q) (c : ineq) : Prop := sum_to n (fun j => fst c j * x j) <= snd c.
Definition satR (n : nat) (x : nat -> R) (c : ineq) : Prop := (sumn n (fun j => Q2R (fst c j) * x j) <= Q2R (snd c))%R.

(** Non-negative combinations. *)
Inductive cone (cs : list ineq) : ineq -> Prop :=
| cone_in : forall c, In c cs -> cone cs c
| cone_add : forall c d, cone cs c -> cone cs d -> cone cs (fun j => fst c j + fst d j, snd c + snd d)
| cone_scale : forall q c, 0 <= q -> cone cs c -> cone cs (fun j => q * fst c j, q * snd c).

Lemma cone_trans : forall cs ds c, (forall d, In d ds -> cone cs d) -> cone ds c -> cone cs c.
Proof. intros cs ds c H HC. induction HC; [auto|apply cone_add; auto|apply cone_scale; auto]. Qed.

Lemma sum_to_scal : forall n q f, sum_to n (fun i => q * f i) == q * sum_to n f.
Proof. induction n; intros. { unfold sum_to; simpl. ring. } rewrite !sum_to_S, IHn. ring. Qed.

Lemma cone_satR : forall n x cs c, (forall d, In d cs -> satR n x d) -> cone cs c -> satR n x c.
Proof.
  intros n x cs c H HC. induction HC; unfold satR in *; simpl.
  - apply H; auto.
  - rewrite (sumn_ext _ _ (fun j => Q2R (fst c j) * x j + Q2R (fst d j) * x j)%R) by (intros; rewrite Q2R_plus; ring).
    rewrite sumn_plus, Q2R_plus. Lra.lra.
  - rewrite (sumn_ext _ _ (fun j => Q2R q * (Q2R (fst c j) * x j))%R) by (intros; rewrite Q2R_mult; ring).
    rewrite sumn_scal, Q2R_mult. apply Rmult_le_compat_l; auto. apply Qle_Rle in H0. rewrite RMicromega.Q2R_0 in H0. auto.
Qed.

(** A number between two finite sets. *)
Lemma betweenQ : forall L U : list Q, (forall l u, In l L -> In u U -> l <= u) ->
  exists v, (forall l, In l L -> l <= v) /\ (forall u, In u U -> v <= u).
Proof.
  assert (MX : forall L : list Q, L <> [] -> exists m, In m L /\ forall l, In l L -> l <= m).
  { induction L as [|a L IH]; [congruence|]. intros _. destruct L as [|b L].
    - exists a. split; [left; auto|]. intros l [->|[]]. apply Qle_refl.
    - destruct IH as (m & A & B); [discriminate|]. destruct (Qlt_le_dec m a).
      + exists a. split; [left; auto|]. intros l [->|Hl]; [apply Qle_refl|]. specialize (B l Hl). Lqa.lra.
      + exists m. split; [right; auto|]. intros l [->|Hl]; auto. }
  assert (MN : forall L : list Q, L <> [] -> exists m, In m L /\ forall l, In l L -> m <= l).
  { induction L as [|a L IH]; [congruence|]. intros _. destruct L as [|b L].
    - exists a. split; [left; auto|]. intros l [->|[]]. apply Qle_refl.
    - destruct IH as (m & A & B); [discriminate|]. destruct (Qlt_le_dec a m).
      + exists a. split; [left; auto|]. intros l [->|Hl]; [apply Qle_refl|]. specialize (B l Hl). Lqa.lra.
      + exists m. split; [right; auto|]. intros l [->|Hl]; auto. }
  intros L U H. destruct L as [|a L].
  - destruct U as [|u U].
    + exists 0. split; intros ? [].
    + destruct (MN (u :: U)) as (m & A & B); [discriminate|]. exists m. split; [intros ? []|auto].
  - destruct (MX (a :: L)) as (m & A & B); [discriminate|]. exists m. split; auto.
Qed.

(** ** Elimination of variable [n] *)
Definition comb (n : nat) (p q : ineq) : ineq :=
  (fun j => / fst p n * fst p j + / (- fst q n) * fst q j, / fst p n * snd p + / (- fst q n) * snd q).
Definition isz (n : nat) (c : ineq) : bool := Qeq_bool (fst c n) 0.
Definition ispos (n : nat) (c : ineq) : bool := negb (Qle_bool (fst c n) 0).
Definition isneg (n : nat) (c : ineq) : bool := negb (Qle_bool 0 (fst c n)).
Definition elim (n : nat) (cs : list ineq) : list ineq :=
  filter (isz n) cs ++
  flat_map (fun p => map (comb n p) (filter (isneg n) cs)) (filter (ispos n) cs).

Lemma sign_cases : forall n c, isz n c = true \/ ispos n c = true \/ isneg n c = true.
Proof.
  intros n c. unfold isz, ispos, isneg. destruct (Q_dec (fst c n) 0) as [[H|H]|H].
  - right; right. apply negb_true_iff. apply not_true_iff_false. intros E. apply Qle_bool_iff in E. Lqa.lra.
  - right; left. apply negb_true_iff. apply not_true_iff_false. intros E. apply Qle_bool_iff in E. Lqa.lra.
  - left. apply Qeq_bool_iff. auto.
Qed.
Lemma ispos_iff : forall n c, ispos n c = true <-> 0 < fst c n.
Proof. intros. unfold ispos. rewrite negb_true_iff, <- not_true_iff_false, Qle_bool_iff. split; intros; Lqa.lra. Qed.
Lemma isneg_iff : forall n c, isneg n c = true <-> fst c n < 0.
Proof. intros. unfold isneg. rewrite negb_true_iff, <- not_true_iff_false, Qle_bool_iff. split; intros; Lqa.lra. Qed.
Lemma isz_iff : forall n c, isz n c = true <-> fst c n == 0.
Proof. intros. apply Qeq_bool_iff. Qed.

Lemma elim_in : forall n cs c, In c (elim n cs) <->
  (In c cs /\ fst c n == 0) \/ exists p q, In p cs /\ In q cs /\ 0 < fst p n /\ fst q n < 0 /\ c = comb n p q.
Proof.
  intros. unfold elim. rewrite in_app_iff, filter_In, isz_iff, in_flat_map. split.
  - intros [H|(p & Hp & H)]; [left; auto|]. apply in_map_iff in H. destruct H as (q & <- & Hq).
    apply filter_In in Hp, Hq. rewrite ispos_iff in Hp. rewrite isneg_iff in Hq. right. exists p, q. tauto.
  - intros [H|(p & q & A & B & C & D & ->)]; [left; auto|]. right. exists p. split.
    + apply filter_In. rewrite ispos_iff. auto.
    + apply in_map. apply filter_In. rewrite isneg_iff. auto.
Qed.

Lemma elim_cone : forall n cs c, In c (elim n cs) -> cone cs c.
Proof.
  intros n cs c H. apply elim_in in H. destruct H as [[H _]|(p & q & A & B & C & D & ->)]; [constructor; auto|].
  unfold comb.
  refine (cone_add cs (fun j => / fst p n * fst p j, / fst p n * snd p) (fun j => / - fst q n * fst q j, / - fst q n * snd q) _ _).
  - refine (cone_scale cs (/ fst p n) p _ (cone_in cs p A)). apply Qinv_le_0_compat. Lqa.lra.
  - refine (cone_scale cs (/ - fst q n) q _ (cone_in cs q B)). apply Qinv_le_0_compat. Lqa.lra.
Qed.

Lemma elim_zero : forall n cs c, In c (elim n cs) -> fst c n == 0.
Proof.
  intros n cs c H. apply elim_in in H. destruct H as [[_ H]|(p & q & A & B & C & D & ->)]; auto.
  unfold comb. simpl. field. split; Lqa.lra.
Qed.

Lemma cone_zero : forall n cs c, (forall d, In d cs -> fst d n == 0) -> cone cs c -> fst c n == 0.
Proof.
  intros n cs c H HC. induction HC; simpl; auto.
  - rewrite IHHC1, IHHC2. ring.
  - rewrite IHHC. ring.
Qed.

(** Extending a solution of the eliminated system, rational points. *)
Lemma elim_extendQ : forall n cs x, (forall c, In c (elim n cs) -> satQ n x c) ->
  exists v, forall c, In c cs -> satQ (S n) (fun j => if (j =? n)%nat then v else x j) c.
Proof.
  intros n cs x H.
  set (rest := fun c : ineq => (snd c - sum_to n (fun j => fst c j * x j)) / fst c n).
  destruct (betweenQ (map rest (filter (isneg n) cs)) (map rest (filter (ispos n) cs))) as (v & A & B).
  - intros l u Hl Hu. apply in_map_iff in Hl, Hu. destruct Hl as (q & <- & Hq), Hu as (p & <- & Hp).
    apply filter_In in Hp, Hq. rewrite ispos_iff in Hp. rewrite isneg_iff in Hq.
    assert (HS : satQ n x (comb n p q)) by (apply H; apply elim_in; right; exists p, q; tauto).
    unfold satQ in HS. simpl in HS.
    rewrite (sum_to_ext _ _ (fun j => / fst p n * (fst p j * x j) + / - fst q n * (fst q j * x j))) in HS by (intros; ring).
    rewrite sum_to_plus, !sum_to_scal in HS. unfold rest.
    set (a := fst p n) in *. set (b := fst q n) in *. set (sp := sum_to n _) in *. set (sq := sum_to n (fun j => fst q j * x j)) in *.
    set (bp := snd p) in *. set (bq := snd q) in *. clearbody a b sp sq bp bq. destruct Hp as [_ Hp], Hq as [_ Hq].
    assert (E1 : (bp - sp) / a == / a * bp - / a * sp) by (field; Lqa.lra).
    assert (E2 : (bq - sq) / b == / - b * sq - / - b * bq) by (field; Lqa.lra).
    rewrite E1, E2. Lqa.lra.
  - exists v. intros c Hc. unfold satQ. rewrite sum_to_S.
    rewrite Nat.eqb_refl. rewrite (sum_to_ext _ _ (fun j => fst c j * x j)).
    2: { intros i Hi. destruct (Nat.eqb_spec i n); [lia|reflexivity]. }
    destruct (sign_cases n c) as [Hz|[Hp|Hn]].
    + apply isz_iff in Hz. assert (satQ n x c) by (apply H; apply elim_in; left; auto). unfold satQ in H0. rewrite Hz. Lqa.lra.
    + assert (In (rest c) (map rest (filter (ispos n) cs))) by (apply in_map; apply filter_In; auto).
      specialize (B _ H0). unfold rest in B. apply ispos_iff in Hp.
      apply (Qmult_le_l _ _ _ Hp) in B. rewrite Qmult_div_r in B by Lqa.lra. Lqa.lra.
    + assert (In (rest c) (map rest (filter (isneg n) cs))) by (apply in_map; apply filter_In; auto).
      specialize (A _ H0). unfold rest in A. apply isneg_iff in Hn.
      assert (Hn' : 0 < - fst c n) by Lqa.lra.
      apply (Qmult_le_l _ _ _ Hn') in A.
      assert (- fst c n * ((snd c - sum_to n (fun j : nat => fst c j * x j)) / fst c n) == - (snd c - sum_to n (fun j : nat => fst c j * x j))) by (field; Lqa.lra).
      rewrite H1 in A. Lqa.lra.
Qed.

(** ** The lemma of Farkas *)
Lemma farkas_cone : forall n cs, (exists x, forall c, In c cs -> satQ n x c) \/
  (exists c, cone cs c /\ (forall j, (j < n)%nat -> fst c j == 0) /\ snd c < 0).
Proof.
  induction n; intros cs.
  - destruct (existsb (fun c : ineq => negb (Qle_bool 0 (snd c))) cs) eqn:E.
    + right. apply existsb_exists in E. destruct E as (c & Hc & E). exists c. split; [constructor; auto|]. split; [intros; lia|].
      rewrite negb_true_iff, <- not_true_iff_false, Qle_bool_iff in E. Lqa.lra.
    + left. exists (fun _ => 0). intros c Hc. unfold satQ, sum_to. simpl.
      rewrite <- not_true_iff_false in E. destruct (Qlt_le_dec (snd c) 0); auto. exfalso. apply E. apply existsb_exists. exists c.
      split; auto. rewrite negb_true_iff, <- not_true_iff_false, Qle_bool_iff. Lqa.lra.
  - destruct (IHn (elim n cs)) as [(x & H)|(c & A & B & C)].
    + left. destruct (elim_extendQ n cs x H) as (v & Hv). eauto.
    + right. exists c. split; [|split; auto].
      * eapply cone_trans; [|eauto]. apply elim_cone.
      * intros j Hj. destruct (Nat.eq_dec j n) as [->|]; [|apply B; lia].
        eapply cone_zero; [|eauto]. apply elim_zero.
Qed.

(** Multipliers. *)
Lemma cone_mult : forall cs c, cone cs c -> exists lam : nat -> Q, (forall i, 0 <= lam i) /\
  (forall j, fst c j == sum_to (length cs) (fun i => lam i * fst (nth i cs (fun _ => 0, 0)) j)) /\
  snd c == sum_to (length cs) (fun i => lam i * snd (nth i cs (fun _ => 0, 0))).
Proof.
  intros cs c H. induction H.
  - apply In_nth with (d := (fun _ => 0, 0)) in H. destruct H as (k & Hk & E).
    exists (fun i => if (k =? i)%nat then 1 else 0). split; [intros i; destruct (k =? i)%nat; Lqa.lra|]. split.
    + intros j. rewrite (sum_to_ext _ _ (fun i => if (k =? i)%nat then fst (nth i cs (fun _ => 0, 0)) j else 0)).
      2: { intros i _. destruct (k =? i)%nat; ring. }
      rewrite sum_to_single by auto. rewrite E. reflexivity.
    + rewrite (sum_to_ext _ _ (fun i => if (k =? i)%nat then snd (nth i cs (fun _ => 0, 0)) else 0)).
      2: { intros i _. destruct (k =? i)%nat; ring. }
      rewrite sum_to_single by auto. rewrite E. reflexivity.
  - destruct IHcone1 as (l1 & A1 & B1 & C1), IHcone2 as (l2 & A2 & B2 & C2).
    exists (fun i => l1 i + l2 i). split; [intros i; specialize (A1 i); specialize (A2 i); Lqa.lra|]. simpl. split.
    + intros j. rewrite B1, B2, <- sum_to_plus. apply sum_to_ext. intros; ring.
    + rewrite C1, C2, <- sum_to_plus. apply sum_to_ext. intros; ring.
  - destruct IHcone as (l1 & A1 & B1 & C1). exists (fun i => q * l1 i). split; [intros i; apply Qmult_le_0_compat; auto|]. simpl. split.
    + intros j. rewrite B1, <- sum_to_scal. apply sum_to_ext. intros; ring.
    + rewrite C1, <- sum_to_scal. apply sum_to_ext. intros; ring.
Qed.

Theorem farkas : forall n cs, (exists x, forall c, In c cs -> satQ n x c) \/
  (exists lam : nat -> Q, (forall i, 0 <= lam i) /\
     (forall j, (j < n)%nat -> sum_to (length cs) (fun i => lam i * fst (nth i cs (fun _ => 0, 0)) j) == 0) /\
     sum_to (length cs) (fun i => lam i * snd (nth i cs (fun _ => 0, 0))) < 0).
Proof.
  intros n cs. destruct (farkas_cone n cs) as [H|(c & A & B & C)]; auto. right.
  destruct (cone_mult _ _ A) as (lam & L1 & L2 & L3). exists lam. split; auto. split.
  - intros j Hj. rewrite <- L2. auto.
  - rewrite <- L3. auto.
Qed.

(** A system solvable over the reals is solvable over the rationals. *)
Lemma sumn_zero_coeff : forall n (c : ineq) x, (forall j, (j < n)%nat -> fst c j == 0) -> (sumn n (fun j => Q2R (fst c j) * x j) = 0)%R.
Proof. intros. apply sumn_zero. intros i Hi. rewrite (Qeq_eqR _ 0) by auto. rewrite RMicromega.Q2R_0. ring. Qed.

Lemma real_rational : forall n cs x, (forall c, In c cs -> satR n x c) -> exists y, forall c, In c cs -> satQ n y c.
Proof.
  intros n cs x H. destruct (farkas_cone n cs) as [A|(c & A & B & C)]; auto.
  exfalso. pose proof (cone_satR n x cs c H A) as HS. unfold satR in HS. rewrite sumn_zero_coeff in HS by auto.
  apply Qlt_Rlt in C. rewrite RMicromega.Q2R_0 in C. Lra.lra.
Qed.

Lemma satQ_satR : forall n y c, satQ n y c <-> satR n (fun j => Q2R (y j)) c.
Proof.
  intros. unfold satQ, satR. rewrite (sumn_ext _ _ (fun i => Q2R (fst c i * y i))) by (intros; rewrite Q2R_mult; auto).
  rewrite <- Q2R_sum_to. split; [apply Qle_Rle|apply Rle_Qle].
Qed.

(** ** Optima *)
(** Eliminate the variables [k], ..., 1. *)
Fixpoint elim_all (k : nat) (cs : list ineq) : list ineq :=
  match k with O => cs | S k' => elim_all k' (elim (S k') cs) end.

Lemma elim_all_cone : forall k cs c, In c (elim_all k cs) -> cone cs c.
Proof.
  induction k; simpl; intros cs c H; [constructor; auto|]. eapply cone_trans; [|apply IHk; eauto]. apply elim_cone.
Qed.

Lemma elim_all_zero : forall k cs c, In c (elim_all k cs) -> forall j, (1 <= j <= k)%nat -> fst c j == 0.
Proof.
  induction k; simpl; intros cs c H j Hj; [lia|]. destruct (Nat.eq_dec j (S k)) as [->|].
  - eapply cone_zero; [|apply (elim_all_cone k); eauto]. apply elim_zero.
  - eapply IHk; eauto. lia.
Qed.

Lemma elim_all_extend : forall k cs t, (forall c, In c (elim_all k cs) -> satQ 1 (fun _ => t) c) ->
  exists y, y O = t /\ forall c, In c cs -> satQ (S k) y c.
Proof.
  induction k; simpl; intros cs t H; [exists (fun _ => t); auto|].
  destruct (IHk (elim (S k) cs) t H) as (y & A & B). destruct (elim_extendQ (S k) cs y B) as (v & Hv).
  exists (fun j => if (j =? S k)%nat then v else y j). split; auto.
Qed.

Lemma sumn_S_shift : forall n f, (sumn (S n) f = f O + sumn n (fun i => f (S i)))%R.
Proof. induction n; intros; [simpl; ring|]. change (sumn (S (S n)) f) with (sumn (S n) f + f (S n))%R. rewrite IHn. simpl. ring. Qed.

Lemma sum_to_shift : forall n f, sum_to (S n) f == f O + sum_to n (fun i => f (S i)).
Proof. induction n; intros; [rewrite sum_to_S; unfold sum_to; simpl; ring|]. rewrite sum_to_S, IHn, sum_to_S. ring. Qed.

Lemma max_list : forall A (f : A -> Q) L, L <> [] -> exists m, In m L /\ forall l, In l L -> f m <= f l.
Proof.
  induction L as [|a L IH]; [congruence|]. intros _. destruct L as [|b L].
  - exists a. split; [left; auto|]. intros l [->|[]]. apply Qle_refl.
  - destruct IH as (m & A' & B); [discriminate|]. destruct (Qlt_le_dec (f a) (f m)).
    + exists a. split; [left; auto|]. intros l [->|Hl]; [apply Qle_refl|]. specialize (B l Hl). Lqa.lra.
    + exists m. split; [right; auto|]. intros l [->|Hl]; auto.
Qed.

Lemma lp_max_exists : forall n cs (obj : nat -> Q),
  (exists x, forall c, In c cs -> satR n x c) ->
  (exists B, forall x, (forall c, In c cs -> satR n x c) -> (sumn n (fun j => Q2R (obj j) * x j) <= B)%R) ->
  exists y, (forall c, In c cs -> satQ n y c) /\
    forall x, (forall c, In c cs -> satR n x c) -> (sumn n (fun j => Q2R (obj j) * x j) <= Q2R (sum_to n (fun j => obj j * y j)%Q))%R.
Proof.
  intros n cs obj (x0 & F) (B & HB).
  set (sh := fun c : ineq => ((fun j => match j with O => 0 | S j' => fst c j' end), snd c) : ineq).
  set (ds := ((fun j => match j with O => 1 | S j' => - obj j' end), 0) :: map sh cs : list ineq).
  set (es := elim_all n ds).
  (* real solutions satisfy the eliminated system *)
  assert (SH : forall x t, (forall c, In c cs -> satR n x c) -> (t <= sumn n (fun j => Q2R (obj j) * x j))%R ->
            forall c, In c es -> (Q2R (fst c O) * t <= Q2R (snd c))%R).
  { intros x t Hx Ht c Hc.
    assert (HS : satR (S n) (fun j => match j with O => t | S j' => x j' end) c).
    { apply (cone_satR (S n) _ ds); [|apply (elim_all_cone n); auto]. intros d [<-|Hd].
      - unfold satR. rewrite sumn_S_shift. cbn [fst snd]. rewrite RMicromega.Q2R_1, RMicromega.Q2R_0.
        rewrite (sumn_ext _ _ (fun i => - (Q2R (obj i) * x i))%R) by (intros; rewrite Q2R_opp; ring). rewrite sumn_opp. Lra.lra.
      - apply in_map_iff in Hd. destruct Hd as (c' & <- & Hc'). unfold satR. rewrite sumn_S_shift. unfold sh. cbn [fst snd].
        rewrite RMicromega.Q2R_0. specialize (Hx c' Hc'). unfold satR in Hx. Lra.lra. }
    unfold satR in HS. rewrite sumn_S_shift in HS.
    rewrite (sumn_zero n) in HS; [Lra.lra|]. intros i Hi. rewrite (Qeq_eqR _ 0); [rewrite RMicromega.Q2R_0; ring|].
    apply (elim_all_zero n ds c Hc). lia. }
  (* rational points of the eliminated system extend *)
  assert (EX : forall t, (forall c, In c es -> fst c O * t <= snd c) -> exists y, (forall c, In c cs -> satQ n y c) /\ t <= sum_to n (fun j => obj j * y j)).
  { intros t Ht. destruct (elim_all_extend n ds t) as (y & Y0 & Y).
    - intros c Hc. unfold satQ. rewrite sum_to_S. unfold sum_to. simpl. specialize (Ht c Hc). Lqa.lra.
    - exists (fun j => y (S j)). split.
      + intros c Hc. assert (HS : satQ (S n) y (sh c)) by (apply Y; right; apply in_map; auto).
        unfold satQ in *. rewrite sum_to_shift in HS. unfold sh in HS. cbn [fst snd] in HS. Lqa.lra.
      + specialize (Y _ (or_introl eq_refl)). unfold satQ in Y. rewrite sum_to_shift in Y. cbn [fst snd] in Y. rewrite Y0 in Y.
        rewrite (sum_to_ext _ _ (fun i => - (obj i * y (S i)))) in Y by (intros; ring). rewrite sum_to_opp in Y. Lqa.lra. }
  (* a rational feasible point *)
  destruct (real_rational n cs x0 F) as (y0 & F0).
  set (t0 := sum_to n (fun j => obj j * y0 j)).
  assert (HR0 : forall c, In c cs -> satR n (fun j => Q2R (y0 j)) c) by (intros c Hc; apply satQ_satR; auto).
  assert (Q0 : (sumn n (fun j => Q2R (obj j) * Q2R (y0 j)) = Q2R t0)%R).
  { unfold t0. rewrite Q2R_sum_to. apply sumn_ext. intros; rewrite Q2R_mult; auto. }
  assert (T0 : forall c, In c es -> fst c O * t0 <= snd c).
  { intros c Hc. apply Rle_Qle. rewrite Q2R_mult. apply (SH (fun j => Q2R (y0 j)) (Q2R t0) HR0); auto. rewrite Q0. Lra.lra. }
  destruct (filter (ispos O) es) as [|e0 er] eqn:EF.
  - (* unbounded: contradiction *)
    exfalso.
    assert (NP : forall c, In c es -> fst c O <= 0).
    { intros c Hc. destruct (Qlt_le_dec 0 (fst c O)) as [Hp|]; auto. apply ispos_iff in Hp.
      assert (In c (filter (ispos O) es)) by (apply filter_In; auto). rewrite EF in H. destruct H. }
    destruct (archimed (B - Q2R t0)) as [AR _].
    set (k := Z.max 0 (up (B - Q2R t0))).
    destruct (EX (t0 + inject_Z k)) as (y & Y1 & Y2).
    + intros c Hc. specialize (T0 c Hc). specialize (NP c Hc).
      assert (0 <= inject_Z k) by (change 0 with (inject_Z 0); rewrite <- Zle_Qle; lia).
      assert (0 <= - fst c O * inject_Z k) by (apply Qmult_le_0_compat; [Lqa.lra|auto]). Lqa.lra.
    + specialize (HB (fun j => Q2R (y j))).
      assert ((sumn n (fun j => Q2R (obj j) * Q2R (y j)) <= B)%R) by (apply HB; intros c Hc; apply satQ_satR; auto).
      apply Qle_Rle in Y2. rewrite Q2R_sum_to, Q2R_plus in Y2.
      rewrite (sumn_ext n (fun i => Q2R (obj i * y i)) (fun i => Q2R (obj i) * Q2R (y i))%R) in Y2 by (intros; apply Q2R_mult).
      assert (Q2R (inject_Z k) = IZR k) by (unfold Q2R, inject_Z; simpl; rewrite Rinv_1; ring).
      assert (IZR (up (B - Q2R t0)) <= IZR k)%R by (apply IZR_le; lia). Lra.lra.
  - destruct (max_list _ (fun c : ineq => snd c / fst c O) (e0 :: er)) as (m & M1 & M2); [discriminate|].
    rewrite <- EF in M1, M2. apply filter_In in M1. destruct M1 as [M0 M1]. apply ispos_iff in M1.
    set (ts := snd m / fst m O).
    assert (LE : t0 <= ts).
    { specialize (T0 m M0). unfold ts. apply Qle_shift_div_l; auto. Lqa.lra. }
    destruct (EX ts) as (y & Y1 & Y2).
    + intros c Hc. destruct (Qlt_le_dec 0 (fst c O)) as [Hp|Hn].
      * assert (In c (filter (ispos O) es)) by (apply filter_In; split; auto; apply ispos_iff; auto).
        specialize (M2 c H). cbv beta in M2. fold ts in M2. apply (Qmult_le_l _ _ _ Hp) in M2. rewrite Qmult_div_r in M2 by Lqa.lra. auto.
      * specialize (T0 c Hc). assert (0 <= - fst c O * (ts - t0)) by (apply Qmult_le_0_compat; Lqa.lra). Lqa.lra.
    + exists y. split; auto. intros x Hx.
      assert (Q2R (fst m O) * sumn n (fun j => Q2R (obj j) * x j) <= Q2R (snd m))%R.
      { apply (SH x _ Hx (Rle_refl _) m M0). }
      apply Qle_Rle in Y2. refine (Rle_trans _ _ _ _ Y2).
      unfold ts. rewrite Q2R_div by Lqa.lra. apply Qlt_Rlt in M1. rewrite RMicromega.Q2R_0 in M1.
      apply Rmult_le_reg_l with (Q2R (fst m O)); auto.
      replace (Q2R (fst m O) * (Q2R (snd m) / Q2R (fst m O)))%R with (Q2R (snd m)) by (field; Lra.lra). auto.
Qed.
