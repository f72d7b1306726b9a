(** A linear solver that meets [exact_linear]: Gaussian elimination. *)
From Coq Require Import String List Arith ZArith QArith Bool Lia Lqa.
From Verif Require Import Base Num Matrix SpecSystem SpecMdp SpecForm SpecSub SpecMilp SpecTreeMin Amdp ReachForm.
Import ListNotations.
Local Open Scope nat_scope.

Definition hd0 (r : list Q) : Q := hd 0%Q r.
Fixpoint pick (rows : list (list Q * Q)) : option ((list Q * Q) * list (list Q * Q)) :=
  match rows with
  | [] => None
  | e :: rest => if Qeq_bool (hd0 (fst e)) 0 then match pick rest with None => None | Some (p, o) => Some (p, e :: o) end else Some (e, rest)
  end.
Definition axpy (a : Q) (p r : list Q) : list Q := map (fun xy => (snd xy - a * fst xy)%Q) (combine p r).
Fixpoint gauss_rows (n : nat) (rows : list (list Q * Q)) : list Q :=
  match n with
  | O => []
  | S n' =>
      match pick rows with
      | None => repeat 0%Q n
      | Some ((p, c), rest) =>
          let h := hd0 p in
          let p' := map (fun q => Qred (q / h)) (tl p) in
          let c' := Qred (c / h) in
          let x := gauss_rows n' (map (fun e => (map Qred (axpy (hd0 (fst e)) p' (tl (fst e))), Qred (snd e - hd0 (fst e) * c')%Q)) rest) in
          Qred (c' - dot p' x) :: x
      end
  end.
Definition gauss (A : list (list Q)) (b : list Q) : list Q := gauss_rows (length b) (combine A b).

Lemma dot_cons : forall a r b x, dot (a :: r) (b :: x) = (a * b + dot r x)%Q. Proof. reflexivity. Qed.
Lemma dot_nil : forall x, dot [] x = 0%Q. Proof. reflexivity. Qed.

Lemma dot_axpy : forall a p r x, length p = length r -> (dot (map Qred (axpy a p r)) x == dot r x - a * dot p x)%Q.
Proof.
  intros a p. induction p as [|u p IH]; intros [|v r] x L; try discriminate.
  - rewrite dot_nil. cbn [axpy combine map]. rewrite dot_nil. ring.
  - destruct x as [|w x].
    + unfold dot. simpl. ring.
    + cbn [axpy combine map fst snd]. rewrite !dot_cons. fold (axpy a p r). rewrite IH by (simpl in L; lia). rewrite Qred_correct. ring.
Qed.
Lemma dot_scale : forall h p x, ~ (h == 0)%Q -> (dot (map (fun q => Qred (q / h)) p) x == dot p x / h)%Q.
Proof.
  intros h p. induction p as [|u p IH]; intros x H; [unfold dot; simpl; field; auto|]. destruct x as [|w x]; [unfold dot; simpl; field; auto|].
  cbn [map]. rewrite !dot_cons, IH by auto. rewrite Qred_correct. field. auto.
Qed.
Lemma dot_zero : forall p x, Forall (fun q => q == 0)%Q x -> (dot p x == 0)%Q.
Proof.
  intros p. induction p as [|u p IH]; intros x H; [reflexivity|]. destruct x as [|w x]; [reflexivity|].
  inversion H; subst. rewrite dot_cons, (IH x H3), H2. ring.
Qed.

Lemma pick_none : forall rows, pick rows = None -> forall e, In e rows -> (hd0 (fst e) == 0)%Q.
Proof.
  induction rows as [|e rows IH]; simpl; intros H f; [intros []|]. destruct (Qeq_bool (hd0 (fst e)) 0) eqn:E; [|discriminate].
  destruct (pick rows) as [[p o]|]; [discriminate|]. intros [<-|Hf]; [apply Qeq_bool_iff; auto|apply IH; auto].
Qed.
Lemma pick_some : forall rows p o, pick rows = Some (p, o) -> ~ (hd0 (fst p) == 0)%Q /\ (forall e, In e rows <-> e = p \/ In e o) /\ length rows = S (length o).
Proof.
  induction rows as [|e rows IH]; simpl; intros p o H; [discriminate|]. destruct (Qeq_bool (hd0 (fst e)) 0) eqn:E.
  - destruct (pick rows) as [[p' o']|]; [|discriminate]. inversion H; subst. destruct (IH p o' eq_refl) as (A & B & C). split; [auto|].
    split; [intros f; simpl; rewrite B; tauto|simpl; lia].
  - inversion H; subst. split; [intros Z; apply Qeq_bool_iff in Z; congruence|]. split; [intros f; simpl; intuition|lia].
Qed.

Lemma len_gauss : forall n rows, length (gauss_rows n rows) = n.
Proof.
  induction n as [|n IH]; intros rows; [reflexivity|]. cbn [gauss_rows]. destruct (pick rows) as [[[p c] rest]|]; [simpl; rewrite IH; auto|apply repeat_length].
Qed.

Lemma split_row : forall n (r : list Q), length r = S n -> r = hd0 r :: tl r /\ length (tl r) = n.
Proof. intros n [|a r] H; [discriminate|]. simpl in *. split; auto. Qed.

Lemma len_axpy : forall a p r, length p = length r -> length (map Qred (axpy a p r)) = length r.
Proof. intros. unfold axpy. rewrite !map_length, combine_length. lia. Qed.

Lemma gauss_ok : forall n rows, length rows = n -> (forall e, In e rows -> length (fst e) = n) ->
  (forall x, length x = n -> (forall e, In e rows -> dot (fst e) x == 0)%Q -> Forall (fun q => q == 0)%Q x) ->
  forall e, In e rows -> (dot (fst e) (gauss_rows n rows) == snd e)%Q.
Proof.
  induction n as [|n IH]; intros rows LR LE INJ e He; [destruct rows; [destruct He|discriminate]|].
  cbn [gauss_rows]. destruct (pick rows) as [[[p c] rest]|] eqn:EP.
  2:{ exfalso. assert (Z : Forall (fun q => q == 0)%Q (1%Q :: repeat 0%Q n)).
      { apply INJ; [simpl; rewrite repeat_length; auto|]. intros f Hf. destruct (split_row n (fst f) (LE f Hf)) as (E & _). rewrite E, dot_cons.
        rewrite (pick_none rows EP f Hf). rewrite dot_zero; [ring|]. apply Forall_forall. intros q Hq. apply repeat_spec in Hq. subst. reflexivity. }
      inversion Z; subst. discriminate. }
  destruct (pick_some rows _ _ EP) as (NZ & IN & LN). cbn [fst] in NZ. set (h := hd0 p) in *.
  set (p' := map (fun q => Qred (q / h)) (tl p)). set (c' := Qred (c / h)).
  set (rows' := map (fun e => (map Qred (axpy (hd0 (fst e)) p' (tl (fst e))), Qred (snd e - hd0 (fst e) * c')%Q)) rest).
  assert (LP : length p = S n) by (apply (LE (p, c)); apply IN; auto). destruct (split_row n p LP) as (EPp & LTp).
  assert (Lp' : length p' = n) by (unfold p'; rewrite map_length; auto).
  assert (LT : forall f, In f rest -> fst f = hd0 (fst f) :: tl (fst f) /\ length (tl (fst f)) = n).
  { intros f Hf. apply split_row. apply LE. apply IN. auto. }
  assert (PD : forall x0 x, (dot p (x0 :: x) == h * (x0 + dot p' x))%Q).
  { intros x0 x. rewrite EPp, dot_cons. unfold p'. rewrite (dot_scale h) by auto. fold h. field. auto. }
  assert (RD : forall f x0 x, In f rest -> (dot (fst f) (x0 :: x) == hd0 (fst f) * (x0 + dot p' x) + dot (map Qred (axpy (hd0 (fst f)) p' (tl (fst f)))) x)%Q).
  { intros f x0 x Hf. destruct (LT f Hf) as (E & L). rewrite E at 1. rewrite dot_cons, dot_axpy by lia. ring. }
  assert (IH' : forall e', In e' rows' -> (dot (fst e') (gauss_rows n rows') == snd e')%Q).
  { apply IH.
    - unfold rows'. rewrite map_length. lia.
    - intros e' H'. unfold rows' in H'. apply in_map_iff in H'. destruct H' as (f & <- & Hf). cbn [fst]. rewrite len_axpy; [apply LT; auto|]. rewrite Lp'. symmetry. apply LT; auto.
    - intros x Lx Hx. assert (Z : Forall (fun q => q == 0)%Q ((- dot p' x)%Q :: x)).
      { apply INJ; [simpl; auto|]. intros f Hf. apply IN in Hf. destruct Hf as [->|Hf]; cbn [fst].
        - rewrite PD. ring.
        - rewrite RD by auto. assert (D : (dot (map Qred (axpy (hd0 (fst f)) p' (tl (fst f)))) x == 0)%Q).
          { apply (Hx (map Qred (axpy (hd0 (fst f)) p' (tl (fst f))), Qred (snd f - hd0 (fst f) * c')%Q)). unfold rows'. apply in_map_iff. exists f. auto. }
          rewrite D. ring. }
      inversion Z; auto. }
  set (x := gauss_rows n rows') in *. apply IN in He. destruct He as [->|He]; cbn [fst snd].
  - rewrite PD, Qred_correct. unfold c'. rewrite Qred_correct. field. auto.
  - rewrite RD by auto. rewrite (IH' (map Qred (axpy (hd0 (fst e)) p' (tl (fst e))), Qred (snd e - hd0 (fst e) * c')%Q)).
    + cbn [snd]. rewrite !Qred_correct. ring.
    + unfold rows'. apply in_map_iff. exists e. auto.
Qed.

Lemma combine_in_l : forall (A B : Type) (l : list A) (l' : list B) a b, In (a, b) (combine l l') -> In a l.
Proof. intros. eapply in_combine_l; eauto. Qed.

Lemma gauss_exact : exact_linear gauss.
Proof.
  intros n A b (LA & LR & INJ) LB. unfold solves, gauss. rewrite len_gauss. split; [auto|]. rewrite LB.
  assert (G : forall e, In e (combine A b) -> (dot (fst e) (gauss_rows n (combine A b)) == snd e)%Q).
  { apply gauss_ok.
    - rewrite combine_length. lia.
    - intros [r c] H. apply LR. eapply in_combine_l; eauto.
    - intros x Lx H. apply INJ; [auto|]. apply Forall_forall. intros r Hr. destruct (In_nth A r [] Hr) as (i & Hi & E).
      apply (H (r, nth i b 0%Q)). rewrite <- E. rewrite <- combine_nth by lia. apply nth_In. rewrite combine_length. lia. }
  set (x := gauss_rows n (combine A b)) in *. clearbody x. clear LR INJ. assert (LL : length A = length b) by lia. clear LA LB.
  revert b G LL. induction A as [|r A IH]; intros [|c b] G LL; try discriminate; constructor.
  - apply (G (r, c)). left. auto.
  - apply IH; [intros e He; apply G; right; auto|simpl in LL; lia].
Qed.
