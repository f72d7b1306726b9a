(** Proofs about reading and writing: numbers and text. *)
From Coq Require Import String List Arith NArith ZArith QArith Qabs Bool Ascii Lia.
From Coq Require Lqa.
From Verif Require Import Base BaseFacts Num Matrix MatFacts InvDict Amdp Files.
Import ListNotations.
Local Open Scope nat_scope.

(** ** Numbers *)
Lemma digit_cases : forall d, (d < 10)%N -> d = 0%N \/ d = 1%N \/ d = 2%N \/ d = 3%N \/ d = 4%N \/ d = 5%N \/ d = 6%N \/ d = 7%N \/ d = 8%N \/ d = 9%N.
Proof. intros. lia. Qed.
Ltac digits d H := destruct (digit_cases d H) as [E|[E|[E|[E|[E|[E|[E|[E|[E|E]]]]]]]]]; rewrite E.
Lemma value_digit : forall d, (d < 10)%N -> value (digit d) = d.
Proof. intros d H. digits d H; reflexivity. Qed.
Lemma is_digit_digit : forall d, (d < 10)%N -> is_digit (digit d) = true.
Proof. intros d H. digits d H; reflexivity. Qed.

Lemma read_app1 : forall t c, read_digits (t ++ [c]) = (10 * read_digits t + value c)%N.
Proof. intros. unfold read_digits. rewrite fold_left_app. reflexivity. Qed.

Lemma show_fuel_ok : forall f n, (n < 2 ^ N.of_nat f)%N ->
  show_fuel (S f) n <> [] /\ forallb is_digit (show_fuel (S f) n) = true /\ read_digits (show_fuel (S f) n) = n.
Proof.
  induction f as [|f IH]; intros n H.
  - change (2 ^ N.of_nat 0)%N with 1%N in H. assert (n = 0%N) by lia. subst n. vm_compute. repeat split; auto. discriminate.
  - change (show_fuel (S (S f)) n) with (if (n <? 10)%N then [digit n] else show_fuel (S f) (n / 10) ++ [digit (n mod 10)]). destruct (N.ltb_spec n 10) as [L|L].
    + split; [discriminate|]. split; [simpl; rewrite is_digit_digit; auto|]. unfold read_digits. cbn [fold_left]. rewrite value_digit by auto. lia.
    + assert (H' : (n / 10 < 2 ^ N.of_nat f)%N).
      { apply N.div_lt_upper_bound; [lia|]. rewrite Nat2N.inj_succ, N.pow_succ_r' in H. lia. }
      destruct (IH _ H') as (A & B & C). assert (D : (n mod 10 < 10)%N) by (apply N.mod_lt; lia).
      split; [intros E; apply app_eq_nil in E; destruct E as [_ E]; discriminate|]. split.
      * rewrite forallb_app, B. simpl. rewrite is_digit_digit; auto.
      * rewrite read_app1, C, value_digit by auto. rewrite (N.div_mod n 10) at 3 by lia. lia.
Qed.
Lemma size_bound : forall n, (n < 2 ^ N.of_nat (N.size_nat n))%N.
Proof.
  intros n. destruct n as [|p]; [reflexivity|]. simpl. induction p as [p IH|p IH|]; cbn [Pos.size_nat]; rewrite ?Nat2N.inj_succ, ?N.pow_succ_r'; [lia|lia|reflexivity].
Qed.
Lemma show_ok : forall n, show n <> [] /\ forallb is_digit (show n) = true /\ read_digits (show n) = n.
Proof. intros n. apply show_fuel_ok. apply size_bound. Qed.
Lemma read_show : forall n, read_int (show_nat n) = Ok n.
Proof.
  intros n. unfold show_nat, read_int. destruct (show_ok (N.of_nat n)) as (A & B & C). destruct (show (N.of_nat n)) eqn:E; [congruence|]. rewrite B, C, Nat2N.id. auto.
Qed.

Lemma pad6_digits : forall k, forallb is_digit (pad6 k) = true.
Proof. intros k. unfold pad6. cbn [map forallb]. rewrite !is_digit_digit by (apply N.mod_lt; lia). auto. Qed.
Lemma read_pad6 : forall t r, (r < 10 ^ 6)%N -> read_digits (t ++ pad6 r) = (10 ^ 6 * read_digits t + r)%N.
Proof.
  intros t r H. unfold read_digits. rewrite fold_left_app. unfold pad6. cbn [map fold_left]. rewrite !value_digit by (apply N.mod_lt; lia).
  set (a := fold_left (fun a c => (10 * a + value c)%N) t 0%N). clearbody a.
  change (10 ^ 5)%N with (10 * (10 * (10 * (10 * 10))))%N. change (10 ^ 4)%N with (10 * (10 * (10 * 10)))%N. change (10 ^ 3)%N with (10 * (10 * 10))%N. change (10 ^ 2)%N with (10 * 10)%N. change (10 ^ 1)%N with 10%N.
  change (10 ^ 0)%N with 1%N. rewrite N.div_1_r. rewrite <- !N.div_div by lia.
  set (r1 := (r / 10)%N). set (r2 := (r1 / 10)%N). set (r3 := (r2 / 10)%N). set (r4 := (r3 / 10)%N). set (r5 := (r4 / 10)%N).
  pose proof (N.div_mod r 10 ltac:(lia)) as E0. fold r1 in E0. pose proof (N.div_mod r1 10 ltac:(lia)) as E1. fold r2 in E1. pose proof (N.div_mod r2 10 ltac:(lia)) as E2. fold r3 in E2.
  pose proof (N.div_mod r3 10 ltac:(lia)) as E3. fold r4 in E3. pose proof (N.div_mod r4 10 ltac:(lia)) as E4. fold r5 in E4.
  assert (L5 : (r5 < 10)%N). { unfold r5, r4, r3, r2, r1. rewrite !N.div_div by lia. apply N.div_lt_upper_bound; [lia|]. vm_compute in H |- *. exact H. }
  rewrite (N.mod_small r5) by auto. change (10 ^ 6)%N with 1000000%N. lia.
Qed.

Definition r6 (q : Q) : Q := (qround (q * inject_Z (10 ^ 6)) # 1000000)%Q.

Lemma qround_nonneg : forall q, (0 <= q)%Q -> (0 <= qround q)%Z.
Proof.
  intros q H. unfold qround. assert (0 <= Qround.Qfloor q)%Z. { change 0%Z with (Qround.Qfloor 0). apply Qround.Qfloor_resp_le. auto. }
  destruct (Qle_bool _ _); [destruct (Qle_bool _ _); [destruct (Z.even _)|]|]; lia.
Qed.

Lemma cut_dot_ok : forall a f, forallb is_digit a = true -> cut_dot (a ++ DOT :: f) = (a, Some f).
Proof.
  induction a as [|c a IH]; intros f H; [reflexivity|]. cbn [app cut_dot]. apply andb_true_iff in H. destruct H as [H1 H2]. fold (forallb is_digit a) in H2.
  destruct (Ascii.eqb_spec c DOT) as [->|N]; [discriminate|]. rewrite IH; auto.
Qed.
Lemma digit_char : forall c, is_digit c = true -> c <> "-"%char /\ c <> "+"%char /\ c <> "e"%char /\ c <> "E"%char /\ c <> DOT.
Proof. intros c H. repeat split; intros ->; discriminate H. Qed.
Lemma take_sign_none : forall t, (forall c r, t = c :: r -> c <> "-"%char /\ c <> "+"%char) -> take_sign t = (false, t).
Proof.
  intros [|c r] H; [reflexivity|]. cbn [take_sign]. destruct (H c r eq_refl) as [A B]. destruct (Ascii.eqb_spec c "-"%char); [congruence|]. destruct (Ascii.eqb_spec c "+"%char); [congruence|]. reflexivity.
Qed.
Lemma cut_exp_none : forall t, (forall c, In c t -> c <> "e"%char /\ c <> "E"%char) -> cut_exp t = (t, None).
Proof.
  induction t as [|c t IH]; intros H; [reflexivity|]. cbn [cut_exp]. destruct (H c (or_introl eq_refl)) as [A B].
  destruct (Ascii.eqb_spec c "e"%char); [congruence|]. destruct (Ascii.eqb_spec c "E"%char); [congruence|]. cbn [orb]. rewrite IH by (intros d Hd; apply H; right; exact Hd). reflexivity.
Qed.
Lemma plain_float : forall t, (forall c, In c t -> is_digit c = true \/ c = DOT) -> read_float t = read_unsigned t.
Proof.
  intros t H. unfold read_float. rewrite take_sign_none.
  2:{ intros c r ->. destruct (H c (or_introl eq_refl)) as [X|X]; [destruct (digit_char c X) as (A & B & _); auto|subst; split; discriminate]. }
  rewrite cut_exp_none.
  2:{ intros c I. destruct (H c I) as [X|X]; [destruct (digit_char c X) as (_ & _ & A & B & _); auto|subst; split; discriminate]. }
  destruct (read_unsigned t); reflexivity.
Qed.
Lemma read_show_f : forall q, (0 <= q)%Q -> read_float (show_f q) = Ok (r6 q).
Proof.
  intros q Hq. rewrite plain_float.
  2:{ intros c I. unfold show_f in I. cbv zeta in I. set (k := Z.to_N _) in *. destruct (show_ok (k / 10 ^ 6)) as (_ & B & _). pose proof (pad6_digits (k mod 10 ^ 6)) as D. rewrite forallb_forall in B, D.
      apply in_app_or in I. destruct I as [I|[I|I]]; [left; apply B; exact I|right; congruence|left; apply D; exact I]. }
  unfold show_f, read_unsigned. assert (Hz : (0 <= q * inject_Z (10 ^ 6))%Q) by (apply Qmult_le_0_compat; [auto|discriminate]). apply qround_nonneg in Hz.
  set (z := qround (q * inject_Z (10 ^ 6))) in *. set (k := Z.to_N z).
  destruct (show_ok (k / 10 ^ 6)) as (A & B & C). rewrite cut_dot_ok by auto. rewrite B, pad6_digits.
  assert (L : length (show (k / 10 ^ 6) ++ pad6 (k mod 10 ^ 6)) =? 0 = false). { apply Nat.eqb_neq. rewrite app_length. change (length (pad6 (k mod 10 ^ 6))) with 6. lia. }
  rewrite L. cbn [negb andb]. change (length (pad6 (k mod 10 ^ 6))) with 6. rewrite read_pad6, C by (apply N.mod_lt; discriminate).
  rewrite <- (N.div_mod k (10 ^ 6)) by discriminate. unfold r6, k. fold z. rewrite Z2N.id by auto. reflexivity.
Qed.

(** ** Text *)
Definition clean (w : text) : Prop := w <> [] /\ forallb (fun c => negb (is_space c)) w = true.
Lemma digit_not_space : forall c, is_digit c = true -> is_space c = false.
Proof.
  intros c H. unfold is_digit in H. unfold is_space. apply andb_true_iff in H. destruct H as [H1 H2]. apply Nat.leb_le in H1. apply Nat.leb_le in H2.
  rewrite !orb_false_iff, !andb_false_iff, !Nat.leb_gt, !Nat.eqb_neq. lia.
Qed.
Lemma digits_clean : forall w, w <> [] -> forallb is_digit w = true -> clean w.
Proof.
  intros w H1 H2. split; auto. apply forallb_forall. intros c Hc. rewrite forallb_forall in H2. rewrite digit_not_space; auto.
Qed.
Lemma show_clean : forall n, clean (show_nat n).
Proof. intros n. destruct (show_ok (N.of_nat n)) as (A & B & _). apply digits_clean; auto. Qed.
Lemma show_f_clean : forall q, clean (show_f q).
Proof.
  intros q. unfold show_f. cbv zeta. set (k := Z.to_N _). destruct (show_ok (k / 10 ^ 6)) as (A & B & _). destruct (digits_clean _ A B) as [_ D]. split.
  - destruct (show (k / 10 ^ 6)); [congruence|discriminate].
  - rewrite forallb_app, D. cbn [forallb andb]. pose proof (pad6_digits (k mod 10 ^ 6)) as E. apply digits_clean in E; [|discriminate]. destruct E as [_ E]. rewrite E. reflexivity.
Qed.

Lemma words_run : forall w cur rest, forallb (fun c => negb (is_space c)) w = true -> words_from cur (w ++ rest) = words_from (cur ++ w) rest.
Proof.
  induction w as [|c w IH]; intros cur rest H; [rewrite app_nil_r; auto|]. cbn [app words_from]. cbn [forallb] in H. apply andb_true_iff in H. destruct H as [H1 H2].
  apply negb_true_iff in H1. rewrite H1. rewrite IH by auto. rewrite <- app_assoc. reflexivity.
Qed.
Lemma words_one : forall w c rest, clean w -> is_space c = true -> words_from [] (w ++ c :: rest) = w :: words_from [] rest.
Proof. intros w c rest [H1 H2] Hc. rewrite words_run by auto. cbn [app words_from]. rewrite Hc. destruct w; [congruence|auto]. Qed.
Lemma words_join : forall ws, Forall clean ws -> words (join ws ++ [LF]) = ws.
Proof.
  unfold words. induction ws as [|w ws IH]; intros H; [reflexivity|]. inversion H; subst. destruct ws as [|w' ws].
  - cbn [join]. rewrite words_one; auto.
  - cbn [join]. rewrite <- app_assoc. cbn [app]. rewrite words_one by auto. f_equal. apply IH. auto.
Qed.
Lemma words_space : forall t, words (SP :: t) = words t.
Proof. reflexivity. Qed.

Definition one_line (t : text) : Prop := forall c, In c t -> c <> LF /\ c <> CR.
Lemma one_line_app : forall a b, one_line a -> one_line b -> one_line (a ++ b).
Proof. intros a b A B c H. apply in_app_or in H. destruct H; auto. Qed.
Lemma one_line_cons : forall c b, c <> LF -> c <> CR -> one_line b -> one_line (c :: b).
Proof. intros c b A B C d [<-|H]; auto. Qed.
Lemma clean_line : forall w, forallb (fun c => negb (is_space c)) w = true -> one_line w.
Proof. intros w H c Hc. rewrite forallb_forall in H. specialize (H c Hc). split; intros ->; discriminate. Qed.
Lemma join_line : forall ws, (forall w, In w ws -> one_line w) -> one_line (join ws).
Proof.
  induction ws as [|w ws IH]; intros H; [intros c []|]. destruct ws as [|w' ws]; [apply H; left; auto|].
  change (join (w :: w' :: ws)) with (w ++ SP :: join (w' :: ws)). apply one_line_app; [apply H; left; auto|]. apply one_line_cons; [discriminate|discriminate|]. apply IH. intros x Hx. apply H. right. auto.
Qed.

Definition file_of (ls : list text) : text := concat (map (fun l => l ++ [LF]) ls).
Lemma universal_line : forall l rest, one_line l -> universal (l ++ LF :: rest) = l ++ LF :: universal rest.
Proof.
  induction l as [|c l IH]; intros rest H; [reflexivity|]. cbn [app universal]. destruct (H c ltac:(left; auto)) as [_ N]. destruct (Ascii.eqb_spec c CR); [congruence|].
  rewrite IH; auto. intros d Hd. apply H. right. auto.
Qed.
Lemma lines_line : forall l cur rest, one_line l -> lines_from cur (l ++ LF :: rest) = ((cur ++ l) ++ [LF]) :: lines_from [] rest.
Proof.
  induction l as [|c l IH]; intros cur rest H; [rewrite app_nil_r; reflexivity|]. cbn [app lines_from]. destruct (H c ltac:(left; auto)) as [N _]. destruct (Ascii.eqb_spec c LF); [congruence|].
  rewrite IH; [rewrite <- !app_assoc; reflexivity|]. intros d Hd. apply H. right. auto.
Qed.
Lemma read_file : forall ls, Forall one_line ls -> read_lines (file_of ls) = map (fun l => l ++ [LF]) ls.
Proof.
  unfold read_lines, file_of. induction ls as [|l ls IH]; intros H; [reflexivity|]. inversion H; subst. cbn [map concat]. rewrite <- app_assoc. cbn [app].
  rewrite universal_line, lines_line by auto. cbn [app]. f_equal. auto.
Qed.
Lemma file_app : forall a b, file_of (a ++ b) = file_of a ++ file_of b.
Proof. intros. unfold file_of. rewrite map_app, concat_app. auto. Qed.
