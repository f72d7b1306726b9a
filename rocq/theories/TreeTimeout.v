(** Timeouts of the tree algorithm. *)
From Coq Require Import List Arith ZArith QArith Bool Lia.
From Verif Require Import Base BaseFacts Num Matrix ReachForm Tree TreeDecomp TreeMinWit.
Import ListNotations.
Local Open Scope nat_scope.

Lemma models_loop_or : forall ex h asg ins ms i kp, models_loop ex h asg ins i ms kp = Ok None \/ models_loop ex h asg ins i ms kp = models_loop (fun _ => false) h asg ins i ms kp.
Proof.
  intros ex h asg ins. induction ms as [|st ms IH]; intros i kp; cbn [models_loop]; [auto|]. destruct (ex i); [auto|]. destruct asg; cbn [negb]; [|auto].
  destruct (h st) as [ps|e]; cbn [bind]; auto.
Qed.

Lemma handle_part_or : forall LS HULL ex rf P G dist qe lab itf ub thr known p,
  handle_part LS HULL ex rf P G dist qe lab itf ub thr known p = Ok None \/
  handle_part LS HULL ex rf P G dist qe lab itf ub thr known p = handle_part LS HULL never rf P G dist qe lab itf ub thr known p.
Proof.
  intros. unfold handle_part. destruct (mapM _ _) as [sucs|e]; cbn [bind]; [|auto]. destruct (models _ _) as [[ms asg]|e]; cbn [bind]; [|auto].
  match goal with |- context [models_loop (ex p) ?h asg ?i 0 ms []] => destruct (models_loop_or (ex p) h asg i ms 0 []) as [E|E]; rewrite E end; cbn [bind]; auto.
Qed.

Lemma parts_loop_or : forall h h' order known, (forall k p, h k p = Ok None \/ h k p = h' k p) -> parts_loop h order known = Ok None \/ parts_loop h order known = parts_loop h' order known.
Proof.
  intros h h' order. induction order as [|p r IH]; intros known H; cbn [parts_loop]; [auto|]. destruct (H known p) as [E|E]; rewrite E; cbn [bind]; [auto|].
  destruct (h' known p) as [[ps|]|e]; cbn [bind]; auto.
Qed.

Lemma C56_timeout_lemma : forall LS TS HULL ex rf ps t kub,
  min_witnesses LS TS HULL ex rf ps t kub = Ok (-1)%Z \/ min_witnesses LS TS HULL ex rf ps t kub = min_witnesses LS TS HULL never rf ps t kub.
Proof.
  intros. unfold min_witnesses. destruct (underlying_graph (rf_P rf)) as [G|e]; cbn [bind]; [|auto]. destruct (if rf_init rf <? fst G then Ok tt else Err ValueError) as [u|e]; cbn [bind]; [|auto].
  destruct (quotient G ps) as [[[qe lab] itf]|e]; cbn [bind]; [|auto]. destruct (TS (length ps) qe) as [order|e]; cbn [bind]; [|auto].
  match goal with |- context [parts_loop (handle_part LS HULL ex rf ?P ?G ?d ?q ?l ?i ?u t) ?o []] => destruct (parts_loop_or (handle_part LS HULL ex rf P G d q l i u t) (handle_part LS HULL never rf P G d q l i u t) o []) as [E|E] end.
  - intros. apply handle_part_or.
  - rewrite E. cbn [bind]. auto.
  - rewrite E. auto.
Qed.
