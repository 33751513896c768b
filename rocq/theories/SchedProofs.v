(** Lemmas about the outgoing queue. *)
From Verif Require Import Base SchedModel.
Local Open Scope nat_scope.

Section Sched.
Context {msg : Type}.
Notation sched := (sched msg).
Notation event := (event msg).

(** What was handed over and what was sent, at one priority, oldest first. *)
Definition put_of (p : prio) (e : event) : list msg :=
  match e with Put _ q m => if same_prio p q then [m] else [] | _ => [] end.
Definition sent_of (p : prio) (e : event) : list msg :=
  match e with Tried _ q m true => if same_prio p q then [m] else [] | _ => [] end.
Definition puts (p : prio) (tr : list event) : list msg := concat (map (put_of p) tr).
Definition sent (p : prio) (tr : list event) : list msg := concat (map (sent_of p) tr).

Lemma same_prio_refl : forall p, same_prio p p = true.
Proof. now destruct p. Qed.
Lemma same_prio_true : forall p q, same_prio p q = true -> p = q.
Proof. now destruct p, q. Qed.

Lemma puts_app : forall p a b, puts p (a ++ b) = puts p a ++ puts p b.
Proof. intros. unfold puts. now rewrite map_app, concat_app. Qed.
Lemma sent_app : forall p a b, sent p (a ++ b) = sent p a ++ sent p b.
Proof. intros. unfold sent. now rewrite map_app, concat_app. Qed.
Lemma puts_one : forall p e, puts p [e] = put_of p e.
Proof. intros. unfold puts. cbn. now rewrite app_nil_r. Qed.
Lemma sent_one : forall p e, sent p [e] = sent_of p e.
Proof. intros. unfold sent. cbn. now rewrite app_nil_r. Qed.

Lemma upd_same : forall (f : prio -> list msg) p l, upd msg f p l p = l.
Proof. intros. unfold upd. now rewrite same_prio_refl. Qed.
Lemma upd_other : forall (f : prio -> list msg) p q l, same_prio p q = false -> upd msg f p l q = f q.
Proof. intros. unfold upd. now rewrite H. Qed.

(** The message in the hands of the queueing goroutine. *)
Definition hand (p : prio) (a : queue_at msg) : list msg :=
  match a, p with
  | QHi _ m _, Hi => [m]
  | QHi _ _ (Some b), Lo => [b]
  | QHiSignal _ (Some b), Lo => [b]
  | QDrain _ (Some b), Lo => [b]
  | QLo _ b, Lo => [b]
  | _, _ => []
  end.

(** What is in a slice and has not been sent. *)
Definition waiting (p : prio) (s : sched) : list msg :=
  match s_sender _ s with
  | SPop _ q => if same_prio q p then tl (s_queue _ s p) else s_queue _ s p
  | _ => s_queue _ s p
  end.

Definition signalling (a : queue_at msg) : bool :=
  match a with QHiSignal _ _ | QLoSignal _ => true | _ => false end.

(** How many have reached a slice. *)
Definition reached (p : prio) (tr : list event) (s : sched) : nat := length (sent p tr) + length (waiting p s).

Definition in_lo (a : queue_at msg) : nat := match a with QLo _ _ => 1 | _ => 0 end.

Definition quiet (e : event) : bool := match e with Put _ _ _ | Tried _ _ _ _ => false | _ => true end.
Definition untried (e : event) : bool := match e with Tried _ _ _ _ => false | _ => true end.

Record inv (tr : list event) (s : sched) : Prop := {
  i_all : forall p, puts p tr = sent p tr ++ waiting p s ++ hand p (s_at _ s) ++ s_chan _ s p;
  i_head : match s_sender _ s with
           | STry _ p m => exists l, s_queue _ s p = m :: l
           | SPop _ p => s_queue _ s p <> []
           | _ => True
           end;
  i_before : forall a m b, tr = a ++ Put _ Lo m :: b ->
    length (puts Lo a) < reached Lo tr s + in_lo (s_at _ s) -> length (puts Hi a) <= reached Hi tr s;
  i_idle : s_sender _ s = SSelect _ -> s_execute _ s = 0 -> signalling (s_at _ s) = false ->
    (forall p, waiting p s = []) \/
    exists a q m b, tr = a ++ Tried _ q m false :: b /\ forallb untried b = true /\
      forall p, reached p tr s <= length (puts p a)
}.

Lemma snoc_split : forall (A : Type) (tr a b : list A) e x,
  tr ++ [e] = a ++ x :: b -> (b = [] /\ a = tr /\ x = e) \/ exists b', b = b' ++ [e] /\ tr = a ++ x :: b'.
Proof.
  intros A tr a b e x E. destruct (exists_last (l := x :: b)) as (b0 & y & Q); [discriminate|].
  rewrite Q, app_assoc in E. apply app_inj_tail in E as [E <-].
  destruct b0 as [|z b0]; cbn in Q; injection Q as -> ->.
  - left. subst. now rewrite app_nil_r.
  - right. exists b0. split; auto.
Qed.

Lemma reached_all : forall tr s p, inv tr s -> reached p tr s + length (hand p (s_at _ s)) + length (s_chan _ s p) = length (puts p tr).
Proof. intros tr s p I. rewrite (i_all _ _ I p), !app_length. unfold reached. lia. Qed.

Lemma in_lo_hand : forall a, in_lo a <= length (hand Lo a).
Proof. destruct a as [|m [|]|[|]|[|]| |]; cbn; lia. Qed.

Ltac pr := repeat match goal with
  | p : prio |- context [same_prio _ ?p] => is_var p; destruct p
  end.

Lemma before_snoc : forall tr s e s',
  inv tr s -> sstep _ s e s' ->
  (forall p, puts p (tr ++ [e]) = sent p (tr ++ [e]) ++ waiting p s' ++ hand p (s_at _ s') ++ s_chan _ s' p) ->
  reached Lo tr s + in_lo (s_at _ s) = reached Lo (tr ++ [e]) s' + in_lo (s_at _ s') ->
  reached Hi tr s <= reached Hi (tr ++ [e]) s' ->
  forall a m b, tr ++ [e] = a ++ Put _ Lo m :: b ->
    length (puts Lo a) < reached Lo (tr ++ [e]) s' + in_lo (s_at _ s') -> length (puts Hi a) <= reached Hi (tr ++ [e]) s'.
Proof.
  intros tr s e s' I S All R1 R2 a m b E L. apply snoc_split in E as [(-> & -> & <-)|(b' & -> & E)].
  - exfalso. pose proof (reached_all tr s Lo I) as Q. pose proof (in_lo_hand (s_at _ s)). lia.
  - assert (Q := i_before _ _ I a m b' E). rewrite <- R1 in L. specialize (Q L). lia.
Qed.


Lemma waiting_append : forall c a q e t p0 m c' a' e' p,
  match t with SPop _ x => q x <> [] | _ => True end ->
  waiting p (mkSched msg c' a' (upd msg q p0 (q p0 ++ [m])) e' t) =
  waiting p (mkSched msg c a q e t) ++ (if same_prio p0 p then [m] else []).
Proof.
  intros c a q e t p0 m c' a' e' p Hd. unfold waiting. cbn [s_sender s_queue]. unfold upd.
  destruct (same_prio p0 p) eqn:E; [apply same_prio_true in E as ->|];
    destruct t as [| | |x]; rewrite ?app_nil_r; auto; destruct (same_prio x p) eqn:Ex; auto.
  apply same_prio_true in Ex as ->. destruct (q p); [congruence|]. reflexivity.
Qed.

Lemma inv_all_step : forall tr s e s', inv tr s -> sstep _ s e s' ->
  forall p, puts p (tr ++ [e]) = sent p (tr ++ [e]) ++ waiting p s' ++ hand p (s_at _ s') ++ s_chan _ s' p.
Proof.
  intros tr s e s' I S p. rewrite puts_app, sent_app, puts_one, sent_one, (i_all _ _ I p).
  pose proof (i_head _ _ I) as Hd.
  assert (Hd' : match s_sender _ s with SPop _ x => s_queue _ s x <> [] | _ => True end) by (destruct (s_sender _ s); auto).
  clear I.
  destruct S; cbn [s_sender s_queue s_at s_chan] in *; cbn [put_of sent_of].
  - (* put *) unfold waiting. cbn [s_sender s_queue]. unfold upd. rewrite app_nil_r.
    destruct p, p0; cbn; rewrite <- ?app_assoc; auto.
    all: now rewrite app_nil_r.
  - unfold waiting. cbn [s_sender s_queue]. destruct p; unfold upd; cbn; rewrite ?H, ?app_nil_r; auto.
  - unfold waiting. cbn [s_sender s_queue]. destruct p; unfold upd; cbn; rewrite ?H, ?app_nil_r; auto.
  - rewrite (waiting_append c (QHi msg m after) q e t Hi m) by auto.
    destruct p; cbn; rewrite <- ?app_assoc, ?app_nil_r; auto. now destruct after.
  - unfold waiting. cbn [s_sender s_queue]. destruct p; cbn; rewrite ?app_nil_r; auto.
  - unfold waiting. cbn [s_sender s_queue]. destruct p; unfold upd; cbn; rewrite ?H, ?app_nil_r; auto.
    now destruct after.
  - unfold waiting. cbn [s_sender s_queue]. destruct p, after; cbn; rewrite ?app_nil_r; auto.
  - rewrite (waiting_append c (QLo msg m) q e t Lo m) by auto.
    destruct p; cbn; rewrite <- ?app_assoc, ?app_nil_r; auto.
  - unfold waiting. cbn [s_sender s_queue]. destruct p; cbn; rewrite ?app_nil_r; auto.
  - unfold waiting. cbn [s_sender s_queue]. now rewrite !app_nil_r.
  - unfold waiting. cbn [s_sender s_queue]. now rewrite !app_nil_r.
  - unfold waiting. cbn [s_sender s_queue]. now rewrite !app_nil_r.
  - unfold waiting. cbn [s_sender s_queue]. now rewrite !app_nil_r.
  - (* ok *) unfold waiting. cbn [s_sender s_queue]. rewrite app_nil_r. destruct Hd as [l Hl].
    destruct p, p0; cbn; rewrite ?Hl, <- ?app_assoc; cbn; auto.
  - unfold waiting. cbn [s_sender s_queue]. now rewrite !app_nil_r.
  - unfold waiting. cbn [s_sender s_queue]. rewrite !app_nil_r. unfold upd.
    destruct (same_prio p0 p) eqn:E; auto. apply same_prio_true in E as ->. now rewrite H.
Qed.

Lemma reached_eq : forall tr s e s' p, inv tr s -> sstep _ s e s' ->
  reached p (tr ++ [e]) s' = reached p tr s +
    match s_at _ s, s_at _ s' with
    | QHi _ _ _, QHiSignal _ _ => if same_prio p Hi then 1 else 0
    | QLo _ _, QLoSignal _ => if same_prio p Lo then 1 else 0
    | _, _ => 0
    end.
Proof.
  intros tr s e s' p I S. pose proof (inv_all_step _ _ _ _ I S p) as A.
  pose proof (i_all _ _ I p) as B. rewrite puts_app, B, puts_one in A.
  apply (f_equal (@length msg)) in A. rewrite !app_length in A.
  assert (C : reached p tr s + length (hand p (s_at _ s)) + length (s_chan _ s p) + length (put_of p e) =
              reached p (tr ++ [e]) s' + length (hand p (s_at _ s')) + length (s_chan _ s' p)) by (unfold reached; lia).
  clear A B I. revert C. generalize (reached p (tr ++ [e]) s') (reached p tr s). intros r' r C.
  destruct S; cbn [s_sender s_queue s_at s_chan] in *; cbn [put_of] in C; unfold upd in C;
    repeat match goal with p : prio |- _ => destruct p end; cbn in C; rewrite ?app_length in C;
    repeat match goal with H : _ = _ :: _ |- _ => rewrite H in C; clear H | H : _ = [] |- _ => rewrite H in C; clear H end;
    try match goal with after : option msg |- _ => destruct after end;
    try match goal with a : queue_at msg |- _ => destruct a as [|? [|]|[|]|[|]| |] end; cbn in C |- *; try lia.
Qed.

Lemma inv_step : forall tr s e s', inv tr s -> sstep _ s e s' -> inv (tr ++ [e]) s'.
Proof.
  intros tr s e s' I S. pose proof (inv_all_step _ _ _ _ I S) as A.
  assert (R := fun p => reached_eq _ _ _ _ p I S).
  constructor; auto.
  - pose proof (i_head _ _ I) as Hd.
    destruct S; cbn [s_sender s_queue] in *; auto; eauto.
    + destruct t as [| |p m'|p]; auto; unfold upd.
      * destruct Hd as [l Hl]. destruct p; cbn; eauto. rewrite Hl. cbn. eauto.
      * destruct p; cbn; auto. destruct (q Hi); [congruence|discriminate].
    + destruct t as [| |p m'|p]; auto; unfold upd.
      * destruct Hd as [l Hl]. destruct p; cbn; eauto. rewrite Hl. cbn. eauto.
      * destruct p; cbn; auto. destruct (q Lo); [congruence|discriminate].
    + destruct Hd as [l Hl]. congruence.
  - intros a m b E L. apply snoc_split in E as [(-> & -> & <-)|(b' & -> & E)].
    + exfalso. pose proof (reached_all tr s Lo I) as Q. pose proof (in_lo_hand (s_at _ s)) as Q'.
      rewrite (R Lo) in L. inversion S; subst; cbn [s_at s_chan] in *.
      match goal with a : queue_at msg |- _ => destruct a as [|? [|]|[|]|[|]| |] end; cbn in *; lia.
    + assert (Q := i_before _ _ I a m b' E). rewrite (R Hi). rewrite (R Lo) in L.
      pose proof (reached_all tr s Hi I) as All. pose proof (puts_app Hi a (Put _ Lo m :: b')) as PA. rewrite <- E in PA.
      apply (f_equal (@length msg)) in PA. rewrite app_length in PA.
      destruct S; cbn [s_at s_chan] in *;
        try (match goal with a : queue_at msg |- _ => destruct a as [|? [|]|[|]|[|]| |] end; cbn in *; lia); try (cbn in *; lia).
      destruct after; cbn in *; rewrite H in All; cbn in All; lia.
  - intros E1 E2 E3. pose proof (i_idle _ _ I) as Id.
    assert (K : s_sender _ s = SSelect _ -> s_execute _ s = 0 -> signalling (s_at _ s) = false -> 
      untried e = true -> (forall p, waiting p s' = waiting p s) ->
      (forall p, reached p (tr ++ [e]) s' = reached p tr s) ->
      (forall p, waiting p s' = []) \/ exists a q m b, tr ++ [e] = a ++ Tried _ q m false :: b /\ forallb untried b = true /\
        forall p, reached p (tr ++ [e]) s' <= length (puts p a)).
    { intros F1 F2 F3 U W RR. destruct (Id F1 F2 F3) as [Z|(a & q & m & b & -> & B & C)].
      - left. intros p. now rewrite W.
      - right. exists a, q, m, (b ++ [e]). split; [now rewrite <- app_assoc|]. split; [rewrite forallb_app, B; cbn; now rewrite U|].
        intros p. rewrite RR. auto. }
    destruct S; cbn [s_sender s_execute s_at signalling] in *; try discriminate;
      try (apply K; auto; intros p'; rewrite (R p'); destruct a || destruct after || idtac; cbn in *; try discriminate; lia).
    + unfold signal, execute_capacity in E2. destruct (e <? 2) eqn:X; [discriminate|]. apply Nat.ltb_ge in X. lia.
    + unfold signal, execute_capacity in E2. destruct (e <? 2) eqn:X; [discriminate|]. apply Nat.ltb_ge in X. lia.
    + left. intros [|]; unfold waiting; cbn; auto.
    + right. exists tr, p, m, []. split; auto. split; auto. intros p'. rewrite (R p').
      pose proof (reached_all _ _ p' I) as X. cbn [s_at s_chan] in X. destruct a; cbn in *; try discriminate; lia.
Qed.

Lemma inv_empty : inv [] (SchedModel.empty msg).
Proof.
  constructor; cbn; auto.
  - intros [|? a] m b E; discriminate.
Qed.

Lemma runs_inv : forall tr s, sruns msg tr s -> inv tr s.
Proof. induction 1; [apply inv_empty|eapply inv_step; eauto]. Qed.

Lemma runs_split : forall tr s, sruns msg tr s -> forall a e b, tr = a ++ e :: b ->
  exists s1 s2, sruns msg a s1 /\ sstep _ s1 e s2.
Proof.
  induction 1; intros a x b E; [destruct a; discriminate|].
  apply snoc_split in E as [(-> & -> & ->)|(b' & -> & E)]; eauto.
Qed.

(** A number that every step but a [Put] makes smaller. *)
Definition at_weight (a : queue_at msg) : nat :=
  let w (o : option msg) := match o with Some _ => 8 | None => 0 end in
  match a with
  | QSelect _ => 0
  | QHi _ _ o => 9 + w o
  | QHiSignal _ o => 5 + w o
  | QDrain _ o => 1 + w o
  | QLo _ _ => 8
  | QLoSignal _ => 4
  end.
Definition sender_weight (t : sender_at msg) : nat :=
  match t with SSelect _ => 0 | SLook _ => 2 | STry _ _ _ => 1 | SPop _ _ => 0 end.
Definition weight (s : sched) : nat :=
  10 * (length (s_chan _ s Hi) + length (s_chan _ s Lo)) + at_weight (s_at _ s) +
  3 * (length (s_queue _ s Hi) + length (s_queue _ s Lo)) + 3 * s_execute _ s + sender_weight (s_sender _ s).

Definition is_put (e : event) : bool := match e with Put _ _ _ => true | _ => false end.

Lemma weight_step : forall s e s', sstep _ s e s' -> is_put e = false -> weight s' < weight s.
Proof.
  intros s e s' S P. destruct S; try discriminate; unfold weight, upd;
    cbn [s_chan s_at s_queue s_execute s_sender at_weight sender_weight];
    repeat match goal with p : prio |- _ => destruct p end; cbn [same_prio];
    repeat match goal with H : _ = _ :: _ |- _ => rewrite H; clear H | H : _ = [] |- _ => rewrite H; clear H end;
    rewrite ?app_length; cbn [length];
    unfold signal, execute_capacity; try destruct (_ <? _); try destruct after; cbn [at_weight]; try lia.
Qed.

Lemma quiescent_shape : forall tr s, inv tr s ->
  (forall e s', sstep _ s e s' -> is_put e = true) ->
  (forall p, s_chan _ s p = []) /\ s_at _ s = QSelect _ /\ s_execute _ s = 0 /\ s_sender _ s = SSelect _.
Proof.
  intros tr [c a q e t] I Qs. pose proof (i_head _ _ I) as Hd. cbn [s_chan s_at s_execute s_sender s_queue] in *.
  assert (F : forall x s', sstep _ (mkSched _ c a q e t) x s' -> is_put x = false -> False).
  { intros x s' S P. rewrite (Qs _ _ S) in P. discriminate. }
  assert (A : a = QSelect _).
  { destruct a as [|m o|o|o|m|]; auto; exfalso.
    - eapply F; [apply St_append_hi|]; auto.
    - eapply F; [apply St_signal_hi|]; auto.
    - destruct (c Hi) eqn:E; [eapply F; [apply St_drained; auto|reflexivity]|eapply F; [eapply St_drain; eauto|reflexivity]].
    - eapply F; [apply St_append_lo|]; auto.
    - eapply F; [apply St_signal_lo|]; auto. }
  subst. split; [|split; auto].
  - intros [|]; [destruct (c Hi) eqn:E|destruct (c Lo) eqn:E]; auto; exfalso.
    + eapply F; [eapply St_recv_hi; eauto|]; auto.
    + eapply F; [eapply St_recv_lo; eauto|]; auto.
  - destruct t as [| |p m|p].
    + split; auto. destruct e; auto. exfalso. eapply F; [apply St_execute|]; auto.
    + exfalso. destruct (q Hi) eqn:E; [destruct (q Lo) eqn:E'|].
      * eapply F; [apply St_none; auto|]; auto.
      * eapply F; [eapply St_choose_lo; eauto|]; auto.
      * eapply F; [eapply St_choose_hi; eauto|]; auto.
    + exfalso. eapply F; [apply St_ok|]; auto.
    + exfalso. destruct (q p) eqn:E; [congruence|]. eapply F; [eapply St_pop; eauto|]; auto.
Qed.
End Sched.
