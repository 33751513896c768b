(** C40: queued messages leave in order, and none is lost or sent twice. *)
From Verif Require Import Base SchedModel SchedProofs.
Local Open Scope nat_scope.

(** [puts p tr] and [sent p tr] (SchedProofs.v) are read off the trace alone: the
    messages handed over at priority [p], and those whose attempt succeeded, oldest
    first. *)

(** What has been sent of a priority is always the beginning of what was handed
    over: nothing is left out, repeated or reordered. *)
Theorem C40_order : forall msg tr s p, sruns msg tr s -> exists rest, puts p tr = sent p tr ++ rest.
Proof. intros msg tr s p R. eexists. exact (i_all _ _ (runs_inv _ _ R) p). Qed.
Print Assumptions C40_order.

(** An attempt is always at the oldest message of its priority that has not been
    sent, so a failed one stays first. *)
Theorem C40_oldest : forall msg tr s a b p m ok, sruns msg tr s -> tr = a ++ Tried msg p m ok :: b ->
  exists rest, puts p a = sent p a ++ m :: rest.
Proof.
  intros msg tr s a b p m ok R E. destruct (runs_split _ _ R _ _ _ E) as (s1 & s2 & R1 & S).
  pose proof (runs_inv _ _ R1) as I. pose proof (i_all _ _ I p) as A. pose proof (i_head _ _ I) as Hd.
  inversion S; subst; cbn [s_sender s_queue] in Hd; destruct Hd as [l Hl]; unfold waiting in A; cbn [s_sender s_queue] in A;
    rewrite Hl in A; eexists; exact A.
Qed.
Print Assumptions C40_oldest.

(** A low priority message is chosen only when every high priority message handed
    over before it has been sent. *)
Theorem C40_overtake : forall msg tr s a1 m a2 b, sruns msg tr s ->
  tr = (a1 ++ Put msg Lo m :: a2) ++ Chosen msg Lo m :: b ->
  puts Lo a1 = sent Lo (a1 ++ Put msg Lo m :: a2) ->
  exists rest, sent Hi (a1 ++ Put msg Lo m :: a2) = puts Hi a1 ++ rest.
Proof.
  intros msg tr s a1 m a2 b R E P. destruct (runs_split _ _ R _ _ _ E) as (s1 & s2 & R1 & S).
  set (a := a1 ++ Put msg Lo m :: a2) in *. pose proof (runs_inv _ _ R1) as I.
  assert (W : waiting Hi s1 = [] /\ waiting Lo s1 <> []).
  { inversion S; subst. unfold waiting. cbn. split; [assumption|congruence]. }
  assert (L : length (puts Hi a1) <= length (sent Hi a)).
  { assert (Q := i_before _ _ I a1 m a2 eq_refl). unfold reached in Q. destruct W as [W1 W2]. rewrite W1 in Q. cbn [length] in Q.
    rewrite Nat.add_0_r in Q. apply Q. fold a. rewrite <- P. destruct (waiting Lo s1); [congruence|cbn; lia]. }
  pose proof (i_all _ _ I Hi) as A. unfold a in A at 1. rewrite puts_app in A.
  exists (skipn (length (puts Hi a1)) (sent Hi a)).
  rewrite <- (firstn_skipn (length (puts Hi a1)) (sent Hi a)) at 1. f_equal.
  apply (f_equal (firstn (length (puts Hi a1)))) in A. rewrite firstn_app, Nat.sub_diag, firstn_all, app_nil_r in A.
  symmetry. etransitivity; [exact A|]. rewrite firstn_app.
  replace (length (puts Hi a1) - length (sent Hi a)) with 0 by lia. now rewrite firstn_O, app_nil_r.
Qed.
Print Assumptions C40_overtake.

(** Nothing but handing over a message can happen. *)
Definition at_rest {msg} (s : sched msg) : Prop := forall e s', sstep msg s e s' -> exists p m, e = Put msg p m.

(** When nothing is under way, everything has been sent, or the last attempt failed
    and nothing was handed over since. *)
Theorem C40_idle : forall msg tr s, sruns msg tr s -> at_rest s ->
  (forall p, sent p tr = puts p tr) \/
  exists a p m b, tr = a ++ Tried msg p m false :: b /\
    forall e, In e b -> (forall q m', e <> Put msg q m') /\ (forall q m' ok, e <> Tried msg q m' ok).
Proof.
  intros msg tr s R Q. pose proof (runs_inv _ _ R) as I.
  destruct (quiescent_shape _ _ I) as (C & A & X & T).
  { intros e s' S. destruct (Q _ _ S) as (p & m & ->). reflexivity. }
  assert (All : forall p, puts p tr = sent p tr ++ waiting p s).
  { intros p. rewrite (i_all _ _ I p), A, C. unfold hand. destruct p; now rewrite !app_nil_r. }
  destruct (i_idle _ _ I T X) as [W|(a & p & m & b & E & B & L)]; [now rewrite A| |].
  - left. intros p. now rewrite All, W, app_nil_r.
  - right. exists a, p, m, b. split; auto. intros e In_e. rewrite forallb_forall in B. split.
    + intros q m' ->. specialize (L q). unfold reached in L.
      assert (Len : length (puts q tr) = length (sent q tr) + length (waiting q s)) by (rewrite All, app_length; reflexivity).
      rewrite E, puts_app in Len. rewrite app_length, <- E in Len. apply in_split in In_e as (b1 & b2 & ->).
      change (Tried msg p m false :: b1 ++ Put msg q m' :: b2) with ([Tried msg p m false] ++ b1 ++ [Put msg q m'] ++ b2) in Len.
      rewrite !puts_app, !app_length, (puts_one _ (Put msg q m')) in Len. cbn [put_of] in Len. rewrite same_prio_refl in Len.
      cbn [length] in Len. lia.
    + intros q m' ok ->. specialize (B _ In_e). discriminate.
Qed.
Print Assumptions C40_idle.

(** Something that happens next, over and over. *)
Inductive then_ {msg} : sched msg -> list (event msg) -> sched msg -> Prop :=
| then_nil : forall s, then_ s [] s
| then_cons : forall s e s1 tr s2, sstep msg s e s1 -> then_ s1 tr s2 -> then_ s (e :: tr) s2.

(** Without new messages everything comes to rest, whether attempts fail or not. *)
Theorem C40_settles : forall msg (s : sched msg), exists n, forall tr s', then_ s tr s' ->
  (forall e, In e tr -> forall p m, e <> Put msg p m) -> length tr <= n.
Proof.
  intros msg s. exists (weight s). intros tr s' T. induction T as [|s e s1 tr s2 S T IH]; intros NP; [cbn; lia|].
  assert (P : is_put e = false).
  { destruct e; auto. exfalso. exact (NP _ (or_introl eq_refl) _ _ eq_refl). }
  pose proof (weight_step _ _ _ S P). assert (length tr <= weight s1) by (apply IH; intros e' H'; apply NP; now right).
  cbn [length]. lia.
Qed.
Print Assumptions C40_settles.

(** A message can always be handed over, now or after steps of the two goroutines
    alone: a producer never waits for ever. *)
Theorem C40_accepts : forall msg tr s p m, sruns msg tr s ->
  exists tr' s' s'', then_ s tr' s' /\ (forall e, In e tr' -> forall q m', e <> Put msg q m') /\ sstep msg s' (Put msg p m) s''.
Proof.
  intros msg tr s p m R. remember (weight s) as n eqn:E. revert tr s R E.
  induction n as [n IH] using (well_founded_induction lt_wf). intros tr s R E.
  destruct (le_lt_dec (capacity p) (length (s_chan _ s p))) as [Full|Free].
  - assert (Step : exists e s1, sstep _ s e s1 /\ is_put e = false).
    { destruct s as [c a q x t]. cbn [s_chan] in Full.
      assert (G : forall e s1, sstep _ (mkSched _ c a q x t) e s1 -> is_put e = false ->
        exists e s1, sstep _ (mkSched _ c a q x t) e s1 /\ is_put e = false) by eauto.
      destruct a as [|m0 o|o|o|m0|].
      - destruct p; [destruct (c Hi) eqn:C|destruct (c Lo) eqn:C]; cbn in Full; try lia.
        + eapply G; [eapply St_recv_hi; eauto|reflexivity].
        + eapply G; [eapply St_recv_lo; eauto|reflexivity].
      - eapply G; [apply St_append_hi|reflexivity].
      - eapply G; [apply St_signal_hi|reflexivity].
      - destruct (c Hi) eqn:C; [eapply G; [apply St_drained; auto|reflexivity]|eapply G; [eapply St_drain; eauto|reflexivity]].
      - eapply G; [apply St_append_lo|reflexivity].
      - eapply G; [apply St_signal_lo|reflexivity]. }
    destruct Step as (e & s1 & S & P). pose proof (weight_step _ _ _ S P) as W.
    destruct (IH (weight s1)) with (tr := tr ++ [e]) (s := s1) as (tr' & s' & s'' & T & N' & F); auto; [lia|econstructor; eauto|].
    exists (e :: tr'), s', s''. split; [econstructor; eauto|]. split; auto.
    intros e' [<-|H'] q m'; [|now apply N']. intros ->. discriminate.
  - exists [], s. destruct s as [c a q x t]. eexists. split; [constructor|]. split; [intros ? []|]. now apply St_put.
Qed.
Print Assumptions C40_accepts.

(** A failed message is not tried again by itself: with nothing else to send it
    waits, though nothing is under way. *)
Theorem C40_retried_refuted : exists tr s, sruns bytes tr s /\ at_rest s /\
  puts Hi tr = [bs "hello"] /\ sent Hi tr = [].
Proof.
  assert (R : exists s, sruns bytes
      [Put _ Hi (bs "hello"); Internal _; Internal _; Internal _; Internal _; Internal _; Chosen _ Hi (bs "hello");
       Tried _ Hi (bs "hello") false] s /\ at_rest s).
  { eexists. split.
    - repeat match goal with
        | |- sruns _ [] _ => apply sruns_nil
        | |- sruns _ ?l _ => rewrite (app_removelast_last (Internal _)) by discriminate; cbn [removelast last]; eapply sruns_snoc
        end; [apply St_put; cbn; lia|eapply St_recv_hi; reflexivity|apply St_append_hi|apply St_signal_hi|apply St_drained; reflexivity
             |apply St_execute|eapply St_choose_hi; reflexivity|apply St_failed].
    - intros e s' S. inversion S; subst; eauto; try discriminate. }
  destruct R as (s & R & A). exists [Put _ Hi (bs "hello"); Internal _; Internal _; Internal _; Internal _; Internal _; Chosen _ Hi (bs "hello");
       Tried _ Hi (bs "hello") false], s. repeat split; auto.
Qed.
Print Assumptions C40_retried_refuted.

(** A run with both priorities in which the low priority message is received first
    and the first attempt fails. *)
Example C40_case :
  let h := bs "hi" in let l := bs "lo" in
  let a1 := [Put bytes Hi h] in
  let a2 := repeat (Internal _) 8 ++ [Chosen _ Hi h; Tried _ Hi h false; Internal _; Chosen _ Hi h; Tried _ Hi h true; Internal _] in
  exists s, sruns bytes ((a1 ++ Put _ Lo l :: a2) ++ Chosen _ Lo l :: [Tried _ Lo l true; Internal _; Internal _]) s /\
    puts Lo a1 = sent Lo (a1 ++ Put _ Lo l :: a2) /\ at_rest s.
Proof.
  intros h l a1 a2. eexists. split.
  - unfold a1, a2. cbn [app repeat]. repeat match goal with
      | |- sruns _ [] _ => apply sruns_nil
      | |- sruns _ ?l _ => rewrite (app_removelast_last (Internal _)) by discriminate; cbn [removelast last]; eapply sruns_snoc
      end; [apply St_put; cbn; lia|apply St_put; cbn; lia|eapply St_recv_lo; reflexivity|eapply St_drain; reflexivity|apply St_append_hi
           |apply St_signal_hi|apply St_drained; reflexivity|apply St_append_lo|apply St_signal_lo
           |apply St_execute|eapply St_choose_hi; reflexivity|apply St_failed
           |apply St_execute|eapply St_choose_hi; reflexivity|apply St_ok|eapply St_pop; reflexivity
           |eapply St_choose_lo; reflexivity|apply St_ok|eapply St_pop; reflexivity|apply St_none; reflexivity].
  - split; [reflexivity|]. intros e s' S. inversion S; subst; eauto; try discriminate.
Qed.
