(** What is lost by leaving the program with /quit. *)
From Verif Require Import Base SchedModel SchedProofs SchedProps QuitModel.
From Coq Require Import Lia.
Local Open Scope nat_scope.

(** * C81 *)

Lemma meanwhile_runs msg (s : sched msg) tr0 tr s' : sruns msg tr0 s -> meanwhile msg s tr s' -> sruns msg (tr0 ++ tr) s'.
Proof.
  intros R M. induction M as [s|s tr s1 e s2 M IH S E]; [now rewrite app_nil_r|]. rewrite app_assoc. eapply sruns_snoc; eauto.
Qed.
Lemma meanwhile_sender msg (s : sched msg) tr s' : s_sender msg s = SSelect msg -> meanwhile msg s tr s' -> s_sender msg s' = SSelect msg.
Proof. intros E M. destruct M; auto. Qed.

Lemma chan_bound msg tr (s : sched msg) : sruns msg tr s -> forall p, length (s_chan msg s p) <= capacity p.
Proof.
  intros R. induction R as [|tr s e s' R IH S]; intros p; [destruct p; cbn; lia|].
  inversion S; subst; cbn [s_chan] in *; try apply IH.
  - unfold upd. destruct (same_prio p0 p) eqn:E; [|apply IH]. apply same_prio_true in E. subst. rewrite app_length. cbn. lia.
  - specialize (IH p). unfold upd. destruct (same_prio Hi p) eqn:E; [|exact IH]. apply same_prio_true in E. subst. rewrite H in IH. cbn [length] in IH. lia.
  - specialize (IH p). unfold upd. destruct (same_prio Lo p) eqn:E; [|exact IH]. apply same_prio_true in E. subst. rewrite H in IH. cbn [length] in IH. lia.
  - specialize (IH p). unfold upd. destruct (same_prio Hi p) eqn:E; [|exact IH]. apply same_prio_true in E. subst. rewrite H in IH. cbn [length] in IH. lia.
Qed.

(** Leaving after an answer: all that was handed over has been sent, but for at most 17 messages
    of the one kind and 5 of the other that have not reached the queue. *)
Theorem C81_answered : forall msg tr s tr' s' r words, sruns msg tr s -> asks msg s r tr' s' ->
  r <> NoAnswer -> (forall c, words <> [c; bs "force"]) -> quits words r = true ->
  forall p, exists lost, puts p (tr ++ tr') = sent p (tr ++ tr') ++ lost /\ length lost <= match p with Hi => 17 | Lo => 5 end /\
    lost = hand p (s_at msg s') ++ s_chan msg s' p.
Proof.
  intros msg tr s tr' s' r words R A Nr Nf Q p. destruct A as [s|s tr' s' E M]; [congruence|].
  pose proof (meanwhile_runs _ _ _ _ _ R M) as R'. pose proof (meanwhile_sender _ _ _ _ E M) as E'.
  assert (Z : length (s_queue msg s' Hi) = 0 /\ length (s_queue msg s' Lo) = 0).
  { assert (K : Nat.eqb (length (s_queue msg s' Hi)) 0 && Nat.eqb (length (s_queue msg s' Lo)) 0 = true).
    { destruct words as [|c [|w [|? ?]]]; cbn [quits] in Q; auto. destruct (eqb_spec w (bs "force")) as [->|]; [destruct (Nf c eq_refl)|exact Q]. }
    apply andb_true_iff in K as [K1 K2]. apply Nat.eqb_eq in K1, K2. auto. }
  pose proof (i_all _ _ (runs_inv _ _ R') p) as I. unfold waiting in I. rewrite E' in I.
  assert (W : s_queue msg s' p = []) by (apply length_zero_iff_nil; destruct p; tauto).
  rewrite W in I. cbn [app] in I. exists (hand p (s_at msg s') ++ s_chan msg s' p). split; [exact I|]. split; [|reflexivity].
  rewrite app_length. pose proof (chan_bound _ _ _ R' p).
  assert (length (hand p (s_at msg s')) <= 1); [|unfold capacity in *; destruct p; lia].
  unfold hand. destruct (s_at msg s') as [|? [?|]|[?|]|[?|]|?|], p; cbn; lia.
Qed.
Print Assumptions C81_answered.

(** If the messages had been taken over by the time of the answer, none is lost. *)
Theorem C81_settled : forall msg tr s tr' s' r words, sruns msg tr s -> asks msg s r tr' s' ->
  r <> NoAnswer -> (forall c, words <> [c; bs "force"]) -> quits words r = true ->
  s_at msg s' = QSelect msg -> (forall p, s_chan msg s' p = []) ->
  forall p, sent p (tr ++ tr') = puts p (tr ++ tr').
Proof.
  intros msg tr s tr' s' r words R A Nr Nf Q E C p.
  destruct (C81_answered _ _ _ _ _ _ _ R A Nr Nf Q p) as (lost & P & _ & ->). rewrite E, C in P. cbn [hand app] in P. rewrite P. symmetry. destruct p; cbn; apply app_nil_r.
Qed.
Print Assumptions C81_settled.

(** An answer that there is something in the queue, as while the client is offline:
    the program stays, and asking has changed nothing. *)
Theorem C81_stays : forall msg tr s tr' s' h l words, sruns msg tr s -> asks msg s (Depth h l) tr' s' ->
  (forall c, words <> [c; bs "force"]) ->
  sruns msg (tr ++ tr') s' /\ (quits words (Depth h l) = false <-> exists p, s_queue msg s' p <> []).
Proof.
  intros msg tr s tr' s' h l words R A Nf. inversion A as [|? ? ? E M]; subst. split; [eapply meanwhile_runs; eauto|].
  assert (K : quits words (Depth (length (s_queue msg s' Hi)) (length (s_queue msg s' Lo))) =
              Nat.eqb (length (s_queue msg s' Hi)) 0 && Nat.eqb (length (s_queue msg s' Lo)) 0).
  { destruct words as [|c [|w [|? ?]]]; cbn [quits]; auto. destruct (eqb_spec w (bs "force")) as [->|]; [destruct (Nf c eq_refl)|reflexivity]. }
  rewrite K. split.
  - intros F. apply andb_false_iff in F as [F|F]; apply Nat.eqb_neq in F; [exists Hi|exists Lo]; intros Z; rewrite Z in F; apply F; reflexivity.
  - intros [p N]. apply andb_false_iff. destruct p; [left|right]; apply Nat.eqb_neq; intros Z; apply N; now apply length_zero_iff_nil.
Qed.
Print Assumptions C81_stays.

(** While the sender is sending there is no answer, and without an answer the program ends. *)
Theorem C81_busy : forall msg (s : sched msg) r tr' s' words, s_sender msg s <> SSelect msg -> asks msg s r tr' s' -> quits words r = true.
Proof.
  intros msg s r tr' s' words N A. destruct A as [s|s tr' s' E M]; [|congruence].
  destruct words as [|c [|w [|? ?]]]; cbn [quits]; auto. now destruct (eqb w (bs "force")).
Qed.
Print Assumptions C81_busy.

(** One more message, while the sender is sending. *)
Lemma one_more msg tr c q e p0 m0 m : c Hi = [] -> sruns msg tr (mkSched msg c (QSelect msg) q e (STry msg p0 m0)) ->
  exists tr' c' e' q', sruns msg (tr ++ tr') (mkSched msg c' (QSelect msg) q' e' (STry msg p0 m0)) /\ c' Hi = [] /\
    puts Hi (tr ++ tr') = puts Hi tr ++ [m] /\ sent Hi (tr ++ tr') = sent Hi tr.
Proof.
  intros C R.
  exists [Put msg Hi m; Internal msg; Internal msg; Internal msg; Internal msg].
  eexists _, _, _. split; [|split; [|split]].
  - replace (tr ++ [Put msg Hi m; Internal msg; Internal msg; Internal msg; Internal msg])
      with (((((tr ++ [Put msg Hi m]) ++ [Internal msg]) ++ [Internal msg]) ++ [Internal msg]) ++ [Internal msg]) by (rewrite <- !app_assoc; reflexivity).
    eapply sruns_snoc; [eapply sruns_snoc; [eapply sruns_snoc; [eapply sruns_snoc; [eapply sruns_snoc; [exact R|]|]|]|]|].
    + apply St_put. rewrite C. cbn. lia.
    + apply (St_recv_hi _ _ _ _ _ m []). rewrite C. reflexivity.
    + apply St_append_hi.
    + apply St_signal_hi.
    + apply St_drained. reflexivity.
  - reflexivity.
  - rewrite puts_app. reflexivity.
  - rewrite sent_app. cbn. apply app_nil_r.
Qed.

(** So it is not true that nothing is lost without force: any number of messages may
    wait behind one that is being sent. *)
Theorem C81_lost_refuted : forall msg (m0 : msg) (ms : list msg), exists tr s r,
  sruns msg tr s /\ asks msg s r [] s /\ quits [bs "/quit"] r = true /\ puts Hi tr = m0 :: ms /\ sent Hi tr = [].
Proof.
  intros msg m0 ms.
  assert (K : exists tr c q e, sruns msg tr (mkSched msg c (QSelect msg) q e (STry msg Hi m0)) /\ c Hi = [] /\
    puts Hi tr = m0 :: ms /\ sent Hi tr = []).
  { induction ms as [|m ms IH] using rev_ind.
    - exists [Put msg Hi m0; Internal msg; Internal msg; Internal msg; Internal msg; Internal msg; Chosen msg Hi m0]. eexists _, _, _. split; [|split; [|split]].
      + repeat match goal with
          | |- sruns _ [] _ => apply sruns_nil
          | |- sruns _ ?l _ => rewrite (app_removelast_last (Internal _)) by discriminate; cbn [removelast last]; eapply sruns_snoc
          end; [apply St_put; cbn; lia|eapply St_recv_hi; reflexivity|apply St_append_hi|apply St_signal_hi|apply St_drained; reflexivity
               |apply St_execute|eapply St_choose_hi; reflexivity].
      + reflexivity.
      + reflexivity.
      + reflexivity.
    - destruct IH as (tr & c & q & e & R & C & P & S). destruct (one_more _ _ _ _ _ _ _ m C R) as (tr' & c' & e' & q' & R' & C' & P' & S').
      exists (tr ++ tr'), c', q', e'. rewrite P', S', P, S. auto. }
  destruct K as (tr & c & q & e & R & _ & P & S). exists tr, (mkSched msg c (QSelect msg) q e (STry msg Hi m0)), NoAnswer.
  split; [exact R|]. split; [constructor|]. auto.
Qed.
Print Assumptions C81_lost_refuted.

(** Nor with an answer: a message that has just been typed may not have been taken over. *)
Theorem C81_race_refuted : exists tr s r, sruns bytes tr s /\ asks bytes s r [] s /\ r = Depth 0 0 /\ quits [bs "/quit"] r = true /\
  puts Hi tr = [bs "hello"] /\ sent Hi tr = [].
Proof.
  exists [Put bytes Hi (bs "hello")]. eexists. exists (Depth 0 0). split; [|split; [|split; [reflexivity|split; [reflexivity|split; reflexivity]]]].
  - change [Put bytes Hi (bs "hello")] with ([] ++ [Put bytes Hi (bs "hello")]). eapply sruns_snoc; [apply sruns_nil|]. apply St_put. cbn. lia.
  - match goal with |- asks _ ?s _ _ _ => apply (A_answer _ s [] s) end; [reflexivity|constructor].
Qed.
Print Assumptions C81_race_refuted.

(** ** Cases *)
Definition fails : list (event bytes) :=
  [Put _ Hi (bs "hello"); Internal _; Internal _; Internal _; Internal _; Internal _; Chosen _ Hi (bs "hello"); Tried _ Hi (bs "hello") false].
Example C81_stays_case : exists s, sruns bytes fails s /\ asks bytes s (Depth 1 0) [] s /\ quits [bs "/quit"] (Depth 1 0) = false /\
  quits [bs "/quit"; bs "force"] (Depth 1 0) = true /\ quits [bs "/quit"; bs "now"] (Depth 1 0) = false.
Proof.
  eexists. split; [|split; [|split; [|split]; reflexivity]].
  - unfold fails. repeat match goal with
      | |- sruns _ [] _ => apply sruns_nil
      | |- sruns _ ?l _ => rewrite (app_removelast_last (Internal _)) by discriminate; cbn [removelast last]; eapply sruns_snoc
      end; [apply St_put; cbn; lia|eapply St_recv_hi; reflexivity|apply St_append_hi|apply St_signal_hi|apply St_drained; reflexivity
           |apply St_execute|eapply St_choose_hi; reflexivity|apply St_failed].
  - match goal with |- asks _ ?s _ _ _ => apply (A_answer _ s [] s) end; [reflexivity|constructor].
Qed.
Definition works : list (event bytes) :=
  [Put _ Hi (bs "hello"); Internal _; Internal _; Internal _; Internal _; Internal _; Chosen _ Hi (bs "hello"); Tried _ Hi (bs "hello") true; Internal _; Internal _].
Example C81_settled_case : exists s, sruns bytes works s /\ asks bytes s (Depth 0 0) [] s /\ s_at _ s = QSelect _ /\ s_chan _ s Hi = [] /\ s_chan _ s Lo = [] /\
  sent Hi works = [bs "hello"].
Proof.
  eexists. split; [|split; [|split; [|split; [|split]]]].
  - unfold works. repeat match goal with
      | |- sruns _ [] _ => apply sruns_nil
      | |- sruns _ ?l _ => rewrite (app_removelast_last (Internal _)) by discriminate; cbn [removelast last]; eapply sruns_snoc
      end; [apply St_put; cbn; lia|eapply St_recv_hi; reflexivity|apply St_append_hi|apply St_signal_hi|apply St_drained; reflexivity
           |apply St_execute|eapply St_choose_hi; reflexivity|apply St_ok|eapply St_pop; reflexivity|apply St_none; reflexivity].
  - match goal with |- asks _ ?s _ _ _ => apply (A_answer _ s [] s) end; [reflexivity|constructor].
  - reflexivity.
  - reflexivity.
  - reflexivity.
  - reflexivity.
Qed.
