(** C60: the client acknowledges what it received. *)
From Verif Require Import Base IniModel IniMemProofs IniDiskProofs XdrModel XdrProofs RpcModel RpcProofs MailModel MailProofs MailOnce MailKept MailProps AckModel.
Open Scope N_scope.

(** The same mailbox, except for what an honest client is noted to have received
    and not acknowledged. *)
Definition with_recv (m : mail) (r : list pushed) : mail :=
  match m_sess m with Some s => set_m_sess m (Some (set_s_recv s r)) | None => m end.

Definition honest_client (c : clk) : world := {| honest := true; clock := c |}.

(** Events in which the client comes online with an empty queue. *)
Fixpoint fresh_run (c : clk) (x : mail * list N) (l : list zaction) : Prop :=
  match l with
  | [] => True
  | z :: r => (z = ZDo AOnline -> snd x = []) /\
              forall x', zexec c x z = Some x' -> fresh_run c x' r
  end.

Definition zact_ok (z : zaction) : Prop := match z with ZDo a => act_ok a | ZRestart => True end.

Lemma sess_with m r : m_sess (with_recv m r) =
  match m_sess m with Some s => Some (set_s_recv s r) | None => None end.
Proof. unfold with_recv. destruct (m_sess m) eqn:E; [reflexivity|exact E]. Qed.

Ltac flat := cbv beta iota zeta delta [fresh later MailModel.used exec in_sess worker_step notify_step writer_step writer_fail handler_step with_recv honest clock any_client honest_client
  set_s_work set_s_worker set_s_processed set_s_ntfn set_s_nt set_s_free set_s_out set_s_writer set_s_wdead set_s_wire set_s_recv set_s_acks set_s_hand set_s_closed set_s_notes set_s_rcvd set_s_away set_m_disk set_m_there set_m_pending set_m_sess set_m_done set_m_partial set_m_got set_m_acked s_work s_worker s_processed s_ntfn s_nt s_free s_out s_writer s_wdead s_wire s_recv s_acks s_hand s_closed s_notes s_rcvd s_away m_disk m_there m_pending m_sess m_done m_partial m_got m_acked] in *.
Ltac crack E := repeat match type of E with
  | context [match ?x with _ => _ end] =>
      lazymatch x with context [match _ with _ => _ end] => fail | _ => destruct x eqn:?; try discriminate end
  end.

Lemma exec_recv c m r a m' : exec (any_client c) m a = Some m' ->
  (forall t, a <> AAck t) -> a <> AReceive ->
  exists r', exec (honest_client c) (with_recv m r) a = Some (with_recv m' r') /\
    (m_sess m <> None -> m_sess m' <> None -> r' = r) /\ (m_sess m = None -> m_sess m' <> None -> r' = []).
Proof.
  intros E N1 N2. destruct m as [di th pe se do pa go ac]. destruct se as [s|].
  - exists r. split; [|cbn; split; [auto|discriminate]].
    destruct s.
    destruct a; try congruence; flat; try discriminate; crack E; injection E as <-; reflexivity.
  - exists []. split; [|cbn; split; [congruence|auto]].
    destruct a; try congruence; flat; try discriminate; crack E; injection E as <-; reflexivity.
Qed.

Lemma receive_recv c m r m' s p w : m_sess m = Some s -> s_wire s = p :: w ->
  exec (any_client c) m AReceive = Some m' ->
  exec (honest_client c) (with_recv m r) AReceive = Some (with_recv m' (r ++ [p])) /\ m_sess m' <> None.
Proof.
  intros S W E. destruct m as [di th pe se do pa go ac]. cbn in S. subst se. destruct s. cbn in W. subst.
  flat. injection E as <-. split; [reflexivity|discriminate].
Qed.

Lemma ack_recv c m r m' p : exec (any_client c) m (AAck (p_tag p)) = Some m' ->
  exec (honest_client c) (with_recv m (p :: r)) (AAck (p_tag p)) = Some (with_recv m' r) /\ m_sess m' <> None.
Proof.
  intros E. destruct m as [di th pe se do pa go ac]. destruct se as [s|]; [|discriminate]. destruct s.
  flat. crack E. injection E as <-. cbn [remove_tag]. rewrite eqb_refl. split; [reflexivity|discriminate].
Qed.

Lemma reach_step w m a m' : reachable w m -> act_ok a -> exec w m a = Some m' -> reachable w m'.
Proof.
  intros (l & F & E) A X. exists (l ++ [a]). split; [apply Forall_app; auto|].
  assert (G : forall l m0, execs w m0 l = Some m -> execs w m0 (l ++ [a]) = Some m').
  { clear -X. induction l as [|b l IH]; intros m0 E; cbn in *.
    - injection E as ->. now rewrite X.
    - destruct (exec w m0 b); [auto|discriminate]. }
  auto.
Qed.

Lemma zstep c m q z m' q' r : zexec c (m, q) z = Some (m', q') -> zact_ok z ->
  (z = ZDo AOnline -> q = []) ->
  reachable (honest_client c) (with_recv m r) -> (m_sess m <> None -> q = map p_tag r) ->
  exists r', reachable (honest_client c) (with_recv m' r') /\ (m_sess m' <> None -> q' = map p_tag r').
Proof.
  intros E A On R Q. destruct z as [a|].
  - assert (G : (exists t, a = AAck t) \/ a = AReceive \/
        (zexec c (m, q) (ZDo a) = match exec (any_client c) m a with Some m' => Some (m', q) | None => None end /\
         (forall t, a <> AAck t) /\ a <> AReceive)).
    { destruct a; eauto; right; right; repeat split; discriminate. }
    destruct G as [(t & ->)|[->|(G & N1 & N2)]].
    + cbn [zexec] in E. destruct q as [|t' q1]; [discriminate|].
      destruct (N.eqb_spec t t') as [<-|]; [|discriminate].
      destruct (exec (any_client c) m (AAck t)) as [m1|] eqn:X; [|discriminate]. injection E as <- <-.
      assert (M : m_sess m <> None).
      { intros H. cbn [exec] in X. unfold in_sess in X. rewrite H in X. discriminate. }
      specialize (Q M). destruct r as [|p r]; [discriminate|]. cbn in Q. injection Q as -> ->.
      destruct (ack_recv c m r m1 p X) as [Y _].
      exists r. split; [eapply reach_step; [exact R|exact A|exact Y]|auto].
    + cbn [zexec] in E. destruct (m_sess m) as [s|] eqn:M; [|discriminate].
      destruct (s_wire s) as [|p wr] eqn:W; [discriminate|].
      destruct (exec (any_client c) m AReceive) as [m1|] eqn:X; [|discriminate]. injection E as <- <-.
      destruct (receive_recv c m r m1 s p wr M W X) as [Y _].
      exists (r ++ [p]). split; [eapply reach_step; [exact R|exact A|exact Y]|].
      intros _. rewrite map_app, <- Q; [reflexivity|discriminate].
    + rewrite G in E. destruct (exec (any_client c) m a) as [m1|] eqn:X; [|discriminate]. injection E as <- <-.
      destruct (exec_recv c m r a m1 X N1 N2) as (r' & Y & Y1 & Y2).
      exists r'. split; [eapply reach_step; [exact R|exact A|exact Y]|].
      intros M1. destruct (m_sess m) as [s|] eqn:M.
      * rewrite Y1 by (auto; discriminate). apply Q. discriminate.
      * rewrite (Y2 eq_refl M1). cbn. apply On. f_equal.
        destruct a; auto; exfalso; apply M1; clear -X M;
          destruct m as [di th pe se do pa go ac]; cbn in M; subst se; flat; try discriminate;
          crack X; now injection X as <-.
  - cbn in E. destruct (m_sess m) eqn:M; [discriminate|]. injection E as <- <-.
    exists r. split; auto. congruence.
Qed.

(** A client that always comes online with an empty queue is an honest one: the
    mailbox is one that an honest client can have. *)
Theorem C60_honest : forall c l m q, Forall zact_ok l -> fresh_run c (empty_mail, []) l ->
  zexecs c (empty_mail, []) l = Some (m, q) ->
  exists r, reachable (honest_client c) (with_recv m r) /\ (m_sess m <> None -> q = map p_tag r).
Proof.
  intros c.
  assert (G : forall l m q m' q' r, Forall zact_ok l -> fresh_run c (m, q) l ->
    reachable (honest_client c) (with_recv m r) -> (m_sess m <> None -> q = map p_tag r) ->
    zexecs c (m, q) l = Some (m', q') ->
    exists r, reachable (honest_client c) (with_recv m' r) /\ (m_sess m' <> None -> q' = map p_tag r)).
  { induction l as [|z l IH]; intros m q m' q' r F Fr R Q E; cbn [zexecs] in E.
    - injection E as <- <-. eauto.
    - destruct (zexec c (m, q) z) as [[m1 q1]|] eqn:X; [|discriminate].
      inversion F; subst. destruct Fr as [F1 F2].
      destruct (zstep c m q z m1 q1 r X) as (r1 & R1 & Q1); auto.
      eapply IH; eauto. }
  intros l m q F Fr E. apply (G l empty_mail [] m q []); auto.
  exists []. split; [constructor|reflexivity].
Qed.
Print Assumptions C60_honest.

(** So every message delivered to it is in its file or with the client. *)
Theorem C60_kept : forall c l m q n d, c <> AnyTime -> Forall zact_ok l ->
  fresh_run c (empty_mail, []) l -> zexecs c (empty_mail, []) l = Some (m, q) ->
  In (n, d) (m_done m) ->
  (mget (m_disk m) n = Some (enc DiskMessage_codec d) /\ read_msg (enc DiskMessage_codec d) = Some d) \/
  exists p, In p (m_got m) /\ p_name p = n /\ p_msg p = d.
Proof.
  intros c l m q n d C F Fr E H. destruct (C60_honest c l m q F Fr E) as (r & R & _).
  assert (X : m_done (with_recv m r) = m_done m /\ m_disk (with_recv m r) = m_disk m /\
              m_got (with_recv m r) = m_got m).
  { unfold with_recv. destruct (m_sess m); destruct m; auto. }
  destruct X as (X1 & X2 & X3). rewrite <- X2, <- X3.
  apply (C22_kept (honest_client c)); auto. now rewrite X1.
Qed.
Print Assumptions C60_kept.

(** * Acknowledgements of an earlier connection *)

Definition connect : list action := [AOnline; AWorker; AWorker; AWorker].
Definition scan1 : list action := [AWorker; AWorker; AWorker; ANotify; ANotify; ANotify; AWriter].
Definition handle4 : list action := [AHandler; AHandler; AHandler; AHandler].

(** Two messages are received and one acknowledgement is sent when the connection
    is lost; a third message comes, and in the new connection it has the tag that
    the second one had. *)
Definition loss_run : list action :=
  [ACheck [49] hello; AWrite 0; ACheck [50] bye; AWrite 0] ++
  connect ++ scan1 ++ scan1 ++ [AReceive; AReceive; AAck 0] ++ handle4 ++ [AOffline] ++
  [ACheck [51] hello; AWrite 0] ++
  connect ++ scan1 ++ scan1 ++ [AAck 1] ++ handle4 ++ [AOffline].
(** One message is received, and the connection is lost before the
    acknowledgement is sent. *)
Definition stall_run : list action :=
  [ACheck [49] hello; AWrite 0] ++ connect ++ scan1 ++ [AReceive; AOffline] ++
  connect ++ scan1 ++ [AWorker; AAck 0] ++ handle4 ++ [AReceive; AAck 0; AHandler; AHandler; AHandler].

(** Nothing but deliveries, connections and what server and client do by
    themselves. *)
Definition plain (a : action) : Prop :=
  match a with AFull _ _ | ADisable | AEnable | ACrash _ | AWriteFail => False | _ => True end.

(** The client acknowledges every message it received at most once, in the order
    in which it received them, and nothing else; yet a message is deleted that it
    never received. *)
Theorem C60_lost_refuted : exists l m q n d,
  Forall act_ok l /\ Forall plain l /\
  zexecs Increasing (empty_mail, []) (map ZDo l) = Some (m, q) /\
  In (n, d) (m_done m) /\ mget (m_disk m) n = None /\ ~ In n (map p_name (m_got m)).
Proof.
  exists loss_run. eexists. eexists. exists [51], hello. split; [apply mild_ok; reflexivity|].
  split; [repeat constructor|]. split; [vm_compute; reflexivity|].
  split; [right; right; left; reflexivity|]. split; [reflexivity|].
  vm_compute. intros [H|[H|[]]]; discriminate.
Qed.
Print Assumptions C60_lost_refuted.

(** What keeps the loop of the session waiting for room for a tag. *)
Definition stalled (t : N) (m : mail) : Prop := exists s, m_sess m = Some s /\
  s_hand s = HPush t /\ length (s_free s) = depth /\ s_worker s = WSelect /\ s_work s = false /\
  s_ntfn s = [] /\ s_nt s = NIdle.

Lemma stalled_step c t m q z m' q' : stalled t m ->
  (forall i, z <> ZDo (AWrite i)) -> (forall p, z <> ZDo (ACrash p)) ->
  zexec c (m, q) z = Some (m', q') -> stalled t m'.
Proof.
  intros (s & M & H & Fr & W & K & Nt & I) N1 N2 E.
  destruct m as [di th pe se do pa go ac]. cbn in M. subst se. destruct s. cbn in *. subst.
  destruct z as [a|]; [|discriminate].
  destruct a; try (exfalso; eapply N1; reflexivity); try (exfalso; eapply N2; reflexivity);
    cbn [zexec] in E; flat; try discriminate;
    try (rewrite Fr, Nat.ltb_irrefl in E; discriminate);
    crack E; injection E as <- <-; eexists; (split; [reflexivity|cbn; auto 10]).
Qed.

Lemma stalled_for_good c t l' : forall m q m' q', stalled t m ->
  (forall i, ~ In (ZDo (AWrite i)) l') -> (forall p, ~ In (ZDo (ACrash p)) l') ->
  zexecs c (m, q) l' = Some (m', q') ->
  (exists s, m_sess m' = Some s /\ s_hand s = HPush t) /\
  zexec c (m', q') (ZDo AHandler) = None /\
  zexec c (m', q') (ZDo AOffline) = None /\
  zexec c (m', q') (ZDo AOnline) = None.
Proof.
  induction l' as [|z l' IH]; intros m q m' q' S0 N1 N2 E; cbn [zexecs] in E.
  - injection E as <- <-. destruct S0 as (s & M & H & Fr & W & K & Nt & I).
    split; [eauto|]. destruct m as [di th pe se do pa go ac]. cbn in M. subst se.
    destruct s. cbn in *. subst. cbn [zexec]. flat. rewrite Fr, Nat.ltb_irrefl. auto.
  - destruct (zexec c (m, q) z) as [[m1 q1]|] eqn:X; [|discriminate].
    eapply (IH m1 q1); eauto.
    + eapply stalled_step; eauto; intros ? ->; [eapply N1|eapply N2]; left; reflexivity.
    + intros i H. apply (N1 i). now right.
    + intros p H. apply (N2 p). now right.
Qed.

(** Losing one connection between receiving a message and sending the
    acknowledgement is enough for this: in the next connection the
    acknowledgement is sent twice, and the second one makes the server wait for
    ever for room for the tag.  Until another message arrives for this user or
    the server is restarted, whatever else happens, nothing is read from the
    connection, the session does not end, and the user cannot come online. *)
Theorem C60_stall_refuted : exists l m q t,
  Forall act_ok l /\ Forall plain l /\
  zexecs Increasing (empty_mail, []) (map ZDo l) = Some (m, q) /\
  (exists d, m_done m = [d]) /\
  forall l' m' q', (forall i, ~ In (ZDo (AWrite i)) l') -> (forall p, ~ In (ZDo (ACrash p)) l') ->
    zexecs Increasing (m, q) l' = Some (m', q') ->
    (exists s, m_sess m' = Some s /\ s_hand s = HPush t) /\
    zexec Increasing (m', q') (ZDo AHandler) = None /\
    zexec Increasing (m', q') (ZDo AOffline) = None /\
    zexec Increasing (m', q') (ZDo AOnline) = None.
Proof.
  exists stall_run. eexists. eexists. exists 0. split; [apply mild_ok; reflexivity|].
  split; [repeat constructor|]. split; [vm_compute; reflexivity|]. split; [eexists; reflexivity|].
  intros l' m' q' N1 N2 E. eapply stalled_for_good; [|exact N1|exact N2|exact E].
  eexists. split; [reflexivity|cbn; auto 10].
Qed.
Print Assumptions C60_stall_refuted.

(** * Concrete cases *)

(** A client that is restarted when it loses the connection, and two messages. *)
Definition fresh_case : list zaction :=
  map ZDo ([ACheck [49] hello; AWrite 0; ACheck [50] bye; AWrite 0] ++
    connect ++ scan1 ++ scan1 ++ [AReceive; AReceive; AAck 0] ++ handle4 ++ [AOffline]) ++
  [ZRestart] ++ map ZDo (connect ++ scan1 ++ [AReceive; AAck 0]).

Fixpoint freshb (c : clk) (x : mail * list N) (l : list zaction) : bool :=
  match l with
  | [] => true
  | z :: r => match z, snd x with ZDo AOnline, _ :: _ => false | _, _ => true end &&
              match zexec c x z with Some x' => freshb c x' r | None => true end
  end.
Lemma freshb_ok c l : forall x, freshb c x l = true -> fresh_run c x l.
Proof.
  induction l as [|z l IH]; intros x H; cbn in *; auto.
  apply andb_true_iff in H as [A B]. split.
  - intros ->. destruct (snd x); [reflexivity|discriminate].
  - intros x' E. rewrite E in B. auto.
Qed.

Example C60_kept_case : exists m q,
  Forall zact_ok fresh_case /\ fresh_run Increasing (empty_mail, []) fresh_case /\
  zexecs Increasing (empty_mail, []) fresh_case = Some (m, q) /\
  m_done m = [([49], hello); ([50], bye)] /\ map fst (m_disk m) = [[50]] /\
  map p_name (m_got m) = [[49]; [50]; [50]].
Proof.
  eexists. eexists. split.
  { unfold fresh_case. apply Forall_app. split; [|apply Forall_app; split].
    - apply Forall_map. refine (mild_ok _ _). reflexivity.
    - repeat constructor.
    - apply Forall_map. refine (mild_ok _ _). reflexivity. }
  split; [apply freshb_ok; vm_compute; reflexivity|]. split; [vm_compute; reflexivity|].
  split; [reflexivity|]. split; reflexivity.
Qed.
