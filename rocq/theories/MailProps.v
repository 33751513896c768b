(** C22, C23: messages for an account are kept until the client has them, each is
    offered once per session and in order, and none is overlooked. *)
From Verif Require Import Base IniModel IniMemProofs IniDiskProofs XdrModel XdrProofs RpcModel RpcProofs MailModel MailProofs MailOnce MailKept.
Local Open Scope N_scope.

(** * C22 *)

(** A stored message is read back as it was delivered. *)
Theorem C22_reads d : DiskMessage_ok 0 d -> read_msg (enc DiskMessage_codec d) = Some d.
Proof. apply read_enc. Qed.
Print Assumptions C22_reads.

(** One stored by an older server, without the mark for messages in the clear, is
    read as not in the clear. *)
Theorem C22_reads_old d : DiskMessage_ok 0 d ->
  read_msg (firstn (length (enc DiskMessage_codec d) - 4) (enc DiskMessage_codec d)) =
  Some (mkDiskMessage (DiskMessage_From d) (DiskMessage_Received d) (DiskMessage_Payload d) false).
Proof.
  intros (H1 & H2 & H3). destruct d as [from rcv p c]. cbn [DiskMessage_From DiskMessage_Received DiskMessage_Payload] in *.
  change (enc DiskMessage_codec (mkDiskMessage from rcv p c)) with
    (enc (xfixed 32) from ++ (enc xint64 rcv ++ (enc xopaque p ++ enc xbool c))).
  rename p into q.
  assert (L4 : length (enc xbool c) = 4%nat) by apply be_length.
  assert (L8 : length (enc xint64 rcv) = 8%nat) by apply be_length.
  assert (Lo : (4 + length q <= length (enc xopaque q))%nat) by (cbn [enc xopaque]; rewrite app_length, be_length; unfold enc_fixed; rewrite app_length; lia).
  rewrite !app_length, L4. rewrite !app_assoc, firstn_app.
  match goal with |- read_msg (firstn ?k ?l ++ firstn ?j ?r) = _ => assert (E1 : k = length l) by (rewrite !app_length; lia); assert (E2 : j = 0%nat) by (rewrite !app_length; lia) end.
  rewrite E2, E1, firstn_all. cbn [firstn]. rewrite app_nil_r, <- !app_assoc.
  destruct (good_fixed 32 ltac:(cbv; discriminate)) as [F _], good_int64 as [I _], good_opaque as [O _].
  specialize (F 0 from (enc xint64 rcv ++ enc xopaque q) H1). specialize (I 0%N rcv (enc xopaque q) H2). specialize (O 0 q [] H3). rewrite app_nil_r in O.
  unfold read_msg. destruct (enc (xfixed 32) from ++ enc xint64 rcv ++ enc xopaque q) as [|z zs] eqn:E.
  { apply (f_equal (@length N)) in E. rewrite !app_length in E. cbn [length] in E. lia. }
  rewrite <- E in *. clear z zs E. rewrite F. destruct (enc xint64 rcv ++ enc xopaque q) as [|z zs] eqn:E.
  { apply (f_equal (@length N)) in E. rewrite !app_length in E. cbn [length] in E. lia. }
  rewrite <- E in *. clear z zs E. rewrite I. destruct (enc xopaque q) as [|z zs] eqn:E.
  { apply (f_equal (@length N)) in E. cbn [length] in *. lia. }
  rewrite <- E in *. clear z zs E. destruct (Nat.eqb_spec (length (enc xopaque q)) 4) as [X|X].
  - destruct q; [reflexivity|cbn [length] in Lo; lia].
  - now rewrite O.
Qed.
Print Assumptions C22_reads_old.

(** If the times at which messages arrive differ and the client acknowledges only
    what it received, then every delivered message is in its file or with the
    client. *)
Theorem C22_kept w m n d : honest w = true -> clock w <> AnyTime -> reachable w m -> In (n, d) (m_done m) ->
  (mget (m_disk m) n = Some (enc DiskMessage_codec d) /\ read_msg (enc DiskMessage_codec d) = Some d) \/
  exists p, In p (m_got m) /\ p_name p = n /\ p_msg p = d.
Proof.
  intros Ho C R H. destruct (kept_reach w m Ho C R n d H) as [X|X]; auto. left. split; auto. apply read_enc.
  eapply id_done; eauto. eapply inv_disk_reach; eauto.
Qed.
Print Assumptions C22_kept.

(** Whatever the client acknowledges, a file goes only after it acknowledged a tag
    under which this very message had been sent. *)
Theorem C22_kept_acked w m n d : clock w <> AnyTime -> reachable w m -> In (n, d) (m_done m) ->
  mget (m_disk m) n = Some (enc DiskMessage_codec d) \/ exists p, In p (m_acked m) /\ p_name p = n /\ p_msg p = d.
Proof. intros C R. apply (kept_acked_reach w m C R). Qed.
Print Assumptions C22_kept_acked.

(** What the client receives was delivered, or comes from a file that a crash of the
    server or a full disk cut short. *)
Theorem C22_genuine w m p : clock w <> AnyTime -> reachable w m -> In p (m_got m) ->
  In (p_name p, p_msg p) (m_done m) \/ In (p_name p) (m_partial m).
Proof. intros C R. apply (if_got m (inv_flow_reach w m C R)). Qed.
Print Assumptions C22_genuine.

(** While an honest client is connected, the server and the client can only take a
    limited number of steps before they come to rest; and when they have, the mailbox
    is empty up to files that a crash or a full disk cut short, unless the account was disabled meanwhile, an error ended the session, or
    the worker was stuck from the beginning (see C23_stuck_refuted). *)
Theorem C22_drained w m : honest w = true -> clock w <> AnyTime -> reachable w m ->
  (exists k, forall l m', Forall internal l -> execs w m l = Some m' -> (length l <= k)%nat) /\
  (forall s, m_sess m = Some s -> (forall a, internal a -> exec w m a = None) ->
     s_away s = false -> ~ In Bad (s_notes s) -> s_wdead s = false -> (s_worker s = WStart -> s_work s = false) ->
     forall n, mget (m_disk m) n <> None -> In n (m_partial m)).
Proof.
  intros Ho C R. split.
  - exists (effort m). intros l m' F E. apply (effort_run w l Ho F) in E. lia.
  - intros s S Q A B W K. eapply quiet_empty; eauto.
Qed.
Print Assumptions C22_drained.

(** A file that cannot be read stays for ever, and in no session does the client
    receive anything that was delivered after it. *)
Theorem C22_damaged_refuted w m n b : clock w = Increasing -> reachable w m -> mget (m_disk m) n = Some b -> read_msg b = None ->
  (forall s p, m_sess m = Some s -> In p (s_rcvd s) -> lex_leb n (p_name p) = false) /\
  (forall l m', Forall act_ok l -> execs w m l = Some m' ->
     mget (m_disk m') n = Some b /\ forall s p, m_sess m' = Some s -> In p (s_rcvd s) -> lex_leb n (p_name p) = false).
Proof.
  intros C R G Rd.
  assert (K : forall m, reachable w m -> mget (m_disk m) n = Some b -> forall s p, m_sess m = Some s -> In p (s_rcvd s) -> lex_leb n (p_name p) = false).
  { clear m R G. intros m R G s p S H. destruct (damaged_reach w m n C R ltac:(exists b; auto) s S) as [_ _ X].
    destruct (chain_reach w m R s S) as (rest & E & _). rewrite map_app, <- app_assoc in E.
    apply in_split in H as (l1 & l2 & Ep). rewrite Ep, map_app in E. cbn [map] in E. rewrite <- app_assoc in E. cbn [app] in E.
    refine (X _ _ _ _ E _). clear. induction l1; cbn; [tauto|]. intros [Q|Q]; [discriminate|auto]. }
  split; [now apply K|]. intros l m' F E.
  assert (Y : reachable w m' /\ mget (m_disk m') n = Some b).
  { destruct R as (l0 & F0 & E0). revert m' E. induction l as [|a l IH] using rev_ind; intros m' E.
    - injection E as <-. split; auto. exists l0. auto.
    - apply Forall_app in F as [F1 F2]. rewrite execs_app in E. destruct (execs w m l) as [m1|] eqn:E1; [|discriminate].
      destruct (IH F1 m1 eq_refl) as [R1 G1]. cbn [execs] in E. destruct (exec w m1 a) as [m2|] eqn:E2; [|discriminate]. injection E as <-.
      split.
      + exists (l0 ++ l ++ [a]). split; [rewrite !Forall_app; auto|]. rewrite execs_app, E0, execs_app, E1. cbn [execs]. now rewrite E2.
      + apply exec_trans in E2; [|now inversion F2]. eapply damaged_stays; eauto. }
  destruct Y as [Rq Gq]. split; [exact Gq|]. now apply K.
Qed.
Print Assumptions C22_damaged_refuted.

(** * C23 *)

(** In one session the client receives each file at most once. *)
Theorem C23_once w m s : clock w <> AnyTime -> reachable w m -> m_sess m = Some s -> NoDup (map p_name (s_rcvd s)).
Proof.
  intros C R S. pose proof (io_nodup m s (once_reach w m C R s S)) as N. destruct (chain_reach w m R s S) as (rest & E & _).
  unfold sent in N. rewrite E, map_app, <- app_assoc, flat_map_app in N. apply NoDup_app_l in N.
  replace (map p_name (s_rcvd s)) with (flat_map name_of (map offer (s_rcvd s))); auto.
  clear. induction (s_rcvd s); cbn; congruence.
Qed.
Print Assumptions C23_once.

(** If files are written in the order of their names, the client receives them in that
    order, which is the order of delivery. *)
Theorem C23_order w m s : clock w = Increasing -> reachable w m -> m_sess m = Some s ->
  StronglySorted lex_lt (map p_name (s_rcvd s)) /\ StronglySorted lex_lt (map fst (m_done m)).
Proof.
  intros C R S. split.
  - pose proof (ir_sent m s (order_reach w m C R s S)) as N. destruct (chain_reach w m R s S) as (rest & E & _).
    unfold sent in N. rewrite E, map_app, <- app_assoc, flat_map_app in N.
    replace (map p_name (s_rcvd s)) with (flat_map name_of (map offer (s_rcvd s))).
    + clear - N. revert N. generalize (flat_map name_of (map offer (s_wire s) ++ rest)). intros r N.
      induction (flat_map name_of (map offer (s_rcvd s))) as [|a l IH]; [constructor|]. cbn in N. inversion N; subst. constructor; auto.
      apply Forall_app in H2. tauto.
    + clear. induction (s_rcvd s); cbn; congruence.
  - clear s S. revert m R. apply reach_inv; [constructor|]. intros m m' I T.
    destruct T; ssimp; auto.
    + rewrite map_app. cbn. apply SS_before_snoc; auto. intros y Y. apply H1; auto. unfold used. apply in_or_app. now left.
    + now destruct (mget (s_out s) t).
Qed.
Print Assumptions C23_order.

(** When the worker waits for a signal and none is there, it has offered every stored
    message, unless it met an error or the file was cut short. *)
Theorem C23_awake w m s n : clock w <> AnyTime -> reachable w m -> m_sess m = Some s ->
  s_worker s = WSelect -> s_work s = false -> ~ In Bad (s_notes s) -> mget (m_disk m) n <> None -> ~ In n (m_partial m) ->
  exists d, In (Good n d) (s_notes s) /\ In (n, d) (m_done m).
Proof.
  intros C R S K W NB G Np. destruct (awake_reach w m C R s S) as [A1 A2].
  assert (NT : ~ trouble s). { intros [X|[l X]]; [auto|congruence]. }
  assert (H : In n (sent s)).
  { destruct (in_dec (list_eq_dec N.eq_dec) n (s_processed s)) as [X|X].
    - destruct (A2 n NT X G) as [Y|Y]; auto. rewrite K in Y. destruct Y.
    - exfalso. assert (Y : In n (left_of (s_worker s))) by (destruct (A1 n); auto; [split; auto|contradiction]). rewrite K in Y. destruct Y. }
  unfold sent in H. apply in_flat_map in H as ([n' d|] & I & Hn); [destruct Hn as [<-|[]]|destruct Hn]. exists d. split; auto.
  assert (T : true_at m n' d); [|destruct T as [T|T]; [exact T|contradiction]]. apply (if_sess m (inv_flow_reach w m C R) s S). unfold travelling. rewrite !in_app_iff. right. right. right. right. right. right. right. right. left.
  apply in_flat_map. exists (Good n' d). split; auto. now left.
Qed.
Print Assumptions C23_awake.

(** If a message arrives between Online and the first step of the worker, the worker
    never gets beyond that step: nothing is offered in this session. *)
Theorem C23_stuck_refuted w m s : m_sess m = Some s -> s_worker s = WStart -> s_work s = true -> s_notes s = [] ->
  forall l m', Forall act_ok l -> (forall a, In a l -> a <> AOffline /\ forall x, a <> ACrash x) -> execs w m l = Some m' ->
  exists s', m_sess m' = Some s' /\ s_worker s' = WStart /\ s_work s' = true /\ s_notes s' = [].
Proof.
  intros S K W N l. revert m s S K W N. induction l as [|a l IH]; intros m s S K W N m' F Nd E; cbn [execs] in E; [injection E as <-; eauto|].
  destruct (exec w m a) as [m1|] eqn:X; [|discriminate]. inversion F; subst.
  assert (Y : exists s1, m_sess m1 = Some s1 /\ s_worker s1 = WStart /\ s_work s1 = true /\ s_notes s1 = []).
  { destruct (Nd a (or_introl eq_refl)) as [N1 N2].
    assert (Cr : m_sess m1 <> None). { clear - X S N1 N2. destruct a; cbn [exec] in X; unfold in_sess in X; try rewrite S in X; try congruence;
      repeat match type of X with context [match ?x with _ => _ end] => destruct x; try discriminate end;
      try (injection X as <-; ssimp; congruence). all: exfalso; eapply N2; reflexivity. }
    apply exec_trans in X; auto. destruct X; ssimp; try congruence; rewrite ?S in *; cbn [signalled sent_away] in *; eauto 6.
    - injection H as <-. destruct H0; ssimp; try congruence; eauto 6.
    - injection H as <-. eauto 6.
    - injection H as <-. eauto 6.
    - injection H as <-. eauto 6. }
  destruct Y as (s1 & S1 & K1 & W1 & Z1). eapply IH; eauto. intros b Hb. apply Nd. now right.
Qed.
Print Assumptions C23_stuck_refuted.

(** * Concrete cases *)

Definition hello : DiskMessage := mkDiskMessage (repeat 1 32) 5%Z [104; 105] false.
Definition bye : DiskMessage := mkDiskMessage (repeat 2 32) 6%Z [98; 121; 101] true.
Lemma hello_ok : DiskMessage_ok 0 hello.
Proof. repeat split; vm_compute; intuition congruence. Qed.
Lemma bye_ok : DiskMessage_ok 0 bye.
Proof. repeat split; vm_compute; intuition congruence. Qed.
Definition mild (a : action) : bool := match a with ACheck _ d => eqb (DiskMessage_Payload d) [104; 105] && eqb (DiskMessage_From d) (repeat 1 32) && Z.eqb (DiskMessage_Received d) 5 && negb (DiskMessage_Cleartext d) || (eqb (DiskMessage_Payload d) [98; 121; 101] && eqb (DiskMessage_From d) (repeat 2 32) && Z.eqb (DiskMessage_Received d) 6 && DiskMessage_Cleartext d) | _ => true end.
Lemma mild_ok l : forallb mild l = true -> Forall act_ok l.
Proof.
  rewrite forallb_forall, Forall_forall. intros F a I. apply F in I. destruct a; cbn [act_ok]; auto. cbn [mild] in I.
  destruct d as [f r p c]. cbn [DiskMessage_From DiskMessage_Received DiskMessage_Payload DiskMessage_Cleartext] in I.
  apply orb_true_iff in I as [I|I]; rewrite !andb_true_iff in I; destruct I as (((A & B) & C) & D);
    apply eqb_true in A, B; apply Z.eqb_eq in C; [apply negb_true_iff in D|]; subst; [exact hello_ok|exact bye_ok].
Qed.

Definition careful : world := {| honest := true; clock := Increasing |}.
Definition deliver1 : list action := [ACheck [49] hello; AWrite 0].
Definition deliver2 : list action := [ACheck [50] bye; AWrite 0].
Definition offer1 : list action := [AOnline; AWorker; AWorker; AWorker; AWorker; AWorker; AWorker; ANotify; ANotify; ANotify; AWriter; AReceive].

(** Two deliveries with the same time: one of the messages is gone, and nobody got
    it. *)
Theorem C22_overlap_refuted : exists m, reachable {| honest := true; clock := AnyTime |} m /\
  In ([49], hello) (m_done m) /\ mget (m_disk m) [49] <> Some (enc DiskMessage_codec hello) /\ m_got m = [].
Proof.
  eexists. split; [|split; [|split]].
  - exists [ACheck [49] hello; ACheck [49] bye; AWrite 0; AWrite 0]. split; [apply mild_ok; reflexivity|vm_compute; reflexivity].
  - left. reflexivity.
  - vm_compute. discriminate.
  - reflexivity.
Qed.
Print Assumptions C22_overlap_refuted.

(** An acknowledgement in the middle of a scan makes the worker look for a file that
    is gone; this error ends the session although nothing is wrong. *)
Theorem C23_spurious_refuted : exists m s, reachable careful m /\ m_sess m = Some s /\
  m_partial m = [] /\ s_away s = false /\ s_closed s = true /\ mget (m_disk m) [50] <> None /\ s_rcvd s = [mkPushed 0 [49] hello].
Proof.
  eexists. eexists. split; [|split; [|split; [|split; [|split; [|split]]]]].
  - exists (deliver1 ++ offer1 ++ [AWorker] ++ deliver2 ++ [AWorker; AWorker; AAck 0; AHandler; AHandler; AWorker; AWorker; AWorker; ANotify]).
    split; [apply mild_ok; reflexivity|vm_compute; reflexivity].
  - vm_compute. reflexivity.
  - reflexivity.
  - reflexivity.
  - reflexivity.
  - vm_compute. discriminate.
  - reflexivity.
Qed.
Print Assumptions C23_spurious_refuted.

(** Two messages are delivered, offered in order, acknowledged, and the mailbox is
    empty when everything has come to rest. *)
Example C22_drained_case : exists m s, reachable careful m /\ m_sess m = Some s /\ (forall a, internal a -> exec careful m a = None) /\
  s_away s = false /\ ~ In Bad (s_notes s) /\ s_wdead s = false /\ (s_worker s = WStart -> s_work s = false) /\
  m_done m = [([49], hello); ([50], bye)] /\ map p_msg (m_got m) = [hello; bye] /\ m_disk m = [].
Proof.
  eexists. eexists. split; [|split; [|split; [|split; [|split; [|split; [|split; [|split; [|split]]]]]]]].
  - exists (deliver1 ++ deliver2 ++ offer1 ++ [AAck 0; AWorker; AWorker; AWorker; ANotify; ANotify; ANotify; AWriter; AReceive; AAck 1;
      AHandler; AHandler; AHandler; AHandler; AHandler; AHandler; AHandler; AHandler; AWorker]).
    split; [apply mild_ok; reflexivity|vm_compute; reflexivity].
  - vm_compute. reflexivity.
  - intros [] []; try (vm_compute; reflexivity). 
  - reflexivity.
  - vm_compute. intros [H|[H|[]]]; discriminate.
  - reflexivity.
  - discriminate.
  - reflexivity.
  - reflexivity.
  - reflexivity.
Qed.

(** Received but not yet acknowledged: with the client and still on disk. *)
Example C22_kept_case : exists m, reachable careful m /\ In ([49], hello) (m_done m) /\
  mget (m_disk m) [49] = Some (enc DiskMessage_codec hello) /\ m_got m = [mkPushed 0 [49] hello].
Proof.
  eexists. split; [|split; [|split]].
  - exists (deliver1 ++ deliver2 ++ offer1). split; [apply mild_ok; reflexivity|vm_compute; reflexivity].
  - left. reflexivity.
  - vm_compute. reflexivity.
  - reflexivity.
Qed.

(** A crash while the first file is written; the second message never arrives. *)
Example C22_damaged_case : exists m b, reachable careful m /\ mget (m_disk m) [49] = Some b /\ read_msg b = None /\
  In ([50], bye) (m_done m).
Proof.
  eexists. eexists. split; [|split; [|split]].
  - exists ([ACheck [49] hello; ACrash (Some (0%nat, 30%nat))] ++ deliver2). split; [apply mild_ok; reflexivity|vm_compute; reflexivity].
  - vm_compute. reflexivity.
  - vm_compute. reflexivity.
  - left. reflexivity.
Qed.

(** The worker stuck at its first step. *)
Example C23_stuck_case : exists m s, reachable careful m /\ m_sess m = Some s /\ s_worker s = WStart /\ s_work s = true /\ s_notes s = [] /\
  In ([49], hello) (m_done m).
Proof.
  eexists. eexists. split; [|split; [|split; [|split; [|split]]]].
  - exists ([AOnline] ++ deliver1). split; [apply mild_ok; reflexivity|vm_compute; reflexivity].
  - vm_compute. reflexivity.
  - reflexivity.
  - reflexivity.
  - reflexivity.
  - left. reflexivity.
Qed.

(** The worker waits, and has offered the one message. *)
Example C23_awake_case : exists m s, reachable careful m /\ m_sess m = Some s /\ s_worker s = WSelect /\ s_work s = false /\
  ~ In Bad (s_notes s) /\ mget (m_disk m) [49] <> None /\ map p_name (s_rcvd s) = [[49]].
Proof.
  eexists. eexists. split; [|split; [|split; [|split; [|split; [|split]]]]].
  - exists (deliver1 ++ offer1 ++ [AWorker]). split; [apply mild_ok; reflexivity|vm_compute; reflexivity].
  - vm_compute. reflexivity.
  - reflexivity.
  - reflexivity.
  - vm_compute. intros [H|[]]; discriminate.
  - vm_compute. discriminate.
  - reflexivity.
Qed.
