(** The mailbox with the size limit of the transport: what happens to a message that
    the server takes but cannot pass on. *)
From Verif Require Import Base IniModel XdrModel XdrProofs RpcModel RpcProofs SessionModel SessionProofs SessionProps MailModel MailProofs MailOnce MailKept MailProps SizeModel SizeProofs SizeProps MailSize.
Local Open Scope N_scope.

Lemma done_trans w m m' x : trans w m m' -> In x (m_done m) -> In x (m_done m').
Proof. intros T H. destruct T; ssimp; auto; [apply in_or_app; now left|]. now destruct (mget (s_out s) t). Qed.
Lemma done_lim lim w l : forall m m' x, Forall act_ok l -> execs_lim lim w m l = Some m' -> In x (m_done m) -> In x (m_done m').
Proof.
  induction l as [|a l IH]; intros m m' x F E H; cbn [execs_lim] in E; [now injection E as <-|].
  apply Forall_cons_iff in F as [F1 F2]. destruct (exec_lim lim w m a) as [m1|] eqn:X; [|discriminate].
  eapply IH; eauto. eapply done_trans; eauto. apply (exec_trans w m a m1 F1). eapply exec_lim_exec; eauto.
Qed.

(** What the model of the mailbox takes for too long is what kx.Write refuses. *)
Theorem C57_limit seal unseal c key tag d : box_law seal unseal -> len (DiskMessage_From d) = 32 ->
  passable (maxsize c) d = true <-> write_ok (snd (write_key seal c key (push_message tag d))).
Proof.
  intros B F. destruct (C57_sizes seal unseal c key 0 0 (DiskMessage_From d) (DiskMessage_Payload d) d tag B F F eq_refl) as (_ & _ & S).
  rewrite S. apply passable_iff. unfold len in F. lia.
Qed.
Print Assumptions C57_limit.

(** FALSE claim: a message that the server cannot pass on is only lost itself.  Once
    one is stored, it stays, and the client never receives it nor any message stored
    later, however often it connects. *)
Theorem C57_lockout_refuted lim w l1 l2 m m' n d : honest w = true -> clock w = Increasing -> Forall act_ok (l1 ++ l2) ->
  execs_lim lim w empty_mail l1 = Some m -> In (n, d) (m_done m) -> lim < 4 * ((len (DiskMessage_Payload d) + 3) / 4) + 84 ->
  execs_lim lim w m l2 = Some m' ->
  mget (m_disk m') n = Some (enc DiskMessage_codec d) /\
  (forall p, In p (m_got m') -> lex_leb n (p_name p) = false) /\
  (forall n' d', In (n', d') (m_done m') -> lex_leb n n' = true -> forall p, In p (m_got m') -> p_name p <> n').
Proof.
  intros Ho C F E H L E'. assert (E2 : execs_lim lim w empty_mail (l1 ++ l2) = Some m') by (rewrite execs_lim_app, E; exact E').
  apply Forall_app in F as F12. assert (H' : In (n, d) (m_done m')) by (destruct F12; eapply done_lim; eauto).
  assert (R : reachable w m') by (exists (l1 ++ l2); split; auto; eapply execs_lim_execs; eauto).
  assert (Ok : DiskMessage_ok 0 d) by (eapply id_done; eauto; apply (inv_disk_reach w m'); [congruence|exact R]).
  assert (P : passable lim d = false).
  { destruct (passable lim d) eqn:X; auto. apply passable_iff in X; [lia|]. destruct Ok as [Ok _]. unfold size_ok in Ok. lia. }
  split; [eapply long_stays; eauto|].
  assert (G : forall p, In p (m_got m') -> lex_leb n (p_name p) = false) by (intros p Hp; exact (long_got lim w (l1 ++ l2) m' Ho C F E2 n d H' P p Hp)).
  split; [exact G|]. intros n' d' _ Le p Hp Ep. specialize (G p Hp). rewrite Ep in G. congruence.
Qed.
Print Assumptions C57_lockout_refuted.

(** If nothing too long is delivered, the limit makes no difference, so that what is
    proved about the mailbox without a limit (C22, C23) holds. *)
Theorem C57_small lim w l : Forall act_ok l ->
  (forall n d, In (ACheck n d) l -> 4 * ((len (DiskMessage_Payload d) + 3) / 4) + 84 <= lim) ->
  execs_lim lim w empty_mail l = execs w empty_mail l.
Proof.
  intros F S. apply small_runs; auto; [apply small_empty|]. rewrite Forall_forall in F |- *. intros a Ha n d ->.
  apply passable_iff; [|eauto]. specialize (F _ Ha). destruct F as [F _]. unfold size_ok in F. lia.
Qed.
Print Assumptions C57_small.

(** * Cases *)

(** A limit of 91 bytes: [hello] (4 bytes) fits, [long] does not; it is delivered
    second and a third follows. *)
Definition long : DiskMessage := mkDiskMessage (repeat 7 32) 0 [1;2;3;4;5;6;7;8] false.
Definition session1 : list action := [AOnline; AWorker; AWorker; AWorker; AWorker; AWorker; AWorker; AWorker; AWorker; AWorker; ANotify; ANotify; ANotify; AWriter; AReceive; ANotify; ANotify; ANotify; AWriteFail].
Definition before_all : list action := [ACheck [49] hello; AWrite 0; ACheck [50] long; AWrite 0].
Definition after_all : list action := [ACheck [51] bye; AWrite 0] ++ session1 ++ [AOffline; AOnline; AWorker; AWorker; AWorker; AWorker; AWorker; AWorker; ANotify; ANotify; ANotify; AWriter; AReceive].
Lemma acts_ok : Forall act_ok (before_all ++ after_all).
Proof.
  unfold before_all. apply Forall_app. split.
  - repeat apply Forall_cons; try apply Forall_nil; try exact I; [exact hello_ok|]. repeat split; vm_compute; intuition congruence.
  - apply mild_ok. reflexivity.
Qed.
Example C57_lockout_case : exists m m', honest careful = true /\ clock careful = Increasing /\ Forall act_ok (before_all ++ after_all) /\
  execs_lim 91 careful empty_mail before_all = Some m /\ In ([50], long) (m_done m) /\ 91 < 4 * ((len (DiskMessage_Payload long) + 3) / 4) + 84 /\
  execs_lim 91 careful m after_all = Some m' /\ map p_name (m_got m') = [[49]; [49]] /\ In ([51], bye) (m_done m').
Proof.
  eexists. eexists. split; [reflexivity|]. split; [reflexivity|]. split; [exact acts_ok|]. split; [vm_compute; reflexivity|].
  split; [right; left; reflexivity|]. split; [vm_compute; reflexivity|]. split; [vm_compute; reflexivity|]. split; [reflexivity|]. right. right. left. reflexivity.
Qed.
Example C57_small_case : exists m, execs_lim 88 careful empty_mail (deliver1 ++ deliver2 ++ offer1) = Some m /\ m_got m = [mkPushed 0 [49] hello].
Proof. eexists. split; [vm_compute; reflexivity|reflexivity]. Qed.
