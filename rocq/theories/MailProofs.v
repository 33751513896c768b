(** Invariants of the mailbox. *)
From Verif Require Import Base IniModel IniMemProofs IniDiskProofs XdrModel XdrProofs RpcModel RpcProofs MailModel.
Local Open Scope N_scope.

(** Messages that fit the format. *)
Definition act_ok (a : action) : Prop := match a with ACheck _ d => DiskMessage_ok 0 d | _ => True end.
(** The states that can come about. *)
Definition reachable (w : world) (m : mail) : Prop :=
  exists l, Forall act_ok l /\ execs w empty_mail l = Some m.

(** * Steps as rules *)

Inductive sstep (w : world) (m : mail) (s : sessn) : sessn -> Prop :=
| S_start : s_worker s = WStart -> s_work s = false -> sstep w m s (set_s_worker (set_s_work s true) WSelect)
| S_select : s_worker s = WSelect -> s_work s = true -> sstep w m s (set_s_worker (set_s_work s false) WRead)
| S_read : s_worker s = WRead -> m_there m = true -> sstep w m s (set_s_worker s (WScan (lex_sort (mkeys (m_disk m)))))
| S_noread : s_worker s = WRead -> m_there m = false -> sstep w m s (set_s_worker s (WSend Bad []))
| S_end : s_worker s = WScan [] -> sstep w m s (set_s_worker s WSelect)
| S_skip n l : s_worker s = WScan (n :: l) -> In n (s_processed s) -> sstep w m s (set_s_worker s (WScan l))
| S_mark n l : s_worker s = WScan (n :: l) -> ~ In n (s_processed s) ->
    sstep w m s (set_s_worker (set_s_processed s (n :: s_processed s)) (WOpen n l))
| S_bad n l : s_worker s = WOpen n l ->
    (m_there m = false \/ mget (m_disk m) n = None \/ exists b, mget (m_disk m) n = Some b /\ read_msg b = None) ->
    sstep w m s (set_s_worker s (WSend Bad l))
| S_open n l b d : s_worker s = WOpen n l -> m_there m = true -> mget (m_disk m) n = Some b -> read_msg b = Some d ->
    sstep w m s (set_s_worker s (WSend (Good n d) l))
| S_send x l : s_worker s = WSend x l -> (length (s_ntfn s) < depth)%nat ->
    sstep w m s (set_s_worker (set_s_notes (set_s_ntfn s (s_ntfn s ++ [x])) (s_notes s ++ [x])) (WScan l))
| S_error r : s_nt s = NIdle -> s_ntfn s = Bad :: r -> sstep w m s (set_s_closed (set_s_nt (set_s_ntfn s r) NDead) true)
| S_take n d r : s_nt s = NIdle -> s_ntfn s = Good n d :: r -> sstep w m s (set_s_nt (set_s_ntfn s r) (NTag n d))
| S_dup n d t r p : s_nt s = NTag n d -> s_free s = t :: r -> mget (s_out s) t = Some p ->
    sstep w m s (set_s_closed (set_s_nt (set_s_free s r) NDead) true)
| S_tag n d t r : s_nt s = NTag n d -> s_free s = t :: r -> mget (s_out s) t = None ->
    sstep w m s (set_s_nt (set_s_out (set_s_free s r) (mset (s_out s) t (mkPushed t n d))) (NWrite (mkPushed t n d)))
| S_queue p : s_nt s = NWrite p -> (length (s_writer s) < depth)%nat ->
    sstep w m s (set_s_nt (set_s_writer s (s_writer s ++ [p])) NIdle)
| S_write p r : s_writer s = p :: r -> s_wdead s = false -> s_closed s = false ->
    sstep w m s (set_s_wire (set_s_writer s r) (s_wire s ++ [p]))
| S_fail p r : s_writer s = p :: r -> s_wdead s = false ->
    sstep w m s (set_s_closed (set_s_wdead (set_s_writer s r) true) true)
| S_hnone t : s_hand s = HDelete t None -> sstep w m s (set_s_hand s (HFree t))
| S_hgone t p : s_hand s = HDelete t (Some p) -> m_there m = false \/ mget (m_disk m) (p_name p) = None ->
    sstep w m s (set_s_hand s (HFree t))
| S_hfree t : s_hand s = HFree t -> sstep w m s (set_s_hand (set_s_out s (mdel (s_out s) t)) (HPush t))
| S_hpush t : s_hand s = HPush t -> (length (s_free s) < depth)%nat ->
    sstep w m s (set_s_hand (set_s_free s (s_free s ++ [t])) HIdle)
| S_ack t r : honest w = true -> remove_tag t (s_recv s) = Some r ->
    sstep w m s (set_s_acks (set_s_recv s r) (s_acks s ++ [t]))
| S_anyack t : honest w = false -> t < N.of_nat depth -> sstep w m s (set_s_acks s (s_acks s ++ [t])).

Definition signalled (o : option sessn) : option sessn :=
  match o with Some s => Some (set_s_work s true) | None => None end.
Definition sent_away (o : option sessn) : option sessn :=
  match o with Some s => Some (set_s_away s true) | None => None end.

Inductive trans (w : world) (m : mail) : mail -> Prop :=
| T_sess s s' : m_sess m = Some s -> sstep w m s s' -> trans w m (set_m_sess m (Some s'))
| T_check n d : m_there m = false \/ mget (m_disk m) n = None ->
    (clock w <> AnyTime -> ~ In n (used m) /\ ~ In n (map fst (m_pending m))) -> DiskMessage_ok 0 d ->
    trans w m (set_m_pending m (m_pending m ++ [(n, d)]))
| T_write i n d : nth_error (m_pending m) i = Some (n, d) -> m_there m = true ->
    (clock w = Increasing -> forall x, In x (used m) -> lex_leb n x = false) ->
    trans w m (mkMail (mset (m_disk m) n (enc DiskMessage_codec d)) true (drop i (m_pending m)) (signalled (m_sess m))
                 (m_done m ++ [(n, d)]) (m_partial m) (m_got m) (m_acked m))
| T_full i k n d : nth_error (m_pending m) i = Some (n, d) -> m_there m = true ->
    (clock w = Increasing -> forall x, In x (used m) -> lex_leb n x = false) ->
    trans w m (mkMail (mset (m_disk m) n (firstn k (enc DiskMessage_codec d))) true (drop i (m_pending m)) (m_sess m)
                 (m_done m) (m_partial m ++ [n]) (m_got m) (m_acked m))
| T_nowrite i n d : nth_error (m_pending m) i = Some (n, d) ->
    trans w m (set_m_pending m (drop i (m_pending m)))
| T_disable : m_there m = true -> trans w m (set_m_sess (set_m_there m false) (sent_away (m_sess m)))
| T_enable : m_there m = false -> trans w m (set_m_there m true)
| T_online : m_sess m = None -> m_there m = true -> trans w m (set_m_sess m (Some new_sessn))
| T_offline s : m_sess m = Some s -> s_hand s = HIdle -> trans w m (set_m_sess m None)
| T_crash : trans w m (set_m_sess (set_m_pending m []) None)
| T_part i k n d : nth_error (m_pending m) i = Some (n, d) -> m_there m = true ->
    (clock w = Increasing -> forall x, In x (used m) -> lex_leb n x = false) ->
    trans w m (mkMail (mset (m_disk m) n (firstn k (enc DiskMessage_codec d))) true [] None
                 (m_done m) (m_partial m ++ [n]) (m_got m) (m_acked m))
| T_hread s t r : m_sess m = Some s -> s_hand s = HIdle -> s_closed s = false -> s_acks s = t :: r ->
    trans w m (set_m_sess (match mget (s_out s) t with Some p => set_m_acked m (m_acked m ++ [p]) | None => m end)
                 (Some (set_s_hand (set_s_acks s r) (HDelete t (mget (s_out s) t)))))
| T_hdel s t p b : m_sess m = Some s -> s_hand s = HDelete t (Some p) -> m_there m = true ->
    mget (m_disk m) (p_name p) = Some b ->
    trans w m (set_m_sess (set_m_disk m (mdel (m_disk m) (p_name p)))
      (Some (set_s_hand (set_s_processed s (filter (fun x => negb (eqb x (p_name p))) (s_processed s))) (HFree t))))
| T_receive s p r : m_sess m = Some s -> s_wire s = p :: r ->
    trans w m (set_m_sess (set_m_got m (m_got m ++ [p]))
                (Some (set_s_rcvd (set_s_recv (set_s_wire s r) (s_recv s ++ [p])) (s_rcvd s ++ [p])))).

Lemma mem_false {A} `{EqB A} (x : A) l : mem x l = false -> ~ In x l.
Proof. intros E I. apply mem_In in I. congruence. Qed.

Lemma later_In m n : later m n = true -> forall x, In x (used m) -> lex_leb n x = false.
Proof. unfold later. rewrite forallb_forall. intros F x I. apply F in I. now destruct (lex_leb n x). Qed.

Lemma set_sess_same m : set_m_sess m (m_sess m) = m.
Proof. now destruct m. Qed.

Lemma exec_trans w m a m' : act_ok a -> exec w m a = Some m' -> trans w m m'.
Proof.
  intros OK E. destruct a; cbn [exec act_ok] in *; unfold in_sess in *.
  - destruct (m_there m && mhas (m_disk m) n) eqn:A; [discriminate|].
    destruct (match clock w with AnyTime => true | _ => fresh m n end) eqn:F; [|discriminate]. injection E as <-.
    apply T_check; auto.
    + apply andb_false_iff in A as [A|A]; auto. right. unfold mhas in A. now destruct (mget (m_disk m) n).
    + intros C. destruct (clock w); [congruence| |]; unfold fresh in F; apply andb_true_iff in F as [F1 F2];
        apply negb_true_iff in F1, F2; split; now apply mem_false.
  - destruct (nth_error (m_pending m) i) as [[n d]|] eqn:N; [|discriminate]. destruct (m_there m) eqn:T.
    + destruct (match clock w with Increasing => later m n | _ => true end) eqn:L; [|discriminate].
      assert (X : clock w = Increasing -> forall x, In x (used m) -> lex_leb n x = false).
      { intros C. rewrite C in L. now apply later_In. }
      pose proof (T_write w m i n d N T X) as R. injection E as <-. destruct (m_sess m) as [s|] eqn:S; cbn [signalled] in R.
      * replace (set_m_sess _ _) with (mkMail (mset (m_disk m) n (enc DiskMessage_codec d)) true (drop i (m_pending m)) (Some (set_s_work s true))
                 (m_done m ++ [(n, d)]) (m_partial m) (m_got m) (m_acked m)); auto. unfold set_m_sess. cbn. now rewrite T.
      * unfold set_m_done, set_m_disk, set_m_pending. cbn. rewrite S, T. exact R.
    + injection E as <-. eapply T_nowrite; eauto.
  - destruct (nth_error (m_pending m) i) as [[n d]|] eqn:N; [|discriminate]. destruct part as [k|].
    + destruct (m_there m) eqn:T; [|discriminate]. cbn [andb] in E.
      destruct (match clock w with Increasing => later m n | _ => true end) eqn:L; [|discriminate].
      assert (X : clock w = Increasing -> forall x, In x (used m) -> lex_leb n x = false).
      { intros C. rewrite C in L. now apply later_In. }
      pose proof (T_full w m i k n d N T X) as R. injection E as <-. unfold set_m_partial, set_m_disk, set_m_pending. cbn.
      rewrite T. exact R.
    + injection E as <-. eapply T_nowrite; eauto.
  - destruct (m_there m) eqn:T; [|discriminate]. injection E as <-. pose proof (T_disable w m T) as R.
    destruct (m_sess m) as [s|] eqn:S; auto. cbn [sent_away] in R. unfold set_m_sess in R. cbn in R. unfold set_m_there. now rewrite S.
  - destruct (m_there m) eqn:T; [discriminate|]. injection E as <-. now apply T_enable.
  - destruct (m_sess m) eqn:S; [discriminate|]. destruct (m_there m) eqn:T; [|discriminate]. injection E as <-. now apply T_online.
  - destruct (m_sess m) as [s|] eqn:S; [|discriminate]. destruct (s_hand s) eqn:H; try discriminate. injection E as <-. eapply T_offline; eauto.
  - destruct part as [[i k]|]; [|injection E as <-; apply T_crash].
    destruct (nth_error (m_pending m) i) as [[n d]|] eqn:N; [|discriminate].
    destruct (m_there m) eqn:T; [|discriminate]. cbn [andb] in E.
    destruct (match clock w with Increasing => later m n | _ => true end) eqn:L; [|discriminate].
    assert (X : clock w = Increasing -> forall x, In x (used m) -> lex_leb n x = false).
    { intros C. rewrite C in L. now apply later_In. }
    pose proof (T_part w m i k n d N T X) as R. injection E as <-. unfold set_m_partial, set_m_disk, set_m_sess, set_m_pending. cbn.
    rewrite T. exact R.
  - destruct (m_sess m) as [s|] eqn:S; [|discriminate]. destruct (worker_step m s) as [s'|] eqn:W; [|discriminate].
    injection E as <-. apply (T_sess w m s s' S). unfold worker_step in W. destruct (s_worker s) eqn:K.
    + destruct (s_work s) eqn:B; [discriminate|]. injection W as <-. now apply S_start.
    + destruct (s_work s) eqn:B; [|discriminate]. injection W as <-. now apply S_select.
    + injection W as <-. destruct (m_there m) eqn:T; [now apply S_read|now apply S_noread].
    + destruct names as [|n l]; [injection W as <-; now apply S_end|]. destruct (mem n (s_processed s)) eqn:M; injection W as <-.
      * eapply S_skip; eauto. now apply mem_In.
      * apply S_mark; auto. now apply mem_false.
    + injection W as <-. destruct (m_there m) eqn:T; [|eapply S_bad; eauto]. destruct (mget (m_disk m) name) as [b|] eqn:G; [|eapply S_bad; eauto].
      destruct (read_msg b) as [d|] eqn:R; [eapply S_open; eauto|eapply S_bad; eauto].
    + destruct (Nat.ltb_spec (length (s_ntfn s)) depth); [|discriminate]. injection W as <-. now apply S_send.
  - destruct (m_sess m) as [s|] eqn:S; [|discriminate]. destruct (notify_step s) as [s'|] eqn:W; [|discriminate].
    injection E as <-. apply (T_sess w m s s' S). unfold notify_step in W. destruct (s_nt s) eqn:K.
    + destruct (s_ntfn s) as [|[n d|] r] eqn:Q; [discriminate| |]; injection W as <-; [eapply S_take; eauto|eapply S_error; eauto].
    + destruct (s_free s) as [|t r] eqn:Q; [discriminate|]. cbn [s_out set_s_free] in W. destruct (mget (s_out s) t) eqn:G; injection W as <-.
      * eapply S_dup; eauto.
      * eapply S_tag; eauto.
    + destruct (Nat.ltb_spec (length (s_writer s)) depth); [|discriminate]. injection W as <-. now apply S_queue.
    + discriminate.
  - destruct (m_sess m) as [s|] eqn:S; [|discriminate]. destruct (writer_step s) as [s'|] eqn:W; [|discriminate].
    injection E as <-. apply (T_sess w m s s' S). unfold writer_step in W. destruct (s_writer s) as [|p r] eqn:Q; [discriminate|].
    destruct (s_wdead s) eqn:D; [discriminate|]. destruct (s_closed s) eqn:C; [discriminate|]. injection W as <-. now apply S_write.
  - destruct (m_sess m) as [s|] eqn:S; [|discriminate]. destruct (writer_fail s) as [s'|] eqn:W; [|discriminate].
    injection E as <-. apply (T_sess w m s s' S). unfold writer_fail in W. destruct (s_writer s) as [|p r] eqn:Q; [discriminate|].
    destruct (s_wdead s) eqn:D; [discriminate|]. injection W as <-. eapply S_fail; eauto.
  - destruct (m_sess m) as [s|] eqn:S; [|discriminate]. destruct (handler_step m s) as [[m1 s']|] eqn:W; [|discriminate].
    injection E as <-. unfold handler_step in W. destruct (s_hand s) as [|t o|t|t] eqn:K.
    + destruct (s_closed s) eqn:C; [discriminate|]. destruct (s_acks s) as [|t r] eqn:Q; [discriminate|].
      apply (f_equal (fun x => match x with Some y => y | None => (m, s) end)) in W. apply pair_equal_spec in W as [<- <-].
      now apply T_hread.
    + destruct o as [p|].
      * destruct (m_there m) eqn:T; cbn [andb] in W.
        2:{ injection W as <- <-. apply (T_sess w m s _ S). eapply S_hgone; eauto. }
        unfold mhas in W. destruct (mget (m_disk m) (p_name p)) as [b|] eqn:G.
        -- injection W as <- <-. eapply T_hdel; eauto.
        -- injection W as <- <-. apply (T_sess w m s _ S). eapply S_hgone; eauto.
      * injection W as <- <-. apply (T_sess w m s _ S). now apply S_hnone.
    + injection W as <- <-. apply (T_sess w m s _ S). now apply S_hfree.
    + destruct (Nat.ltb_spec (length (s_free s)) depth); [|discriminate]. injection W as <- <-. apply (T_sess w m s _ S). now apply S_hpush.
  - destruct (m_sess m) as [s|] eqn:S; [|discriminate]. destruct (s_wire s) as [|p r] eqn:Q; [discriminate|]. injection E as <-.
    now apply T_receive.
  - destruct (m_sess m) as [s|] eqn:S; [|discriminate]. destruct (honest w) eqn:H.
    + destruct (remove_tag t (s_recv s)) as [r|] eqn:R; [|discriminate]. injection E as <-. apply (T_sess w m s _ S). now apply S_ack.
    + destruct (N.ltb_spec t (N.of_nat depth)); [|discriminate]. injection E as <-. apply (T_sess w m s _ S). now apply S_anyack.
Qed.

(** Induction over executions. *)
Lemma execs_inv w (P : mail -> Prop) : (forall m m', P m -> trans w m m' -> P m') ->
  forall l m m', Forall act_ok l -> execs w m l = Some m' -> P m -> P m'.
Proof.
  intros St. induction l as [|a l IH]; intros m m' F E I; cbn [execs] in E; [now injection E as <-|].
  inversion F; subst. destruct (exec w m a) as [m1|] eqn:X; [|discriminate]. apply exec_trans in X; auto. eauto.
Qed.
Lemma reach_inv w (P : mail -> Prop) : P empty_mail -> (forall m m', P m -> trans w m m' -> P m') ->
  forall m, reachable w m -> P m.
Proof. intros I St m (l & F & E). eapply execs_inv; eauto. Qed.

Lemma execs_app w l1 : forall m l2, execs w m (l1 ++ l2) = match execs w m l1 with Some m1 => execs w m1 l2 | None => None end.
Proof. induction l1; intros; cbn [execs app]; auto. destruct (exec w m a); auto. Qed.
Lemma reach_inv2 w (P : mail -> Prop) : P empty_mail -> (forall m m', reachable w m -> P m -> trans w m m' -> P m') ->
  forall m, reachable w m -> P m.
Proof.
  intros I St m (l & F & E). revert m E. induction l as [|a l IH] using rev_ind; intros m E; [now injection E as <-|].
  apply Forall_app in F as [F1 F2]. rewrite execs_app in E. destruct (execs w empty_mail l) as [m1|] eqn:X; [|discriminate].
  cbn [execs] in E. destruct (exec w m1 a) as [m2|] eqn:Y; [|discriminate]. injection E as <-.
  apply exec_trans in Y; [|now inversion F2]. apply (St m1 m2); auto. exists l; auto.
Qed.

(** * Reading back *)

Lemma read_enc d : DiskMessage_ok 0 d -> read_msg (enc DiskMessage_codec d) = Some d.
Proof.
  intros (H1 & H2 & H3). destruct d as [from rcv p c]. cbn [DiskMessage_From DiskMessage_Received DiskMessage_Payload] in *.
  change (enc DiskMessage_codec (mkDiskMessage from rcv p c)) with
    (enc (xfixed 32) from ++ (enc xint64 rcv ++ (enc xopaque p ++ enc xbool c))).
  destruct (good_fixed 32 ltac:(cbv; discriminate)) as [F _], good_int64 as [I _], good_opaque as [O _], good_bool as [B _].
  specialize (F 0 from (enc xint64 rcv ++ enc xopaque p ++ enc xbool c) H1).
  specialize (I 0%N rcv (enc xopaque p ++ enc xbool c) H2). specialize (O 0 p (enc xbool c) H3). specialize (B 0 c [] Logic.I).
  rewrite app_nil_r in B.
  assert (L8 : length (enc xint64 rcv) = 8%nat) by apply be_length.
  assert (L4 : length (enc xbool c) = 4%nat) by apply be_length.
  assert (Lo : (4 <= length (enc xopaque p))%nat) by (cbn [enc xopaque]; rewrite app_length, be_length; lia).
  unfold read_msg. destruct (enc (xfixed 32) from ++ enc xint64 rcv ++ enc xopaque p ++ enc xbool c) as [|z zs] eqn:E.
  { apply (f_equal (@length N)) in E. rewrite !app_length in E. cbn [length] in E. lia. }
  rewrite <- E in *. clear z zs E. rewrite F. destruct (enc xint64 rcv ++ enc xopaque p ++ enc xbool c) as [|z zs] eqn:E.
  { apply (f_equal (@length N)) in E. rewrite !app_length in E. cbn [length] in E. lia. }
  rewrite <- E in *. clear z zs E. rewrite I. destruct (enc xopaque p ++ enc xbool c) as [|z zs] eqn:E.
  { apply (f_equal (@length N)) in E. rewrite !app_length in E. cbn [length] in E. lia. }
  rewrite <- E in *. clear z zs E. destruct (Nat.eqb_spec (length (enc xopaque p ++ enc xbool c)) 4) as [X|X].
  { rewrite app_length in X. lia. }
  rewrite O. destruct (enc xbool c) as [|z zs] eqn:E; [discriminate L4|]. rewrite <- E in *. clear z zs E. now rewrite B.
Qed.

(** * Names *)

Record inv_disk (m : mail) : Prop := {
  id_names : NoDup (used m ++ map fst (m_pending m));
  id_keys : NoDup (mkeys (m_disk m));
  id_files : forall n b, mget (m_disk m) n = Some b ->
    (exists d, In (n, d) (m_done m) /\ DiskMessage_ok 0 d /\ b = enc DiskMessage_codec d) \/ In n (m_partial m);
  id_pending : forall n d, In (n, d) (m_pending m) -> DiskMessage_ok 0 d;
  id_done : forall n d, In (n, d) (m_done m) -> DiskMessage_ok 0 d
}.

Lemma drop_In {A} i (l : list A) x : In x (drop i l) -> In x l.
Proof. intros H. rewrite <- (firstn_skipn i l). unfold drop in H. apply in_app_iff in H as [H|H]; apply in_or_app; auto. right.
  destruct (skipn i l) as [|a r] eqn:E.
  - assert (X : skipn (S i) l = []). { apply skipn_all2. assert (Y := skipn_length i l). rewrite E in Y. cbn in Y. lia. } now rewrite X in H.
  - assert (X : skipn (S i) l = r). { clear H. revert l E. induction i; intros [|b l] E; cbn in *; try discriminate; auto. now injection E. }
    rewrite X in H. now right.
Qed.
Lemma drop_nth {A} i (l : list A) x : nth_error l i = Some x -> Permutation l (x :: drop i l).
Proof.
  revert l. induction i; intros [|a l] E; cbn in E; try discriminate.
  - injection E as ->. reflexivity.
  - apply IHi in E. unfold drop in *. cbn [firstn skipn app]. etransitivity; [apply perm_skip, E|]. apply perm_swap.
Qed.
Lemma drop_nil {A} i : @drop A i [] = [].
Proof. now destruct i. Qed.

Lemma NoDup_app_l {A} (l r : list A) : NoDup (l ++ r) -> NoDup l.
Proof. induction l; intros H; [constructor|]. cbn in H. inversion H; subst. constructor; auto. intros X. apply H2. now apply in_or_app; left. Qed.
Lemma NoDup_app_r {A} (l r : list A) : NoDup (l ++ r) -> NoDup r.
Proof. induction l; auto. intros H. inversion H; auto. Qed.
Lemma NoDup_app_not {A} (l r : list A) x : NoDup (l ++ r) -> In x l -> ~ In x r.
Proof. induction l; intros H I; [destruct I|]. cbn in H. inversion H; subst. destruct I as [->|I]; auto. intros X. apply H2. apply in_or_app. now right. Qed.

Lemma pending_fresh w m i n d : clock w <> AnyTime -> inv_disk m -> nth_error (m_pending m) i = Some (n, d) ->
  ~ In n (used m) /\ ~ In n (map fst (drop i (m_pending m))) /\ mget (m_disk m) n = None /\ DiskMessage_ok 0 d /\
  NoDup (used m ++ map fst (drop i (m_pending m))).
Proof.
  intros C [N K F P D] E. pose proof (nth_error_In _ _ E) as I. pose proof (drop_nth _ _ _ E) as Pm.
  assert (NU : ~ In n (used m)).
  { intros X. eapply NoDup_app_not in X; eauto. apply X. apply in_map_iff. now exists (n, d). }
  assert (Pm2 : Permutation (used m ++ map fst (m_pending m)) (n :: used m ++ map fst (drop i (m_pending m)))).
  { etransitivity; [apply Permutation_app_head, (Permutation_map fst Pm)|]. cbn. symmetry. apply Permutation_middle. }
  pose proof (Permutation_NoDup Pm2 N) as ND. inversion ND as [|? ? ND1 ND2]; subst. split; auto. split.
  { intros X. apply ND1. apply in_or_app. now right. }
  split; [|split; eauto]. destruct (mget (m_disk m) n) as [b|] eqn:G; auto. exfalso. apply NU.
  apply F in G as [(d' & I' & _)|I']; unfold used; apply in_or_app; [left|now right]. apply in_map_iff. now exists (n, d').
Qed.

Lemma inv_disk_step w m m' : clock w <> AnyTime -> inv_disk m -> trans w m m' -> inv_disk m'.
Proof.
  intros C I T. pose proof I as [N K F P D]. destruct T.
  - now constructor.
  - destruct (H0 C) as [H2 H3]. constructor; cbn; auto.
    + unfold used. cbn. rewrite map_app, app_assoc. fold (used m). cbn. apply (Permutation_NoDup (l := n :: used m ++ map fst (m_pending m))).
      * change (n :: used m ++ map fst (m_pending m)) with ([n] ++ (used m ++ map fst (m_pending m))). apply Permutation_app_comm.
      * constructor; auto. intros X. apply in_app_iff in X. tauto.
    + intros n' d' X. apply in_app_iff in X as [X|[[= <- <-]|[]]]; eauto.
  - destruct (pending_fresh w m i n d C I H) as (U & U2 & G & OK & ND). constructor; cbn; auto.
    + unfold used. cbn. rewrite map_app. cbn. rewrite <- !app_assoc. cbn.
      apply (Permutation_NoDup (l := n :: used m ++ map fst (drop i (m_pending m)))).
      * unfold used. rewrite <- app_assoc. apply Permutation_middle.
      * constructor; auto. intros X. apply in_app_iff in X. tauto.
    + now apply NoDup_mset.
    + intros n' b. rewrite mget_mset. destruct (eqb_spec n' n) as [->|].
      * intros [= <-]. left. exists d. split; [apply in_or_app; right; now left|]. auto.
      * intros X. apply F in X as [(d' & X & Y)|X]; auto. left. exists d'. split; auto. apply in_or_app. now left.
    + intros n' d' X. apply drop_In in X. eauto.
    + intros n' d' X. apply in_app_iff in X as [X|[[= <- <-]|[]]]; eauto.
  - destruct (pending_fresh w m i n d C I H) as (U & U2 & G & OK & ND). constructor; cbn; auto.
    + unfold used. cbn. rewrite !app_assoc, <- (app_assoc _ [n]). fold (used m). cbn.
      apply (Permutation_NoDup (l := n :: used m ++ map fst (drop i (m_pending m)))).
      * apply Permutation_middle.
      * constructor; auto. intros X. apply in_app_iff in X. tauto.
    + now apply NoDup_mset.
    + intros n' b. rewrite mget_mset. destruct (eqb_spec n' n) as [->|].
      * intros _. right. apply in_or_app. right. now left.
      * intros X. apply F in X as [X|X]; auto. right. apply in_or_app. now left.
    + intros n' d' X. apply drop_In in X. eauto.
  - destruct (pending_fresh w m i n d C I H) as (U & U2 & G & OK & ND). constructor; cbn; auto. intros n' d' X. apply drop_In in X. eauto.
  - now constructor.
  - now constructor.
  - now constructor.
  - now constructor.
  - constructor; cbn; auto; [|intros ? ? []]. rewrite app_nil_r. unfold used. cbn. now apply NoDup_app_l in N.
  - destruct (pending_fresh w m i n d C I H) as (U & U2 & G & OK & ND). constructor; cbn; auto; [| | |intros ? ? []].
    + unfold used. cbn. rewrite app_nil_r, app_assoc. fold (used m). apply (Permutation_NoDup (l := n :: used m)).
      * change (n :: used m) with ([n] ++ used m). apply Permutation_app_comm.
      * constructor; auto. now apply NoDup_app_l in N.
    + now apply NoDup_mset.
    + intros n' b. rewrite mget_mset. destruct (eqb_spec n' n) as [->|].
      * intros _. right. apply in_or_app. right. now left.
      * intros X. apply F in X as [X|X]; auto. right. apply in_or_app. now left.
  - constructor; cbn; destruct (mget (s_out s) t); auto.
  - constructor; cbn; auto; [now apply NoDup_mdel|]. intros n b'. rewrite mget_mdel. destruct (eqb n (p_name p)); [discriminate|apply F].
  - now constructor.
Qed.

Lemma inv_disk_reach w m : clock w <> AnyTime -> reachable w m -> inv_disk m.
Proof.
  intros C. apply reach_inv; [|intros; eapply inv_disk_step; eauto].
  constructor; cbn; [apply NoDup_nil|apply NoDup_nil|discriminate|intros ? ? []|intros ? ? []].
Qed.

Lemma done_fun m n d d' : inv_disk m -> In (n, d) (m_done m) -> In (n, d') (m_done m) -> d = d'.
Proof.
  intros [N _ _ _ _] H H'. unfold used in N. apply NoDup_app_l, NoDup_app_l in N.
  induction (m_done m) as [|[a b] l IH]; [destruct H|]. cbn in N. inversion N; subst.
  destruct H as [[= -> ->]|H], H' as [E|H'].
  - now injection E.
  - exfalso. apply H2. apply in_map_iff. now exists (n, d').
  - injection E as -> ->. exfalso. apply H2. apply in_map_iff. now exists (n, d).
  - auto.
Qed.
Lemma done_not_partial m n d : inv_disk m -> In (n, d) (m_done m) -> ~ In n (m_partial m).
Proof.
  intros [N _ _ _ _] H. unfold used in N. apply NoDup_app_l in N. eapply NoDup_app_not; eauto. apply in_map_iff. now exists (n, d).
Qed.

(** * What travels is what was delivered *)

Definition true_at (m : mail) (n : bytes) (d : DiskMessage) : Prop := In (n, d) (m_done m) \/ In n (m_partial m).

Definition of_push (p : pushed) : bytes * DiskMessage := (p_name p, p_msg p).
Definition of_note (x : note) : list (bytes * DiskMessage) := match x with Good n d => [(n, d)] | Bad => [] end.
Definition in_worker (w : worker) : list (bytes * DiskMessage) := match w with WSend x _ => of_note x | _ => [] end.
Definition in_nt (x : ntfner) : list (bytes * DiskMessage) :=
  match x with NTag n d => [(n, d)] | NWrite p => [of_push p] | _ => [] end.
Definition in_hand (h : handler) : list (bytes * DiskMessage) := match h with HDelete _ (Some p) => [of_push p] | _ => [] end.
Definition travelling (s : sessn) : list (bytes * DiskMessage) :=
  in_worker (s_worker s) ++ flat_map of_note (s_ntfn s) ++ in_nt (s_nt s) ++ map of_push (map snd (s_out s)) ++
  map of_push (s_writer s) ++ map of_push (s_wire s) ++ map of_push (s_recv s) ++ in_hand (s_hand s) ++
  flat_map of_note (s_notes s) ++ map of_push (s_rcvd s).

Record inv_flow (m : mail) : Prop := {
  if_sess : forall s, m_sess m = Some s -> forall n d, In (n, d) (travelling s) -> true_at m n d;
  if_got : forall p, In p (m_got m) -> true_at m (p_name p) (p_msg p);
  if_acked : forall p, In p (m_acked m) -> true_at m (p_name p) (p_msg p)
}.

Lemma mset_snd {V} (m : list (N * V)) k v x : In x (map snd (mset m k v)) -> x = v \/ In x (map snd m).
Proof.
  induction m as [|[a b] m IH]; cbn; [intros [<-|[]]; auto|]. destruct (eqb k a); cbn; [intros [<-|]; auto|]. intros [->|H]; auto. apply IH in H. tauto.
Qed.
Lemma mdel_snd {V} (m : list (N * V)) k x : In x (map snd (mdel m k)) -> In x (map snd m).
Proof. rewrite !in_map_iff. intros (y & E & I). exists y. split; auto. unfold mdel in I. now apply filter_In in I. Qed.
Lemma mget_snd {V} (m : list (N * V)) k v : mget m k = Some v -> In v (map snd m).
Proof. induction m as [|[a b] m IH]; cbn; [discriminate|]. destruct (eqb k a); [intros [= ->]; auto|auto]. Qed.
Lemma remove_tag_In t l : forall r p, remove_tag t l = Some r -> In p r -> In p l.
Proof.
  induction l as [|q l IH]; intros r p; cbn; [discriminate|]. destruct (eqb (p_tag q) t); [intros [= ->]; auto|].
  destruct (remove_tag t l) as [r'|]; [|discriminate]. intros [= <-] [<-|I]; eauto.
Qed.

Ltac in_all := repeat match goal with
  | H : In _ (_ ++ _) |- _ => apply in_app_iff in H as [H|H]
  | H : In _ (_ :: _) |- _ => destruct H as [H|H]
  | H : In _ [] |- _ => destruct H
  | H : False |- _ => destruct H
  end.

Lemma true_at_mono m m' n d : (forall x, In x (m_done m) -> In x (m_done m')) -> (forall x, In x (m_partial m) -> In x (m_partial m')) ->
  true_at m n d -> true_at m' n d.
Proof. intros H1 H2 [H|H]; [left|right]; auto. Qed.

Lemma flow_sess w m s s' : clock w <> AnyTime -> inv_disk m -> m_sess m = Some s -> sstep w m s s' ->
  (forall n d, In (n, d) (travelling s) -> true_at m n d) -> forall n d, In (n, d) (travelling s') -> true_at m n d.
Proof.
  intros C I S St F n0 d0 H.
  assert (G : In (n0, d0) (travelling s) -> true_at m n0 d0) by auto.
  unfold travelling in H, G. rewrite !in_app_iff in G.
  destruct St; cbn [s_work s_worker s_processed s_ntfn s_nt s_free s_out s_writer s_wdead s_wire s_recv s_acks s_hand s_closed s_notes s_rcvd s_away
    set_s_work set_s_worker set_s_processed set_s_ntfn set_s_nt set_s_free set_s_out set_s_writer set_s_wdead set_s_wire set_s_recv set_s_acks
    set_s_hand set_s_closed set_s_notes set_s_rcvd set_s_away in_worker in_nt in_hand] in H;
  repeat match goal with E : _ s = _ |- _ => rewrite E in G end; cbn [in_worker in_nt in_hand flat_map of_note map app] in G, H.
  all: repeat rewrite ?map_app, ?flat_map_app, ?in_app_iff in H; cbn [in_worker in_nt in_hand flat_map of_note map app In] in H;
       rewrite ?in_app_iff in H; cbn [In] in H, G; rewrite ?in_app_iff in G; cbn [In] in G; try tauto.
  - (* open *) destruct H as [[= <- <-]|H]; [|tauto]. pose proof I as [_ _ Fi _ _]. apply Fi in H2 as [(d' & I' & OK & ->)|I'].
    + rewrite (read_enc _ OK) in H3. injection H3 as <-. now left.
    + now right.
  - (* tag *) rewrite in_map_iff in H. destruct H as [H|[H|[H|[(q & Eq & Iq)|H]]]]; try tauto.
    apply mset_snd in Iq as [->|Iq]; [change ((n, d) = (n0, d0)) in Eq; tauto|].
    assert (X : In (n0, d0) (map of_push (map snd (s_out s)))) by (apply in_map_iff; eauto). tauto.
  - (* free *) rewrite in_map_iff in H.
    assert (X : (exists x, of_push x = (n0, d0) /\ In x (map snd (mdel (s_out s) t))) -> In (n0, d0) (map of_push (map snd (s_out s)))).
    { intros (q & Eq & Iq). apply mdel_snd in Iq. apply in_map_iff. eauto. }
    tauto.
  - (* ack *) rewrite (in_map_iff of_push r) in H.
    assert (X : (exists x, of_push x = (n0, d0) /\ In x r) -> In (n0, d0) (map of_push (s_recv s))).
    { intros (q & Eq & Iq). eapply remove_tag_In in Iq; eauto. apply in_map_iff. eauto. }
    tauto.
Qed.

Lemma inv_flow_step w m m' : clock w <> AnyTime -> inv_disk m -> inv_flow m -> trans w m m' -> inv_flow m'.
Proof.
  intros C I Fl T. pose proof Fl as [Fs Fg Fa].
  assert (Mono : forall m2, (forall x, In x (m_done m) -> In x (m_done m2)) -> (forall x, In x (m_partial m) -> In x (m_partial m2)) ->
            forall n d, true_at m n d -> true_at m2 n d) by (intros; eapply true_at_mono; eauto).
  destruct T.
  - constructor; cbn; auto. intros s0 [= <-] n d H1. apply (flow_sess w m s s'); auto. exact (Fs s H).
  - constructor; cbn; auto.
  - assert (M2 : forall n0 d0, true_at m n0 d0 -> true_at {| m_disk := mset (m_disk m) n (enc DiskMessage_codec d); m_there := true;
        m_pending := drop i (m_pending m); m_sess := signalled (m_sess m); m_done := m_done m ++ [(n, d)]; m_partial := m_partial m;
        m_got := m_got m; m_acked := m_acked m |} n0 d0).
    { apply Mono; cbn; auto. intros x X. apply in_or_app. now left. }
    constructor; cbn; [|intros; apply M2; auto|intros; apply M2; auto].
    intros s E n0 d0 H2. apply M2. destruct (m_sess m) as [s0|]; [|discriminate]. injection E as <-. now apply (Fs s0).
  - assert (M2 : forall n0 d0, true_at m n0 d0 -> true_at {| m_disk := mset (m_disk m) n (firstn k (enc DiskMessage_codec d)); m_there := true;
        m_pending := drop i (m_pending m); m_sess := m_sess m; m_done := m_done m; m_partial := m_partial m ++ [n];
        m_got := m_got m; m_acked := m_acked m |} n0 d0).
    { apply Mono; cbn; auto. intros x X. apply in_or_app. now left. }
    constructor; cbn; [|intros; apply M2; auto|intros; apply M2; auto].
    intros s E n0 d0 H2. apply M2. now apply (Fs s).
  - constructor; cbn; auto.
  - constructor; cbn; auto. intros s E n0 d0 H2. destruct (m_sess m) as [s0|]; [|discriminate]. injection E as <-. now apply (Fs s0).
  - constructor; cbn; auto.
  - constructor; cbn; auto. intros s [= <-] n d []. 
  - constructor; cbn; auto. discriminate.
  - constructor; cbn; auto. discriminate.
  - constructor; cbn; [discriminate| |]; intros p X; [apply Fg in X|apply Fa in X]; (destruct X as [X|X]; [now left|right]); cbn; apply in_or_app; now left.
  - assert (X : forall n d, In (n, d) (travelling s) -> true_at m n d) by exact (Fs s H).
    set (m1 := match mget (s_out s) t with Some p => set_m_acked m (m_acked m ++ [p]) | None => m end).
    assert (M1 : forall n d, true_at m n d -> true_at m1 n d) by (apply Mono; unfold m1; destruct (mget (s_out s) t); auto).
    assert (G : m_got m1 = m_got m) by (unfold m1; now destruct (mget (s_out s) t)).
    constructor; cbn.
    + intros s0 [= <-] n d H3. apply M1. unfold travelling in H3. cbn [s_work s_worker s_processed s_ntfn s_nt s_free s_out s_writer s_wdead s_wire s_recv s_acks s_hand s_closed s_notes s_rcvd s_away
    set_s_hand set_s_acks] in H3. rewrite !in_app_iff in H3.
      assert (Y : In (n, d) (in_hand (HDelete t (mget (s_out s) t))) -> In (n, d) (map of_push (map snd (s_out s)))).
      { destruct (mget (s_out s) t) as [p|] eqn:Gp; cbn; [|intros []]. intros [<-|[]]. apply mget_snd in Gp. now apply in_map. }
      apply X. unfold travelling. rewrite !in_app_iff. tauto.
    + rewrite G. intros p Hp. now apply M1, Fg.
    + intros p Hp. apply M1. unfold m1 in Hp. destruct (mget (s_out s) t) as [q|] eqn:Gq; [|now apply Fa]. cbn in Hp.
      apply in_app_iff in Hp as [Hp|[<-|[]]]; [now apply Fa|]. apply X. unfold travelling. rewrite !in_app_iff.
      apply mget_snd in Gq. apply (in_map of_push) in Gq. change (of_push q) with (p_name q, p_msg q) in Gq. tauto.
  - constructor; cbn; auto. intros s0 [= <-] n d H3. apply (Fs s); auto. unfold travelling in *. cbn in H3.
    rewrite !in_app_iff in *. cbn in H3. tauto.
  - constructor; cbn; auto.
    + intros s0 [= <-] n d H3. apply (Fs s); auto. unfold travelling in *. cbn in H3. rewrite H0. cbn [map].
      rewrite !map_app, !in_app_iff in *. cbn in H3 |- *. tauto.
    + intros q Hq. apply in_app_iff in Hq as [Hq|[<-|[]]]; auto. apply (Fs s); auto. unfold travelling. rewrite H0. rewrite !in_app_iff. cbn. tauto.
Qed.

Lemma inv_flow_reach w m : clock w <> AnyTime -> reachable w m -> inv_flow m.
Proof.
  intros C. apply reach_inv2.
  - constructor; cbn; [discriminate|intros ? []|intros ? []].
  - intros m0 m' R I T. eapply inv_flow_step; eauto. eapply inv_disk_reach; eauto.
Qed.
