(** What one round of the server's loop does, and what runs of all sessions do. *)
From Verif Require Import Base HexModel IniModel IniFileProofs XdrModel XdrProofs RpcModel RpcProofs
  ServerDbModel ServerDbProofs AcctModel SrvModel.
Local Open Scope N_scope.

(** * Specification *)

(** The file [n] in the mailbox of account directory [d]. *)
Definition mailfile (s : store) (d n : bytes) : option bytes :=
  match mget s d with
  | Some a => match a_cache a with Some c => mget c n | None => None end
  | None => None
  end.

(** The client asks to deliver [p] to [to]: a cache or a proxy command, and whether
    it will be marked as clear text. *)
Definition asks_delivery (lim : N) (cmd to p : bytes) (clear : bool) : Prop :=
  exists h r r', dec Message_codec lim cmd = Some (h, r) /\
    if clear then Message_Command h = bs "proxy" /\ dec Proxy_codec lim r = Some (mkProxy to p, r')
    else Message_Command h = bs "cache" /\ dec Cache_codec lim r = Some (mkCache to p, r').

(** * Proof *)

Lemma put_put {A} (l : list A) : forall i x y, nth_error l i = Some y -> put i y (put i x l) = l.
Proof. induction l as [|z l IH]; intros [|i] x y H; cbn in *; try discriminate; [congruence|]. f_equal. now apply IH. Qed.

Definition clean_bm : list bool := repeat false (N.to_nat tag_depth).

Lemma clean_nth t : nth_error clean_bm t = if Nat.ltb t 32 then Some false else None.
Proof.
  unfold clean_bm, tag_depth. change (N.to_nat 32) with 32%nat. destruct (Nat.ltb_spec t 32).
  - destruct (nth_error (repeat false 32) t) as [b|] eqn:E.
    + apply nth_error_In, repeat_spec in E. now subst.
    + apply nth_error_None in E. rewrite repeat_length in E. lia.
  - apply nth_error_None. rewrite repeat_length. lia.
Qed.

(** The whole effect of a round that starts with an empty bitmap. *)
Lemma round_clean lim me held e v cmd o v' bm' : round lim me held e v clean_bm cmd o v' bm' ->
  match dec Message_codec lim cmd with
  | None => o = Ends /\ v' = v
  | Some (m, r) =>
      if Message_Tag m <? 32 then switch lim me held e v m r o v' /\ (forall l, o = Answers l -> bm' = clean_bm)
      else if Message_Tag m =? 32 then o = Crash /\ v' = v
      else o = Ends /\ v' = v
  end.
Proof.
  unfold round. destruct (dec Message_codec lim cmd) as [[m r]|]; [|tauto]. unfold tag_depth.
  destruct (N.ltb_spec 32 (Message_Tag m)).
  - destruct (N.ltb_spec (Message_Tag m) 32); [lia|]. destruct (N.eqb_spec (Message_Tag m) 32); [lia|tauto].
  - rewrite clean_nth. destruct (Nat.ltb_spec (N.to_nat (Message_Tag m)) 32).
    + destruct (N.ltb_spec (Message_Tag m) 32); [|lia]. intros [S E]. split; auto. intros l ->.
      rewrite E. apply put_put. rewrite clean_nth. destruct (Nat.ltb_spec (N.to_nat (Message_Tag m)) 32); [auto|lia].
    + destruct (N.ltb_spec (Message_Tag m) 32); [lia|]. destruct (N.eqb_spec (Message_Tag m) 32); [tauto|lia].
Qed.

Lemma switch_no_crash lim me held e v m r v' : ~ switch lim me held e v m r Crash v'.
Proof.
  unfold switch. intros S.
  repeat match type of S with
  | (if ?b then _ else _) => destruct b
  | match dec ?c lim r with _ => _ end => destruct (dec c lim r) as [[? ?]|]
  | match held ?t with _ => _ end => destruct (held t)
  | (let (_, _) := ?x in _) => destruct x
  end; try (destruct S; discriminate); try (destruct S as ([] & f' & _ & _ & S); discriminate).
Qed.

(** ** Runs *)

Definition all_clean (x : sessions) : Prop := forall i bm, x i = Some bm -> bm = clean_bm.

Lemma start_clean : all_clean start_sessions.
Proof. intros i bm E. unfold start_sessions in E. now injection E as <-. Qed.

Lemma set_clean x i b : all_clean x -> (forall bm, b = Some bm -> bm = clean_bm) -> all_clean (set_session x i b).
Proof. intros C B j bm. unfold set_session. destruct (Nat.eqb j i); auto. apply C. Qed.

Lemma round_answers_clean lim me held e v cmd l v' bm' : round lim me held e v clean_bm cmd (Answers l) v' bm' -> bm' = clean_bm.
Proof.
  intros R. apply round_clean in R. destruct (dec Message_codec lim cmd) as [[m r]|]; [|now destruct R].
  destruct (Message_Tag m <? 32); [eapply (proj2 R); eauto|]. destruct (Message_Tag m =? 32); now destruct R.
Qed.

Lemma srun_clean lim who x v es hs x' v' : srun lim who x v es hs x' v' -> all_clean x -> all_clean x'.
Proof.
  induction 1; intros C; auto; apply IHsrun.
  - apply set_clean; auto. intros b E. injection E as <-. rewrite (C _ _ H) in H0. eapply round_answers_clean; eauto.
  - apply set_clean; auto. discriminate.
Qed.

(** ** Mailboxes *)

Lemma deliver_mailfile s to from p cl name rcv s' ok d n : deliver s to from p cl name rcv = (s', ok) ->
  mailfile s' d n = mailfile s d n \/
  (ok = true /\ d = account_dir to /\ n = name /\ mailfile s d n = None /\
   mailfile s' d n = Some (enc DiskMessage_codec (mkDiskMessage from rcv p cl))).
Proof.
  unfold deliver. destruct (mget s (account_dir to)) as [a|] eqn:A; [|intros E; apply pair_equal_spec in E as [<- <-]; auto].
  destruct (a_cache a) as [c|] eqn:Ca; [|intros E; apply pair_equal_spec in E as [<- <-]; auto].
  unfold mhas. destruct (mget c name) eqn:G; intros E; apply pair_equal_spec in E as [<- <-]; auto.
  unfold mailfile. rewrite mget_mset. destruct (eqb_spec d (account_dir to)) as [->|]; auto. rewrite A, Ca. cbn [a_cache].
  rewrite mget_mset. destruct (eqb_spec n name) as [->|]; auto. right. auto.
Qed.

Lemma delete_mailfile s id name d n : 
  mailfile (fst (delete s id name)) d n = mailfile s d n \/
  (d = account_dir id /\ n = name /\ mailfile (fst (delete s id name)) d n = None).
Proof.
  unfold delete. destruct (mget s (account_dir id)) as [a|] eqn:A; auto.
  destruct (a_cache a) as [c|] eqn:Ca; auto. unfold mhas. destruct (mget c name) eqn:G; auto. cbn [fst].
  unfold mailfile. rewrite mget_mset. destruct (eqb_spec d (account_dir id)) as [->|]; auto. rewrite A, Ca. cbn [a_cache].
  rewrite mget_mdel. destruct (eqb_spec n name) as [->|]; auto.
Qed.


Lemma switch_mail lim me held e v m r o v' cmd : dec Message_codec lim cmd = Some (m, r) -> switch lim me held e v m r o v' ->
  forall d n, mailfile (v_store v') d n = mailfile (v_store v) d n \/
    (Message_Command m = bs "ack" /\ held (Message_Tag m) = Some n /\ d = account_dir me /\ mailfile (v_store v') d n = None) \/
    (exists to p clear, asks_delivery lim cmd to p clear /\ d = account_dir to /\ n = e_name e /\ mailfile (v_store v) d n = None /\
       mailfile (v_store v') d n = Some (enc DiskMessage_codec (mkDiskMessage me (e_now e) p clear))).
Proof.
  intros D S d n. unfold switch in S.
  destruct (eqb_spec (Message_Command m) cmd_ping).
  { destruct (dec Ping_codec lim r) as [[? ?]|]; destruct S as [_ ->]; auto. }
  destruct (eqb_spec (Message_Command m) cmd_rendezvous).
  { destruct (dec Rendezvous_codec lim r) as [[? ?]|]; [|destruct S as [_ ->]; auto]. destruct S as (a & f' & _ & -> & _); auto. }
  destruct (eqb_spec (Message_Command m) cmd_pull).
  { destruct (dec RendezvousPull_codec lim r) as [[? ?]|]; [|destruct S as [_ ->]; auto]. destruct S as (a & f' & _ & -> & _); auto. }
  destruct (eqb_spec (Message_Command m) cmd_cache) as [Ec|].
  { destruct (dec Cache_codec lim r) as [[q r']|] eqn:Dq; [|destruct S as [_ ->]; auto]. unfold handle_cache in S.
    destruct (deliver _ _ _ _ _ _ _) as [s' ok] eqn:De. destruct S as [_ ->]. cbn [v_store].
    destruct (deliver_mailfile _ _ _ _ _ _ _ _ _ d n De) as [|(_ & -> & -> & A & B)]; auto. right; right.
    exists (Cache_To q), (Cache_Payload q), false. repeat split; auto. exists m, r, r'. split; auto. split; auto. now destruct q. }
  destruct (eqb_spec (Message_Command m) cmd_ack) as [Ea|].
  { destruct (held (Message_Tag m)) as [k|] eqn:Eh; destruct S as [_ ->]; auto. cbn [v_store].
    destruct (delete_mailfile (v_store v) me k d n) as [|(-> & -> & A)]; auto. right; left. auto. }
  destruct (eqb_spec (Message_Command m) cmd_find).
  { destruct (dec IdentityFind_codec lim r) as [[? ?]|]; destruct S as [_ ->]; auto. }
  destruct (eqb_spec (Message_Command m) cmd_proxy) as [Ep|]; [|destruct S as [_ ->]; auto].
  destruct (dec Proxy_codec lim r) as [[q r']|] eqn:Dq; [|destruct S as [_ ->]; auto]. unfold handle_proxy in S.
  destruct (deliver _ _ _ _ _ _ _) as [s' ok] eqn:De. destruct S as [_ ->]. cbn [v_store].
  destruct (deliver_mailfile _ _ _ _ _ _ _ _ _ d n De) as [|(_ & -> & -> & A & B)]; auto. right; right.
  exists (Proxy_To q), (Proxy_Payload q), true. repeat split; auto. exists m, r, r'. split; auto. split; auto. now destruct q.
Qed.

Lemma rename_mailfile s a b d n x : mailfile (rename s a b) d n = Some x -> exists d0, mailfile s d0 n = Some x.
Proof.
  unfold rename. destruct (mget s a) as [y|] eqn:A; [|eauto]. unfold mailfile at 1. rewrite mget_mset.
  destruct (eqb d b).
  - intros H. exists a. unfold mailfile. now rewrite A.
  - rewrite mget_mdel. destruct (eqb d a); [discriminate|]. intros H. now exists d.
Qed.

Lemma user_mailfile s k a u d n : mget s k = Some a ->
  mailfile (mset s k {| a_user := u; a_cache := a_cache a |}) d n = mailfile s d n.
Proof. intros A. unfold mailfile. rewrite mget_mset. destruct (eqb_spec d k) as [->|]; auto. now rewrite A. Qed.

(** Whatever else happens to the accounts, mail is only moved. *)
Lemma other_mailfile s op ok s' d n x : other op = true -> acct_step s op ok s' -> mailfile s' d n = Some x ->
  exists d0, mailfile s d0 n = Some x.
Proof.
  intros O S M. assert (Same : s' = s -> exists d0, mailfile s d0 n = Some x) by (intros ->; eauto).
  destruct op as [pid force|id|id|id|id| |]; try discriminate O; cbn in S.
  - unfold create in S. destruct (find s _); [tauto|]. destruct (_ && _); [tauto|].
    destruct (mget s (account_dir (PublicIdentity_Identity pid))) as [a|] eqn:A; cbn [a_user a_cache] in S.
    + destruct (db_open (a_user a)) as [[f db]|]; [|tauto]. destruct (ini_set _ _ _ _) as [d' [?|]].
      * destruct S as [_ ->]. rewrite user_mailfile in M by auto. eauto.
      * destruct S as (_ & f' & _ & ->). destruct (a_cache a) as [c|] eqn:Ca.
        -- rewrite <- Ca, user_mailfile in M by auto. eauto.
        -- unfold mailfile in M. rewrite mget_mset in M. destruct (eqb d _); [discriminate M|]. now exists d.
    + destruct (db_open None) as [[f db]|]; [|tauto]. destruct (ini_set _ _ _ _) as [d' [?|]].
      * destruct S as [_ ->]. unfold mailfile in M. rewrite mget_mset in M. destruct (eqb d _); [discriminate M|]. now exists d.
      * destruct S as (_ & f' & _ & ->). unfold mailfile in M. rewrite mget_mset in M. destruct (eqb d _); [discriminate M|]. now exists d.
  - unfold push, change_user in S. destruct (mget s (account_dir id)) as [a|] eqn:A; [|tauto]. destruct (a_user a); [|tauto].
    destruct (parse _); [|tauto]. destruct (ini_set _ _ _ _) as [d' [?|]]; [tauto|]. destruct S as (_ & f' & _ & ->).
    rewrite user_mailfile in M by auto. eauto.
  - unfold pull, change_user in S. destruct (mget s (account_dir id)) as [a|] eqn:A; [|tauto]. destruct (a_user a); [|tauto].
    destruct (parse _); [|tauto]. destruct (ini_del _ _ _) as [d' [?|]]; [tauto|]. destruct S as (_ & f' & _ & ->).
    rewrite user_mailfile in M by auto. eauto.
  - unfold disable in S. destruct (mhas s (disabled_dir id)); [injection S as -> ->; eauto|].
    destruct (mhas s _); injection S as -> ->; eauto using rename_mailfile.
  - unfold enable in S. destruct (mhas s (disabled_dir id)); [|injection S as -> ->; eauto].
    destruct (mhas s _); injection S as -> ->; eauto using rename_mailfile.
Qed.
