(** C24, C25: requests of clients; C53: making accounts. *)
From Verif Require Import Base HexModel IniModel IniMemProofs IniFileProofs XdrModel XdrProofs RpcModel RpcProofs
  BlobProps ServerDbModel ServerDbProofs ServerDbProps AcctModel AcctProofs AcctProps SrvModel SrvProofs.
Local Open Scope N_scope.

(** * C25: tags *)

(** The tag table of a session is empty before every message, so a tag is never
    refused as a duplicate. *)
Theorem C25_bitmap lim who v es hs x' v' : srun lim who start_sessions v es hs x' v' ->
  forall i bm, x' i = Some bm -> bm = repeat false 32.
Proof. intros R. exact (srun_clean _ _ _ _ _ _ _ _ R start_clean). Qed.
Print Assumptions C25_bitmap.

(** Whatever all clients send, the server crashes exactly on the messages whose
    header can be read and whose tag is 32. *)
Theorem C25_crash lim who v es hs x' v' : srun lim who start_sessions v es hs x' v' ->
  length hs = length es /\
  forall k i held e cmd h, nth_error es k = Some (Req i held e cmd) -> nth_error hs k = Some h ->
    (h = Did Crash <-> exists m r, dec Message_codec lim cmd = Some (m, r) /\ Message_Tag m = 32).
Proof.
  generalize start_clean. generalize start_sessions. intros x C R.
  assert (One : forall i held e v bm cmd o v' bm', bm = clean_bm -> round lim (who i) held e v bm cmd o v' bm' ->
    (o = Crash <-> exists m r, dec Message_codec lim cmd = Some (m, r) /\ Message_Tag m = 32)).
  { clear. intros i held e v bm cmd o v' bm' -> R. apply round_clean in R. destruct (dec Message_codec lim cmd) as [[m r]|].
    2:{ destruct R as [-> _]. split; [discriminate|]. intros (? & ? & H & _). discriminate H. }
    destruct (N.ltb_spec (Message_Tag m) 32).
    - destruct R as [S _]. split; [intros ->; now apply switch_no_crash in S|].
      intros (m1 & r1 & E & T). injection E as <- <-. lia.
    - destruct (N.eqb_spec (Message_Tag m) 32) as [E|E]; destruct R as [-> _].
      + split; eauto.
      + split; [discriminate|]. intros (m1 & r1 & E1 & T). injection E1 as <- <-. lia. }
  induction R as [x v|x v op ok s1 es hs x2 v2 O S R IH|x v i held e cmd bm l v1 bm1 es hs x2 v2 X S R IH|x v i held e cmd bm v1 bm1 es hs x2 v2 X S R IH|x v i held e cmd bm v1 bm1 X S].
  - split; auto. intros [|k]; discriminate.
  - destruct (IH C) as [L K]. split; [cbn; congruence|]. intros [|k] i held e cmd h E1 E2; [discriminate E1|]. eapply K; eauto.
  - pose proof (C _ _ X) as Eb. destruct IH as [L K].
    { apply set_clean; auto. intros b E. injection E as <-. rewrite Eb in S. eapply round_answers_clean; eauto. }
    split; [cbn; congruence|]. intros [|k] i' held' e' cmd' h E1 E2; [|eapply K; eauto].
    injection E1 as <- <- <- <-. injection E2 as <-. rewrite <- (One _ _ _ _ _ _ _ _ _ Eb S). split; discriminate.
  - pose proof (C _ _ X) as Eb. destruct IH as [L K].
    { apply set_clean; auto. discriminate. }
    split; [cbn; congruence|]. intros [|k] i' held' e' cmd' h E1 E2; [|eapply K; eauto].
    injection E1 as <- <- <- <-. injection E2 as <-. rewrite <- (One _ _ _ _ _ _ _ _ _ Eb S). split; discriminate.
  - pose proof (C _ _ X) as Eb. split; auto. intros [|[|k]] i' held' e' cmd' h E1 E2; try discriminate.
    injection E1 as <- <- <- <-. injection E2 as <-. rewrite <- (One _ _ _ _ _ _ _ _ _ Eb S). split; auto.
Qed.
Print Assumptions C25_crash.

(** Any client can send such a message at any time: the expectation that no message
    crashes the server fails. *)
Theorem C25_refuted lim who v es hs x' v' i held e bm : (lim = 0 \/ 4 <= lim) ->
  srun lim who start_sessions v es hs x' v' -> x' i = Some bm ->
  let cmd := enc Message_codec (mkMessage (bs "ping") 0 false 32) in
  round lim (who i) held e v' bm cmd Crash v' bm /\ ~ exists o v1 bm1, o <> Crash /\ round lim (who i) held e v' bm cmd o v1 bm1.
Proof.
  intros Hl R X. assert (D : dec Message_codec lim (enc Message_codec (mkMessage (bs "ping") 0 false 32)) = Some (mkMessage (bs "ping") 0 false 32, [])).
  { rewrite <- (app_nil_r (enc _ _)). apply good_Message. split; [|split; vm_compute; intuition congruence].
    split; [vm_compute; congruence|]. destruct Hl as [|H]; [now left|]. right. exact H. }
  rewrite (C25_bitmap _ _ _ _ _ _ _ R _ _ X). cbv zeta. split.
  - unfold round. rewrite D. repeat split; reflexivity.
  - intros (o & v1 & bm1 & N & K). unfold round in K. rewrite D in K. destruct K as [K _]. now apply N.
Qed.
Print Assumptions C25_refuted.

(** * C24: one round *)

(** Every message of a client has an outcome. *)
Theorem C24_total lim me held e v cmd :
  exists o v' bm', round lim me held e v (repeat false 32) cmd o v' bm'.
Proof.
  unfold round. destruct (dec Message_codec lim cmd) as [[m r]|]; [|eauto 9].
  destruct (_ <? _); [eauto 9|]. change (repeat false 32) with clean_bm.
  pose proof (clean_nth (N.to_nat (Message_Tag m))) as Hn. cbv zeta. destruct (nth_error clean_bm _) as [[]|]; [eauto 9| |eauto 9].
  assert (S : exists o v', switch lim me held e v m r o v').
  { unfold switch.
    destruct (eqb _ cmd_ping); [destruct (dec Ping_codec lim r); eauto 9|].
    destruct (eqb _ cmd_rendezvous).
    { destruct (dec Rendezvous_codec lim r) as [[q r']|]; [|eauto 9].
      assert (Z : exists a f', rz_step lim (v_rz v) (Store q (e_draws e)) a f').
      { unfold rz_step. destruct (db_open (v_rz v)) as [[f d]|]; [|eauto 9]. destruct (rz_store _ _ _) as [d' p].
        unfold saved. destruct (db_dirty d').
        - exists (Stored p), (Some (render (db_tables d'))). split; auto. exists (render (db_tables d')). split; auto.
          exists (db_tables d'). split; auto. apply iterates_refl.
        - exists (Stored p), (Some f). split; eauto 9. }
      destruct Z as (a & f' & Z). destruct a as [p|p|];
        [exists (Answers [wire cmd_rendezvous_reply (Message_Tag m) RendezvousReply_codec p])|exists Ends|exists Ends];
        exists (mkSrv (v_store v) f'); eauto 9. }
    destruct (eqb (Message_Command m) cmd_pull).
    { destruct (dec RendezvousPull_codec lim r) as [[q r']|]; [|eauto 9].
      assert (Z : exists a f', rz_step lim (v_rz v) (Fetch (RendezvousPull_Token q)) a f').
      { unfold rz_step. destruct (db_open (v_rz v)) as [[f d]|]; eauto 9. }
      destruct Z as (a & f' & Z). destruct a as [p|p|];
        [exists Ends|exists (Answers [wire cmd_pull_reply (Message_Tag m) RendezvousPullReply_codec p])|exists Ends];
        exists (mkSrv (v_store v) f'); eauto 9. }
    destruct (eqb _ cmd_cache).
    { destruct (dec Cache_codec lim r) as [[q r']|]; [|eauto 9]. destruct (handle_cache _ _ _ _ _). eauto 9. }
    destruct (eqb _ cmd_ack); [destruct (held _); eauto 9|].
    destruct (eqb _ cmd_find); [destruct (dec IdentityFind_codec lim r) as [[q r']|]; eauto 9|].
    destruct (eqb _ cmd_proxy); [|eauto 9].
    destruct (dec Proxy_codec lim r) as [[q r']|]; [|eauto 9]. destruct (handle_proxy _ _ _ _ _). eauto 9. }
  destruct S as (o & v' & S). eauto 9.
Qed.
Print Assumptions C24_total.

Lemma read_wire {A} (c : codec A) cmd tag x : str_ok 0 cmd -> tag < 2 ^ 32 ->
  dec Message_codec 0 (wire cmd tag c x) = Some (mkMessage cmd 0 false tag, enc c x).
Proof.
  intros S T. unfold wire. apply good_Message. split; [exact S|]. split; [|exact T]. split; vm_compute; congruence.
Qed.

Lemma hex_encode_length s : length (hex_encode s) = (2 * length s)%nat.
Proof. induction s as [|x s IH]; [reflexivity|]. unfold hex_encode in *. cbn [flat_map app length]. lia. Qed.

Ltac small_str := split; [vm_compute; congruence|now left].

(** If the server goes on, then every message but an acknowledgement got exactly
    one answer, carrying the tag of the message. *)
Theorem C24_one lim me held e v cmd l v' bm' : round lim me held e v (repeat false 32) cmd (Answers l) v' bm' ->
  exists m r, dec Message_codec lim cmd = Some (m, r) /\ Message_Tag m < 32 /\
    if eqb (Message_Command m) (bs "ack") then l = []
    else exists b c rest, l = [b] /\ dec Message_codec 0 b = Some (mkMessage c 0 false (Message_Tag m), rest).
Proof.
  intros R. apply round_clean in R. destruct (dec Message_codec lim cmd) as [[m r]|]; [|now destruct R]. exists m, r. split; auto.
  destruct (N.ltb_spec (Message_Tag m) 32) as [T|T]; [|destruct (_ =? _); now destruct R]. split; auto. destruct R as [S _].
  assert (T32 : Message_Tag m < 2 ^ 32) by lia.
  assert (W : forall A (c : codec A) cm x, str_ok 0 cm -> Answers l = Answers [wire cm (Message_Tag m) c x] ->
    exists b c rest, l = [b] /\ dec Message_codec 0 b = Some (mkMessage c 0 false (Message_Tag m), rest)).
  { intros A c cm x Hc E. injection E as ->. exists (wire cm (Message_Tag m) c x), cm, (enc c x). split; auto. now apply read_wire. }
  unfold switch in S.
  destruct (eqb_spec (Message_Command m) cmd_ping) as [Ec|_].
  { rewrite Ec. destruct (dec Ping_codec lim r) as [[? ?]|]; destruct S as [S _]; [|discriminate]. cbn -[dec]. eapply W; eauto. small_str. }
  destruct (eqb_spec (Message_Command m) cmd_rendezvous) as [Ec|_].
  { rewrite Ec. destruct (dec Rendezvous_codec lim r) as [[q r']|]; [|now destruct S]. destruct S as ([p| |] & f' & _ & _ & S); try discriminate.
    cbn -[dec]. eapply W; eauto. small_str. }
  destruct (eqb_spec (Message_Command m) cmd_pull) as [Ec|_].
  { rewrite Ec. destruct (dec RendezvousPull_codec lim r) as [[q r']|]; [|now destruct S]. destruct S as ([|p|] & f' & _ & _ & S); try discriminate.
    cbn -[dec]. eapply W; eauto. small_str. }
  destruct (eqb_spec (Message_Command m) cmd_cache) as [Ec|_].
  { rewrite Ec. destruct (dec Cache_codec lim r) as [[q r']|]; [|now destruct S]. unfold handle_cache in S.
    destruct (deliver _ _ _ _ _ _ _). destruct S as [S _]. cbn -[dec]. eapply W; eauto. small_str. }
  destruct (eqb_spec (Message_Command m) cmd_ack) as [Ec|Na].
  { rewrite Ec. destruct (held _); destruct S as [S _]; now injection S as ->. }
  destruct (eqb_spec (Message_Command m) (bs "ack")) as [|_]; [contradiction|].
  destruct (eqb (Message_Command m) cmd_find).
  { destruct (dec IdentityFind_codec lim r) as [[q r']|]; destruct S as [S _]; [|discriminate]. unfold handle_find in S. eapply W; eauto. small_str. }
  destruct (eqb (Message_Command m) cmd_proxy); [|now destruct S].
  destruct (dec Proxy_codec lim r) as [[q r']|]; [|now destruct S]. unfold handle_proxy in S.
  destruct (deliver _ _ _ _ _ _ _). destruct S as [S _]. eapply W; eauto. small_str.
Qed.
Print Assumptions C24_one.

(** Whatever a client sends, a mailbox changes only in one of two ways: the client's
    own mailbox loses the message it acknowledges, or the mailbox of the recipient
    named in a cache or proxy command gets the payload, with the client's proven
    identity as sender and the mark of the command. *)
Theorem C24_stored lim me held e v cmd o v' bm' : round lim me held e v (repeat false 32) cmd o v' bm' ->
  forall d n, mailfile (v_store v') d n = mailfile (v_store v) d n \/
    (exists m r, dec Message_codec lim cmd = Some (m, r) /\ Message_Command m = bs "ack" /\
       held (Message_Tag m) = Some n /\ d = hex_encode me /\ mailfile (v_store v') d n = None) \/
    (exists to p clear, asks_delivery lim cmd to p clear /\ d = hex_encode to /\ n = e_name e /\
       mailfile (v_store v) d n = None /\
       mailfile (v_store v') d n = Some (enc DiskMessage_codec (mkDiskMessage me (e_now e) p clear))).
Proof.
  intros R d n. apply round_clean in R. destruct (dec Message_codec lim cmd) as [[m r]|] eqn:D; [|left; now destruct R as [_ ->]].
  destruct (Message_Tag m <? 32); [|left; destruct (_ =? _); now destruct R as [_ ->]]. destruct R as [S _].
  destruct (switch_mail _ _ _ _ _ _ _ _ _ cmd D S d n) as [|[(A & B & C & E)|K]]; auto.
  right; left. exists m, r. auto.
Qed.
Print Assumptions C24_stored.

(** For every history of all sessions and of everything else that happens to the
    accounts, every message in a mailbox was there before or was sent by the client
    whose proven identity it carries. *)
Theorem C24_attributed lim who v es hs x' v' : srun lim who start_sessions v es hs x' v' ->
  forall d n b, mailfile (v_store v') d n = Some b ->
    (exists d0, mailfile (v_store v) d0 n = Some b) \/
    (exists i held e cmd to p clear, In (Req i held e cmd) es /\ asks_delivery lim cmd to p clear /\
       b = enc DiskMessage_codec (mkDiskMessage (who i) (e_now e) p clear)).
Proof.
  generalize start_clean. generalize start_sessions. intros x C R.
  assert (One : forall i held e v bm cmd o v1 bm1 es d n b, bm = clean_bm -> round lim (who i) held e v bm cmd o v1 bm1 ->
    mailfile (v_store v1) d n = Some b ->
    (exists d0, mailfile (v_store v) d0 n = Some b) \/
    (exists i' held' e' cmd' to p clear, In (Req i' held' e' cmd') (Req i held e cmd :: es) /\ asks_delivery lim cmd' to p clear /\
       b = enc DiskMessage_codec (mkDiskMessage (who i') (e_now e') p clear))).
  { clear. intros i held e v bm cmd o v1 bm1 es d n b -> R M. destruct (C24_stored _ _ _ _ _ _ _ _ _ R d n) as [E|[(m & r & _ & _ & _ & _ & E)|(to & p & cl & A & _ & _ & _ & E)]].
    - left. exists d. congruence.
    - congruence.
    - right. exists i, held, e, cmd, to, p, cl. split; [now left|]. split; auto. congruence. }
  induction R as [x v|x v op ok s1 es hs x2 v2 O S R IH|x v i held e cmd bm l v1 bm1 es hs x2 v2 X S R IH|x v i held e cmd bm v1 bm1 es hs x2 v2 X S R IH|x v i held e cmd bm v1 bm1 X S]; intros d n b M.
  - eauto.
  - destruct (IH C d n b M) as [[d0 E]|(i & held & e & cmd & to & p & cl & I & K)].
    + cbn [v_store] in E. left. eapply other_mailfile; eauto.
    + right. exists i, held, e, cmd, to, p, cl. split; auto. now right.
  - pose proof (C _ _ X) as Eb. destruct (fun H => IH H d n b M) as [[d0 E]|(i' & held' & e' & cmd' & to & p & cl & I & K)].
    { apply set_clean; auto. intros y E. injection E as <-. rewrite Eb in S. eapply round_answers_clean; eauto. }
    + eapply One; eauto.
    + right. exists i', held', e', cmd', to, p, cl. split; auto. now right.
  - pose proof (C _ _ X) as Eb. destruct (fun H => IH H d n b M) as [[d0 E]|(i' & held' & e' & cmd' & to & p & cl & I & K)].
    { apply set_clean; auto. discriminate. }
    + eapply One; eauto.
    + right. exists i', held', e', cmd', to, p, cl. split; auto. now right.
  - pose proof (C _ _ X) as Eb. eapply One; eauto.
Qed.
Print Assumptions C24_attributed.

(** The recipient's mailbox can take a message under this name. *)
Definition takes (s : store) (to name : bytes) : Prop :=
  exists a c, mget s (hex_encode to) = Some a /\ a_cache a = Some c /\ mget c name = None.
Definition added (s s' : store) (to name b : bytes) : Prop :=
  forall d n, mailfile s' d n = if eqb d (hex_encode to) && eqb n name then Some b else mailfile s d n.

Lemma deliver_takes s to from p cl name rcv : let b := enc DiskMessage_codec (mkDiskMessage from rcv p cl) in
  (takes s to name /\ exists s', deliver s to from p cl name rcv = (s', true) /\ added s s' to name b) \/
  (~ takes s to name /\ deliver s to from p cl name rcv = (s, false)).
Proof.
  cbv zeta. unfold takes, deliver, account_dir. destruct (mget s (hex_encode to)) as [a|] eqn:A.
  2:{ right. split; auto. intros (a & c & H & _). discriminate H. }
  destruct (a_cache a) as [c|] eqn:Ca.
  2:{ right. split; auto. intros (a1 & c & H & K & _). congruence. }
  unfold mhas. destruct (mget c name) eqn:G.
  { right. split; auto. intros (a1 & c1 & H & K & L). congruence. }
  left. split; [now exists a, c|]. eexists. split; [reflexivity|]. intros d n. unfold mailfile. rewrite mget_mset.
  destruct (eqb_spec d (hex_encode to)) as [->|]; auto. cbn [andb a_cache]. rewrite mget_mset. destruct (eqb n name); auto.
  now rewrite A, Ca.
Qed.

(** A cache command is answered with the truth: an empty error exactly if the message
    is in the mailbox now; otherwise nothing changed and the error code says whether
    the recipient is disabled.  Nothing else is touched. *)
Theorem C24_cache lim me held e v ts cl tag to p junk o v' bm' :
  Message_ok lim (mkMessage (bs "cache") ts cl tag) -> Cache_ok lim (mkCache to p) -> tag < 32 ->
  round lim me held e v (repeat false 32)
    (enc Message_codec (mkMessage (bs "cache") ts cl tag) ++ enc Cache_codec (mkCache to p) ++ junk) o v' bm' ->
  exists b a rest, o = Answers [b] /\ bm' = repeat false 32 /\ v_rz v' = v_rz v /\
    dec Message_codec 0 b = Some (mkMessage (bs "ack") 0 false tag, rest) /\ dec Acknowledge_codec 0 rest = Some (a, []) /\
    (Acknowledge_Error a = [] <-> takes (v_store v) to (e_name e)) /\
    (Acknowledge_Error a = [] -> Acknowledge_ErrorCode a = 0%Z /\
       added (v_store v) (v_store v') to (e_name e) (enc DiskMessage_codec (mkDiskMessage me (e_now e) p false))) /\
    (Acknowledge_Error a <> [] -> v' = v /\
       Acknowledge_ErrorCode a = if mhas (v_store v) (46 :: hex_encode to) then 1%Z else 0%Z).
Proof.
  intros Hm Hc T R. apply round_clean in R. pose proof good_Message as (Rm & _). rewrite (Rm lim _ _ Hm) in R. cbn [Message_Tag] in R.
  destruct (N.ltb_spec tag 32); [|lia]. destruct R as [S B]. unfold switch in S. cbn [Message_Command Message_Tag] in S.
  change (eqb (bs "cache") cmd_ping) with false in S. change (eqb (bs "cache") cmd_rendezvous) with false in S.
  change (eqb (bs "cache") cmd_pull) with false in S. change (eqb (bs "cache") cmd_cache) with true in S. cbv iota in S.
  pose proof good_Cache as (Rc & _). rewrite (Rc lim _ _ Hc) in S. unfold handle_cache in S. cbn [Cache_To Cache_Payload] in S.
  assert (Hd : size_ok 32 to) by apply Hc.
  assert (Len : length (hex_encode to) = 64%nat).
  { unfold size_ok in Hd. rewrite hex_encode_length. lia. }
  assert (Rd : forall a, Acknowledge_ok 0 a -> dec Message_codec 0 (wire cmd_ack tag Acknowledge_codec a) = Some (mkMessage (bs "ack") 0 false tag, enc Acknowledge_codec a) /\
    dec Acknowledge_codec 0 (enc Acknowledge_codec a) = Some (a, [])).
  { intros a Ha. split; [apply read_wire; [small_str|lia]|]. rewrite <- (app_nil_r (enc _ a)). now apply good_Acknowledge. }
  destruct (deliver_takes (v_store v) to me p false (e_name e) (e_now e)) as [(Tk & s' & De & Ad)|(Tk & De)]; rewrite De in S; destruct S as [-> ->].
  - destruct (Rd (mkAcknowledge [] 0)) as [D1 D2]; [split; [small_str|split; vm_compute; congruence]|].
    do 3 eexists. split; [reflexivity|]. split; [eapply B; reflexivity|]. split; [reflexivity|]. split; [exact D1|]. split; [exact D2|].
    cbn [Acknowledge_Error Acknowledge_ErrorCode v_store]. split; [tauto|]. split; [auto|congruence].
  - set (a := if disabled (v_store v) to then _ else _).
    assert (Ok : Acknowledge_ok 0 a /\ Acknowledge_Error a <> [] /\ Acknowledge_ErrorCode a = if mhas (v_store v) (46 :: hex_encode to) then 1%Z else 0%Z).
    { unfold a, disabled, disabled_dir. change DOT with 46. destruct (mhas _ _).
      - split; [|split; [discriminate|reflexivity]]. split; [|split; vm_compute; congruence]. split; [|now left].
        cbn [Acknowledge_Error]. rewrite app_length, Len. vm_compute. congruence.
      - split; [|split; [discriminate|reflexivity]]. split; [|split; vm_compute; congruence]. small_str. }
    clearbody a. destruct Ok as (Ok & Ne & Cd). destruct (Rd a Ok) as [D1 D2].
    do 3 eexists. split; [reflexivity|]. split; [eapply B; reflexivity|]. split; [reflexivity|]. split; [exact D1|]. split; [exact D2|].
    split; [tauto|]. split; [tauto|]. intros _. split; auto. now destruct v.
Qed.
Print Assumptions C24_cache.

(** The same for a proxy command, which marks the message as clear text. *)
Theorem C24_proxy lim me held e v ts cl tag to p junk o v' bm' :
  Message_ok lim (mkMessage (bs "proxy") ts cl tag) -> Proxy_ok lim (mkProxy to p) -> tag < 32 ->
  round lim me held e v (repeat false 32)
    (enc Message_codec (mkMessage (bs "proxy") ts cl tag) ++ enc Proxy_codec (mkProxy to p) ++ junk) o v' bm' ->
  exists b a rest, o = Answers [b] /\ bm' = repeat false 32 /\ v_rz v' = v_rz v /\
    dec Message_codec 0 b = Some (mkMessage (bs "proxyreply") 0 false tag, rest) /\ dec ProxyReply_codec 0 rest = Some (a, []) /\
    ProxyReply_To a = to /\
    (ProxyReply_Error a = [] <-> takes (v_store v) to (e_name e)) /\
    (ProxyReply_Error a = [] ->
       added (v_store v) (v_store v') to (e_name e) (enc DiskMessage_codec (mkDiskMessage me (e_now e) p true))) /\
    (ProxyReply_Error a <> [] -> v' = v).
Proof.
  intros Hm Hc T R. apply round_clean in R. pose proof good_Message as (Rm & _). rewrite (Rm lim _ _ Hm) in R. cbn [Message_Tag] in R.
  destruct (N.ltb_spec tag 32); [|lia]. destruct R as [S B]. unfold switch in S. cbn [Message_Command Message_Tag] in S.
  change (eqb (bs "proxy") cmd_ping) with false in S. change (eqb (bs "proxy") cmd_rendezvous) with false in S.
  change (eqb (bs "proxy") cmd_pull) with false in S. change (eqb (bs "proxy") cmd_cache) with false in S.
  change (eqb (bs "proxy") cmd_ack) with false in S. change (eqb (bs "proxy") cmd_find) with false in S.
  change (eqb (bs "proxy") cmd_proxy) with true in S. cbv iota in S.
  pose proof good_Proxy as (Rc & _). rewrite (Rc lim _ _ Hc) in S. unfold handle_proxy in S. cbn [Proxy_To Proxy_Payload] in S.
  assert (Hd : size_ok 32 to) by apply Hc.
  assert (Len : length (hex_encode to) = 64%nat).
  { unfold size_ok in Hd. rewrite hex_encode_length. lia. }
  assert (Rd : forall a, ProxyReply_ok 0 a -> dec Message_codec 0 (wire cmd_proxy_reply tag ProxyReply_codec a) = Some (mkMessage (bs "proxyreply") 0 false tag, enc ProxyReply_codec a) /\
    dec ProxyReply_codec 0 (enc ProxyReply_codec a) = Some (a, [])).
  { intros a Ha. split; [apply read_wire; [small_str|lia]|]. rewrite <- (app_nil_r (enc _ a)). now apply good_ProxyReply. }
  destruct (deliver_takes (v_store v) to me p true (e_name e) (e_now e)) as [(Tk & s' & De & Ad)|(Tk & De)]; rewrite De in S; destruct S as [-> ->].
  - destruct (Rd (mkProxyReply to [])) as [D1 D2]; [split; [exact Hd|small_str]|].
    do 3 eexists. split; [reflexivity|]. split; [eapply B; reflexivity|]. split; [reflexivity|]. split; [exact D1|]. split; [exact D2|].
    cbn [ProxyReply_Error ProxyReply_To v_store]. split; [reflexivity|]. split; [tauto|]. split; [auto|congruence].
  - destruct (Rd (mkProxyReply to (bs "proxy delivery failed to: " ++ hex_encode to))) as [D1 D2].
    { split; [exact Hd|]. split; [|now left]. cbn [ProxyReply_Error]. rewrite app_length, Len. vm_compute. congruence. }
    do 3 eexists. split; [reflexivity|]. split; [eapply B; reflexivity|]. split; [reflexivity|]. split; [exact D1|]. split; [exact D2|].
    cbn [ProxyReply_Error ProxyReply_To]. split; [reflexivity|]. split; [split; [discriminate|tauto]|]. split; [discriminate|]. intros _. now destruct v.
Qed.
Print Assumptions C24_proxy.

(** An acknowledgement gets no answer; the message it names by its tag is gone. *)
Theorem C24_ack lim me held e v ts cl tag junk o v' bm' :
  Message_ok lim (mkMessage (bs "ack") ts cl tag) -> tag < 32 ->
  round lim me held e v (repeat false 32) (enc Message_codec (mkMessage (bs "ack") ts cl tag) ++ junk) o v' bm' ->
  o = Answers [] /\ bm' = repeat false 32 /\ v_rz v' = v_rz v /\
  match held tag with
  | Some name => forall d n, mailfile (v_store v') d n = if eqb d (hex_encode me) && eqb n name then None else mailfile (v_store v) d n
  | None => v' = v
  end.
Proof.
  intros Hm T R. apply round_clean in R. pose proof good_Message as (Rm & _). rewrite (Rm lim _ _ Hm) in R. cbn [Message_Tag] in R.
  destruct (N.ltb_spec tag 32); [|lia]. destruct R as [S B]. unfold switch in S. cbn [Message_Command Message_Tag] in S.
  change (eqb (bs "ack") cmd_ping) with false in S. change (eqb (bs "ack") cmd_rendezvous) with false in S.
  change (eqb (bs "ack") cmd_pull) with false in S. change (eqb (bs "ack") cmd_cache) with false in S.
  change (eqb (bs "ack") cmd_ack) with true in S. cbv iota in S. destruct (held tag) as [k|]; destruct S as [-> ->].
  2:{ split; [reflexivity|]. split; [eapply B; reflexivity|]. auto. }
  split; [reflexivity|]. split; [eapply B; reflexivity|]. split; [reflexivity|]. intros d n. cbn [v_store].
  unfold delete, account_dir. destruct (mget (v_store v) (hex_encode me)) as [a|] eqn:A.
  2:{ unfold mailfile. cbn [fst]. destruct (eqb_spec d (hex_encode me)) as [->|]; auto. rewrite A. cbn. now destruct (eqb n k). }
  destruct (a_cache a) as [c|] eqn:Ca.
  2:{ unfold mailfile. cbn [fst]. destruct (eqb_spec d (hex_encode me)) as [->|]; auto. rewrite A, Ca. cbn. now destruct (eqb n k). }
  unfold mhas. destruct (mget c k) eqn:G; cbn [fst]; unfold mailfile.
  - rewrite mget_mset. destruct (eqb_spec d (hex_encode me)) as [->|]; auto. cbn [a_cache andb]. rewrite A, Ca. apply mget_mdel.
  - destruct (eqb_spec d (hex_encode me)) as [->|]; auto. rewrite A, Ca. cbn [andb]. destruct (eqb_spec n k) as [->|]; auto.
Qed.
Print Assumptions C24_ack.

(** A ping is answered with a pong. *)
Theorem C24_ping lim me held e v ts cl tag junk o v' bm' :
  Message_ok lim (mkMessage (bs "ping") ts cl tag) -> tag < 32 ->
  round lim me held e v (repeat false 32) (enc Message_codec (mkMessage (bs "ping") ts cl tag) ++ junk) o v' bm' ->
  v' = v /\ bm' = repeat false 32 /\ o = Answers [enc Message_codec (mkMessage (bs "pong") 0 false tag)].
Proof.
  intros Hm T R. apply round_clean in R. pose proof good_Message as (Rm & _). rewrite (Rm lim _ _ Hm) in R. cbn [Message_Tag] in R.
  destruct (N.ltb_spec tag 32); [|lia]. destruct R as [S B]. unfold switch in S. cbn [Message_Command Message_Tag] in S.
  change (eqb (bs "ping") cmd_ping) with true in S. cbv iota in S. cbn [dec Ping_codec xunit] in S. destruct S as [-> ->].
  split; auto. split; [eapply B; reflexivity|]. unfold wire. now rewrite app_nil_r.
Qed.
Print Assumptions C24_ping.

(** A search is answered with the nick asked for and the listed account that has it,
    or an error if there is none. *)
Theorem C24_find lim me held e v os ts cl tag nick junk o v' bm' :
  acct_run [] os (v_store v) -> Forall op_wire os ->
  Message_ok lim (mkMessage (bs "identityfind") ts cl tag) -> IdentityFind_ok lim (mkIdentityFind nick) -> N.of_nat (length nick) < 1000000 -> tag < 32 ->
  round lim me held e v (repeat false 32)
    (enc Message_codec (mkMessage (bs "identityfind") ts cl tag) ++ enc IdentityFind_codec (mkIdentityFind nick) ++ junk) o v' bm' ->
  v' = v /\ bm' = repeat false 32 /\
  exists b a rest, o = Answers [b] /\
    dec Message_codec 0 b = Some (mkMessage (bs "identityfindreply") 0 false tag, rest) /\ dec IdentityFindReply_codec 0 rest = Some (a, []) /\
    IdentityFindReply_Nick a = nick /\
    ((IdentityFindReply_Error a = [] /\ exists n, lists (v_store v) n nick (IdentityFindReply_Identity a)) \/
     (IdentityFindReply_Error a <> [] /\ forall n p, ~ lists (v_store v) n nick p)).
Proof.
  intros Ru W Hm Hc Ln T R. apply round_clean in R. pose proof good_Message as (Rm & _). rewrite (Rm lim _ _ Hm) in R. cbn [Message_Tag] in R.
  destruct (N.ltb_spec tag 32); [|lia]. destruct R as [S B]. unfold switch in S. cbn [Message_Command Message_Tag] in S.
  change (eqb (bs "identityfind") cmd_ping) with false in S. change (eqb (bs "identityfind") cmd_rendezvous) with false in S.
  change (eqb (bs "identityfind") cmd_pull) with false in S. change (eqb (bs "identityfind") cmd_cache) with false in S.
  change (eqb (bs "identityfind") cmd_ack) with false in S. change (eqb (bs "identityfind") cmd_find) with true in S. cbv iota in S.
  pose proof good_IdentityFind as (Rc & _). rewrite (Rc lim _ _ Hc) in S. unfold handle_find in S. cbn [IdentityFind_Nick] in S.
  destruct S as [-> ->]. split; auto. split; [eapply B; reflexivity|].
  assert (Sn : str_ok 0 nick).
  { split; [|now left]. unfold pad_len, max_int32. revert Ln. generalize (N.of_nat (length nick)). intros z Hz.
    assert ((4 - z mod 4) mod 4 < 4) by (apply N.mod_lt; lia). lia. }
  assert (Rd : forall a, IdentityFindReply_ok 0 a -> dec Message_codec 0 (wire cmd_find_reply tag IdentityFindReply_codec a) = Some (mkMessage (bs "identityfindreply") 0 false tag, enc IdentityFindReply_codec a) /\
    dec IdentityFindReply_codec 0 (enc IdentityFindReply_codec a) = Some (a, [])).
  { intros a Ha. split; [apply read_wire; [small_str|lia]|]. rewrite <- (app_nil_r (enc _ a)). now apply good_IdentityFindReply. }
  pose proof (C30_find _ _ nick Ru W) as F. destruct (find (v_store v) nick) as [p|].
  - destruct F as (n & L & _). destruct (Rd (mkIdentityFindReply nick [] p)) as [D1 D2].
    { split; [exact Sn|]. split; [small_str|]. destruct L as (a & G & _ & I & _). pose proof (run_ok _ _ _ empty_ok W Ru) as [_ OK].
      destruct (OK _ _ G) as (p' & l & Rk & _). destruct (rec_ok_get _ _ _ Rk) as (I' & _). rewrite I in I'. injection I' as ->. destruct Rk as (? & ? & _ & _ & (Okp & _) & _). exact Okp. }
    do 3 eexists. split; [reflexivity|]. split; [exact D1|]. split; [exact D2|]. split; [reflexivity|]. left. split; [reflexivity|]. now exists n.
  - destruct (Rd (mkIdentityFindReply nick (bs "nick not found: " ++ nick) no_identity)) as [D1 D2].
    { split; [exact Sn|]. split; [|split; [small_str|]; split; [small_str|]; repeat split].
      split; [|now left]. cbn [IdentityFindReply_Error]. rewrite app_length. unfold pad_len, max_int32.
      change (length (bs "nick not found: ")) with 16%nat. assert (N.of_nat (16 + length nick) < 1000016) by lia. revert H0. generalize (N.of_nat (16 + length nick)). intros z Hz.
      assert ((4 - z mod 4) mod 4 < 4) by (apply N.mod_lt; lia). lia. }
    do 3 eexists. split; [reflexivity|]. split; [exact D1|]. split; [exact D2|]. split; [reflexivity|]. right. split; [discriminate|exact F].
Qed.
Print Assumptions C24_find.

(** * C53: making accounts *)

Lemma create_new s pid made s' : create s pid false made s' ->
  (made = false -> s' = s) /\
  (made = true -> mget s (account_dir (PublicIdentity_Identity pid)) = None /\
     exists a, s' = mset s (account_dir (PublicIdentity_Identity pid)) a /\ a_cache a = Some []).
Proof.
  unfold create, mhas. destruct (find s _); [intros [-> ->]; split; auto; discriminate|].
  destruct (mget s _) eqn:G; cbn [andb negb]; [intros [-> ->]; split; auto; discriminate|].
  cbn [a_user a_cache db_open]. destruct (ini_set ini_fresh _ _ _) as [d' [x|]] eqn:S; [discriminate S|].
  intros (-> & f' & _ & ->). split; [discriminate|]. eauto.
Qed.

(** One attempt: the office afterwards. *)
Lemma account_create_store t now clock v ca reply goes made v' : account_create t now clock v ca reply goes made v' ->
  (made = false -> o_store v' = o_store v) /\
  (made = true -> mget (o_store v) (account_dir (PublicIdentity_Identity (CreateAccount_PublicIdentity ca))) = None /\
     exists a, o_store v' = mset (o_store v) (account_dir (PublicIdentity_Identity (CreateAccount_PublicIdentity ca))) a /\ a_cache a = Some []).
Proof.
  unfold account_create. destruct (eqb _ _).
  { intros (s' & C & -> & _). cbn [o_store]. now apply create_new in C. }
  destruct (eqb _ _); [|intros (_ & _ & -> & ->); split; auto; discriminate].
  intros ([] & f' & _ & X).
  - destruct X as (s' & C & -> & _). cbn [o_store]. now apply create_new in C.
  - destruct X as (_ & _ & -> & ->). split; auto; discriminate.
Qed.

(** A new account directory belongs to an attempt that was answered with success;
    nothing else changes. *)
Theorem C53_made lim t v log v' : history lim t v log v' ->
  forall d, mget (o_store v') d = mget (o_store v) d \/
    (mget (o_store v) d = None /\ exists a c, In (Tried a) log /\ at_made a = true /\
       d = hex_encode (PublicIdentity_Identity (CreateAccount_PublicIdentity (at_req a))) /\
       mget (o_store v') d = Some c /\ a_cache c = Some []).
Proof.
  assert (P : forall v b out e l v1, pre lim t v b out e l v1 -> forall d, mget (o_store v1) d = mget (o_store v) d \/
    (mget (o_store v) d = None /\ exists a c, In a l /\ at_made a = true /\
       d = hex_encode (PublicIdentity_Identity (CreateAccount_PublicIdentity (at_req a))) /\
       mget (o_store v1) d = Some c /\ a_cache c = Some [])).
  { clear. induction 1 as [| | | |v b r ca r' now clock reply made v1 out e l v' Dm Dc A P IH|v b r ca r' now clock reply made v1 Dm Dc A| | ]; intros d; auto.
    - apply account_create_store in A as [A0 A1]. destruct (IH d) as [E|(N & a & c & I & M & E & G & K)].
      + rewrite E. destruct made; [|rewrite A0 by auto; auto]. destruct (A1 eq_refl) as (G & a & -> & Ca).
        rewrite mget_mset. destruct (eqb_spec d (account_dir (PublicIdentity_Identity (CreateAccount_PublicIdentity ca)))) as [->|]; auto. right. split; auto. exists (mkAttempt ca now true), a.
        split; [now left|]. auto.
      + right. split.
        * destruct made; [|now rewrite A0 in N]. destruct (A1 eq_refl) as (G1 & a1 & Es & Ca). rewrite Es in N. rewrite mget_mset in N.
          destruct (eqb _ _); [discriminate N|auto].
        * exists a, c. split; [now right|auto].
    - apply account_create_store in A as [A0 A1]. destruct made; [|rewrite A0 by auto; auto]. destruct (A1 eq_refl) as (G & a & -> & Ca).
      rewrite mget_mset. destruct (eqb_spec d (account_dir (PublicIdentity_Identity (CreateAccount_PublicIdentity ca)))) as [->|]; auto. right. split; auto.
      exists (mkAttempt ca now true), a. split; [now left|]. auto. }
  induction 1 as [v|v b out e l v1 log v2 Pr H IH|v draws now hours r f' log v2 S H IH]; intros d; auto.
  - destruct (IH d) as [E|(N & a & c & I & M & E & G & K)].
    + rewrite E. destruct (P _ _ _ _ _ _ Pr d) as [E1|(N & a & c & I & M & E1 & G & K)]; auto.
      right. split; auto. exists a, c. split; [apply in_app_iff; left; now apply in_map|auto].
    + destruct (P _ _ _ _ _ _ Pr d) as [E1|(N1 & a1 & c1 & I1 & M1 & E1 & G1 & K1)].
      * right. split; [congruence|]. exists a, c. split; [apply in_app_iff; auto|auto].
      * congruence.
  - destruct (IH d) as [E|(N & a & c & I & M & E & G & K)]; auto. right. split; auto. exists a, c. split; [now right|auto].
Qed.
Print Assumptions C53_made.

(** With any policy but "yes" and "token" nobody makes an account. *)
Theorem C53_no lim t v log v' : t_policy t <> bs "yes" -> t_policy t <> bs "token" -> history lim t v log v' ->
  o_store v' = o_store v /\ forall a, In (Tried a) log -> at_made a = false.
Proof.
  intros Ny Nt. assert (A : forall now clock v ca reply goes made v', account_create t now clock v ca reply goes made v' -> made = false /\ v' = v).
  { clear v log v'. intros now clock v ca reply goes made v' A. unfold account_create in A. destruct (eqb_spec (t_policy t) (bs "yes")); [contradiction|].
    destruct (eqb_spec (t_policy t) (bs "token")); [contradiction|]. tauto. }
  assert (P : forall v b out e l v1, pre lim t v b out e l v1 -> v1 = v /\ forall a, In a l -> at_made a = false).
  { clear -A. induction 1 as [| | | |v b r ca r' now clock reply made v1 out e l v' Dm Dc C P IH|v b r ca r' now clock reply made v1 Dm Dc C| | ]; try (split; [auto|intros a []]; fail).
    - auto.
    - apply A in C as [-> ->]. destruct IH as [-> IH]. split; auto. intros a [<-|I]; auto.
    - apply A in C as [-> ->]. split; auto. intros a [<-|[]]; auto. }
  induction 1 as [v|v b out e l v1 log v2 Pr H IH|v draws now hours r f' log v2 S H IH].
  - split; auto. intros a [].
  - apply P in Pr as [-> Pr]. destruct IH as [E IH]. split; auto. intros a I. apply in_app_iff in I as [I|I]; auto.
    apply in_map_iff in I as (x & Ex & I). injection Ex as ->. auto.
  - destruct IH as [E IH]. split; auto. intros a [I|I]; [discriminate I|auto].
Qed.
Print Assumptions C53_no.

(** ** Tokens *)

(** The token requests behind a history. *)
Definition tracks (x : entry) (q : tok_request) (a : tok_answer) : Prop :=
  match x with
  | Tried y => exists clock b, q = Use (CreateAccount_Token (at_req y)) (at_now y) clock /\ a = Valid b /\ (at_made y = true -> b = true)
  | Ran draws now hours r => q = Issue draws now hours /\ a = Tool r
  end.
Inductive all_tracks : list entry -> list tok_request -> list tok_answer -> Prop :=
| AT_nil : all_tracks [] [] []
| AT_cons x q a log qs aas : tracks x q a -> all_tracks log qs aas -> all_tracks (x :: log) (q :: qs) (a :: aas).

Lemma history_tracks lim t v log v' : t_policy t = bs "token" -> history lim t v log v' ->
  exists qs aas, run tok_step (o_tokens v) qs aas (o_tokens v') /\ all_tracks log qs aas.
Proof.
  intros Et. assert (A : forall now clock v ca reply goes made v', account_create t now clock v ca reply goes made v' ->
    exists b, tok_step (o_tokens v) (Use (CreateAccount_Token ca) now clock) (Valid b) (o_tokens v') /\ (made = true -> b = true)).
  { clear v log v'. intros now clock v ca reply goes made v' A. unfold account_create in A. rewrite Et in A.
    change (eqb (bs "token") (bs "yes")) with false in A. change (eqb (bs "token") (bs "token")) with true in A. cbv iota in A.
    destruct A as ([] & f' & S & X).
    - destruct X as (s' & _ & -> & _). exists true. auto.
    - destruct X as (_ & _ & -> & ->). exists false. split; [auto|discriminate]. }
  assert (P : forall v b out e l v1, pre lim t v b out e l v1 ->
    exists qs aas, run tok_step (o_tokens v) qs aas (o_tokens v1) /\ all_tracks (map Tried l) qs aas).
  { clear -A. induction 1 as [| | | |v b r ca r' now clock reply made v1 out e l v' Dm Dc C P IH|v b r ca r' now clock reply made v1 Dm Dc C| | ];
      try (exists [], []; split; constructor; fail).
    - auto.
    - destruct (A _ _ _ _ _ _ _ _ C) as (y & S & M). destruct IH as (qs & aas & R & T). exists (Use (CreateAccount_Token ca) now clock :: qs), (Valid y :: aas).
      split; [econstructor; eauto|]. constructor; auto. exists clock, y. auto.
    - destruct (A _ _ _ _ _ _ _ _ C) as (y & S & M). exists [Use (CreateAccount_Token ca) now clock], [Valid y].
      split; [econstructor; eauto; constructor|]. constructor; [|constructor]. exists clock, y. auto. }
  induction 1 as [v|v b out e l v1 log v2 Pr H IH|v draws now hours r f' log v2 S H IH].
  - exists [], []. split; constructor.
  - destruct (P _ _ _ _ _ _ Pr) as (q1 & a1 & R1 & T1). destruct IH as (q2 & a2 & R2 & T2).
    exists (q1 ++ q2), (a1 ++ a2). split.
    + clear -R1 R2. induction R1; auto. cbn [app]. econstructor; eauto.
    + clear -T1 T2. induction T1; auto. cbn [app]. constructor; auto.
  - destruct IH as (qs & aas & R & T). cbn [o_tokens] in R. exists (Issue draws now hours :: qs), (Tool r :: aas).
    split; [econstructor; eauto|]. constructor; auto. split; auto.
Qed.

Lemma all_tracks_app l1 : forall l2 qs aas, all_tracks (l1 ++ l2) qs aas ->
  exists q1 q2 a1 a2, qs = q1 ++ q2 /\ aas = a1 ++ a2 /\ all_tracks l1 q1 a1 /\ all_tracks l2 q2 a2.
Proof.
  induction l1 as [|x l1 IH]; intros l2 qs aas T.
  - exists [], qs, [], aas. repeat split; auto. constructor.
  - inversion T; subst. destruct (IH _ _ _ H4) as (q1 & q2 & a1 & a2 & -> & -> & T1 & T2).
    exists (q :: q1), q2, (a :: a1), a2. repeat split; auto. constructor; auto.
Qed.
Lemma all_tracks_length l qs aas : all_tracks l qs aas -> length aas = length qs.
Proof. induction 1; cbn; auto. Qed.
Lemma all_tracks_printed l qs aas tok p : all_tracks l qs aas -> In (Tool (Printed tok p)) aas ->
  exists draws now hours, In (Ran draws now hours (Printed tok p)) l.
Proof.
  induction 1 as [|x q a log qs aas T A IH]; [intros []|]. intros [E|I].
  - subst a. destruct x as [y|draws now hours r]; cbn in T.
    + destruct T as (c & b & _ & E & _). discriminate E.
    + destruct T as [_ E]. injection E as <-. exists draws, now, hours. now left.
  - destruct (IH I) as (d & n & h & J). exists d, n, h. now right.
Qed.
Definition entry_wire (x : entry) : Prop :=
  match x with Ran draws now hours _ => tok_wire (Issue draws now hours) | Tried _ => True end.
Lemma all_tracks_wire l qs aas : all_tracks l qs aas -> Forall entry_wire l -> Forall tok_wire qs.
Proof.
  induction 1 as [|x q a log qs aas T A IH]; intros W; constructor; inversion W; subst; auto.
  destruct x as [y|draws now hours r]; cbn in T.
  - now destruct T as (c & b & -> & _).
  - now destruct T as [-> _].
Qed.
Lemma run_prefix {Q A} (step : option bytes -> Q -> A -> option bytes -> Prop) q1 : forall f q2 a1 a2 f',
  length a1 = length q1 -> run step f (q1 ++ q2) (a1 ++ a2) f' -> exists f1, run step f q1 a1 f1.
Proof.
  induction q1 as [|q q1 IH]; intros f q2 [|a a1] a2 f' L R; try discriminate L; [exists f; constructor|].
  cbn [app] in R. inversion R; subst. injection L as L. destruct (IH _ _ _ _ _ L H6) as (g & K). exists g. econstructor; eauto.
Qed.

(** Under the policy "token", from an empty token database: an account is made only
    with a token that the tool printed before. *)
Theorem C53_issued lim t s log v' : t_policy t = bs "token" -> Forall entry_wire log ->
  history lim t (mkOffice s None) log v' ->
  forall l1 a l2, log = l1 ++ Tried a :: l2 -> at_made a = true ->
  exists draws now hours p, In (Ran draws now hours (Printed (CreateAccount_Token (at_req a)) p)) l1.
Proof.
  intros Et W H l1 a l2 -> M. destruct (history_tracks _ _ _ _ _ Et H) as (qs & aas & R & T). pose proof (all_tracks_wire _ _ _ T W) as Wq.
  apply all_tracks_app in T as (q1 & q2 & a1 & a2 & -> & -> & T1 & T2). inversion T2 as [|x q y log qs aas Tx T3]; subst.
  destruct Tx as (clock & b & -> & -> & Mb). rewrite (Mb M) in R. cbn [o_tokens] in R.
  replace (q1 ++ Use _ _ _ :: qs) with ((q1 ++ [Use (CreateAccount_Token (at_req a)) (at_now a) clock]) ++ qs) in R, Wq by now rewrite <- app_assoc.
  replace (a1 ++ Valid true :: aas) with ((a1 ++ [Valid true]) ++ aas) in R by now rewrite <- app_assoc.
  pose proof (all_tracks_length _ _ _ T1) as L1.
  apply run_prefix in R as (f1 & R); [|rewrite !app_length; cbn; lia]. apply Forall_app_l in Wq as [Wq _].
  assert (D : (exists p, In (Tool (Printed (CreateAccount_Token (at_req a)) p)) a1) \/ forall p, ~ In (Tool (Printed (CreateAccount_Token (at_req a)) p)) a1).
  { clear. induction a1 as [|x a1 IH]; [right; intros p []|]. destruct IH as [[p I]|N]; [left; exists p; now right|].
    destruct x as [r| |]; try (right; intros p' [E|I]; [discriminate E|now apply (N p')]).
    destruct r as [| |tok pp]; try (right; intros p' [E|I]; [discriminate E|now apply (N p')]).
    destruct (eqb_spec tok (CreateAccount_Token (at_req a))) as [->|Ne].
    - left. eexists. left. reflexivity.
    - right. intros p' [E|I]; [injection E as E _; contradiction|now apply (N p')]. }
  destruct D as [[p I]|N].
  - destruct (all_tracks_printed _ _ _ _ _ T1 I) as (d & n & h & J). eauto.
  - pose proof (C26_unknown _ _ _ _ _ _ _ Wq L1 N R). discriminate.
Qed.
Print Assumptions C53_issued.

(** A token that was presented, whether an account came of it or not, is not good
    for another account unless the tool prints it again. *)
Theorem C53_once lim t s log v' : t_policy t = bs "token" -> Forall entry_wire log ->
  history lim t (mkOffice s None) log v' ->
  forall l1 a l2 b l3, log = l1 ++ Tried a :: l2 ++ Tried b :: l3 ->
  CreateAccount_Token (at_req b) = CreateAccount_Token (at_req a) ->
  (forall draws now hours p, ~ In (Ran draws now hours (Printed (CreateAccount_Token (at_req a)) p)) l2) ->
  at_made b = false.
Proof.
  intros Et W H l1 a l2 b l3 -> Eb Np. destruct (history_tracks _ _ _ _ _ Et H) as (qs & aas & R & T). pose proof (all_tracks_wire _ _ _ T W) as Wq.
  apply all_tracks_app in T as (q1 & q2 & a1 & a2 & -> & -> & T1 & T2). inversion T2 as [|x q y log qs aas Tx T3]; subst.
  apply all_tracks_app in T3 as (q3 & q4 & a3 & a4 & -> & -> & T3 & T4). inversion T4 as [|x' q' y' log' qs' aas' Tx' T5]; subst.
  destruct Tx as (clock & z & -> & -> & Mz). destruct Tx' as (clock' & z' & -> & -> & Mz'). cbn [o_tokens] in R. rewrite Eb in *.
  set (tok := CreateAccount_Token (at_req a)) in *.
  replace (q1 ++ Use tok (at_now a) clock :: q3 ++ Use tok (at_now b) clock' :: qs') with ((q1 ++ Use tok (at_now a) clock :: q3 ++ [Use tok (at_now b) clock']) ++ qs') in R, Wq
    by (rewrite <- !app_assoc; cbn [app]; now rewrite <- app_assoc).
  replace (a1 ++ Valid z :: a3 ++ Valid z' :: aas') with ((a1 ++ Valid z :: a3 ++ [Valid z']) ++ aas') in R
    by (rewrite <- !app_assoc; cbn [app]; now rewrite <- app_assoc).
  pose proof (all_tracks_length _ _ _ T1) as L1. pose proof (all_tracks_length _ _ _ T3) as L3.
  apply run_prefix in R as (f1 & R); [|rewrite !app_length; cbn; rewrite !app_length; cbn; lia]. apply Forall_app_l in Wq as [Wq _].
  assert (N3 : forall p, ~ In (Tool (Printed tok p)) a3).
  { intros p I. destruct (all_tracks_printed _ _ _ _ _ T3 I) as (d & n & h & J). now apply (Np d n h p). }
  pose proof (C26_once _ _ _ _ _ _ _ _ _ _ _ _ Wq L1 L3 N3 R) as E. injection E as ->.
  destruct (at_made b); auto. now discriminate Mz'.
Qed.
Print Assumptions C53_once.

(** ** Replies *)

(** Every attempt is answered, and the error is empty exactly if the account was
    made; the connection goes on unless the policy or the token forbids it. *)
Theorem C53_reply t now clock v ca reply goes made v' : account_create t now clock v ca reply goes made v' ->
  exists a, dec CreateAccountReply_codec 0 reply = Some (a, []) /\
    (CreateAccountReply_Error a = [] <-> made = true) /\
    (goes = false <-> CreateAccountReply_Error a = bs "not allowed").
Proof.
  assert (D : forall x, str_ok 0 x -> dec CreateAccountReply_codec 0 (enc CreateAccountReply_codec (mkCreateAccountReply x)) = Some (mkCreateAccountReply x, [])).
  { intros x Hx. rewrite <- (app_nil_r (enc _ _)). now apply good_CreateAccountReply. }
  assert (G : forall s', create (o_store v) (CreateAccount_PublicIdentity ca) false made s' ->
    reply = enc CreateAccountReply_codec (mkCreateAccountReply (if made then [] else internal_failure)) -> goes = true ->
    exists a, dec CreateAccountReply_codec 0 reply = Some (a, []) /\ (CreateAccountReply_Error a = [] <-> made = true) /\ (goes = false <-> CreateAccountReply_Error a = bs "not allowed")).
  { intros s' _ -> ->. eexists. split; [apply D; destruct made; small_str|]. cbn [CreateAccountReply_Error].
    destruct made; repeat split; auto; discriminate. }
  assert (F : reply = enc CreateAccountReply_codec (mkCreateAccountReply not_allowed) -> goes = false -> made = false ->
    exists a, dec CreateAccountReply_codec 0 reply = Some (a, []) /\ (CreateAccountReply_Error a = [] <-> made = true) /\ (goes = false <-> CreateAccountReply_Error a = bs "not allowed")).
  { intros -> -> ->. eexists. split; [apply D; small_str|]. cbn [CreateAccountReply_Error]. repeat split; auto; discriminate. }
  unfold account_create. destruct (eqb _ _); [intros (s' & C & _ & R & Go); eauto|]. destruct (eqb _ _).
  - intros ([] & f' & _ & X); [destruct X as (s' & C & _ & R & Go); eauto|]. destruct X as (R & Go & M & _). auto.
  - intros (R & Go & M & _). auto.
Qed.
Print Assumptions C53_reply.

(** Whatever arrives before the session is dealt with: the connection is closed or
    the key exchange starts. *)
Theorem C53_total lim t b : Forall is_byte b -> forall v, exists out e l v', pre lim t v b out e l v'.
Proof.
  assert (Ac : forall now clock v ca, exists reply goes made v', account_create t now clock v ca reply goes made v').
  { intros now clock v ca. unfold account_create.
    assert (Cr : exists made s', create (o_store v) (CreateAccount_PublicIdentity ca) false made s').
    { unfold create. destruct (find _ _); [eauto|]. destruct (_ && _); [eauto|]. destruct (db_open _) as [[f d]|]; [|eauto].
      destruct (ini_set _ _ _ _) as [d' [x|]]; [eauto|]. exists true. unfold saved. destruct (db_dirty d').
      - eexists. split; auto. exists (render (db_tables d')). split; [|reflexivity]. exists (db_tables d'). split; auto. apply iterates_refl.
      - eexists. split; auto. eauto. }
    destruct Cr as (made & s' & Cr). destruct (eqb _ _); [do 4 eexists; eauto|]. destruct (eqb _ _); [|do 4 eexists; eauto].
    assert (Tk : exists x f', tok_step (o_tokens v) (Use (CreateAccount_Token ca) now clock) (Valid x) f').
    { unfold tok_step. destruct (db_open _) as [[f d]|]; [|eauto]. destruct (db_created d); [eauto|].
      destruct (valid_token _ _ _ _) as [d' ok]. unfold saved. destruct (db_dirty d').
      - exists ok. eexists. split; auto. exists (render (db_tables d')). split; [|reflexivity]. exists (db_tables d'). split; auto. apply iterates_refl.
      - exists ok. eexists. split; auto. eauto. }
    destruct Tk as ([] & f' & Tk).
    - do 4 eexists. exists true, f'. split; [exact Tk|]. eauto.
    - do 4 eexists. exists false, f'. split; [exact Tk|]. auto. }
  remember (length b) as k. revert b Heqk. induction k as [k IH] using lt_wf_ind. intros b -> B v.
  destruct (dec xopaque lim b) as [[m r]|] eqn:D; [|do 4 eexists; now apply Pre_short].
  pose proof good_opaque as (_ & So & _). destruct (So _ _ _ _ B D) as (_ & u & -> & Lu). apply Forall_app_l in B as [_ Br].
  assert (Lr : (length r < length (u ++ r))%nat).
  { rewrite app_length, Lu. cbn [enc xopaque]. rewrite app_length, be_length. lia. }
  destruct (eqb_spec m (bs "identify")) as [->|N1].
  { destruct (t_identify t) eqn:Ti.
    - destruct (IH _ Lr r eq_refl Br v) as (out & e & l & v' & P). do 4 eexists. eapply Pre_identify; eauto.
    - do 4 eexists. eapply Pre_identify_no; eauto. }
  destruct (eqb_spec m (bs "createaccount")) as [->|N2].
  { destruct (dec CreateAccount_codec lim r) as [[ca r']|] eqn:Dc; [|do 4 eexists; eapply Pre_create_short; eauto].
    pose proof good_CreateAccount as (_ & Sc & _). destruct (Sc _ _ _ _ Br Dc) as (_ & u' & -> & _). apply Forall_app_l in Br as [_ Br].
    destruct (Ac 0%Z (fun _ => 0%Z) v ca) as (reply & [] & made & v1 & C).
    - assert (Lr' : (length r' < length (u ++ u' ++ r'))%nat) by (rewrite !app_length in *; lia).
      destruct (IH (length r') Lr' r' eq_refl Br v1) as (out & e & l & v' & P).
      do 4 eexists. eapply Pre_create; eauto.
    - do 4 eexists. eapply Pre_create_end; eauto. }
  destruct (eqb_spec m (bs "session")) as [->|N3]; [do 4 eexists; eapply Pre_session; eauto|].
  do 4 eexists. eapply Pre_other; eauto.
Qed.
Print Assumptions C53_total.

(** ** What a user may expect but does not get *)

(** A token is lost when the account cannot be made. *)
Theorem C53_token_lost_refuted t now clock v ca f' : t_policy t = bs "token" ->
  tok_step (o_tokens v) (Use (CreateAccount_Token ca) now clock) (Valid true) f' ->
  mget (o_store v) (hex_encode (PublicIdentity_Identity (CreateAccount_PublicIdentity ca))) <> None ->
  exists reply, account_create t now clock v ca reply true false (mkOffice (o_store v) f').
Proof.
  intros Et S G. eexists. unfold account_create. rewrite Et. change (eqb (bs "token") (bs "yes")) with false.
  change (eqb (bs "token") (bs "token")) with true. cbv iota. exists true, f'. split; auto. exists (o_store v).
  split; [|split; [reflexivity|split; reflexivity]].
  unfold create, mhas, account_dir. destruct (find _ _); auto.
  destruct (mget (o_store v) (hex_encode (PublicIdentity_Identity (CreateAccount_PublicIdentity ca)))); [cbn; auto|contradiction].
Qed.
Print Assumptions C53_token_lost_refuted.

(** The identity in a request is not verified: anybody can take the account of an
    identity that has none yet, and its owner cannot make it any more. *)
Theorem C53_squat_refuted t now clock v os own p : t_policy t = bs "yes" ->
  acct_run [] os (o_store v) -> Forall op_wire os -> pid_wire p -> pid_wire own ->
  PublicIdentity_Identity p = PublicIdentity_Identity own ->
  mget (o_store v) (hex_encode (PublicIdentity_Identity own)) = None ->
  (forall m q, ~ lists (o_store v) m (PublicIdentity_Nick p) q) ->
  exists reply v', account_create t now clock v (mkCreateAccount [] p) reply true true v' /\
  forall now2 clock2 tok reply2 goes2 made2 v2, account_create t now2 clock2 v' (mkCreateAccount tok own) reply2 goes2 made2 v2 ->
    made2 = false.
Proof.
  intros Et R W Wp Wo E G N. destruct (C30_create os (o_store v) p false R W Wp) as [(ok & s' & C) K]. destruct (K ok s' C) as (I & _ & Y).
  rewrite E in I. destruct ok; [|exfalso; assert (false = true) by (apply I; auto); discriminate].
  do 2 eexists. split.
  - unfold account_create. rewrite Et. change (eqb (bs "yes") (bs "yes")) with true. cbv iota. exists s'. split; [exact C|]. auto.
  - intros now2 clock2 tok reply2 goes2 made2 v2 A. destruct made2; auto. exfalso. apply account_create_store in A as [_ A].
    destruct (A eq_refl) as [A1 _]. cbn [o_store CreateAccount_PublicIdentity] in A1. destruct (Y eq_refl) as (_ & a' & Ga & _).
    unfold account_dir in A1. rewrite <- E in A1. congruence.
Qed.
Print Assumptions C53_squat_refuted.

(** * Concrete cases *)

Definition two_users : store :=
  [(hex_encode (repeat 1 32), {| a_user := None; a_cache := Some [] |});
   (hex_encode (repeat 2 32), {| a_user := None; a_cache := Some [([48], [9])] |});
   (46 :: hex_encode (repeat 3 32), {| a_user := None; a_cache := Some [] |})].
Definition no_draws : nat -> option N := fun _ => None.

(** User 1 sends to user 2, then to the disabled user 3; user 2 acknowledges an older
    message; then user 1 crashes the server. *)
Definition some_events : list event :=
  [ Req 0 (fun _ => None) (mkEnv [49] 7%Z no_draws)
      (enc Message_codec (mkMessage (bs "cache") 5 true 4) ++ enc Cache_codec (mkCache (repeat 2 32) [1; 2; 3]));
    Req 0 (fun _ => None) (mkEnv [50] 8%Z no_draws)
      (enc Message_codec (mkMessage (bs "proxy") 5 true 4) ++ enc Proxy_codec (mkProxy (repeat 3 32) [1]));
    Other (OEnable (repeat 3 32));
    Req 1 (fun t => if t =? 9 then Some [48] else None) (mkEnv [] 0%Z no_draws)
      (enc Message_codec (mkMessage (bs "ack") 0 false 9));
    Req 1 (fun _ => None) (mkEnv [] 0%Z no_draws) [1; 2; 3];
    Req 0 (fun _ => None) (mkEnv [] 0%Z no_draws) (enc Message_codec (mkMessage (bs "nonsense") 0 false 32)) ].
Example C24_case : exists a b x v',
  srun 1000 (fun i => repeat (N.of_nat i + 1) 32) start_sessions (mkSrv two_users None) some_events
    [Did (Answers [a]); Did (Answers [b]); Op true; Did (Answers []); Did Ends; Did Crash] x v' /\
  mailfile (v_store v') (hex_encode (repeat 2 32)) [49] = Some (enc DiskMessage_codec (mkDiskMessage (repeat 1 32) 7 [1; 2; 3] false)) /\
  mailfile (v_store v') (hex_encode (repeat 2 32)) [48] = None /\
  mailfile (v_store v') (hex_encode (repeat 3 32)) [50] = None.
Proof.
  eexists _, _, _, _. split.
  - eapply SRun_answers; [reflexivity|vm_compute; repeat split; reflexivity|].
    eapply SRun_answers; [reflexivity|vm_compute; repeat split; reflexivity|].
    eapply SRun_other; [reflexivity|vm_compute; reflexivity|].
    eapply SRun_answers; [reflexivity|vm_compute; repeat split; reflexivity|].
    eapply SRun_ends; [reflexivity|vm_compute; repeat split; reflexivity|].
    eapply SRun_crash; [reflexivity|vm_compute; repeat split; reflexivity].
  - vm_compute. repeat split; reflexivity.
Qed.

(** The hypotheses about requests in the theorems above are met. *)
Example C24_request : Message_ok 1000 (mkMessage (bs "cache") 5 true 4) /\ Cache_ok 1000 (mkCache (repeat 2 32) [1; 2; 3]).
Proof. repeat split; vm_compute; intuition congruence. Qed.

(** With the policy "token": the tool prints a token, one connection makes alice's
    account with it, a second connection is refused. *)
Definition token_policy : settings := mkSettings (bs "token") true (somebody (bs "server") 9).
Definition with_token (p : PublicIdentity) : CreateAccount := mkCreateAccount (bs "1234567890123456") p.
Definition asking (ca : CreateAccount) : bytes := enc xopaque (bs "createaccount") ++ enc CreateAccount_codec ca.
Definition token_draws : list (option N) := [Some (10 ^ 16 + 1234567890123456)].
Example C53_case : exists v',
  history 2000 token_policy (mkOffice [] None)
    [Ran token_draws (hour_ns 100) 24 (Printed (bs "1234567890123456") (bs "1234 5678 9012 3456"));
     Tried (mkAttempt (with_token (somebody (bs "alice") 7)) (hour_ns 101) true);
     Tried (mkAttempt (with_token (somebody (bs "bob") 8)) (hour_ns 102) false)] v' /\
  mget (o_store v') (hex_encode (repeat 7 32)) <> None /\ mget (o_store v') (hex_encode (repeat 8 32)) = None /\
  entry_wire (Ran token_draws (hour_ns 100) 24 (Printed (bs "1234567890123456") (bs "1234 5678 9012 3456"))).
Proof.
  assert (K : exists v', history 2000 token_policy (mkOffice [] None)
    [Ran token_draws (hour_ns 100) 24 (Printed (bs "1234567890123456") (bs "1234 5678 9012 3456"));
     Tried (mkAttempt (with_token (somebody (bs "alice") 7)) (hour_ns 101) true);
     Tried (mkAttempt (with_token (somebody (bs "bob") 8)) (hour_ns 102) false)] v' /\
     mget (o_store v') (hex_encode (repeat 7 32)) <> None /\ mget (o_store v') (hex_encode (repeat 8 32)) = None).
  { eexists. split.
    - eapply Hist_tool.
      { vm_compute. split; [reflexivity|]. eexists. split; [|reflexivity]. eexists. split; [apply iterates_refl|reflexivity]. }
      eapply (Hist_conn _ _ _ (asking (with_token (somebody (bs "alice") 7))) _ _ [mkAttempt (with_token (somebody (bs "alice") 7)) (hour_ns 101) true]).
      { eapply (Pre_create _ _ _ _ _ _ _ (hour_ns 101) (fun _ => hour_ns 101)); [vm_compute; reflexivity|vm_compute; reflexivity| |apply Pre_short; reflexivity].
        vm_compute. exists true. eexists. split; [split; [reflexivity|]|].
        - eexists. split; [|reflexivity]. eexists. split; [apply iterates_refl|reflexivity].
        - eexists. split; [split; [reflexivity|]|repeat split; reflexivity].
          eexists. split; [|reflexivity]. eexists. split; [apply iterates_refl|reflexivity]. }
      eapply (Hist_conn _ _ _ (asking (with_token (somebody (bs "bob") 8))) _ _ [mkAttempt (with_token (somebody (bs "bob") 8)) (hour_ns 102) false]).
      { eapply (Pre_create_end _ _ _ _ _ _ _ (hour_ns 102) (fun _ => hour_ns 102)); [vm_compute; reflexivity|vm_compute; reflexivity|].
        vm_compute. exists false. eexists. split; [split; [reflexivity|]|repeat split; reflexivity].
        eexists. split; reflexivity. }
      apply Hist_nil.
    - vm_compute. split; [discriminate|reflexivity]. }
  destruct K as (v' & H & A & B). exists v'. split; [exact H|]. split; [exact A|]. split; [exact B|].
  split; [vm_compute; split; congruence|]. split; [vm_compute; congruence|]. apply Forall_cons; [vm_compute; reflexivity|apply Forall_nil].
Qed.
