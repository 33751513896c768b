(** Model of the server's handling of requests: zkserver/zkserver.go [preSession]
    and [handleSession], zkserver/cache.go and zkserver/account.go. *)
From Verif Require Import Base HexModel IniModel IniFileProofs XdrModel RpcModel ServerDbModel AcctModel.
Local Open Scope N_scope.

(** * Requests of a session *)

(** What the handlers share: the accounts and the rendezvous file. *)
Record srv := mkSrv { v_store : store; v_rz : option bytes }.

(** zkserver.go:48 *)
Definition tag_depth : N := 32.

(** rpc/rpc.go:54-66 *)
Definition cmd_rendezvous := bs "rendezvous".
Definition cmd_rendezvous_reply := bs "rendezvousreply".
Definition cmd_pull := bs "rendezvouspull".
Definition cmd_pull_reply := bs "rendezvouspullreply".
Definition cmd_cache := bs "cache".
Definition cmd_ack := bs "ack".
Definition cmd_proxy := bs "proxy".
Definition cmd_proxy_reply := bs "proxyreply".
Definition cmd_ping := bs "ping".
Definition cmd_pong := bs "pong".
Definition cmd_find := bs "identityfind".
Definition cmd_find_reply := bs "identityfindreply".

(** zkserver.go:101-112 [writeMessage]: the plaintext of an answer.  The time
    stamp and the cleartext mark are left zero by all handlers. *)
Definition wire {A} (cmd : bytes) (tag : N) (c : codec A) (x : A) : bytes :=
  enc Message_codec (mkMessage cmd 0 false tag) ++ enc c x.

(** The end of one round of the loop: the session ends, the server crashes, or the
    answers are queued for the writer. *)
Inductive outcome := Ends | Crash | Answers (l : list bytes).

(** Circumstances of one round: file name and time for a delivery (from the
    clock), and random numbers for a rendezvous. *)
Record env := mkEnv { e_name : bytes; e_now : Z; e_draws : nat -> option N }.

(** zkidentity.PublicIdentity with all fields zero. *)
Definition no_identity : PublicIdentity :=
  mkPublicIdentity [] [] (repeat 0 32) (repeat 0 1218) (repeat 0 32) (repeat 0 32) (repeat 0 64).

(** cache.go:18-77 [handleCache]; account.Disabled is called right after the failed
    delivery. *)
Definition handle_cache (me : bytes) (e : env) (s : store) (tag : N) (q : Cache) : store * bytes :=
  let (s', ok) := deliver s (Cache_To q) me (Cache_Payload q) false (e_name e) (e_now e) in
  (s', wire cmd_ack tag Acknowledge_codec
    (if ok then mkAcknowledge [] 0
     else if disabled s (Cache_To q) then mkAcknowledge (bs "identity disabled " ++ hex_encode (Cache_To q)) 1
     else mkAcknowledge (bs "internal error") 0)).

(** cache.go:79-124 [handleProxy] *)
Definition handle_proxy (me : bytes) (e : env) (s : store) (tag : N) (q : Proxy) : store * bytes :=
  let (s', ok) := deliver s (Proxy_To q) me (Proxy_Payload q) true (e_name e) (e_now e) in
  (s', wire cmd_proxy_reply tag ProxyReply_codec
    (mkProxyReply (Proxy_To q) (if ok then [] else bs "proxy delivery failed to: " ++ hex_encode (Proxy_To q)))).

(** zkserver/account.go:82-101 [handleIdentityFind] *)
Definition handle_find (s : store) (tag : N) (q : IdentityFind) : bytes :=
  wire cmd_find_reply tag IdentityFindReply_codec
    match find s (IdentityFind_Nick q) with
    | Some p => mkIdentityFindReply (IdentityFind_Nick q) [] p
    | None => mkIdentityFindReply (IdentityFind_Nick q) (bs "nick not found: " ++ IdentityFind_Nick q) no_identity
    end.

(** zkserver.go:464-586, the switch, on the rest [r] of the message.  [held] is the
    table of pushed messages that wait for an acknowledgement, by tag: the name of
    the file.  Freeing the tag, which can wait for ever, is in MailModel. *)
Definition switch (lim : N) (me : bytes) (held : N -> option bytes) (e : env) (v : srv) (m : Message) (r : bytes)
    (o : outcome) (v' : srv) : Prop :=
  let t := Message_Tag m in
  let c := Message_Command m in
  if eqb c cmd_ping then
    match dec Ping_codec lim r with
    | None => o = Ends /\ v' = v
    | Some _ => o = Answers [wire cmd_pong t Pong_codec tt] /\ v' = v
    end
  else if eqb c cmd_rendezvous then
    match dec Rendezvous_codec lim r with
    | None => o = Ends /\ v' = v
    | Some (q, _) =>
        exists a f', rz_step lim (v_rz v) (Store q (e_draws e)) a f' /\ v' = mkSrv (v_store v) f' /\
          match a with
          | Stored p => o = Answers [wire cmd_rendezvous_reply t RendezvousReply_codec p]
          | _ => o = Ends
          end
    end
  else if eqb c cmd_pull then
    match dec RendezvousPull_codec lim r with
    | None => o = Ends /\ v' = v
    | Some (q, _) =>
        exists a f', rz_step lim (v_rz v) (Fetch (RendezvousPull_Token q)) a f' /\ v' = mkSrv (v_store v) f' /\
          match a with
          | Fetched p => o = Answers [wire cmd_pull_reply t RendezvousPullReply_codec p]
          | _ => o = Ends
          end
    end
  else if eqb c cmd_cache then
    match dec Cache_codec lim r with
    | None => o = Ends /\ v' = v
    | Some (q, _) => let (s', b) := handle_cache me e (v_store v) t q in
                     o = Answers [b] /\ v' = mkSrv s' (v_rz v)
    end
  else if eqb c cmd_ack then
    match held t with
    | None => o = Answers [] /\ v' = v
    | Some n => o = Answers [] /\ v' = mkSrv (fst (delete (v_store v) me n)) (v_rz v)
    end
  else if eqb c cmd_find then
    match dec IdentityFind_codec lim r with
    | None => o = Ends /\ v' = v
    | Some (q, _) => o = Answers [handle_find (v_store v) t q] /\ v' = v
    end
  else if eqb c cmd_proxy then
    match dec Proxy_codec lim r with
    | None => o = Ends /\ v' = v
    | Some (q, _) => let (s', b) := handle_proxy me e (v_store v) t q in
                     o = Answers [b] /\ v' = mkSrv s' (v_rz v)
    end
  else o = Ends /\ v' = v.

Fixpoint put {A} (i : nat) (x : A) (l : list A) : list A :=
  match l with
  | [] => []
  | y :: l' => match i with O => x :: l' | S i' => y :: put i' x l' end
  end.

(** zkserver.go:421-589, one round of the loop after the message [cmd] has been
    read from the connection.  [bm] is tagBitmap; an index out of range panics. *)
Definition round (lim : N) (me : bytes) (held : N -> option bytes) (e : env) (v : srv) (bm : list bool) (cmd : bytes)
    (o : outcome) (v' : srv) (bm' : list bool) : Prop :=
  match dec Message_codec lim cmd with
  | None => o = Ends /\ v' = v /\ bm' = bm
  | Some (m, r) =>
      if tag_depth <? Message_Tag m then o = Ends /\ v' = v /\ bm' = bm
      else
        let t := N.to_nat (Message_Tag m) in
        match nth_error bm t with
        | None => o = Crash /\ v' = v /\ bm' = bm
        | Some true => o = Ends /\ v' = v /\ bm' = bm
        | Some false =>
            switch lim me held e v m r o v' /\
            bm' = match o with Answers _ => put t false (put t true bm) | _ => put t true bm end
        end
  end.

(** * All sessions together *)

(** Rounds of all sessions, and everything else that happens to the accounts
    except deliveries and deletions, one after the other.  [who i] is the identity
    proven in the key exchange of session [i]. *)
Inductive event :=
| Req (i : nat) (held : N -> option bytes) (e : env) (cmd : bytes)
| Other (op : acct_op).

Definition other (op : acct_op) : bool :=
  match op with ODeliver _ _ _ _ _ _ | ODelete _ _ => false | _ => true end.

(** The bitmap of every session; None when the session has ended. *)
Notation sessions := (nat -> option (list bool)).
Definition start_sessions : sessions := fun _ => Some (repeat false (N.to_nat tag_depth)).
Definition set_session (x : sessions) (i : nat) (b : option (list bool)) : sessions :=
  fun j => if Nat.eqb j i then b else x j.

(** A run up to now, with what happened; nothing follows a crash. *)
Inductive happened := Did (o : outcome) | Op (ok : bool).
Inductive srun (lim : N) (who : nat -> bytes) : sessions -> srv -> list event -> list happened -> sessions -> srv -> Prop :=
| SRun_nil x v : srun lim who x v [] [] x v
| SRun_other x v op ok s1 es hs x2 v2 : other op = true -> acct_step (v_store v) op ok s1 ->
    srun lim who x (mkSrv s1 (v_rz v)) es hs x2 v2 -> srun lim who x v (Other op :: es) (Op ok :: hs) x2 v2
| SRun_answers x v i held e cmd bm l v1 bm1 es hs x2 v2 : x i = Some bm ->
    round lim (who i) held e v bm cmd (Answers l) v1 bm1 ->
    srun lim who (set_session x i (Some bm1)) v1 es hs x2 v2 ->
    srun lim who x v (Req i held e cmd :: es) (Did (Answers l) :: hs) x2 v2
| SRun_ends x v i held e cmd bm v1 bm1 es hs x2 v2 : x i = Some bm ->
    round lim (who i) held e v bm cmd Ends v1 bm1 ->
    srun lim who (set_session x i None) v1 es hs x2 v2 ->
    srun lim who x v (Req i held e cmd :: es) (Did Ends :: hs) x2 v2
| SRun_crash x v i held e cmd bm v1 bm1 : x i = Some bm ->
    round lim (who i) held e v bm cmd Crash v1 bm1 ->
    srun lim who x v [Req i held e cmd] [Did Crash] x v1.

(** * Before the session *)

Record settings := mkSettings { t_policy : bytes; t_identify : bool; t_public : PublicIdentity }.

(** The accounts and the file of account creation tokens. *)
Record office := mkOffice { o_store : store; o_tokens : option bytes }.

(** rpc/rpc.go:85-86 *)
Definition not_allowed : bytes := bs "not allowed".
Definition internal_failure : bytes := bs "internal error, contact administrator".

(** zkserver/account.go:38-80 [handleAccountCreate]: the reply, whether the
    connection goes on, and whether an account was made. *)
Definition account_create (t : settings) (now : Z) (clock : bytes -> Z) (v : office) (ca : CreateAccount)
    (reply : bytes) (goes made : bool) (v' : office) : Prop :=
  let refused := enc CreateAccountReply_codec (mkCreateAccountReply not_allowed) in
  let go f := exists s', create (o_store v) (CreateAccount_PublicIdentity ca) false made s' /\ v' = mkOffice s' f /\
                reply = enc CreateAccountReply_codec (mkCreateAccountReply (if made then [] else internal_failure)) /\ goes = true in
  if eqb (t_policy t) (bs "yes") then go (o_tokens v)
  else if eqb (t_policy t) (bs "token") then
    exists b f', tok_step (o_tokens v) (Use (CreateAccount_Token ca) now clock) (Valid b) f' /\
      (if b then go f' else reply = refused /\ goes = false /\ made = false /\ v' = mkOffice (o_store v) f')
  else reply = refused /\ goes = false /\ made = false /\ v' = v.

(** How preSession ends: the connection is closed, or a key exchange starts with
    the rest of the input. *)
Inductive pre_end := PClosed | PSession (rest : bytes).

(** One attempt to make an account: the request and whether it was made. *)
Record attempt := mkAttempt { at_req : CreateAccount; at_now : Z; at_made : bool }.

(** zkserver.go:592-706 [preSession] on everything the client sends before the key
    exchange, in one go: what is sent back and the attempts made.  Errors of
    writing are left out.  mode is read into the same variable every time. *)
Inductive pre (lim : N) (t : settings) : office -> bytes -> bytes -> pre_end -> list attempt -> office -> Prop :=
| Pre_short v b : dec xopaque lim b = None -> pre lim t v b [] PClosed [] v
| Pre_identify v b r out e l v' : dec xopaque lim b = Some (bs "identify", r) -> t_identify t = true ->
    pre lim t v r out e l v' ->
    pre lim t v b (enc PublicIdentity_codec (t_public t) ++ out) e l v'
| Pre_identify_no v b r : dec xopaque lim b = Some (bs "identify", r) -> t_identify t = false ->
    pre lim t v b [] PClosed [] v
| Pre_create_short v b r : dec xopaque lim b = Some (bs "createaccount", r) -> dec CreateAccount_codec lim r = None ->
    pre lim t v b [] PClosed [] v
| Pre_create v b r ca r' now clock reply made v1 out e l v' : dec xopaque lim b = Some (bs "createaccount", r) ->
    dec CreateAccount_codec lim r = Some (ca, r') ->
    account_create t now clock v ca reply true made v1 ->
    pre lim t v1 r' out e l v' -> pre lim t v b (reply ++ out) e (mkAttempt ca now made :: l) v'
| Pre_create_end v b r ca r' now clock reply made v1 : dec xopaque lim b = Some (bs "createaccount", r) ->
    dec CreateAccount_codec lim r = Some (ca, r') ->
    account_create t now clock v ca reply false made v1 ->
    pre lim t v b reply PClosed [mkAttempt ca now made] v1
| Pre_session v b r : dec xopaque lim b = Some (bs "session", r) -> pre lim t v b [] (PSession r) [] v
| Pre_other v b m r : dec xopaque lim b = Some (m, r) ->
    m <> bs "identify" -> m <> bs "createaccount" -> m <> bs "session" -> pre lim t v b [] PClosed [] v.

(** Connections and runs of the token tool (tools/zkservertoken), one after the
    other, and what happened. *)
Inductive entry := Tried (a : attempt) | Ran (draws : list (option N)) (now : Z) (hours : N) (r : tool_result).
Inductive history (lim : N) (t : settings) : office -> list entry -> office -> Prop :=
| Hist_nil v : history lim t v [] v
| Hist_conn v b out e l v1 log v2 : pre lim t v b out e l v1 -> history lim t v1 log v2 ->
    history lim t v (map Tried l ++ log) v2
| Hist_tool v draws now hours r f' log v2 : tok_step (o_tokens v) (Issue draws now hours) (Tool r) f' ->
    history lim t (mkOffice (o_store v) f') log v2 -> history lim t v (Ran draws now hours r :: log) v2.
