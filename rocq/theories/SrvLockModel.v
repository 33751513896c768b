(** Who waits for whom inside the server: its locks, the channels of its sessions, and
    what each of its goroutines does with them.

    Kept of every function: in which order it locks and unlocks, which channels it uses,
    where it waits for its client; every condition becomes a free choice ([Alt]) and
    every loop over data a loop of any length ([Star]), so that the model does all the
    code can do, and more.  Reading and writing files, maps and time always ends and is
    left out.

    Left out: the mutex of an opened ini database (every user opens its own,
    inidb.go:36), the mutex of tagstack (the server's stacks are blocking and never take
    it, tagstack.go:66-100), panics, the accept loops (a connection may appear at any
    time, [E_client], [E_admin]), and session.D, which does nothing unless a diagnostic
    function was set (kx.go:109-113; the server sets none). *)
From Coq Require Import List Arith Bool.
Import ListNotations.

(** Connections are numbered; those of zkserverctl to the UNIX socket as well. *)
Definition conn := nat.

(** - [Srv]: of ZKS (zkserver.go:83)
    - [Acct]: of Account (account.go:43)
    - [Eph]: ephemeralMutex (kx.go:50)
    - [Log]: of the log file (debug.go:23)
    - [Sess c]: of the session context (zkserver.go:78) *)
Inductive lock := Srv | Acct | Eph | Log | Sess (c : conn).
Definition lock_eqb (a b : lock) : bool :=
  match a, b with
  | Srv, Srv | Acct, Acct | Eph, Eph | Log, Log => true
  | Sess c, Sess d => c =? d
  | _, _ => false
  end.

(** sc.writer, sc.ntfn (zkserver.go:70-71), dn.work (account.go:49) and the free tags
    (tagstack.go:32), each of one connection. *)
Inductive chan := Writer (c : conn) | Ntfn (c : conn) | Work (c : conn) | Tags (c : conn).
Definition chan_eqb (a b : chan) : bool :=
  match a, b with
  | Writer c, Writer d | Ntfn c, Ntfn d | Work c, Work d | Tags c, Tags d => c =? d
  | _, _ => false
  end.
(** Channels that are only closed: sc.quit (zkserver.go:72), dn.quit (account.go:50). *)
Inductive sig := Quit (c : conn) | Gone (c : conn).
Definition sig_eqb (a b : sig) : bool :=
  match a, b with Quit c, Quit d | Gone c, Gone d => c =? d | _, _ => false end.

(** What a goroutine can wait for besides locks and its client. *)
Inductive guard := Recv (ch : chan) | Snd (ch : chan) | On (g : sig).

(** zkserver.go:48 *)
Definition tag_depth : nat := 32.
(** zkserver.go:345-350, account.go:420 *)
Definition cap (ch : chan) : nat := match ch with Work _ => 1 | _ => tag_depth end.
(** tagstack.go:37-48 [NewBlocking]: all tags are free. *)
Definition fresh_len (ch : chan) : nat := match ch with Tags _ => tag_depth | _ => 0 end.

(** preSession with handleSession; sessionWriter; sessionNtfn; the goroutine begun by
    Online; socketHandler; that of session.Init. *)
Inductive role := Handler | WriterR | NtfnR | Feeder | Admin | Ticker.

Inductive prog :=
| Skip | Seq (p q : prog) | Alt (p q : prog)
| Star (p : prog)                     (* any number of times *)
| Loop (p : prog)                     (* for ever, until Return *)
| Return (p : prog)                   (* leave everything; deferred functions *)
| Go (r : role) (p : prog)
| Lk (l : lock) | Ul (l : lock)
| Read (c : conn) | Write (c : conn)
| Close (c : conn)
| CloseAny                            (* close the connection of some session *)
| OfferAny                            (* a select with default on dn.work of some session *)
| Set_ (g : sig)                      (* close(g) *)
| Wait (g : guard)
| Sel (g1 : guard) (p1 : prog) (g2 : guard) (p2 : prog).

Record thread := mkThread { t_conn : conn; t_role : role; t_rest : list prog; t_held : list lock }.
Record state := mkState {
  s_threads : list thread;
  s_len : chan -> nat;
  s_on : sig -> bool;
  s_shut : conn -> bool               (* the connection was closed *)
}.

(** The clients: which of them take what is written to them, and which send something;
    and the TLS library: whether Close of a connection ends although the other side
    takes nothing any more (crypto/tls gives up after 5 seconds since Go 1.16; before,
    it could wait for ever for room for its closing alert). *)
Record world := mkWorld { w_write : conn -> bool; w_read : conn -> bool; w_close : bool }.

Definition free (s : state) (l : lock) : Prop :=
  forall j u, nth_error (s_threads s) j = Some u -> ~ In l (t_held u).

Fixpoint upd {A} (l : list A) (i : nat) (x : A) : list A :=
  match l, i with
  | [], _ => []
  | _ :: r, 0 => x :: r
  | y :: r, S i => y :: upd r i x
  end.
Definition put (s : state) (i : nat) (t : thread) : state :=
  mkState (upd (s_threads s) i t) (s_len s) (s_on s) (s_shut s).
Definition set_len (s : state) (ch : chan) (n : nat) : state :=
  mkState (s_threads s) (fun x => if chan_eqb x ch then n else s_len s x) (s_on s) (s_shut s).
Definition set_on (s : state) (g : sig) : state :=
  mkState (s_threads s) (s_len s) (fun x => if sig_eqb x g then true else s_on s x) (s_shut s).
Definition set_shut (s : state) (c : conn) : state :=
  mkState (s_threads s) (s_len s) (s_on s) (fun x => if x =? c then true else s_shut s x).
Definition add (s : state) (t : thread) : state :=
  mkState (s_threads s ++ [t]) (s_len s) (s_on s) (s_shut s).
Definition rest (t : thread) (k : list prog) : thread := mkThread (t_conn t) (t_role t) k (t_held t).
Definition holding (t : thread) (k : list prog) (h : list lock) : thread := mkThread (t_conn t) (t_role t) k h.

Definition ready (s : state) (g : guard) : Prop :=
  match g with
  | Recv ch => 0 < s_len s ch
  | Snd ch => s_len s ch < cap ch
  | On q => s_on s q = true
  end.
Definition fire (s : state) (g : guard) : state :=
  match g with
  | Recv ch => set_len s ch (s_len s ch - 1)
  | Snd ch => set_len s ch (S (s_len s ch))
  | On _ => s
  end.

(** One step of goroutine [i]. *)
Inductive step (w : world) (s : state) (i : nat) : state -> Prop :=
| S_skip : forall t k, nth_error (s_threads s) i = Some t -> t_rest t = Skip :: k -> step w s i (put s i (rest t k))
| S_seq : forall t p q k, nth_error (s_threads s) i = Some t -> t_rest t = Seq p q :: k ->
    step w s i (put s i (rest t (p :: q :: k)))
| S_left : forall t p q k, nth_error (s_threads s) i = Some t -> t_rest t = Alt p q :: k ->
    step w s i (put s i (rest t (p :: k)))
| S_right : forall t p q k, nth_error (s_threads s) i = Some t -> t_rest t = Alt p q :: k ->
    step w s i (put s i (rest t (q :: k)))
| S_stop : forall t p k, nth_error (s_threads s) i = Some t -> t_rest t = Star p :: k -> step w s i (put s i (rest t k))
| S_more : forall t p k, nth_error (s_threads s) i = Some t -> t_rest t = Star p :: k ->
    step w s i (put s i (rest t (p :: Star p :: k)))
| S_loop : forall t p k, nth_error (s_threads s) i = Some t -> t_rest t = Loop p :: k ->
    step w s i (put s i (rest t (p :: Loop p :: k)))
| S_return : forall t p k, nth_error (s_threads s) i = Some t -> t_rest t = Return p :: k ->
    step w s i (put s i (rest t [p]))
| S_go : forall t r p k, nth_error (s_threads s) i = Some t -> t_rest t = Go r p :: k ->
    step w s i (add (put s i (rest t k)) (mkThread (t_conn t) r [p] []))
| S_lock : forall t l k, nth_error (s_threads s) i = Some t -> t_rest t = Lk l :: k -> free s l ->
    step w s i (put s i (holding t k (l :: t_held t)))
| S_unlock : forall t l k h1 h2, nth_error (s_threads s) i = Some t -> t_rest t = Ul l :: k ->
    t_held t = h1 ++ l :: h2 -> step w s i (put s i (holding t k (h1 ++ h2)))
| S_read : forall t c k, nth_error (s_threads s) i = Some t -> t_rest t = Read c :: k ->
    w_read w c = true \/ s_shut s c = true -> step w s i (put s i (rest t k))
| S_write : forall t c k, nth_error (s_threads s) i = Some t -> t_rest t = Write c :: k ->
    w_write w c = true \/ s_shut s c = true -> step w s i (put s i (rest t k))
| S_close : forall t c k, nth_error (s_threads s) i = Some t -> t_rest t = Close c :: k ->
    w_close w = true \/ w_write w c = true \/ s_shut s c = true ->
    step w s i (put (set_shut s c) i (rest t k))
| S_which : forall t c k, nth_error (s_threads s) i = Some t -> t_rest t = CloseAny :: k ->
    step w s i (put s i (rest t (Close c :: k)))
| S_offer : forall t c k, nth_error (s_threads s) i = Some t -> t_rest t = OfferAny :: k ->
    step w s i (put (if s_len s (Work c) <? cap (Work c) then set_len s (Work c) (S (s_len s (Work c))) else s) i (rest t k))
| S_set : forall t g k, nth_error (s_threads s) i = Some t -> t_rest t = Set_ g :: k ->
    step w s i (put (set_on s g) i (rest t k))
| S_wait : forall t g k, nth_error (s_threads s) i = Some t -> t_rest t = Wait g :: k -> ready s g ->
    step w s i (put (fire s g) i (rest t k))
| S_sel1 : forall t g1 p1 g2 p2 k, nth_error (s_threads s) i = Some t -> t_rest t = Sel g1 p1 g2 p2 :: k -> ready s g1 ->
    step w s i (put (fire s g1) i (rest t (p1 :: k)))
| S_sel2 : forall t g1 p1 g2 p2 k, nth_error (s_threads s) i = Some t -> t_rest t = Sel g1 p1 g2 p2 :: k -> ready s g2 ->
    step w s i (put (fire s g2) i (rest t (p2 :: k))).

(** * What the functions do *)

Declare Scope prog_scope.
Bind Scope prog_scope with prog.
Infix ";;" := Seq (at level 60, right associativity) : prog_scope.
Infix "<+>" := Alt (at level 61, right associativity) : prog_scope.
Local Open Scope prog_scope.
Definition opt (p : prog) : prog := Skip <+> p.
(** A sequence that may be left early. *)
Fixpoint upto (l : list prog) : prog :=
  match l with [] => Skip | p :: r => opt (p ;; upto r) end.

(** debug/debug.go:72-92 [log]. *)
Definition log : prog := Lk Log ;; Ul Log.
(** debug/debug.go:54-70 [Dbg], [T]: only if switched on. *)
Definition dbg : prog := opt log.

(** zkserver/account/account.go:193-234 [Find]. *)
Definition find : prog := Lk Acct ;; Star (Ul Acct ;; Lk Acct) ;; Ul Acct.
(** zkserver/account/account.go:246-286 [Disable], [Enable]. *)
Definition dis_enable : prog := Lk Acct ;; Ul Acct.
(** zkserver/account/account.go:313-362 [Deliver]. *)
Definition deliver : prog := opt (Lk Acct ;; opt OfferAny ;; Ul Acct).
(** zkserver/account/account.go:364-381 [Delete]. *)
Definition delete : prog := Lk Acct ;; Ul Acct.
(** zkserver/account/account.go:385-399 [offline], [Offline]. *)
Definition offline (c : conn) : prog := Lk Acct ;; opt (Set_ (Gone c)) ;; Ul Acct.
(** zkserver/account/account.go:505-511 [send]. *)
Definition dn_send (c : conn) : prog := Sel (On (Gone c)) Skip (Snd (Ntfn c)) Skip.
(** zkserver/account/account.go:427-499 [Online], the goroutine. *)
Definition feeder (c : conn) : prog :=
  Wait (Snd (Work c)) ;;
  Loop (Sel (On (Gone c)) (Return Skip) (Recv (Work c))
    (Lk Acct ;; Ul Acct ;;
     (dn_send c <+> Star (Lk Acct ;; Ul Acct ;; opt (dn_send c))))).
(** zkserver/account/account.go:404-426 [Online]; [twice]: what the caller does if the
    account is online already. *)
Definition online (c : conn) (twice : prog) : prog :=
  Lk Acct ;; ((Ul Acct ;; twice) <+> (Ul Acct ;; Go Feeder (feeder c))).

(** zkserver/zkserver.go:101-128 [writeMessage]. *)
Definition write_message (c : conn) : prog := opt (Write c ;; dbg).
(** zkserver/zkserver.go:218-223 and 260-265, the deferred functions of [sessionWriter]
    and [sessionNtfn]. *)
Definition w_exit (c : conn) : prog := dbg ;; Close c.
(** zkserver/zkserver.go:217-257 [sessionWriter]. *)
Definition session_writer (c : conn) : prog :=
  Loop (Sel (On (Quit c)) (dbg ;; Return (w_exit c))
            (Recv (Writer c)) (dbg ;; write_message c ;; opt (log ;; Return (w_exit c)))).
(** zkserver/zkserver.go:259-332 [sessionNtfn]. *)
Definition session_ntfn (c : conn) : prog :=
  Loop (Sel (On (Quit c)) (dbg ;; Return (w_exit c))
            (Recv (Ntfn c))
            (opt (log ;; Return (w_exit c)) ;;
             Wait (Recv (Tags c)) ;;
             Lk (Sess c) ;;
             ((Ul (Sess c) ;; log ;; Return (w_exit c)) <+> Ul (Sess c)) ;;
             dbg ;;
             Wait (Snd (Writer c)))).

Definition reply (c : conn) : prog := Wait (Snd (Writer c)).
(** zkserver/zkserver.go:595-598, the deferred function of [preSession]. *)
Definition bye (c : conn) : prog := Close c ;; log.
(** zkserver/zkserver.go:407-419, the deferred function of [handleSession], and what
    [preSession] does afterwards (zkserver.go:703-709). *)
Definition cleanup (c : conn) : prog :=
  Set_ (Quit c) ;; offline c ;; Lk Srv ;; Ul Srv ;; dbg ;; opt log ;; bye c.

(** zkserver/rendezvous.go:122-222 [handleRendezvous]. *)
Definition rendezvous (c : conn) : prog := dbg ;; opt (Return (cleanup c)) ;; Star log ;; reply c ;; opt log.
(** zkserver/rendezvous.go:55-117 [handleRendezvousPull]. *)
Definition rendezvous_pull (c : conn) : prog := dbg ;; opt (Return (cleanup c)) ;; reply c.
(** zkserver/cache.go:18-75 [handleCache]. *)
Definition cache (c : conn) : prog := deliver ;; reply c ;; dbg.
(** zkserver/cache.go:77-117 [handleProxy]. *)
Definition proxy (c : conn) : prog := deliver ;; dbg ;; dbg ;; reply c.
(** zkserver/account.go:82-101 [handleIdentityFind]. *)
Definition identity_find (c : conn) : prog := find ;; reply c.
(** zkserver/zkserver.go:515-560, an acknowledgement. *)
Definition acknowledge (c : conn) : prog :=
  Lk (Sess c) ;; Ul (Sess c) ;; dbg ;; opt (Return (cleanup c)) ;;
  opt (delete ;; opt log) ;;
  Lk (Sess c) ;; Ul (Sess c) ;;
  Wait (Snd (Tags c)) ;; dbg.
(** zkserver/zkserver.go:421-589, the loop of [handleSession]. *)
Definition session_loop (c : conn) : prog :=
  Loop (Read c ;; opt (Return (cleanup c)) ;; dbg ;; opt (Return (cleanup c)) ;;
        (reply c <+> rendezvous c <+> rendezvous_pull c <+> cache c <+> acknowledge c
         <+> identity_find c <+> proxy c <+> Return (cleanup c))).
(** zkserver/zkserver.go:356-384: the account is online already.  The login fails; the
    registered session is closed. *)
Definition twice (c : conn) : prog :=
  dbg ;; Lk Srv ;; ((CloseAny ;; Ul Srv) <+> Ul Srv) ;; Return (log ;; bye c).
(** zkserver/zkserver.go:336-404 [handleSession]. *)
Definition handle_session (c : conn) : prog :=
  online c (twice c) ;;
  Lk Srv ;; Ul Srv ;; dbg ;;
  opt (Return (log ;; bye c)) ;;
  Go WriterR (session_writer c) ;;
  Go NtfnR (session_ntfn c) ;;
  session_loop c.

(** session/kx.go:323-397 [Respond]. *)
Definition respond (c : conn) : prog :=
  Lk Eph ;; Ul Eph ;;
  upto [Read c; Read c; Write c; Write c; Write c; Read c; Read c; Read c; Write c; Write c].
(** zkserver/pending.go:41-81 [validToken], zkserver/account.go:20-34
    [accountReplyFailure], account/account.go:123-168 [Create]. *)
Definition valid_token : prog := opt log.
Definition reply_failure (c : conn) : prog := dbg ;; Write c ;; opt log.
Definition create : prog := find.
(** zkserver/account.go:36-80 [handleAccountCreate]; errors are logged by preSession. *)
Definition account_create (c : conn) : prog :=
  dbg ;; (reply_failure c ;; log ;; Return (bye c) <+> Skip) ;;
  opt valid_token ;; (reply_failure c ;; log ;; Return (bye c) <+> Skip) ;;
  create ;; log ;; Write c ;; opt (log ;; Return (bye c)).
(** zkserver/zkserver.go:592-719 [preSession]. *)
Definition pre_session (c : conn) : prog :=
  dbg ;;
  Loop (Read c ;; opt (dbg ;; Return (bye c)) ;;
    ((dbg ;; opt (log ;; Return (bye c)) ;; Write c ;; opt (log ;; Return (bye c)) ;; dbg)
     <+> (dbg ;; Read c ;; opt (log ;; Return (bye c)) ;; account_create c)
     <+> (dbg ;; respond c ;; opt (Close c ;; log ;; Return (bye c)) ;;
          opt (log ;; Return (bye c)) ;;
          opt (log ;; opt (Write c) ;; opt log ;; Return (bye c)) ;;
          opt (log ;; Return (bye c)) ;;
          log ;; opt (Write c) ;; opt log ;;
          handle_session c)
     <+> (log ;; Return (bye c)))).

(** zkserver/zkserver.go:721-798 [socketHandler], with account.go:104-148
    [handleIdentityDisable], [handleIdentityEnable]. *)
Definition socket_handler (c : conn) : prog :=
  Loop (Read c ;; opt (dbg ;; Return (Close c)) ;; opt (log ;; Return (Close c)) ;; dbg ;;
    ((Read c ;; opt (dbg ;; Return (Close c)) ;; dbg ;; opt dis_enable ;;
      Lk Srv ;; opt (dbg ;; CloseAny) ;; Ul Srv)
     <+> (Read c ;; opt (dbg ;; Return (Close c)) ;; dbg ;; opt dis_enable)
     <+> (log ;; Return (Close c))) ;;
    dbg ;; Write c ;; opt (log ;; Return (Close c))).

(** session/kx.go:56-66 [regenerateEphemeral], 81-99 [Init]: every minute. *)
Definition ticker : prog := Loop (Lk Eph ;; Ul Eph).

Definition init : state :=
  mkState [mkThread 0 Ticker [ticker] []] fresh_len (fun _ => false) (fun _ => false).
Definition unused (s : state) (c : conn) : Prop := forall t, In t (s_threads s) -> t_conn t <> c.

(** A goroutine steps, or a connection comes in (zkserver.go:818, 855). *)
Inductive ev (w : world) (s : state) : state -> Prop :=
| E_step : forall i s', step w s i s' -> ev w s s'
| E_client : forall c, unused s c -> ev w s (add s (mkThread c Handler [pre_session c] []))
| E_admin : forall c, unused s c -> ev w s (add s (mkThread c Admin [socket_handler c] [])).

(** Every client may change at any time from taking part to doing nothing and back. *)
Inductive reach (b : bool) : state -> Prop :=
| R_init : reach b init
| R_ev : forall w s s', reach b s -> w_close w = b -> ev w s s' -> reach b s'.
