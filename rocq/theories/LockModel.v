(** Who waits for whom inside a running client: its locks, its channels and the queue
    of the terminal library, and what each of its functions does with them.

    Kept of every function: in which order it locks and unlocks, what it hands to other
    goroutines, where it waits for them or for the network; every condition becomes a
    free choice ([Alt]) and every loop a loop of any length ([Star]), so that the model
    does all the code can do, and more.  A [go] statement is left out where it stands:
    any goroutine of the client may begin at any time ([E_new]); only the heartbeat,
    which its creator waits for, is begun where the code begins it.

    Left out: the mutex of an opened ini database (every user opens its own,
    inidb.go:36), the lock of zkclient's session keys (kx.go:50-64, held for an
    assignment), panics, and shutting down. *)
From Coq Require Import List Arith Bool.
Import ListNotations.

(** * Locks, channels, goroutines *)

(** - [Pend]: pendingIdentitiesMutex (zkclient.go:661)
    - [Ratchets]: ratchetMtx (zkclient.go:660)
    - [Z]: the read-write lock of the client itself (zkclient.go:652)
    - [Queues]: mtx of the scheduler (msg.go:55)
    - [Conn]: write, for the heartbeat (zkclient.go:626)
    - [Book]: of the address book (addressbook.go:28)
    - [Tags]: of the tag stack (tagstack.go:26)
    - [Dbg]: of the log file (debug.go:23) *)
Inductive lock := Pend | Ratchets | Z | Queues | Conn | Book | Tags | Dbg.
Scheme Equality for lock.
(** How a lock is held.  A writer that waits for the readers to leave already keeps new
    readers away (sync.RWMutex): [Claimed]. *)
Inductive mode := Reading | Claimed | Writing.

(** Where work for other goroutines waits.
    - [Ui]: ttk.Queue
    - [Hi], [Lo]: z.hi and z.lo (msg.go:49-50)
    - [Work]: the slices hi and lo of the scheduler (msg.go:56-57)
    - [Depth]: z.depth and z.queueW (msg.go:51-52) *)
Inductive box := Ui | Hi | Lo | Work | Depth.
Scheme Equality for box.
(** Goroutines that never end and do what is put in their boxes: that of the terminal
    library, and the two of msg.go:87-192. *)
Definition ui : nat := 0.
Definition drain : nat := 1.
Definition sender : nat := 2.
Definition server (b : box) : nat := match b with Ui => ui | Hi | Lo => drain | Work | Depth => sender end.

(** What a goroutine does next. *)
Inductive act :=
| Lk (l : lock)                       (* Lock *)
| Have (l : lock)                     (* its second half: wait for the readers *)
| Ul (l : lock)                       (* Unlock *)
| RLk (l : lock)                      (* RLock *)
| RUl (l : lock)                      (* RUnlock *)
| Net                                 (* something with the network that has to end *)
| Read                                (* wait for the next message of the server *)
| Put (b : box) (body : list act)     (* hand work to another goroutine *)
| Call (b : box) (body : list act)    (* the same, and wait until it is done *)
| Await (b : box) (n : nat)           (* waiting for it *)
| Spawn (body : list act)             (* go, and remember it *)
| Join.                               (* wait for those remembered *)

Record thread := mkThread {
  t_ops : list act;
  t_held : list (lock * mode);
  t_kids : list nat;
  t_job : option nat                  (* number of the work it does, if somebody waits *)
}.
Record state := mkState {
  s_threads : list thread;
  s_box : box -> list (option nat * list act);
  s_next : nat
}.

(** What the environment is like: how much the queue of the terminal library takes
    before it lets its users wait ([None]: it never does; the library is not part of
    the repository), and whether the server answers while somebody waits for it. *)
Record world := mkWorld { w_ui : option nat; w_net : bool }.

(** msg.go:24-25,49-50; the slices grow (msg.go:63,103). *)
Definition capacity (w : world) (b : box) : option nat :=
  match b with Ui => w_ui w | Hi => Some 16 | Lo => Some 4 | Work | Depth => None end.

Definition idle (s : state) (i : nat) : Prop :=
  exists t, nth_error (s_threads s) i = Some t /\ t_ops t = [].
(** A channel takes one more; one without a buffer does if its reader waits. *)
Definition room (w : world) (s : state) (b : box) : Prop :=
  match capacity w b with
  | None => True
  | Some 0 => s_box s b = [] /\ idle s (server b)
  | Some n => length (s_box s b) < n
  end.

Definition holds (s : state) (l : lock) (m : mode) : Prop :=
  exists i t, nth_error (s_threads s) i = Some t /\ In (l, m) (t_held t).
Definition not_written (s : state) (l : lock) : Prop := ~ holds s l Writing /\ ~ holds s l Claimed.
Definition not_read (s : state) (l : lock) : Prop := ~ holds s l Reading.

Fixpoint upd {A} (l : list A) (i : nat) (x : A) : list A :=
  match l, i with
  | [], _ => []
  | _ :: r, 0 => x :: r
  | y :: r, S i => y :: upd r i x
  end.
Definition set_thread (s : state) (i : nat) (t : thread) : state :=
  mkState (upd (s_threads s) i t) (s_box s) (s_next s).
Definition set_box (s : state) (b : box) (q : list (option nat * list act)) : state :=
  mkState (s_threads s) (fun b' => if box_beq b' b then q else s_box s b') (s_next s).

Definition goes (t : thread) (ops : list act) (h : list (lock * mode)) : thread :=
  mkThread ops h (t_kids t) (t_job t).

(** One step of goroutine [i]; [None]: it takes the next piece of work. *)
Inductive istep (w : world) (s : state) : nat * option act -> state -> Prop :=
| I_lock : forall i t l k, nth_error (s_threads s) i = Some t -> t_ops t = Lk l :: k -> not_written s l ->
    istep w s (i, Some (Lk l)) (set_thread s i (goes t (Have l :: k) ((l, Claimed) :: t_held t)))
| I_have : forall i t l k h1 h2, nth_error (s_threads s) i = Some t -> t_ops t = Have l :: k ->
    t_held t = h1 ++ (l, Claimed) :: h2 -> not_read s l ->
    istep w s (i, Some (Have l)) (set_thread s i (goes t k (h1 ++ (l, Writing) :: h2)))
| I_unlock : forall i t l k h1 h2, nth_error (s_threads s) i = Some t -> t_ops t = Ul l :: k ->
    t_held t = h1 ++ (l, Writing) :: h2 ->
    istep w s (i, Some (Ul l)) (set_thread s i (goes t k (h1 ++ h2)))
| I_rlock : forall i t l k, nth_error (s_threads s) i = Some t -> t_ops t = RLk l :: k -> not_written s l ->
    istep w s (i, Some (RLk l)) (set_thread s i (goes t k ((l, Reading) :: t_held t)))
| I_runlock : forall i t l k h1 h2, nth_error (s_threads s) i = Some t -> t_ops t = RUl l :: k ->
    t_held t = h1 ++ (l, Reading) :: h2 ->
    istep w s (i, Some (RUl l)) (set_thread s i (goes t k (h1 ++ h2)))
| I_net : forall i t k, nth_error (s_threads s) i = Some t -> t_ops t = Net :: k -> w_net w = true ->
    istep w s (i, Some (Net)) (set_thread s i (goes t k (t_held t)))
| I_put : forall i t b body k, nth_error (s_threads s) i = Some t -> t_ops t = Put b body :: k -> room w s b ->
    istep w s (i, Some (Put b body)) (set_thread (set_box s b (s_box s b ++ [(None, body)])) i (goes t k (t_held t)))
| I_call : forall i t b body k, nth_error (s_threads s) i = Some t -> t_ops t = Call b body :: k -> room w s b ->
    istep w s (i, Some (Call b body))
      (let s1 := set_thread (set_box s b (s_box s b ++ [(Some (s_next s), body)])) i (goes t (Await b (s_next s) :: k) (t_held t)) in
       mkState (s_threads s1) (s_box s1) (S (s_next s)))
| I_await : forall i t b n k, nth_error (s_threads s) i = Some t -> t_ops t = Await b n :: k ->
    ~ In (Some n) (map fst (s_box s b)) ->
    (forall u, nth_error (s_threads s) (server b) = Some u -> t_job u = Some n -> t_ops u = []) ->
    istep w s (i, Some (Await b n)) (set_thread s i (goes t k (t_held t)))
| I_spawn : forall i t body k, nth_error (s_threads s) i = Some t -> t_ops t = Spawn body :: k ->
    istep w s (i, Some (Spawn body))
      (mkState (upd (s_threads s) i (mkThread k (t_held t) (length (s_threads s) :: t_kids t) (t_job t)) ++ [mkThread body [] [] None])
         (s_box s) (s_next s))
| I_join : forall i t k, nth_error (s_threads s) i = Some t -> t_ops t = Join :: k ->
    (forall j, In j (t_kids t) -> idle s j) ->
    istep w s (i, Some (Join)) (set_thread s i (goes t k (t_held t)))
(** The next piece of work. *)
| I_take : forall b n body q t, nth_error (s_threads s) (server b) = Some t -> t_ops t = [] -> s_box s b = (n, body) :: q ->
    istep w s (server b, None) (set_thread (set_box s b q) (server b) (mkThread body (t_held t) (t_kids t) n)).

(** * What the functions do *)

Inductive sk :=
| Skip | Op (a : act) | Seq (p q : sk) | Alt (p q : sk) | Star (p : sk)
| SPut (b : box) (p : sk) | SCall (b : box) (p : sk) | SSpawn (p : sk).
Declare Scope sk_scope.
Bind Scope sk_scope with sk.
Infix ";;" := Seq (at level 60, right associativity) : sk_scope.
Infix "<+>" := Alt (at level 61, right associativity) : sk_scope.
Local Open Scope sk_scope.
Definition opt (p : sk) : sk := Skip <+> p.

(** The ways through it. *)
Inductive way : sk -> list act -> Prop :=
| W_skip : way Skip []
| W_op : forall a, way (Op a) [a]
| W_seq : forall p q x y, way p x -> way q y -> way (p ;; q) (x ++ y)
| W_left : forall p q x, way p x -> way (p <+> q) x
| W_right : forall p q x, way q x -> way (p <+> q) x
| W_stop : forall p, way (Star p) []
| W_more : forall p x y, way p x -> way (Star p) y -> way (Star p) (x ++ y)
| W_put : forall b p x, way p x -> way (SPut b p) [Put b x]
| W_call : forall b p x, way p x -> way (SCall b p) [Call b x]
| W_spawn : forall p x, way p x -> way (SSpawn p) [Spawn x].

Definition lk l := Op (Lk l).
Definition ul l := Op (Ul l).
Definition rlk l := Op (RLk l).
Definition rul l := Op (RUl l).
Definition net := Op Net.

(** debug/debug.go:72-92 [log], and Log, Warn, Error (debug.go:33-48) which call it. *)
Definition d_log := lk Dbg ;; ul Dbg.
(** debug/debug.go:54-61 [Dbg]: only if debugging is on. *)
Definition dbg := opt d_log.
(** zkclient/addressbook/addressbook.go:44-87 [Add], [Del]. *)
Definition ab_write := lk Book ;; ul Book.
(** zkclient/addressbook/addressbook.go:89-140 [FindNick], [FindIdentity],
    [FindIdentityS], [All]. *)
Definition ab_read := rlk Book ;; rul Book.
(** tagstack/tagstack.go:66-100 [Push], [Pop]. *)
Definition pop := lk Tags ;; ul Tags.
Definition push := lk Tags ;; ul Tags.

(** zkclient/zkclient.go:200-239 [log]: the console's lines go to the log file. *)
Definition z_log := opt d_log.
(** zkclient/zkclient.go:151-198 [printf], with updateTS (zkclient.go:94-111); PrintfT and
    PrintfTS are the same. *)
Definition printf := SPut Ui (lk Z ;; z_log ;; z_log ;; ul Z).
(** zkclient/zkclient.go:124-149 [FloodfT]. *)
Definition floodf := printf ;; rlk Z ;; rul Z ;; opt printf.
(** zkclient/zkclient.go:241-282 [focus]: prints if there is no such window. *)
Definition focus := SPut Ui (lk Z ;; opt printf ;; ul Z).
(** ttk.Focus, ttk.Queue without our locks: the library's. *)
Definition ttk_queue := SPut Ui Skip.

(** zkclient/zkclient.go:296-312 [nextConversation]. *)
Definition nextConversation := rlk Z ;; opt focus ;; rul Z.
(** zkclient/zkclient.go:314-340 [prevConversation]. *)
Definition prevConversation := rlk Z ;; opt focus ;; rul Z.
(** zkclient/zkclient.go:342-401 [groupConversation]. *)
Definition groupConversation :=
  rlk Z ;; rul Z ;; opt (SCall Ui (lk Z ;; ul Z) ;; lk Z ;; opt (printf ;; printf) ;; ul Z).
(** zkclient/zkclient.go:403-464 [getConversation]. *)
Definition getConversation :=
  opt (SCall Ui (lk Z ;; ul Z) ;; lk Z ;; opt (printf ;; printf) ;; ul Z).
(** zkclient/msg.go:431-435 [isOnline]. *)
Definition isOnline := rlk Z ;; rul Z.
(** zkclient/zkclient.go:1843-1877 [writeMessage]. *)
Definition writeMessage := isOnline ;; opt (opt (net ;; dbg) ;; lk Conn ;; ul Conn).
(** zkclient/identity.go:131-170 [updateRatchet]. *)
Definition updateRatchet := dbg ;; opt dbg ;; dbg.
(** zkclient/msg.go:437-519 [cacheCRPC]. *)
Definition cacheCRPC :=
  isOnline ;;
  opt (lk Ratchets ;;
       ((printf ;; printf)
        <+> opt (pop ;; opt (lk Z ;; ul Z ;; dbg ;; writeMessage ;;
                   (lk Z ;; ul Z ;; push <+> updateRatchet)))) ;;
       ul Ratchets).
(** zkclient/msg.go:130-190 in [scheduler]: a message is looked up, sent, and taken off;
    if it could not be sent it stays and is tried again later. *)
Definition send_work (p : sk) := Star (lk Queues ;; ul Queues ;; p ;; printf) ;; lk Queues ;; ul Queues ;; p ;; lk Queues ;; ul Queues.
(** zkclient/msg.go:60-71,91-109 in [scheduler]: it is moved to the slice. *)
Definition moved (p : sk) := lk Queues ;; SPut Work (send_work p) ;; ul Queues.
(** zkclient/msg.go:207-236 [scheduleCRPCCB], [scheduleCRPC]. *)
Definition scheduleCRPC := SPut Hi (moved cacheCRPC).
Definition scheduleCRPC_lo := SPut Lo (moved cacheCRPC).
(** zkclient/msg.go:238-251 [schedulePRPC]. *)
Definition schedulePRPC := SPut Hi (moved (dbg ;; writeMessage)).
(** zkclient/msg.go:197-205 [queueDepth], msg.go:126-133: the goroutine that sends
    holds mtx until its answer has been taken.  Asked while it is busy the code gives up
    instead of waiting. *)
Definition queueDepth := opt (SCall Depth (lk Queues ;; ul Queues)).

(** zkclient/zkclient.go:1553-1574 [cache], 1576-1597 [rendezvous], 1695-1714 [fetch]. *)
Definition cache := isOnline ;; opt (pop ;; opt schedulePRPC).
Definition rendezvous := isOnline ;; opt (pop ;; opt schedulePRPC).
Definition fetch := isOnline ;; opt (pop ;; opt schedulePRPC).
(** zkclient/zkclient.go:1717-1764 [find]. *)
Definition find := isOnline ;; opt (ab_read ;; opt (lk Pend ;; opt (pop ;; opt schedulePRPC) ;; ul Pend)).
(** zkclient/zkclient.go:1768-1840 [reset]. *)
Definition reset := isOnline ;; opt (ab_read ;; opt (pop ;; (push <+> (floodf ;; opt floodf ;; schedulePRPC)))).
(** zkclient/zkclient.go:1053-1115 [step1IDKX]; zkclient/blobkeys.go:54-83 [saveKey]. *)
Definition saveKey := opt d_log.
Definition step1IDKX := opt (dbg ;; dbg ;; cache ;; opt (saveKey ;; lk Ratchets ;; updateRatchet ;; ul Ratchets)).
(** zkclient/addressbook.go:75-96 [addressBookConversation]. *)
Definition addressBookConversation := opt (ab_read ;; (find <+> getConversation <+> Skip)).
(** zkclient/zkclient.go:466-497 [query]. *)
Definition query :=
  rlk Z ;; (focus ;; rul Z
            <+> rul Z ;; groupConversation ;;
                (focus <+> addressBookConversation ;; (focus <+> printf ;; opt printf))).
(** zkclient/zkclient.go:499-517 [listConversations], 519-524 [listAddressBook], 526-570
    [listGroupchat]; zkclient/groupinvites.go:61-124 [listJoins], [listInvites],
    [listInvitesJoins]. *)
Definition listConversations := rlk Z ;; Star printf ;; rul Z.
Definition listAddressBook := ab_read ;; Star printf.
Definition listGroupchat := rlk Z ;; printf ;; Star (opt ab_read ;; printf) ;; rul Z.
Definition listInvites := printf ;; Star (opt d_log ;; opt ab_read ;; opt d_log ;; opt printf).
(** zkclient/zkclient.go:572-594 [list]. *)
Definition list_ := printf ;; listConversations <+> printf ;; listAddressBook <+> listGroupchat <+> listInvites <+> printf.

(** zkclient/mainwindow.go:770-777 [closeAll], 793-829 [restoreConversations]. *)
Definition closeAll := lk Z ;; focus ;; ul Z.
Definition restoreConversations := opt (closeAll ;; Star query ;; (closeAll <+> focus)).
(** zkclient/zkclient.go:1653-1692 [welcomeUser]. *)
Definition welcomeUser := opt (dbg ;; printf ;; Star printf ;; opt restoreConversations).
(** zkclient/zkclient.go:954-986 [goOnline] with preSessionPhase, sessionPhase and
    welcomePhase (zkclient.go:726-950): the client is locked until the server has
    answered. *)
Definition goOnline :=
  lk Z ;; opt (net ;; dbg ;; opt (net ;; opt (net ;; Star dbg ;; opt (printf ;; opt printf)))) ;; ul Z.
(** zkclient/zkclient.go:989-1006 [goOnlineAndPrint]. *)
Definition goOnlineAndPrint := goOnline ;; (printf ;; printf ;; printf <+> printf <+> welcomeUser).
(** zkclient/zkclient.go:1008-1036 [goOnlineRetry]; its timer runs out by itself. *)
Definition goOnlineRetry :=
  Star (rlk Z ;; rul Z ;; opt (rlk Z ;; rul Z ;; opt (printf ;; goOnlineAndPrint))) ;; opt (rlk Z ;; rul Z).
(** zkclient/zkclient.go:1119-1182 [handleDisabledUser]. *)
Definition handleDisabledUser := opt ab_read ;; (printf <+> lk Z ;; Star printf ;; ul Z).

(** zkclient/push.go:39-52 [printID], [printKX]. *)
Definition printID := printf ;; printf ;; printf ;; printf.
Definition printKX := floodf ;; floodf ;; floodf ;; floodf ;; floodf.
(** zkclient/addressbook.go:60-73 [addressBookAdd]. *)
Definition addressBookAdd := opt ab_write.
(** zkclient/push.go:54-160 [step3IDKX]. *)
Definition step3IDKX :=
  Star d_log ;;
  (opt dbg ;; opt ab_read
   <+> dbg ;; opt (lk Ratchets ;; opt updateRatchet ;; ul Ratchets ;; opt (addressBookAdd ;; opt (printKX ;; dbg)))).
(** zkclient/push.go:162-291 [step2IDKX], 293-397 [step2IDKX2]. *)
Definition step2IDKX :=
  opt d_log ;; Star d_log ;;
  (opt dbg ;; opt ab_read
   <+> lk Ratchets ;; updateRatchet ;; ul Ratchets ;; opt (cache ;; opt (addressBookAdd ;; opt (printKX ;; dbg)))).
(** zkclient/reset.go:16-50 [handleJanitorMessage], 52-71 [handleResetRatchet]. *)
Definition handleJanitorMessage := opt ab_read ;; opt (printf ;; opt printf ;; rlk Z ;; opt (printf ;; opt printf) ;; rul Z).
Definition handleResetRatchet := opt (floodf ;; step1IDKX).
(** zkclient/push.go:696-719 [handlePm]. *)
Definition handlePm := getConversation ;; opt printf.
(** zkclient/push.go:721-762 [handleGroupInvite]. *)
Definition handleGroupInvite :=
  ab_read ;; (printf <+> printf ;; printf ;; Star (ab_read ;; (dbg ;; find ;; dbg <+> printf)) ;; printf).
(** zkclient/push.go:764-834 [handleGroupJoin]. *)
Definition handleGroupJoin := lk Z ;; opt (opt ab_read ;; opt (Star scheduleCRPC ;; printf ;; opt printf)) ;; ul Z.
(** zkclient/push.go:836-916 [handleGroupPart]. *)
Definition handleGroupPart := lk Z ;; opt (Star scheduleCRPC ;; opt (ab_read ;; opt (printf ;; opt printf))) ;; ul Z.
(** zkclient/push.go:918-1013 [handleGroupKick], with _updateGroupList
    (zkclient.go:1891-1916). *)
Definition handleGroupKick :=
  lk Z ;; dbg ;; opt (printf ;; opt printf <+> ab_read ;; printf ;; opt printf ;; opt d_log) ;; ul Z.
(** zkclient/push.go:1015-1047 [handleGroupKill]. *)
Definition handleGroupKill := lk Z ;; opt (printf ;; opt printf) ;; ul Z.
(** zkclient/push.go:1049-1086 [diffGroupList], 1088-1139 [diffGroupListPrint]. *)
Definition diffGroupListPrint := rlk Z ;; rul Z ;; opt (query ;; Star (opt ab_read ;; printf ;; opt printf)).
(** zkclient/push.go:1141-1165 [warnGroupListMissingKeys]. *)
Definition warnGroupListMissingKeys := Star (opt ab_read ;; opt printf ;; opt printf).
(** zkclient/push.go:1167-1191 [handleGroupList], 1193-1217 [handleGroupUpdate], with
    updateGroupList (zkclient.go:1883-1889). *)
Definition handleGroupList :=
  printf ;; diffGroupListPrint ;; warnGroupListMissingKeys ;; opt printf ;; lk Z ;; opt d_log ;; ul Z ;; opt printf.
(** zkclient/push.go:1219-1296 [handleGroupMessage]. *)
Definition handleGroupMessage :=
  lk Z ;; opt dbg ;; ul Z ;; opt dbg ;;
  opt (groupConversation ;; opt (ab_read ;; opt (lk Z ;; ul Z) ;; printf)).
(** zkclient/chunk.go:21-73 [handleChunkNew], 75-192 [handleChunk]. *)
Definition handleChunk := opt (ab_read ;; opt floodf) ;; opt printf.
(** zkclient/push.go:399-694 [handlePush]. *)
Definition handlePush :=
  Skip
  <+> opt ab_read ;; floodf ;; floodf ;; handleResetRatchet
  <+> opt dbg ;; dbg ;; (step2IDKX <+> step3IDKX)
  <+> opt dbg ;; lk Ratchets ;; opt updateRatchet ;; ul Ratchets ;;
      opt (dbg ;; (handlePm <+> handleGroupInvite <+> handleGroupJoin <+> handleGroupPart <+> handleGroupKick
                   <+> handleGroupKill <+> handleGroupList <+> handleGroupMessage <+> handleChunk <+> handleJanitorMessage)).

(** zkclient/zkclient.go:1220-1281 in [handleRPC]: the heartbeat.  Its ticks come by
    themselves. *)
Definition heartbeat :=
  Star (lk Conn ;; opt net ;; ul Conn ;;
        opt (pop ;; opt (printf ;; net) ;; opt (lk Conn ;; ul Conn ;; schedulePRPC))) ;;
  lk Conn ;; ul Conn.
(** zkclient/zkclient.go:1323-1549 in [handleRPC]: the messages. *)
Definition on_message :=
  Skip
  <+> push ;; opt (lk Conn ;; ul Conn)
  <+> (printf <+> ttk_queue) ;; push
  <+> dbg ;; handlePush ;; opt (opt ab_read ;; d_log ;; printf ;; printf) ;; schedulePRPC
  <+> lk Z ;; ul Z ;; opt (push ;; opt (opt printf ;; opt dbg))
  <+> opt printf ;; opt (lk Pend ;; ul Pend) ;; push ;; (printf <+> step1IDKX ;; opt printf)
  <+> push ;; opt (ab_read ;; floodf).
(** zkclient/zkclient.go:1186-1550 [handleRPC]. *)
Definition handleRPC :=
  SSpawn heartbeat ;; Star (Op Read ;; dbg ;; on_message) ;; opt (Op Read ;; dbg) ;;
  Op Join ;; lk Z ;; net ;; ul Z ;; dbg ;; printf.

(** zkclient/groupchat.go:86-121 [gcNew]. *)
Definition gcNew := lk Z ;; ul Z ;; opt (lk Z ;; ul Z ;; opt printf).
(** zkclient/groupchat.go:123-170 [gcInvite], with inviteDBAdd (groupinvites.go:126-201). *)
Definition gcInvite := ab_read ;; opt (rlk Z ;; opt (Star ab_read ;; opt (scheduleCRPC ;; printf)) ;; rul Z).
(** zkclient/groupchat.go:172-223 [gcJoin], with getJoin and delJoin
    (groupinvites.go:244-322). *)
Definition gcJoin := lk Z ;; Star d_log ;; opt (scheduleCRPC ;; Star d_log ;; opt printf) ;; ul Z.
(** zkclient/groupchat.go:225-376 [gcKick]. *)
Definition gcKick := ab_read ;; opt ab_read ;; opt (lk Z ;; opt (opt printf ;; Star (dbg ;; scheduleCRPC)) ;; ul Z).
(** zkclient/groupchat.go:304-363 in [gcKick]: what is done with the acknowledgements. *)
Definition kicked := lk Z ;; opt (dbg ;; opt printf ;; opt printf) ;; ul Z.
(** zkclient/groupchat.go:378-432 [gcPartForce], [gcPart]. *)
Definition gcPart := lk Z ;; ul Z <+> rlk Z ;; opt scheduleCRPC ;; rul Z.
(** zkclient/groupchat.go:434-494 [gcKill]. *)
Definition gcKill := lk Z ;; opt (opt printf ;; Star scheduleCRPC ;; opt (printf ;; opt printf)) ;; ul Z.
(** zkclient/groupchat.go:496-540 [gcMessage]. *)
Definition gcMessage := groupConversation ;; opt (rlk Z ;; opt (Star scheduleCRPC ;; printf) ;; rul Z).
(** zkclient/send.go:98-158 [completeSend]. *)
Definition completeSend := printf <+> scheduleCRPC ;; Star scheduleCRPC_lo ;; (printf <+> floodf).
(** zkclient/addressbook.go:23-56 [addressBookDel] and what it does when the message has
    been acknowledged. *)
Definition addressBookDel := ab_read ;; opt scheduleCRPC.
Definition deleted := ab_write ;; printf.

(** zkclient/mainwindow.go:354-719 [action] and what becomes of its error
    (mainwindow.go:188-192). *)
Definition action :=
  opt (rlk Z ;; rul Z) ;;
  (Skip
   <+> lk Z ;; ul Z ;; opt printf                                    (* /acceptnewcert *)
   <+> lk Z ;; ul Z ;; goOnlineAndPrint                              (* /online *)
   <+> lk Z ;; opt net ;; ul Z                                       (* /offline *)
   <+> rlk Z ;; rul Z ;; opt ttk_queue                               (* /kx *)
   <+> fetch
   <+> addressBookConversation ;; (printf ;; printf <+> floodf <+> Skip)  (* /send *)
   <+> rlk Z ;; rul Z ;; (gcMessage <+> scheduleCRPC ;; printf <+> Skip)  (* /me *)
   <+> rlk Z ;; rul Z ;; opt addressBookConversation ;;
       (Skip <+> printf ;; printf <+> scheduleCRPC ;; printf)        (* /m *)
   <+> opt ab_read ;; opt printf ;; opt ab_read ;; opt printID       (* /info *)
   <+> gcNew <+> gcInvite <+> gcJoin <+> gcKick <+> gcPart <+> gcKill <+> gcMessage
   <+> list_
   <+> focus                                                         (* /win *)
   <+> lk Z ;; opt focus ;; ul Z                                     (* /wc *)
   <+> restoreConversations
   <+> query
   <+> queueDepth                                                    (* /quit *)
   <+> Star printf                                                   (* /version, /help, /save *)
   <+> addressBookDel
   <+> find
   <+> reset) ;;
  opt (printf ;; dbg).
(** zkclient/mainwindow.go:160-256 [KeyHandler], with completeNick (completion.go:63-81)
    and page (mainwindow.go:258-272). *)
Definition keyHandler := action <+> opt ab_read <+> SPut Ui (rlk Z ;; rul Z) <+> Skip.
(** zkclient/zkclient.go:2233-2283 in [_main]: keys that are handled there. *)
Definition keys := nextConversation <+> prevConversation <+> focus.
(** zkclient/zkclient.go:2212-2224 in [_main]: the status line, once a second. *)
Definition ticker := SPut Ui (rlk Z ;; rul Z).
(** zkclient/mainwindow.go:122-152 [Init], which the library calls in its goroutine. *)
Definition init := SPut Ui (lk Z ;; ul Z).
(** zkclient/mainwindow.go:274-288 [welcomeMessage]. *)
Definition welcomeMessage := lk Z ;; ul Z ;; printf ;; printf ;; printf ;; printf ;; printf.
(** zkclient/zkclient.go:1983-2050 [finalizeAccountCreation], for the windows of
    welcome.go:121-202 and acceptserverfingerprint.go:113-129. *)
Definition newAccount :=
  net ;; Star ttk_queue ;;
  opt (net ;; opt (Star dbg ;; opt (printf ;; opt printf ;; opt (welcomeMessage ;; welcomeUser ;; opt (ttk_queue ;; focus))))) ;;
  opt ttk_queue.
(** zkclient/kxwindow.go:94-163 [KeyHandler], zkclient/kxacceptwindow.go:99-191
    [KeyHandler], zkclient/acceptclientfingerprint.go:110-210 [KeyHandler]. *)
Definition kxWindow := opt (rendezvous ;; opt saveKey ;; dbg) ;; Star ttk_queue.
Definition kxAcceptWindow := opt dbg ;; Star ttk_queue.
Definition acceptWindow :=
  opt (dbg ;; cache ;; opt (saveKey ;; lk Ratchets ;; updateRatchet ;; ul Ratchets ;; opt printf)) ;; Star ttk_queue.
(** zkclient/addressbook.go:108-140 [loadIdentities], zkclient/zkclient.go:1941-1981
    [loadGroupchat]. *)
Definition start := Star (opt printf ;; addressBookAdd ;; opt printf) ;; Star (opt printf ;; lk Z ;; ul Z ;; opt printf).

(** Everything that runs, or that a [go] statement or the terminal library begins. *)
Definition goroutines : list sk :=
  [start; init; keys; keyHandler; kxWindow; kxAcceptWindow; acceptWindow; newAccount; ticker; goOnlineAndPrint;
   goOnlineRetry; handleRPC; handleDisabledUser; kicked; deleted; completeSend; printf].

(** * Runs *)

Definition begin : state :=
  mkState [mkThread [] [] [] None; mkThread [] [] [] None; mkThread [] [] [] None] (fun _ => []) 0.

(** What the environment does: a goroutine begins, a message of the server arrives. *)
Inductive estep (s : state) : state -> Prop :=
| E_new : forall p x, In p goroutines -> way p x ->
    estep s (mkState (s_threads s ++ [mkThread x [] [] None]) (s_box s) (s_next s))
| E_read : forall i t k, nth_error (s_threads s) i = Some t -> t_ops t = Read :: k ->
    estep s (set_thread s i (goes t k (t_held t))).

Inductive reached (w : world) : state -> Prop :=
| R_begin : reached w begin
| R_env : forall s s', reached w s -> estep s s' -> reached w s'
| R_step : forall s x s', reached w s -> istep w s x s' -> reached w s'.

(** Whatever happens from [s] on: the steps of the goroutines and what they are. *)
Inductive later (w : world) (s : state) : list (nat * option act) -> state -> Prop :=
| L_now : later w s [] s
| L_env : forall tr s1 s2, later w s tr s1 -> estep s1 s2 -> later w s tr s2
| L_step : forall tr x s1 s2, later w s tr s1 -> istep w s1 x s2 -> later w s (tr ++ [x]) s2.
(** The same without the environment. *)
Inductive alone (w : world) (s : state) : state -> Prop :=
| A_now : alone w s s
| A_step : forall x s1 s2, alone w s s1 -> istep w s1 x s2 -> alone w s s2.

(** Nothing is left to do: everybody is through or waits for a message of the server,
    nobody holds a lock, and nothing waits in a box. *)
Definition settled (s : state) : Prop :=
  (forall i t, nth_error (s_threads s) i = Some t -> t_held t = [] /\ (t_ops t = [] \/ exists k, t_ops t = Read :: k)) /\
  (forall b, s_box s b = []).
