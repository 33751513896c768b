(** Connecting and reconnecting: the goroutines of a client that go online, read from
    the server, and try again (zkclient/zkclient.go, mainwindow.go).

    Left out: the time that steps take (a blocked attempt holds the lock of the client
    and everything waits), what is printed, restoring conversations, and the end of the
    program by its user.  The heartbeat only breaks connections, which may break at any
    time here. *)
From Verif Require Import Base.
Local Open Scope Z_scope.

(** What an attempt to go online meets: zkclient.go:726-746 preSessionPhase,
    749-773 sessionPhase and 776-949 welcomePhase fail; the certificate is another one
    (968-971); the server says that the client is not welcome (804-814); or all is well. *)
Inductive outcome := Failed | Changed | Unwelcome | Welcomed.

(** A goroutine in zkclient.go:1008-1036 [goOnlineRetry].  The timer is set for a time,
    or has fired and was not set again. *)
Inductive loop :=
| LTop (timer : option Z)     (* 1011-1016: about to look at z.offline *)
| LWait (timer : option Z)    (* 1018: waits for the timer *)
| LFired                      (* 1019-1024: about to look at z.online *)
| LTry                        (* 1026-1029: about to call goOnline *)
| LGreet                      (* 1003: goOnline was successful, about to call welcomeUser *)
| LReset.                     (* 1034: about to set the timer *)

(** A goroutine in zkclient.go:1186-1214 [handleRPC]. *)
Inductive handler :=
| HRead                       (* 1282-1650: reads *)
| HLeave                      (* 1193-1195: has left the loop *)
| HSpawn.                     (* 1203-1213: about to start goOnlineRetry *)

(** Other calls of zkclient.go:989-1006 [goOnlineAndPrint]: at the start of the program
    (2206-2208) and by /online (mainwindow.go:413-418). *)
Inductive call := CTry | CGreet.

Record client := mkClient {
  c_now : Z;                  (* seconds *)
  c_online : bool;            (* z.online *)
  c_offline : bool;           (* z.offline *)
  c_kx : option nat;          (* z.kx: the connection it stands for, or nil *)
  c_next : nat;               (* connections so far *)
  c_handlers : list handler;
  c_loops : list loop;
  c_calls : list call;
  c_send : bool;              (* writeMessage has looked at z.online and is about to use z.kx *)
  c_dead : bool               (* nil was dereferenced: the program is gone *)
}.

(** zkclient.go:2205-2208: the program starts and has an identity. *)
Definition begin : client := mkClient 0 false false None 0 [] [] [CTry] false false.

Inductive result := RError | RCert | ROnline.

(** zkclient.go:954-986 [goOnline], under z's lock. *)
Definition go_online (s : client) (o : outcome) : client * result :=
  if c_online s then (s, RError)
  else match o with
  | Failed => (s, RError)
  | Changed => (s, RCert)
  | Unwelcome => (mkClient (c_now s) false true (c_kx s) (c_next s) (c_handlers s) (c_loops s) (c_calls s) (c_send s) (c_dead s), RError)
  | Welcomed => (mkClient (c_now s) true (c_offline s) (Some (c_next s)) (S (c_next s)) (c_handlers s ++ [HRead]) (c_loops s) (c_calls s)
                   (c_send s) (c_dead s), ROnline)
  end.

Definition with_loops (s : client) (l : list loop) : client :=
  mkClient (c_now s) (c_online s) (c_offline s) (c_kx s) (c_next s) (c_handlers s) l (c_calls s) (c_send s) (c_dead s).
Definition with_calls (s : client) (l : list call) : client :=
  mkClient (c_now s) (c_online s) (c_offline s) (c_kx s) (c_next s) (c_handlers s) (c_loops s) l (c_send s) (c_dead s).
Definition with_send (s : client) (b : bool) : client :=
  mkClient (c_now s) (c_online s) (c_offline s) (c_kx s) (c_next s) (c_handlers s) (c_loops s) (c_calls s) b (c_dead s).
Definition with_dead (s : client) : client :=
  mkClient (c_now s) (c_online s) (c_offline s) (c_kx s) (c_next s) (c_handlers s) (c_loops s) (c_calls s) (c_send s) true.

(** zkclient.go:1654 and 1866 use z.kx without the lock. *)
Definition use_kx (s s' : client) : client := match c_kx s with Some _ => s' | None => with_dead s end.

(** zkclient.go:1009. *)
Definition pause : Z := 30.

Inductive label := Tau | Time | Auto (o : outcome) | Call (o : outcome) | Online | Offline | Break.

Inductive cstep (s : client) : label -> client -> Prop :=
| S_time : forall d, 0 < d -> c_dead s = false ->
    cstep s Time (mkClient (c_now s + d) (c_online s) (c_offline s) (c_kx s) (c_next s) (c_handlers s) (c_loops s) (c_calls s) (c_send s) false)
(** zkclient.go:1012-1016 *)
| S_give_up : forall l1 l2 t, c_dead s = false -> c_loops s = l1 ++ LTop t :: l2 -> c_offline s = true ->
    cstep s Tau (with_loops s (l1 ++ l2))
| S_wait : forall l1 l2 t, c_dead s = false -> c_loops s = l1 ++ LTop t :: l2 -> c_offline s = false ->
    cstep s Tau (with_loops s (l1 ++ LWait t :: l2))
(** zkclient.go:1018 *)
| S_fire : forall l1 l2 t, c_dead s = false -> c_loops s = l1 ++ LWait (Some t) :: l2 -> t <= c_now s ->
    cstep s Tau (with_loops s (l1 ++ LFired :: l2))
(** zkclient.go:1020-1023: the timer is not set again. *)
| S_again : forall l1 l2, c_dead s = false -> c_loops s = l1 ++ LFired :: l2 -> c_online s = true ->
    cstep s Tau (with_loops s (l1 ++ LTop None :: l2))
| S_go : forall l1 l2, c_dead s = false -> c_loops s = l1 ++ LFired :: l2 -> c_online s = false ->
    cstep s Tau (with_loops s (l1 ++ LTry :: l2))
(** zkclient.go:1029-1033 *)
| S_auto : forall l1 l2 o, c_dead s = false -> c_loops s = l1 ++ LTry :: l2 ->
    cstep s (Auto o) (with_loops (fst (go_online s o))
      (l1 ++ match snd (go_online s o) with RCert => [] | RError => [LReset] | ROnline => [LGreet] end ++ l2))
(** zkclient.go:1003, 1653-1654 *)
| S_greet : forall l1 l2, c_dead s = false -> c_loops s = l1 ++ LGreet :: l2 ->
    cstep s Tau (use_kx s (with_loops s (l1 ++ LReset :: l2)))
(** zkclient.go:1034 *)
| S_reset : forall l1 l2, c_dead s = false -> c_loops s = l1 ++ LReset :: l2 ->
    cstep s Tau (with_loops s (l1 ++ LTop (Some (c_now s + pause)) :: l2))
| S_call : forall l1 l2 o, c_dead s = false -> c_calls s = l1 ++ CTry :: l2 ->
    cstep s (Call o) (with_calls (fst (go_online s o))
      (l1 ++ match snd (go_online s o) with ROnline => [CGreet] | _ => [] end ++ l2))
| S_greet_call : forall l1 l2, c_dead s = false -> c_calls s = l1 ++ CGreet :: l2 ->
    cstep s Tau (use_kx s (with_calls s (l1 ++ l2)))
(** mainwindow.go:413-418; more than one at a time here. *)
| S_online : c_dead s = false ->
    cstep s Online (mkClient (c_now s) (c_online s) false (c_kx s) (c_next s) (c_handlers s) (c_loops s) (c_calls s ++ [CTry]) (c_send s) false)
(** mainwindow.go:420-428; the handler notices. *)
| S_offline : c_dead s = false ->
    cstep s Offline (mkClient (c_now s) (c_online s) (if c_online s then true else c_offline s) (c_kx s) (c_next s) (c_handlers s) (c_loops s)
      (c_calls s) (c_send s) false)
(** zkclient.go:1287-1298 and the other returns: the connection ends. *)
| S_break : forall l1 l2, c_dead s = false -> c_handlers s = l1 ++ HRead :: l2 ->
    cstep s Break (mkClient (c_now s) (c_online s) (c_offline s) (c_kx s) (c_next s) (l1 ++ HLeave :: l2) (c_loops s) (c_calls s) (c_send s) false)
(** zkclient.go:1193-1201 *)
| S_leave : forall l1 l2, c_dead s = false -> c_handlers s = l1 ++ HLeave :: l2 ->
    cstep s Tau (mkClient (c_now s) false (c_offline s) None (c_next s) (l1 ++ HSpawn :: l2) (c_loops s) (c_calls s) (c_send s) false)
(** zkclient.go:1213, 1009-1010 *)
| S_spawn : forall l1 l2, c_dead s = false -> c_handlers s = l1 ++ HSpawn :: l2 ->
    cstep s Tau (mkClient (c_now s) (c_online s) (c_offline s) (c_kx s) (c_next s) (l1 ++ l2) (c_loops s ++ [LTop (Some (c_now s + pause))])
      (c_calls s) (c_send s) false)
(** zkclient.go:1844-1846 and 1866 in [writeMessage]; one goroutine writes (msg.go:117-201). *)
| S_check : c_dead s = false -> c_send s = false -> c_online s = true -> cstep s Tau (with_send s true)
| S_write : c_dead s = false -> c_send s = true -> cstep s Tau (use_kx s (with_send s false)).

Inductive cruns (s : client) : list label -> client -> Prop :=
| R_none : cruns s [] s
| R_more : forall tr s1 x s2, cruns s tr s1 -> cstep s1 x s2 -> cruns s (tr ++ [x]) s2.

(** * For the statements *)

Definition reached (s : client) : Prop := exists tr, cruns begin tr s.
(** Attempts that the client makes by itself. *)
Definition autos (tr : list label) : nat := length (filter (fun x => match x with Auto _ => true | _ => false end) tr).
(** Attempts of all kinds. *)
Definition attempts (tr : list label) : nat := length (filter (fun x => match x with Auto _ | Call _ => true | _ => false end) tr).
