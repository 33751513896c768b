(** Model of the client's outgoing queue: zkclient/msg.go [scheduler] and the
    functions that schedule a message. *)
From Verif Require Import Base.
Local Open Scope nat_scope.

(** Which of the two queues; scheduleCRPC and the like take it as a bool. *)
Inductive prio := Hi | Lo.

Definition same_prio (p q : prio) : bool :=
  match p, q with Hi, Hi | Lo, Lo => true | _, _ => false end.

(** msg.go:24-25 maxMsg and maxBulk, the capacities of the channels z.hi and z.lo
    (msg.go:49-50). *)
Definition capacity (p : prio) : nat := match p with Hi => 16 | Lo => 4 end.

(** msg.go:58: the capacity of the channel execute. *)
Definition execute_capacity : nat := 2.

Section Sched.
(** A wireMsg (msg.go:33-43). *)
Variable msg : Type.

(** Where the goroutine "work queue" is (msg.go:86-113).  [after] is the low
    priority message that was received before drainHi was called, if any. *)
Inductive queue_at :=
| QSelect                                  (* msg.go:90, waiting in the select *)
| QHi (m : msg) (after : option msg)       (* msg.go:60-64, in queueHi before the append *)
| QHiSignal (after : option msg)           (* msg.go:66-70, in queueHi before the signal *)
| QDrain (after : option msg)              (* msg.go:73-84, in drainHi before its select *)
| QLo (m : msg)                            (* msg.go:101-104, before the append *)
| QLoSignal.                               (* msg.go:106-110, before the signal *)

(** Where the goroutine "send to net" is (msg.go:115-194). *)
Inductive sender_at :=
| SSelect                                  (* msg.go:124, waiting in the select *)
| SLook                                    (* msg.go:136-152, about to choose *)
| STry (p : prio) (m : msg)                (* msg.go:154-181, sending m *)
| SPop (p : prio).                         (* msg.go:183-190, about to dequeue *)

(** [s_chan] are the contents of z.hi and z.lo, [s_queue] the slices hi and lo,
    oldest first; [s_execute] is the number of values in execute. *)
Record sched := mkSched {
  s_chan : prio -> list msg;
  s_at : queue_at;
  s_queue : prio -> list msg;
  s_execute : nat;
  s_sender : sender_at
}.

Definition upd (f : prio -> list msg) (p : prio) (l : list msg) : prio -> list msg :=
  fun q => if same_prio p q then l else f q.

(** What happens, as an observer sees it: a producer hands over a message (the
    send on z.hi or z.lo in msg.go:207-252), the sender settles on a message, the
    attempt to send it ends ([ok]: cacheCRPC or writeMessage returned nil), or
    something else. *)
Inductive event :=
| Put (p : prio) (m : msg)
| Chosen (p : prio) (m : msg)
| Tried (p : prio) (m : msg) (ok : bool)
| Internal.

(** A non-blocking send on execute (msg.go:66-70 and 106-110). *)
Definition signal (n : nat) : nat := if n <? execute_capacity then S n else n.

Definition empty : sched := mkSched (fun _ => []) QSelect (fun _ => []) 0 SSelect.

(** One step of one goroutine.  What happens under the mutex is one step.  z.done,
    the queue depth request (msg.go:127-133, which changes nothing) and the
    messages printed are left out. *)
Inductive sstep : sched -> event -> sched -> Prop :=
| St_put : forall c a q e t p m, length (c p) < capacity p ->
    sstep (mkSched c a q e t) (Put p m) (mkSched (upd c p (c p ++ [m])) a q e t)
(* msg.go:94 *)
| St_recv_hi : forall c q e t m l, c Hi = m :: l ->
    sstep (mkSched c QSelect q e t) Internal (mkSched (upd c Hi l) (QHi m None) q e t)
(* msg.go:98 and 99, up to the call of drainHi *)
| St_recv_lo : forall c q e t m l, c Lo = m :: l ->
    sstep (mkSched c QSelect q e t) Internal (mkSched (upd c Lo l) (QDrain (Some m)) q e t)
(* msg.go:62-64 *)
| St_append_hi : forall c q e t m after,
    sstep (mkSched c (QHi m after) q e t) Internal (mkSched c (QHiSignal after) (upd q Hi (q Hi ++ [m])) e t)
(* msg.go:66-70, then drainHi, either called next (msg.go:96) or going round (msg.go:78) *)
| St_signal_hi : forall c q e t after,
    sstep (mkSched c (QHiSignal after) q e t) Internal (mkSched c (QDrain after) q (signal e) t)
(* msg.go:76-77 *)
| St_drain : forall c q e t after m l, c Hi = m :: l ->
    sstep (mkSched c (QDrain after) q e t) Internal (mkSched (upd c Hi l) (QHi m after) q e t)
(* msg.go:80-81 *)
| St_drained : forall c q e t after, c Hi = [] ->
    sstep (mkSched c (QDrain after) q e t) Internal
      (mkSched c match after with None => QSelect | Some b => QLo b end q e t)
(* msg.go:102-104 *)
| St_append_lo : forall c q e t m,
    sstep (mkSched c (QLo m) q e t) Internal (mkSched c QLoSignal (upd q Lo (q Lo ++ [m])) e t)
(* msg.go:107-110 *)
| St_signal_lo : forall c q e t,
    sstep (mkSched c QLoSignal q e t) Internal (mkSched c QSelect q (signal e) t)
(* msg.go:134 *)
| St_execute : forall c a q e,
    sstep (mkSched c a q (S e) SSelect) Internal (mkSched c a q e SLook)
(* msg.go:138-143 *)
| St_none : forall c a q e, q Hi = [] -> q Lo = [] ->
    sstep (mkSched c a q e SLook) Internal (mkSched c a q e SSelect)
(* msg.go:144-146 *)
| St_choose_lo : forall c a q e m l, q Hi = [] -> q Lo = m :: l ->
    sstep (mkSched c a q e SLook) (Chosen Lo m) (mkSched c a q e (STry Lo m))
(* msg.go:147-151 *)
| St_choose_hi : forall c a q e m l, q Hi = m :: l ->
    sstep (mkSched c a q e SLook) (Chosen Hi m) (mkSched c a q e (STry Hi m))
(* msg.go:156-181 *)
| St_ok : forall c a q e p m,
    sstep (mkSched c a q e (STry p m)) (Tried p m true) (mkSched c a q e (SPop p))
| St_failed : forall c a q e p m,
    sstep (mkSched c a q e (STry p m)) (Tried p m false) (mkSched c a q e SSelect)
(* msg.go:184-190; hi[1:] of an empty slice would panic *)
| St_pop : forall c a q e p m l, q p = m :: l ->
    sstep (mkSched c a q e (SPop p)) Internal (mkSched c a (upd q p l) e SLook).

(** Everything that can happen from the start, oldest first. *)
Inductive sruns : list event -> sched -> Prop :=
| sruns_nil : sruns [] empty
| sruns_snoc : forall tr s e s', sruns tr s -> sstep s e s' -> sruns (tr ++ [e]) s'.
End Sched.
