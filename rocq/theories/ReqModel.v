(** Model of the requests of the client and of the replies to them
    (zkclient/zkclient.go, zkclient/msg.go): the tags of a connection, the
    callbacks registered under a tag, the queue of the scheduler and the
    receive loop.

    Simplifications, all files under zkclient/:
    - the two queues of the scheduler (msg.go:43-211) are one list from which the sender may
      take any entry, so every order the scheduler can choose is covered;
    - a message is its number, a callback is the number of the message it was
      queued with; payloads, ratchets and printing are left out;
    - the functions that pop a tag and queue a request (below) are one step:
      between the two nothing but the caller knows the tag;
    - goroutines interleave at the level of the events of [r_ev]; the sender
      takes its tag, registers its callback and writes in three events. *)
From Verif Require Import Base TagStackModel.

(** An entry of the queue: [Msg id] is queued by scheduleCRPC with a callback
    (msg.go:156-166), [Ask ack t id] a request queued by schedulePRPC with the tag t
    it was given when it was queued; the server answers it with Acknowledge if
    [ack], with another reply otherwise.  [Answer t] acknowledges a message of
    the server under the server's tag (zkclient.go:1424-1430). *)
Inductive item := Msg (id : N) | Ask (ack : bool) (t : N) (id : N) | Answer (t : N).

(** Where the sender is: cacheCRPC (msg.go:437-519) between its steps. *)
Inductive sender :=
| Idle
| Held (it : item)            (* taken from the queue, msg.go:135-152 *)
| Popped (id t : N)           (* after msg.go:466 *)
| Ready (id t : N).           (* after msg.go:472-475 *)

Record client := {
  c_online : bool;
  c_tags : tagstack;                (* zkclient.go:940 *)
  c_cb : list (option N);           (* tagCallback, zkclient.go:941 *)
  c_queue : list item;
  c_send : sender }.

Definition with_tags c s := {| c_online := c_online c; c_tags := s; c_cb := c_cb c;
  c_queue := c_queue c; c_send := c_send c |}.
Definition with_cb c b := {| c_online := c_online c; c_tags := c_tags c; c_cb := b;
  c_queue := c_queue c; c_send := c_send c |}.
Definition with_queue c q := {| c_online := c_online c; c_tags := c_tags c; c_cb := c_cb c;
  c_queue := q; c_send := c_send c |}.
Definition with_send c p := {| c_online := c_online c; c_tags := c_tags c; c_cb := c_cb c;
  c_queue := c_queue c; c_send := p |}.
Definition with_online c o := {| c_online := o; c_tags := c_tags c; c_cb := c_cb c;
  c_queue := c_queue c; c_send := c_send c |}.

(** What handling a reply leads to: the client goes on, with the callback it
    has run; the connection is closed with an error; or the client panics. *)
Inductive handled := Goes (c : client) (ran : option N) | Closes (c : client) | Crashes.

(** zkclient.go:1434-1477, Acknowledge, and the pushes of the other replies
    (1326, 1353, 1374, 1497, 1523).  The comparison of line 1442 lets the tag
    len(tagCallback) pass; line 1448 then indexes out of range.  The callback is
    run whatever the error of the reply (1473-1477).  Closing the connection
    takes the client offline (1192-1216). *)
Definition handle_reply (c : client) (ack : bool) (t : N) : handled :=
  if ack then
    if (u32 (N.of_nat (length (c_cb c))) <? t)%N then Closes (with_online c false)
    else match nth_error (c_cb c) (N.to_nat t) with
         | None => Crashes
         | Some f =>
             let c1 := with_cb c (upd (c_cb c) (N.to_nat t) None) in
             match ts_push (c_tags c1) t with
             | (s, None) => Goes (with_tags c1 s) f
             | (_, Some _) => Closes (with_online c1 false)
             end
         end
  else match ts_push (c_tags c) t with
       | (s, None) => Goes (with_tags c s) None
       | (_, Some _) => Closes (with_online c false)
       end.

(** A request the server has: a message of cacheCRPC, or a request queued with
    its tag.  The server answers under the tag of the request. *)
Inductive request := OfMsg (t id : N) | OfAsk (ack : bool) (t id : N).

(** A connection: the client, the requests the server has and has not yet
    answered, and what was answered so far, each with the callback the client
    ran ([inl]), or [inr tt] if the client closed the connection instead. *)
Record world := {
  w_client : client;
  w_open : list request;
  w_log : list (request * (option N + unit)) }.

Inductive r_ev :=
| ROnline (d : nat)              (* welcomePhase, zkclient.go:940-941; d is the tag depth *)
| ROffline                       (* zkclient.go:1192-1216 *)
| RSay (id : N)                  (* scheduleCRPC with a callback *)
| RAsk (ack : bool) (id : N)     (* zkclient.go:1553-1597, 1695-1713, 1716-1763, 1768-1840 *)
| RBeat (id : N)                 (* heartbeat, zkclient.go:1254-1277 *)
| RIncoming (t : N)                  (* message of the server under its tag t, 1424-1430 *)
| RTake (i : nat)                (* the sender takes entry i *)
| RBack                          (* rescheduled, msg.go:157-165, 173-180 *)
| RDrop                          (* no ratchet, msg.go:447-457 *)
| RGetTag                           (* msg.go:466-469 *)
| RReg                           (* msg.go:471-476 *)
| RWrite (sent saved : bool)     (* msg.go:491-518 *)
| RWriteAsk                      (* msg.go:173 *)
| RReply (i : nat).              (* the server answers its i-th open request *)

Definition remove_at {A} (i : nat) (l : list A) : list A := firstn i l ++ skipn (S i) l.

(** One event.  [Err tt]: the event cannot happen in this state; [Panic]: the
    client panics (an index out of range). *)
Definition r_step (w : world) (e : r_ev) : res unit world :=
  let c := w_client w in
  let go c' := Ok {| w_client := c'; w_open := w_open w; w_log := w_log w |} in
  match e with
  | ROnline d =>
      if c_online c then Err tt else
      match ts_new (Z.of_nat d) with
      | Ok s => Ok {| w_client := {| c_online := true; c_tags := s;
                        c_cb := repeat None d; c_queue := c_queue c;
                        c_send := c_send c |};
                      w_open := []; w_log := w_log w |}
      | _ => Panic
      end
  | ROffline =>
      if c_online c
      then Ok {| w_client := with_online c false; w_open := []; w_log := w_log w |}
      else Err tt
  | RSay id => go (with_queue c (c_queue c ++ [Msg id]))
  | RAsk ack id =>
      match ts_pop (c_tags c) with
      | (s, inl t) => go (with_queue (with_tags c s) (c_queue c ++ [Ask ack t id]))
      | (_, inr _) => Err tt
      end
  | RBeat id =>
      (* without a tag the heartbeat goes on with tag 0: retry is 2 and set to
         2 again, so that line 1257 never finds it 0 *)
      match ts_pop (c_tags c) with
      | (s, inl t) => go (with_queue (with_tags c s) (c_queue c ++ [Ask false t id]))
      | (_, inr _) => go (with_queue c (c_queue c ++ [Ask false 0%N id]))
      end
  | RIncoming t => go (with_queue c (c_queue c ++ [Answer t]))
  | RTake i =>
      match c_send c, nth_error (c_queue c) i with
      | Idle, Some it => go (with_send (with_queue c (remove_at i (c_queue c))) (Held it))
      | _, _ => Err tt
      end
  | RBack =>
      match c_send c with
      | Held it => go (with_send (with_queue c (it :: c_queue c)) Idle)
      | _ => Err tt
      end
  | RDrop =>
      match c_send c with
      | Held (Msg _) => go (with_send c Idle)
      | _ => Err tt
      end
  | RGetTag =>
      match c_send c with
      | Held (Msg id) =>
          match ts_pop (c_tags c) with
          | (s, inl t) => go (with_send (with_tags c s) (Popped id t))
          | (_, inr _) => Err tt
          end
      | _ => Err tt
      end
  | RReg =>
      match c_send c with
      | Popped id t =>
          if N.to_nat t <? length (c_cb c)
          then go (with_send (with_cb c (upd (c_cb c) (N.to_nat t) (Some id))) (Ready id t))
          else Panic
      | _ => Err tt
      end
  | RWrite sent saved =>
      match c_send c with
      | Ready id t =>
          if sent then
            if c_online c then
              Ok {| w_client := with_send (if saved then c
                                           else with_queue c (Msg id :: c_queue c)) Idle;
                    w_open := w_open w ++ [OfMsg t id];
                    w_log := w_log w |}
            else Err tt
          else if N.to_nat t <? length (c_cb c) then
            let c1 := with_cb c (upd (c_cb c) (N.to_nat t) None) in
            let c2 := with_tags c1 (fst (ts_push (c_tags c1) t)) in
            go (with_send (with_queue c2 (Msg id :: c_queue c2)) Idle)
          else Panic
      | _ => Err tt
      end
  | RWriteAsk =>
      if c_online c then
        match c_send c with
        | Held (Ask ack t id) =>
            Ok {| w_client := with_send c Idle;
                  w_open := w_open w ++ [OfAsk ack t id]; w_log := w_log w |}
        | Held (Answer _) => go (with_send c Idle)
        | _ => Err tt
        end
      else Err tt
  | RReply i =>
      match nth_error (w_open w) i with
      | Some q =>
          let (ack, t) := match q with OfMsg t _ => (true, t) | OfAsk a t _ => (a, t) end in
          match handle_reply c ack t with
          | Goes c' f => Ok {| w_client := c'; w_open := remove_at i (w_open w);
                               w_log := w_log w ++ [(q, inl f)] |}
          | Closes c' => Ok {| w_client := c'; w_open := [];
                               w_log := w_log w ++ [(q, inr tt)] |}
          | Crashes => Panic
          end
      | None => Err tt
      end
  end.

(** A client that has just been started, not yet online. *)
Definition w_start : world :=
  {| w_client := {| c_online := false; c_tags := {| ts_at := 0; ts_stack := [] |};
                    c_cb := []; c_queue := []; c_send := Idle |};
     w_open := []; w_log := [] |}.

Fixpoint r_run (w : world) (es : list r_ev) : res unit world :=
  match es with
  | [] => Ok w
  | e :: es' => match r_step w e with
                | Ok w' => r_run w' es'
                | Err x => Err x
                | Panic => Panic
                end
  end.
