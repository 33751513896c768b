(** Model of how the client acknowledges messages of the server: the
    acknowledgement is queued when a message has been handled and sent when the
    client is online, whichever connection that is.

    Simplifications: the other contents of the queue (see SchedModel.v, ReqModel.v) are
    left out; acknowledgements are queued with high priority and leave in the
    order in which they were queued. *)
From Verif Require Import Base MailModel.
Open Scope N_scope.

(** The server of MailModel.v accepts an acknowledgement of any tag. *)
Definition any_client (c : clk) : world := {| honest := false; clock := c |}.

(** [ZDo] is a step of the server or of the outside world, [ZRestart] ends and
    starts the client. *)
Inductive zaction := ZDo (a : action) | ZRestart.

(** zkclient.go:1381-1430: whether handlePush fails or not, an acknowledgement
    with the tag of the message is queued (1425-1430); msg.go:129-195: the sender
    writes the first one of the queue and removes it if writing succeeded; the
    queue belongs to the scheduler (msg.go:45-53) and outlives the connection. *)
Definition zexec (c : clk) (x : mail * list N) (z : zaction) : option (mail * list N) :=
  let (m, q) := x in
  match z with
  | ZDo (AAck t) =>
      match q with
      | t' :: q' => if t =? t' then
                      match exec (any_client c) m (AAck t) with
                      | Some m' => Some (m', q') | None => None
                      end
                    else None
      | [] => None
      end
  | ZDo AReceive =>
      match m_sess m with
      | Some s =>
          match s_wire s, exec (any_client c) m AReceive with
          | p :: _, Some m' => Some (m', q ++ [p_tag p])
          | _, _ => None
          end
      | None => None
      end
  | ZDo a => match exec (any_client c) m a with Some m' => Some (m', q) | None => None end
  | ZRestart => match m_sess m with None => Some (m, []) | Some _ => None end
  end.

Fixpoint zexecs (c : clk) (x : mail * list N) (l : list zaction) : option (mail * list N) :=
  match l with
  | [] => Some x
  | z :: r => match zexec c x z with Some x' => zexecs c x' r | None => None end
  end.
