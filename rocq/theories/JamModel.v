(** Model of the attempts to send the messages of the outgoing queue (SchedModel.v leaves
    open whether an attempt works): zkclient/msg.go:437-519 [cacheCRPC] and
    zkclient/zkclient.go:1843-1877 [writeMessage]. *)
From Verif Require Import Base XdrModel RpcModel CrpcModel RatchetModel SessionModel SchedModel SizeModel.
Local Open Scope N_scope.

Section Jam.
Variables (hmac : bytes -> bytes -> bytes) (sha256 : bytes -> bytes) (x25519 : bytes -> bytes -> option bytes) (base : bytes -> bytes).
Variables (seal wseal : bytes -> bytes -> bytes -> bytes) (deflate : bytes -> bytes).

(** zkclient/msg.go:33-43 wireMsg: a message for another client, or one for the server, of
    which only the bytes given to kx.Write matter.  Callbacks are left out. *)
Inductive item := ToClient (to : bytes) (p : crpc_payload) | ToServer (body : bytes).

(** What an attempt depends on. *)
Record env := mkEnv {
  e_online : bool;                       (* isOnline *)
  e_ratchet : bytes -> option ratchet;   (* loadRatchet *)
  e_priv : bytes; e_hn : bytes; e_mn : bytes;  (* crypto/rand *)
  e_now : Z; e_ts : Z;                   (* the clock *)
  e_tag : option N;                      (* tagStack.Pop *)
  e_chan : chan; e_key : bytes;          (* the session *)
  e_conn : bool;                         (* whether the connection takes the bytes *)
  e_saved : bool                         (* updateRatchet *)
}.

(** zkclient/zkclient.go:1866-1870: kx.Write. *)
Definition writes (v : env) (b : bytes) : bool :=
  match snd (write_key wseal (e_chan v) (e_key v) b) with Ok _ => e_conn v | _ => false end.

(** zkclient/msg.go:156-181: whether the message counts as sent.  Without a ratchet it does
    (msg.go:448-457).  *r.TheirIdentityPublic is the name under which the ratchet was
    loaded (C63). *)
Definition tries (v : env) (m : item) : bool :=
  if e_online v then
    match m with
    | ToServer b => writes v b
    | ToClient to p =>
        match e_ratchet v to with
        | None => true
        | Some r =>
            match e_tag v with
            | None => false
            | Some tag =>
                match crpc_request hmac sha256 x25519 base seal deflate r (e_priv v) (e_hn v) (e_mn v) (e_now v) (e_ts v) tag to p with
                | None => false
                | Some b => writes v b && e_saved v
                end
            end
        end
    end
  else false.

(** The runs of the queue in which every attempt is one under circumstances
    that [E] allows. *)
Inductive jruns (E : env -> Prop) : list (event item) -> sched item -> Prop :=
| jruns_nil : jruns E [] (empty item)
| jruns_snoc tr s e s' : jruns E tr s -> sstep item s e s' ->
    (forall p m ok, e = Tried item p m ok -> exists v, E v /\ tries v m = ok) -> jruns E (tr ++ [e]) s'.
End Jam.
