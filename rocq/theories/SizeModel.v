(** Model of what is put into one message of the transport: the requests of the
    client that carry a payload for another client, and the message with which the
    server passes it on.  All of it is given to kx.Write (SessionModel.write_key). *)
From Verif Require Import Base XdrModel RpcModel CrpcModel RatchetModel SrvModel MailModel.
Local Open Scope N_scope.

(** zkclient/msg.go:478-495 with zkclient/zkclient.go:1855-1866: [cacheCRPC] hands
    [ct] to the server; [ts] is time.Now().Unix(). *)
Definition cache_request (ts : Z) (tag : N) (to ct : bytes) : bytes :=
  enc Message_codec (mkMessage cmd_cache ts false tag) ++ enc Cache_codec (mkCache to ct).

(** zkclient/zkclient.go:1826-1837 (and the other callers of schedulePRPC with a
    rpc.Proxy) with zkclient/zkclient.go:1855-1866. *)
Definition proxy_request (ts : Z) (tag : N) (to payload : bytes) : bytes :=
  enc Message_codec (mkMessage cmd_proxy ts false tag) ++ enc Proxy_codec (mkProxy to payload).

(** rpc/rpc.go:59 *)
Definition cmd_push : bytes := bs "push".

(** zkserver/zkserver.go:308-319 [sessionNtfn] with zkserver/zkserver.go:101-114
    [writeMessage]. *)
Definition push_message (tag : N) (d : DiskMessage) : bytes :=
  enc Message_codec (mkMessage cmd_push 0 (DiskMessage_Cleartext d) tag) ++
  enc Push_codec (mkPush (DiskMessage_From d) (DiskMessage_Received d) (DiskMessage_Payload d)).

Section Crypto.
Variable hmac : bytes -> bytes -> bytes.
Variable sha256 : bytes -> bytes.
Variable x25519 : bytes -> bytes -> option bytes.
Variable base : bytes -> bytes.
Variable seal : bytes -> bytes -> bytes -> bytes.
Variable deflate : bytes -> bytes.

(** zkclient/msg.go:437-495 [cacheCRPC] with a ratchet and a tag: what is given to
    kx.Write, or None if Encrypt fails.  [now] and [ts] are the two readings of the
    clock. *)
Definition crpc_request (r : ratchet) (priv hn mn : bytes) (now ts : Z) (tag : N) (to : bytes) (p : crpc_payload) : option bytes :=
  match snd (encrypt hmac sha256 x25519 base seal r priv hn mn (crpc_plain deflate now p)) with
  | Some ct => Some (cache_request ts tag to ct)
  | None => None
  end.
End Crypto.

(** * The mailbox of one account with the size limit *)

(** session/kx.go:418-429: whether kx.Write takes the message with which the server
    passes on [d]; 16 bytes are added to the text (nacl/secretbox Overhead).  The
    size does not depend on the tag. *)
Definition passable (lim : N) (d : DiskMessage) : bool :=
  N.of_nat (length (push_message 0 d)) + 16 <=? lim.

(** MailModel.exec with zkserver/zkserver.go:248-254: a message that is too long is
    never written (the writer ends then, which is AWriteFail). *)
Definition exec_lim (lim : N) (w : world) (m : mail) (a : action) : option mail :=
  match a with
  | AWriter =>
      match m_sess m with
      | Some s => match s_writer s with
                  | p :: _ => if passable lim (p_msg p) then exec w m a else None
                  | [] => None
                  end
      | None => None
      end
  | _ => exec w m a
  end.

Fixpoint execs_lim (lim : N) (w : world) (m : mail) (l : list action) : option mail :=
  match l with
  | [] => Some m
  | a :: r => match exec_lim lim w m a with Some m' => execs_lim lim w m' r | None => None end
  end.
