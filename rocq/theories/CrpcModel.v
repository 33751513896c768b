(** Model of client to client messages: zkclient/msg.go compress (253-361) and
    crpc (365-417) on the sending side, and the decoding part of handlePush
    (zkclient/push.go:478-692) on the receiving side, up to the call of the
    handler.  Encryption is not part of this file: the sender's output is the
    plaintext given to Ratchet.Encrypt, the receiver's input the plaintext
    returned by Ratchet.Decrypt.

    Simplifications: zlib is a pair of functions given as parameters.  [deflate x]
    is everything the writer produced; [inflate b] is [None] if zlib.NewReader
    fails (bad header) and otherwise all bytes that can be read before the end of
    the stream or an error. *)
From Verif Require Import Base XdrModel RpcModel.

(** The payload types of rpc/rpc.go:349-361 that compress and crpc accept. *)
Inductive crpc_payload :=
| PM (m : PrivateMessage)
| GInvite (m : GroupInvite)
| GJoin (m : GroupJoin)
| GPart (m : GroupPart)
| GKill (m : GroupKill)
| GKick (m : GroupKick)
| GUpdate (m : GroupUpdate)
| GList (m : GroupList)
| GMessage (m : GroupMessage)
| ChNew (m : ChunkNew)
| Ch (m : Chunk)
| Janitor (m : JanitorMessage).

(** zkclient/msg.go:260-341: the XDR of the payload. *)
Definition payload_xdr (p : crpc_payload) : bytes :=
  match p with
  | PM m => enc PrivateMessage_codec m
  | GInvite m => enc GroupInvite_codec m
  | GJoin m => enc GroupJoin_codec m
  | GList m => enc GroupList_codec m
  | GUpdate m => enc GroupUpdate_codec m
  | GMessage m => enc GroupMessage_codec m
  | GKill m => enc GroupKill_codec m
  | GKick m => enc GroupKick_codec m
  | GPart m => enc GroupPart_codec m
  | ChNew m => enc ChunkNew_codec m
  | Ch m => enc Chunk_codec m
  | Janitor m => enc JanitorMessage_codec m
  end.

(** zkclient/msg.go:374-403 with the constants of rpc/rpc.go:350-361. *)
Definition payload_command (p : crpc_payload) : bytes :=
  match p with
  | PM _ => bs "privmsg"
  | GInvite _ => bs "groupinvite"
  | GJoin _ => bs "groupjoin"
  | GList _ => bs "grouplist"
  | GUpdate _ => bs "groupupdate"
  | GMessage _ => bs "groupmessage"
  | GPart _ => bs "grouppart"
  | GKill _ => bs "groupkill"
  | GKick _ => bs "groupkick"
  | ChNew _ => bs "chunknew"
  | Ch _ => bs "chunk"
  | Janitor _ => bs "janitormessage"
  end.

(** xdr.Unmarshal of one payload type; unread input is ignored. *)
Definition payload_of {A} (c : codec A) (f : A -> crpc_payload) (b : bytes) : res unit crpc_payload :=
  match dec c 0 b with Some (x, _) => Ok (f x) | None => Err tt end.

(** zkclient/push.go:498-691. *)
Definition command_decoder (cmd : bytes) : option (bytes -> res unit crpc_payload) :=
  if eqb cmd (bs "privmsg") then Some (payload_of PrivateMessage_codec PM)
  else if eqb cmd (bs "groupinvite") then Some (payload_of GroupInvite_codec GInvite)
  else if eqb cmd (bs "groupjoin") then Some (payload_of GroupJoin_codec GJoin)
  else if eqb cmd (bs "groupkill") then Some (payload_of GroupKill_codec GKill)
  else if eqb cmd (bs "groupkick") then Some (payload_of GroupKick_codec GKick)
  else if eqb cmd (bs "grouppart") then Some (payload_of GroupPart_codec GPart)
  else if eqb cmd (bs "grouplist") then Some (payload_of GroupList_codec GList)
  else if eqb cmd (bs "groupupdate") then Some (payload_of GroupUpdate_codec GUpdate)
  else if eqb cmd (bs "groupmessage") then Some (payload_of GroupMessage_codec GMessage)
  else if eqb cmd (bs "chunknew") then Some (payload_of ChunkNew_codec ChNew)
  else if eqb cmd (bs "chunk") then Some (payload_of Chunk_codec Ch)
  else if eqb cmd (bs "janitormessage") then Some (payload_of JanitorMessage_codec Janitor)
  else None.

Section Zlib.
Variable deflate : bytes -> bytes.
Variable inflate : bytes -> option bytes.

(** zkclient/msg.go:343-361. *)
Definition compress (x : bytes) : bytes * bytes :=
  if (length x <? length (deflate x))%nat then (x, []) else (deflate x, bs "zlib").

(** zkclient/msg.go:365-414 without the encryption; [now] is time.Now().Unix(). *)
Definition crpc_plain (now : Z) (p : crpc_payload) : bytes :=
  let '(body, comp) := compress (payload_xdr p) in
  enc CRPC_codec (mkCRPC now (payload_command p) comp) ++ body.

(** zkclient/push.go:478-692.  When zlib.NewReader fails its error is dropped and
    the nil reader is used as soon as a known command's payload is decoded, which
    is a nil dereference. *)
Definition crpc_receive (b : bytes) : res unit (Z * crpc_payload) :=
  match dec CRPC_codec 0 b with
  | None => Err tt
  | Some (h, rest) =>
      let rd := if eqb (CRPC_Compression h) [] then Some (Some rest)
                else if eqb (CRPC_Compression h) (bs "zlib") then Some (inflate rest)
                else None in
      match rd with
      | None => Err tt
      | Some reader =>
          match command_decoder (CRPC_Command h) with
          | None => Err tt
          | Some d => match reader with
                      | None => Panic
                      | Some data => match d data with
                                     | Ok p => Ok (CRPC_Timestamp h, p)
                                     | Err e => Err e
                                     | Panic => Panic
                                     end
                      end
          end
      end
  end.

End Zlib.
