(** Model of the key exchange between two clients and of the reset of a
    conversation: /repo/zkclient/identity.go, reset.go, push.go:54-475,
    zkclient.go:1053-1115 [step1IDKX], 1553-1574 [cache] and 1768-1840 [reset],
    kxwindow.go:102-147, kxacceptwindow.go:108-178 and
    acceptclientfingerprint.go:112-209.

    A handler yields the list of the operations it performs on the files, on the
    blob keys and on the network, in their order, so that a crash is a prefix of
    that list.  Randomness, the clock, the iteration order of the map of blob
    keys and whether [cache] succeeds are arguments.
    Simplifications: a ratchet file holds the ratchet itself (C19 and C45 are
    about its encoding and about crashes while it is written); writing a file
    never fails; RemoveAll is one operation; handlers do not overlap; what is
    displayed and logged is left out; the time stamps naming the blob keys never
    coincide. *)
From Verif Require Import Base XdrModel RpcModel BlobModel IdentityModel AddrModel RatchetModel HexModel.
Local Open Scope N_scope.

(** identity.go:23-27: the three files in the directory of one identity. *)
Record files := mkFiles { f_id : option bytes; f_full : option ratchet; f_half : option ratchet }.
Definition no_files : files := mkFiles None None None.

(** The client: its identity, whether the server has a directory (z.directory),
    the directories under inboundDir by identity, the blob keys of blobkeys.go,
    the requests scheduled by [cache] (false) and for the proxy command (true),
    and the calls of addressBookAdd. *)
Record client := mkClient {
  c_me : FullIdentity; c_dir : bool; c_disk : list (bytes * files); c_keys : list bytes;
  c_out : list (bool * bytes * bytes); c_added : list PublicIdentity }.

Definition fget (c : client) (id : bytes) : files :=
  match mget (c_disk c) id with Some f => f | None => no_files end.

Inductive op :=
| WriteId (id b : bytes) | WriteFull (id : bytes) (r : ratchet) | WriteHalf (id : bytes) (r : ratchet)
| DropFull (id : bytes) | DropHalf (id : bytes) | DropAll (id : bytes)
| SaveKey (k : bytes) | Send (clear : bool) (to payload : bytes) | Added (p : PublicIdentity).

Definition fset (c : client) (id : bytes) (f : files) : client :=
  mkClient (c_me c) (c_dir c) (mset (c_disk c) id f) (c_keys c) (c_out c) (c_added c).

Definition apply_op (c : client) (o : op) : client :=
  match o with
  | WriteId id b => fset c id (mkFiles (Some b) (f_full (fget c id)) (f_half (fget c id)))
  | WriteFull id r => fset c id (mkFiles (f_id (fget c id)) (Some r) (f_half (fget c id)))
  | WriteHalf id r => fset c id (mkFiles (f_id (fget c id)) (f_full (fget c id)) (Some r))
  | DropFull id => fset c id (mkFiles (f_id (fget c id)) None (f_half (fget c id)))
  | DropHalf id => fset c id (mkFiles (f_id (fget c id)) (f_full (fget c id)) None)
  | DropAll id => fset c id no_files
  | SaveKey k => mkClient (c_me c) (c_dir c) (c_disk c) (c_keys c ++ [k]) (c_out c) (c_added c)
  | Send clear to payload => mkClient (c_me c) (c_dir c) (c_disk c) (c_keys c) (c_out c ++ [(clear, to, payload)]) (c_added c)
  | Added p => mkClient (c_me c) (c_dir c) (c_disk c) (c_keys c) (c_out c) (c_added c ++ [p])
  end.
Definition apply_ops (c : client) (l : list op) : client := fold_left apply_op l c.

Definition is_some {A} (o : option A) : bool := match o with Some _ => true | None => false end.

(** identity.go:31-49 [identityExists], 52-56 [ratchetExists]. *)
Definition identity_exists (c : client) (id : bytes) : bool :=
  let f := fget c id in is_some (f_id f) && (is_some (f_full f) || is_some (f_half f)).
Definition ratchet_exists (c : client) (id : bytes) : bool := is_some (f_full (fget c id)).

Definition public (c : client) : PublicIdentity := FullIdentity_Public (c_me c).
Definition private (c : client) : bytes := FullIdentity_PrivateKey (c_me c).

(** The key exchange of package rpc and the one of package ratchet are the same
    Go type. *)
Definition to_wire (k : key_exchange) : KeyExchange := mkKeyExchange (kx_cipher k) (kx_public k).
Definition of_wire (k : KeyExchange) : key_exchange := mkKx (KeyExchange_Cipher k) (KeyExchange_Public k).

(** rpc.go:279 ProxyCmdResetRatchet. *)
Definition cmd_reset : N := 1.

(** Randomness, clock and environment of one handler: the ratchet's private key,
    the draws of FillKeyExchange, those of step 1 and of blobshare.Encrypt and
    NewKey, the draws of Encrypt of the ratchet, iteration orders, and whether
    the client is online with a tag available. *)
Record env := mkEnv {
  e_priv : bytes; e_coins : bytes; e_salt : bytes; e_nonce : bytes;
  e_coins1 : bytes; e_nonce1 : bytes; e_salt1 : bytes;
  e_step : bytes; e_hn : bytes; e_mn : bytes;
  e_keys : list bytes -> list bytes; e_saved : list bytes -> list bytes; e_now : Z; e_ok : bool }.

Inductive event :=
| Push (clear : bool) (from payload : bytes)
| FindReply (p : PublicIdentity)
| Share (password : bytes)
| Accept (password blob : bytes)
| Reset (id : bytes)
| Delete (id : bytes)
| Say (id msg : bytes).

Section Crypto.
Variable hmac : bytes -> bytes -> bytes.
Variable sha256 : bytes -> bytes.
Variable x25519 : bytes -> bytes -> option bytes.
Variable base : bytes -> bytes.
Variable seal : bytes -> bytes -> bytes -> bytes.
Variable unseal : bytes -> bytes -> bytes -> option bytes.
Variable scrypt : bytes -> bytes -> bytes.
Variable encap : bytes -> bytes -> bytes * bytes.
Variable decap : bytes -> bytes -> option bytes.
Variable verify_sig : bytes -> bytes -> bytes -> bool.

(** What a handler returns: its operations and its error. *)
Notation handled := (list op * res unit unit)%type.

(** ratchet.New and FillKeyExchange, as every step does. *)
Definition fresh (e : env) (p : PublicIdentity) : ratchet * res unit key_exchange :=
  fill_kx base seal scrypt encap (new_ratchet (e_priv e)) (PublicIdentity_Key p) (e_coins e) (e_salt e) (e_nonce e).

(** zkclient.go:1053-1115 [step1IDKX].  [cache] comes before [saveIdentity]
    (identity.go:192-218). *)
Definition step1 (c : client) (e : env) (p : PublicIdentity) : handled :=
  let '(nc, nk) := encap (e_coins1 e) (PublicIdentity_Key p) in
  match fresh e p with
  | (r, Ok kx) =>
      let idkx := enc IdentityKX_codec (mkIdentityKX (public c) (to_wire kx)) in
      let payload := nc ++ pack_nonce (e_nonce1 e) (seal nk (e_nonce1 e) idkx) in
      if negb (e_ok e) then ([], Err tt)
      else if identity_exists c (ident p) then ([Send false (ident p) payload], Err tt)
      else ([Send false (ident p) payload; WriteId (ident p) (marshal_public p); SaveKey nk; WriteHalf (ident p) r], Ok tt)
  | (_, Err x) => ([], Err x)
  | (_, Panic) => ([], Panic)
  end.

(** push.go:204-279 and 327-396, the common part of [step2IDKX] and [step2IDKX2]
    with the key [k] that opened the message. *)
Definition step2 (c : client) (e : env) (k plain : bytes) : handled :=
  match dec IdentityKX_codec 0 plain with
  | None => ([], Err tt)
  | Some (m, _) =>
      let p := IdentityKX_Identity m in
      if eqb (ident p) (ident (public c)) then ([], Err tt)
      else match fresh e p with
      | (r, Ok kx) =>
          match complete_kx hmac sha256 unseal scrypt decap r (private c) (of_wire (IdentityKX_KX m)) false with
          | (r', Ok _) =>
              if identity_exists c (ident p) then ([], Err tt)
              else let saved := [WriteId (ident p) (marshal_public p); WriteFull (ident p) r'] in
                if e_ok e then
                  (saved ++ [Send false (ident p) (pack_nonce (e_nonce1 e) (seal k (e_nonce1 e) (enc KX_codec (mkKX (to_wire kx)))));
                             Added p], Ok tt)
                else (saved, Err tt)
          | (_, Err x) => ([], Err x)
          | (_, Panic) => ([], Panic)
          end
      | (_, Err x) => ([], Err x)
      | (_, Panic) => ([], Panic)
      end
  end.

(** The loop over the blob keys, push.go:73-86 and 184-197: the first key that
    opens the message. *)
Fixpoint first_key (keys : list bytes) (nonce data : bytes) : option (bytes * bytes) :=
  match keys with
  | [] => None
  | k :: ks => match unseal k nonce data with Some m => Some (k, m) | None => first_key ks nonce data end
  end.

(** push.go:162-291 [step2IDKX]. *)
Definition step2_password (c : client) (e : env) (payload : bytes) : handled :=
  match payload with
  | [] => ([], Err tt)
  | _ => match unpack_nonce payload with
         | Ok (nonce, data) =>
             match first_key (e_keys e (c_keys c)) nonce data with
             | Some (k, plain) => step2 c e k plain
             | None => ([], Err tt)
             end
         | Err x => ([], Err x)
         | Panic => ([], Panic)
         end
  end.

(** push.go:293-397 [step2IDKX2]. *)
Definition step2_directory (c : client) (e : env) (payload : bytes) : handled :=
  if (length payload <? 1047)%nat then ([], Err tt)
  else match decap (private c) (firstn 1047 payload) with
       | None => ([], Err tt)
       | Some k => match unpack_nonce (skipn 1047 payload) with
                   | Ok (nonce, data) =>
                       match unseal k nonce data with
                       | Some plain => step2 c e k plain
                       | None => ([], Err tt)
                       end
                   | Err x => ([], Err x)
                   | Panic => ([], Panic)
                   end
       end.

(** identity.go:72-129 [loadRatchet]: the ratchet and the identity beside it, whose
    identity string later names the directory written to. *)
Definition load_ratchet (c : client) (id : bytes) (half : bool) : option (ratchet * PublicIdentity) :=
  match (if half then f_half (fget c id) else f_full (fget c id)), f_id (fget c id) with
  | Some r, Some b => match dec PublicIdentity_codec 0 b with Some (p, _) => Some (r, p) | None => None end
  | _, _ => None
  end.

(** identity.go:172-190 [loadIdentity]. *)
Definition load_identity (c : client) (id : bytes) : option PublicIdentity :=
  match f_id (fget c id) with
  | Some b => match unmarshal_public sha256 verify_sig b with Ok p => Some p | _ => None end
  | None => None
  end.

(** push.go:54-160 [step3IDKX]. *)
Definition step3 (c : client) (e : env) (from payload : bytes) : handled :=
  match unpack_nonce payload with
  | Ok (nonce, data) =>
      match first_key (e_keys e (c_keys c)) nonce data with
      | None => ([], Err tt)
      | Some (_, plain) =>
          match dec KX_codec 0 plain with
          | None => ([], Err tt)
          | Some (m, _) =>
              match load_ratchet c from true with
              | None => ([], Err tt)
              | Some (r, p) =>
                  match complete_kx hmac sha256 unseal scrypt decap r (private c) (of_wire (KX_KX m)) true with
                  | (r', Ok _) =>
                      let saved := [WriteFull (ident p) r'; DropHalf from] in
                      match load_identity (apply_ops c saved) from with
                      | None => (saved, Err tt)
                      | Some q => if eqb from (ident q) then (saved ++ [Added q], Ok tt) else (saved, Err tt)
                      end
                  | (_, Err x) => ([], Err x)
                  | (_, Panic) => ([], Panic)
                  end
              end
          end
      end
  | Err x => ([], Err x)
  | Panic => ([], Panic)
  end.

(** reset.go:52-71 [handleResetRatchet]. *)
Definition handle_reset (c : client) (e : env) (from : bytes) : handled :=
  match load_identity c from with
  | None => ([], Err tt)
  | Some p =>
      let gone := [DropHalf from; DropFull from] in
      let '(ops, r) := step1 (apply_ops c gone) e p in (gone ++ ops, r)
  end.

(** push.go:399-475 [handlePush], up to the decoding of a decrypted message. *)
Definition handle_push (c : client) (e : env) (clear : bool) (from payload : bytes) : handled :=
  if eqb from (repeat 0 32) then ([], Err tt)
  else if clear then
    match dec ProxyCmd_codec 0 payload with
    | Some (pc, _) => if ProxyCmd_Command pc =? cmd_reset then handle_reset c e from else ([], Err tt)
    | None => ([], Err tt)
    end
  else if negb (identity_exists c from) then
    (if c_dir c then step2_directory c e payload else step2_password c e payload)
  else if negb (ratchet_exists c from) then step3 c e from payload
  else match load_ratchet c from false with
  | None => ([], Err tt)
  | Some (r, p) =>
      match RatchetModel.decrypt hmac sha256 x25519 unseal (e_saved e (map fst (saved r))) (e_now e) r payload with
      | (r', Got _) => ([WriteFull (ident p) r'], Ok tt)
      | (_, _) => ([], Err tt)
      end
  end.

(** kxwindow.go:102-147: share the own identity under a password. *)
Definition share_self (c : client) (e : env) (password : bytes) : handled :=
  if e_ok e then ([SaveKey (scrypt password (e_salt1 e))], Ok tt) else ([], Err tt).
Definition shared_blob (c : client) (e : env) (password : bytes) : bytes :=
  share scrypt seal (e_salt1 e) (e_nonce1 e) password (enc PublicIdentity_codec (public c)).

(** kxacceptwindow.go:108-178 and, the user having typed yes,
    acceptclientfingerprint.go:112-209. *)
Definition accept_shared (c : client) (e : env) (password blob : bytes) : handled :=
  match unpack_salt_nonce blob with
  | Ok (salt, nonce, data) =>
      let dk := scrypt password salt in
      match unseal dk nonce data with
      | None => ([], Err tt)
      | Some plain =>
          match dec PublicIdentity_codec 0 plain with
          | None => ([], Err tt)
          | Some (p, _) =>
              if eqb (ident (public c)) (ident p) then ([], Err tt)
              else if identity_exists c (ident p) then ([], Err tt)
              else match fresh e p with
              | (r, Ok kx) =>
                  if negb (e_ok e) then ([], Err tt)
                  else ([Send false (ident p) (pack_nonce (e_nonce1 e) (seal dk (e_nonce1 e)
                           (enc IdentityKX_codec (mkIdentityKX (public c) (to_wire kx)))));
                         WriteId (ident p) (marshal_public p); SaveKey dk; WriteHalf (ident p) r], Ok tt)
              | (_, Err x) => ([], Err x)
              | (_, Panic) => ([], Panic)
              end
          end
      end
  | Err x => ([], Err x)
  | Panic => ([], Panic)
  end.

(** zkclient.go:1768-1840 [reset] for the identity [id] of the nick given: the half
    ratchet goes before the check that there is a ratchet. *)
Definition user_reset (c : client) (e : env) (id : bytes) : handled :=
  if negb (e_ok e) then ([], Err tt)
  else if ratchet_exists c id then
    ([DropHalf id; DropFull id;
      Send true id (enc ProxyCmd_codec (mkProxyCmd cmd_reset (bs "reset ratchet initiated by: " ++ hex_encode (ident (public c)))))], Ok tt)
  else ([DropHalf id], Err tt).

(** msg.go:437-519 [cacheCRPC], a message [msg] as composed by [crpc]. *)
Definition say (c : client) (e : env) (id msg : bytes) : handled :=
  if negb (e_ok e) then ([], Err tt)
  else match load_ratchet c id false with
  | None => ([], Ok tt)
  | Some (r, p) =>
      match RatchetModel.encrypt hmac sha256 x25519 base seal r (e_step e) (e_hn e) (e_mn e) msg with
      | (r', Some ct) => ([Send false (ident p) ct; WriteFull (ident p) r'], Ok tt)
      | (_, None) => ([], Err tt)
      end
  end.

(** zkclient/addressbook.go:30-45, the callback once the server acknowledged. *)
Definition delete (id : bytes) : handled := ([DropAll id], Ok tt).

Definition react (c : client) (e : env) (ev : event) : handled :=
  match ev with
  | Push clear from payload => handle_push c e clear from payload
  | FindReply p => step1 c e p
  | Share password => share_self c e password
  | Accept password blob => accept_shared c e password blob
  | Reset id => user_reset c e id
  | Delete id => delete id
  | Say id msg => say c e id msg
  end.

(** The state after an event in which the client stopped after [n] operations. *)
Definition cut (c : client) (e : env) (ev : event) (n : nat) : client := apply_ops c (firstn n (fst (react c e ev))).
Definition done (c : client) (e : env) (ev : event) : client := apply_ops c (fst (react c e ev)).
End Crypto.
