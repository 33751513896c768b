(** Model of package blobshare (/repo/blobshare/blobshare.go) and of the places
    that unpack blobs received from others.

    Parameters: scrypt and secretbox.  [scrypt password salt] is scrypt.Key with
    the fixed cost set by SetNrp; [seal key nonce msg] and [unseal key nonce box]
    are secretbox.Seal and secretbox.Open.  Random draws are arguments.
    Simplification: errors of the random source and of scrypt's parameter check
    are not modelled. *)
From Verif Require Import Base.

(** blobshare.go:65-73 PackSaltNonce.  salt and nonce are arrays of 32 and 24
    bytes in the code. *)
Definition pack_salt_nonce (salt nonce data : bytes) : bytes := salt ++ nonce ++ data.

(** blobshare.go:75-89 UnpackSaltNonce.  Slicing beyond the end panics:
    packed[32+24:] needs 56 bytes (the capacity does not help). *)
Definition unpack_salt_nonce (packed : bytes) : res unit (bytes * bytes * bytes) :=
  if length packed <? 56 then Panic
  else Ok (firstn 32 packed, firstn 24 (skipn 32 packed), skipn 56 packed).

(** blobshare.go:91-98 PackNonce. *)
Definition pack_nonce (nonce data : bytes) : bytes := nonce ++ data.

(** blobshare.go:100-108 UnpackNonce. *)
Definition unpack_nonce (packed : bytes) : res unit (bytes * bytes) :=
  if length packed <? 24 then Panic
  else Ok (firstn 24 packed, skipn 24 packed).

Section Crypto.
Variable scrypt : bytes -> bytes -> bytes.
Variable seal : bytes -> bytes -> bytes -> bytes.
Variable unseal : bytes -> bytes -> bytes -> option bytes.

(** blobshare.go:34-51 NewKey with the random salt, and 53-63 DeriveKey. *)
Definition derive_key (password salt : bytes) : bytes := scrypt password salt.
Definition new_key (salt password : bytes) : bytes * bytes := (derive_key password salt, salt).

(** blobshare.go:110-123 Encrypt with the random nonce, 125-131 Decrypt. *)
Definition encrypt (nonce data key : bytes) : bytes * bytes := (seal key nonce data, nonce).
Definition decrypt (key nonce data : bytes) : res unit bytes :=
  match unseal key nonce data with Some m => Ok m | None => Err tt end.

(** zkclient/kxwindow.go:116-129 (also ratchet/ratchet.go:117-126): share data
    under a password. *)
Definition share (salt nonce password data : bytes) : bytes :=
  let '(key, salt) := new_key salt password in
  let '(encrypted, nonce) := encrypt nonce data key in
  pack_salt_nonce salt nonce encrypted.

(** zkclient/kxacceptwindow.go:114-131 (also ratchet/ratchet.go:187-199): open
    data shared under a password. *)
Definition accept (password blob : bytes) : res unit bytes :=
  match unpack_salt_nonce blob with
  | Ok (salt, nonce, data) => decrypt (derive_key password salt) nonce data
  | Err e => Err e
  | Panic => Panic
  end.

(** zkclient/push.go:54-86: step 3 of the key exchange, up to the first successful
    decryption; [keys] are the stored blob keys in iteration order. *)
Fixpoint try_keys (keys : list bytes) (nonce data : bytes) : res unit bytes :=
  match keys with
  | [] => Err tt
  | k :: ks => match decrypt k nonce data with
               | Ok m => Ok m
               | _ => try_keys ks nonce data
               end
  end.
Definition step3_open (keys : list bytes) (payload : bytes) : res unit bytes :=
  match unpack_nonce payload with
  | Ok (nonce, data) => try_keys keys nonce data
  | Err e => Err e
  | Panic => Panic
  end.

(** zkclient/push.go:162-198: step 2; an empty payload arrives as nil and is
    refused. *)
Definition step2_open (keys : list bytes) (payload : bytes) : res unit bytes :=
  match payload with [] => Err tt | _ => step3_open keys payload end.

(** zkclient/push.go:293-318: step 2 with a directory server.  [decap] is
    sntrup4591761.Decapsulate with the own key. *)
Definition step2_directory_open (decap : bytes -> option bytes) (payload : bytes) : res unit bytes :=
  if length payload <? 1047 then Err tt
  else match decap (firstn 1047 payload) with
       | None => Err tt
       | Some k => match unpack_nonce (skipn 1047 payload) with
                   | Ok (nonce, data) => decrypt k nonce data
                   | Err e => Err e
                   | Panic => Panic
                   end
       end.
End Crypto.
