(** Model of the axolotl ratchet, /repo/ratchet/ratchet.go.

    Parameters: HMAC-SHA256 [hmac key label], SHA-256, curve25519 ([x25519 priv
    pub] is curve25519.X25519, None its error for low order points; [base] is
    ScalarBaseMult), secretbox, scrypt and sntrup4591761.  Random draws and the
    clock are arguments.
    Simplifications: errors of the random source (the code panics) are left out;
    the Go map r.saved is an association list, and the iteration order of the map
    is an argument of [decrypt]; durations do not overflow. *)
From Verif Require Import Base XdrModel RpcModel BlobModel.
Local Open Scope N_scope.

Definition zero32 : bytes := repeat 0 32.

(** ratchet.go:80-86. *)
Record saved_key := mkSaved { sk_key : bytes; sk_time : Z }.

(** Notation for the maps of the code (ratchet.go:69-71). *)
Notation key_map := (list (N * saved_key)).
Notation saved_map := (list (bytes * key_map)).

(** ratchet.go:44-78, without the identity keys, which are arguments of the key
    exchange functions. *)
Record ratchet := mkRatchet {
  root_key : bytes;
  send_header : bytes; recv_header : bytes;
  next_send_header : bytes; next_recv_header : bytes;
  send_chain : bytes; recv_chain : bytes;
  send_private : bytes; recv_public : bytes;
  send_count : N; recv_count : N; prev_count : N;
  ratchet_flag : bool;
  saved : saved_map;
  my_half : option bytes; their_half : option bytes; kx_private : option bytes
}.

(** ratchet.go:94-101 New. *)
Definition new_ratchet (priv : bytes) : ratchet :=
  mkRatchet zero32 zero32 zero32 zero32 zero32 zero32 zero32 zero32 zero32 0 0 0 false [] None None (Some priv).

(** encoding/binary LittleEndian.PutUint32 and Uint32. *)
Definition put_le32 (n : N) : bytes :=
  [n mod 256; (n / 256) mod 256; (n / 65536) mod 256; (n / 16777216) mod 256].
Definition get_le32 (b : bytes) : N :=
  nth 0 b 0 + 256 * nth 1 b 0 + 65536 * nth 2 b 0 + 16777216 * nth 3 b 0.

(** ratchet.go:145-156. *)
Definition chain_label := bs "chain key".
Definition header_label := bs "header key".
Definition next_recv_label := bs "next receive header key".
Definition root_label := bs "root key".
Definition root_update_label := bs "root key update".
Definition next_send_label := bs "next send header key".
Definition message_label := bs "message key".
Definition step_label := bs "chain key step".

(** ratchet.go:520-529 inv32 and 158-176 validateECDHpoint. *)
Definition valid_point (p : bytes) : bool :=
  if negb (N.of_nat (length p) =? 32) then false
  else let pn := of_be (rev p) in negb (pn <? 3) && (pn <? 2 ^ 255 - 19).

Record key_exchange := mkKx { kx_cipher : bytes; kx_public : bytes }.

Inductive outcome := Got (m : bytes) | Fail | Hang.

Section Crypto.
Variable hmac : bytes -> bytes -> bytes.
Variable sha256 : bytes -> bytes.
Variable x25519 : bytes -> bytes -> option bytes.
Variable base : bytes -> bytes.
Variable seal : bytes -> bytes -> bytes -> bytes.
Variable unseal : bytes -> bytes -> bytes -> option bytes.

Section Kx.
Variable scrypt : bytes -> bytes -> bytes.
Variable encap : bytes -> bytes -> bytes * bytes.
Variable decap : bytes -> bytes -> option bytes.

(** ratchet.go:103-133 FillKeyExchange; dereferencing a nil kxPrivate (after the
    exchange is complete) panics. *)
Definition fill_kx (r : ratchet) (their_pk coins salt nonce : bytes) : ratchet * res unit key_exchange :=
  let '(c, k) := encap coins their_pk in
  match kx_private r with
  | None => (r, Panic)
  | Some priv =>
      (mkRatchet (root_key r) (send_header r) (recv_header r) (next_send_header r) (next_recv_header r)
                 (send_chain r) (recv_chain r) (send_private r) (recv_public r)
                 (send_count r) (recv_count r) (prev_count r) (ratchet_flag r) (saved r)
                 (Some k) (their_half r) (kx_private r),
       Ok (mkKx c (share scrypt seal salt nonce k (base priv))))
  end.

(** ratchet.go:178-238 CompleteKeyExchange.  Slicing a nil MyHalf or kxPrivate
    panics. *)
Definition complete_kx (r : ratchet) (my_sk : bytes) (kx : key_exchange) (alice : bool) : ratchet * res unit unit :=
  match decap my_sk (kx_cipher kx) with
  | None => (r, Err tt)
  | Some k =>
      let r := mkRatchet (root_key r) (send_header r) (recv_header r) (next_send_header r) (next_recv_header r)
                 (send_chain r) (recv_chain r) (send_private r) (recv_public r)
                 (send_count r) (recv_count r) (prev_count r) (ratchet_flag r) (saved r)
                 (my_half r) (Some k) (kx_private r) in
      match accept scrypt unseal k (kx_public kx) with
      | Panic => (r, Panic)
      | Err e => (r, Err e)
      | Ok pub =>
          if negb (valid_point pub) then (r, Err tt)
          else match my_half r with
          | None => (r, Panic)
          | Some mine =>
              let shared := sha256 (if alice then mine ++ k else k ++ mine) in
              if alice then
                (mkRatchet (hmac shared root_label)
                   (send_header r) (hmac shared header_label)
                   (hmac shared next_send_label) (hmac shared next_recv_label)
                   (send_chain r) (hmac shared chain_label)
                   (send_private r) pub
                   (send_count r) (recv_count r) (prev_count r) true (saved r)
                   (my_half r) (their_half r) None, Ok tt)
              else match kx_private r with
              | None => (r, Panic)
              | Some priv =>
                (mkRatchet (hmac shared root_label)
                   (hmac shared header_label) (recv_header r)
                   (hmac shared next_recv_label) (hmac shared next_send_label)
                   (hmac shared chain_label) (recv_chain r)
                   priv (recv_public r)
                   (send_count r) (recv_count r) (prev_count r) false (saved r)
                   (my_half r) (their_half r) None, Ok tt)
              end
          end
      end
  end.
End Kx.

(** The ratchet step of Encrypt, ratchet.go:242-262; [priv] is the fresh private
    key.  After an error of X25519 the new private key and header key stay. *)
Definition ratchet_step (r : ratchet) (priv : bytes) : ratchet * bool :=
  match x25519 priv (recv_public r) with
  | None =>
      (mkRatchet (root_key r) (next_send_header r) (recv_header r) (next_send_header r) (next_recv_header r)
         (send_chain r) (recv_chain r) priv (recv_public r)
         (send_count r) (recv_count r) (prev_count r) (ratchet_flag r) (saved r)
         (my_half r) (their_half r) (kx_private r), false)
  | Some shared =>
      let km := sha256 (root_update_label ++ root_key r ++ shared) in
      (mkRatchet (hmac km root_label) (next_send_header r) (recv_header r)
         (hmac km next_send_label) (next_recv_header r)
         (hmac km chain_label) (recv_chain r) priv (recv_public r)
         0 (recv_count r) (send_count r) false (saved r)
         (my_half r) (their_half r) (kx_private r), true)
  end.

(** ratchet.go:269-280: the header's plaintext. *)
Definition header_plain (num prev : N) (pub nonce : bytes) : bytes :=
  put_le32 num ++ put_le32 prev ++ pub ++ nonce.

(** ratchet.go:240-284 Encrypt with empty [out]; [priv], [hn], [mn] are the random
    private key (used only for a ratchet step), header nonce and message nonce. *)
Definition encrypt (r : ratchet) (priv hn mn msg : bytes) : ratchet * option bytes :=
  let '(r, ok) := if ratchet_flag r then ratchet_step r priv else (r, true) in
  if negb ok then (r, None)
  else
    let mkey := hmac (send_chain r) message_label in
    let chain := hmac (send_chain r) step_label in
    let header := header_plain (send_count r) (prev_count r) (base (send_private r)) mn in
    (mkRatchet (root_key r) (send_header r) (recv_header r) (next_send_header r) (next_recv_header r)
       chain (recv_chain r) (send_private r) (recv_public r)
       ((send_count r + 1) mod 2 ^ 32) (recv_count r) (prev_count r) (ratchet_flag r) (saved r)
       (my_half r) (their_half r) (kx_private r),
     Some (hn ++ seal (send_header r) hn header ++ seal mkey mn msg)).

(** The parts of a ciphertext (ratchet.go:288-295, 414-418); the sealed header is
    24 bytes of nonce and 80 of box. *)
Definition ct_nonce (ct : bytes) : bytes := firstn 24 ct.
Definition ct_header (ct : bytes) : bytes := firstn 80 (skipn 24 ct).
Definition ct_body (ct : bytes) : bytes := skipn 104 ct.

(** header[:4], header[4:8], header[8:] copied into 32 bytes, header[40:] copied
    into 24 bytes. *)
Definition h_num (h : bytes) : N := get_le32 (firstn 4 h).
Definition h_prev (h : bytes) : N := get_le32 (firstn 4 (skipn 4 h)).
Definition h_pub (h : bytes) : bytes := firstn 32 (skipn 8 h).
Definition h_nonce (h : bytes) : bytes := firstn 24 (skipn 40 h).

(** ratchet.go:286-327 trySavedKeys: the loop over the map in the order given.
    None is an error; Some (saved, msg) the result, where an empty [msg] is nil
    (secretbox.Open returns nil for an empty plaintext). *)
Fixpoint try_saved (order : list bytes) (sv : saved_map) (ct : bytes) : option (saved_map * bytes) :=
  match order with
  | [] => Some (sv, [])
  | hk :: rest =>
      match mget sv hk with
      | None => try_saved rest sv ct
      | Some keys =>
          match unseal hk (ct_nonce ct) (ct_header ct) with
          | None => try_saved rest sv ct
          | Some h =>
              if negb (N.of_nat (length h) =? 64) then try_saved rest sv ct
              else match mget keys (h_num h) with
              | None => Some (sv, [])
              | Some k =>
                  match unseal (sk_key k) (h_nonce h) (ct_body ct) with
                  | None => None
                  | Some msg =>
                      let keys' := mdel keys (h_num h) in
                      Some (match keys' with [] => mdel sv hk | _ => mset sv hk keys' end, msg)
                  end
              end
          end
      end
  end.

(** ratchet.go:365-372, the loop of saveKeys, with a bound on the number of
    iterations: None when the bound does not suffice.  [n] is a uint32. *)
Fixpoint save_loop (fuel : nat) (n num : N) (now : Z) (chain mkey : bytes) (keys : key_map)
  : option (bytes * bytes * key_map) :=
  match fuel with
  | O => None
  | S fuel' =>
      if n <=? num then
        let mkey' := hmac chain message_label in
        let chain' := hmac chain step_label in
        save_loop fuel' ((n + 1) mod 2 ^ 32) num now chain' mkey'
          (if n <? num then mset keys n (mkSaved mkey' now) else keys)
      else Some (chain, mkey, keys)
  end.

Inductive save_result := Refused | Forever | Keys (chain mkey : bytes) (keys : key_map).

(** ratchet.go:329-380 saveKeys; the caller adds the header key.  82 iterations
    suffice unless the loop runs forever (proved in RatchetProofs.v). *)
Definition save_keys (now : Z) (chain : bytes) (num count : N) : save_result :=
  if num <? count then Refused
  else if 80 <? num - count then Refused
  else match save_loop 82 count num now chain zero32 [] with
       | None => Forever
       | Some (chain', mkey, keys) => Keys chain' mkey keys
       end.

(** ratchet.go:382-396 mergeSavedKeys of the keys saved for one header key; none
    were saved if the map is nil. *)
Definition merge_saved (sv : saved_map) (hk : bytes) (keys : key_map) : saved_map :=
  match keys with
  | [] => sv
  | _ => match mget sv hk with
         | None => mset sv hk keys
         | Some old => mset sv hk (fold_left (fun m kv => mset m (fst kv) (snd kv)) keys old)
         end
  end.

(** ratchet.go:398-406 isZeroKey. *)
Definition is_zero_key (k : bytes) : bool := forallb (N.eqb 0) k.

Definition set_saved (r : ratchet) (sv : saved_map) : ratchet :=
  mkRatchet (root_key r) (send_header r) (recv_header r) (next_send_header r) (next_recv_header r)
    (send_chain r) (recv_chain r) (send_private r) (recv_public r)
    (send_count r) (recv_count r) (prev_count r) (ratchet_flag r) sv
    (my_half r) (their_half r) (kx_private r).

(** ratchet.go:422-443: a message of the current receiving chain whose header is
    [h]. *)
Definition decrypt_current (now : Z) (r : ratchet) (h ct : bytes) : ratchet * outcome :=
  if negb (N.of_nat (length h) =? 64) then (r, Fail)
  else match save_keys now (recv_chain r) (h_num h) (recv_count r) with
  | Refused => (r, Fail)
  | Forever => (r, Hang)
  | Keys chain mkey keys =>
      match unseal mkey (h_nonce h) (ct_body ct) with
      | None => (r, Fail)
      | Some msg =>
          (mkRatchet (root_key r) (send_header r) (recv_header r) (next_send_header r) (next_recv_header r)
             (send_chain r) chain (send_private r) (recv_public r)
             (send_count r) ((h_num h + 1) mod 2 ^ 32) (prev_count r) (ratchet_flag r)
             (merge_saved (saved r) (recv_header r) keys)
             (my_half r) (their_half r) (kx_private r), Got msg)
      end
  end.

(** ratchet.go:449-508: a message of the next receiving chain. *)
Definition decrypt_next (now : Z) (r : ratchet) (h ct : bytes) : ratchet * outcome :=
  if negb (N.of_nat (length h) =? 64) then (r, Fail)
  else if ratchet_flag r then (r, Fail)
  else match save_keys now (recv_chain r) (h_prev h) (recv_count r) with
  | Refused => (r, Fail)
  | Forever => (r, Hang)
  | Keys _ _ old_keys =>
      match x25519 (send_private r) (h_pub h) with
      | None => (r, Fail)
      | Some shared =>
          let km := sha256 (root_update_label ++ root_key r ++ shared) in
          match save_keys now (hmac km chain_label) (h_num h) 0 with
          | Refused => (r, Fail)
          | Forever => (r, Hang)
          | Keys chain mkey keys =>
              match unseal mkey (h_nonce h) (ct_body ct) with
              | None => (r, Fail)
              | Some msg =>
                  (mkRatchet (hmac km root_label) (send_header r) (next_recv_header r)
                     (next_send_header r) (hmac km next_send_label)
                     (send_chain r) chain zero32 (h_pub h)
                     (send_count r) ((h_num h + 1) mod 2 ^ 32) (prev_count r) true
                     (merge_saved (merge_saved (saved r) (recv_header r) old_keys) (next_recv_header r) keys)
                     (my_half r) (their_half r) (kx_private r), Got msg)
              end
          end
      end
  end.

(** ratchet.go:408-509 Decrypt.  An error of trySavedKeys and a message found by it
    are returned at once; its result nil, also for an empty message just taken,
    continues. *)
Definition decrypt (order : list bytes) (now : Z) (r : ratchet) (ct : bytes) : ratchet * outcome :=
  if N.of_nat (length ct) <? 104 then (r, Fail)
  else match try_saved order (saved r) ct with
  | None => (r, Fail)
  | Some (sv, (_ :: _) as msg) => (set_saved r sv, Got msg)
  | Some (sv, []) =>
      let r := set_saved r sv in
      match (if is_zero_key (recv_header r) then None
             else unseal (recv_header r) (ct_nonce ct) (ct_header ct)) with
      | Some h => decrypt_current now r h ct
      | None =>
          match unseal (next_recv_header r) (ct_nonce ct) (ct_header ct) with
          | None => (r, Fail)
          | Some h => decrypt_next now r h ct
          end
      end
  end.
End Crypto.

(** * Saving and loading *)

(** time.Time in nanoseconds; Unix() is in seconds. *)
Definition unix (t : Z) : Z := (t / 1000000000)%Z.
Definition dup32 (k : option bytes) : bytes := match k with Some k => k | None => [] end.

(** ratchet.go:511-570 dup32 and Marshal; the order of the map entries is that of the list. *)
Definition marshal (now lifetime : Z) (r : ratchet) : RatchetState :=
  mkRatchetState (root_key r) (send_header r) (recv_header r) (next_send_header r) (next_recv_header r)
    (send_chain r) (recv_chain r) (send_private r) (recv_public r)
    (send_count r) (recv_count r) (prev_count r) (ratchet_flag r)
    (dup32 (kx_private r)) (dup32 (my_half r)) (dup32 (their_half r))
    (map (fun e => mkSavedKeys (fst e)
            (map (fun nk => mkSavedMessageKey (fst nk) (sk_key (snd nk)) (unix (sk_time (snd nk))))
               (filter (fun nk => negb (lifetime <? now - sk_time (snd nk))%Z) (snd e))))
       (saved r)).

(** ratchet.go:572-578 unmarshalKey. *)
Definition is32 (b : bytes) : bool := N.of_nat (length b) =? 32.

(** ratchet.go:627-644: the saved keys; None on a bad length (the map r.saved then
    has some of them; no caller uses it). *)
Fixpoint unmarshal_keys (l : list SavedMessageKey) (m : key_map) : option key_map :=
  match l with
  | [] => Some m
  | k :: r => if is32 (SavedMessageKey_Key k)
              then unmarshal_keys r (mset m (SavedMessageKey_Num k)
                     (mkSaved (SavedMessageKey_Key k) (SavedMessageKey_CreationTime k * 1000000000)%Z))
              else None
  end.
Fixpoint unmarshal_saved (l : list SavedKeys) (sv : saved_map) : option saved_map :=
  match l with
  | [] => Some sv
  | s :: r => if is32 (SavedKeys_HeaderKey s)
              then match unmarshal_keys (SavedKeys_MessageKeys s) [] with
                   | Some m => unmarshal_saved r (mset sv (SavedKeys_HeaderKey s) m)
                   | None => None
                   end
              else None
  end.

(** ratchet.go:582-647 Unmarshal into [r0].  A stored Private needs a non-nil
    kxPrivate in r0. *)
Definition unmarshal_opt (b : bytes) : res unit (option bytes) :=
  match b with [] => Ok None | _ => if is32 b then Ok (Some b) else Err tt end.
Definition unmarshal (r0 : ratchet) (s : RatchetState) : res unit ratchet :=
  if is32 (RatchetState_RootKey s) && is32 (RatchetState_SendHeaderKey s) &&
     is32 (RatchetState_RecvHeaderKey s) && is32 (RatchetState_NextSendHeaderKey s) &&
     is32 (RatchetState_NextRecvHeaderKey s) && is32 (RatchetState_SendChainKey s) &&
     is32 (RatchetState_RecvChainKey s) && is32 (RatchetState_SendRatchetPrivate s) &&
     is32 (RatchetState_RecvRatchetPublic s) then
    match unmarshal_opt (RatchetState_Private s) with
    | Ok priv =>
        match priv, kx_private r0 with
        | Some _, None => Panic
        | _, _ =>
          match unmarshal_opt (RatchetState_MyHalf s), unmarshal_opt (RatchetState_TheirHalf s),
                unmarshal_saved (RatchetState_SavedKeys s) (saved r0) with
          | Ok mine, Ok theirs, Some sv =>
              Ok (mkRatchet (RatchetState_RootKey s) (RatchetState_SendHeaderKey s) (RatchetState_RecvHeaderKey s)
                    (RatchetState_NextSendHeaderKey s) (RatchetState_NextRecvHeaderKey s)
                    (RatchetState_SendChainKey s) (RatchetState_RecvChainKey s)
                    (RatchetState_SendRatchetPrivate s) (RatchetState_RecvRatchetPublic s)
                    (RatchetState_SendCount s) (RatchetState_RecvCount s) (RatchetState_PrevSendCount s)
                    (RatchetState_Ratchet s) sv mine theirs priv)
          | _, _, _ => Err tt
          end
        end
    | Err _ => Err tt
    | Panic => Panic
    end
  else Err tt.
