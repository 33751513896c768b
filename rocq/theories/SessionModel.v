(** Model of the transport session, /repo/session/kx.go.

    Parameters: the key encapsulation sntrup4591761 (encap, decap), secretbox
    (seal, unseal), HMAC-SHA256 and SHA-512.  Random coins are arguments.

    The connection is a byte stream in each direction; frames on it are XDR
    (XdrModel.v).  A read that finds too few bytes is an error (the connection was
    closed); a read that would block until the peer sends more is the same read
    made later, so every part of the key exchange between two reads of fresh data
    is one function from the received bytes to the sent bytes.
    Simplifications: write errors of the connection, deadlines and the diagnostic
    output are left out; the mutex protected copy of the ephemeral keys is an
    argument. *)
From Verif Require Import Base XdrModel.

(** kx.go:437-444 incSeq.  [carry] is n; the eight low bytes count, little
    endian, the other sixteen never change. *)
Fixpoint inc_bytes (k : nat) (carry : N) (seq : bytes) : bytes :=
  match k, seq with
  | S k', b :: r => ((carry + b) mod 256)%N :: inc_bytes k' ((carry + b) / 256)%N r
  | _, _ => seq
  end.
Definition inc_seq (seq : bytes) : bytes := inc_bytes 8 1 seq.

Inductive error := ErrDecrypt | ErrOverflow | ErrInvalidKx | ErrUnmarshal | ErrConn.

(** The part of struct KX (kx.go:33-43) used by reads and writes. *)
Record chan := mkChan { wseq : bytes; rseq : bytes; maxsize : N }.
Definition chan0 (max : N) : chan := mkChan (repeat 0%N 24) (repeat 0%N 24) max.

Section Crypto.
Variable seal : bytes -> bytes -> bytes -> bytes.          (* key, nonce, message *)
Variable unseal : bytes -> bytes -> bytes -> option bytes.

(** kx.go:418-429 writeWithKey: the bytes sent, or an error; the new state in
    both cases. *)
Definition write_key (s : chan) (key data : bytes) : chan * res error bytes :=
  let payload := seal key (wseq s) data in
  let s' := mkChan (inc_seq (wseq s)) (rseq s) (maxsize s) in
  if (maxsize s <? N.of_nat (length payload))%N then (s', Err ErrOverflow)
  else (s', Ok (enc xopaque payload)).

(** kx.go:399-411 readWithKey: the message and the rest of the stream. *)
Definition read_key (s : chan) (key stream : bytes) : chan * res error (bytes * bytes) :=
  match dec xopaque (maxsize s) stream with
  | None => (s, Err ErrConn)
  | Some (payload, rest) =>
      let s' := mkChan (wseq s) (inc_seq (rseq s)) (maxsize s) in
      match unseal key (rseq s) payload with
      | None => (s', Err ErrDecrypt)
      | Some data => (s', Ok (data, rest))
      end
  end.

(** A series of Write calls; what each returned. *)
Fixpoint write_all (s : chan) (key : bytes) (msgs : list bytes) : chan * list (res error bytes) :=
  match msgs with
  | [] => (s, [])
  | m :: ms => let '(s1, r) := write_key s key m in
               let '(s2, rs) := write_all s1 key ms in (s2, r :: rs)
  end.

(** Read calls on a stream until the first error (the callers stop then) or [n]
    messages. *)
Fixpoint read_until_error (n : nat) (s : chan) (key stream : bytes) : list bytes :=
  match n with
  | O => []
  | S n' => match read_key s key stream with
            | (s', Ok (m, rest)) => m :: read_until_error n' s' key rest
            | (_, _) => []
            end
  end.

(** * Key exchange *)

Variable encap : bytes -> bytes -> bytes * bytes.   (* coins, public key -> ciphertext, key *)
Variable decap : bytes -> bytes -> option bytes.    (* private key, ciphertext -> key *)
Variable hmac : bytes -> bytes -> bytes.
Variable sha512 : bytes -> bytes.

(** kx.go:133-144 deriveKeys. *)
Definition derive_keys (parts : list bytes) : bytes * bytes :=
  let k := sha512 (concat parts) in (firstn 32 k, firstn 32 (skipn 32 k)).

(** Sequencing of a step that may fail. *)
Definition bind {A B} (x : chan * res error A) (f : chan -> A -> chan * res error B) : chan * res error B :=
  match x with
  | (s, Ok a) => f s a
  | (s, Err e) => (s, Err e)
  | (s, Panic) => (s, Panic)
  end.

(** kx.go:149-160 genKeyAndSendCipher; [ek] is the optional encryption key. *)
Definition gen_and_send (s : chan) (coins pk : bytes) (ek : option bytes) : chan * res error (bytes * bytes) :=
  let '(c, k) := encap coins pk in
  match ek with
  | Some ek => bind (write_key s ek c) (fun s out => (s, Ok (k, out)))
  | None => (s, Ok (k, enc (xfixed 1047) c))
  end.

(** kx.go:165-183 recvCipherAndGetKey (the callers turn failure into
    ErrInvalidKx). *)
Definition recv_cipher (s : chan) (sk : bytes) (ek : option bytes) (stream : bytes) : chan * res error (bytes * bytes) :=
  let get c rest s := match decap sk c with
                      | Some k => (s, Ok (k, rest))
                      | None => (s, Err ErrInvalidKx)
                      end in
  match ek with
  | Some ek => match read_key s ek stream with
               | (s, Ok (x, rest)) => if (N.of_nat (length x) =? 1047)%N then get x rest s else (s, Err ErrInvalidKx)
               | (s, Err _) => (s, Err ErrInvalidKx)
               | (s, Panic) => (s, Panic)
               end
  | None => match dec (xfixed 1047) 0 stream with
            | Some (c, rest) => get c rest s
            | None => (s, Err ErrInvalidKx)
            end
  end.

(** kx.go:188-199 sendProof. *)
Definition send_proof (s : chan) (mk ek : bytes) (parts : list bytes) : chan * res error (bytes * bytes) :=
  let d := hmac mk (concat parts) in
  bind (write_key s ek d) (fun s out => (s, Ok (d, out))).

(** kx.go:204-223 recvProof. *)
Definition recv_proof (s : chan) (mk ek : bytes) (parts : list bytes) (stream : bytes) : chan * res error (bytes * bytes) :=
  let d := hmac mk (concat parts) in
  bind (read_key s ek stream) (fun s x =>
    if negb (N.of_nat (length (fst x)) =? 32)%N then (s, Err ErrUnmarshal)
    else if eqb d (fst x) then (s, Ok (d, snd x)) else (s, Err ErrUnmarshal)).

(** kx.go:227-238 recvEncryptedIdentity. *)
Definition recv_identity (s : chan) (ek stream : bytes) : chan * res error (bytes * bytes) :=
  bind (read_key s ek stream) (fun s x =>
    if (N.of_nat (length (fst x)) =? 1218)%N then (s, Ok x) else (s, Err ErrUnmarshal)).

(** Initiate, kx.go:245-316, cut where it waits for the server.  Part 1 is steps 1
    and 2. *)
Definition initiate1 (s : chan) (server_pk e_pk coins1 : bytes) : chan * res error (bytes * bytes) :=
  bind (gen_and_send s coins1 server_pk None) (fun s r =>
    let '(k1, out1) := r in
    bind (write_key s k1 e_pk) (fun s out2 => (s, Ok (k1, out1 ++ out2)))).

(** Steps 3 to 8. *)
Record init_mid := mkInitMid { i_k2 : bytes; i_k3 : bytes; i_cp : bytes }.
Definition initiate2 (s : chan) (our_pk e_pk e_sk k1 coins3 stream : bytes) : chan * res error (init_mid * bytes * bytes) :=
  bind (recv_cipher s e_sk (Some k1) stream) (fun s r =>
    let '(k2, st) := r in
    bind (recv_identity s k2 st) (fun s r =>
      let '(their_e, st) := r in
      bind (recv_proof s k1 k2 [e_pk; their_e] st) (fun s r =>
        let '(sp, st) := r in
        bind (gen_and_send s coins3 their_e (Some k2)) (fun s r =>
          let '(k3, out1) := r in
          bind (write_key s k3 our_pk) (fun s out2 =>
            bind (send_proof s k2 k3 [sp; our_pk]) (fun s r =>
              let '(cp, out3) := r in
              (s, Ok (mkInitMid k2 k3 cp, out1 ++ out2 ++ out3, st)))))))).

(** Steps 9, 10 and the session keys: (read key, write key, rest of the stream). *)
Definition initiate3 (s : chan) (our_sk server_pk k1 : bytes) (m : init_mid) (stream : bytes) : chan * res error (bytes * bytes * bytes) :=
  bind (recv_cipher s our_sk (Some (i_k3 m)) stream) (fun s r =>
    let '(k4, st) := r in
    bind (recv_proof s (i_k3 m) k4 [i_cp m; server_pk] st) (fun s r =>
      let '(_, st) := r in
      let '(rk, wk) := derive_keys [k1; i_k2 m; i_k3 m; k4] in
      (s, Ok (rk, wk, st)))).

(** Respond, kx.go:323-397.  Part 1 is steps 1 to 5. *)
Record resp_mid := mkRespMid { r_k1 : bytes; r_k2 : bytes; r_sp : bytes }.
Definition respond1 (s : chan) (our_sk epk coins2 stream : bytes) : chan * res error (resp_mid * bytes * bytes) :=
  bind (recv_cipher s our_sk None stream) (fun s r =>
    let '(k1, st) := r in
    bind (recv_identity s k1 st) (fun s r =>
      let '(their_e, st) := r in
      bind (gen_and_send s coins2 their_e (Some k1)) (fun s r =>
        let '(k2, out1) := r in
        bind (write_key s k2 epk) (fun s out2 =>
          bind (send_proof s k1 k2 [their_e; epk]) (fun s r =>
            let '(sp, out3) := r in
            (s, Ok (mkRespMid k1 k2 sp, out1 ++ out2 ++ out3, st))))))).

(** Steps 6 to 10 and the session keys: (read key, write key, client's public key,
    sent bytes, rest). *)
Definition respond2 (s : chan) (our_pk esk coins4 : bytes) (m : resp_mid) (stream : bytes)
  : chan * res error (bytes * bytes * bytes * bytes * bytes) :=
  bind (recv_cipher s esk (Some (r_k2 m)) stream) (fun s r =>
    let '(k3, st) := r in
    bind (recv_identity s k3 st) (fun s r =>
      let '(their_pk, st) := r in
      bind (recv_proof s (r_k2 m) k3 [r_sp m; their_pk] st) (fun s r =>
        let '(cp, st) := r in
        bind (gen_and_send s coins4 their_pk (Some k3)) (fun s r =>
          let '(k4, out1) := r in
          bind (send_proof s k3 k4 [cp; our_pk]) (fun s r =>
            let '(_, out2) := r in
            let '(wk, rk) := derive_keys [r_k1 m; r_k2 m; k3; k4] in
            (s, Ok (rk, wk, their_pk, out1 ++ out2, st))))))).

End Crypto.
