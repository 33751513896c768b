(** Symbolic model of the session key exchange of /repo/session/kx.go with many
    clients, many servers and an active attacker.

    SessionModel.v is the same code over bytes and for one undisturbed run; here
    the messages are terms and the network belongs to the attacker, who sees
    everything that is sent and supplies everything that is received
    (the usual Dolev-Yao model).  Any number of runs of Initiate and Respond take
    place at the same time.

    What the attacker can do: draw coins and key pairs of its own, build and take
    apart terms with the keys it knows, decapsulate with private keys it knows or
    when the public key is no key pair of anybody, learn long term private keys
    (event [Leak]).  Because three boxes of the key exchange share key and nonce
    with a box of the other direction (property C13), boxes with the nonces 0, 1
    and 3 are given no protection at all: the attacker opens and forges them
    without the key.

    Simplifications: terms are free (no hash or MAC collisions, proofs are
    concatenations of parts of fixed length, so pairing is unambiguous); the
    shared key depends on the coins only, as in sntrup4591761, so the attacker who
    knows the coins can encapsulate the same key to another public key;
    recvEncryptedIdentity's length check is left out, so more is accepted here than
    by the code; a run that got an unacceptable message keeps waiting, where the
    code gives up.  Ephemeral private keys and coins do not leak. *)
From Coq Require Import List Arith Lia Bool.
Import ListNotations.

(** Key pairs: the long term pair of somebody (OurPublicKey, OurPrivateKey), the
    ephemeral pair of run [i] of Initiate (kx.go:246-249), an ephemeral pair of
    server [a] (kx.go:47-66, 81-96: changed every minute and shared by the runs of
    Respond in that minute, kx.go:324-330), and the attacker's. *)
Inductive name := Long (a : nat) | CEph (i : nat) | SEph (a e : nat) | Atk (n : nat).

(** Coins of Encapsulate: steps 1 and 6 of run [i] of Initiate, steps 3 and 9 of
    run [j] of Respond, and the attacker's. *)
Inductive coin := R1 (i : nat) | R2 (j : nat) | R3 (i : nat) | R4 (j : nat) | Ra (n : nat).

(** Secret texts: number [n] written by run [i] of Initiate or run [j] of
    Respond. *)
Inductive secret := FromC (i n : nat) | FromS (j n : nat).

Inductive term :=
| Pk (k : name) | Sk (k : name)
| Rnd (c : coin)                     (* coins *)
| Key (c : coin)                     (* the shared key that Encapsulate makes of them *)
| Cph (p : term) (c : coin)          (* the ciphertext for public key [p] *)
| Box (k : term) (n : nat) (m : term)  (* secretbox.Seal of m, nonce n, key k *)
| Mac (k m : term)                   (* HMAC-SHA256 *)
| Pair (a b : term)                  (* concatenation *)
| Ses (first : bool) (k1 k2 k3 k4 : term)  (* one half of deriveKeys, kx.go:133-144 *)
| Sec (s : secret)                   (* a secret text *)
| Txt (n : nat).                     (* any other text *)

Definition name_eq (x y : name) : {x = y} + {x <> y}. Proof. decide equality; apply Nat.eq_dec. Defined.
Definition coin_eq (x y : coin) : {x = y} + {x <> y}. Proof. decide equality; apply Nat.eq_dec. Defined.
Definition secret_eq (x y : secret) : {x = y} + {x <> y}. Proof. decide equality; apply Nat.eq_dec. Defined.
Definition term_eq (x y : term) : {x = y} + {x <> y}.
Proof. decide equality; auto using name_eq, coin_eq, secret_eq, Nat.eq_dec, Bool.bool_dec. Defined.
Definition is (x y : term) : bool := if term_eq x y then true else false.

(** ** The two roles *)

(** kx.go:399-411 readWithKey with readSeq [n]. *)
Definition read_key (n : nat) (ek b : term) : option term :=
  match b with
  | Box k n' m => if is k ek && (n' =? n) then Some m else None
  | _ => None
  end.

(** kx.go:418-429 writeWithKey with writeSeq [n]. *)
Definition write_key (n : nat) (ek data : term) : term := Box ek n data.

(** kx.go:149-160 genKeyAndSendCipher. *)
Definition gen_and_send (c : coin) (pk : term) (ek : option (term * nat)) : term * term :=
  (Key c, match ek with
          | Some (ek, n) => write_key n ek (Cph pk c)
          | None => Cph pk c
          end).

(** kx.go:165-183 recvCipherAndGetKey. *)
Definition decap (sk : name) (x : term) : option term :=
  match x with
  | Cph p c => if is p (Pk sk) then Some (Key c) else None
  | _ => None
  end.
Definition recv_cipher (sk : name) (ek : option (term * nat)) (b : term) : option term :=
  match ek with
  | Some (ek, n) => match read_key n ek b with Some x => decap sk x | None => None end
  | None => decap sk b
  end.

(** kx.go:188-199 sendProof: the proof and what is sent. *)
Definition send_proof (n : nat) (mk ek parts : term) : term * term :=
  (Mac mk parts, write_key n ek (Mac mk parts)).

(** kx.go:204-223 recvProof. *)
Definition recv_proof (n : nat) (mk ek parts b : term) : option term :=
  match read_key n ek b with
  | Some x => if is x (Mac mk parts) then Some (Mac mk parts) else None
  | None => None
  end.

(** kx.go:227-238 recvEncryptedIdentity. *)
Definition recv_identity (n : nat) (ek b : term) : option term := read_key n ek b.

(** Initiate, kx.go:245-316, steps 1 and 2.  Run [i] with server key [srv]
    (TheirPublicKey).  Everything it writes is numbered 0, 1, 2, ... by writeSeq
    and everything it reads by readSeq. *)
Definition initiate1 (i : nat) (srv : term) : list term :=
  let '(k1, o1) := gen_and_send (R1 i) srv None in
  [o1; write_key 0 k1 (Pk (CEph i))].

(** Steps 3 to 8: what is kept (k2, the server's ephemeral key, both proofs, k3)
    and what is sent. *)
Record imid := mkImid { i_k2 : term; i_te : term; i_sp : term; i_k3 : term; i_cp : term }.
Definition initiate2 (i me : nat) (b0 b1 b2 : term) : option (imid * list term) :=
  let k1 := Key (R1 i) in
  match recv_cipher (CEph i) (Some (k1, 0)) b0 with
  | None => None
  | Some k2 =>
    match recv_identity 1 k2 b1 with
    | None => None
    | Some te =>
      match recv_proof 2 k1 k2 (Pair (Pk (CEph i)) te) b2 with
      | None => None
      | Some sp =>
        let '(k3, o1) := gen_and_send (R3 i) te (Some (k2, 1)) in
        let o2 := write_key 2 k3 (Pk (Long me)) in
        let '(cp, o3) := send_proof 3 k2 k3 (Pair sp (Pk (Long me))) in
        Some (mkImid k2 te sp k3 cp, [o1; o2; o3])
      end
    end
  end.

(** Steps 9 and 10: k4. *)
Definition initiate3 (me : nat) (srv : term) (m : imid) (b3 b4 : term) : option term :=
  match recv_cipher (Long me) (Some (i_k3 m, 3)) b3 with
  | None => None
  | Some k4 =>
    match recv_proof 4 (i_k3 m) k4 (Pair (i_cp m) srv) b4 with
    | None => None
    | Some _ => Some k4
    end
  end.

(** kx.go:310: readKey and writeKey of the initiator. *)
Definition i_read (i : nat) (m : imid) (k4 : term) : term := Ses true (Key (R1 i)) (i_k2 m) (i_k3 m) k4.
Definition i_write (i : nat) (m : imid) (k4 : term) : term := Ses false (Key (R1 i)) (i_k2 m) (i_k3 m) k4.

(** Respond, kx.go:323-397, steps 1 to 5.  Run [j] of server [me] with its
    ephemeral pair [e]. *)
Record rmid := mkRmid { r_k1 : term; r_te : term; r_sp : term }.
Definition respond1 (j me e : nat) (c1 b0 : term) : option (rmid * list term) :=
  match recv_cipher (Long me) None c1 with
  | None => None
  | Some k1 =>
    match recv_identity 0 k1 b0 with
    | None => None
    | Some te =>
      let '(k2, o1) := gen_and_send (R2 j) te (Some (k1, 0)) in
      let o2 := write_key 1 k2 (Pk (SEph me e)) in
      let '(sp, o3) := send_proof 2 k1 k2 (Pair te (Pk (SEph me e))) in
      Some (mkRmid k1 te sp, [o1; o2; o3])
    end
  end.

(** Steps 6 to 10: k3, the client's public key (TheirPublicKey), its proof, k4. *)
Record rend := mkRend { r_k3 : term; r_id : term; r_cp : term }.
Definition respond2 (j me e : nat) (m : rmid) (b1 b2 b3 : term) : option (rend * list term) :=
  let k2 := Key (R2 j) in
  match recv_cipher (SEph me e) (Some (k2, 1)) b1 with
  | None => None
  | Some k3 =>
    match recv_identity 2 k3 b2 with
    | None => None
    | Some id =>
      match recv_proof 3 k2 k3 (Pair (r_sp m) id) b3 with
      | None => None
      | Some cp =>
        let '(k4, o1) := gen_and_send (R4 j) id (Some (k3, 3)) in
        let '(_, o2) := send_proof 4 k3 k4 (Pair cp (Pk (Long me))) in
        Some (mkRend k3 id cp, [o1; o2])
      end
    end
  end.

(** kx.go:390: writeKey and readKey of the responder. *)
Definition r_write (j : nat) (m : rmid) (x : rend) : term := Ses true (r_k1 m) (Key (R2 j)) (r_k3 x) (Key (R4 j)).
Definition r_read (j : nat) (m : rmid) (x : rend) : term := Ses false (r_k1 m) (Key (R2 j)) (r_k3 x) (Key (R4 j)).

(** ** The world *)

(** A run of Initiate by the owner of long term key [c_me] with the server key
    [c_srv] (zkclient.go:748-774); after its end, the messages given to Write
    (kx.go:432-434).  Its writeSeq is then 4. *)
Inductive cphase := CWait1 | CWait2 (m : imid) | CEnd (m : imid) (k4 : term) (out : list term).
Record crun := mkCrun { c_me : nat; c_srv : term; c_ph : cphase }.

(** A run of Respond (zkserver.go:652-664) by server [s_me]; writeSeq is 5 at the
    end. *)
Inductive sphase := SWait (m : rmid) | SEnd (m : rmid) (x : rend) (out : list term).
Record srun := mkSrun { s_me : nat; s_e : nat; s_ph : sphase }.

Record world := mkWorld { cruns : list crun; sruns : list srun; net : list term; leaked : list nat }.
Definition start : world := mkWorld [] [] [] [].

(** Boxes that get no protection because their key and nonce are used twice
    (C13). *)
Definition reused (n : nat) : bool := (n =? 0) || (n =? 1) || (n =? 3).

(** What the attacker knows. *)
Inductive knows (w : world) : term -> Prop :=
| K_net t : In t (net w) -> knows w t
| K_pk k : knows w (Pk k)
| K_txt n : knows w (Txt n)
| K_coin n : knows w (Rnd (Ra n))
| K_sk n : knows w (Sk (Atk n))
| K_leak a : In a (leaked w) -> knows w (Sk (Long a))
| K_key c : knows w (Rnd c) -> knows w (Key c)
| K_encap p c : knows w p -> knows w (Rnd c) -> knows w (Cph p c)
| K_decap k c : knows w (Cph (Pk k) c) -> knows w (Sk k) -> knows w (Rnd c)
| K_nokey p c : knows w (Cph p c) -> (forall k, p <> Pk k) -> knows w (Rnd c)
| K_seal k n m : knows w k -> knows w m -> knows w (Box k n m)
| K_open k n m : knows w (Box k n m) -> knows w k -> knows w m
| K_forge k n m : reused n = true -> knows w m -> knows w (Box k n m)
| K_break k n m : reused n = true -> knows w (Box k n m) -> knows w m
| K_mac k m : knows w k -> knows w m -> knows w (Mac k m)
| K_pair a b : knows w a -> knows w b -> knows w (Pair a b)
| K_fst a b : knows w (Pair a b) -> knows w a
| K_snd a b : knows w (Pair a b) -> knows w b
| K_ses f k1 k2 k3 k4 : knows w k1 -> knows w k2 -> knows w k3 -> knows w k4 -> knows w (Ses f k1 k2 k3 k4).

Fixpoint upd {A} (l : list A) (i : nat) (x : A) : list A :=
  match l, i with
  | [], _ => []
  | _ :: r, O => x :: r
  | a :: r, S i' => a :: upd r i' x
  end.
Definition set_c (w : world) (i : nat) (c : crun) (out : list term) : world :=
  mkWorld (upd (cruns w) i c) (sruns w) (net w ++ out) (leaked w).
Definition set_s (w : world) (j : nat) (s : srun) (out : list term) : world :=
  mkWorld (cruns w) (upd (sruns w) j s) (net w ++ out) (leaked w).

Inductive event :=
| Leak (a : nat)                       (* the attacker gets a long term private key *)
| CStart (me : nat) (srv : term)       (* somebody runs Initiate *)
| CNext (i : nat) (b0 b1 b2 : term)    (* run i gets the answer to steps 1 and 2 *)
| CFinish (i : nat) (b3 b4 : term)     (* run i ends *)
| SStart (me e : nat) (c1 b0 : term)   (* a server takes a connection *)
| SFinish (j : nat) (b1 b2 b3 : term)  (* run j of Respond ends *)
| CSay (i : nat) (m : term)            (* Write of a text the attacker may know *)
| CSecret (i : nat)                    (* Write of a secret text *)
| SSay (j : nat) (m : term)
| SSecret (j : nat).

Definition c_write (w : world) (i : nat) (text : nat -> term) : option world :=
  match nth_error (cruns w) i with
  | Some (mkCrun me srv (CEnd m k4 out)) =>
      let t := text (length out) in
      Some (set_c w i (mkCrun me srv (CEnd m k4 (out ++ [t]))) [write_key (4 + length out) (i_write i m k4) t])
  | _ => None
  end.
Definition s_write (w : world) (j : nat) (text : nat -> term) : option world :=
  match nth_error (sruns w) j with
  | Some (mkSrun me e (SEnd m x out)) =>
      let t := text (length out) in
      Some (set_s w j (mkSrun me e (SEnd m x (out ++ [t]))) [write_key (5 + length out) (r_write j m x) t])
  | _ => None
  end.

(** One event; None if it cannot take place (the message is not accepted, or the
    run is not waiting for it). *)
Definition react (w : world) (e : event) : option world :=
  match e with
  | Leak a => Some (mkWorld (cruns w) (sruns w) (net w) (a :: leaked w))
  | CStart me srv =>
      Some (mkWorld (cruns w ++ [mkCrun me srv CWait1]) (sruns w)
                    (net w ++ initiate1 (length (cruns w)) srv) (leaked w))
  | CNext i b0 b1 b2 =>
      match nth_error (cruns w) i with
      | Some (mkCrun me srv CWait1) =>
          match initiate2 i me b0 b1 b2 with
          | Some (m, out) => Some (set_c w i (mkCrun me srv (CWait2 m)) out)
          | None => None
          end
      | _ => None
      end
  | CFinish i b3 b4 =>
      match nth_error (cruns w) i with
      | Some (mkCrun me srv (CWait2 m)) =>
          match initiate3 me srv m b3 b4 with
          | Some k4 => Some (set_c w i (mkCrun me srv (CEnd m k4 [])) [])
          | None => None
          end
      | _ => None
      end
  | SStart me ep c1 b0 =>
      match respond1 (length (sruns w)) me ep c1 b0 with
      | Some (m, out) =>
          Some (mkWorld (cruns w) (sruns w ++ [mkSrun me ep (SWait m)]) (net w ++ out) (leaked w))
      | None => None
      end
  | SFinish j b1 b2 b3 =>
      match nth_error (sruns w) j with
      | Some (mkSrun me ep (SWait m)) =>
          match respond2 j me ep m b1 b2 b3 with
          | Some (x, out) => Some (set_s w j (mkSrun me ep (SEnd m x [])) out)
          | None => None
          end
      | _ => None
      end
  | CSay i m => c_write w i (fun _ => m)
  | CSecret i => c_write w i (fun n => Sec (FromC i n))
  | SSay j m => s_write w j (fun _ => m)
  | SSecret j => s_write w j (fun n => Sec (FromS j n))
  end.

(** The messages an event delivers must come from the attacker, and so must the
    texts that are not secret. *)
Definition supplied (e : event) : list term :=
  match e with
  | CNext _ a b c => [a; b; c]
  | CFinish _ a b => [a; b]
  | SStart _ _ a b => [a; b]
  | SFinish _ a b c => [a; b; c]
  | CSay _ m | SSay _ m => [m]
  | _ => []
  end.

Definition step (w : world) (e : event) (w' : world) : Prop :=
  Forall (knows w) (supplied e) /\ react w e = Some w'.

Inductive steps : world -> world -> Prop :=
| Steps_nil w : steps w w
| Steps_cons w e w' w'' : step w e w' -> steps w' w'' -> steps w w''.
