(** Symbolic model of the key exchange between two clients (step1IDKX, step2IDKX,
    step2IDKX2 and step3IDKX, with FillKeyExchange and CompleteKeyExchange of the
    ratchet) with many users and an active attacker.

    IdkxModel.v is the same code over bytes; here messages are terms, and whatever
    lies between two clients, the server included, belongs to the attacker, who sees
    everything that is sent and supplies everything that is received.  Any number of
    exchanges take place at the same time.

    What the attacker can do: draw coins and key pairs of its own, build and take
    apart terms with the keys it knows, decapsulate with private keys it knows or
    when the public key is no key pair of anybody, learn private keys and passwords
    (events [Leak] and [LeakPw]).

    Simplifications: terms are free; the shared key depends on the coins only, as in
    sntrup4591761, so that somebody who knows the coins can encapsulate the same key
    to another public key; the Diffie-Hellman values, which are exchanged under the
    shared keys, and the later steps of the ratchet are left out, so that all message
    keys are derived from the first root key (C15, C17 and C20 are about the rest);
    files, and with them the checks that there is no ratchet yet (C63), are left out,
    so that more exchanges take place here than in the code; names and signatures of
    an identity, which no step verifies, are one name.  Coins do not leak. *)
From Coq Require Import List Arith Lia Bool.
Import ListNotations.

(** Key pairs: that of a user, and the attacker's. *)
Inductive name := Long (a : nat) | Atk (n : nat).

(** Coins of Encapsulate: in step 1 of exchange [i], in FillKeyExchange of exchange
    [i] by the initiator, in FillKeyExchange of answer [j], and the attacker's. *)
Inductive coin := R1 (i : nat) | R2 (i : nat) | R3 (j : nat) | Ra (n : nat).

(** Secret texts: message [n] of the initiator of exchange [i], of answer [j]. *)
Inductive secret := FromI (i n : nat) | FromR (j n : nat).

Inductive term :=
| Pk (k : name) | Sk (k : name)
| Rnd (c : coin)
| Key (c : coin)                     (* the shared key made of the coins *)
| Cph (p : term) (c : coin)          (* the ciphertext for public key [p] *)
| Pw (n : nat)                       (* the key of password [n], blobshare.NewKey *)
| Nm (a : nat)                       (* the name part of the identity of user [a] *)
| Box (k m : term)                   (* secretbox.Seal with a random nonce *)
| Pair (a b : term)
| Root (k2 k3 : term)                (* ratchet.go:203-214: the secret of both halves *)
| Mk (side : bool) (n : nat) (r : term)  (* message key [n] of one side *)
| Sec (s : secret)
| Txt (n : nat).

Definition name_eq (x y : name) : {x = y} + {x <> y}. Proof. decide equality; apply Nat.eq_dec. Defined.
Definition coin_eq (x y : coin) : {x = y} + {x <> y}. Proof. decide equality; apply Nat.eq_dec. Defined.
Definition secret_eq (x y : secret) : {x = y} + {x <> y}. Proof. decide equality; apply Nat.eq_dec. Defined.
Definition term_eq (x y : term) : {x = y} + {x <> y}.
Proof. decide equality; auto using name_eq, coin_eq, secret_eq, Nat.eq_dec, Bool.bool_dec. Defined.
Definition is (x y : term) : bool := if term_eq x y then true else false.

Definition decap (sk : name) (x : term) : option term :=
  match x with
  | Cph p c => if is p (Pk sk) then Some (Key c) else None
  | _ => None
  end.
Definition unseal (k b : term) : option term :=
  match b with
  | Box k' m => if is k' k then Some m else None
  | _ => None
  end.

(** The record of a user: rpc.IdentityKX.Identity. *)
Definition record (a : nat) : term := Pair (Nm a) (Pk (Long a)).

(** An exchange begun by [i_me] with the record of name [i_who] and key [i_key];
    [i_k1] is the key of the first message; at the end the other half of the ratchet
    secret and the texts sent. *)
Record irun := mkIrun { i_me : nat; i_who : nat; i_key : term; i_k1 : term; i_end : option (term * list term) }.
(** An answer by [r_me]: the key of the first message, the record received, both
    halves (the own is Key (R3 j)), the texts sent. *)
Record rrun := mkRrun { r_me : nat; r_k1 : term; r_id : term; r_key : term; r_k2 : term; r_out : list term }.

Record world := mkWorld { iruns : list irun; rruns : list rrun; shares : list (nat * nat); net : list term; leaked : list nat; pws : list nat }.
Definition start : world := mkWorld [] [] [] [] [] [].

(** The blob keys of a user (blobkeys.go:54-84 saveKey, kxwindow.go:102-147): those
    of the exchanges begun and of the records shared.  They are never removed: the
    removal of expired keys is commented out (blobkeys.go:28-52 pruneKey). *)
Definition blob_key (w : world) (a : nat) (k : term) : Prop :=
  (exists i r, nth_error (iruns w) i = Some r /\ i_me r = a /\ i_k1 r = k) \/
  (exists n, In (a, n) (shares w) /\ k = Pw n).

(** zkclient.go:1053-1115 [step1IDKX] and, with a password,
    acceptclientfingerprint.go:112-209: the key of the message and what is sent.
    ratchet.go:110-133 FillKeyExchange gives the second ciphertext. *)
Definition step1 (i me : nat) (key : term) (pw : option nat) : term * list term :=
  let content := Pair (record me) (Cph key (R2 i)) in
  match pw with
  | Some n => (Pw n, [Box (Pw n) content])
  | None => (Key (R1 i), [Cph key (R1 i); Box (Key (R1 i)) content])
  end.

(** push.go:204-279 and 327-396: the answer to the content of a first message that
    opened with [k].  ratchet.go:180-238 CompleteKeyExchange gives the half of the
    other side. *)
Definition step2 (j me : nat) (k content : term) : option (rrun * list term) :=
  match content with
  | Pair (Pair (Nm x) q) kx =>
      if x =? me then None
      else match decap (Long me) kx with
           | Some k2 => Some (mkRrun me k (Pair (Nm x) q) q k2 [], [Box k (Cph q (R3 j))])
           | None => None
           end
  | _ => None
  end.

(** push.go:54-160 [step3IDKX] once a key has opened the message. *)
Definition step3 (me : nat) (content : term) : option term := decap (Long me) content.

(** The secrets of both ends; the initiator's own half comes first
    (ratchet.go:203-214). *)
Definition i_root (i : nat) (k3 : term) : term := Root (Key (R2 i)) k3.
Definition r_root (j : nat) (r : rrun) : term := Root (r_k2 r) (Key (R3 j)).

Inductive knows (w : world) : term -> Prop :=
| K_net t : In t (net w) -> knows w t
| K_pk k : knows w (Pk k)
| K_nm a : knows w (Nm a)
| K_txt n : knows w (Txt n)
| K_coin n : knows w (Rnd (Ra n))
| K_sk n : knows w (Sk (Atk n))
| K_leak a : In a (leaked w) -> knows w (Sk (Long a))
| K_pw n : In n (pws w) -> knows w (Pw n)
| K_key c : knows w (Rnd c) -> knows w (Key c)
| K_encap p c : knows w p -> knows w (Rnd c) -> knows w (Cph p c)
| K_decap k c : knows w (Cph (Pk k) c) -> knows w (Sk k) -> knows w (Rnd c)
| K_nokey p c : knows w (Cph p c) -> (forall k, p <> Pk k) -> knows w (Rnd c)
| K_seal k m : knows w k -> knows w m -> knows w (Box k m)
| K_open k m : knows w (Box k m) -> knows w k -> knows w m
| K_pair a b : knows w a -> knows w b -> knows w (Pair a b)
| K_fst a b : knows w (Pair a b) -> knows w a
| K_snd a b : knows w (Pair a b) -> knows w b
| K_root a b : knows w a -> knows w b -> knows w (Root a b)
| K_mk s n r : knows w r -> knows w (Mk s n r).

Fixpoint upd {A} (l : list A) (i : nat) (x : A) : list A :=
  match l, i with
  | [], _ => []
  | _ :: r, O => x :: r
  | a :: r, S i' => a :: upd r i' x
  end.

Inductive event :=
| Leak (a : nat)
| LeakPw (n : nat)
| Share (me n : nat)                             (* a record is shared under password n *)
| IStart (me who : nat) (key : term) (pw : option nat)
| RDir (me : nat) (c b : term)                   (* step2IDKX2 *)
| RPass (me : nat) (k b : term)                  (* step2IDKX *)
| IFinish (i : nat) (k b : term)                 (* step3IDKX *)
| ISay (i : nat) (m : term) | ISecret (i : nat)
| RSay (j : nat) (m : term) | RSecret (j : nat).

(** One event, from world to world. *)
Inductive step (w : world) : event -> world -> Prop :=
| S_leak a : step w (Leak a) (mkWorld (iruns w) (rruns w) (shares w) (net w) (a :: leaked w) (pws w))
| S_leakpw n : step w (LeakPw n) (mkWorld (iruns w) (rruns w) (shares w) (net w) (leaked w) (n :: pws w))
| S_share me n : step w (Share me n) (mkWorld (iruns w) (rruns w) ((me, n) :: shares w) (net w ++ [Box (Pw n) (record me)]) (leaked w) (pws w))
| S_istart me who key pw k1 out : knows w key -> step1 (length (iruns w)) me key pw = (k1, out) ->
    step w (IStart me who key pw)
      (mkWorld (iruns w ++ [mkIrun me who key k1 None]) (rruns w) (shares w) (net w ++ out) (leaked w) (pws w))
| S_rdir me c b k content r out : knows w c -> knows w b -> decap (Long me) c = Some k -> unseal k b = Some content ->
    step2 (length (rruns w)) me k content = Some (r, out) ->
    step w (RDir me c b) (mkWorld (iruns w) (rruns w ++ [r]) (shares w) (net w ++ out) (leaked w) (pws w))
| S_rpass me k b content r out : blob_key w me k -> knows w b -> unseal k b = Some content ->
    step2 (length (rruns w)) me k content = Some (r, out) ->
    step w (RPass me k b) (mkWorld (iruns w) (rruns w ++ [r]) (shares w) (net w ++ out) (leaked w) (pws w))
| S_ifinish i k b r content k3 : nth_error (iruns w) i = Some r -> i_end r = None -> blob_key w (i_me r) k -> knows w b ->
    unseal k b = Some content -> step3 (i_me r) content = Some k3 ->
    step w (IFinish i k b)
      (mkWorld (upd (iruns w) i (mkIrun (i_me r) (i_who r) (i_key r) (i_k1 r) (Some (k3, [])))) (rruns w) (shares w) (net w) (leaked w) (pws w))
| S_isay i m r k3 out : nth_error (iruns w) i = Some r -> i_end r = Some (k3, out) -> knows w m ->
    step w (ISay i m) (mkWorld (upd (iruns w) i (mkIrun (i_me r) (i_who r) (i_key r) (i_k1 r) (Some (k3, out ++ [m])))) (rruns w) (shares w)
      (net w ++ [Box (Mk false (length out) (i_root i k3)) m]) (leaked w) (pws w))
| S_isecret i r k3 out : nth_error (iruns w) i = Some r -> i_end r = Some (k3, out) ->
    step w (ISecret i) (mkWorld (upd (iruns w) i (mkIrun (i_me r) (i_who r) (i_key r) (i_k1 r) (Some (k3, out ++ [Sec (FromI i (length out))])))) (rruns w) (shares w)
      (net w ++ [Box (Mk false (length out) (i_root i k3)) (Sec (FromI i (length out)))]) (leaked w) (pws w))
| S_rsay j m r : nth_error (rruns w) j = Some r -> knows w m ->
    step w (RSay j m) (mkWorld (iruns w) (upd (rruns w) j (mkRrun (r_me r) (r_k1 r) (r_id r) (r_key r) (r_k2 r) (r_out r ++ [m]))) (shares w)
      (net w ++ [Box (Mk true (length (r_out r)) (r_root j r)) m]) (leaked w) (pws w))
| S_rsecret j r : nth_error (rruns w) j = Some r ->
    step w (RSecret j) (mkWorld (iruns w) (upd (rruns w) j (mkRrun (r_me r) (r_k1 r) (r_id r) (r_key r) (r_k2 r) (r_out r ++ [Sec (FromR j (length (r_out r)))]))) (shares w)
      (net w ++ [Box (Mk true (length (r_out r)) (r_root j r)) (Sec (FromR j (length (r_out r))))]) (leaked w) (pws w)).

Inductive steps : world -> world -> Prop :=
| Steps_nil w : steps w w
| Steps_cons w e w' w'' : step w e w' -> steps w' w'' -> steps w w''.
