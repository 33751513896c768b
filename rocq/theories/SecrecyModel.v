(** Who can read the messages of a conversation after the state of a ratchet has been
    stolen: keys as terms, what can be derived from terms (Dolev and Yao), and the terms
    that a ratchet holds.

    The values of the terms are the bytes of RatchetModel ([value]); RatchetConvModel
    gives the keys of a conversation, and the terms below follow it line by line.
    Simplification: cryptography is taken to be perfect, that is, an attacker computes
    with the functions but does not invert or break them. *)
From Verif Require Import Base RatchetModel RatchetConvModel.
Local Open Scope N_scope.

(** ratchet.go:145-156. *)
Inductive lab := LChain | LHeader | LNextRecv | LRoot | LUpdate | LNextSend | LMessage | LStep.

(** Anything public; labels; the halves of the key exchange (true: alice's), the fresh
    private key of an epoch, the plaintext of a message: unknown unless derived; public
    key of a private key; scalar multiplication of a point; concatenation; SHA-256; HMAC;
    secretbox. *)
Inductive term :=
| Pub (b : bytes) | Lab (l : lab)
| Half (alice : bool) | Priv (e : nat) | Msg (e : nat) (i : N)
| Base (s : term) | Mul (s p : term) | Cat (a b : term) | Sha (t : term) | Hmac (k t : term) | Box (k n m : term).

(** What can be computed from the terms [T]: scalar multiplication commutes; a box is
    opened with its key, and its nonce is visible (it travels in the clear or in the
    header). *)
Inductive derive (T : term -> Prop) : term -> Prop :=
| D_in t : T t -> derive T t
| D_pub b : derive T (Pub b)
| D_lab l : derive T (Lab l)
| D_base s : derive T s -> derive T (Base s)
| D_mul s p : derive T s -> derive T p -> derive T (Mul s p)
| D_comm a b : derive T (Mul a (Base b)) -> derive T (Mul b (Base a))
| D_swap a b p : derive T (Mul a (Mul b p)) -> derive T (Mul b (Mul a p))
| D_cat a b : derive T a -> derive T b -> derive T (Cat a b)
| D_left a b : derive T (Cat a b) -> derive T a
| D_right a b : derive T (Cat a b) -> derive T b
| D_sha t : derive T t -> derive T (Sha t)
| D_hmac k t : derive T k -> derive T t -> derive T (Hmac k t)
| D_box k n m : derive T k -> derive T n -> derive T m -> derive T (Box k n m)
| D_open k n m : derive T (Box k n m) -> derive T k -> derive T m
| D_nonce k n m : derive T (Box k n m) -> derive T n.

(** ** The keys of a conversation, as in RatchetConvModel *)

Definition tdh (e : nat) : term := Mul (Priv e) (Base (Priv (pred e))).
Definition tsk : term := Sha (Cat (Half true) (Half false)).
Fixpoint tkm (e : nat) : term :=
  match e with
  | O => tsk
  | S e' => match e' with
            | O => tsk
            | S _ => Sha (Cat (Lab LUpdate) (Cat (Hmac (tkm e') (Lab LRoot)) (tdh e)))
            end
  end.
Definition thk (e : nat) : term :=
  match e with
  | O => Pub zero32
  | 1 => Hmac tsk (Lab LHeader)
  | 2 => Hmac tsk (Lab LNextSend)
  | 3 => Hmac tsk (Lab LNextRecv)
  | S (S e') => Hmac (tkm e') (Lab LNextSend)
  end%nat.
Fixpoint tck (e : nat) (i : nat) : term :=
  match i with O => Hmac (tkm e) (Lab LChain) | S i' => Hmac (tck e i') (Lab LStep) end.
Definition tmk (e : nat) (i : N) : term := Hmac (tck e (N.to_nat i)) (Lab LMessage).

(** What travels for message [i] of epoch [e]: RatchetModel.encrypt, ratchet.go:264-283. *)
Definition theader (e : nat) (i p : N) (hn mn : bytes) : term :=
  Box (thk e) (Pub hn) (Cat (Pub (put_le32 i)) (Cat (Pub (put_le32 p)) (Cat (Base (Priv e)) (Pub mn)))).
Definition tbody (e : nat) (i : N) (mn : bytes) : term := Box (tmk e i) (Pub mn) (Msg e i).

(** Epoch, number, number of messages of the sender's previous epoch, nonces. *)
Notation sent_as := (nat * N * N * bytes * bytes)%type.
Definition wire (sent : list sent_as) (t : term) : Prop :=
  exists e i p hn mn, In (e, i, p, hn, mn) sent /\ (t = theader e i p hn mn \/ t = tbody e i mn).

(** ** The terms that a ratchet holds *)

(** A party's own newest epoch. *)
Definition send_epoch (p : iparty) : nat := if i_turn p then pred (i_cur p) else i_cur p.
(** Before the first message of an epoch there is no chain: the key is zero. *)
Definition tchain (e : nat) (i : N) : term := match e with O => Pub zero32 | S _ => tck e (N.to_nat i) end.
Definition tpublic (e : nat) : term := match e with O => Pub zero32 | S _ => Base (Priv e) end.

(** The fields of the ratchet (ratchet.go:44-78) of a party that knows [p]; [sv e i]: the
    key of message [i] of epoch [e] is saved; [sh e]: the header key of epoch [e] is a key
    of the map of saved keys. *)
Inductive held (p : iparty) (sv : nat -> N -> Prop) (sh : nat -> Prop) : term -> Prop :=
| H_root : held p sv sh (Hmac (tkm (i_cur p)) (Lab LRoot))
| H_send_header : held p sv sh (thk (send_epoch p))
| H_recv_header : held p sv sh (thk (recv_epoch p))
| H_next1 : held p sv sh (thk (S (i_cur p)))
| H_next2 : held p sv sh (thk (S (S (i_cur p))))
| H_send_chain : held p sv sh (tchain (send_epoch p) (i_sent p))
| H_recv_chain : held p sv sh (tchain (recv_epoch p) (i_high p))
| H_private : held p sv sh (if i_turn p then Pub zero32 else Priv (i_cur p))
| H_public : held p sv sh (tpublic (recv_epoch p))
| H_half b : held p sv sh (Half b)
| H_saved e i : sv e i -> held p sv sh (tmk e i)
| H_saved_header e : sh e -> held p sv sh (thk e).

(** All keys in a ratchet. *)
Definition opt (o : option bytes) : list bytes := match o with Some b => [b] | None => [] end.
Definition stored (r : ratchet) (x : bytes) : Prop :=
  In x ([root_key r; send_header r; recv_header r; next_send_header r; next_recv_header r;
         send_chain r; recv_chain r; send_private r; recv_public r] ++
        opt (my_half r) ++ opt (their_half r) ++ opt (kx_private r)) \/
  In x (mkeys (saved r)) \/
  exists h keys n k, mget (saved r) h = Some keys /\ mget keys n = Some k /\ x = sk_key k.

Section Value.
Variable hmac : bytes -> bytes -> bytes.
Variable sha256 : bytes -> bytes.
Variable x25519 : bytes -> bytes -> option bytes.
Variable base : bytes -> bytes.
Variable seal : bytes -> bytes -> bytes -> bytes.
Variable xs : nat -> bytes.
Variable half : bool -> bytes.
Variable msg : nat -> N -> bytes.

Definition label_of (l : lab) : bytes :=
  match l with
  | LChain => chain_label | LHeader => header_label | LNextRecv => next_recv_label | LRoot => root_label
  | LUpdate => root_update_label | LNextSend => next_send_label | LMessage => message_label | LStep => step_label
  end.

Fixpoint value (t : term) : bytes :=
  match t with
  | Pub b => b
  | Lab l => label_of l
  | Half b => half b
  | Priv e => xs e
  | Msg e i => msg e i
  | Base s => base (value s)
  | Mul s p => match x25519 (value s) (value p) with Some v => v | None => [] end
  | Cat a b => value a ++ value b
  | Sha t => sha256 (value t)
  | Hmac k t => hmac (value k) (value t)
  | Box k n m => seal (value k) (value n) (value m)
  end.
End Value.
