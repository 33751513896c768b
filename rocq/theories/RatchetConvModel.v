(** Two parties using the ratchet: the executions, and the crypto-free
    specification they are compared with. *)
From Verif Require Import Base RatchetModel.
Local Open Scope N_scope.

(** * Specification

    The conversation is a series of chains (epochs) 1, 2, 3, ...: the party that
    completed the key exchange as not alice sends epoch 1, alice sends epoch 2, and
    so on.  A message is known by its label: epoch, index in the epoch, and the
    number of messages its sender sent in its previous epoch. *)
Notation label := (nat * N * N)%type.

(** What one party knows: the newest epoch it has seen, whether that epoch is the
    other's (so that it answers with a new one), how many messages it sent in its
    newest epoch and in the one before, the highest index received in the other's
    newest epoch plus one, and the messages already taken. *)
Record iparty := mkI {
  i_cur : nat; i_turn : bool; i_sent : N; i_prev : N; i_high : N; i_got : list (nat * N) }.

Definition i_alice : iparty := mkI 1 true 0 0 0 [].
Definition i_bob : iparty := mkI 1 false 0 0 0 [].

(** The other's newest epoch. *)
Definition recv_epoch (p : iparty) : nat := if i_turn p then i_cur p else pred (i_cur p).

Definition ideal_send (p : iparty) : iparty * label :=
  if i_turn p
  then (mkI (S (i_cur p)) false 1 (i_sent p) (i_high p) (i_got p), (S (i_cur p), 0, i_sent p))
  else (mkI (i_cur p) false (i_sent p + 1) (i_prev p) (i_high p) (i_got p), (i_cur p, i_sent p, i_prev p)).

(** Receiving a genuine message: it is returned the first time, unless it would
    leave a gap of more than 80 messages; a message skipped earlier is returned only
    if it is not empty. *)
Definition ideal_recv (p : iparty) (l : label) (plain : bytes) : iparty * bool :=
  let '(e, i, prev) := l in
  let taken := (e, i) :: i_got p in
  let nonempty := match plain with [] => false | _ => true end in
  if mem (e, i) (i_got p) then (p, false)
  else if (e <? recv_epoch p)%nat || ((e =? recv_epoch p)%nat && (i <? i_high p)) then
    (mkI (i_cur p) (i_turn p) (i_sent p) (i_prev p) (i_high p) taken, nonempty)
  else if (e =? recv_epoch p)%nat then
    if 80 <? i - i_high p then (p, false)
    else (mkI (i_cur p) (i_turn p) (i_sent p) (i_prev p) (i + 1) taken, true)
  else
    if (80 <? prev - i_high p) || (80 <? i) then (p, false)
    else (mkI e true (i_sent p) (i_prev p) (i + 1) taken, true).

(** * Executions *)

Record entry := mkEntry { en_from : bool; en_label : label; en_plain : bytes; en_ct : bytes }.
Definition en_epoch (en : entry) : nat := fst (fst (en_label en)).
Definition en_index (en : entry) : N := snd (fst (en_label en)).

(** Parties are booleans, alice is true.  [w_r] are the real ratchets, [w_i] what
    the specification keeps of them, [w_log] all messages sent, newest first. *)
Record world := mkWorld { w_r : bool -> ratchet; w_i : bool -> iparty; w_log : list entry }.

Definition set {A} (f : bool -> A) (who : bool) (v : A) : bool -> A :=
  fun b => if Bool.eqb b who then v else f b.

(** A party sends a message, or is given some bytes; [order] is the iteration order
    of the map of saved keys, as a function of its keys. *)
Inductive event :=
| Send (who : bool) (hn mn msg : bytes)
| Recv (who : bool) (order : list bytes -> list bytes) (now : Z) (ct : bytes).

(** What the real ratchet and the specification say to a Recv event (None for
    refused, and for Send events). *)
Record result := mkResult { real_result : option bytes; ideal_result : option bytes; hangs : bool }.

Definition find_sent (log : list entry) (from : bool) (ct : bytes) : option entry :=
  find (fun en => Bool.eqb (en_from en) from && eqb (en_ct en) ct) log.

Section Run.
Variable hmac : bytes -> bytes -> bytes.
Variable sha256 : bytes -> bytes.
Variable x25519 : bytes -> bytes -> option bytes.
Variable base : bytes -> bytes.
Variable seal : bytes -> bytes -> bytes -> bytes.
Variable unseal : bytes -> bytes -> bytes -> option bytes.
(** The fresh private key drawn for each epoch. *)
Variable xs : nat -> bytes.

Definition step (w : world) (ev : event) : world * result :=
  match ev with
  | Send who hn mn msg =>
      let '(i', l) := ideal_send (w_i w who) in
      match encrypt hmac sha256 x25519 base seal (w_r w who) (xs (fst (fst l))) hn mn msg with
      | (r', Some ct) => (mkWorld (set (w_r w) who r') (set (w_i w) who i') (mkEntry who l msg ct :: w_log w),
                          mkResult None None false)
      | (r', None) => (mkWorld (set (w_r w) who r') (w_i w) (w_log w), mkResult None None true)
      end
  | Recv who order now ct =>
      let '(r', out) := decrypt hmac sha256 x25519 unseal (order (mkeys (saved (w_r w who)))) now (w_r w who) ct in
      let '(i', ideal) := match find_sent (w_log w) (negb who) ct with
                          | None => (w_i w who, None)
                          | Some en => let '(i', ok) := ideal_recv (w_i w who) (en_label en) (en_plain en) in
                                       (i', if ok then Some (en_plain en) else None)
                          end in
      (mkWorld (set (w_r w) who r') (set (w_i w) who i') (w_log w),
       mkResult (match out with Got m => Some m | _ => None end) ideal
                (match out with Hang => true | _ => false end))
  end.

Fixpoint run (w : world) (evs : list event) : world * list result :=
  match evs with
  | [] => (w, [])
  | ev :: evs' => let '(w1, r) := step w ev in
                  let '(w2, rs) := run w1 evs' in (w2, r :: rs)
  end.

(** * Keys of a conversation

    Everything is determined by the shared secret of the key exchange and the
    private keys. *)
Variable sk : bytes.

Definition dh (e : nat) : bytes := match x25519 (xs e) (base (xs (pred e))) with Some s => s | None => [] end.
Fixpoint km (e : nat) : bytes :=
  match e with
  | O => sk
  | S e' => match e' with
            | O => sk
            | S _ => sha256 (root_update_label ++ hmac (km e') root_label ++ dh e)
            end
  end.
(** Header key of an epoch. *)
Definition hk (e : nat) : bytes :=
  match e with
  | O => zero32
  | 1 => hmac sk header_label
  | 2 => hmac sk next_send_label
  | 3 => hmac sk next_recv_label
  | S (S e') => hmac (km e') next_send_label
  end%nat.
(** Chain key after [i] messages, and message key, of an epoch. *)
Fixpoint ck (e : nat) (i : nat) : bytes :=
  match i with O => hmac (km e) chain_label | S i' => hmac (ck e i') step_label end.
Definition mk (e : nat) (i : N) : bytes := hmac (ck e (N.to_nat i)) message_label.

(** * Assumptions about an execution

    Up to epoch [E], bytes that open under a key of the conversation were sealed
    under it by the parties: a header box under a header key is the (whole) header
    of a sent message of that epoch, a message box under a message key is that
    message's. *)
Definition unforged (E : nat) (log : list entry) (ct : bytes) : Prop :=
  (forall e h, (1 <= e <= E)%nat -> unseal (hk e) (ct_nonce ct) (ct_header ct) = Some h ->
     exists en, In en log /\ en_epoch en = e /\ ct_nonce (en_ct en) = ct_nonce ct /\ ct_header (en_ct en) = ct_header ct) /\
  (forall e i n m, (1 <= e <= E)%nat -> unseal (mk e i) n (ct_body ct) = Some m ->
     exists en, In en log /\ en_epoch en = e /\ en_index en = i /\ ct_body (en_ct en) = ct_body ct).

(** Nonces are 24 bytes and header nonces are not drawn twice; map iteration visits
    every key once; received bytes are unforged. *)
Fixpoint fair (E : nat) (w : world) (evs : list event) : Prop :=
  match evs with
  | [] => True
  | ev :: evs' =>
      match ev with
      | Send who hn mn msg =>
          length hn = 24%nat /\ length mn = 24%nat /\ (forall en, In en (w_log w) -> ct_nonce (en_ct en) <> hn)
      | Recv who order now ct => (forall l, Permutation l (order l)) /\ unforged E (w_log w) ct
      end /\ fair E (fst (step w ev)) evs'
  end.
End Run.
