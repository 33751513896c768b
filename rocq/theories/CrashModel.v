(** Model of how the client keeps a ratchet on disk while sending and receiving:
    zkclient/msg.go [cacheCRPC], zkclient/push.go [handlePush] and
    zkclient/identity.go [loadRatchet], [updateRatchet]; the client may die at any
    point. *)
From Verif Require Import Base XdrModel RpcModel RatchetModel RatchetConvModel.
Local Open Scope N_scope.

(** The directory of a contact, zkclient/identity.go:86 and 147: file names and
    contents.  Only the ratchet is of interest; the identity beside it is never
    changed. *)
Notation dir := (list (bytes * bytes)).

(** identity.go:24 *)
Definition ratchet_file : bytes := bs "ratchet.xdr".

(** identity.go:132: 31*24*time.Hour, in nanoseconds. *)
Definition lifetime : Z := (31 * 24 * 3600 * 1000000000)%Z.

(** identity.go:72-129 [loadRatchet] with half = false, as far as the ratchet
    itself; [priv] is what ratchet.New draws (identity.go:102).  None is an error. *)
Definition load (priv : bytes) (d : dir) : option ratchet :=
  match mget d ratchet_file with
  | None => None
  | Some b => match dec RatchetState_codec 0 b with
              | None => None
              | Some (rs, _) => match unmarshal (new_ratchet priv) rs with Ok r => Some r | _ => None end
              end
  end.

(** What updateRatchet writes (identity.go:132, 154). *)
Definition image (now : Z) (r : ratchet) : bytes := enc RatchetState_codec (marshal now lifetime r).

(** The directory at any moment of identity.go:131-170 [updateRatchet], and whether
    the new file is in its place.  ioutil.TempFile (identity.go:148) makes a name
    that does not exist, the given one followed by digits; what was written of it
    before the client died or an error occurred stays.  The rename (identity.go:164)
    is atomic. *)
Inductive saving (d : dir) (full : bytes) : dir -> bool -> Prop :=
| Sv_before : saving d full d false
| Sv_part : forall digits k, digits <> [] -> mget d (ratchet_file ++ digits) = None ->
    saving d full (mset d (ratchet_file ++ digits) (firstn k full)) false
| Sv_done : saving d full (mset d ratchet_file full) true.

Section Crash.
Variable hmac : bytes -> bytes -> bytes.
Variable sha256 : bytes -> bytes.
Variable x25519 : bytes -> bytes -> option bytes.
Variable base : bytes -> bytes.
Variable seal : bytes -> bytes -> bytes -> bytes.
Variable unseal : bytes -> bytes -> bytes -> option bytes.

(** msg.go:437-519 [cacheCRPC], the part that concerns the ratchet, from the start
    to the end or to the moment the client dies: the directory left behind, what
    was handed to the server, and whether the new ratchet is on disk.
    [Tx_nothing]: offline, no ratchet, no tag, an error of Encrypt or of the write
    (msg.go:438-508), or death before the message was handed over.
    [Tx_sent]: the message was handed over (msg.go:491) and the saving (msg.go:512)
    got as far as [d']. *)
Inductive transmit (priv hn mn msg : bytes) (now : Z) (d : dir) : dir -> option bytes -> bool -> Prop :=
| Tx_nothing : transmit priv hn mn msg now d d None false
| Tx_sent : forall p r r' ct d' b, load p d = Some r ->
    encrypt hmac sha256 x25519 base seal r priv hn mn msg = (r', Some ct) ->
    saving d (image now r') d' b -> transmit priv hn mn msg now d d' (Some ct) b.

(** push.go:453-476, [handlePush] for a contact with a ratchet: decrypt, save, and
    only then look at the message: [Some m] means that the rest of handlePush
    (push.go:478 on) is reached with the message m. *)
Inductive receive (order : list bytes -> list bytes) (ct : bytes) (now : Z) (d : dir) : dir -> option bytes -> bool -> Prop :=
| Rx_nothing : receive order ct now d d None false
| Rx_refused : forall p r r' o, load p d = Some r ->
    decrypt hmac sha256 x25519 unseal (order (mkeys (saved r))) now r ct = (r', o) ->
    receive order ct now d d None false
| Rx_died : forall p r r' m d' b, load p d = Some r ->
    decrypt hmac sha256 x25519 unseal (order (mkeys (saved r))) now r ct = (r', Got m) ->
    saving d (image now r') d' b -> receive order ct now d d' None b
| Rx_handled : forall p r r' m d', load p d = Some r ->
    decrypt hmac sha256 x25519 unseal (order (mkeys (saved r))) now r ct = (r', Got m) ->
    saving d (image now r') d' true -> receive order ct now d d' (Some m) true.

(** Two contacts with their directories, after the key exchange: what can be
    reached while both clients die as often as they like, except between handing a
    message to the server and having saved the ratchet.  [done] are the operations
    whose result is on disk.  Private keys, nonces and map orders are as in
    [RatchetConvModel.run]; the clock stays between [t0] and [t1]. *)
Variable xs : nat -> bytes.
Variables a b : ratchet.
Variables t0 t1 : Z.
Definition start_world : world :=
  mkWorld (fun who => if who then a else b) (fun who => if who then i_alice else i_bob) [].
Definition memory (done : list event) : world := fst (run hmac sha256 x25519 base seal unseal xs start_world done).

Inductive reach : list event -> (bool -> dir) -> Prop :=
| Re_start : forall D now, (t0 <= now <= t1)%Z ->
    (forall who : bool, mget (D who) ratchet_file = Some (image now (if who then a else b))) -> reach [] D
| Re_send : forall done D who priv hn mn msg now d' wire on_disk, reach done D -> (t0 <= now <= t1)%Z ->
    transmit priv hn mn msg now (D who) d' wire on_disk ->
    match wire with
    | None => True
    | Some _ => priv = xs (fst (fst (snd (ideal_send (w_i (memory done) who))))) /\ on_disk = true
    end ->
    reach (match wire with None => done | Some _ => done ++ [Send who hn mn msg] end) (set D who d')
| Re_recv : forall done D who order ct now d' m on_disk, reach done D -> (t0 <= now <= t1)%Z ->
    receive order ct now (D who) d' m on_disk ->
    reach (if on_disk then done ++ [Recv who order now ct] else done) (set D who d').

(** What follows a death between handing a message over and saving the ratchet: the
    two ratchets and the messages each has sent since, oldest first.  [true] is the
    one who died.  A ratchet whose operation failed is not saved and read again from
    disk next time (msg.go:447-487, push.go:453-470). *)
Record after := mkAfter { af_r : bool -> ratchet; af_sent : bool -> list bytes }.
Inductive act :=
| Say (who : bool) (priv hn mn msg : bytes)
| Hear (who : bool) (order : list bytes -> list bytes) (now : Z) (k : nat)    (* the k-th new message of the other *)
| Old (who : bool) (order : list bytes -> list bytes) (now : Z) (ct : bytes). (* anything else *)

Definition hear (s : after) (who : bool) (order : list bytes -> list bytes) (now : Z) (ct : bytes) : after * option bytes :=
  match decrypt hmac sha256 x25519 unseal (order (mkeys (saved (af_r s who)))) now (af_r s who) ct with
  | (r', Got m) => (mkAfter (set (af_r s) who r') (af_sent s), Some m)
  | _ => (s, None)
  end.
Definition do_act (s : after) (x : act) : after * option bytes :=
  match x with
  | Say who priv hn mn msg =>
      match encrypt hmac sha256 x25519 base seal (af_r s who) priv hn mn msg with
      | (r', Some ct) => (mkAfter (set (af_r s) who r') (set (af_sent s) who (af_sent s who ++ [ct])), None)
      | (_, None) => (s, None)
      end
  | Hear who order now k => match nth_error (af_sent s (negb who)) k with
                            | Some ct => hear s who order now ct
                            | None => (s, None)
                            end
  | Old who order now ct => hear s who order now ct
  end.
Fixpoint do_acts (s : after) (l : list act) : list (act * option bytes) :=
  match l with [] => [] | x :: l' => (x, snd (do_act s x)) :: do_acts (fst (do_act s x)) l' end.

(** Private keys are [drawn], nonces have 24 bytes, and what else is delivered is
    not a message of the receiver's next chain. *)
Fixpoint acts_ok (drawn : bytes -> Prop) (s : after) (l : list act) : Prop :=
  match l with
  | [] => True
  | x :: l' =>
      match x with
      | Say _ priv hn mn _ => drawn priv /\ length hn = 24%nat /\ length mn = 24%nat
      | Hear _ _ _ _ => True
      | Old who _ _ ct => unseal (next_recv_header (af_r s who)) (ct_nonce ct) (ct_header ct) = None
      end /\ acts_ok drawn (fst (do_act s x)) l'
  end.
End Crash.
