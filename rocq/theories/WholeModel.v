(** A conversation from one client through the server to the other: the ratchets on
    disk (CrashModel.v), the two connections, and the mailboxes (MailModel.v), put
    together.

    Left out: errors of the disk while the ratchet is read or saved (the message is
    then lost although it is acknowledged, zkclient.go:1393-1430), resets and new key
    exchanges, and files that a crash of the server cuts short (see C22). *)
From Verif Require Import Base XdrModel RpcModel RpcProofs RatchetModel RatchetConvModel CrashModel.
From Verif Require MailModel.
Local Open Scope N_scope.
Notation mail := MailModel.mail.
Notation pushed := MailModel.pushed.

(** Clients acknowledge what they received, once (C60_honest says when this client
    does); the server's clock goes forward between deliveries. *)
Definition careful : MailModel.world := {| MailModel.honest := true; MailModel.clock := MailModel.Increasing |}.

(** Everything for both parties.  The last four are history: what was handed to the
    connection and what was handled, with the text and as it was sent; what was lost on
    the way to the mailbox; what was taken out of the mailbox for good by a client that
    died before it handled it. *)
Record net := mkNet {
  n_done : list event;               (* operations of the two ratchets that are on disk *)
  n_dir : bool -> dir;               (* the directories with the ratchets *)
  n_up : bool -> bool;               (* the client runs *)
  n_fly : bool -> list bytes;        (* sent by the client, not yet seen by the server *)
  n_box : bool -> mail;              (* the mailbox *)
  n_said : bool -> list (bytes * bytes);
  n_heard : bool -> list (bytes * bytes);
  n_lost : bool -> list bytes;
  n_gone : bool -> list bytes
}.

(** Messages of the sender [from] that were cached (zkserver/cache.go:33, which marks
    them as not clear text). *)
Definition from_him (from : bytes) (d : DiskMessage) : bool :=
  eqb (DiskMessage_From d) from && negb (DiskMessage_Cleartext d).

(** Deliveries that were begun and are neither going on nor done. *)
Definition vanished (from : bytes) (m m' : mail) : list bytes :=
  map (fun x => DiskMessage_Payload (snd x))
    (filter (fun x => from_him from (snd x) &&
                      negb (mem (fst x) (map fst (MailModel.m_pending m'))) &&
                      negb (mem (fst x) (map fst (MailModel.m_done m'))))
       (MailModel.m_pending m)).

Section Whole.
Variable hmac : bytes -> bytes -> bytes.
Variable sha256 : bytes -> bytes.
Variable x25519 : bytes -> bytes -> option bytes.
Variable base : bytes -> bytes.
Variable seal : bytes -> bytes -> bytes -> bytes.
Variable unseal : bytes -> bytes -> bytes -> option bytes.
Variable xs : nat -> bytes.
Variables a b : ratchet.
Variables t0 t1 : Z.
Variable id : bool -> bytes.

(** What the mailbox of [who] does by itself or with others; [running]: the client
    runs.  Only the session of the contact delivers messages from the contact (C24).
    Files that a crash or a full disk cuts short are left to C89. *)
Definition own_action (from : bytes) (running : bool) (x : MailModel.action) : Prop :=
  match x with
  | MailModel.AReceive => False
  | MailModel.ACheck _ d => DiskMessage_ok 0 d /\ from_him from d = false
  | MailModel.AAck _ | MailModel.AOnline => running = true
  | MailModel.ACrash (Some _) | MailModel.AFull _ (Some _) => False
  | _ => True
  end.

Inductive nstep (x : net) : net -> Prop :=
(** zkclient/msg.go:437-519 [cacheCRPC]: a message is handed to the connection and the
    ratchet is saved; a client that dies in between is the subject of C45.  Private keys
    are numbered by the chains they begin; no header nonce is drawn twice. *)
| N_say : forall who priv hn mn msg now d' ct, n_up x who = true -> (t0 <= now <= t1)%Z ->
    length hn = 24%nat -> length mn = 24%nat -> (forall w y, In y (n_said x w) -> ct_nonce (snd y) <> hn) ->
    transmit hmac sha256 x25519 base seal priv hn mn msg now (n_dir x who) d' (Some ct) true ->
    priv = xs (fst (fst (snd (ideal_send (w_i (memory hmac sha256 x25519 base seal unseal xs a b (n_done x)) who))))) ->
    nstep x (mkNet (n_done x ++ [Send who hn mn msg]) (set (n_dir x) who d') (n_up x)
      (set (n_fly x) who (n_fly x who ++ [ct])) (n_box x) (set (n_said x) who (n_said x who ++ [(msg, ct)]))
      (n_heard x) (n_lost x) (n_gone x))
(** The connection breaks: some of what is under way does not arrive.  The client does
    not send it again. *)
| N_cut : forall who k,
    nstep x (mkNet (n_done x) (n_dir x) (n_up x) (set (n_fly x) who (firstn k (n_fly x who))) (n_box x) (n_said x)
      (n_heard x) (set (n_lost x) who (n_lost x who ++ skipn k (n_fly x who))) (n_gone x))
(** zkserver/cache.go:20-59 [handleCache], up to account.go:340 in Deliver.  The server
    handles the messages of a session one after the other. *)
| N_arrive : forall who ct rest n at_ m', n_fly x who = ct :: rest ->
    (forall y, In y (MailModel.m_pending (n_box x (negb who))) -> from_him (id who) (snd y) = false) ->
    DiskMessage_ok 0 (mkDiskMessage (id who) at_ ct false) ->
    MailModel.exec careful (n_box x (negb who)) (MailModel.ACheck n (mkDiskMessage (id who) at_ ct false)) = Some m' ->
    nstep x (mkNet (n_done x) (n_dir x) (n_up x) (set (n_fly x) who rest) (set (n_box x) (negb who) m') (n_said x)
      (n_heard x) (n_lost x) (n_gone x))
(** Deliver fails, or the server does before it begins. *)
| N_turned_away : forall who ct rest, n_fly x who = ct :: rest ->
    nstep x (mkNet (n_done x) (n_dir x) (n_up x) (set (n_fly x) who rest) (n_box x) (n_said x)
      (n_heard x) (set (n_lost x) who (n_lost x who ++ [ct])) (n_gone x))
| N_post : forall who act m', own_action (id (negb who)) (n_up x who) act ->
    MailModel.exec careful (n_box x who) act = Some m' ->
    nstep x (mkNet (n_done x) (n_dir x) (n_up x) (n_fly x) (set (n_box x) who m') (n_said x) (n_heard x)
      (set (n_lost x) (negb who) (n_lost x (negb who) ++ vanished (id (negb who)) (n_box x who) m')) (n_gone x))
(** A message of somebody else reaches the client. *)
| N_foreign : forall who s p r m', n_up x who = true ->
    MailModel.m_sess (n_box x who) = Some s -> MailModel.s_wire s = p :: r ->
    from_him (id (negb who)) (MailModel.p_msg p) = false ->
    MailModel.exec careful (n_box x who) MailModel.AReceive = Some m' ->
    nstep x (mkNet (n_done x) (n_dir x) (n_up x) (n_fly x) (set (n_box x) who m') (n_said x) (n_heard x) (n_lost x) (n_gone x))
(** zkclient/push.go:450-476 [handlePush]: a message of the contact reaches the client,
    is decrypted, the ratchet saved, and it is handled. *)
| N_hear : forall who s p r m' order now d' msg, n_up x who = true -> (t0 <= now <= t1)%Z -> (forall l, Permutation l (order l)) ->
    MailModel.m_sess (n_box x who) = Some s -> MailModel.s_wire s = p :: r ->
    from_him (id (negb who)) (MailModel.p_msg p) = true ->
    MailModel.exec careful (n_box x who) MailModel.AReceive = Some m' ->
    receive hmac sha256 x25519 unseal order (DiskMessage_Payload (MailModel.p_msg p)) now (n_dir x who) d' (Some msg) true ->
    nstep x (mkNet (n_done x ++ [Recv who order now (DiskMessage_Payload (MailModel.p_msg p))]) (set (n_dir x) who d')
      (n_up x) (n_fly x) (set (n_box x) who m') (n_said x)
      (set (n_heard x) who (n_heard x who ++ [(msg, DiskMessage_Payload (MailModel.p_msg p))])) (n_lost x) (n_gone x))
(** It is not decrypted; it is acknowledged all the same (zkclient.go:1425-1430). *)
| N_refuse : forall who s p r m' order now pr ra ra' o, n_up x who = true -> (t0 <= now <= t1)%Z -> (forall l, Permutation l (order l)) ->
    MailModel.m_sess (n_box x who) = Some s -> MailModel.s_wire s = p :: r ->
    from_him (id (negb who)) (MailModel.p_msg p) = true ->
    MailModel.exec careful (n_box x who) MailModel.AReceive = Some m' ->
    load pr (n_dir x who) = Some ra ->
    decrypt hmac sha256 x25519 unseal (order (mkeys (saved ra))) now ra (DiskMessage_Payload (MailModel.p_msg p)) = (ra', o) ->
    (forall m, o <> Got m) ->
    nstep x (mkNet (n_done x) (n_dir x) (n_up x) (n_fly x) (set (n_box x) who m') (n_said x) (n_heard x) (n_lost x) (n_gone x))
(** The client dies over it, before ([on] is false) or after the ratchet was saved. *)
| N_die : forall who s p r m' order now d' on, n_up x who = true -> (t0 <= now <= t1)%Z -> (forall l, Permutation l (order l)) ->
    MailModel.m_sess (n_box x who) = Some s -> MailModel.s_wire s = p :: r ->
    from_him (id (negb who)) (MailModel.p_msg p) = true ->
    MailModel.exec careful (n_box x who) MailModel.AReceive = Some m' ->
    receive hmac sha256 x25519 unseal order (DiskMessage_Payload (MailModel.p_msg p)) now (n_dir x who) d' None on ->
    nstep x (mkNet (if on then n_done x ++ [Recv who order now (DiskMessage_Payload (MailModel.p_msg p))] else n_done x)
      (set (n_dir x) who d') (set (n_up x) who false) (n_fly x) (set (n_box x) who m') (n_said x) (n_heard x) (n_lost x)
      (if on then set (n_gone x) who (n_gone x who ++ [DiskMessage_Payload (MailModel.p_msg p)]) else n_gone x))
(** The client dies otherwise, and is started again when its session has ended. *)
| N_stop : forall who,
    nstep x (mkNet (n_done x) (n_dir x) (set (n_up x) who false) (n_fly x) (n_box x) (n_said x) (n_heard x) (n_lost x) (n_gone x))
| N_restart : forall who, MailModel.m_sess (n_box x who) = None ->
    nstep x (mkNet (n_done x) (n_dir x) (set (n_up x) who true) (n_fly x) (n_box x) (n_said x) (n_heard x) (n_lost x) (n_gone x)).

Inductive nruns : net -> Prop :=
| nruns_start : forall D now, (t0 <= now <= t1)%Z ->
    (forall who : bool, mget (D who) ratchet_file = Some (image now (if who then a else b))) ->
    nruns (mkNet [] D (fun _ => true) (fun _ => []) (fun _ => MailModel.empty_mail) (fun _ => []) (fun _ => []) (fun _ => []) (fun _ => []))
| nruns_step : forall x x', nruns x -> nstep x x' -> nruns x'.
Inductive nlater (x : net) : net -> Prop :=
| nlater_now : nlater x x
| nlater_step : forall y z, nlater x y -> nstep y z -> nlater x z.
End Whole.

(** * For the statements *)

(** [l] is [l'] with some left out. *)
Inductive sub {A} : list A -> list A -> Prop :=
| sub_nil : sub [] []
| sub_skip : forall x l l', sub l l' -> sub l (x :: l')
| sub_take : forall x l l', sub l l' -> sub (x :: l) (x :: l').
