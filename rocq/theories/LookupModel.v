(** Looking up nicks in the directory of the server: /find, writing to an unknown nick,
    and invitations to groups with unknown members.

    Simplifications: find runs with pendingIdentitiesMutex held from the check to the
    entry and is one step; the scheduler may write the requests in any order (C40 is about
    the order); tags are a free choice of each request (the stack may be empty) and of
    each reply (the stack may be full; C41 and C59 are about tags); what step1IDKX does
    with an identity is in IdkxModel; printing is left out. *)
From Verif Require Import Base.

(** Who caused a lookup: the user, or a contact whose invitation names the nick. *)
Inductive cause := User | Invite (from : bytes).

(** What came of a lookup: a key exchange with an identity; the server does not know the
    nick; the tag of the reply could not be given back and the connection was closed. *)
Inductive outcome := Begun (id : bytes) | Unknown | Cut.

(** The client: whether it is online with a server that has a directory, its own nick,
    its contacts (nick and identity), the lookups in progress (pendingIdentities), its
    queue of requests; the server: the requests it has and its directory.  The rest is
    history: requests lost with a connection, lookups accepted since the client was
    started, and their outcomes. *)
Record st := mkSt {
  online : bool; directory : bool; me : bytes; book : list (bytes * bytes);
  pend : list bytes; queue : list bytes;
  open : list bytes; dir : list (bytes * bytes);
  lost : list bytes; asked : list (bytes * cause); outs : list (bytes * outcome) }.

Definition known (s : st) (n : bytes) : bool := mhas (book s) n.
Definition set_find (s : st) (n : bytes) (w : cause) : st :=
  mkSt (online s) (directory s) (me s) (book s) (n :: pend s) (queue s ++ [n]) (open s) (dir s) (lost s)
    (asked s ++ [(n, w)]) (outs s).

(** zkclient/zkclient.go:1717-1764 [find]; [tag]: a tag was available. *)
Definition find (s : st) (n : bytes) (w : cause) (tag : bool) : option st :=
  if negb (online s) then None
  else if negb (directory s) then None
  else if eqb n [] then None
  else if eqb n (me s) then None
  else if known s n then None
  else if mem n (pend s) then None
  else if negb tag then None
  else Some (set_find s n w).

(** zkclient/push.go:721-762 [handleGroupInvite]: only contacts are heard, and every
    member that is not a contact is looked up; failures are only logged. *)
Fixpoint find_all (s : st) (from : bytes) (l : list (bytes * bool)) : st :=
  match l with
  | [] => s
  | (n, tag) :: r =>
      find_all (if known s n then s else match find s n (Invite from) tag with Some s' => s' | None => s end) from r
  end.

Inductive event :=
| Find (n : bytes) (tag : bool)                (* /find, mainwindow.go:709 *)
| Talk (n : bytes) (tag : bool)                (* addressbook.go:75-97 [addressBookConversation] *)
| Invited (from : bytes) (kept : bool) (members : list (bytes * bool)) (* kept: joinDBAdd did not fail *)
| Written (i : nat)                            (* the scheduler writes the i-th request *)
| Reply (i : nat) (full : bool)                (* the server answers the i-th request *)
| Forged (n : bytes) (o : option bytes) (full : bool)  (* a reply to nothing, or not from the directory *)
| Break                                        (* the connection is lost *)
| Connect (d : bool)                           (* again; [d]: the server has a directory *)
| Restart                                      (* the client is started anew *)
| Contact (n id : bytes) | Forget (n : bytes)  (* the address book changes *)
| Enlist (n id : bytes) | Delist (n : bytes).  (* the directory changes *)

Definition remove_at {A} (i : nat) (l : list A) : list A := firstn i l ++ skipn (S i) l.
(** zkclient/zkclient.go:1192-1216: offline. *)
Definition break (s : st) : st :=
  mkSt false (directory s) (me s) (book s) (pend s) (queue s) [] (dir s) (lost s ++ open s) (asked s) (outs s).
Definition set_open (s : st) (q o : list bytes) : st :=
  mkSt (online s) (directory s) (me s) (book s) (pend s) q o (dir s) (lost s) (asked s) (outs s).
Definition set_book (s : st) (b : list (bytes * bytes)) : st :=
  mkSt (online s) (directory s) (me s) b (pend s) (queue s) (open s) (dir s) (lost s) (asked s) (outs s).
Definition set_dir (s : st) (d : list (bytes * bytes)) : st :=
  mkSt (online s) (directory s) (me s) (book s) (pend s) (queue s) (open s) d (lost s) (asked s) (outs s).
Definition forget (s : st) (n : bytes) : st :=
  mkSt (online s) (directory s) (me s) (book s) (filter (fun x => negb (eqb x n)) (pend s)) (queue s) (open s) (dir s)
    (lost s) (asked s) (outs s).
Definition log (s : st) (n : bytes) (o : outcome) : st :=
  mkSt (online s) (directory s) (me s) (book s) (pend s) (queue s) (open s) (dir s) (lost s) (asked s) (outs s ++ [(n, o)]).

(** zkclient/zkclient.go:1480-1511, a reply: the nick is no longer pending, unless it is
    empty; the tag is given back; then the key exchange begins.  Whether the nick was
    asked for is not checked. *)
Definition handle (s : st) (n : bytes) (o : outcome) (full : bool) : st :=
  let s1 := if eqb n [] then s else forget s n in
  if full then break (log s1 n Cut) else log s1 n o.

(** zkserver/account.go:82-101 [handleIdentityFind]: the reply carries the nick of the
    request; account.go:193-234 [Find]. *)
Definition answer (s : st) (n : bytes) : outcome :=
  match mget (dir s) n with Some id => Begun id | None => Unknown end.

(** One event; [None]: it cannot happen, or is refused.  [honest]: the server answers
    what was asked, from its directory. *)
Definition step (honest : bool) (s : st) (e : event) : option st :=
  match e with
  | Find n tag => find s n User tag
  | Talk n tag => if eqb n (me s) || known s n then None else find s n User tag
  | Invited from kept l =>
      if online s && existsb (fun p => eqb (snd p) from) (book s)
      then Some (if kept then find_all s from l else s) else None
  | Written i =>
      match nth_error (queue s) i with
      | Some n => if online s then Some (set_open s (remove_at i (queue s)) (open s ++ [n])) else None
      | None => None
      end
  | Reply i full =>
      match nth_error (open s) i with
      | Some n => Some (handle (set_open s (queue s) (remove_at i (open s))) n (answer s n) full)
      | None => None
      end
  | Forged n o full =>
      if honest || negb (online s) then None
      else Some (handle s n (match o with Some id => Begun id | None => Unknown end) full)
  | Break => if online s then Some (break s) else None
  | Connect d => if online s then None
                 else Some (mkSt true d (me s) (book s) (pend s) (queue s) [] (dir s) (lost s) (asked s) (outs s))
  | Restart => Some (mkSt false false (me s) (book s) [] [] [] (dir s) [] [] [])
  | Contact n id => Some (set_book s (mset (book s) n id))
  | Forget n => Some (set_book s (mdel (book s) n))
  | Enlist n id => Some (set_dir s (mset (dir s) n id))
  | Delist n => Some (set_dir s (mdel (dir s) n))
  end.

Definition start (m : bytes) (b d : list (bytes * bytes)) : st :=
  mkSt false false m b [] [] [] d [] [] [].
Fixpoint run (honest : bool) (s : st) (l : list event) : option st :=
  match l with
  | [] => Some s
  | e :: r => match step honest s e with Some s' => run honest s' r | None => None end
  end.
