(** Model of what a user is told when the server refuses a message because the account
    of its recipient is disabled: the reply of /repo/zkserver/cache.go and
    handleDisabledUser of /repo/zkclient/zkclient.go.

    Printing is immediate: that it is queued under the number of a window, which may be
    another one when it is run, is part of WinModel.  What a line says is kept by its
    meaning. *)
From Verif Require Import Base XdrModel RpcModel HexModel AddrModel WinModel.
Local Open Scope N_scope.

(** What is printed. *)
Inductive notice :=
| CacheError (text : bytes)      (* zkclient.go:1460-1463 *)
| Unknown (id : bytes)           (* 1122-1124: no such contact *)
| Lost (id : bytes)              (* 1139-1141: the window's group is gone *)
| Kick (id : bytes)              (* 1147-1149: please kick *)
| Told (id : bytes).             (* 1161-1163 and 1177-1179 *)

(** zkclient.go:284-294 type conversation: the window, and its field seenCacheError.
    [serial] numbers the windows in the order in which they were opened; the code has
    no such number. *)
Record nwin := mkNwin { n_serial : nat; n_win : win; n_seen : N }.
Definition bump (v : nwin) : nwin := mkNwin (n_serial v) (n_win v) (n_seen v + 1).

Section Notify.
Variable me : bytes.                           (* the user's identity *)
Variable groups : list (bytes * list bytes).   (* name and members, the administrator first *)
Variable rid : PublicIdentity.                 (* the contact, as in the address book *)

(** zkclient.go:1119-1182 handleDisabledUser, the loop over the windows from the given
    one on.  Windows are never nil (WinModel).  None: the program dies, the index 0 of an
    empty list of members. *)
Fixpoint tell (ws : list nwin) : option (list nwin * list (nat * notice)) :=
  match ws with
  | [] => Some ([], [])
  | v :: r =>
      let next (v' : nwin) (out : list (nat * notice)) :=
        match tell r with Some (r', out') => Some (v' :: r', out ++ out') | None => None end in
      if w_group (n_win v) then
        match mget groups (w_nick (n_win v)) with
        | None => next v [(n_serial v, Lost (ident rid))]
        | Some [] => None
        | Some (a :: ms) =>
            if eqb me a then next v [(n_serial v, Kick (ident rid))]
            else if mem (ident rid) (a :: ms) then
              next (bump v) (if 0 <? n_seen v then [] else [(n_serial v, Told (ident rid))])
            else next v []
        end
      else if negb (eqb (w_nick (n_win v)) (nick rid)) then next v []
      else if 0 <? n_seen v then next (bump v) []
      else Some (bump v :: r, [(n_serial v, Told (ident rid))])
  end.
End Notify.

(** The client: the user's record, the address book (as a function, since the order in
    which Go goes through the map is not fixed), the groups and the windows, the console
    first; the number of the active window. *)
Record client := mkClient {
  c_me : PublicIdentity;
  c_find : bytes -> option PublicIdentity;
  c_groups : list (bytes * list bytes);
  c_wins : list nwin;
  c_active : nat;
  c_next : nat }.

(** addressbook.go:98-105 addressBookFind. *)
Definition book_find (c : client) (id : bytes) : option PublicIdentity :=
  if eqb id (ident (c_me c)) then Some (c_me c) else c_find c id.

Definition at_window (c : client) (k : nat) (n : notice) : list (nat * notice) :=
  match nth_error (c_wins c) k with Some v => [(n_serial v, n)] | None => [] end.
Definition with_wins (c : client) (ws : list nwin) : client :=
  mkClient (c_me c) (c_find c) (c_groups c) ws (c_active c) (c_next c).

(** zkclient.go:1119-1182 handleDisabledUser. *)
Definition handle_disabled (c : client) (id : bytes) : option (client * list (nat * notice)) :=
  match book_find c id with
  | None => Some (c, at_window c (c_active c) (Unknown id))
  | Some rid => match tell (ident (c_me c)) (c_groups c) rid (c_wins c) with
                | Some (ws, out) => Some (with_wins c ws, out)
                | None => None
                end
  end.

(** zkserver/cache.go:33-55, the reply when a message could not be stored: text and
    error code. *)
Definition user_disabled : N := 1.
Definition server_reply (disabled : bool) (id : bytes) : bytes * N :=
  if disabled then (bs "identity disabled " ++ hex_encode id, user_disabled) else (bs "internal error", 0).

(** zkclient.go:1459-1471, in handleRPC: the reply to a message for [id]. *)
Definition handle_ack (c : client) (id text : bytes) (code : N) : option (client * list (nat * notice)) :=
  let out := match text with [] => [] | _ => at_window c 0 (CacheError text) end in
  if code =? user_disabled then
    match handle_disabled c id with
    | Some (c', out') => Some (c', out ++ out')
    | None => None
    end
  else Some (c, out).

(** What happens to a client: replies; windows are opened, at the end of the list and
    with the counter at 0 (zkclient.go:342-464), closed, all closed but the console,
    and brought to the front; the address book and the groups change in any way. *)
Inductive happens :=
| Reply (id text : bytes) (code : N)
| Opens (w : win)
| Closes (k : nat)
| ClosesAll
| Focus (k : nat)
| Changes (find : bytes -> option PublicIdentity) (groups : list (bytes * list bytes)).

(** mainwindow.go:629-648 (/wc) and 770-777 closeAll, zkclient.go:247-282 focus.  The
    console is not closed; the number of the active window is set by separate events. *)
Fixpoint drop_nth {A} (k : nat) (l : list A) : list A :=
  match l, k with
  | [], _ => []
  | _ :: r, O => r
  | x :: r, S k' => x :: drop_nth k' r
  end.
Definition happen (c : client) (h : happens) : option (client * list (nat * notice)) :=
  match h with
  | Reply id text code => handle_ack c id text code
  | Opens w => Some (mkClient (c_me c) (c_find c) (c_groups c) (c_wins c ++ [mkNwin (c_next c) w 0]) (c_active c) (S (c_next c)), [])
  | Closes k => Some (with_wins c (match k with O => c_wins c | S _ => drop_nth k (c_wins c) end), [])
  | ClosesAll => Some (with_wins c (firstn 1 (c_wins c)), [])
  | Focus k => Some (mkClient (c_me c) (c_find c) (c_groups c) (c_wins c) k (c_next c), [])
  | Changes f g => Some (mkClient (c_me c) f g (c_wins c) (c_active c) (c_next c), [])
  end.

(** A run, with all that was printed; None: the program died. *)
Fixpoint history (c : client) (hs : list happens) : option (client * list (nat * notice)) :=
  match hs with
  | [] => Some (c, [])
  | h :: r => match happen c h with
              | None => None
              | Some (c', out) => match history c' r with
                                  | Some (c'', out') => Some (c'', out ++ out')
                                  | None => None
                                  end
              end
  end.

(** mainwindow.go:274-279: at the start there is the console. *)
Definition started (me : PublicIdentity) : client :=
  mkClient me (fun _ => None) [] [mkNwin 0 (console me) 0] 0 1.
