(** Model of the connections of one account: zkserver/zkserver.go [handleSession]
    from the login to the end of the connection, with the goroutines that can hold
    it up, and account.Online and account.Offline. *)
From Verif Require Import Base SrvModel.

(** Where handleSession (zkserver.go:336-587) is, for one connection. *)
Inductive place :=
| Knock      (* authenticated; before account.Online, 355 *)
| Kick       (* already online; before the lock, 365 *)
| Reg        (* online; before the lock, 387 *)
| Listing    (* in z.sessions; before account.Push, 395 *)
| Reading    (* in the loop, 421 *)
| Sending    (* has an answer for the writer *)
| Freeing    (* has a tag to give back: tagStack.Push, 553 *)
| Leaving    (* in the deferred function; before account.Offline, 411 *)
| Unreg      (* before the lock, 414 *)
| Lost       (* returned at 397, before the deferred function was installed *)
| Gone.

(** The notifier (sessionNtfn, 259-332) and the writer (sessionWriter, 217-257).
    They stop some time after [quit] is closed, which is left out. *)
Inductive notifier := NWait | NHold.
Inductive writer := WWait | WBusy | WDead.

(** A connection: the state of the network connection, the number of messages
    queued for the writer, and the number of free tags. *)
Record conn := mkConn { k_at : place; k_closed : bool; k_queue : nat; k_free : nat; k_ntfn : notifier; k_writer : writer }.
Definition new_conn : conn := mkConn Knock false 0 32 NWait WWait.
Definition at_ (c : conn) (p : place) : conn := mkConn p (k_closed c) (k_queue c) (k_free c) (k_ntfn c) (k_writer c).
Definition close (c : conn) : conn := mkConn (k_at c) true (k_queue c) (k_free c) (k_ntfn c) (k_writer c).

(** The account is online (account.online has an entry), the entry of z.sessions,
    and all connections so far.  [online] remembers, for the theorems only, which
    connection made the entry. *)
Record house := mkHouse { h_online : option nat; h_entry : option nat; h_conns : list conn }.
Definition empty_house : house := mkHouse None None [].

Definition set_conn (h : house) (i : nat) (c : conn) : house := mkHouse (h_online h) (h_entry h) (put i c (h_conns h)).

Inductive act :=
| AConnect               (* a client authenticates: preSession up to 704 *)
| AOnline (i : nat)      (* 355: account.Online *)
| AKick (i : nat)        (* 365-384 *)
| AReg (i : nat)         (* 387-389 *)
| AList (i : nat) (ok : bool)  (* 394-400 *)
| ARequest (i : nat)     (* a message with an answer is read *)
| AAck (i : nat)         (* an acknowledgement is read *)
| ASend (i : nat)        (* the answer is queued *)
| AFree (i : nat)        (* the tag is given back *)
| ANotify (i : nat)      (* 270-316: the notifier has a message and takes a tag *)
| APush (i : nat)        (* 329: it queues the message *)
| AWrite (i : nat)       (* 235: the writer takes a message *)
| AWrote (i : nat)       (* 248: it is written *)
| AWFail (i : nat)       (* 249-254: it is not; the writer closes the connection *)
| ADrop (i : nat)        (* the connection is lost *)
| ALeave (i : nat)       (* reading fails, times out, or the message is refused *)
| AOffline (i : nat)     (* 411 *)
| AUnreg (i : nat)       (* 414-416 *)
| ADisable.              (* 763-769: the administrator disables the account *)

Definition step (h : house) (a : act) : option house :=
  match a with
  | AConnect => Some (mkHouse (h_online h) (h_entry h) (h_conns h ++ [new_conn]))
  | AOnline i =>
      match nth_error (h_conns h) i with
      | Some c => match k_at c with
                  | Knock => match h_online h with
                             | None => Some (mkHouse (Some i) (h_entry h) (put i (at_ c Reg) (h_conns h)))
                             | Some _ => Some (set_conn h i (at_ c Kick))
                             end
                  | _ => None
                  end
      | None => None
      end
  | AKick i =>
      match nth_error (h_conns h) i with
      | Some c => match k_at c with
                  | Kick =>
                      let l := put i (at_ c Gone) (h_conns h) in
                      match h_entry h with
                      | None => Some (mkHouse (h_online h) None l)
                      | Some o =>
                          let l' := match nth_error l o with Some d => put o (close d) l | None => l end in
                          Some (mkHouse (h_online h) None l')
                      end
                  | _ => None
                  end
      | None => None
      end
  | AReg i =>
      match nth_error (h_conns h) i with
      | Some c => match k_at c with
                  | Reg => Some (mkHouse (h_online h) (Some i) (put i (at_ c Listing) (h_conns h)))
                  | _ => None
                  end
      | None => None
      end
  | AList i ok =>
      match nth_error (h_conns h) i with
      | Some c => match k_at c with
                  | Listing => Some (set_conn h i (at_ c (if ok then Reading else Lost)))
                  | _ => None
                  end
      | None => None
      end
  | ARequest i =>
      match nth_error (h_conns h) i with
      | Some c => match k_at c, k_closed c with
                  | Reading, false => Some (set_conn h i (at_ c Sending))
                  | _, _ => None
                  end
      | None => None
      end
  | AAck i =>
      match nth_error (h_conns h) i with
      | Some c => match k_at c, k_closed c with
                  | Reading, false => Some (set_conn h i (at_ c Freeing))
                  | _, _ => None
                  end
      | None => None
      end
  | ASend i =>
      match nth_error (h_conns h) i with
      | Some c => match k_at c with
                  | Sending => if Nat.ltb (k_queue c) 32
                               then Some (set_conn h i (mkConn Reading (k_closed c) (S (k_queue c)) (k_free c) (k_ntfn c) (k_writer c)))
                               else None
                  | _ => None
                  end
      | None => None
      end
  | AFree i =>
      match nth_error (h_conns h) i with
      | Some c => match k_at c with
                  | Freeing => if Nat.ltb (k_free c) 32
                               then Some (set_conn h i (mkConn Reading (k_closed c) (k_queue c) (S (k_free c)) (k_ntfn c) (k_writer c)))
                               else None
                  | _ => None
                  end
      | None => None
      end
  | ANotify i =>
      match nth_error (h_conns h) i with
      | Some c => match k_at c, k_ntfn c, k_free c with
                  | (Reading | Sending | Freeing), NWait, S n =>
                      Some (set_conn h i (mkConn (k_at c) (k_closed c) (k_queue c) n NHold (k_writer c)))
                  | _, _, _ => None
                  end
      | None => None
      end
  | APush i =>
      match nth_error (h_conns h) i with
      | Some c => match k_ntfn c with
                  | NHold => if Nat.ltb (k_queue c) 32
                             then Some (set_conn h i (mkConn (k_at c) (k_closed c) (S (k_queue c)) (k_free c) NWait (k_writer c)))
                             else None
                  | NWait => None
                  end
      | None => None
      end
  | AWrite i =>
      match nth_error (h_conns h) i with
      | Some c => match k_writer c, k_queue c with
                  | WWait, S n => Some (set_conn h i (mkConn (k_at c) (k_closed c) n (k_free c) (k_ntfn c) WBusy))
                  | _, _ => None
                  end
      | None => None
      end
  | AWrote i =>
      match nth_error (h_conns h) i with
      | Some c => match k_writer c, k_closed c with
                  | WBusy, false => Some (set_conn h i (mkConn (k_at c) false (k_queue c) (k_free c) (k_ntfn c) WWait))
                  | _, _ => None
                  end
      | None => None
      end
  | AWFail i =>
      match nth_error (h_conns h) i with
      | Some c => match k_writer c with
                  | WBusy => Some (set_conn h i (mkConn (k_at c) true (k_queue c) (k_free c) (k_ntfn c) WDead))
                  | _ => None
                  end
      | None => None
      end
  | ADrop i =>
      match nth_error (h_conns h) i with
      | Some c => Some (set_conn h i (close c))
      | None => None
      end
  | ALeave i =>
      match nth_error (h_conns h) i with
      | Some c => match k_at c with
                  | Reading => Some (set_conn h i (at_ c Leaving))
                  | _ => None
                  end
      | None => None
      end
  | AOffline i =>
      match nth_error (h_conns h) i with
      | Some c => match k_at c with
                  | Leaving => Some (mkHouse None (h_entry h) (put i (at_ c Unreg) (h_conns h)))
                  | _ => None
                  end
      | None => None
      end
  | AUnreg i =>
      match nth_error (h_conns h) i with
      | Some c => match k_at c with
                  | Unreg => Some (mkHouse (h_online h) None (put i (at_ c Gone) (h_conns h)))
                  | _ => None
                  end
      | None => None
      end
  | ADisable =>
      match h_entry h with
      | Some o => match nth_error (h_conns h) o with Some c => Some (set_conn h o (close c)) | None => None end
      | None => Some h
      end
  end.

Fixpoint steps (h : house) (l : list act) : option house :=
  match l with
  | [] => Some h
  | a :: l' => match step h a with Some h' => steps h' l' | None => None end
  end.
