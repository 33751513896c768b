(** Model of the mailbox of one account: /repo/zkserver/account/account.go (Deliver,
    Delete, Online, Offline) together with the parts of
    /repo/zkserver/zkserver.go that move messages to the client and handle its
    acknowledgements (sessionWriter, sessionNtfn, handleSession).

    Every goroutine is a program counter; one action lets one of them go on to its
    next step that others can see.  Code that runs with the mutex held is one
    action.  Sessions that are no longer online are left out: their goroutines may
    take a few more steps, but these only read the disk and use structures of their
    own.  Other accounts, input and output errors other than missing files and a disk
    that is full when a message is stored, and directories created twice (see C29) are
    left out as well. *)
From Verif Require Import Base IniModel XdrModel RpcModel.
Local Open Scope N_scope.

(** * Reading a stored message *)

Definition max_payload (n : N) : bool := (n <=? max_int32) && (n + pad_len n <=? max_int32).

(** account.go:463-483: xdr.Unmarshal, with an end of file before a field taken for
    the end of the message.  None is an error. *)
Definition read_msg (b : bytes) : option DiskMessage :=
  match b with
  | [] => Some (mkDiskMessage (repeat 0 32) 0 [] false)
  | _ =>
    match dec (xfixed 32) 0 b with
    | None => None
    | Some (from, []) => Some (mkDiskMessage from 0 [] false)
    | Some (from, b1) =>
      match dec xint64 0 b1 with
      | None => None
      | Some (rcv, []) => Some (mkDiskMessage from rcv [] false)
      | Some (rcv, b2) =>
        if Nat.eqb (length b2) 4 then
          if max_payload (of_be b2) then Some (mkDiskMessage from rcv [] false) else None
        else
        match dec xopaque 0 b2 with
        | None => None
        | Some (p, []) => Some (mkDiskMessage from rcv p false)
        | Some (p, b3) =>
          match dec xbool 0 b3 with
          | None => None
          | Some (c, _) => Some (mkDiskMessage from rcv p c)
          end
        end
      end
    end
  end.

(** * States *)

(** zkserver.go: tagDepth, the size of the tag stack and of both channels. *)
Definition depth : nat := 32.

(** account.go:68-77 Notification, and zkserver.go:304-320 the message made of it.
    The name is not sent to the client. *)
Inductive note := Good (name : bytes) (m : DiskMessage) | Bad.
Record pushed := mkPushed { p_tag : N; p_name : bytes; p_msg : DiskMessage }.

(** account.go:427-500: before the first send, at the select, about to read the
    directory, in the loop over the names, about to open a file, in send. *)
Inductive worker :=
| WStart | WSelect | WRead
| WScan (names : list bytes)
| WOpen (name : bytes) (names : list bytes)
| WSend (x : note) (names : list bytes).

(** zkserver.go:258-330: at the select, before Pop, before sending to the writer,
    exited. *)
Inductive ntfner := NIdle | NTag (name : bytes) (m : DiskMessage) | NWrite (p : pushed) | NDead.

(** zkserver.go:516-560, the case of an acknowledgement: before Delete, before
    marking the tag free, before pushing the tag. *)
Inductive handler := HIdle | HDelete (t : N) (o : option pushed) | HFree (t : N) | HPush (t : N).

Record sessn := mkSessn {
  s_work : bool;   (* a signal waits in the channel dn.work *)
  s_worker : worker;   (* goroutine started by Online *)
  s_processed : list bytes;   (* dn.processed *)
  s_ntfn : list note;   (* the channel sc.ntfn *)
  s_nt : ntfner;   (* goroutine sessionNtfn *)
  s_free : list N;   (* sc.tagStack *)
  s_out : list (N * pushed);   (* sc.tagMessage *)
  s_writer : list pushed;   (* the channel sc.writer *)
  s_wdead : bool;   (* sessionWriter has exited *)
  s_wire : list pushed;   (* on the way to the client *)
  s_recv : list pushed;   (* with the client, not acknowledged *)
  s_acks : list N;   (* on the way to the server *)
  s_hand : handler;   (* the loop of handleSession *)
  s_closed : bool;   (* the connection is closed *)
  s_notes : list note;   (* history: everything put into sc.ntfn *)
  s_rcvd : list pushed;   (* history: everything the client received *)
  s_away : bool   (* history: the account was disabled meanwhile *)
}.

Record mail := mkMail {
  m_disk : list (bytes * bytes);   (* the files in the cache directory *)
  m_there : bool;   (* the account is not disabled *)
  m_pending : list (bytes * DiskMessage);   (* deliveries after Stat and before Lock *)
  m_sess : option sessn;   (* the session that is online *)
  m_done : list (bytes * DiskMessage);   (* history: deliveries that succeeded *)
  m_partial : list bytes;   (* history: names of files cut short by a crash or a full disk *)
  m_got : list pushed;   (* history: everything the client received *)
  m_acked : list pushed   (* history: pushed messages whose tag the client acknowledged *)
}.

Definition set_s_work (s : sessn) (v : bool) : sessn := mkSessn v (s_worker s) (s_processed s) (s_ntfn s) (s_nt s) (s_free s) (s_out s) (s_writer s) (s_wdead s) (s_wire s) (s_recv s) (s_acks s) (s_hand s) (s_closed s) (s_notes s) (s_rcvd s) (s_away s).
Definition set_s_worker (s : sessn) (v : worker) : sessn := mkSessn (s_work s) v (s_processed s) (s_ntfn s) (s_nt s) (s_free s) (s_out s) (s_writer s) (s_wdead s) (s_wire s) (s_recv s) (s_acks s) (s_hand s) (s_closed s) (s_notes s) (s_rcvd s) (s_away s).
Definition set_s_processed (s : sessn) (v : list bytes) : sessn := mkSessn (s_work s) (s_worker s) v (s_ntfn s) (s_nt s) (s_free s) (s_out s) (s_writer s) (s_wdead s) (s_wire s) (s_recv s) (s_acks s) (s_hand s) (s_closed s) (s_notes s) (s_rcvd s) (s_away s).
Definition set_s_ntfn (s : sessn) (v : list note) : sessn := mkSessn (s_work s) (s_worker s) (s_processed s) v (s_nt s) (s_free s) (s_out s) (s_writer s) (s_wdead s) (s_wire s) (s_recv s) (s_acks s) (s_hand s) (s_closed s) (s_notes s) (s_rcvd s) (s_away s).
Definition set_s_nt (s : sessn) (v : ntfner) : sessn := mkSessn (s_work s) (s_worker s) (s_processed s) (s_ntfn s) v (s_free s) (s_out s) (s_writer s) (s_wdead s) (s_wire s) (s_recv s) (s_acks s) (s_hand s) (s_closed s) (s_notes s) (s_rcvd s) (s_away s).
Definition set_s_free (s : sessn) (v : list N) : sessn := mkSessn (s_work s) (s_worker s) (s_processed s) (s_ntfn s) (s_nt s) v (s_out s) (s_writer s) (s_wdead s) (s_wire s) (s_recv s) (s_acks s) (s_hand s) (s_closed s) (s_notes s) (s_rcvd s) (s_away s).
Definition set_s_out (s : sessn) (v : list (N * pushed)) : sessn := mkSessn (s_work s) (s_worker s) (s_processed s) (s_ntfn s) (s_nt s) (s_free s) v (s_writer s) (s_wdead s) (s_wire s) (s_recv s) (s_acks s) (s_hand s) (s_closed s) (s_notes s) (s_rcvd s) (s_away s).
Definition set_s_writer (s : sessn) (v : list pushed) : sessn := mkSessn (s_work s) (s_worker s) (s_processed s) (s_ntfn s) (s_nt s) (s_free s) (s_out s) v (s_wdead s) (s_wire s) (s_recv s) (s_acks s) (s_hand s) (s_closed s) (s_notes s) (s_rcvd s) (s_away s).
Definition set_s_wdead (s : sessn) (v : bool) : sessn := mkSessn (s_work s) (s_worker s) (s_processed s) (s_ntfn s) (s_nt s) (s_free s) (s_out s) (s_writer s) v (s_wire s) (s_recv s) (s_acks s) (s_hand s) (s_closed s) (s_notes s) (s_rcvd s) (s_away s).
Definition set_s_wire (s : sessn) (v : list pushed) : sessn := mkSessn (s_work s) (s_worker s) (s_processed s) (s_ntfn s) (s_nt s) (s_free s) (s_out s) (s_writer s) (s_wdead s) v (s_recv s) (s_acks s) (s_hand s) (s_closed s) (s_notes s) (s_rcvd s) (s_away s).
Definition set_s_recv (s : sessn) (v : list pushed) : sessn := mkSessn (s_work s) (s_worker s) (s_processed s) (s_ntfn s) (s_nt s) (s_free s) (s_out s) (s_writer s) (s_wdead s) (s_wire s) v (s_acks s) (s_hand s) (s_closed s) (s_notes s) (s_rcvd s) (s_away s).
Definition set_s_acks (s : sessn) (v : list N) : sessn := mkSessn (s_work s) (s_worker s) (s_processed s) (s_ntfn s) (s_nt s) (s_free s) (s_out s) (s_writer s) (s_wdead s) (s_wire s) (s_recv s) v (s_hand s) (s_closed s) (s_notes s) (s_rcvd s) (s_away s).
Definition set_s_hand (s : sessn) (v : handler) : sessn := mkSessn (s_work s) (s_worker s) (s_processed s) (s_ntfn s) (s_nt s) (s_free s) (s_out s) (s_writer s) (s_wdead s) (s_wire s) (s_recv s) (s_acks s) v (s_closed s) (s_notes s) (s_rcvd s) (s_away s).
Definition set_s_closed (s : sessn) (v : bool) : sessn := mkSessn (s_work s) (s_worker s) (s_processed s) (s_ntfn s) (s_nt s) (s_free s) (s_out s) (s_writer s) (s_wdead s) (s_wire s) (s_recv s) (s_acks s) (s_hand s) v (s_notes s) (s_rcvd s) (s_away s).
Definition set_s_notes (s : sessn) (v : list note) : sessn := mkSessn (s_work s) (s_worker s) (s_processed s) (s_ntfn s) (s_nt s) (s_free s) (s_out s) (s_writer s) (s_wdead s) (s_wire s) (s_recv s) (s_acks s) (s_hand s) (s_closed s) v (s_rcvd s) (s_away s).
Definition set_s_rcvd (s : sessn) (v : list pushed) : sessn := mkSessn (s_work s) (s_worker s) (s_processed s) (s_ntfn s) (s_nt s) (s_free s) (s_out s) (s_writer s) (s_wdead s) (s_wire s) (s_recv s) (s_acks s) (s_hand s) (s_closed s) (s_notes s) v (s_away s).
Definition set_s_away (s : sessn) (v : bool) : sessn := mkSessn (s_work s) (s_worker s) (s_processed s) (s_ntfn s) (s_nt s) (s_free s) (s_out s) (s_writer s) (s_wdead s) (s_wire s) (s_recv s) (s_acks s) (s_hand s) (s_closed s) (s_notes s) (s_rcvd s) v.
Definition set_m_disk (m : mail) (v : list (bytes * bytes)) : mail := mkMail v (m_there m) (m_pending m) (m_sess m) (m_done m) (m_partial m) (m_got m) (m_acked m).
Definition set_m_there (m : mail) (v : bool) : mail := mkMail (m_disk m) v (m_pending m) (m_sess m) (m_done m) (m_partial m) (m_got m) (m_acked m).
Definition set_m_pending (m : mail) (v : list (bytes * DiskMessage)) : mail := mkMail (m_disk m) (m_there m) v (m_sess m) (m_done m) (m_partial m) (m_got m) (m_acked m).
Definition set_m_sess (m : mail) (v : option sessn) : mail := mkMail (m_disk m) (m_there m) (m_pending m) v (m_done m) (m_partial m) (m_got m) (m_acked m).
Definition set_m_done (m : mail) (v : list (bytes * DiskMessage)) : mail := mkMail (m_disk m) (m_there m) (m_pending m) (m_sess m) v (m_partial m) (m_got m) (m_acked m).
Definition set_m_partial (m : mail) (v : list bytes) : mail := mkMail (m_disk m) (m_there m) (m_pending m) (m_sess m) (m_done m) v (m_got m) (m_acked m).
Definition set_m_got (m : mail) (v : list pushed) : mail := mkMail (m_disk m) (m_there m) (m_pending m) (m_sess m) (m_done m) (m_partial m) v (m_acked m).
Definition set_m_acked (m : mail) (v : list pushed) : mail := mkMail (m_disk m) (m_there m) (m_pending m) (m_sess m) (m_done m) (m_partial m) (m_got m) v.

(** zkserver.go:346-355 and account.go:416-422 *)
Definition new_sessn : sessn :=
  mkSessn false WStart [] [] NIdle (map N.of_nat (seq 0 depth)) [] [] false [] [] [] HIdle false [] [] false.

(** * What the outside world does *)

(** Times: any, different for every delivery, or also increasing in the order in
    which the files are written.  An honest client acknowledges each message it
    received once. *)
Inductive clk := AnyTime | Distinct | Increasing.
Record world := { honest : bool; clock : clk }.

Definition used (m : mail) : list bytes := map fst (m_done m) ++ m_partial m.
Definition fresh (m : mail) (n : bytes) : bool :=
  negb (mem n (used m)) && negb (mem n (map fst (m_pending m))).
Definition later (m : mail) (n : bytes) : bool := forallb (fun x => negb (lex_leb n x)) (used m).

Inductive action :=
| ACheck (n : bytes) (d : DiskMessage)   (* Deliver up to Stat *)
| AWrite (i : nat)                       (* the rest of Deliver *)
| AFull (i : nat) (part : option nat)    (* the same on a full disk: no file, or the beginning of it *)
| ADisable | AEnable
| AOnline | AOffline
| ACrash (part : option (nat * nat))     (* the server dies, perhaps while it writes a file *)
| AWorker | ANotify | AWriter | AWriteFail | AHandler
| AReceive                               (* the client reads a message *)
| AAck (t : N).                          (* the client acknowledges a tag *)

(** Actions that leave the beginning of a file. *)
Definition cutting (a : action) : bool := match a with ACrash (Some _) | AFull _ (Some _) => true | _ => false end.

Definition drop {A} (i : nat) (l : list A) : list A := firstn i l ++ skipn (S i) l.

(** account.go:429-500, one step of the goroutine; [m] is only read. *)
Definition worker_step (m : mail) (s : sessn) : option sessn :=
  match s_worker s with
  | WStart => if s_work s then None else Some (set_s_worker (set_s_work s true) WSelect)
  | WSelect => if s_work s then Some (set_s_worker (set_s_work s false) WRead) else None
  | WRead => Some (set_s_worker s (if m_there m then WScan (lex_sort (mkeys (m_disk m))) else WSend Bad []))
  | WScan [] => Some (set_s_worker s WSelect)
  | WScan (n :: l) =>
      if mem n (s_processed s) then Some (set_s_worker s (WScan l))
      else Some (set_s_worker (set_s_processed s (n :: s_processed s)) (WOpen n l))
  | WOpen n l =>
      Some (set_s_worker s
        (match (if m_there m then mget (m_disk m) n else None) with
         | None => WSend Bad l
         | Some b => match read_msg b with None => WSend Bad l | Some d => WSend (Good n d) l end
         end))
  | WSend x l =>
      if Nat.ltb (length (s_ntfn s)) depth
      then Some (set_s_worker (set_s_notes (set_s_ntfn s (s_ntfn s ++ [x])) (s_notes s ++ [x])) (WScan l))
      else None
  end.

(** zkserver.go:258-330 *)
Definition notify_step (s : sessn) : option sessn :=
  match s_nt s with
  | NIdle => match s_ntfn s with
             | [] => None
             | Bad :: r => Some (set_s_closed (set_s_nt (set_s_ntfn s r) NDead) true)
             | Good n d :: r => Some (set_s_nt (set_s_ntfn s r) (NTag n d))
             end
  | NTag n d => match s_free s with
                | [] => None
                | t :: r =>
                    let s := set_s_free s r in
                    match mget (s_out s) t with
                    | Some _ => Some (set_s_closed (set_s_nt s NDead) true)
                    | None => let p := mkPushed t n d in
                              Some (set_s_nt (set_s_out s (mset (s_out s) t p)) (NWrite p))
                    end
                end
  | NWrite p => if Nat.ltb (length (s_writer s)) depth
                then Some (set_s_nt (set_s_writer s (s_writer s ++ [p])) NIdle)
                else None
  | NDead => None
  end.

(** zkserver.go:220-255 *)
Definition writer_step (s : sessn) : option sessn :=
  match s_writer s with
  | p :: r => if s_wdead s || s_closed s then None
              else Some (set_s_wire (set_s_writer s r) (s_wire s ++ [p]))
  | [] => None
  end.
Definition writer_fail (s : sessn) : option sessn :=
  match s_writer s with
  | _ :: r => if s_wdead s then None else Some (set_s_closed (set_s_wdead (set_s_writer s r) true) true)
  | [] => None
  end.

(** zkserver.go:516-560 and account.go:364-381 [Delete] *)
Definition handler_step (m : mail) (s : sessn) : option (mail * sessn) :=
  match s_hand s with
  | HIdle => if s_closed s then None
             else match s_acks s with
                  | [] => None
                  | t :: r => let o := mget (s_out s) t in
                              let m := match o with Some p => set_m_acked m (m_acked m ++ [p]) | None => m end in
                              Some (m, set_s_hand (set_s_acks s r) (HDelete t o))
                  end
  | HDelete t (Some p) =>
      if m_there m && mhas (m_disk m) (p_name p)
      then Some (set_m_disk m (mdel (m_disk m) (p_name p)),
                 set_s_hand (set_s_processed s (filter (fun x => negb (eqb x (p_name p))) (s_processed s))) (HFree t))
      else Some (m, set_s_hand s (HFree t))
  | HDelete t None => Some (m, set_s_hand s (HFree t))
  | HFree t => Some (m, set_s_hand (set_s_out s (mdel (s_out s) t)) (HPush t))
  | HPush t => if Nat.ltb (length (s_free s)) depth
               then Some (m, set_s_hand (set_s_free s (s_free s ++ [t])) HIdle)
               else None
  end.

(** An honest client takes the first message with the tag from those it received. *)
Fixpoint remove_tag (t : N) (l : list pushed) : option (list pushed) :=
  match l with
  | [] => None
  | p :: r => if eqb (p_tag p) t then Some r
              else match remove_tag t r with Some r' => Some (p :: r') | None => None end
  end.

Definition in_sess (m : mail) (f : sessn -> option sessn) : option mail :=
  match m_sess m with
  | None => None
  | Some s => match f s with Some s' => Some (set_m_sess m (Some s')) | None => None end
  end.

Definition exec (w : world) (m : mail) (a : action) : option mail :=
  match a with
  | ACheck n d =>
      (* account.go:313-340 *)
      if m_there m && mhas (m_disk m) n then None
      else if match clock w with AnyTime => true | _ => fresh m n end
           then Some (set_m_pending m (m_pending m ++ [(n, d)])) else None
  | AWrite i =>
      (* account.go:342-361 *)
      match nth_error (m_pending m) i with
      | None => None
      | Some (n, d) =>
          let m1 := set_m_pending m (drop i (m_pending m)) in
          if m_there m then
            if match clock w with Increasing => later m n | _ => true end then
              let m2 := set_m_done (set_m_disk m1 (mset (m_disk m) n (enc DiskMessage_codec d))) (m_done m ++ [(n, d)]) in
              Some (match m_sess m with
                    | Some s => set_m_sess m2 (Some (set_s_work s true))
                    | None => m2
                    end)
            else None
          else Some m1
      end
  | AFull i part =>
      (* account.go:342-349: WriteFile fails, the cut file stays, nobody is notified *)
      match nth_error (m_pending m) i with
      | None => None
      | Some (n, d) =>
          let m1 := set_m_pending m (drop i (m_pending m)) in
          match part with
          | None => Some m1
          | Some k =>
              if m_there m && match clock w with Increasing => later m n | _ => true end
              then Some (set_m_partial (set_m_disk m1 (mset (m_disk m) n (firstn k (enc DiskMessage_codec d)))) (m_partial m ++ [n]))
              else None
          end
      end
  | ADisable => if m_there m
                then Some (match m_sess m with
                           | Some s => set_m_sess (set_m_there m false) (Some (set_s_away s true))
                           | None => set_m_there m false
                           end)
                else None
  | AEnable => if m_there m then None else Some (set_m_there m true)
  | AOnline => match m_sess m with
               | Some _ => None
               | None => if m_there m then Some (set_m_sess m (Some new_sessn)) else None
               end
  | AOffline => match m_sess m with
                | Some s => match s_hand s with HIdle => Some (set_m_sess m None) | _ => None end
                | None => None
                end
  | ACrash part =>
      let m1 := set_m_sess (set_m_pending m []) None in
      match part with
      | None => Some m1
      | Some (i, k) =>
          match nth_error (m_pending m) i with
          | Some (n, d) =>
              if m_there m && match clock w with Increasing => later m n | _ => true end
              then Some (set_m_partial (set_m_disk m1 (mset (m_disk m) n (firstn k (enc DiskMessage_codec d)))) (m_partial m ++ [n]))
              else None
          | None => None
          end
      end
  | AWorker => in_sess m (worker_step m)
  | ANotify => in_sess m notify_step
  | AWriter => in_sess m writer_step
  | AWriteFail => in_sess m writer_fail
  | AHandler => match m_sess m with
                | None => None
                | Some s => match handler_step m s with
                            | Some (m', s') => Some (set_m_sess m' (Some s'))
                            | None => None
                            end
                end
  | AReceive =>
      match m_sess m with
      | None => None
      | Some s => match s_wire s with
                  | [] => None
                  | p :: r => Some (set_m_sess (set_m_got m (m_got m ++ [p]))
                                (Some (set_s_rcvd (set_s_recv (set_s_wire s r) (s_recv s ++ [p])) (s_rcvd s ++ [p]))))
                  end
      end
  | AAck t =>
      in_sess m (fun s =>
        if honest w then
          match remove_tag t (s_recv s) with
          | Some r => Some (set_s_acks (set_s_recv s r) (s_acks s ++ [t]))
          | None => None
          end
        else if t <? N.of_nat depth then Some (set_s_acks s (s_acks s ++ [t])) else None)
  end.

Fixpoint execs (w : world) (m : mail) (l : list action) : option mail :=
  match l with
  | [] => Some m
  | a :: r => match exec w m a with Some m' => execs w m' r | None => None end
  end.

Definition empty_mail : mail := mkMail [] true [] None [] [] [] [].
