(** Model of the conversation windows of the client: /repo/zkclient/zkclient.go (the
    list of windows, printing and focusing), /repo/zkclient/mainwindow.go (what typed
    text does), /repo/zkclient/addressbook.go, and the two handlers of
    /repo/zkclient/push.go that show messages.

    A line on the screen is kept by its meaning (who said what); colours, times,
    separators and the notices other than "something is printed here" are left out. *)
From Verif Require Import Base XdrModel RpcModel AddrModel IniModel HexModel.
Local Open Scope N_scope.

(** ** Strings *)

(** strings.Split(s, " "). *)
Fixpoint split_spaces (s : bytes) : list bytes :=
  match s with
  | [] => [[]]
  | c :: r => if c =? 32 then [] :: split_spaces r
              else match split_spaces r with
                   | w :: ws => (c :: w) :: ws
                   | [] => [[c]]
                   end
  end.
Fixpoint has_prefix (p s : bytes) : bool :=
  match p, s with
  | [], _ => true
  | a :: p', b :: s' => (a =? b) && has_prefix p' s'
  | _, _ => false
  end.
(** strings.TrimPrefix. *)
Definition trim_prefix (s p : bytes) : bytes := if has_prefix p s then skipn (length p) s else s.
(** strings.TrimRight(s, " "). *)
Fixpoint drop_blanks (s : bytes) : bytes :=
  match s with
  | c :: r => if c =? 32 then drop_blanks r else s
  | [] => []
  end.
Definition trim_blanks (s : bytes) : bytes := rev (drop_blanks (rev s)).

(** ** Windows *)

(** zkclient.go:284-294 type conversation: the identity, the nick and whether it is a
    group; the list widget, the marks for the status bar and the time of the last
    message are left out. *)
Record win := mkWin { w_pub : PublicIdentity; w_nick : bytes; w_group : bool }.

(** What a client knows that decides which window is whose: the identities stored in
    the inbound directory, the address book, and the groups with their members. *)
Record world := mkWorld {
  o_disk : list (bytes * PublicIdentity);
  o_book : book;
  o_groups : list (bytes * list bytes)
}.

(** zkclient.go:356-361, the identity of a group's window: all zero but for the name
    and the nick. *)
Definition zeros (n : nat) : bytes := repeat 0 n.
Definition group_pub (g : bytes) : PublicIdentity :=
  mkPublicIdentity (bs "group chat") g (zeros 32) (zeros 1218) (zeros 32) (zeros 32) (zeros 64).
Definition group_win (g : bytes) : win := mkWin (group_pub g) g true.

(** mainwindow.go:144-147 and 274-279: the console, window 0. *)
Definition console (me : PublicIdentity) : win := mkWin me (bs "console") false.

(** zkclient.go:407-415, in getConversation: the nick of a contact's window is the one
    in the identity on disk, or the identity in hexadecimal. *)
Definition shown_nick (p : PublicIdentity) (id : bytes) : bytes :=
  match nick p with [] => hex_encode id | n => n end.
Definition contact_win (p : PublicIdentity) (id : bytes) : win := mkWin p (shown_nick p id) false.

(** The first window with a property. *)
Fixpoint first (f : win -> bool) (ws : list win) : option nat :=
  match ws with
  | [] => None
  | w :: r => if f w then Some O
              else match first f r with Some k => Some (S k) | None => None end
  end.

(** The window of a contact or of a group: the one that is found, or a new one at the
    end.  The list never has holes: entries are only appended and cut out. *)
Definition place (f : win -> bool) (new : win) (ws : list win) : list win * nat * bool :=
  match first f ws with
  | Some k => (ws, k, false)
  | None => (ws ++ [new], length ws, true)
  end.

(** zkclient.go:403-464 getConversation.  None is the error of loadIdentity
    (identity.go:172-190).  The boolean tells that the window is new, in which case two
    notices are queued, on the console and in the window. *)
Definition get_conversation (o : world) (ws : list win) (id : bytes) : option (list win * nat * bool) :=
  match mget (o_disk o) id with
  | Some p => Some (place (fun v => eqb (ident (w_pub v)) id) (contact_win p id) ws)
  | None => None
  end.

(** zkclient.go:342-401 groupConversation.  None: there is no such group. *)
Definition group_conversation (o : world) (ws : list win) (g : bytes) : option (list win * nat * bool) :=
  match mget (o_groups o) g with
  | Some _ => Some (place (fun v => eqb (nick (w_pub v)) g) (group_win g) ws)
  | None => None
  end.

(** zkclient/addressbook.go:75-96 addressBookConversation.  None: oneself, or a nick
    that is not in the address book (whether it is then looked up in the server's
    directory, or how, is not modelled: nothing is sent to a contact). *)
Definition book_conversation (me : PublicIdentity) (o : world) (ws : list win) (n : bytes) : option (list win * nat * bool) :=
  if eqb n (nick me) then None
  else match find_nick (o_book o) n with
       | Some p => get_conversation o ws (ident p)
       | None => None
       end.

(** ** What typed text does *)

Inductive act :=
| Panics                                                   (* index out of range *)
| Refused                                                  (* an error, or another command *)
| Private (to text : bytes) (echo : option nat)            (* one private message; where it is echoed,
                                                              None: in the window then active *)
| ToGroup (g text : bytes) (to : list bytes) (echo : nat).  (* one group message to each of [to] *)

(** mainwindow.go:360-373, in action: text that is not a command is turned into one,
    in every window but the console.  None: the index is out of range. *)
Definition as_command (ws : list win) (active : nat) (text : bytes) : option bytes :=
  if has_prefix (bs "/") text then Some text
  else if Nat.eqb active 0 then Some text
  else match nth_error ws active with
       | Some c => Some ((if w_group c then bs "/gc m " else bs "/m ") ++ w_nick c ++ bs " " ++ text)
       | None => None
       end.

(** mainwindow.go:530-577, the commands /m and /msg.  The windows after it, whether one
    was opened, and what is sent. *)
Definition do_m (me : PublicIdentity) (o : world) (ws : list win) (cmd a0 a1 : bytes) : list win * bool * act :=
  let msg := trim (trim_prefix cmd a0) in
  let msg := trim_blanks (trim_prefix msg (a1 ++ bs " ")) in
  match first (fun v => eqb (w_nick v) a1) ws with
  | Some k => match nth_error ws k with
              | Some c => (ws, false, Private (ident (w_pub c)) msg (Some k))
              | None => (ws, false, Refused)
              end
  | None => match book_conversation me o ws a1 with
            | Some (ws', k, new) =>
                match nth_error ws' k with
                | Some c => (ws', new, Private (ident (w_pub c)) msg (Some k))
                | None => (ws', new, Refused)
                end
            | None => (ws, false, Refused)
            end
  end.

(** groupchat.go:496-540 gcMessage. *)
Definition gc_message (me : PublicIdentity) (o : world) (ws : list win) (g msg : bytes) : list win * bool * act :=
  match group_conversation o ws g with
  | None => (ws, false, Refused)
  | Some (ws', k, new) =>
      match mget (o_groups o) g with
      | Some members => (ws', new, ToGroup g msg (filter (fun m => negb (eqb m (ident me))) members) k)
      | None => (ws', new, Refused)
      end
  end.

(** mainwindow.go:488-528, the command /me. *)
Definition do_me (me : PublicIdentity) (o : world) (ws : list win) (active : nat) (cmd a0 : bytes) : list win * bool * act :=
  if Nat.eqb active 0 then (ws, false, Refused)
  else match nth_error ws active with
       | None => (ws, false, Panics)
       | Some c =>
           let msg := trim (trim_prefix cmd a0) in
           if w_group c then gc_message me o ws (w_nick c) msg
           else (ws, false, Private (ident (w_pub c)) msg None)
       end.

(** groupchat.go:643-689 gc, the subcommands "me" and "m" only (the others send no
    message that was typed). *)
Definition do_gc (me : PublicIdentity) (o : world) (ws : list win) (cmd : bytes) (args : list bytes) : list win * bool * act :=
  match args with
  | _ :: sub :: g :: _ =>
      if eqb sub (bs "me") || eqb sub (bs "m") then
        let msg := trim (trim_prefix cmd (bs "/gc")) in
        let msg := trim (trim_prefix msg sub) in
        let msg := trim_blanks (trim_prefix msg (g ++ bs " ")) in
        if Nat.ltb (length args) 4 then (ws, false, Refused)
        else gc_message me o ws g msg
      else (ws, false, Refused)
  | _ => (ws, false, Refused)
  end.

(** mainwindow.go:354-719 action, as far as messages go: every other command is
    [Refused] here, those that touch the windows are events of their own below. *)
Definition action (me : PublicIdentity) (o : world) (ws : list win) (active : nat) (text : bytes) : list win * bool * act :=
  match text with
  | [] => (ws, false, Refused)
  | _ =>
      match as_command ws active text with
      | None => (ws, false, Panics)
      | Some cmd =>
          let args := split_spaces cmd in
          match args with
          | a0 :: a1 :: rest =>
              if eqb a0 (bs "/me") then do_me me o ws active cmd a0
              else if eqb a0 (bs "/m") || eqb a0 (bs "/msg") then
                match rest with
                | _ :: _ => do_m me o ws cmd a0 a1
                | [] => (ws, false, Refused)
                end
              else if eqb a0 (bs "/gc") then do_gc me o ws cmd args
              else (ws, false, Refused)
          | _ => (ws, false, Refused)
          end
      end
  end.

(** ** Running: two goroutines and the queue of the terminal *)

Inductive line :=
| Said (from text : bytes)             (* a private message *)
| GroupSaid (g from text : bytes)      (* a group message *)
| Own (text : bytes)                   (* the echo of one's own message *)
| Note.                                (* anything else *)

(** What waits in the queue of the terminal (ttk.Queue): a line for a window, by its
    index or (None) for the one active at that time; a change of the active window; the
    refresh of the status bar. *)
Inductive job := Print (at_ : option nat) (l : line) | Focus (k : nat) | Status.

Record st := mkSt {
  s_world : world;
  s_wins : list win;
  s_active : nat;
  s_rpc : option job;         (* found by a handler, not yet queued *)
  s_main : option job;        (* the same for the goroutine that runs commands *)
  s_queue : list job;
  s_shown : list (option win * line);   (* all that was printed, and in which window (None: in none) *)
  s_sent : list (win * act)   (* what was typed in which window, and what was sent *)
}.

Inductive result := Go (s : st) | Dead | Stuck.

Definition set_wins (s : st) (ws : list win) : st :=
  mkSt (s_world s) ws (s_active s) (s_rpc s) (s_main s) (s_queue s) (s_shown s) (s_sent s).
Definition set_rpc (s : st) (j : option job) : st :=
  mkSt (s_world s) (s_wins s) (s_active s) j (s_main s) (s_queue s) (s_shown s) (s_sent s).
Definition set_main (s : st) (j : option job) : st :=
  mkSt (s_world s) (s_wins s) (s_active s) (s_rpc s) j (s_queue s) (s_shown s) (s_sent s).
Definition set_queue (s : st) (q : list job) : st :=
  mkSt (s_world s) (s_wins s) (s_active s) (s_rpc s) (s_main s) q (s_shown s) (s_sent s).
Definition set_active (s : st) (k : nat) : st :=
  mkSt (s_world s) (s_wins s) k (s_rpc s) (s_main s) (s_queue s) (s_shown s) (s_sent s).
Definition set_world (s : st) (o : world) : st :=
  mkSt o (s_wins s) (s_active s) (s_rpc s) (s_main s) (s_queue s) (s_shown s) (s_sent s).
Definition add_shown (s : st) (x : option win * line) : st :=
  mkSt (s_world s) (s_wins s) (s_active s) (s_rpc s) (s_main s) (s_queue s) (s_shown s ++ [x]) (s_sent s).
Definition add_sent (s : st) (x : win * act) : st :=
  mkSt (s_world s) (s_wins s) (s_active s) (s_rpc s) (s_main s) (s_queue s) (s_shown s) (s_sent s ++ [x]).
Definition enqueue (s : st) (js : list job) : st := set_queue s (s_queue s ++ js).

(** zkclient.go:391-396 and 452-459: the notices of a window that is new. *)
Definition notices (k : nat) (new : bool) : list job :=
  if new then [Print (Some O) Note; Print (Some k) Note] else [].
Definition opened (s : st) (r : list win * nat * bool) : st :=
  let '(ws, k, new) := r in enqueue (set_wins s ws) (notices k new).

(** zkclient.go:151-198 printf: the queued function.  The line goes to the window that
    has that index now; the status bar looks at the active window (zkclient.go:50-85
    calculateStatus), out of range it panics. *)
Definition run_print (s : st) (at_ : option nat) (l : line) : result :=
  let k := match at_ with Some k => k | None => s_active s end in
  let s' := add_shown s (nth_error (s_wins s) k, l) in
  if Nat.ltb (s_active s) (length (s_wins s)) then Go s' else Dead.
(** zkclient.go:241-282 focus: the queued function. *)
Definition run_focus (s : st) (k : nat) : result :=
  if negb (Nat.eqb k 0) && Nat.eqb k (s_active s) then Go s
  else if Nat.ltb k (length (s_wins s)) then Go (set_active s k)
  else Go (enqueue s [Print (Some O) Note]).
(** zkclient.go:2211-2226, the ticker; the functions queued by groupConversation and
    getConversation (zkclient.go:363-373 and 419-431) look at the active window in the
    same way. *)
Definition run_status (s : st) : result :=
  if Nat.ltb (s_active s) (length (s_wins s)) then Go s else Dead.

Definition run_job (s : st) (j : job) : result :=
  match j with
  | Print a l => run_print s a l
  | Focus k => run_focus s k
  | Status => run_status s
  end.

Inductive ev :=
| World (o : world)               (* contacts and groups come and go *)
| Pm (from text : bytes)          (* push.go:696-719 handlePm *)
| Gm (g from text : bytes)        (* push.go:1219-1296 handleGroupMessage *)
| Rpc                             (* the handler queues what it found *)
| Main                            (* the command queues what it found *)
| Notice (k : nat)                (* some other line for a window *)
| Tick                            (* the status bar *)
| Run                             (* the terminal runs the first job *)
| Look (k : nat)                  (* /w, next and previous window *)
| Typed (text : bytes)            (* text entered *)
| Query (n : bytes)               (* /q *)
| Close                           (* /wc *)
| CloseAll.                       (* the beginning of /restore *)

Definition step (me : PublicIdentity) (s : st) (e : ev) : result :=
  match e with
  | World o => Go (set_world s o)
  | Pm from text =>
      match s_rpc s with
      | Some _ => Stuck
      | None =>
          match get_conversation (s_world s) (s_wins s) from with
          | Some r => Go (set_rpc (opened s r) (Some (Print (Some (snd (fst r))) (Said from text))))
          | None => Go s
          end
      end
  | Gm g from text =>
      match s_rpc s with
      | Some _ => Stuck
      | None =>
          match mget (o_groups (s_world s)) g with
          | Some members =>
              if mem from members then
                match group_conversation (s_world s) (s_wins s) g with
                | Some r => Go (set_rpc (opened s r) (Some (Print (Some (snd (fst r))) (GroupSaid g from text))))
                | None => Go s
                end
              else Go s
          | None => Go s
          end
      end
  | Rpc => match s_rpc s with
           | Some j => Go (set_rpc (enqueue s [j]) None)
           | None => Stuck
           end
  | Main => match s_main s with
            | Some j => Go (set_main (enqueue s [j]) None)
            | None => Stuck
            end
  | Notice k => Go (enqueue s [Print (Some k) Note])
  | Tick => Go (enqueue s [Status])
  | Run => match s_queue s with
           | j :: q => run_job (set_queue s q) j
           | [] => Stuck
           end
  | Look k => Go (enqueue s [Focus k])
  | Typed text =>
      match s_main s with
      | Some _ => Stuck
      | None =>
          let '(ws, new, a) := action me (s_world s) (s_wins s) (s_active s) text in
          let here := match nth_error (s_wins s) (s_active s) with Some w => w | None => console me end in
          let s' := enqueue (set_wins s ws) (notices (length (s_wins s)) new) in
          match a with
          | Panics => Dead
          | Refused => Go (set_main s' (Some (Print None Note)))
          | Private _ m echo => Go (set_main (add_sent s' (here, a)) (Some (Print echo (Own m))))
          | ToGroup _ m _ k => Go (set_main (add_sent s' (here, a)) (Some (Print (Some k) (Own m))))
          end
      end
  | Query n =>
      (* zkclient.go:466-497 query *)
      match s_main s with
      | Some _ => Stuck
      | None =>
          match first (fun v => eqb (w_nick v) n) (s_wins s) with
          | Some k => Go (enqueue s [Focus k])
          | None =>
              match group_conversation (s_world s) (s_wins s) n with
              | Some r => Go (set_main (opened s r) (Some (Focus (snd (fst r)))))
              | None =>
                  match book_conversation me (s_world s) (s_wins s) n with
                  | Some r => Go (set_main (opened s r) (Some (Focus (snd (fst r)))))
                  | None => Go (set_main s (Some (Print None Note)))
                  end
              end
          end
      end
  | Close =>
      (* mainwindow.go:629-648 *)
      match s_main s with
      | Some _ => Stuck
      | None =>
          let i := s_active s in
          if Nat.eqb i 0 || negb (Nat.ltb i (length (s_wins s))) then Go s
          else Go (enqueue (set_wins s (firstn i (s_wins s) ++ skipn (S i) (s_wins s))) [Focus O])
      end
  | CloseAll =>
      (* mainwindow.go:770-777 closeAll *)
      match s_main s with
      | Some _ => Stuck
      | None => Go (enqueue (set_wins s (firstn 1 (s_wins s))) [Focus O])
      end
  end.

(** The client after it started: only the console. *)
Definition start (me : PublicIdentity) (o : world) : st := mkSt o [console me] O None None [] [] [].

Fixpoint exec (me : PublicIdentity) (s : st) (es : list ev) : result :=
  match es with
  | [] => Go s
  | e :: r => match step me s e with
              | Go s' => exec me s' r
              | x => x
              end
  end.

(** ** Saved windows *)

(** mainwindow.go:727-768 saveConversations: of each window only the nick is used when
    it is restored; the file (C04, C05) is left out.  The console is saved as well and
    skipped by restoreConversations (mainwindow.go:797-829), which closes all windows
    and then does [Query] for each nick in turn. *)
Definition saved (s : st) : list bytes := map w_nick (skipn 1 (s_wins s)).
Definition restore_commands (nicks : list bytes) : list ev := CloseAll :: map Query nicks.
