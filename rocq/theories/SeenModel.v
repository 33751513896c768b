(** Model of what a window shows besides the messages: separators, days and the list of windows
    with news in the status bar, /repo/zkclient/zkclient.go. *)
From Verif Require Import Base.
Local Open Scope Z_scope.

(** A time is a number of seconds since 1970; Go's zero time, for which IsZero holds. *)
Definition zero_time : Z := -62135596800.

(** A line of a window's console: a separator, a line about the day, or what was printed, with its time
    and whether that is the client's own time. *)
Inductive shown :=
| Sep (ts : Z)
| Day (d : Z * Z * Z)
| Line (ts : Z) (own : bool) (text : bytes).

(** zkclient.go:284-294 conversation.  [v_id] stands for the pointer. *)
Record view := mkView {
  v_id : nat;
  v_lines : list shown;
  v_dirty : bool;
  v_sep : bool;
  v_men : bool;
  v_last : Z }.

(** The list of windows, the active one, and a pointer not used yet. *)
Record screen := mkScreen { sc_wins : list view; sc_active : nat; sc_next : nat }.

Fixpoint upd (k : nat) (f : view -> view) (l : list view) : list view :=
  match l, k with
  | [], _ => []
  | v :: r, O => f v :: r
  | v :: r, S k' => v :: upd k' f r
  end.

(** zkclient.go:384-390 and 444-450: a window that was not there. *)
Definition new_view (p : nat) : view := mkView p [] false false false zero_time.

(** zkclient.go:87-91 differentDay *)
Definition different_day (a b : Z * Z * Z) : bool :=
  let '(y, m, d) := a in let '(y', m', d') := b in negb (d =? d') || negb (m =? m') || negb (y =? y').

(** zkclient.go:94-111 updateTS; [day] is the year, month and day of a time where the user is.  That
    the first of these lines has another text is left out. *)
Definition update_ts (day : Z -> Z * Z * Z) (ts : Z) (v : view) : view :=
  let more := if v_last v =? zero_time then [Day (day ts)]
              else if different_day (day ts) (day (v_last v)) then [Day (day ts)] else [] in
  mkView (v_id v) (v_lines v ++ more) (v_dirty v) (v_sep v) (v_men v) ts.

(** zkclient.go:159-174 in printf: the separator.  [separator] is the setting. *)
Definition separate (separator : bool) (active k : nat) (ts : Z) (v : view) : view :=
  if negb (Nat.eqb active k) && separator && negb (Nat.eqb (length (v_lines v)) 0) && negb (Nat.eqb k 0) && negb (v_sep v)
  then mkView (v_id v) (v_lines v ++ [Sep ts]) (v_dirty v) true (v_men v) (v_last v)
  else v.

(** zkclient.go:158-186 in printf, for a window that there is. *)
Definition print_in (day : Z -> Z * Z * Z) (separator : bool) (active k : nat) (ts : Z) (own : bool) (text : bytes) (v : view) : view :=
  let v1 := separate separator active k ts v in
  let v2 := if own then v1 else update_ts day ts v1 in
  mkView (v_id v2) (v_lines v2 ++ [Line ts own text]) (if Nat.eqb active k then v_dirty v2 else true) (v_sep v2) (v_men v2) (v_last v2).

(** zkclient.go:262-265 in focus. *)
Definition cleared (v : view) : view := mkView (v_id v) (v_lines v) false false false (v_last v).
(** push.go:1271 in handleGroupMessage. *)
Definition coloured (v : view) : view := mkView (v_id v) (v_lines v) (v_dirty v) (v_sep v) true (v_last v).

(** What is done to the screen, one at a time: z is locked. *)
Inductive job :=
| Put (k : option nat) (ts : Z) (own : bool) (text : bytes)   (* the function that printf queues; [None]: for the active window *)
| Look (k : nat)                                               (* the function that focus queues *)
| Open                                                         (* zkclient.go:387-391 and 447-451 *)
| Shut                                                         (* /wc, mainwindow.go:636-645, before the focus on the console that it queues *)
| ShutAll                                                      (* closeAll, mainwindow.go:770-776, the same *)
| Mention (p k : nat).                                         (* push.go:1269-1273 in handleGroupMessage; [k] was the index of window [p] *)

(** [None] is a panic: zkclient.go:50-85 calculateStatus looks at the active window. *)
Definition step (day : Z -> Z * Z * Z) (separator : bool) (s : screen) (j : job) : option screen :=
  let ok (s : screen) := if Nat.ltb (sc_active s) (length (sc_wins s)) then Some s else None in
  match j with
  | Put k ts own text =>
      let i := match k with Some i => i | None => sc_active s end in
      ok (mkScreen (upd i (print_in day separator (sc_active s) i ts own text) (sc_wins s)) (sc_active s) (sc_next s))
  | Look k =>
      if negb (Nat.eqb k 0) && Nat.eqb k (sc_active s) then Some s
      else if Nat.ltb k (length (sc_wins s)) then ok (mkScreen (upd k cleared (sc_wins s)) k (sc_next s))
      else Some s
  | Open => Some (mkScreen (sc_wins s ++ [new_view (sc_next s)]) (sc_active s) (S (sc_next s)))
  | Shut =>
      let i := sc_active s in
      if Nat.eqb i 0 || negb (Nat.ltb i (length (sc_wins s))) then Some s
      else Some (mkScreen (firstn i (sc_wins s) ++ skipn (S i) (sc_wins s)) i (sc_next s))
  | ShutAll => Some (mkScreen (firstn 1 (sc_wins s)) (sc_active s) (sc_next s))
  | Mention p k =>
      if Nat.eqb (sc_active s) k then Some s
      else Some (mkScreen (map (fun v => if Nat.eqb (v_id v) p then coloured v else v) (sc_wins s)) (sc_active s) (sc_next s))
  end.

Fixpoint run (day : Z -> Z * Z * Z) (separator : bool) (s : screen) (js : list job) : option screen :=
  match js with
  | [] => Some s
  | j :: r => match step day separator s j with Some s' => run day separator s' r | None => None end
  end.

(** The console only. *)
Definition start : screen := mkScreen [new_view 0] 0 1.

(** zkclient.go:50-65 in calculateStatus: the windows with news, and whether the number is coloured
    because one's nick was mentioned there. *)
Fixpoint status_from (k : nat) (l : list view) : list (nat * bool) :=
  match l with
  | [] => []
  | v :: r => (if v_dirty v then [(k, v_men v)] else []) ++ status_from (S k) r
  end.
Definition status (s : screen) : list (nat * bool) := status_from 0 (sc_wins s).
