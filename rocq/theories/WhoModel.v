(** Model of the lines that say who wrote a message, /repo/zkclient/push.go,
    /repo/zkclient/groupchat.go and /repo/zkclient/mainwindow.go. *)
From Verif Require Import Base XdrModel RpcModel HexModel AddrModel GroupModel WinModel.
Local Open Scope N_scope.

(** The colours: settings NickColor, GcColor and PmColor, and RESET and MAGENTABOLD
    (settings.go:46-48 and mainwindow.go:44-58); ttk.Color, a library, makes the strings. *)
Record palette := mkPalette { p_nick : bytes; p_gc : bytes; p_pm : bytes; p_reset : bytes; p_mention : bytes }.

(** push.go:1281-1286, also push.go:704-709, groupchat.go:531-536 and, with a fixed mode,
    mainwindow.go:520-522 and 571-573: the author; rpc.MessageModeMe is 1. *)
Definition author (P : palette) (colour name : bytes) (mode : N) : bytes :=
  if mode =? 1 then bs "* " ++ colour ++ name ++ p_reset P
  else bs "<" ++ colour ++ name ++ p_reset P ++ bs ">".

(** groupchat.go:530-537 in gcMessage, mainwindow.go:519-522 (/me, mode 1) and
    mainwindow.go:570-573 (/msg, mode 0): what one has said oneself. *)
Definition own_line (P : palette) (me : bytes) (mode : N) (text : bytes) : bytes :=
  author P (p_nick P) me mode ++ bs " " ++ text.

(** push.go:1256-1261: the name of a member, by FindIdentity in the order [order] of the
    address book's map; members who are not contacts are shown in hexadecimal. *)
Definition member_name (order : list bytes) (b : book) (from : bytes) : bytes :=
  match find_identity order b from with Some p => nick p | None => hex_encode from end.

(** push.go:1256-1287 in handleGroupMessage: the line for a message that is shown
    ([handle_message]); None if there is none. *)
Definition group_line (P : palette) (upper : N -> N) (me : bytes) (order : list bytes) (b : book) (c : gclient)
    (from : bytes) (gm : GroupMessage) : option bytes :=
  match o_shown (fst (handle_message upper (p_mention P) (p_reset P) me c from gm)) with
  | Some s => Some (author P (p_gc P) (member_name order b from) (GroupMessage_Mode gm) ++ bs " " ++ s)
  | None => None
  end.

(** push.go:696-710 handlePm; [w] is the window of the contact (getConversation). *)
Definition pm_line (P : palette) (w : win) (mode : N) (text : bytes) : bytes :=
  author P (p_pm P) (w_nick w) mode ++ bs " " ++ text.

(** What a line of a group's window is made from: by oneself (None) or by a member. *)
Definition group_shown (P : palette) (upper : N -> N) (me : bytes) (order : list bytes) (b : book) (c : gclient)
    (who : option bytes) (gm : GroupMessage) : option bytes :=
  match who with
  | None => Some (own_line P me (GroupMessage_Mode gm) (GroupMessage_Message gm))
  | Some from => group_line P upper me order b c from gm
  end.

(** The same for a contact's window; [mine] is whether one has written it oneself. *)
Definition private_shown (P : palette) (me : bytes) (w : win) (mine : bool) (mode : N) (text : bytes) : bytes :=
  if mine then own_line P me mode text else pm_line P w mode text.

(** zkclient.go:151-197 printf: the time in front, [stamp] (in the window and in the log in
    different formats).  What is logged is this without escape sequences (LogModel.v). *)
Definition stamped (stamp l : bytes) : bytes := stamp ++ bs " " ++ l.
