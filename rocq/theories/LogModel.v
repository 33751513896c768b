(** Model of the logs of conversations, /repo/zkclient/zkclient.go. *)
From Verif Require Import Base XdrModel RpcModel AddrModel HexModel UiModel WinModel.
Local Open Scope N_scope.

(** The name of a window's log, relative to the directory of the logs; [srv] is the
    host part of the server's address (net.SplitHostPort). *)
Definition log_name (srv : bytes) (w : win) : bytes :=
  if w_group w then bs "groupchat." ++ w_nick w ++ bs "." ++ srv ++ bs ".log"
  else w_nick w ++ bs "." ++ srv ++ bs "." ++ hex_encode (ident (w_pub w)) ++ bs ".log".

(** zkclient.go:218-227: the file, as a path (innermost component first) for a cleaned
    absolute directory of logs; path.Join cleans it. *)
Definition log_file (dir : list bytes) (srv : bytes) (w : win) : list bytes := join dir (log_name srv w).

(** Files by path, and which paths are directories. *)
Record disk := mkDisk { d_dirs : list (list bytes); d_files : list (list bytes * bytes) }.
Definition content (d : disk) (f : list bytes) : bytes :=
  match mget (d_files d) f with Some c => c | None => [] end.

(** zkclient.go:200-239 log, for a window other than the console (whose lines go to the
    debug log): the text, without escape sequences ([unesc], ttk.Unescape), and a line
    feed are appended; when the file cannot be opened because its directory does not
    exist or it is a directory itself, the line is not logged.  Other errors of the file
    system are left out. *)
Definition log1 (unesc : bytes -> bytes) (dir : list bytes) (srv : bytes) (d : disk) (e : win * bytes) : disk :=
  let f := log_file dir srv (fst e) in
  if mem (tl f) (d_dirs d) && negb (mem f (d_dirs d)) then
    mkDisk (d_dirs d) (mset (d_files d) f (content d f ++ unesc (snd e) ++ [10]))
  else d.
Definition logs (unesc : bytes -> bytes) (dir : list bytes) (srv : bytes) (d : disk) (h : list (win * bytes)) : disk :=
  fold_left (log1 unesc dir srv) h d.

(** zkclient.go:151-198 printf: everything printed in a window is logged as well, with
    the long form of the time in front ([show]). *)
Definition is_console (me : PublicIdentity) (w : win) : bool :=
  eqb (w_nick w) (bs "console") && eqb (ident (w_pub w)) (ident me).
Definition entries (me : PublicIdentity) (show : win -> line -> bytes) (shown : list (option win * line)) : list (win * bytes) :=
  flat_map (fun x => match fst x with
                     | Some w => if is_console me w then [] else [(w, show w (snd x))]
                     | None => []
                     end) shown.

(** A file read line by line. *)
Fixpoint lines (acc s : bytes) : list bytes :=
  match s with
  | [] => match acc with [] => [] | _ => [rev acc] end
  | c :: r => if c =? 10 then rev acc :: lines [] r else lines (c :: acc) r
  end.
