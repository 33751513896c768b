(** Model of the Tab key on the command line of the client: /repo/zkclient/mainwindow.go
    (KeyHandler) and /repo/zkclient/completion.go.  The completion itself is in UiModel. *)
From Verif Require Import Base IniModel UiModel WinModel.
Local Open Scope N_scope.

(** The line and the context of the completion (zkclient.go:619), which remembers what it
    completes (completion.go:23-26). *)
Inductive mode := ModeNick | ModeFile.
Record tabst := mkTab { t_line : bytes; t_ctx : option (mode * completion) }.

(** The nicks of the address book, in any order; homedir.Expand, None if it fails; and
    filepath.Glob of all that is in a directory, whose errors are ignored
    (completion.go:110).  They are those of the moment the context is made. *)
Record place := { p_nicks : list bytes; p_expand : bytes -> option bytes; p_glob : bytes -> list bytes }.

(** completion.go:63-81 [completeNick] *)
Definition complete_nick (w : place) (c : option (mode * completion)) (at_ : bytes) : res unit (option (mode * completion) * bytes) :=
  let k := match c with Some (ModeNick, k) => k | _ => new_comp (lex_sort (p_nicks w)) end in
  match next k at_ with
  | Ok (k', s) => Ok (Some (ModeNick, k'), s)
  | Err e => Err e
  | Panic => Panic
  end.

(** completion.go:83-98 [completeNickCommandLine] *)
Definition nick_line (w : place) (t : tabst) (args : list bytes) : res unit tabst :=
  match args with
  | [a0; a1] => match complete_nick w (t_ctx t) a1 with
                | Ok (c, nick) => Ok (mkTab (a0 ++ bs " " ++ nick) c)
                | Err e => Err e
                | Panic => Panic
                end
  | _ => Ok t
  end.

(** completion.go:100-123 [completeDir] *)
Definition complete_dir (w : place) (c : option (mode * completion)) (at_ : bytes) : res unit (option (mode * completion) * bytes) :=
  let go k s := match next k s with
                | Ok (k', s) => Ok (Some (ModeFile, k'), s)
                | Err e => Err e
                | Panic => Panic
                end in
  match c with
  | Some (ModeFile, k) => go k at_
  | _ => match p_expand w at_ with
         | None => Ok (None, [])
         | Some ef => go (new_comp (lex_sort (p_glob w ef))) ef
         end
  end.

(** completion.go:129-132 *)
Definition restarts (s : bytes) : bool := eqb (last s 0) 47 || eqb s (bs "~").

(** completion.go:125-139 [completeDirCommandLine] *)
Definition dir_line (w : place) (t : tabst) (args : list bytes) : res unit tabst :=
  match args with
  | [a0; a1; a2] =>
      match complete_dir w (if restarts a2 then None else t_ctx t) a2 with
      | Ok (c, f) => Ok (mkTab (a0 ++ bs " " ++ a1 ++ bs " " ++ f) c)
      | Err e => Err e
      | Panic => Panic
      end
  | _ => Ok t
  end.

(** mainwindow.go:209 with help.go:22-42 *)
Definition nick_commands : list bytes := [bs "/msg"; bs "/m"; bs "/info"; bs "/reset"; bs "/q"; bs "/query"].

(** mainwindow.go:191-221, the Tab key in the command line *)
Definition tab (w : place) (t : tabst) : res unit tabst :=
  match t_line t with
  | [] => Ok t
  | _ =>
      let args := split_spaces (t_line t) in
      match args with
      | [] => Ok t
      | a0 :: _ =>
          if mem a0 nick_commands then nick_line w t args
          else if eqb a0 (bs "/send") then
            if Nat.eqb (length args) 3 then dir_line w t args
            else if Nat.leb (length args) 2 then nick_line w t args
            else Ok t
          else Ok t
      end
  end.

(** The user changes the line, presses Tab, or presses Enter (mainwindow.go:162-189: an
    empty line is left alone). *)
Inductive key := KType (line : bytes) | KTab (w : place) | KEnter.
Definition press (t : tabst) (k : key) : res unit tabst :=
  match k with
  | KType l => Ok (mkTab l (t_ctx t))
  | KTab w => tab w t
  | KEnter => match t_line t with [] => Ok t | _ => Ok (mkTab [] None) end
  end.
Fixpoint presses (t : tabst) (l : list key) : res unit tabst :=
  match l with
  | [] => Ok t
  | k :: r => match press t k with Ok t' => presses t' r | Err e => Err e | Panic => Panic end
  end.
(** The lines after each of [n] presses of Tab. *)
Fixpoint tab_lines (n : nat) (w : place) (t : tabst) : res unit (list bytes) :=
  match n with
  | O => Ok []
  | S n' => match tab w t with
            | Ok t' => match tab_lines n' w t' with Ok l => Ok (t_line t' :: l) | Err e => Err e | Panic => Panic end
            | Err e => Err e
            | Panic => Panic
            end
  end.
