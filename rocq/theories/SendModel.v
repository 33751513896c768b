(** Model of the command /send of the client: /repo/zkclient/mainwindow.go (action). *)
From Verif Require Import Base XdrModel RpcModel AddrModel IniModel WinModel.
Local Open Scope N_scope.

(** To whom, which file, with which description. *)
Record sending := mkSending { d_to : bytes; d_file : bytes; d_descr : bytes }.

(** mainwindow.go:451-459: the description is what is left of the command. *)
Definition description (cmd a1 a2 : bytes) : bytes :=
  let desc := trim (trim_prefix cmd (bs "/send")) in
  let desc := trim (trim_prefix desc a1) in
  let desc := trim_blanks (trim_prefix desc (a2 ++ bs " ")) in
  if eqb desc a2 then [] else desc.

(** mainwindow.go:376-387 and 446-485: the windows after it, whether one was opened, and
    what is handed to [send] (send.go:45; see ChunkModel).  Splitting at blanks leaves
    nothing for strings.Trim.  None: the usage is shown, or there is no such contact. *)
Definition do_send (me : PublicIdentity) (o : world) (ws : list win) (cmd : bytes) : list win * bool * option sending :=
  match split_spaces cmd with
  | a0 :: a1 :: a2 :: _ =>
      if eqb a0 (bs "/send") then
        match book_conversation me o ws a1 with
        | Some (ws', k, new) =>
            match nth_error ws' k with
            | Some c => (ws', new, Some (mkSending (ident (w_pub c)) a2 (description cmd a1 a2)))
            | None => (ws', new, None)
            end
        | None => (ws, false, None)
        end
      else (ws, false, None)
  | _ => (ws, false, None)
  end.
