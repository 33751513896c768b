(** Model of the file in which the open windows are kept, /repo/zkclient/mainwindow.go
    (/save, /restore).  The windows themselves are WinModel.v, the database IniModel.v. *)
From Verif Require Import Base XdrModel RpcModel StrconvModel IniModel IniMemProofs IniFileProofs IniDiskProofs AddrModel WinModel.
From Coq Require Import ZArith.
Local Open Scope N_scope.

(** mainwindow.go:721-725 savedConversation; a pointer is encoded as what it points to. *)
Definition win_codec : codec win := xiso
  (fun '(x0, (x1, x2)) => mkWin x0 x1 x2)
  (fun w => (w_pub w, (w_nick w, w_group w)))
  (xpair PublicIdentity_codec (xpair xopaque xbool)).

(** mainwindow.go:737-766: the table and the records, in the order in which they are set.
    That the encoder refuses more than 2^31-1 windows is left out. *)
Definition table : bytes := bs "conversations".
Definition key (i : nat) : bytes := bs "conversation" ++ format_uint (N.of_nat i).
Fixpoint set_windows (i : nat) (ws : list win) : list ini_op :=
  match ws with
  | [] => []
  | w :: r => ISet table (key i) (b64_encode (enc win_codec w)) :: set_windows (S i) r
  end.
Definition save_ops (ws : list win) : list ini_op :=
  INewTable table :: ISet table (bs "n") (b64_encode (enc xint (Z.of_nat (length ws)))) :: set_windows 0 ws.

(** mainwindow.go:727-768 [saveConversations], what it does to the directory: the old file is removed
    (an error is ignored), inidb.New makes an empty database, which is saved (inidb.go:70-77), and
    then the full one is; that database is still a created one (inidb.go:124), so there is no
    backup.  Errors (of TempFile and Rename) stop it like a crash does; those of writing
    are left out, as in IniModel.  [t] are the names of the two temporary files, [c] the
    writes to them. *)
Definition full (ws : list win) : tables := db_tables (ini_after ini_fresh (rev (save_ops ws))).
Definition save_effs (d : dir) (base t1 t2 : bytes) (c1 c2 : list bytes) : list fs_eff :=
  let d0 := fs_run d [FRemove base] in
  let e1 := fst (save_dir d0 base t1 [] true 10 c1) in
  FRemove base :: e1 ++ fst (save_dir (fs_run d0 e1) base t2 [] true 10 c2).
Definition saving (d : dir) (base : bytes) (ws : list win) (es : list fs_eff) : Prop :=
  exists t1 t2 c1 c2 order, is_temp base t1 /\ is_temp base t2 /\
    concat c1 = render [([], [])] /\ iterates (full ws) order /\ concat c2 = render order /\
    es = save_effs d base t1 t2 c1 c2.

(** mainwindow.go:793-829 [restoreConversations] with 779-791 [unmarshalConversation]: the nicks that
    are queried one after another, after all windows have been closed; [Untouched] is an
    error before that, and after [Lost] only the console is open.  That the console comes to
    the front at the end is left out. *)
Inductive restored := Untouched | Lost (queried : list bytes) | Back (nicks : list bytes).
Definition read_record (d : inidb) (k : bytes) : option bytes :=
  match ini_get d table k with
  | Ok v => b64_decode v
  | _ => None
  end.
Fixpoint read_windows (d : inidb) (i n : nat) : list bytes * bool :=
  match n with
  | O => ([], true)
  | S n' => match read_record d (key i) with
            | Some x => match dec win_codec 0 x with
                        | Some (w, _) => let (l, ok) := read_windows d (S i) n' in (w_nick w :: l, ok)
                        | None => ([], false)
                        end
            | None => ([], false)
            end
  end.
Definition restore_file (d : dir) (base : bytes) : restored :=
  match ini_open d base false with
  | OpenOk t =>
      let db := IniMemProofs.opened t false in
      match read_record db (bs "n") with
      | Some x => match dec xint 0 x with
                  | Some (n, _) => let (l, ok) := read_windows db 1 (Z.to_nat (n - 1)) in if ok then Back l else Lost l
                  | None => Untouched
                  end
      | None => Untouched
      end
  | _ => Untouched
  end.

(** What /restore does to the windows ([restore_commands]). *)
Definition commands_of (r : restored) : list ev :=
  match r with
  | Untouched => []
  | Lost l => CloseAll :: map Query l ++ [CloseAll]
  | Back l => restore_commands l
  end.
