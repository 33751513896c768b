(** Model of /repo/zkserver/account/account.go: the account store.  The mailbox
    worker started by Online is in MailModel. *)
From Verif Require Import Base HexModel IniModel IniMemProofs IniFileProofs XdrModel RpcModel StrconvModel ServerDbModel.
Local Open Scope N_scope.

(** An account directory: user.ini and the files of the cache directory (None when
    there is no such file or directory).  Backups of user.ini are left out. *)
Record acct := { a_user : option bytes; a_cache : option (list (bytes * bytes)) }.

(** The root directory of all accounts, by directory name.  Other files in it are
    left out, and so are input and output errors. *)
Notation store := (list (bytes * acct)).

(** account.go:106-113 *)
Definition disabled_dir (id : bytes) : bytes := DOT :: hex_encode id.
Definition account_dir (id : bytes) : bytes := hex_encode id.

(** account.go:193-234 [Find], the body of the loop for one directory entry; None
    is an error, which ends the search. *)
Inductive find_res := Next | Found (p : PublicIdentity) | Fail.
Definition find_entry (nick : bytes) (a : acct) : find_res :=
  match a_user a with
  | None => Fail
  | Some c =>
      match parse c with
      | None => Fail
      | Some t =>
          let user := opened t false in
          match ini_get user [] (bs "listed") with
          | Ok l =>
              if eqb l (bs "1") then
                match ini_get user [] (bs "identity") with
                | Ok v =>
                    match b64_decode v with
                    | None => Fail
                    | Some blob =>
                        match dec PublicIdentity_codec 0 blob with
                        | None => Fail
                        | Some (p, _) => if eqb (PublicIdentity_Nick p) nick then Found p else Next
                        end
                    end
                | Err _ | Panic => Fail
                end
              else Next
          | Err _ | Panic => Next
          end
      end
  end.

(** account.go:193-234 [Find]: the entries in the order of ReadDir; None stands
    for every error, "user not found" included.  The lock is released while an
    entry is examined; that Find sees one state of the store is a simplification. *)
Fixpoint find_in (s : store) (nick : bytes) (names : list bytes) : option PublicIdentity :=
  match names with
  | [] => None
  | n :: r => match mget s n with
              | None => find_in s nick r
              | Some a => match find_entry nick a with
                          | Next => find_in s nick r
                          | Found p => Some p
                          | Fail => None
                          end
              end
  end.
Definition find (s : store) (nick : bytes) : option PublicIdentity := find_in s nick (lex_sort (mkeys s)).

(** account.go:123-168 [Create], in one go: whether it succeeds and the store
    afterwards.  [saved] covers the order in which the map is written. *)
Definition create (s : store) (pid : PublicIdentity) (force ok : bool) (s' : store) : Prop :=
  let n := account_dir (PublicIdentity_Identity pid) in
  match find s (PublicIdentity_Nick pid) with
  | Some _ => ok = false /\ s' = s
  | None =>
      if mhas s n && negb force then ok = false /\ s' = s
      else
        let a := match mget s n with Some a => a | None => {| a_user := None; a_cache := None |} end in
        match db_open (a_user a) with
        | None => ok = false /\ s' = s
        | Some (f, d) =>
            match ini_set d [] (bs "identity") (b64_encode (enc PublicIdentity_codec pid)) with
            | (_, Some _) => ok = false /\ s' = mset s n {| a_user := Some f; a_cache := a_cache a |}
            | (d', None) =>
                ok = true /\ exists f', saved f d' f' /\
                  s' = mset s n {| a_user := Some f';
                                   a_cache := Some match a_cache a with Some c => c | None => [] end |}
            end
        end
  end.

(** account.go:170-191 [Push] and 288-309 [Pull]. *)
Definition change_user (s : store) (id : bytes) (op : inidb -> inidb * option ini_err) (ok : bool) (s' : store) : Prop :=
  match mget s (account_dir id) with
  | None => ok = false /\ s' = s
  | Some a =>
      match a_user a with
      | None => ok = false /\ s' = s
      | Some c =>
          match parse c with
          | None => ok = false /\ s' = s
          | Some t =>
              match op (opened t false) with
              | (_, Some _) => ok = false /\ s' = s
              | (d', None) => ok = true /\ exists f', saved c d' f' /\
                  s' = mset s (account_dir id) {| a_user := Some f'; a_cache := a_cache a |}
              end
          end
      end
  end.
Definition push (s : store) (id : bytes) : bool -> store -> Prop :=
  change_user s id (fun d => ini_set d [] (bs "listed") (bs "1")).
Definition pull (s : store) (id : bytes) : bool -> store -> Prop :=
  change_user s id (fun d => ini_del d [] (bs "listed")).

(** account.go:236-244 *)
Definition disabled (s : store) (id : bytes) : bool := mhas s (disabled_dir id).
Definition enabled (s : store) (id : bytes) : bool := mhas s (account_dir id).

(** os.Rename of a directory to a name that is not taken. *)
Definition rename (s : store) (a b : bytes) : store :=
  match mget s a with Some d => mset (mdel s a) b d | None => s end.

(** account.go:246-265 [Disable] and 267-286 [Enable] *)
Definition disable (s : store) (id : bytes) : store * bool :=
  if mhas s (disabled_dir id) then (s, false)
  else if mhas s (account_dir id) then (rename s (account_dir id) (disabled_dir id), true)
  else (s, false).
Definition enable (s : store) (id : bytes) : store * bool :=
  if mhas s (disabled_dir id) then
    if mhas s (account_dir id) then (s, false)
    else (rename s (disabled_dir id) (account_dir id), true)
  else (s, false).

(** account.go:313-362 [Deliver], in one go: [name] and [received] come from the
    clock.  Notifying the recipient is in MailModel. *)
Definition deliver (s : store) (to from payload : bytes) (cleartext : bool) (name : bytes) (received : Z) : store * bool :=
  match mget s (account_dir to) with
  | None => (s, false)
  | Some a =>
      match a_cache a with
      | None => (s, false)
      | Some c =>
          if mhas c name then (s, false)
          else (mset s (account_dir to)
                  {| a_user := a_user a;
                     a_cache := Some (mset c name (enc DiskMessage_codec (mkDiskMessage from received payload cleartext))) |}, true)
      end
  end.

(** account.go:364-381 [Delete]; a missing file is an error. *)
Definition delete (s : store) (id name : bytes) : store * bool :=
  match mget s (account_dir id) with
  | None => (s, false)
  | Some a =>
      match a_cache a with
      | None => (s, false)
      | Some c => if mhas c name
                  then (mset s (account_dir id) {| a_user := a_user a; a_cache := Some (mdel c name) |}, true)
                  else (s, false)
      end
  end.

(** zkserver.go:673-690: what a session of an authenticated identity is told. *)
Inductive login := Unwelcomed | Unknown | Welcomed.
Definition login_check (s : store) (id : bytes) : login :=
  if disabled s id then Unwelcomed else if enabled s id then Welcomed else Unknown.

Inductive acct_op :=
| OCreate (pid : PublicIdentity) (force : bool)
| OPush (id : bytes) | OPull (id : bytes)
| ODisable (id : bytes) | OEnable (id : bytes)
| ODeliver (to from payload : bytes) (cleartext : bool) (name : bytes) (received : Z)
| ODelete (id name : bytes).

Definition acct_step (s : store) (o : acct_op) (ok : bool) (s' : store) : Prop :=
  match o with
  | OCreate pid force => create s pid force ok s'
  | OPush id => push s id ok s'
  | OPull id => pull s id ok s'
  | ODisable id => (s', ok) = disable s id
  | OEnable id => (s', ok) = enable s id
  | ODeliver to from p cl name rcv => (s', ok) = deliver s to from p cl name rcv
  | ODelete id name => (s', ok) = delete s id name
  end.

Inductive acct_run : store -> list acct_op -> store -> Prop :=
| ARun_nil s : acct_run s [] s
| ARun_cons s o ok s1 os s2 : acct_step s o ok s1 -> acct_run s1 os s2 -> acct_run s (o :: os) s2.

(** zkserver/account.go:104-125 [handleIdentityDisable] and zkserver.go:748-769:
    the reply and, as a flag, whether the session of the account is closed.
    [sessions] has the keys of the session map.  A name that decodes to another
    length than 32 calls Error on a nil error. *)
Definition socket_disable (s : store) (sessions : list bytes) (ident : bytes) : res unit (store * bool * bool) :=
  match hex_decode ident with
  | None => Ok (s, false, mem ident sessions)
  | Some id =>
      if negb (Nat.eqb (length id) 32) then Panic
      else let (s', ok) := disable s id in Ok (s', ok, mem ident sessions)
  end.
(** zkserver/account.go:127-147 *)
Definition socket_enable (s : store) (ident : bytes) : res unit (store * bool) :=
  match hex_decode ident with
  | None => Ok (s, false)
  | Some id => if negb (Nat.eqb (length id) 32) then Panic else Ok (enable s id)
  end.
