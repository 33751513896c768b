(** Model of what the store of accounts looks like while an account is created or
    listed: /repo/zkserver/account/account.go (Create, Push, Pull) with the renames of
    /repo/inidb/inidb.go (New, Save).  A server that dies leaves the store so, and
    another goroutine that searches meanwhile sees it so, since neither Create nor Push
    holds the mutex.  Backups and temporary files are left out: nothing opens them. *)
From Verif Require Import Base HexModel IniModel IniMemProofs IniFileProofs XdrModel RpcModel StrconvModel ServerDbModel AcctModel.
Local Open Scope N_scope.

Definition no_acct : acct := {| a_user := None; a_cache := None |}.

(** account.go:123-138: Create gets as far as opening the file. *)
Definition goes (s : store) (pid : PublicIdentity) (force : bool) : Prop :=
  find s (PublicIdentity_Nick pid) = None /\ mhas s (account_dir (PublicIdentity_Identity pid)) && negb force = false.
Definition at_dir (s : store) (n : bytes) : acct := match mget s n with Some a => a | None => no_acct end.

(** [passes s o s']: [s'] is one of the states of the disk that others can see while
    [o] runs in [s]. *)
Inductive passes (s : store) : acct_op -> store -> Prop :=
| Pa_before o : passes s o s
| Pa_done o ok s' : acct_step s o ok s' -> passes s o s'
(** inidb.go:56-61, called at account.go:140-145: MkdirAll; there is no file yet *)
| Pa_dir pid force : goes s pid force -> mget s (account_dir (PublicIdentity_Identity pid)) = None ->
    passes s (OCreate pid force) (mset s (account_dir (PublicIdentity_Identity pid)) no_acct)
(** inidb.go:70-77: an empty file was saved *)
| Pa_new pid force : goes s pid force -> a_user (at_dir s (account_dir (PublicIdentity_Identity pid))) = None ->
    passes s (OCreate pid force) (mset s (account_dir (PublicIdentity_Identity pid))
      {| a_user := Some (render [([], [])]); a_cache := a_cache (at_dir s (account_dir (PublicIdentity_Identity pid))) |})
(** inidb.go:122-135 from account.go:158: a file that was there before is renamed, and
    for a moment there is none (one that New just created is not renamed) *)
| Pa_between pid force c t d' : goes s pid force -> a_user (at_dir s (account_dir (PublicIdentity_Identity pid))) = Some c -> parse c = Some t ->
    ini_set (opened t false) [] (bs "identity") (b64_encode (enc PublicIdentity_codec pid)) = (d', None) ->
    passes s (OCreate pid force) (mset s (account_dir (PublicIdentity_Identity pid))
      {| a_user := None; a_cache := a_cache (at_dir s (account_dir (PublicIdentity_Identity pid))) |})
(** account.go:158-164: saved, but the directory for messages is not made yet *)
| Pa_saved pid force f d d' f' : goes s pid force -> db_open (a_user (at_dir s (account_dir (PublicIdentity_Identity pid)))) = Some (f, d) ->
    ini_set d [] (bs "identity") (b64_encode (enc PublicIdentity_codec pid)) = (d', None) -> saved f d' f' ->
    passes s (OCreate pid force) (mset s (account_dir (PublicIdentity_Identity pid))
      {| a_user := Some f'; a_cache := a_cache (at_dir s (account_dir (PublicIdentity_Identity pid))) |})
(** inidb.go:122-135 from account.go:185 and account.go:303 *)
| Pa_push id a c t d' : mget s (account_dir id) = Some a -> a_user a = Some c -> parse c = Some t ->
    ini_set (opened t false) [] (bs "listed") (bs "1") = (d', None) ->
    passes s (OPush id) (mset s (account_dir id) {| a_user := None; a_cache := a_cache a |})
| Pa_pull id a c t d' : mget s (account_dir id) = Some a -> a_user a = Some c -> parse c = Some t ->
    ini_del (opened t false) [] (bs "listed") = (d', None) ->
    passes s (OPull id) (mset s (account_dir id) {| a_user := None; a_cache := a_cache a |}).

(** zkserver.go:393-400, the beginning of a session: with the directory switched on the
    session goes on only if Push succeeds. *)
Definition begins (directory : bool) (s : store) (id : bytes) (ok : bool) (s' : store) : Prop :=
  if directory then push s id ok s' else ok = true /\ s' = s.
