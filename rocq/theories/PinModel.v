(** Model of the server a client talks to: the record in myserver.ini, account
    creation, the check of the certificate, /acceptnewcert and zkimport.

    The network is an input: each connection comes with the certificate its other
    end showed, and with how far the conversation got.  That [Initiate] can only
    succeed with the owner of the key it is given is C61; here the session is filed
    under that key.  Input and output errors, backups of myserver.ini and the
    windows' other widgets are left out.  What the user is shown and agrees to, and
    what is sent to whom, is kept as a history. *)
From Verif Require Import Base IniModel IniMemProofs IniFileProofs XdrModel RpcModel IdentityModel StrconvModel ServerDbModel WelcomeModel.
Local Open Scope N_scope.

Inductive obs :=
| Shown (host cert fingerprint : bytes)       (* the question; of [cert] its hash is shown *)
| Agreed (host cert : bytes) (pid : PublicIdentity)   (* answered with yes *)
| Forced (host cert : bytes) (pid : PublicIdentity)   (* zkimport -f *)
| Refused (cert : bytes)                      (* "certificate changed", its hash is shown *)
| Pinned (cert : bytes)                       (* /acceptnewcert *)
| Asked (cert token : bytes) (me : PublicIdentity)    (* CreateAccount sent on a connection *)
| Created (cert : bytes) (me : PublicIdentity)        (* the reply to it without an error *)
| Session (cert key : bytes).                 (* Initiate succeeded on a connection *)

(** Which window has the focus. *)
Inductive window :=
| Welcoming
| Accepting (host cert : bytes) (pid : PublicIdentity) (token : bytes)
| Main.

(** zkclient.go:620-632, the fields that matter here.  [c_online] has the
    certificate and the key of the session. *)
Record client := mkClient {
  c_addr : bytes; c_server : option PublicIdentity; c_cert : bytes; c_prov : option bytes;
  c_me : FullIdentity; c_online : option (bytes * bytes); c_win : window }.

(** * myserver.ini *)

Fixpoint sets (d : inidb) (kvs : list (bytes * bytes)) : option inidb :=
  match kvs with
  | [] => Some d
  | (k, v) :: r => match ini_set d [] k v with (d', None) => sets d' r | (_, Some _) => None end
  end.

(** Opening the file, setting some records and saving it: [f'] may be the file
    afterwards. *)
Definition written (file : option bytes) (kvs : list (bytes * bytes)) (f' : bytes) : Prop :=
  exists f d d', db_open file = Some (f, d) /\ sets d kvs = Some d' /\ saved f d' f'.
(** What may be left if the program dies on the way (C05_crash): the old file, the
    empty one just created, none between the two renames, or the new one. *)
Definition interrupted (file : option bytes) (kvs : list (bytes * bytes)) (file' : option bytes) : Prop :=
  file' = file \/
  (file = None /\ file' = Some (render [([], [])])) \/
  (file <> None /\ file' = None) \/
  (exists f', written file kvs f' /\ file' = Some f').

(** zkclient.go:679-724 saveServerRecord *)
Definition server_record (addr : bytes) (pid : PublicIdentity) (cert : bytes) (me : FullIdentity) : list (bytes * bytes) :=
  [(bs "server", addr);
   (bs "serveridentity", b64_encode (enc PublicIdentity_codec pid));
   (bs "servercert", b64_encode cert);
   (bs "myidentity", b64_encode (enc FullIdentity_codec me))].

(** tools/zkimport/zkimport.go:175-204, what importServerRecord writes *)
Definition imported_record (addr : bytes) (pid : PublicIdentity) (cert : bytes) (directory : bool) : list (bytes * bytes) :=
  [(bs "server", addr);
   (bs "serveridentity", b64_encode (enc PublicIdentity_codec pid));
   (bs "servercert", b64_encode cert);
   (bs "directory", format_bool directory)].

Definition decoded {A} (c : codec A) (d : inidb) (k : bytes) : option A :=
  match ini_get d [] k with
  | Ok v => match b64_decode v with
            | Some b => match dec c 0 b with Some (x, _) => Some x | None => None end
            | None => None
            end
  | _ => None
  end.

(** zkclient.go:1599-1632 parseMyServer; None is an error *)
Definition parse_my_server (d : inidb) : option (bytes * PublicIdentity * bytes) :=
  match ini_get d [] (bs "server") with
  | Ok addr =>
      match decoded PublicIdentity_codec d (bs "serveridentity") with
      | Some pid =>
          match ini_get d [] (bs "servercert") with
          | Ok v => match b64_decode v with Some cert => Some (addr, pid, cert) | None => None end
          | _ => None
          end
      | None => None
      end
  | _ => None
  end.

(** zkclient.go:1634-1651 parseMyIdentity *)
Definition parse_my_identity (d : inidb) : option FullIdentity := decoded FullIdentity_codec d (bs "myidentity").

Definition new_client (fresh : FullIdentity) : client := mkClient [] None [] None fresh None Welcoming.

(** zkclient.go:2119-2151 and 2191-2208 [_main]: None is the error that ends the
    program.  Every error of opening the file counts as a first run.  [fresh] is the
    identity made then. *)
Definition load (file : option bytes) (fresh : FullIdentity) : option client :=
  match file with
  | None => Some (new_client fresh)
  | Some f =>
      match parse f with
      | None => Some (new_client fresh)
      | Some t =>
          let d := opened t false in
          match parse_my_server d with
          | None => None
          | Some (addr, pid, cert) =>
              match parse_my_identity d with
              | Some me => Some (mkClient addr (Some pid) cert None me None Main)
              | None => Some (mkClient addr (Some pid) cert None fresh None Welcoming)
              end
          end
      end
  end.

Section Crypto.
Variable sha256 : bytes -> bytes.
Variable sign : bytes -> bytes -> bytes.
Variable verify_sig : bytes -> bytes -> bytes -> bool.

(** The program (None: not running), its file and the history, newest first. *)
Record state := mkState { run : option client; file : option bytes; hist : list obs }.

(** How far an account creation got. *)
Inductive outcome :=
| NoReply                          (* the connection broke, or the reply was an error *)
| NoSession                        (* created, but no key exchange *)
| NoWelcome                        (* key exchange, but no welcome *)
| NoFile                           (* the record could not be saved *)
| Died (file' : option bytes)      (* the program died while saving *)
| Done (f' : bytes).

Definition set_me (c : client) (me : FullIdentity) : client :=
  mkClient (c_addr c) (c_server c) (c_cert c) (c_prov c) me (c_online c) (c_win c).

(** zkclient.go:1983-2050 finalizeAccountCreation on a connection with [cert].
    welcomePhase sets online.  That greeting the user afterwards fails, and the blanks
    taken out of the token, are left out. *)
Inductive finalize (c : client) (fl : option bytes) (cert : bytes) (pid : PublicIdentity) (token : bytes) :
  outcome -> option client -> option bytes -> list obs -> Prop :=
| F_digest o : recalculate_digest sha256 sign verify_sig (c_me c) = Err tt -> finalize c fl cert pid token o (Some c) fl []
| F_noreply me : recalculate_digest sha256 sign verify_sig (c_me c) = Ok me ->
    finalize c fl cert pid token NoReply (Some (set_me c me)) fl [Asked cert token (FullIdentity_Public me)]
| F_nosession me : recalculate_digest sha256 sign verify_sig (c_me c) = Ok me ->
    finalize c fl cert pid token NoSession
      (Some (mkClient (c_addr c) (Some pid) cert (c_prov c) me (c_online c) (c_win c))) fl
      [Created cert (FullIdentity_Public me); Asked cert token (FullIdentity_Public me)]
| F_nowelcome me : recalculate_digest sha256 sign verify_sig (c_me c) = Ok me ->
    finalize c fl cert pid token NoWelcome
      (Some (mkClient (c_addr c) (Some pid) cert (c_prov c) me (c_online c) (c_win c))) fl
      [Session cert (PublicIdentity_Key pid); Created cert (FullIdentity_Public me); Asked cert token (FullIdentity_Public me)]
| F_nofile me : recalculate_digest sha256 sign verify_sig (c_me c) = Ok me -> (forall f', ~ written fl (server_record (c_addr c) pid cert me) f') ->
    finalize c fl cert pid token NoFile
      (Some (mkClient (c_addr c) (Some pid) cert (c_prov c) me (Some (cert, PublicIdentity_Key pid)) (c_win c))) fl
      [Session cert (PublicIdentity_Key pid); Created cert (FullIdentity_Public me); Asked cert token (FullIdentity_Public me)]
| F_died me fl' : recalculate_digest sha256 sign verify_sig (c_me c) = Ok me -> interrupted fl (server_record (c_addr c) pid cert me) fl' ->
    finalize c fl cert pid token (Died fl') None fl'
      [Session cert (PublicIdentity_Key pid); Created cert (FullIdentity_Public me); Asked cert token (FullIdentity_Public me)]
| F_done me f' : recalculate_digest sha256 sign verify_sig (c_me c) = Ok me -> written fl (server_record (c_addr c) pid cert me) f' ->
    finalize c fl cert pid token (Done f')
      (Some (mkClient (c_addr c) (Some pid) cert (c_prov c) me (Some (cert, PublicIdentity_Key pid)) Main)) (Some f')
      [Session cert (PublicIdentity_Key pid); Created cert (FullIdentity_Public me); Asked cert token (FullIdentity_Public me)].

(** welcome.go:135-139: what the user typed. *)
Definition typed (c : client) (name nick addr : bytes) : client :=
  mkClient addr (c_server c) (c_cert c) (c_prov c) (rename (c_me c) name nick) (c_online c) (c_win c).
Definition to_window (c : client) (w : window) : client :=
  mkClient (c_addr c) (c_server c) (c_cert c) (c_prov c) (c_me c) (c_online c) w.

Inductive event :=
| Start (fresh : FullIdentity)
| Quit                                     (* or dies, other than while saving *)
| Enter (name nick addr token cert : bytes) (pid : PublicIdentity) (o : outcome)
| Yes (o : outcome)
| No
| Online (cert : bytes) (succeeds : bool)
| Drop                                     (* the session ends *)
| AcceptCert (o : outcome)
| Import (addr : bytes) (pid : PublicIdentity) (cert : bytes) (directory force yes : bool) (o : outcome).

Inductive step (s : state) : event -> state -> Prop :=
| S_start fresh c : run s = None -> load (file s) fresh = Some c -> step s (Start fresh) (mkState (Some c) (file s) (hist s))
| S_nostart fresh : run s = None -> load (file s) fresh = None -> step s (Start fresh) s
| S_quit : step s Quit (mkState None (file s) (hist s))
(* welcome.go:135-202 KeyHandler: [pid] is the answer to "identify"; nothing happens
   if something is missing or there is no connection *)
| S_missing name nick addr token cert pid o c : run s = Some c -> c_win c = Welcoming ->
    step s (Enter name nick addr token cert pid o) (mkState (Some (typed c name nick addr)) (file s) (hist s))
| S_identify name nick addr token cert pid o c : run s = Some c -> c_win c = Welcoming -> name <> [] -> nick <> [] -> addr <> [] -> c_server c = None ->
    step s (Enter name nick addr token cert pid o)
      (mkState (Some (to_window (typed c name nick addr) (Accepting addr cert pid token))) (file s)
         (Shown addr cert (PublicIdentity_Identity pid) :: hist s))
| S_known name nick addr token cert pid o c p r f' h : run s = Some c -> c_win c = Welcoming -> name <> [] -> nick <> [] -> addr <> [] -> c_server c = Some p ->
    finalize (typed c name nick addr) (file s) cert p token o r f' h ->
    step s (Enter name nick addr token cert pid o) (mkState r f' (h ++ hist s))
(* acceptserverfingerprint.go:113-129 KeyHandler *)
| S_yes o c host cert pid token r f' h : run s = Some c -> c_win c = Accepting host cert pid token ->
    finalize c (file s) cert pid token o r f' h ->
    step s (Yes o) (mkState r f' (h ++ Agreed host cert pid :: hist s))
| S_no c host cert pid token : run s = Some c -> c_win c = Accepting host cert pid token ->
    step s No (mkState (Some (to_window c Welcoming)) (file s) (hist s))
(* zkclient.go:954-986 goOnline *)
| S_online cert c p : run s = Some c -> c_win c = Main -> c_online c = None -> c_server c = Some p -> cert = c_cert c ->
    step s (Online cert true) (mkState (Some (mkClient (c_addr c) (c_server c) (c_cert c) (c_prov c) (c_me c) (Some (cert, PublicIdentity_Key p)) Main)) (file s)
      (Session cert (PublicIdentity_Key p) :: hist s))
| S_failed cert c : run s = Some c -> c_win c = Main -> c_online c = None -> cert = c_cert c -> step s (Online cert false) s
| S_changed cert b c : run s = Some c -> c_win c = Main -> c_online c = None -> cert <> c_cert c ->
    step s (Online cert b) (mkState (Some (mkClient (c_addr c) (c_server c) (c_cert c) (Some cert) (c_me c) None Main)) (file s)
      (Refused cert :: hist s))
(* zkclient.go:1193-1213 *)
| S_drop c : run s = Some c ->
    step s Drop (mkState (Some (mkClient (c_addr c) (c_server c) (c_cert c) (c_prov c) (c_me c) None (c_win c))) (file s) (hist s))
(* mainwindow.go:390-410 *)
| S_nothing o c : run s = Some c -> c_win c = Main -> c_online c <> None \/ c_prov c = None -> step s (AcceptCert o) s
| S_pinned c p cert f' : run s = Some c -> c_win c = Main -> c_online c = None -> c_prov c = Some cert -> c_server c = Some p ->
    written (file s) (server_record (c_addr c) p cert (c_me c)) f' ->
    step s (AcceptCert (Done f')) (mkState (Some (mkClient (c_addr c) (c_server c) cert None (c_me c) None Main)) (Some f') (Pinned cert :: hist s))
| S_unpinned c p cert : run s = Some c -> c_win c = Main -> c_online c = None -> c_prov c = Some cert -> c_server c = Some p ->
    (forall f', ~ written (file s) (server_record (c_addr c) p cert (c_me c)) f') -> step s (AcceptCert NoFile) s
| S_diedpin c p cert f' : run s = Some c -> c_win c = Main -> c_online c = None -> c_prov c = Some cert -> c_server c = Some p ->
    interrupted (file s) (server_record (c_addr c) p cert (c_me c)) f' ->
    step s (AcceptCert (Died f')) (mkState None f' (Pinned cert :: hist s))
(* tools/zkimport/zkimport.go:123-143 promptUser, 145-213 importServerRecord *)
| S_configured addr pid cert dir yes o : file s <> None -> step s (Import addr pid cert dir false yes o) s
| S_declined addr pid cert dir o : file s = None ->
    step s (Import addr pid cert dir false false o) (mkState (run s) None (Shown addr cert (PublicIdentity_Identity pid) :: hist s))
| S_imported addr pid cert dir f' : file s = None -> written None (imported_record addr pid cert dir) f' ->
    step s (Import addr pid cert dir false true (Done f')) (mkState (run s) (Some f') (Agreed addr cert pid :: Shown addr cert (PublicIdentity_Identity pid) :: hist s))
| S_diedimport addr pid cert dir f' : file s = None -> interrupted None (imported_record addr pid cert dir) f' ->
    step s (Import addr pid cert dir false true (Died f')) (mkState (run s) f' (Agreed addr cert pid :: Shown addr cert (PublicIdentity_Identity pid) :: hist s))
| S_forced addr pid cert dir yes f' : written (file s) (imported_record addr pid cert dir) f' ->
    step s (Import addr pid cert dir true yes (Done f')) (mkState (run s) (Some f') (Forced addr cert pid :: hist s))
| S_diedforced addr pid cert dir yes f' : interrupted (file s) (imported_record addr pid cert dir) f' ->
    step s (Import addr pid cert dir true yes (Died f')) (mkState (run s) f' (Forced addr cert pid :: hist s)).

Definition start : state := mkState None None [].

Inductive steps : state -> list event -> state -> Prop :=
| Steps_nil s : steps s [] s
| Steps_cons s e s' l s'' : step s e s' -> steps s' l s'' -> steps s (e :: l) s''.
End Crypto.
