(** Model of the two small databases of the server: rendezvous blobs and account
    creation tokens. *)
From Verif Require Import Base IniModel IniMemProofs IniFileProofs XdrModel RpcModel StrconvModel.
Local Open Scope N_scope.

(** * Files *)

(** inidb.go:50-85 [New] with create = true: the contents of the file afterwards
    and the database; None is a file that does not parse.  A missing file is
    created; [db_created] stands for the result ErrCreated.  Input and output
    errors are left out, and so are the backup files. *)
Definition db_open (file : option bytes) : option (bytes * inidb) :=
  match file with
  | None => Some (render [([], [])], ini_fresh)
  | Some c => match parse c with
              | Some t => Some (c, opened t false)
              | None => None
              end
  end.

(** inidb.go:98-176 [Save]: [f'] may be the file afterwards.  Go iterates over
    the maps in any order. *)
Definition saved (f : bytes) (d : inidb) (f' : bytes) : Prop :=
  if db_dirty d then exists order, iterates (db_tables d) order /\ f' = render order else f' = f.

(** * Rendezvous *)

Definition internal_error : bytes := bs "internal error, contact server administrator".

(** zkserver/rendezvous.go:162-213, the loop.  [draws i] is the result of the
    i-th call of RandomUint64, None if there was not enough entropy. *)
Fixpoint rz_loop (retry i : nat) (draws : nat -> option N) (d : inidb) (r : Rendezvous) : inidb * RendezvousReply :=
  match retry with
  | O => (d, mkRendezvousReply [] internal_error)
  | S retry' =>
      match draws i with
      | None => rz_loop retry' (S i) draws d r
      | Some x =>
          let tok := format_uint (x mod 1000000) in
          match ini_get d [] tok with
          | Ok _ => rz_loop retry' (S i) draws d r
          | _ =>
              match ini_set d [] tok (b64_encode (enc Rendezvous_codec r)) with
              | (d', None) => (d', mkRendezvousReply tok [])
              | (d', Some _) => rz_loop retry' (S i) draws d' r
              end
          end
      end
  end.

(** zkserver/rendezvous.go:122-217 without opening and saving the database. *)
Definition rz_store (draws : nat -> option N) (d : inidb) (r : Rendezvous) : inidb * RendezvousReply :=
  if 4096 <? N.of_nat (length (Rendezvous_Blob r)) then (d, mkRendezvousReply [] (bs "invalid blob size"))
  else match parse_uint (Rendezvous_Expiration r) with
       | Some e => if 168 <? e then (d, mkRendezvousReply [] (bs "invalid expiration"))
                   else rz_loop 25 0 draws d r
       | None => (d, mkRendezvousReply [] (bs "invalid expiration"))
       end.

(** zkserver/rendezvous.go:55-117 without opening the database; [lim] is the
    server's MaxMsgSize (zkserver.go:96-98). *)
Definition rz_pull (lim : N) (d : inidb) (tok : bytes) : RendezvousPullReply :=
  match ini_get d [] tok with
  | Err _ | Panic => mkRendezvousPullReply (bs "invalid PIN") [] []
  | Ok v =>
      match b64_decode v with
      | None => mkRendezvousPullReply (bs "internal error base64decode") [] []
      | Some x =>
          match dec Rendezvous_codec lim x with
          | None => mkRendezvousPullReply (bs "internal error unmarshal") [] []
          | Some (r, _) => mkRendezvousPullReply [] tok (Rendezvous_Blob r)
          end
      end
  end.

Inductive rz_request :=
| Store (r : Rendezvous) (draws : nat -> option N)
| Fetch (tok : bytes).
Inductive rz_answer :=
| Stored (p : RendezvousReply)
| Fetched (p : RendezvousPullReply)
| Closed.                       (* the handler failed, the connection is closed *)

(** One request handled from beginning to end: the file before and after. *)
Definition rz_step (lim : N) (file : option bytes) (q : rz_request) (a : rz_answer) (file' : option bytes) : Prop :=
  match db_open file with
  | None => a = Closed /\ file' = file
  | Some (f, d) =>
      match q with
      | Store r draws =>
          let (d', p) := rz_store draws d r in
          a = Stored p /\ exists f', saved f d' f' /\ file' = Some f'
      | Fetch tok => a = Fetched (rz_pull lim d tok) /\ file' = Some f
      end
  end.

(** * Account creation tokens *)

(** An int64. *)
Definition wrap64 (z : Z) : Z := ((z + 2 ^ 63) mod 2 ^ 64 - 2 ^ 63)%Z.

(** time.Unix(t, 0) in nanoseconds.  A Time counts seconds from year 1 in an
    int64, so that a huge [t] wraps around. *)
Definition unix_ns (t : Z) : Z := ((wrap64 (t + 62135596800) - 62135596800) * 1000000000)%Z.

(** zkserver/pending.go:16-39 [prunePending] without Save.  [clock k] is the time,
    in nanoseconds, when record [k] is looked at. *)
Definition prune_pending (clock : bytes -> Z) (d : inidb) : inidb :=
  fold_left (fun d (kv : bytes * bytes) =>
    match parse_int (snd kv) with
    | None => fst (ini_del d [] (fst kv))
    | Some t => if (unix_ns t <? clock (fst kv))%Z then fst (ini_del d [] (fst kv)) else d
    end) (ini_records d []) d.

(** zkserver/pending.go:41-79 [validToken] without opening and saving; the
    deferred pruning is included.  [now] is the time of the check. *)
Definition valid_token (tok : bytes) (now : Z) (clock : bytes -> Z) (d : inidb) : inidb * bool :=
  let (d', ok) :=
    match ini_get d [] tok with
    | Err _ | Panic => (d, false)
    | Ok v =>
        match ini_del d [] tok with
        | (d1, Some _) => (d1, false)
        | (d1, None) =>
            match parse_int v with
            | None => (d1, false)
            | Some t => (d1, negb (unix_ns t <? now)%Z)
            end
        end
    end in
  (prune_pending clock d', ok).

(** tools/tools.go:85-95 [InFours]; %4v of four characters is the characters. *)
Definition in_fours (x : bytes) : option bytes :=
  if Nat.eqb (length x) 16 then
    Some (firstn 4 x ++ [SP] ++ firstn 4 (skipn 4 x) ++ [SP] ++ firstn 4 (skipn 8 x) ++ [SP] ++ skipn 12 x)
  else None.

(** tools/zkservertoken/zkservertoken.go:89-90: expiry as a uint64, [now] in
    nanoseconds; the duration is an int64. *)
Definition tool_expiry (now : Z) (hours : N) : N :=
  Z.to_N (((now + wrap64 (wrap64 (Z.of_N hours) * 3600000000000)) / 1000000000) mod 2 ^ 64)%Z.

Inductive tool_result :=
| Running                                   (* the draws given are used up *)
| NoEntropy
| Printed (token printed : bytes).

(** zkservertoken.go:65-102, the loop without Save; the draws are those of
    RandomUint64. *)
Fixpoint tool_loop (draws : list (option N)) (now : Z) (hours : N) (d : inidb) : inidb * tool_result :=
  match draws with
  | [] => (d, Running)
  | None :: _ => (d, NoEntropy)
  | Some x :: more =>
      if x <? 10000000000000000 then tool_loop more now hours d
      else
        let xs := format_uint (x mod 10000000000000000) in
        match ini_get d [] xs with
        | Ok _ => tool_loop more now hours d
        | _ =>
            match in_fours xs with
            | None => tool_loop more now hours d
            | Some p =>
                match ini_set d [] xs (format_uint (tool_expiry now hours)) with
                | (d', Some _) => (d', NoEntropy)
                | (d', None) => (d', Printed xs p)
                end
            end
        end
  end.

Inductive tok_request :=
| Issue (draws : list (option N)) (now : Z) (hours : N)
| Use (tok : bytes) (now : Z) (clock : bytes -> Z).
Inductive tok_answer := Tool (r : tool_result) | Valid (b : bool) | Unopened.

(** One run of the tool, or one call of validToken, from beginning to end.  When
    the file did not exist New returns ErrCreated and validToken stops
    (pending.go:43-48), leaving the empty file behind. *)
Definition tok_step (file : option bytes) (q : tok_request) (a : tok_answer) (file' : option bytes) : Prop :=
  match db_open file with
  | None => match q with Issue _ _ _ => a = Unopened | Use _ _ _ => a = Valid false end /\ file' = file
  | Some (f, d) =>
      match q with
      | Issue draws now hours =>
          let (d', r) := tool_loop draws now hours d in
          a = Tool r /\
          match r with
          | Printed _ _ => exists f', saved f d' f' /\ file' = Some f'
          | _ => file' = Some f
          end
      | Use tok now clock =>
          if db_created d then a = Valid false /\ file' = Some f
          else let (d', ok) := valid_token tok now clock d in
               a = Valid ok /\ exists f', saved f d' f' /\ file' = Some f'
      end
  end.

(** * Runs: requests handled one after the other *)

Section Run.
  Context {Q A : Type} (step : option bytes -> Q -> A -> option bytes -> Prop).
  Inductive run : option bytes -> list Q -> list A -> option bytes -> Prop :=
  | Run_nil f : run f [] [] f
  | Run_cons f q a f1 qs aas f2 : step f q a f1 -> run f1 qs aas f2 -> run f (q :: qs) (a :: aas) f2.
End Run.

(** * Overlapping requests *)

(** Every handler has its own copy of the database between opening and saving;
    nothing keeps two handlers apart.  A step of the interleaving opens the
    database for handler [i], runs its body, or saves.  [H] is the handler: its
    body changes the database and gives the answer. *)
Inductive phase (A : Type) :=
| Idle
| Opened (d : inidb)
| Answered (d : inidb) (a : A)
| Done (a : A).
Arguments Idle {A}. Arguments Opened {A}. Arguments Answered {A}. Arguments Done {A}.

Section Race.
  Context {A : Type} (body : nat -> inidb -> inidb * A).
  Inductive race : bytes * (nat -> phase A) -> bytes * (nat -> phase A) -> Prop :=
  | Race_open f p i t : p i = Idle -> parse f = Some t ->
      race (f, p) (f, fun j => if Nat.eqb j i then Opened (opened t false) else p j)
  | Race_body f p i d d' a : p i = Opened d -> body i d = (d', a) ->
      race (f, p) (f, fun j => if Nat.eqb j i then Answered d' a else p j)
  | Race_save f p i d a f' : p i = Answered d a -> saved f d f' ->
      race (f, p) (f', fun j => if Nat.eqb j i then Done a else p j).
  Inductive races : bytes * (nat -> phase A) -> bytes * (nat -> phase A) -> Prop :=
  | Races_refl s : races s s
  | Races_step s s1 s2 : race s s1 -> races s1 s2 -> races s s2.
End Race.
