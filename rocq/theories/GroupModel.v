(** Model of the group chats of a client: zkclient/groupchat.go, groupinvites.go,
    the group handlers of push.go (721-1296), and zkclient.go [_updateGroupList]
    (1891-1916), [_addIdGroupchat] (1918-1939), [loadGroupchat] (1941-1981).

    One client with all its groups.  Commands and received messages are handled one
    at a time, as z.Lock does; a callback of a kick is an event of its own.
    Simplifications: what is printed is left out except for group messages; the
    address book is an argument of every event that consults it; errors of input
    and output are possible when a group is written or removed, and left out for
    the two ini files; a panic ends the client. *)
From Verif Require Import Base IniModel IniMemProofs IniFileProofs XdrModel RpcModel StrconvModel HexModel CrpcModel BlobModel ServerDbModel UiModel Utf8Model.
Local Open Scope N_scope.

(** groupchat.go:302-304: a kick that waits for acknowledgements. *)
Record kick := mkKick { q_name : bytes; q_new : GroupList; q_got : nat; q_want : nat }.

Record gclient := mkGclient {
  c_groups : list (bytes * GroupList);  (* z.groups *)
  c_disk : list (bytes * bytes);        (* the files in the directory groupchat *)
  c_invites : option bytes;             (* invites/invites.ini *)
  c_joins : option bytes;               (* joins/joins.ini *)
  c_kicks : list kick                   (* the kicks so far, oldest first *)
}.
Definition set_groups c g := mkGclient g (c_disk c) (c_invites c) (c_joins c) (c_kicks c).
Definition set_disk c d := mkGclient (c_groups c) d (c_invites c) (c_joins c) (c_kicks c).
Definition set_invites c f := mkGclient (c_groups c) (c_disk c) f (c_joins c) (c_kicks c).
Definition set_joins c f := mkGclient (c_groups c) (c_disk c) (c_invites c) f (c_kicks c).
Definition set_kicks c l := mkGclient (c_groups c) (c_disk c) (c_invites c) (c_joins c) l.

(** The outcome of writing a file; a failed write may leave anything behind. *)
Inductive write := Written | Failed (left : option bytes).

(** Names that path.Join makes a directory of. *)
Definition dir_name (n : bytes) : bool := eqb n [] || eqb n [46] || eqb n [46; 46].

(** groupchat.go:64-84 [_gcSaveDisk]: the client and whether it succeeded. *)
Definition save_group (c : gclient) (n : bytes) (w : write) : gclient * bool :=
  if negb (valid_name n) then (c, false)
  else match mget (c_groups c) n with
       | None => (c, false)
       | Some g =>
           if dir_name n then (c, false)
           else match w with
                | Written => (set_disk c (mset (c_disk c) n (enc GroupList_codec g)), true)
                | Failed (Some b) => (set_disk c (mset (c_disk c) n b), false)
                | Failed None => (c, false)
                end
       end.

(** groupchat.go:54-62 [_deleteGroup]; [rm] is whether os.Remove of an existing
    file works, or of the directory for the names that path.Join makes one of. *)
Definition delete_group (c : gclient) (n : bytes) (rm : bool) : gclient * bool :=
  if negb (valid_name n) then (c, false)
  else let c1 := set_groups c (mdel (c_groups c) n) in
       if dir_name n then (c1, rm)
       else if mhas (c_disk c) n && rm then (set_disk c1 (mdel (c_disk c) n), true) else (c1, false).

(** A uint64. *)
Definition next (g : N) : N := (g + 1) mod 2 ^ 64.

(** The first member, the administrator. *)
Definition admin (g : GroupList) : option bytes :=
  match GroupList_Members g with [] => None | a :: _ => Some a end.

(** The result of a command or of handling a message: whether it returned an error,
    or the client crashed; the messages it queued; a text shown in a group window. *)
Inductive result := Fine | Error | Crashed.
Record out := mkOut { o_result : result; o_sent : list (bytes * crpc_payload); o_shown : option bytes }.
Definition fine := mkOut Fine [] None.
Definition error := mkOut Error [] None.
Definition done (b : bool) (l : list (bytes * crpc_payload)) := mkOut (if b then Fine else Error) l None.

(** * The two databases of invitations *)

(** inidb.go:50-85 [New] with create = false. *)
Definition db_existing (file : option bytes) : option inidb :=
  match file with
  | None => None
  | Some f => match parse f with Some t => Some (opened t false) | None => None end
  end.

(** groupinvites.go:44-58 [unmarshalInvite] *)
Definition unmarshal_invite (v : bytes) : option GroupInvite :=
  match b64_decode v with
  | None => None
  | Some x => match dec GroupInvite_codec 0 x with Some (gi, _) => Some gi | None => None end
  end.

Definition put_record (d : inidb) (gi : GroupInvite) (who : bytes) : inidb :=
  fst (ini_set (ini_new_table d (GroupInvite_Name gi)) (GroupInvite_Name gi) (hex_encode who)
         (b64_encode (enc GroupInvite_codec gi))).

(** groupinvites.go:126-201 [inviteDBAdd]: [draw] is the random number, None if
    there was no entropy in five attempts; [nicks] the nicks of the members. *)
Definition invite_db_add (file : option bytes) (who : bytes) (name : bytes) (nicks : list bytes)
    (draw : option N) (expires : Z) (r : option GroupInvite) (file' : option bytes) : Prop :=
  match db_open file with
  | None => r = None /\ file' = file
  | Some (f, d) =>
      match ini_get d name (hex_encode who), draw with
      | Ok _, _ => r = None /\ file' = Some f
      | _, None => r = None /\ file' = Some f
      | _, Some x =>
          let gi := mkGroupInvite name nicks (x mod 1000000) (bs "come join me!") expires in
          r = Some gi /\ exists f', saved f (put_record d gi who) f' /\ file' = Some f'
      end
  end.

(** groupinvites.go:203-242 [joinDBAdd] *)
Definition join_db_add (file : option bytes) (from : bytes) (gi : GroupInvite) (ok : bool) (file' : option bytes) : Prop :=
  match db_open file with
  | None => ok = false /\ file' = file
  | Some (f, d) =>
      match ini_get d (GroupInvite_Name gi) (hex_encode from) with
      | Ok _ => ok = false /\ file' = Some f
      | _ => ok = true /\ exists f', saved f (put_record d gi from) f' /\ file' = Some f'
      end
  end.

(** copy into an array of 32 bytes *)
Definition to_identity (b : bytes) : bytes := firstn 32 (b ++ repeat 0 32).

(** groupinvites.go:244-280 [getJoin]: the first record that fits, in any order. *)
Definition get_join (file : option bytes) (name : bytes) (token : N) (r : option bytes) : Prop :=
  match db_existing file with
  | None => r = None
  | Some d =>
      let fits (kv : bytes * bytes) := match unmarshal_invite (snd kv) with
                                       | Some gi => (token =? GroupInvite_Token gi)
                                       | None => false
                                       end in
      match r with
      | Some x => exists k v i, In (k, v) (ini_records d name) /\ fits (k, v) = true /\ hex_decode k = Some i /\ x = to_identity i
      | None => forall k v, In (k, v) (ini_records d name) -> fits (k, v) = true -> hex_decode k = None
      end
  end.

(** groupinvites.go:282-322 [delJoin] *)
Definition del_join (file : option bytes) (name : bytes) (token : N) (ok : bool) (file' : option bytes) : Prop :=
  match db_existing file, file with
  | Some d, Some f =>
      match ini_records d name with
      | [(_, v)] =>
          match unmarshal_invite v with
          | Some gi => if token =? GroupInvite_Token gi
                       then ok = true /\ exists f', saved f (fst (ini_del_table d name)) f' /\ file' = Some f'
                       else ok = false /\ file' = file
          | None => ok = false /\ file' = file
          end
      | _ => ok = false /\ file' = file
      end
  | _, _ => ok = false /\ file' = file
  end.

(** groupinvites.go:324-363 [delInvite] *)
Definition del_invite (file : option bytes) (from : bytes) (gj : GroupJoin) (ok : bool) (file' : option bytes) : Prop :=
  match db_existing file, file with
  | Some d, Some f =>
      match ini_get d (GroupJoin_Name gj) (hex_encode from) with
      | Ok v =>
          match unmarshal_invite v with
          | Some gi => if GroupInvite_Token gi =? GroupJoin_Token gj
                       then ok = true /\ exists f', saved f (fst (ini_del d (GroupJoin_Name gj) (hex_encode from))) f' /\ file' = Some f'
                       else ok = false /\ file' = file
          | None => ok = false /\ file' = file
          end
      | _ => ok = false /\ file' = file
      end
  | _, _ => ok = false /\ file' = file
  end.

(** * Received messages *)

(** zkclient.go:1891-1916 [_updateGroupList]; the generation is only warned about. *)
Definition update_list (c : gclient) (from : bytes) (gl : GroupList) (w : write) : gclient * bool :=
  match mget (c_groups c) (GroupList_Name gl) with
  | None => (c, false)
  | Some g =>
      match admin g with
      | None => (c, false)
      | Some a =>
          if eqb a from then save_group (set_groups c (mset (c_groups c) (GroupList_Name gl) gl)) (GroupList_Name gl) w
          else (c, false)
      end
  end.

(** push.go:764-834 [handleGroupJoin] with zkclient.go:1918-1939 [_addIdGroupchat];
    [known] is the address book. *)
Definition handle_join (me : bytes) (known : bytes -> bool) (w : write) (c : gclient) (from : bytes) (gj : GroupJoin)
    (o : out) (c' : gclient) : Prop :=
  let n := GroupJoin_Name gj in
  match mget (c_groups c) n with
  | None => o = error /\ c' = c
  | Some g =>
      match GroupList_Members g with
      | [] => o = error /\ c' = c
      | a :: others =>
          if negb (eqb a me) then o = error /\ c' = c
          else exists ok f', del_invite (c_invites c) from gj ok f' /\
            let c1 := set_invites c f' in
            if negb ok then o = error /\ c' = c1
            else if negb (known from) then o = error /\ c' = c1
            else if mem from others then o = error /\ c' = c1
            else
              let g' := mkGroupList (GroupList_Name g) (next (next (GroupList_Generation g))) (GroupList_Timestamp g) (GroupList_Members g ++ [from]) in
              let (c2, saved) := save_group (set_groups c1 (mset (c_groups c1) n g')) n w in
              if saved then o = mkOut Fine (map (fun m => (m, GList g')) (others ++ [from])) None /\ c' = c2
              else o = error /\ c' = set_groups c2 (mset (c_groups c2) n g)
      end
  end.

(** The members without the first occurrence of [x]. *)
Fixpoint without (x : bytes) (l : list bytes) : list bytes :=
  match l with [] => [] | y :: r => if eqb y x then r else y :: without x r end.

(** push.go:836-916 [handleGroupPart] *)
Definition handle_part (me : bytes) (now : Z) (known : bytes -> bool) (w : write) (c : gclient) (from : bytes) (gp : GroupPart) : out * gclient :=
  let n := GroupPart_Name gp in
  match mget (c_groups c) n with
  | None => (error, c)
  | Some g =>
      match GroupList_Members g with
      | [] => (error, c)
      | a :: others =>
          if negb (eqb a me) then (error, c)
          else if negb (mem from others) then (error, c)
          else
            let g' := mkGroupList (GroupList_Name g) (next (GroupList_Generation g)) now (a :: without from others) in
            let sent := map (fun m => (m, GKick (mkGroupKick from (GroupPart_Reason gp) true g'))) others in
            let (c', ok) := save_group (set_groups c (mset (c_groups c) n g')) n w in
            (done (ok && known from) sent, c')
      end
  end.

(** push.go:918-1013 [handleGroupKick] *)
Definition handle_kick (me : bytes) (w : write) (rm : bool) (c : gclient) (from : bytes) (gk : GroupKick) : out * gclient :=
  let n := GroupList_Name (GroupKick_NewGroupList gk) in
  match mget (c_groups c) n with
  | None => (error, c)
  | Some g =>
      match admin g with
      | None => (error, c)
      | Some a =>
          if negb (eqb a from) then (error, c)
          else let (c', ok) := if eqb (GroupKick_Member gk) me then delete_group c n rm
                               else update_list c from (GroupKick_NewGroupList gk) w in
               (done ok [], c')
      end
  end.

(** push.go:1015-1047 [handleGroupKill]: Members[0] without looking at the length. *)
Definition handle_kill (rm : bool) (c : gclient) (from : bytes) (gk : GroupKill) : out * gclient :=
  match mget (c_groups c) (GroupKill_Name gk) with
  | None => (error, c)
  | Some g =>
      match admin g with
      | None => (mkOut Crashed [] None, c)
      | Some a =>
          if negb (eqb a from) then (error, c)
          else let (c', ok) := delete_group c (GroupKill_Name gk) rm in (done ok [], c')
      end
  end.

(** push.go:1167-1191 [handleGroupList], 1193-1217 [handleGroupUpdate]: errors are
    only printed. *)
Definition handle_list (w : write) (c : gclient) (from : bytes) (gl : GroupList) : out * gclient :=
  (fine, fst (update_list c from gl w)).

(** ** Group messages *)

(** strings.Index *)
Fixpoint index (sep s : bytes) : option nat :=
  if IniModel.has_prefix sep s then Some 0%nat
  else match s with [] => None | _ :: r => option_map S (index sep r) end.

(** strings.ToUpper: bytes if all are ASCII, otherwise strings.Map(unicode.ToUpper),
    which writes every rune anew, also the invalid ones.  [upper] is
    unicode.ToUpper beyond ASCII. *)
Definition up_ascii (c : N) : N := if in_range 97 122 c then c - 32 else c.
Definition up_rune (upper : N -> N) (r : N) : N := if r <? 128 then up_ascii r else upper r.
Definition to_upper (upper : N -> N) (s : bytes) : bytes :=
  if forallb (fun c => c <? 128) s then map up_ascii s
  else concat (map (fun r => encode_rune (up_rune upper r)) (runes s)).

(** push.go:1263-1279: the text with the reader's nick in colour; None is a slice
    out of range.  [nick] is the reader's own nick, [on] and [off]
    are MAGENTABOLD and RESET (mainwindow.go:44-58), which a library provides. *)
Definition highlight (upper : N -> N) (on off nick : bytes) (mode : N) (msg : bytes) : option bytes :=
  match index (to_upper upper nick) (to_upper upper msg) with
  | Some x =>
      if mode =? 0 then
        if Nat.leb (x + length nick) (length msg)
        then Some (firstn x msg ++ on ++ firstn (length nick) (skipn x msg) ++ off ++ skipn (x + length nick) msg)
        else None
      else Some msg
  | None => Some msg
  end.

(** push.go:1219-1296 [handleGroupMessage] *)
Definition handle_message (upper : N -> N) (on off nick : bytes) (c : gclient) (from : bytes) (gm : GroupMessage) : out * gclient :=
  match mget (c_groups c) (GroupMessage_Name gm) with
  | None => (error, c)
  | Some g =>
      if mem from (GroupList_Members g) then
        match highlight upper on off nick (GroupMessage_Mode gm) (GroupMessage_Message gm) with
        | Some s => (mkOut Fine [] (Some s), c)
        | None => (mkOut Crashed [] None, c)
        end
      else (fine, c)
  end.

(** * Commands *)

(** groupchat.go:86-121 [gcNew], whose two locked parts are one step here.  [st] is whether os.Stat finds something under a
    name that is not a valid group name. *)
Definition gc_new (me : bytes) (now : Z) (st : bool) (w : write) (c : gclient) (n : bytes) : out * gclient :=
  let exists_on_disk := if valid_name n then mhas (c_disk c) n || dir_name n else st in
  if exists_on_disk then (error, c)
  else if mhas (c_groups c) n then (error, c)
  else let (c', ok) := save_group (set_groups c (mset (c_groups c) n (mkGroupList n 0 now [me]))) n w in (done ok [], c').

(** groupchat.go:123-170 [gcInvite] after the nick has been looked up. *)
Definition gc_invite (me : bytes) (c : gclient) (n who : bytes) (nicks : list bytes) (draw : option N) (expires : Z)
    (o : out) (c' : gclient) : Prop :=
  match mget (c_groups c) n with
  | None => o = error /\ c' = c
  | Some g =>
      match admin g with
      | None => o = error /\ c' = c
      | Some a =>
          if negb (eqb a me) then o = error /\ c' = c
          else if mem who (GroupList_Members g) then o = error /\ c' = c
          else exists r f', invite_db_add (c_invites c) who (GroupList_Name g) nicks draw expires r f' /\ c' = set_invites c f' /\
               match r with
               | None => o = error
               | Some gi => o = mkOut Fine [(who, GInvite gi)] None
               end
      end
  end.

(** groupchat.go:172-223 [gcJoin] after the token has been parsed. *)
Definition gc_join (w : write) (c : gclient) (n : bytes) (token : N) (o : out) (c' : gclient) : Prop :=
  if mhas (c_groups c) n then o = error /\ c' = c
  else exists r, get_join (c_joins c) n token r /\
    match r with
    | None => o = error /\ c' = c
    | Some from =>
        let sent := [(from, GJoin (mkGroupJoin n token []))] in
        let (c1, ok) := save_group (set_groups c (mset (c_groups c) n (mkGroupList n 0 0 [from]))) n w in
        if negb ok then o = done false sent /\ c' = c1
        else exists b f', del_join (c_joins c1) n token b f' /\ c' = set_joins c1 f' /\ o = done b sent
    end.

(** groupchat.go:225-376 [gcKick] after the nick has been looked up. *)
Definition gc_kick (me : bytes) (now : Z) (c : gclient) (n who : bytes) : out * gclient :=
  match mget (c_groups c) n with
  | None => (error, c)
  | Some g =>
      match GroupList_Members g with
      | [] => (error, c)
      | a :: others =>
          if negb (eqb a me) then (error, c)
          else if eqb a who then (error, c)
          else
            let g' := mkGroupList (GroupList_Name g) (next (GroupList_Generation g)) now
                        (filter (fun m => negb (eqb m who)) (GroupList_Members g)) in
            let k := mkKick n g' 0 (length others) in
            (mkOut Fine (map (fun m => (m, GKick (mkGroupKick who (bs "you have been a bad boy!") false g'))) others) None,
             set_kicks c (c_kicks c ++ [k]))
      end
  end.

Fixpoint put_kick (i : nat) (k : kick) (l : list kick) : list kick :=
  match l with
  | [] => []
  | y :: r => match i with O => k :: r | S i' => y :: put_kick i' k r end
  end.

(** groupchat.go:304-362, the callback of the [i]-th kick. *)
Definition kick_acked (w : write) (c : gclient) (i : nat) : gclient :=
  match nth_error (c_kicks c) i with
  | None => c
  | Some k =>
      let k' := mkKick (q_name k) (q_new k) (S (q_got k)) (q_want k) in
      let c1 := set_kicks c (put_kick i k' (c_kicks c)) in
      if negb (Nat.eqb (q_got k') (q_want k')) then c1
      else if mhas (c_groups c1) (q_name k)
           then fst (save_group (set_groups c1 (mset (c_groups c1) (q_name k) (q_new k))) (q_name k) w)
           else c1
  end.

(** groupchat.go:396-432 [gcPart] *)
Definition gc_part (me : bytes) (c : gclient) (n : bytes) : out :=
  match mget (c_groups c) n with
  | None => error
  | Some g =>
      match admin g with
      | None => error
      | Some a => if eqb a me then error else mkOut Fine [(a, GPart (mkGroupPart n (bs "done here")))] None
      end
  end.

(** groupchat.go:434-494 [gcKill] *)
Definition gc_kill (me : bytes) (online rm : bool) (c : gclient) (n : bytes) : out * gclient :=
  if negb online then (error, c)
  else match mget (c_groups c) n with
       | None => (error, c)
       | Some g =>
           match GroupList_Members g with
           | [] => let (c', ok) := delete_group c n rm in (done ok [], c')
           | a :: others =>
               if negb (eqb a me) then (error, c)
               else let (c', ok) := delete_group c n rm in
                    (done ok (map (fun m => (m, GKill (mkGroupKill n (bs "group chat killed")))) others), c')
           end
       end.

(** groupchat.go:496-540 [gcMessage] *)
Definition gc_message (me : bytes) (c : gclient) (n msg : bytes) (mode : N) : out :=
  match mget (c_groups c) n with
  | None => error
  | Some g => mkOut Fine (map (fun m => (m, GMessage (mkGroupMessage n (GroupList_Generation g) msg mode)))
                            (filter (fun m => negb (eqb m me)) (GroupList_Members g))) None
  end.

(** zkclient.go:1941-1981 [loadGroupchat]: files in the order of their names. *)
Definition load_groups (disk : list (bytes * bytes)) : list (bytes * GroupList) :=
  fold_left (fun gs n =>
    match mget disk n with
    | None => gs
    | Some b => match dec GroupList_codec 0 b with
                | None => gs
                | Some (g, _) => if mhas gs (GroupList_Name g) then gs else mset gs (GroupList_Name g) g
                end
    end) (lex_sort (mkeys disk)) [].

(** * All events *)

Inductive event :=
| CNew (n : bytes) (now : Z) (st : bool) (w : write)
| CInvite (n who : bytes) (nicks : list bytes) (draw : option N) (expires : Z)
| CJoin (n : bytes) (token : N) (w : write)
| CKick (n who : bytes) (now : Z)
| CAcked (i : nat) (w : write)
| CPart (n : bytes)
| CForce (n : bytes) (rm : bool)                  (* groupchat.go:378-394 [gcPartForce] *)
| CKill (n : bytes) (online rm : bool)
| CMessage (n msg : bytes) (mode : N)
| RInvite (from : bytes) (gi : GroupInvite) (known : bool)
| RJoin (from : bytes) (gj : GroupJoin) (known : bytes -> bool) (w : write)
| RPart (from : bytes) (gp : GroupPart) (now : Z) (known : bytes -> bool) (w : write)
| RKick (from : bytes) (gk : GroupKick) (w : write) (rm : bool)
| RKill (from : bytes) (gk : GroupKill) (rm : bool)
| RList (from : bytes) (gl : GroupList) (w : write)
| RUpdate (from : bytes) (gu : GroupUpdate) (w : write)
| RMessage (from : bytes) (gm : GroupMessage)
| Restart.

(** The identity and nick of the client, unicode.ToUpper, and the colours. *)
Record self := mkSelf { i_id : bytes; i_nick : bytes; i_upper : N -> N; i_on : bytes; i_off : bytes }.

(** One event.  push.go:721-762 [handleGroupInvite] always returns nil. *)
Definition gstep (s : self) (c : gclient) (e : event) (o : out) (c' : gclient) : Prop :=
  let me := i_id s in
  match e with
  | CNew n now st w => (o, c') = gc_new me now st w c n
  | CInvite n who nicks draw exp => gc_invite me c n who nicks draw exp o c'
  | CJoin n t w => gc_join w c n t o c'
  | CKick n who now => (o, c') = gc_kick me now c n who
  | CAcked i w => o = fine /\ c' = kick_acked w c i
  | CPart n => o = gc_part me c n /\ c' = c
  | CForce n rm => let (c1, ok) := delete_group c n rm in o = done ok [] /\ c' = c1
  | CKill n online rm => (o, c') = gc_kill me online rm c n
  | CMessage n msg mode => o = gc_message me c n msg mode /\ c' = c
  | RInvite from gi known =>
      o = fine /\ if known then exists ok f', join_db_add (c_joins c) from gi ok f' /\ c' = set_joins c f' else c' = c
  | RJoin from gj known w => handle_join me known w c from gj o c'
  | RPart from gp now known w => (o, c') = handle_part me now known w c from gp
  | RKick from gk w rm => (o, c') = handle_kick me w rm c from gk
  | RKill from gk rm => (o, c') = handle_kill rm c from gk
  | RList from gl w => (o, c') = handle_list w c from gl
  | RUpdate from gu w => (o, c') = handle_list w c from (GroupUpdate_NewGroupList gu)
  | RMessage from gm => (o, c') = handle_message (i_upper s) (i_on s) (i_off s) (i_nick s) c from gm
  | Restart => o = fine /\ c' = mkGclient (load_groups (c_disk c)) (c_disk c) (c_invites c) (c_joins c) []
  end.

(** Everything that happened, newest first.  What follows a crash is not restricted
    to a restart, so there are more runs here than in reality. *)
Inductive grun (s : self) (c0 : gclient) : list (event * out) -> gclient -> Prop :=
| GRun_nil : grun s c0 [] c0
| GRun_cons h c e o c' : grun s c0 h c -> gstep s c e o c' -> grun s c0 ((e, o) :: h) c'.

Definition new_client : gclient := mkGclient [] [] None None [].
