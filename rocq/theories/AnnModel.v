(** Model of what a client says about the members of a group when lists of members
    arrive, /repo/zkclient/push.go.  What the lists do to the groups is GroupModel.v. *)
From Verif Require Import Base XdrModel RpcModel AddrModel GroupModel WinModel.
Local Open Scope N_scope.

(** How somebody is named: oneself, a contact by its nick, anybody else by the identity. *)
Inductive named := Self | Nick (n : bytes) | Unknown (i : bytes).

(** What is printed: on the console, or in the window that is active when the line is
    drawn (PrintfT with -1), or in the group's window. *)
Inductive said :=
| Received                          (* "Received new group chat list" or "... update" *)
| Opened                            (* z.query: the group's window comes to the front *)
| Minus (w : named)                 (* on the console *)
| Plus (w : named)
| HasLeft (w : named)               (* in the active window *)
| HasJoined (w : named)
| Missing (i : bytes)               (* an unknown identity, on the console *)
| NoWarning                         (* "could not warn about missing keys" *)
| NoUpdate                          (* "could not update group chat list" *)
| Gone (parted : bool) (w : named) (why : bytes)   (* on the console: "left" or "was kicked" *)
| GoneHere (parted : bool) (w : named) (why : bytes). (* the same in the group's window *)

(** push.go:1049-1086 [diffGroupList]: the members that only the old list has, and those
    that only the new one has; bytes.Equal and goto are [mem]. *)
Definition minus (og ng : list bytes) : list bytes := filter (fun m => negb (mem m ng)) og.
Definition plus (og ng : list bytes) : list bytes := filter (fun m => negb (mem m og)) ng.

(** push.go:1097-1115 and 1117-1137, the bodies of the loops of [diffGroupListPrint]; [name] is
    FindIdentity and the nick.  An unknown member is only mentioned on the console. *)
Definition name_it (me : bytes) (name : bytes -> option bytes) (m : bytes) : named :=
  if eqb m me then Self else match name m with Some n => Nick n | None => Unknown m end.
Definition say_minus (w : named) : list said :=
  match w with Unknown _ => [Minus w] | _ => [Minus w; HasLeft w] end.
Definition say_plus (w : named) : list said :=
  match w with Unknown _ => [Plus w] | _ => [Plus w; HasJoined w] end.

(** push.go:1088-1139 [diffGroupListPrint]: nothing for an unknown group. *)
Definition say_diff (me : bytes) (name : bytes -> option bytes) (c : gclient) (gl : GroupList) : list said :=
  match mget (c_groups c) (GroupList_Name gl) with
  | None => []
  | Some g =>
      Opened ::
      flat_map (fun m => say_minus (name_it me name m)) (minus (GroupList_Members g) (GroupList_Members gl)) ++
      flat_map (fun m => say_plus (name_it me name m)) (plus (GroupList_Members g) (GroupList_Members gl))
  end.

(** push.go:1141-1165 [warnGroupListMissingKeys]: what is printed, and whether the result is an
    error, which depends on the last member other than oneself.  The header line is left
    out. *)
Fixpoint warn (me : bytes) (name : bytes -> option bytes) (err : bool) (l : list bytes) : list said * bool :=
  match l with
  | [] => ([], err)
  | m :: r =>
      if eqb m me then warn me name err r
      else match name m with
           | Some _ => warn me name false r
           | None => let (x, e) := warn me name true r in (Missing m :: x, e)
           end
  end.

(** push.go:1167-1191 [handleGroupList] and 1193-1217 [handleGroupUpdate]: who sent the list is
    asked at the end ([update_list]).  That the three parts lock one after another is
    left out. *)
Definition hear_list (me : bytes) (name : bytes -> option bytes) (w : write) (c : gclient) (from : bytes) (gl : GroupList)
    : list said * gclient :=
  let (miss, err) := warn me name false (GroupList_Members gl) in
  let (c', ok) := update_list c from gl w in
  (Received :: say_diff me name c gl ++ miss ++ (if err then [NoWarning] else []) ++ (if ok then [] else [NoUpdate]), c').

(** push.go:939-1010 in [handleGroupKick], once the sender is the administrator: whom the
    message names, on the console and in the group's window if there is one ([open]);
    the new list itself is not looked at. *)
Definition hear_kick (me : bytes) (name : bytes -> option bytes) (open : bool) (w : write) (rm : bool) (c : gclient) (from : bytes)
    (gk : GroupKick) : list said * gclient :=
  let '(o, c') := handle_kick me w rm c from gk in
  match mget (c_groups c) (GroupList_Name (GroupKick_NewGroupList gk)) with
  | None => ([], c')
  | Some g =>
      match admin g with
      | None => ([], c')
      | Some a =>
          if negb (eqb a from) then ([], c')
          else let who := name_it me name (GroupKick_Member gk) in
               (Gone (GroupKick_Parted gk) who (GroupKick_Reason gk) ::
                (if open then [GoneHere (GroupKick_Parted gk) who (GroupKick_Reason gk)] else []), c')
      end
  end.

(** push.go:858 and 891-910 in [handleGroupPart], when the group has been saved and the sender
    is a contact: on the console with the nick, in the group's window with the variable
    nick, which is never set. *)
Definition hear_part (me : bytes) (now : Z) (name : bytes -> option bytes) (open : bool) (w : write) (c : gclient) (from : bytes)
    (gp : GroupPart) : list said * gclient :=
  let known m := match name m with Some _ => true | None => false end in
  let '(o, c') := handle_part me now known w c from gp in
  match o_result o, name from with
  | Fine, Some n =>
      (Gone true (Nick n) (GroupPart_Reason gp) :: (if open then [GoneHere true (Nick []) (GroupPart_Reason gp)] else []), c')
  | _, _ => ([], c')
  end.

(** ** The windows *)

(** zkclient.go:466-497 query as part of a handler; nothing else happens meanwhile.  See
    [Query] in WinModel.v. *)
Definition query (me : PublicIdentity) (s : st) (n : bytes) : st :=
  match first (fun v => eqb (w_nick v) n) (s_wins s) with
  | Some k => enqueue s [Focus k]
  | None =>
      match group_conversation (s_world s) (s_wins s) n with
      | Some r => enqueue (opened s r) [Focus (snd (fst r))]
      | None =>
          match book_conversation me (s_world s) (s_wins s) n with
          | Some r => enqueue (opened s r) [Focus (snd (fst r))]
          | None => enqueue s [Print None Note]
          end
      end
  end.

(** What [said] does to the windows; [g] is the group.  The window of the group for
    [GoneHere] is the first whose identity has that nick (push.go:996-1010). *)
Definition draw (me : PublicIdentity) (g : bytes) (s : st) (x : said) : st :=
  match x with
  | Opened => query me s g
  | HasLeft _ | HasJoined _ => enqueue s [Print None Note]
  | GoneHere _ _ _ =>
      match first (fun v => eqb (nick (w_pub v)) g) (s_wins s) with
      | Some k => enqueue s [Print (Some k) Note]
      | None => s
      end
  | _ => enqueue s [Print (Some O) Note]
  end.
Definition draws (me : PublicIdentity) (g : bytes) (s : st) (l : list said) : st := fold_left (draw me g) l s.
