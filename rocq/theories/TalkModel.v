(** Model of a conversation in group chats: any number of clients, each with the
    groups of GroupModel.v, and the messages between them.

    zkclient/groupchat.go:496-540 [gcMessage], push.go:1219-1296
    [handleGroupMessage], and every other event of a group (GroupModel.v).
    The messages of one client to another arrive in the order in which they were
    scheduled (msg.go:207-236 [scheduleCRPCCB], [scheduleCRPC], all of a group with
    high priority; C71 proves it), and every one of them may be lost instead: to a
    contact that is deactivated, without a key exchange, in a crash.  Who a message
    is from is certain (C15).
    Clients that are not [honest] run another program: they send whatever they like
    and do with what arrives whatever they like. *)
From Verif Require Import Base XdrModel RpcModel CrpcModel GroupModel.
Local Open Scope N_scope.

(** Something said: by whom, in which group, what, how (rpc.MessageMode), and the
    members of the group on the list of the speaker. *)
Record saying := mkSaying { y_by : bytes; y_group : bytes; y_text : bytes; y_mode : N; y_members : list bytes }.

(** Something shown in the window of a group: to whom, in which group, as said by
    whom, and the text. *)
Record showing := mkShowing { w_to : bytes; w_group : bytes; w_by : bytes; w_text : bytes }.

Record world := mkWorld {
  t_clients : bytes -> gclient;                        (* by identity *)
  t_channel : bytes -> bytes -> list crpc_payload;     (* on the way, oldest first *)
  t_said : list saying;                                (* so far, oldest first *)
  t_shown : list showing }.

(** What the user and the server of a client do, rather than other clients. *)
Definition own (e : event) : bool :=
  match e with
  | CNew _ _ _ _ | CInvite _ _ _ _ _ | CJoin _ _ _ | CKick _ _ _ | CAcked _ _ | CPart _ | CForce _ _ | CKill _ _ _
  | CMessage _ _ _ | Restart => true
  | _ => false
  end.

(** push.go:515-641, the switch of [handlePush]: the handler of a message of [from]. *)
Inductive comes (from : bytes) : crpc_payload -> event -> Prop :=
| Co_invite gi known : comes from (GInvite gi) (RInvite from gi known)
| Co_join gj known w : comes from (GJoin gj) (RJoin from gj known w)
| Co_part gp now known w : comes from (GPart gp) (RPart from gp now known w)
| Co_kick gk w rm : comes from (GKick gk) (RKick from gk w rm)
| Co_kill gk rm : comes from (GKill gk) (RKill from gk rm)
| Co_list gl w : comes from (GList gl) (RList from gl w)
| Co_update gu w : comes from (GUpdate gu) (RUpdate from gu w)
| Co_message gm : comes from (GMessage gm) (RMessage from gm).

Definition about_groups (p : crpc_payload) : bool :=
  match p with PM _ | ChNew _ | Ch _ | Janitor _ => false | _ => true end.

Definition put {A} (f : bytes -> A) (x : bytes) (a : A) : bytes -> A := fun y => if eqb y x then a else f y.
Definition put2 {A} (f : bytes -> bytes -> A) (x y : bytes) (a : A) : bytes -> bytes -> A :=
  fun u v => if eqb u x && eqb v y then a else f u v.

(** The channels after [x] has sent [out]. *)
Definition post (ch : bytes -> bytes -> list crpc_payload) (x : bytes) (sent : list (bytes * crpc_payload)) :
    bytes -> bytes -> list crpc_payload :=
  fun u v => if eqb u x then ch u v ++ map snd (filter (fun s => eqb (fst s) v) sent) else ch u v.

(** What an event at [x] adds to what has been said; the window of a group that the
    client does not have shows an error instead. *)
Definition speaks (x : bytes) (c : gclient) (e : event) : list saying :=
  match e with
  | CMessage n msg mode =>
      match mget (c_groups c) n with Some g => [mkSaying x n msg mode (GroupList_Members g)] | None => [] end
  | _ => []
  end.

(** What the arrival of a message adds to what has been shown. *)
Definition shows (y from : bytes) (p : crpc_payload) (o : out) : list showing :=
  match p, o_shown o with
  | GMessage gm, Some t => [mkShowing y (GroupMessage_Name gm) from t]
  | _, _ => []
  end.

Inductive label :=
| Own (x : bytes) (e : event)
| Arrives (x y : bytes) (p : crpc_payload)
| Lost (x y : bytes) (p : crpc_payload)
| Forged (x y : bytes) (p : crpc_payload).

Section World.
Variables (who : bytes -> self) (honest : bytes -> bool).

Inductive happens (t : world) : label -> world -> Prop :=
| H_own x e o c' : honest x = true -> own e = true -> gstep (who x) (t_clients t x) e o c' ->
    happens t (Own x e) (mkWorld (put (t_clients t) x c') (post (t_channel t) x (o_sent o))
                                 (t_said t ++ speaks x (t_clients t x) e) (t_shown t))
| H_arrives x y p q e o c' : honest y = true -> t_channel t x y = p :: q -> comes x p e ->
    gstep (who y) (t_clients t y) e o c' ->
    happens t (Arrives x y p) (mkWorld (put (t_clients t) y c') (post (put2 (t_channel t) x y q) y (o_sent o))
                                       (t_said t) (t_shown t ++ shows y x p o))
| H_other x y p q : honest y = true -> t_channel t x y = p :: q -> about_groups p = false ->
    happens t (Arrives x y p) (mkWorld (t_clients t) (put2 (t_channel t) x y q) (t_said t) (t_shown t))
| H_lost x y a p b : t_channel t x y = a ++ p :: b ->
    happens t (Lost x y p) (mkWorld (t_clients t) (put2 (t_channel t) x y (a ++ b)) (t_said t) (t_shown t))
| H_forged x y p : honest x = false ->
    happens t (Forged x y p) (mkWorld (t_clients t) (put2 (t_channel t) x y (t_channel t x y ++ [p])) (t_said t) (t_shown t)).

(** Everything that may happen, as long as [P] allows it. *)
Inductive goes (P : world -> label -> Prop) (t0 : world) : world -> Prop :=
| G_start : goes P t0 t0
| G_step t l t' : goes P t0 t -> P t l -> happens t l t' -> goes P t0 t'.

End World.

(** Whatever the clients hold, and nothing on the way. *)
Definition quiet (cl : bytes -> gclient) : world := mkWorld cl (fun _ _ => []) [] [].
