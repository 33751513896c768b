(** Model of the settings of the server (zkserver/settings/settings.go), of the
    welcome it sends after a key exchange (zkserver/zkserver.go [welcome]) and of
    what the client does with it (zkclient/zkclient.go [welcomePhase]). *)
From Verif Require Import Base IniModel XdrModel RpcModel StrconvModel TagStackModel.
Local Open Scope N_scope.

(** * Numbers and booleans in text *)

(** strconv.FormatInt(z, 10) *)
Definition format_int (z : Z) : bytes :=
  if (z <? 0)%Z then 45 :: format_uint (Z.to_N (- z)) else format_uint (Z.to_N z).

(** strconv.FormatBool and strconv.ParseBool *)
Definition format_bool (b : bool) : bytes := if b then bs "true" else bs "false".
Definition parse_bool (s : bytes) : option bool :=
  if mem s [bs "1"; bs "t"; bs "T"; bs "TRUE"; bs "true"; bs "True"] then Some true
  else if mem s [bs "0"; bs "f"; bs "F"; bs "FALSE"; bs "false"; bs "False"] then Some false
  else None.

(** * Settings of the server *)

(** settings.go:17-36.  Names of files and addresses, the time format and the
    profiler are left out: any value is accepted for them. *)
Record sets := mkSets {
  g_identify : bool; g_policy : bytes; g_directory : bool;
  g_attach : N; g_chunk : N; g_msg : N;
  g_debug : bool; g_trace : bool }.

(** settings.go:43-64 with rpc/rpc.go:157, 163 and 169 *)
Definition default_sets : sets :=
  mkSets false (bs "no") false (10 * 1024 * 1024) (256 * 1024) (256 * 1024 + 1024) false false.

(** ini.File.Get *)
Definition conf_get (t : tables) (section key : bytes) : option bytes :=
  match mget t section with Some s => mget s key | None => None end.

(** strings.ToLower for the comparison with yes and no.  No letter outside ASCII
    has one of their letters as its lower case. *)
Definition lower (c : N) : N := if (65 <=? c) && (c <=? 90) then c + 32 else c.

(** settings.go:182-199 [iniBool]: None is an error; a missing value keeps [old]. *)
Definition ini_bool (t : tables) (section key : bytes) (old : bool) : option bool :=
  match conf_get t section key with
  | None => Some old
  | Some v => if eqb (map lower v) (bs "yes") then Some true
              else if eqb (map lower v) (bs "no") then Some false else None
  end.

(** settings.go:134-150 *)
Definition ini_uint (t : tables) (key : bytes) (old : N) : option N :=
  match conf_get t [] key with None => Some old | Some v => parse_uint v end.

(** settings.go:108-119 *)
Definition ini_policy (t : tables) (old : bytes) : option bytes :=
  match conf_get t [] (bs "createpolicy") with
  | None => Some old
  | Some v => if mem v [bs "yes"; bs "no"; bs "token"] then Some v else None
  end.

Definition obind {A B} (x : option A) (f : A -> option B) : option B :=
  match x with Some a => f a | None => None end.

(** settings.go:68-180 [Load].  os/user is assumed to work. *)
Definition load_sets (content : bytes) (s : sets) : option sets :=
  obind (parse content) (fun t =>
  obind (ini_bool t [] (bs "allowidentify") (g_identify s)) (fun i =>
  obind (ini_policy t (g_policy s)) (fun p =>
  obind (ini_bool t [] (bs "directory") (g_directory s)) (fun d =>
  obind (ini_uint t (bs "maxattachmentsize") (g_attach s)) (fun a =>
  obind (ini_uint t (bs "maxchunksize") (g_chunk s)) (fun c =>
  obind (ini_bool t (bs "log") (bs "debug") (g_debug s)) (fun db =>
  obind (ini_bool t (bs "log") (bs "trace") (g_trace s)) (fun tr =>
  Some (mkSets i p d a c (g_msg s) db tr))))))))).

(** * The welcome *)

(** rpc/rpc.go:113 *)
Definition protocol_version : Z := 9.

(** rpc/rpc.go:142-180 and 50-51, the constants *)
Definition k_tagdepth : bytes := bs "tagdepth".
Definition k_motd : bytes := bs "motd".
Definition k_attach : bytes := bs "maxattachmentsize".
Definition k_chunk : bytes := bs "maxchunksize".
Definition k_msg : bytes := bs "maxmsgsize".
Definition k_time : bytes := bs "servertime".
Definition k_directory : bytes := bs "directory".
Definition cmd_welcome : bytes := bs "welcome".
Definition cmd_unwelcome : bytes := bs "unwelcome".

(** zkserver.go:161-188 with rpc/rpc.go:182-235: the list SupportedServerProperties
    with its values filled in; [motd] is the content of the file or empty.  All
    connections fill in the same array; two doing so at the same time are left
    out. *)
Definition server_properties (s : sets) (now : Z) (motd : bytes) : list ServerProperty :=
  [ mkServerProperty k_tagdepth (format_uint 32) true;
    mkServerProperty k_attach (format_uint (g_attach s)) true;
    mkServerProperty k_chunk (format_uint (g_chunk s)) true;
    mkServerProperty k_msg (format_uint (g_msg s)) true;
    mkServerProperty k_time (format_int now) true;
    mkServerProperty k_directory (format_bool (g_directory s)) true;
    mkServerProperty k_motd motd false ].

(** zkserver.go:190-207 [welcome]: what is given to kx.Write.  The field ServerTime
    stays zero. *)
Definition server_welcome (s : sets) (now : Z) (motd : bytes) : bytes :=
  enc Message_codec (mkMessage cmd_welcome 0 false 0) ++
  enc Welcome_codec (mkWelcome protocol_version 0 (server_properties s now motd)).

(** zkserver.go:131-152 [unwelcome] *)
Definition server_unwelcome (reason : bytes) : bytes :=
  enc Message_codec (mkMessage cmd_unwelcome 0 false 0) ++
  enc Unwelcome_codec (mkUnwelcome protocol_version reason).

(** * The client *)

(** zkclient.go:834-841, the local variables *)
Record seen := mkSeen { v_td : Z; v_pt : Z; v_cs : N; v_ms : N; v_as : N; v_dir : bool }.
Definition seen0 : seen := mkSeen (-1) (-1) 0 0 0 false.

(** zkclient.go:848-898, one property; None is an error. *)
Definition see (v : seen) (p : ServerProperty) : option seen :=
  let k := ServerProperty_Key p in
  let x := ServerProperty_Value p in
  if eqb k k_tagdepth then obind (parse_int x) (fun z => Some (mkSeen z (v_pt v) (v_cs v) (v_ms v) (v_as v) (v_dir v)))
  else if eqb k k_time then obind (parse_int x) (fun z => Some (mkSeen (v_td v) z (v_cs v) (v_ms v) (v_as v) (v_dir v)))
  else if eqb k k_chunk then obind (parse_uint x) (fun n => Some (mkSeen (v_td v) (v_pt v) n (v_ms v) (v_as v) (v_dir v)))
  else if eqb k k_msg then obind (parse_uint x) (fun n => Some (mkSeen (v_td v) (v_pt v) (v_cs v) n (v_as v) (v_dir v)))
  else if eqb k k_attach then obind (parse_uint x) (fun n => Some (mkSeen (v_td v) (v_pt v) (v_cs v) (v_ms v) n (v_dir v)))
  else if eqb k k_motd then Some v
  else if eqb k k_directory then obind (parse_bool x) (fun b => Some (mkSeen (v_td v) (v_pt v) (v_cs v) (v_ms v) (v_as v) b))
  else None.
Fixpoint see_all (v : seen) (l : list ServerProperty) : option seen :=
  match l with [] => Some v | p :: r => obind (see v p) (fun v' => see_all v' r) end.

(** The fields of ZKC that welcomePhase sets (zkclient.go:940-947). *)
Record limits := mkLimits { n_tags : tagstack; n_callbacks : nat; n_chunk : N; n_msg : N; n_attach : N; n_directory : bool }.

(** How welcomePhase ends: online; an error; an error that also sets z.offline, so
    that the client does not connect again; a panic. *)
Inductive welcomed := WOnline (l : limits) (w : Welcome) | WRefused | WOffline (reason : bytes) | WPanic.

(** zkclient.go:900-949 *)
Definition go_on (v : seen) (w : Welcome) : welcomed :=
  if (v_td v =? -1)%Z then WRefused
  else if (32 <? v_td v)%Z then WRefused
  else if (v_pt v =? -1)%Z then WRefused
  else if v_as v =? 0 then WRefused
  else if v_cs v =? 0 then WRefused
  else if v_ms v =? 0 then WRefused
  else if v_ms v <? v_cs v then WRefused
  else match ts_new (v_td v) with
       | Ok t => WOnline (mkLimits t (Z.to_nat (v_td v)) (v_cs v) (v_ms v) (v_as v) (v_dir v)) w
       | _ => WPanic
       end.

(** zkclient.go:776-949 [welcomePhase] on what kx.Read returned. *)
Definition welcome_phase (cmd : bytes) : welcomed :=
  match dec Message_codec 0 cmd with
  | None => WRefused
  | Some (m, r) =>
      if eqb (Message_Command m) cmd_welcome then
        match dec Welcome_codec 0 r with
        | None => WRefused
        | Some (w, _) =>
            if negb (Welcome_Version w =? protocol_version)%Z then WRefused
            else match see_all seen0 (Welcome_Properties w) with
                 | None => WRefused
                 | Some v => go_on v w
                 end
        end
      else if eqb (Message_Command m) cmd_unwelcome then
        match dec Unwelcome_codec 0 r with
        | None => WRefused
        | Some (u, _) => WOffline (Unwelcome_Reason u)
        end
      else WRefused
  end.
