(** Model of /repo/tools/zkexport/zkexport.go and /repo/tools/zkimport/zkimport.go:
    records of servers and clients written as text, and read from it.

    Command lines, paths, input and output errors and what is printed for people are
    left out.  Importing a server record into a client is in PinModel ([Import]). *)
From Verif Require Import Base IniModel IniMemProofs IniFileProofs HexModel XdrModel RpcModel StrconvModel ServerDbModel AcctModel PinModel.
Local Open Scope N_scope.

(** * zkexport *)

(** zkexport.go:84-113 fetchServerRecord and 116-148 zkserver: what is printed.  The
    identity and the certificate are read from files. *)
Definition export_server (r : ServerRecord) : bytes := b64_encode (enc ServerRecord_codec r) ++ [10].

(** zkexport.go:152-163 fetchClientIdentity, 166-178 fetchClientFullIdentity,
    182-198 fetchClientRecord and 201-221 zkclient; [f] is myserver.ini.  None: an
    error. *)
Definition export_client (f : bytes) : option bytes :=
  match parse f with
  | None => None
  | Some t =>
      match parse_my_identity (opened t false) with
      | Some me => Some (b64_encode (enc ClientRecord_codec (mkClientRecord (FullIdentity_Public me))) ++ [10])
      | None => None
      end
  end.

(** * zkimport *)

(** base64.NewDecoder: line breaks are dropped, then groups of four are decoded one
    after the other; this is all that can be read before an error or the end. *)
Fixpoint b64_prefix (l : bytes) : bytes :=
  match l with
  | c1 :: c2 :: c3 :: c4 :: r =>
      match b64_value c1, b64_value c2 with
      | Some v1, Some v2 =>
          match b64_value c3 with
          | None => if eqb c3 61 && eqb c4 61 then [(v1 * 262144 + v2 * 4096) / 65536] else []
          | Some v3 =>
              match b64_value c4 with
              | None => if eqb c4 61 then let n := v1 * 262144 + v2 * 4096 + v3 * 64 in [n / 65536; (n / 256) mod 256] else []
              | Some v4 =>
                  let n := v1 * 262144 + v2 * 4096 + v3 * 64 + v4 in
                  n / 65536 :: (n / 256) mod 256 :: n mod 256 :: b64_prefix r
              end
          end
      | _, _ => []
      end
  | _ => []
  end.
Definition unwrapped (text : bytes) : bytes := filter (fun c => negb (eqb c 10 || eqb c 13)) text.

Inductive blob := FromServer (r : ServerRecord) | FromClient (r : ClientRecord).

(** zkimport.go:29-59 readBlob *)
Definition read_blob (text : bytes) : option blob :=
  let b := b64_prefix (unwrapped text) in
  match dec ServerRecord_codec 0 b with
  | Some (r, _) => Some (FromServer r)
  | None =>
      match dec ClientRecord_codec 0 b with
      | Some (r, _) => Some (FromClient r)
      | None => None
      end
  end.

(** zkimport.go:61-121 importClientRecord on a valid server directory with the
    accounts [s]. *)
Definition import_client (s : store) (force : bool) (r : ClientRecord) (ok : bool) (s' : store) : Prop :=
  let pid := ClientRecord_PublicIdentity r in
  if mhas s (hex_encode (PublicIdentity_Identity pid)) then create s pid force ok s'
  else ok = false /\ s' = s.
