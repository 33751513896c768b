(** Model of package zkidentity (/repo/zkidentity/zkidentity.go).

    Parameters: SHA-256, and ed25519 signing and verifying.  Key generation is a
    choice of key pairs, passed as arguments. *)
From Verif Require Import Base XdrModel RpcModel.

Section Crypto.
Variable sha256 : bytes -> bytes.
Variable sign : bytes -> bytes -> bytes.
Variable verify_sig : bytes -> bytes -> bytes -> bool.

(** zkidentity.go:112-117 and 149-154: the hashed fields. *)
Definition digest_input (p : PublicIdentity) : bytes :=
  PublicIdentity_Name p ++ PublicIdentity_Nick p ++ PublicIdentity_SigKey p ++
  PublicIdentity_Key p ++ PublicIdentity_Identity p.

(** zkidentity.go:148-159 Verify. *)
Definition verify (p : PublicIdentity) : bool :=
  if eqb (PublicIdentity_Digest p) (sha256 (digest_input p))
  then verify_sig (PublicIdentity_SigKey p) (PublicIdentity_Digest p) (PublicIdentity_Signature p)
  else false.

(** zkidentity.go:110-128 RecalculateDigest; the error case still leaves the new
    digest and signature in place, but no caller uses the identity then. *)
Definition recalculate_digest (fi : FullIdentity) : res unit FullIdentity :=
  let p := FullIdentity_Public fi in
  let d := sha256 (digest_input p) in
  let s := sign (FullIdentity_PrivateSigKey fi) d in
  let p' := mkPublicIdentity (PublicIdentity_Name p) (PublicIdentity_Nick p)
              (PublicIdentity_SigKey p) (PublicIdentity_Key p) (PublicIdentity_Identity p) d s in
  if verify p' then Ok (mkFullIdentity p' (FullIdentity_PrivateSigKey fi) (FullIdentity_PrivateKey fi))
  else Err tt.

(** zkidentity.go:74-104 New with the generated keys. *)
Definition new_identity (sig_pub sig_priv ntru_pub ntru_priv name nick : bytes) : res unit FullIdentity :=
  recalculate_digest
    (mkFullIdentity
       (mkPublicIdentity name nick sig_pub ntru_pub (sha256 ntru_pub) (repeat 0%N 32) (repeat 0%N 64))
       sig_priv ntru_priv).

(** zkidentity.go:130-138 SignMessage and VerifyMessage. *)
Definition sign_message (fi : FullIdentity) (m : bytes) : bytes := sign (FullIdentity_PrivateSigKey fi) m.
Definition verify_message (p : PublicIdentity) (m s : bytes) : bool :=
  verify_sig (PublicIdentity_SigKey p) m s.

(** zkidentity.go:161-169 Marshal, 171-184 UnmarshalPublicIdentity. *)
Definition marshal_public (p : PublicIdentity) : bytes := enc PublicIdentity_codec p.
Definition unmarshal_public (data : bytes) : res unit PublicIdentity :=
  match dec PublicIdentity_codec 0 data with
  | None => Err tt
  | Some (p, _) => if verify p then Ok p else Err tt
  end.

(** zkidentity.go:53-61 Marshal, 63-73 UnmarshalFullIdentity. *)
Definition marshal_full (fi : FullIdentity) : bytes := enc FullIdentity_codec fi.
Definition unmarshal_full (data : bytes) : res unit FullIdentity :=
  match dec FullIdentity_codec 0 data with Some (fi, _) => Ok fi | None => Err tt end.

(** zkclient/zkclient.go:1983-1995: name and nick are set by the user before the
    digest is recalculated. *)
Definition rename (fi : FullIdentity) (name nick : bytes) : FullIdentity :=
  let p := FullIdentity_Public fi in
  mkFullIdentity
    (mkPublicIdentity name nick (PublicIdentity_SigKey p) (PublicIdentity_Key p)
       (PublicIdentity_Identity p) (PublicIdentity_Digest p) (PublicIdentity_Signature p))
    (FullIdentity_PrivateSigKey fi) (FullIdentity_PrivateKey fi).
End Crypto.
