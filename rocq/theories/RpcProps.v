(** C46, C41 (composition) and C49: messages and files decode to what was encoded. *)
From Verif Require Import Base XdrModel XdrProofs RpcModel RpcProofs CrpcModel CrpcProofs.

(** * C46: the XDR codecs

    [faithful c ok] (XdrProofs.v) says: decoding an encoding followed by anything
    gives the value and leaves what follows; whatever decodes successfully fits
    the field limits and uses as many bytes as its own encoding; and an encoding
    cut short is refused. *)

Ltac split_faithful :=
  first [ match goal with |- _ /\ _ => split end
        | apply good_faithful; first
          [ apply good_CreateAccount | apply good_Message | apply good_Acknowledge | apply good_Unwelcome | apply good_ServerProperty | apply good_Welcome | apply good_CreateAccountReply | apply good_Push | apply good_Cache | apply good_Proxy | apply good_ProxyReply | apply good_ProxyCmd | apply good_Rendezvous | apply good_RendezvousReply | apply good_RendezvousPull | apply good_RendezvousPullReply | apply good_IdentityFind | apply good_IdentityFindReply | apply good_KeyExchange | apply good_IdentityKX | apply good_KX | apply good_CRPC | apply good_PrivateMessage | apply good_JanitorMessage | apply good_GroupInvite | apply good_GroupJoin | apply good_GroupPart | apply good_GroupKill | apply good_GroupList | apply good_GroupKick | apply good_GroupUpdate | apply good_GroupMessage | apply good_ChunkNew | apply good_Chunk | apply good_PublicIdentity | apply good_FullIdentity | apply good_DiskMessage | apply good_ServerRecord | apply good_ClientRecord | apply good_SavedMessageKey | apply good_SavedKeys | apply good_RatchetState ] ].

(** Messages between client and server. *)
Theorem C46_prpc :
  faithful CreateAccount_codec CreateAccount_ok /\
  faithful Message_codec Message_ok /\
  faithful Acknowledge_codec Acknowledge_ok /\
  faithful Unwelcome_codec Unwelcome_ok /\
  faithful ServerProperty_codec ServerProperty_ok /\
  faithful Welcome_codec Welcome_ok /\
  faithful CreateAccountReply_codec CreateAccountReply_ok /\
  faithful Push_codec Push_ok /\
  faithful Cache_codec Cache_ok /\
  faithful Proxy_codec Proxy_ok /\
  faithful ProxyReply_codec ProxyReply_ok /\
  faithful ProxyCmd_codec ProxyCmd_ok /\
  faithful Rendezvous_codec Rendezvous_ok /\
  faithful RendezvousReply_codec RendezvousReply_ok /\
  faithful RendezvousPull_codec RendezvousPull_ok /\
  faithful RendezvousPullReply_codec RendezvousPullReply_ok /\
  faithful IdentityFind_codec IdentityFind_ok /\
  faithful IdentityFindReply_codec IdentityFindReply_ok.
Proof.
  repeat split_faithful.
Qed.
Print Assumptions C46_prpc.

(** Messages between clients. *)
Theorem C46_crpc :
  faithful KeyExchange_codec KeyExchange_ok /\
  faithful IdentityKX_codec IdentityKX_ok /\
  faithful KX_codec KX_ok /\
  faithful CRPC_codec CRPC_ok /\
  faithful PrivateMessage_codec PrivateMessage_ok /\
  faithful JanitorMessage_codec JanitorMessage_ok /\
  faithful GroupInvite_codec GroupInvite_ok /\
  faithful GroupJoin_codec GroupJoin_ok /\
  faithful GroupPart_codec GroupPart_ok /\
  faithful GroupKill_codec GroupKill_ok /\
  faithful GroupList_codec GroupList_ok /\
  faithful GroupKick_codec GroupKick_ok /\
  faithful GroupUpdate_codec GroupUpdate_ok /\
  faithful GroupMessage_codec GroupMessage_ok /\
  faithful ChunkNew_codec ChunkNew_ok /\
  faithful Chunk_codec Chunk_ok.
Proof.
  repeat split_faithful.
Qed.
Print Assumptions C46_crpc.

(** Identities and files. *)
Theorem C46_file :
  faithful PublicIdentity_codec PublicIdentity_ok /\
  faithful FullIdentity_codec FullIdentity_ok /\
  faithful DiskMessage_codec DiskMessage_ok /\
  faithful ServerRecord_codec ServerRecord_ok /\
  faithful ClientRecord_codec ClientRecord_ok /\
  faithful SavedMessageKey_codec SavedMessageKey_ok /\
  faithful SavedKeys_codec SavedKeys_ok /\
  faithful RatchetState_codec RatchetState_ok.
Proof.
  repeat split_faithful.
Qed.
Print Assumptions C46_file.

(** A message header followed by any payload: the header decodes, and what is left
    decodes to the payload (zkserver.go:101-112 and the receiving loops). *)
Theorem C46_framed : forall {A} (c : codec A) ok lim (h : Message) (x : A),
  faithful c ok -> Message_ok lim h -> ok lim x ->
  exists rest, dec Message_codec lim (enc Message_codec h ++ enc c x) = Some (h, rest) /\
    dec c lim rest = Some (x, []).
Proof.
  intros A c ok lim h x (R & _) Hh Hx. exists (enc c x). split.
  - now apply good_Message.
  - rewrite <- (app_nil_r (enc c x)). now apply R.
Qed.
Print Assumptions C46_framed.

(** The layout of one message, byte by byte. *)
Definition msg1 := mkMessage (bs "ping") (-2) true 31.
Example msg1_bytes : enc Message_codec msg1 =
  [0;0;0;4; 112;105;110;103; 255;255;255;255;255;255;255;254; 0;0;0;1; 0;0;0;31]%N.
Proof. reflexivity. Qed.
Example msg1_ok : Message_ok 10 msg1 /\ ~ Message_ok 3 msg1.
Proof.
  split.
  - repeat split; vm_compute; intuition congruence.
  - intros [[_ [H|H]] _]; vm_compute in H; intuition congruence.
Qed.
Example msg1_limited : dec Message_codec 3 (enc Message_codec msg1) = None.
Proof. reflexivity. Qed.
Definition glist1 := mkGroupList (bs "ab") 7 (-1) [repeat 9%N 32; repeat 8%N 32].
Example glist1_ok : GroupList_ok 64 glist1 /\ ~ GroupList_ok 63 glist1.
Proof.
  split.
  - split; [|split; [|split]]; try (repeat split; vm_compute; intuition congruence).
    split; [vm_compute; congruence|]. split; [right; vm_compute; congruence|].
    repeat constructor.
  - intros (_ & _ & _ & (_ & [H|H] & _)); vm_compute in H; intuition congruence.
Qed.
Example glist1_round :
  dec GroupList_codec 64 (enc GroupList_codec glist1 ++ [1;2;3]%N) = Some (glist1, [1;2;3]%N) /\
  dec GroupList_codec 63 (enc GroupList_codec glist1) = None.
Proof. split; reflexivity. Qed.

(** * C41: client to client messages *)

(** With a correct zlib, what crpc composes is received as the same payload, of
    the same type, with the same time stamp, compressed or not. *)
Theorem C41_compose_round : forall deflate inflate now p,
  (forall x, inflate (deflate x) = Some x) -> i64_ok now -> payload_ok p ->
  crpc_receive inflate (crpc_plain deflate now p) = Ok (now, p).
Proof. exact crpc_round. Qed.
Print Assumptions C41_compose_round.

(** Compressing never makes a message longer. *)
Theorem C41_never_longer : forall deflate now p,
  length (crpc_plain deflate now p) <=
  length (enc CRPC_codec (mkCRPC now (payload_command p) (bs "zlib"))) + length (payload_xdr p).
Proof. exact crpc_plain_length. Qed.
Print Assumptions C41_never_longer.

Definition pm1 := PM (mkPrivateMessage (bs "hello") 1).
Example pm1_ok : payload_ok pm1.
Proof. repeat split; vm_compute; intuition congruence. Qed.
Definition toy_deflate (x : bytes) : bytes :=
  if eqb x (payload_xdr pm1) then [1]%N else 0%N :: x.
Definition toy_inflate (b : bytes) : option bytes :=
  match b with
  | [1]%N => Some (payload_xdr pm1)
  | 0%N :: x => Some x
  | _ => None
  end.
Example toy_zlib : forall x, toy_inflate (toy_deflate x) = Some x.
Proof.
  intros x. unfold toy_deflate. destruct (eqb x (payload_xdr pm1)) eqn:E; [|now destruct x].
  apply eqb_true in E. now rewrite E.
Qed.
(** Both compressed and uncompressed messages occur. *)
Example toy_both :
  snd (compress toy_deflate (payload_xdr pm1)) = bs "zlib" /\
  snd (compress toy_deflate (payload_xdr (PM (mkPrivateMessage (bs "x") 0)))) = [].
Proof. split; reflexivity. Qed.

(** * C49: decoding a message from a contact *)

(** A contact's message announced as zlib whose data is not zlib crashes the
    receiving client, whatever its command is among the known ones; and this is
    the only way decoding a client message can panic. *)
Theorem C49_bad_zlib_crash : forall inflate body cmd d now,
  inflate body = None -> i64_ok now -> command_decoder cmd = Some d -> length cmd <= 100 ->
  crpc_receive inflate (enc CRPC_codec (mkCRPC now cmd (bs "zlib")) ++ body) = Panic.
Proof. exact bad_zlib_panics. Qed.
Print Assumptions C49_bad_zlib_crash.

Theorem C49_decode_panics_only_zlib : forall inflate b, crpc_receive inflate b = Panic ->
  exists h rest, dec CRPC_codec 0 b = Some (h, rest) /\
    CRPC_Compression h = bs "zlib" /\ inflate rest = None /\
    command_decoder (CRPC_Command h) <> None.
Proof. exact crpc_panic_only. Qed.
Print Assumptions C49_decode_panics_only_zlib.

Example bad_zlib : toy_inflate (bs "nozlib") = None /\ command_decoder (bs "privmsg") <> None.
Proof. split; [reflexivity|]. unfold command_decoder. eval_eqb. discriminate. Qed.
