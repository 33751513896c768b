(** The structures zkc sends over the network and keeps in files, and their XDR
    codecs: the fields in order.  Strings and byte slices are both [bytes] (Go's
    difference between a nil and an empty slice is not modelled); fixed size
    arrays are [bytes] whose length the codec fixes.  The number given to [xlist]
    is the size of an element in memory on a 64 bit machine. *)
From Verif Require Import Base XdrModel.
Local Open Scope N_scope.

(** zkidentity/zkidentity.go:37-45 *)
Record PublicIdentity := mkPublicIdentity { PublicIdentity_Name : bytes; PublicIdentity_Nick : bytes; PublicIdentity_SigKey : bytes; PublicIdentity_Key : bytes; PublicIdentity_Identity : bytes; PublicIdentity_Digest : bytes; PublicIdentity_Signature : bytes }.
Definition PublicIdentity_codec : codec PublicIdentity := xiso
  (fun '(x0, (x1, (x2, (x3, (x4, (x5, x6)))))) => mkPublicIdentity x0 x1 x2 x3 x4 x5 x6)
  (fun m => (PublicIdentity_Name m, (PublicIdentity_Nick m, (PublicIdentity_SigKey m, (PublicIdentity_Key m, (PublicIdentity_Identity m, (PublicIdentity_Digest m, PublicIdentity_Signature m)))))))
  (xpair xopaque (xpair xopaque (xpair (xfixed 32) (xpair (xfixed 1218) (xpair (xfixed 32) (xpair (xfixed 32) (xfixed 64))))))).

(** zkidentity/zkidentity.go:47-51 *)
Record FullIdentity := mkFullIdentity { FullIdentity_Public : PublicIdentity; FullIdentity_PrivateSigKey : bytes; FullIdentity_PrivateKey : bytes }.
Definition FullIdentity_codec : codec FullIdentity := xiso
  (fun '(x0, (x1, x2)) => mkFullIdentity x0 x1 x2)
  (fun m => (FullIdentity_Public m, (FullIdentity_PrivateSigKey m, FullIdentity_PrivateKey m)))
  (xpair PublicIdentity_codec (xpair (xfixed 64) (xfixed 1600))).

(** ratchet/ratchet.go:103-106 *)
Record KeyExchange := mkKeyExchange { KeyExchange_Cipher : bytes; KeyExchange_Public : bytes }.
Definition KeyExchange_codec : codec KeyExchange := xiso
  (fun '(x0, x1) => mkKeyExchange x0 x1)
  (fun m => (KeyExchange_Cipher m, KeyExchange_Public m))
  (xpair (xfixed 1047) xopaque).

(** rpc/rpc.go:78-81 *)
Record CreateAccount := mkCreateAccount { CreateAccount_Token : bytes; CreateAccount_PublicIdentity : PublicIdentity }.
Definition CreateAccount_codec : codec CreateAccount := xiso
  (fun '(x0, x1) => mkCreateAccount x0 x1)
  (fun m => (CreateAccount_Token m, CreateAccount_PublicIdentity m))
  (xpair xopaque PublicIdentity_codec).

(** rpc/rpc.go:97-103.  The payload follows in the same buffer. *)
Record Message := mkMessage { Message_Command : bytes; Message_TimeStamp : Z; Message_Cleartext : bool; Message_Tag : N }.
Definition Message_codec : codec Message := xiso
  (fun '(x0, (x1, (x2, x3))) => mkMessage x0 x1 x2 x3)
  (fun m => (Message_Command m, (Message_TimeStamp m, (Message_Cleartext m, Message_Tag m))))
  (xpair xopaque (xpair xint64 (xpair xbool xuint32))).

(** rpc/rpc.go:107-110 *)
Record Acknowledge := mkAcknowledge { Acknowledge_Error : bytes; Acknowledge_ErrorCode : Z }.
Definition Acknowledge_codec : codec Acknowledge := xiso
  (fun '(x0, x1) => mkAcknowledge x0 x1)
  (fun m => (Acknowledge_Error m, Acknowledge_ErrorCode m))
  (xpair xopaque xint).

(** rpc/rpc.go:120-123 *)
Record Unwelcome := mkUnwelcome { Unwelcome_Version : Z; Unwelcome_Reason : bytes }.
Definition Unwelcome_codec : codec Unwelcome := xiso
  (fun '(x0, x1) => mkUnwelcome x0 x1)
  (fun m => (Unwelcome_Version m, Unwelcome_Reason m))
  (xpair xint xopaque).

(** rpc/rpc.go:136-140 *)
Record ServerProperty := mkServerProperty { ServerProperty_Key : bytes; ServerProperty_Value : bytes; ServerProperty_Required : bool }.
Definition ServerProperty_codec : codec ServerProperty := xiso
  (fun '(x0, (x1, x2)) => mkServerProperty x0 x1 x2)
  (fun m => (ServerProperty_Key m, (ServerProperty_Value m, ServerProperty_Required m)))
  (xpair xopaque (xpair xopaque xbool)).

(** rpc/rpc.go:128-134 *)
Record Welcome := mkWelcome { Welcome_Version : Z; Welcome_ServerTime : Z; Welcome_Properties : list ServerProperty }.
Definition Welcome_codec : codec Welcome := xiso
  (fun '(x0, (x1, x2)) => mkWelcome x0 x1 x2)
  (fun m => (Welcome_Version m, (Welcome_ServerTime m, Welcome_Properties m)))
  (xpair xint (xpair xint64 (xlist 40 ServerProperty_codec))).

(** rpc/rpc.go:240-242 *)
Record CreateAccountReply := mkCreateAccountReply { CreateAccountReply_Error : bytes }.
Definition CreateAccountReply_codec : codec CreateAccountReply := xiso
  (fun x0 => mkCreateAccountReply x0)
  (fun m => CreateAccountReply_Error m)
  xopaque.

(** rpc/rpc.go:246-250 *)
Record Push := mkPush { Push_From : bytes; Push_Received : Z; Push_Payload : bytes }.
Definition Push_codec : codec Push := xiso
  (fun '(x0, (x1, x2)) => mkPush x0 x1 x2)
  (fun m => (Push_From m, (Push_Received m, Push_Payload m)))
  (xpair (xfixed 32) (xpair xint64 xopaque)).

(** rpc/rpc.go:254-257 *)
Record Cache := mkCache { Cache_To : bytes; Cache_Payload : bytes }.
Definition Cache_codec : codec Cache := xiso
  (fun '(x0, x1) => mkCache x0 x1)
  (fun m => (Cache_To m, Cache_Payload m))
  (xpair (xfixed 32) xopaque).

(** rpc/rpc.go:263-266 *)
Record Proxy := mkProxy { Proxy_To : bytes; Proxy_Payload : bytes }.
Definition Proxy_codec : codec Proxy := xiso
  (fun '(x0, x1) => mkProxy x0 x1)
  (fun m => (Proxy_To m, Proxy_Payload m))
  (xpair (xfixed 32) xopaque).

(** rpc/rpc.go:269-272 *)
Record ProxyReply := mkProxyReply { ProxyReply_To : bytes; ProxyReply_Error : bytes }.
Definition ProxyReply_codec : codec ProxyReply := xiso
  (fun '(x0, x1) => mkProxyReply x0 x1)
  (fun m => (ProxyReply_To m, ProxyReply_Error m))
  (xpair (xfixed 32) xopaque).

(** rpc/rpc.go:283-286 *)
Record ProxyCmd := mkProxyCmd { ProxyCmd_Command : N; ProxyCmd_Message : bytes }.
Definition ProxyCmd_codec : codec ProxyCmd := xiso
  (fun '(x0, x1) => mkProxyCmd x0 x1)
  (fun m => (ProxyCmd_Command m, ProxyCmd_Message m))
  (xpair xuint32 xopaque).

(** rpc/rpc.go:297-300 *)
Record Rendezvous := mkRendezvous { Rendezvous_Blob : bytes; Rendezvous_Expiration : bytes }.
Definition Rendezvous_codec : codec Rendezvous := xiso
  (fun '(x0, x1) => mkRendezvous x0 x1)
  (fun m => (Rendezvous_Blob m, Rendezvous_Expiration m))
  (xpair xopaque xopaque).

(** rpc/rpc.go:304-307 *)
Record RendezvousReply := mkRendezvousReply { RendezvousReply_Token : bytes; RendezvousReply_Error : bytes }.
Definition RendezvousReply_codec : codec RendezvousReply := xiso
  (fun '(x0, x1) => mkRendezvousReply x0 x1)
  (fun m => (RendezvousReply_Token m, RendezvousReply_Error m))
  (xpair xopaque xopaque).

(** rpc/rpc.go:310-312 *)
Record RendezvousPull := mkRendezvousPull { RendezvousPull_Token : bytes }.
Definition RendezvousPull_codec : codec RendezvousPull := xiso
  (fun x0 => mkRendezvousPull x0)
  (fun m => RendezvousPull_Token m)
  xopaque.

(** rpc/rpc.go:316-320 *)
Record RendezvousPullReply := mkRendezvousPullReply { RendezvousPullReply_Error : bytes; RendezvousPullReply_Token : bytes; RendezvousPullReply_Blob : bytes }.
Definition RendezvousPullReply_codec : codec RendezvousPullReply := xiso
  (fun '(x0, (x1, x2)) => mkRendezvousPullReply x0 x1 x2)
  (fun m => (RendezvousPullReply_Error m, (RendezvousPullReply_Token m, RendezvousPullReply_Blob m)))
  (xpair xopaque (xpair xopaque xopaque)).

(** rpc/rpc.go:325-327 *)
Record IdentityFind := mkIdentityFind { IdentityFind_Nick : bytes }.
Definition IdentityFind_codec : codec IdentityFind := xiso
  (fun x0 => mkIdentityFind x0)
  (fun m => IdentityFind_Nick m)
  xopaque.

(** rpc/rpc.go:330-334 *)
Record IdentityFindReply := mkIdentityFindReply { IdentityFindReply_Nick : bytes; IdentityFindReply_Error : bytes; IdentityFindReply_Identity : PublicIdentity }.
Definition IdentityFindReply_codec : codec IdentityFindReply := xiso
  (fun '(x0, (x1, x2)) => mkIdentityFindReply x0 x1 x2)
  (fun m => (IdentityFindReply_Nick m, (IdentityFindReply_Error m, IdentityFindReply_Identity m)))
  (xpair xopaque (xpair xopaque PublicIdentity_codec)).

(** rpc/rpc.go:338-341 *)
Record IdentityKX := mkIdentityKX { IdentityKX_Identity : PublicIdentity; IdentityKX_KX : KeyExchange }.
Definition IdentityKX_codec : codec IdentityKX := xiso
  (fun '(x0, x1) => mkIdentityKX x0 x1)
  (fun m => (IdentityKX_Identity m, IdentityKX_KX m))
  (xpair PublicIdentity_codec KeyExchange_codec).

(** rpc/rpc.go:345-347 *)
Record KX := mkKX { KX_KX : KeyExchange }.
Definition KX_codec : codec KX := xiso
  (fun x0 => mkKX x0)
  (fun m => KX_KX m)
  KeyExchange_codec.

(** rpc/rpc.go:373-378.  The payload follows in the same buffer. *)
Record CRPC := mkCRPC { CRPC_Timestamp : Z; CRPC_Command : bytes; CRPC_Compression : bytes }.
Definition CRPC_codec : codec CRPC := xiso
  (fun '(x0, (x1, x2)) => mkCRPC x0 x1 x2)
  (fun m => (CRPC_Timestamp m, (CRPC_Command m, CRPC_Compression m)))
  (xpair xint64 (xpair xopaque xopaque)).

(** rpc/rpc.go:381-384 *)
Record PrivateMessage := mkPrivateMessage { PrivateMessage_Text : bytes; PrivateMessage_Mode : N }.
Definition PrivateMessage_codec : codec PrivateMessage := xiso
  (fun '(x0, x1) => mkPrivateMessage x0 x1)
  (fun m => (PrivateMessage_Text m, PrivateMessage_Mode m))
  (xpair xopaque xuint32).

(** rpc/rpc.go:388-391 *)
Record JanitorMessage := mkJanitorMessage { JanitorMessage_Command : bytes; JanitorMessage_Reason : bytes }.
Definition JanitorMessage_codec : codec JanitorMessage := xiso
  (fun '(x0, x1) => mkJanitorMessage x0 x1)
  (fun m => (JanitorMessage_Command m, JanitorMessage_Reason m))
  (xpair xopaque xopaque).

(** rpc/rpc.go:396-402 *)
Record GroupInvite := mkGroupInvite { GroupInvite_Name : bytes; GroupInvite_Members : list bytes; GroupInvite_Token : N; GroupInvite_Description : bytes; GroupInvite_Expires : Z }.
Definition GroupInvite_codec : codec GroupInvite := xiso
  (fun '(x0, (x1, (x2, (x3, x4)))) => mkGroupInvite x0 x1 x2 x3 x4)
  (fun m => (GroupInvite_Name m, (GroupInvite_Members m, (GroupInvite_Token m, (GroupInvite_Description m, GroupInvite_Expires m)))))
  (xpair xopaque (xpair (xlist 16 xopaque) (xpair xuint64 (xpair xopaque xint64)))).

(** rpc/rpc.go:405-409 *)
Record GroupJoin := mkGroupJoin { GroupJoin_Name : bytes; GroupJoin_Token : N; GroupJoin_Error : bytes }.
Definition GroupJoin_codec : codec GroupJoin := xiso
  (fun '(x0, (x1, x2)) => mkGroupJoin x0 x1 x2)
  (fun m => (GroupJoin_Name m, (GroupJoin_Token m, GroupJoin_Error m)))
  (xpair xopaque (xpair xuint64 xopaque)).

(** rpc/rpc.go:412-415 *)
Record GroupPart := mkGroupPart { GroupPart_Name : bytes; GroupPart_Reason : bytes }.
Definition GroupPart_codec : codec GroupPart := xiso
  (fun '(x0, x1) => mkGroupPart x0 x1)
  (fun m => (GroupPart_Name m, GroupPart_Reason m))
  (xpair xopaque xopaque).

(** rpc/rpc.go:418-421 *)
Record GroupKill := mkGroupKill { GroupKill_Name : bytes; GroupKill_Reason : bytes }.
Definition GroupKill_codec : codec GroupKill := xiso
  (fun '(x0, x1) => mkGroupKill x0 x1)
  (fun m => (GroupKill_Name m, GroupKill_Reason m))
  (xpair xopaque xopaque).

(** rpc/rpc.go:441-449 *)
Record GroupList := mkGroupList { GroupList_Name : bytes; GroupList_Generation : N; GroupList_Timestamp : Z; GroupList_Members : list bytes }.
Definition GroupList_codec : codec GroupList := xiso
  (fun '(x0, (x1, (x2, x3))) => mkGroupList x0 x1 x2 x3)
  (fun m => (GroupList_Name m, (GroupList_Generation m, (GroupList_Timestamp m, GroupList_Members m))))
  (xpair xopaque (xpair xuint64 (xpair xint64 (xlist 32 (xfixed 32))))).

(** rpc/rpc.go:424-429 *)
Record GroupKick := mkGroupKick { GroupKick_Member : bytes; GroupKick_Reason : bytes; GroupKick_Parted : bool; GroupKick_NewGroupList : GroupList }.
Definition GroupKick_codec : codec GroupKick := xiso
  (fun '(x0, (x1, (x2, x3))) => mkGroupKick x0 x1 x2 x3)
  (fun m => (GroupKick_Member m, (GroupKick_Reason m, (GroupKick_Parted m, GroupKick_NewGroupList m))))
  (xpair (xfixed 32) (xpair xopaque (xpair xbool GroupList_codec))).

(** rpc/rpc.go:433-436 *)
Record GroupUpdate := mkGroupUpdate { GroupUpdate_Reason : bytes; GroupUpdate_NewGroupList : GroupList }.
Definition GroupUpdate_codec : codec GroupUpdate := xiso
  (fun '(x0, x1) => mkGroupUpdate x0 x1)
  (fun m => (GroupUpdate_Reason m, GroupUpdate_NewGroupList m))
  (xpair xopaque GroupList_codec).

(** rpc/rpc.go:452-457 *)
Record GroupMessage := mkGroupMessage { GroupMessage_Name : bytes; GroupMessage_Generation : N; GroupMessage_Message : bytes; GroupMessage_Mode : N }.
Definition GroupMessage_codec : codec GroupMessage := xiso
  (fun '(x0, (x1, (x2, x3))) => mkGroupMessage x0 x1 x2 x3)
  (fun m => (GroupMessage_Name m, (GroupMessage_Generation m, (GroupMessage_Message m, GroupMessage_Mode m))))
  (xpair xopaque (xpair xuint64 (xpair xopaque xuint32))).

(** rpc/rpc.go:460-467 *)
Record ChunkNew := mkChunkNew { ChunkNew_Size : N; ChunkNew_ChunkSize : N; ChunkNew_Filename : bytes; ChunkNew_Description : bytes; ChunkNew_MIME : bytes; ChunkNew_Digest : bytes }.
Definition ChunkNew_codec : codec ChunkNew := xiso
  (fun '(x0, (x1, (x2, (x3, (x4, x5))))) => mkChunkNew x0 x1 x2 x3 x4 x5)
  (fun m => (ChunkNew_Size m, (ChunkNew_ChunkSize m, (ChunkNew_Filename m, (ChunkNew_Description m, (ChunkNew_MIME m, ChunkNew_Digest m))))))
  (xpair xuint64 (xpair xuint64 (xpair xopaque (xpair xopaque (xpair xopaque (xfixed 32)))))).

(** rpc/rpc.go:469-473 *)
Record Chunk := mkChunk { Chunk_Offset : N; Chunk_Digest : bytes; Chunk_Payload : bytes }.
Definition Chunk_codec : codec Chunk := xiso
  (fun '(x0, (x1, x2)) => mkChunk x0 x1 x2)
  (fun m => (Chunk_Offset m, (Chunk_Digest m, Chunk_Payload m)))
  (xpair xuint64 (xpair (xfixed 32) xopaque)).

(** zkserver/account/account.go:57-65 *)
Record DiskMessage := mkDiskMessage { DiskMessage_From : bytes; DiskMessage_Received : Z; DiskMessage_Payload : bytes; DiskMessage_Cleartext : bool }.
Definition DiskMessage_codec : codec DiskMessage := xiso
  (fun '(x0, (x1, (x2, x3))) => mkDiskMessage x0 x1 x2 x3)
  (fun m => (DiskMessage_From m, (DiskMessage_Received m, (DiskMessage_Payload m, DiskMessage_Cleartext m))))
  (xpair (xfixed 32) (xpair xint64 (xpair xopaque xbool))).

(** tools/tools.go:27-32 *)
Record ServerRecord := mkServerRecord { ServerRecord_PublicIdentity : PublicIdentity; ServerRecord_Certificate : bytes; ServerRecord_IPandPort : bytes; ServerRecord_Directory : bool }.
Definition ServerRecord_codec : codec ServerRecord := xiso
  (fun '(x0, (x1, (x2, x3))) => mkServerRecord x0 x1 x2 x3)
  (fun m => (ServerRecord_PublicIdentity m, (ServerRecord_Certificate m, (ServerRecord_IPandPort m, ServerRecord_Directory m))))
  (xpair PublicIdentity_codec (xpair xopaque (xpair xopaque xbool))).

(** tools/tools.go:34-36 *)
Record ClientRecord := mkClientRecord { ClientRecord_PublicIdentity : PublicIdentity }.
Definition ClientRecord_codec : codec ClientRecord := xiso
  (fun x0 => mkClientRecord x0)
  (fun m => ClientRecord_PublicIdentity m)
  PublicIdentity_codec.

(** ratchet/disk/disk.go (RatchetState_SavedKeys_MessageKey) *)
Record SavedMessageKey := mkSavedMessageKey { SavedMessageKey_Num : N; SavedMessageKey_Key : bytes; SavedMessageKey_CreationTime : Z }.
Definition SavedMessageKey_codec : codec SavedMessageKey := xiso
  (fun '(x0, (x1, x2)) => mkSavedMessageKey x0 x1 x2)
  (fun m => (SavedMessageKey_Num m, (SavedMessageKey_Key m, SavedMessageKey_CreationTime m)))
  (xpair xuint32 (xpair xopaque xint64)).

(** ratchet/disk/disk.go (RatchetState_SavedKeys) *)
Record SavedKeys := mkSavedKeys { SavedKeys_HeaderKey : bytes; SavedKeys_MessageKeys : list SavedMessageKey }.
Definition SavedKeys_codec : codec SavedKeys := xiso
  (fun '(x0, x1) => mkSavedKeys x0 x1)
  (fun m => (SavedKeys_HeaderKey m, SavedKeys_MessageKeys m))
  (xpair xopaque (xlist 40 SavedMessageKey_codec)).

(** ratchet/disk/disk.go (RatchetState) *)
Record RatchetState := mkRatchetState { RatchetState_RootKey : bytes; RatchetState_SendHeaderKey : bytes; RatchetState_RecvHeaderKey : bytes; RatchetState_NextSendHeaderKey : bytes; RatchetState_NextRecvHeaderKey : bytes; RatchetState_SendChainKey : bytes; RatchetState_RecvChainKey : bytes; RatchetState_SendRatchetPrivate : bytes; RatchetState_RecvRatchetPublic : bytes; RatchetState_SendCount : N; RatchetState_RecvCount : N; RatchetState_PrevSendCount : N; RatchetState_Ratchet : bool; RatchetState_Private : bytes; RatchetState_MyHalf : bytes; RatchetState_TheirHalf : bytes; RatchetState_SavedKeys : list SavedKeys }.
Definition RatchetState_codec : codec RatchetState := xiso
  (fun '(x0, (x1, (x2, (x3, (x4, (x5, (x6, (x7, (x8, (x9, (x10, (x11, (x12, (x13, (x14, (x15, x16)))))))))))))))) => mkRatchetState x0 x1 x2 x3 x4 x5 x6 x7 x8 x9 x10 x11 x12 x13 x14 x15 x16)
  (fun m => (RatchetState_RootKey m, (RatchetState_SendHeaderKey m, (RatchetState_RecvHeaderKey m, (RatchetState_NextSendHeaderKey m, (RatchetState_NextRecvHeaderKey m, (RatchetState_SendChainKey m, (RatchetState_RecvChainKey m, (RatchetState_SendRatchetPrivate m, (RatchetState_RecvRatchetPublic m, (RatchetState_SendCount m, (RatchetState_RecvCount m, (RatchetState_PrevSendCount m, (RatchetState_Ratchet m, (RatchetState_Private m, (RatchetState_MyHalf m, (RatchetState_TheirHalf m, RatchetState_SavedKeys m)))))))))))))))))
  (xpair xopaque (xpair xopaque (xpair xopaque (xpair xopaque (xpair xopaque (xpair xopaque (xpair xopaque (xpair xopaque (xpair xopaque (xpair xuint32 (xpair xuint32 (xpair xuint32 (xpair xbool (xpair xopaque (xpair xopaque (xpair xopaque (xlist 48 SavedKeys_codec))))))))))))))))).

(** rpc/rpc.go:290-291: Ping and Pong have no fields. *)
Definition Ping_codec : codec unit := xunit.
Definition Pong_codec : codec unit := xunit.
