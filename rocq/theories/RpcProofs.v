(** Every structure's codec is faithful. *)
From Verif Require Import Base XdrModel XdrProofs RpcModel.
Local Open Scope N_scope.

(** * Specification: which values fit, under a decoder limit *)

Definition PublicIdentity_ok (lim : N) (m : PublicIdentity) : Prop :=
  str_ok lim (PublicIdentity_Name m) /\ str_ok lim (PublicIdentity_Nick m) /\ size_ok 32 (PublicIdentity_SigKey m) /\ size_ok 1218 (PublicIdentity_Key m) /\ size_ok 32 (PublicIdentity_Identity m) /\ size_ok 32 (PublicIdentity_Digest m) /\ size_ok 64 (PublicIdentity_Signature m).
Definition FullIdentity_ok (lim : N) (m : FullIdentity) : Prop :=
  PublicIdentity_ok lim (FullIdentity_Public m) /\ size_ok 64 (FullIdentity_PrivateSigKey m) /\ size_ok 1600 (FullIdentity_PrivateKey m).
Definition KeyExchange_ok (lim : N) (m : KeyExchange) : Prop :=
  size_ok 1047 (KeyExchange_Cipher m) /\ str_ok lim (KeyExchange_Public m).
Definition CreateAccount_ok (lim : N) (m : CreateAccount) : Prop :=
  str_ok lim (CreateAccount_Token m) /\ PublicIdentity_ok lim (CreateAccount_PublicIdentity m).
Definition Message_ok (lim : N) (m : Message) : Prop :=
  str_ok lim (Message_Command m) /\ i64_ok (Message_TimeStamp m) /\ u32_ok (Message_Tag m).
Definition Acknowledge_ok (lim : N) (m : Acknowledge) : Prop :=
  str_ok lim (Acknowledge_Error m) /\ i32_ok (Acknowledge_ErrorCode m).
Definition Unwelcome_ok (lim : N) (m : Unwelcome) : Prop :=
  i32_ok (Unwelcome_Version m) /\ str_ok lim (Unwelcome_Reason m).
Definition ServerProperty_ok (lim : N) (m : ServerProperty) : Prop :=
  str_ok lim (ServerProperty_Key m) /\ str_ok lim (ServerProperty_Value m).
Definition Welcome_ok (lim : N) (m : Welcome) : Prop :=
  i32_ok (Welcome_Version m) /\ i64_ok (Welcome_ServerTime m) /\ list_ok 40 ServerProperty_ok lim (Welcome_Properties m).
Definition CreateAccountReply_ok (lim : N) (m : CreateAccountReply) : Prop :=
  str_ok lim (CreateAccountReply_Error m).
Definition Push_ok (lim : N) (m : Push) : Prop :=
  size_ok 32 (Push_From m) /\ i64_ok (Push_Received m) /\ str_ok lim (Push_Payload m).
Definition Cache_ok (lim : N) (m : Cache) : Prop :=
  size_ok 32 (Cache_To m) /\ str_ok lim (Cache_Payload m).
Definition Proxy_ok (lim : N) (m : Proxy) : Prop :=
  size_ok 32 (Proxy_To m) /\ str_ok lim (Proxy_Payload m).
Definition ProxyReply_ok (lim : N) (m : ProxyReply) : Prop :=
  size_ok 32 (ProxyReply_To m) /\ str_ok lim (ProxyReply_Error m).
Definition ProxyCmd_ok (lim : N) (m : ProxyCmd) : Prop :=
  u32_ok (ProxyCmd_Command m) /\ str_ok lim (ProxyCmd_Message m).
Definition Rendezvous_ok (lim : N) (m : Rendezvous) : Prop :=
  str_ok lim (Rendezvous_Blob m) /\ str_ok lim (Rendezvous_Expiration m).
Definition RendezvousReply_ok (lim : N) (m : RendezvousReply) : Prop :=
  str_ok lim (RendezvousReply_Token m) /\ str_ok lim (RendezvousReply_Error m).
Definition RendezvousPull_ok (lim : N) (m : RendezvousPull) : Prop :=
  str_ok lim (RendezvousPull_Token m).
Definition RendezvousPullReply_ok (lim : N) (m : RendezvousPullReply) : Prop :=
  str_ok lim (RendezvousPullReply_Error m) /\ str_ok lim (RendezvousPullReply_Token m) /\ str_ok lim (RendezvousPullReply_Blob m).
Definition IdentityFind_ok (lim : N) (m : IdentityFind) : Prop :=
  str_ok lim (IdentityFind_Nick m).
Definition IdentityFindReply_ok (lim : N) (m : IdentityFindReply) : Prop :=
  str_ok lim (IdentityFindReply_Nick m) /\ str_ok lim (IdentityFindReply_Error m) /\ PublicIdentity_ok lim (IdentityFindReply_Identity m).
Definition IdentityKX_ok (lim : N) (m : IdentityKX) : Prop :=
  PublicIdentity_ok lim (IdentityKX_Identity m) /\ KeyExchange_ok lim (IdentityKX_KX m).
Definition KX_ok (lim : N) (m : KX) : Prop :=
  KeyExchange_ok lim (KX_KX m).
Definition CRPC_ok (lim : N) (m : CRPC) : Prop :=
  i64_ok (CRPC_Timestamp m) /\ str_ok lim (CRPC_Command m) /\ str_ok lim (CRPC_Compression m).
Definition PrivateMessage_ok (lim : N) (m : PrivateMessage) : Prop :=
  str_ok lim (PrivateMessage_Text m) /\ u32_ok (PrivateMessage_Mode m).
Definition JanitorMessage_ok (lim : N) (m : JanitorMessage) : Prop :=
  str_ok lim (JanitorMessage_Command m) /\ str_ok lim (JanitorMessage_Reason m).
Definition GroupInvite_ok (lim : N) (m : GroupInvite) : Prop :=
  str_ok lim (GroupInvite_Name m) /\ list_ok 16 str_ok lim (GroupInvite_Members m) /\ u64_ok (GroupInvite_Token m) /\ str_ok lim (GroupInvite_Description m) /\ i64_ok (GroupInvite_Expires m).
Definition GroupJoin_ok (lim : N) (m : GroupJoin) : Prop :=
  str_ok lim (GroupJoin_Name m) /\ u64_ok (GroupJoin_Token m) /\ str_ok lim (GroupJoin_Error m).
Definition GroupPart_ok (lim : N) (m : GroupPart) : Prop :=
  str_ok lim (GroupPart_Name m) /\ str_ok lim (GroupPart_Reason m).
Definition GroupKill_ok (lim : N) (m : GroupKill) : Prop :=
  str_ok lim (GroupKill_Name m) /\ str_ok lim (GroupKill_Reason m).
Definition GroupList_ok (lim : N) (m : GroupList) : Prop :=
  str_ok lim (GroupList_Name m) /\ u64_ok (GroupList_Generation m) /\ i64_ok (GroupList_Timestamp m) /\ list_ok 32 (fun _ => size_ok 32) lim (GroupList_Members m).
Definition GroupKick_ok (lim : N) (m : GroupKick) : Prop :=
  size_ok 32 (GroupKick_Member m) /\ str_ok lim (GroupKick_Reason m) /\ GroupList_ok lim (GroupKick_NewGroupList m).
Definition GroupUpdate_ok (lim : N) (m : GroupUpdate) : Prop :=
  str_ok lim (GroupUpdate_Reason m) /\ GroupList_ok lim (GroupUpdate_NewGroupList m).
Definition GroupMessage_ok (lim : N) (m : GroupMessage) : Prop :=
  str_ok lim (GroupMessage_Name m) /\ u64_ok (GroupMessage_Generation m) /\ str_ok lim (GroupMessage_Message m) /\ u32_ok (GroupMessage_Mode m).
Definition ChunkNew_ok (lim : N) (m : ChunkNew) : Prop :=
  u64_ok (ChunkNew_Size m) /\ u64_ok (ChunkNew_ChunkSize m) /\ str_ok lim (ChunkNew_Filename m) /\ str_ok lim (ChunkNew_Description m) /\ str_ok lim (ChunkNew_MIME m) /\ size_ok 32 (ChunkNew_Digest m).
Definition Chunk_ok (lim : N) (m : Chunk) : Prop :=
  u64_ok (Chunk_Offset m) /\ size_ok 32 (Chunk_Digest m) /\ str_ok lim (Chunk_Payload m).
Definition DiskMessage_ok (lim : N) (m : DiskMessage) : Prop :=
  size_ok 32 (DiskMessage_From m) /\ i64_ok (DiskMessage_Received m) /\ str_ok lim (DiskMessage_Payload m).
Definition ServerRecord_ok (lim : N) (m : ServerRecord) : Prop :=
  PublicIdentity_ok lim (ServerRecord_PublicIdentity m) /\ str_ok lim (ServerRecord_Certificate m) /\ str_ok lim (ServerRecord_IPandPort m).
Definition ClientRecord_ok (lim : N) (m : ClientRecord) : Prop :=
  PublicIdentity_ok lim (ClientRecord_PublicIdentity m).
Definition SavedMessageKey_ok (lim : N) (m : SavedMessageKey) : Prop :=
  u32_ok (SavedMessageKey_Num m) /\ str_ok lim (SavedMessageKey_Key m) /\ i64_ok (SavedMessageKey_CreationTime m).
Definition SavedKeys_ok (lim : N) (m : SavedKeys) : Prop :=
  str_ok lim (SavedKeys_HeaderKey m) /\ list_ok 40 SavedMessageKey_ok lim (SavedKeys_MessageKeys m).
Definition RatchetState_ok (lim : N) (m : RatchetState) : Prop :=
  str_ok lim (RatchetState_RootKey m) /\ str_ok lim (RatchetState_SendHeaderKey m) /\ str_ok lim (RatchetState_RecvHeaderKey m) /\ str_ok lim (RatchetState_NextSendHeaderKey m) /\ str_ok lim (RatchetState_NextRecvHeaderKey m) /\ str_ok lim (RatchetState_SendChainKey m) /\ str_ok lim (RatchetState_RecvChainKey m) /\ str_ok lim (RatchetState_SendRatchetPrivate m) /\ str_ok lim (RatchetState_RecvRatchetPublic m) /\ u32_ok (RatchetState_SendCount m) /\ u32_ok (RatchetState_RecvCount m) /\ u32_ok (RatchetState_PrevSendCount m) /\ str_ok lim (RatchetState_Private m) /\ str_ok lim (RatchetState_MyHalf m) /\ str_ok lim (RatchetState_TheirHalf m) /\ list_ok 48 SavedKeys_ok lim (RatchetState_SavedKeys m).

(** * Proof *)

Lemma fix_32 : 32 + pad_len 32 <= max_int32. Proof. intros H; discriminate H. Qed.
Lemma fix_64 : 64 + pad_len 64 <= max_int32. Proof. intros H; discriminate H. Qed.
Lemma fix_1047 : 1047 + pad_len 1047 <= max_int32. Proof. intros H; discriminate H. Qed.
Lemma fix_1218 : 1218 + pad_len 1218 <= max_int32. Proof. intros H; discriminate H. Qed.
Lemma fix_1600 : 1600 + pad_len 1600 <= max_int32. Proof. intros H; discriminate H. Qed.

Ltac record_iso :=
  match goal with |- forall b, _ = b => intros b; repeat (destruct b as [? b] || destruct b); reflexivity end.

Lemma good_PublicIdentity : good PublicIdentity_codec PublicIdentity_ok.
Proof.
  eapply good_iso; [exact (good_pair _ _ _ _ good_opaque (good_pair _ _ _ _ good_opaque (good_pair _ _ _ _ (good_fixed 32 fix_32) (good_pair _ _ _ _ (good_fixed 1218 fix_1218) (good_pair _ _ _ _ (good_fixed 32 fix_32) (good_pair _ _ _ _ (good_fixed 32 fix_32) (good_fixed 64 fix_64)))))))| | |].
  - now intros [].
  - now intros [x0 [x1 [x2 [x3 [x4 [x5 x6]]]]]].
  - intros lim m. unfold PublicIdentity_ok. cbn [fst snd]. tauto.
Qed.

Lemma good_FullIdentity : good FullIdentity_codec FullIdentity_ok.
Proof.
  eapply good_iso; [exact (good_pair _ _ _ _ good_PublicIdentity (good_pair _ _ _ _ (good_fixed 64 fix_64) (good_fixed 1600 fix_1600)))| | |].
  - now intros [].
  - now intros [x0 [x1 x2]].
  - intros lim m. unfold FullIdentity_ok. cbn [fst snd]. tauto.
Qed.

Lemma good_KeyExchange : good KeyExchange_codec KeyExchange_ok.
Proof.
  eapply good_iso; [exact (good_pair _ _ _ _ (good_fixed 1047 fix_1047) good_opaque)| | |].
  - now intros [].
  - now intros [x0 x1].
  - intros lim m. unfold KeyExchange_ok. cbn [fst snd]. tauto.
Qed.

Lemma good_CreateAccount : good CreateAccount_codec CreateAccount_ok.
Proof.
  eapply good_iso; [exact (good_pair _ _ _ _ good_opaque good_PublicIdentity)| | |].
  - now intros [].
  - now intros [x0 x1].
  - intros lim m. unfold CreateAccount_ok. cbn [fst snd]. tauto.
Qed.

Lemma good_Message : good Message_codec Message_ok.
Proof.
  eapply good_iso; [exact (good_pair _ _ _ _ good_opaque (good_pair _ _ _ _ good_int64 (good_pair _ _ _ _ good_bool good_uint32)))| | |].
  - now intros [].
  - now intros [x0 [x1 [x2 x3]]].
  - intros lim m. unfold Message_ok. cbn [fst snd]. tauto.
Qed.

Lemma good_Acknowledge : good Acknowledge_codec Acknowledge_ok.
Proof.
  eapply good_iso; [exact (good_pair _ _ _ _ good_opaque good_int)| | |].
  - now intros [].
  - now intros [x0 x1].
  - intros lim m. unfold Acknowledge_ok. cbn [fst snd]. tauto.
Qed.

Lemma good_Unwelcome : good Unwelcome_codec Unwelcome_ok.
Proof.
  eapply good_iso; [exact (good_pair _ _ _ _ good_int good_opaque)| | |].
  - now intros [].
  - now intros [x0 x1].
  - intros lim m. unfold Unwelcome_ok. cbn [fst snd]. tauto.
Qed.

Lemma good_ServerProperty : good ServerProperty_codec ServerProperty_ok.
Proof.
  eapply good_iso; [exact (good_pair _ _ _ _ good_opaque (good_pair _ _ _ _ good_opaque good_bool))| | |].
  - now intros [].
  - now intros [x0 [x1 x2]].
  - intros lim m. unfold ServerProperty_ok. cbn [fst snd]. tauto.
Qed.

Lemma good_Welcome : good Welcome_codec Welcome_ok.
Proof.
  eapply good_iso; [exact (good_pair _ _ _ _ good_int (good_pair _ _ _ _ good_int64 (good_list 40 _ _ good_ServerProperty)))| | |].
  - now intros [].
  - now intros [x0 [x1 x2]].
  - intros lim m. unfold Welcome_ok. cbn [fst snd]. tauto.
Qed.

Lemma good_CreateAccountReply : good CreateAccountReply_codec CreateAccountReply_ok.
Proof.
  eapply good_iso; [exact good_opaque| | |].
  - now intros [].
  - reflexivity.
  - intros lim m. unfold CreateAccountReply_ok. cbn [fst snd]. tauto.
Qed.

Lemma good_Push : good Push_codec Push_ok.
Proof.
  eapply good_iso; [exact (good_pair _ _ _ _ (good_fixed 32 fix_32) (good_pair _ _ _ _ good_int64 good_opaque))| | |].
  - now intros [].
  - now intros [x0 [x1 x2]].
  - intros lim m. unfold Push_ok. cbn [fst snd]. tauto.
Qed.

Lemma good_Cache : good Cache_codec Cache_ok.
Proof.
  eapply good_iso; [exact (good_pair _ _ _ _ (good_fixed 32 fix_32) good_opaque)| | |].
  - now intros [].
  - now intros [x0 x1].
  - intros lim m. unfold Cache_ok. cbn [fst snd]. tauto.
Qed.

Lemma good_Proxy : good Proxy_codec Proxy_ok.
Proof.
  eapply good_iso; [exact (good_pair _ _ _ _ (good_fixed 32 fix_32) good_opaque)| | |].
  - now intros [].
  - now intros [x0 x1].
  - intros lim m. unfold Proxy_ok. cbn [fst snd]. tauto.
Qed.

Lemma good_ProxyReply : good ProxyReply_codec ProxyReply_ok.
Proof.
  eapply good_iso; [exact (good_pair _ _ _ _ (good_fixed 32 fix_32) good_opaque)| | |].
  - now intros [].
  - now intros [x0 x1].
  - intros lim m. unfold ProxyReply_ok. cbn [fst snd]. tauto.
Qed.

Lemma good_ProxyCmd : good ProxyCmd_codec ProxyCmd_ok.
Proof.
  eapply good_iso; [exact (good_pair _ _ _ _ good_uint32 good_opaque)| | |].
  - now intros [].
  - now intros [x0 x1].
  - intros lim m. unfold ProxyCmd_ok. cbn [fst snd]. tauto.
Qed.

Lemma good_Rendezvous : good Rendezvous_codec Rendezvous_ok.
Proof.
  eapply good_iso; [exact (good_pair _ _ _ _ good_opaque good_opaque)| | |].
  - now intros [].
  - now intros [x0 x1].
  - intros lim m. unfold Rendezvous_ok. cbn [fst snd]. tauto.
Qed.

Lemma good_RendezvousReply : good RendezvousReply_codec RendezvousReply_ok.
Proof.
  eapply good_iso; [exact (good_pair _ _ _ _ good_opaque good_opaque)| | |].
  - now intros [].
  - now intros [x0 x1].
  - intros lim m. unfold RendezvousReply_ok. cbn [fst snd]. tauto.
Qed.

Lemma good_RendezvousPull : good RendezvousPull_codec RendezvousPull_ok.
Proof.
  eapply good_iso; [exact good_opaque| | |].
  - now intros [].
  - reflexivity.
  - intros lim m. unfold RendezvousPull_ok. cbn [fst snd]. tauto.
Qed.

Lemma good_RendezvousPullReply : good RendezvousPullReply_codec RendezvousPullReply_ok.
Proof.
  eapply good_iso; [exact (good_pair _ _ _ _ good_opaque (good_pair _ _ _ _ good_opaque good_opaque))| | |].
  - now intros [].
  - now intros [x0 [x1 x2]].
  - intros lim m. unfold RendezvousPullReply_ok. cbn [fst snd]. tauto.
Qed.

Lemma good_IdentityFind : good IdentityFind_codec IdentityFind_ok.
Proof.
  eapply good_iso; [exact good_opaque| | |].
  - now intros [].
  - reflexivity.
  - intros lim m. unfold IdentityFind_ok. cbn [fst snd]. tauto.
Qed.

Lemma good_IdentityFindReply : good IdentityFindReply_codec IdentityFindReply_ok.
Proof.
  eapply good_iso; [exact (good_pair _ _ _ _ good_opaque (good_pair _ _ _ _ good_opaque good_PublicIdentity))| | |].
  - now intros [].
  - now intros [x0 [x1 x2]].
  - intros lim m. unfold IdentityFindReply_ok. cbn [fst snd]. tauto.
Qed.

Lemma good_IdentityKX : good IdentityKX_codec IdentityKX_ok.
Proof.
  eapply good_iso; [exact (good_pair _ _ _ _ good_PublicIdentity good_KeyExchange)| | |].
  - now intros [].
  - now intros [x0 x1].
  - intros lim m. unfold IdentityKX_ok. cbn [fst snd]. tauto.
Qed.

Lemma good_KX : good KX_codec KX_ok.
Proof.
  eapply good_iso; [exact good_KeyExchange| | |].
  - now intros [].
  - reflexivity.
  - intros lim m. unfold KX_ok. cbn [fst snd]. tauto.
Qed.

Lemma good_CRPC : good CRPC_codec CRPC_ok.
Proof.
  eapply good_iso; [exact (good_pair _ _ _ _ good_int64 (good_pair _ _ _ _ good_opaque good_opaque))| | |].
  - now intros [].
  - now intros [x0 [x1 x2]].
  - intros lim m. unfold CRPC_ok. cbn [fst snd]. tauto.
Qed.

Lemma good_PrivateMessage : good PrivateMessage_codec PrivateMessage_ok.
Proof.
  eapply good_iso; [exact (good_pair _ _ _ _ good_opaque good_uint32)| | |].
  - now intros [].
  - now intros [x0 x1].
  - intros lim m. unfold PrivateMessage_ok. cbn [fst snd]. tauto.
Qed.

Lemma good_JanitorMessage : good JanitorMessage_codec JanitorMessage_ok.
Proof.
  eapply good_iso; [exact (good_pair _ _ _ _ good_opaque good_opaque)| | |].
  - now intros [].
  - now intros [x0 x1].
  - intros lim m. unfold JanitorMessage_ok. cbn [fst snd]. tauto.
Qed.

Lemma good_GroupInvite : good GroupInvite_codec GroupInvite_ok.
Proof.
  eapply good_iso; [exact (good_pair _ _ _ _ good_opaque (good_pair _ _ _ _ (good_list 16 _ _ good_opaque) (good_pair _ _ _ _ good_uint64 (good_pair _ _ _ _ good_opaque good_int64))))| | |].
  - now intros [].
  - now intros [x0 [x1 [x2 [x3 x4]]]].
  - intros lim m. unfold GroupInvite_ok. cbn [fst snd]. tauto.
Qed.

Lemma good_GroupJoin : good GroupJoin_codec GroupJoin_ok.
Proof.
  eapply good_iso; [exact (good_pair _ _ _ _ good_opaque (good_pair _ _ _ _ good_uint64 good_opaque))| | |].
  - now intros [].
  - now intros [x0 [x1 x2]].
  - intros lim m. unfold GroupJoin_ok. cbn [fst snd]. tauto.
Qed.

Lemma good_GroupPart : good GroupPart_codec GroupPart_ok.
Proof.
  eapply good_iso; [exact (good_pair _ _ _ _ good_opaque good_opaque)| | |].
  - now intros [].
  - now intros [x0 x1].
  - intros lim m. unfold GroupPart_ok. cbn [fst snd]. tauto.
Qed.

Lemma good_GroupKill : good GroupKill_codec GroupKill_ok.
Proof.
  eapply good_iso; [exact (good_pair _ _ _ _ good_opaque good_opaque)| | |].
  - now intros [].
  - now intros [x0 x1].
  - intros lim m. unfold GroupKill_ok. cbn [fst snd]. tauto.
Qed.

Lemma good_GroupList : good GroupList_codec GroupList_ok.
Proof.
  eapply good_iso; [exact (good_pair _ _ _ _ good_opaque (good_pair _ _ _ _ good_uint64 (good_pair _ _ _ _ good_int64 (good_list 32 _ _ (good_fixed 32 fix_32)))))| | |].
  - now intros [].
  - now intros [x0 [x1 [x2 x3]]].
  - intros lim m. unfold GroupList_ok. cbn [fst snd]. tauto.
Qed.

Lemma good_GroupKick : good GroupKick_codec GroupKick_ok.
Proof.
  eapply good_iso; [exact (good_pair _ _ _ _ (good_fixed 32 fix_32) (good_pair _ _ _ _ good_opaque (good_pair _ _ _ _ good_bool good_GroupList)))| | |].
  - now intros [].
  - now intros [x0 [x1 [x2 x3]]].
  - intros lim m. unfold GroupKick_ok. cbn [fst snd]. tauto.
Qed.

Lemma good_GroupUpdate : good GroupUpdate_codec GroupUpdate_ok.
Proof.
  eapply good_iso; [exact (good_pair _ _ _ _ good_opaque good_GroupList)| | |].
  - now intros [].
  - now intros [x0 x1].
  - intros lim m. unfold GroupUpdate_ok. cbn [fst snd]. tauto.
Qed.

Lemma good_GroupMessage : good GroupMessage_codec GroupMessage_ok.
Proof.
  eapply good_iso; [exact (good_pair _ _ _ _ good_opaque (good_pair _ _ _ _ good_uint64 (good_pair _ _ _ _ good_opaque good_uint32)))| | |].
  - now intros [].
  - now intros [x0 [x1 [x2 x3]]].
  - intros lim m. unfold GroupMessage_ok. cbn [fst snd]. tauto.
Qed.

Lemma good_ChunkNew : good ChunkNew_codec ChunkNew_ok.
Proof.
  eapply good_iso; [exact (good_pair _ _ _ _ good_uint64 (good_pair _ _ _ _ good_uint64 (good_pair _ _ _ _ good_opaque (good_pair _ _ _ _ good_opaque (good_pair _ _ _ _ good_opaque (good_fixed 32 fix_32))))))| | |].
  - now intros [].
  - now intros [x0 [x1 [x2 [x3 [x4 x5]]]]].
  - intros lim m. unfold ChunkNew_ok. cbn [fst snd]. tauto.
Qed.

Lemma good_Chunk : good Chunk_codec Chunk_ok.
Proof.
  eapply good_iso; [exact (good_pair _ _ _ _ good_uint64 (good_pair _ _ _ _ (good_fixed 32 fix_32) good_opaque))| | |].
  - now intros [].
  - now intros [x0 [x1 x2]].
  - intros lim m. unfold Chunk_ok. cbn [fst snd]. tauto.
Qed.

Lemma good_DiskMessage : good DiskMessage_codec DiskMessage_ok.
Proof.
  eapply good_iso; [exact (good_pair _ _ _ _ (good_fixed 32 fix_32) (good_pair _ _ _ _ good_int64 (good_pair _ _ _ _ good_opaque good_bool)))| | |].
  - now intros [].
  - now intros [x0 [x1 [x2 x3]]].
  - intros lim m. unfold DiskMessage_ok. cbn [fst snd]. tauto.
Qed.

Lemma good_ServerRecord : good ServerRecord_codec ServerRecord_ok.
Proof.
  eapply good_iso; [exact (good_pair _ _ _ _ good_PublicIdentity (good_pair _ _ _ _ good_opaque (good_pair _ _ _ _ good_opaque good_bool)))| | |].
  - now intros [].
  - now intros [x0 [x1 [x2 x3]]].
  - intros lim m. unfold ServerRecord_ok. cbn [fst snd]. tauto.
Qed.

Lemma good_ClientRecord : good ClientRecord_codec ClientRecord_ok.
Proof.
  eapply good_iso; [exact good_PublicIdentity| | |].
  - now intros [].
  - reflexivity.
  - intros lim m. unfold ClientRecord_ok. cbn [fst snd]. tauto.
Qed.

Lemma good_SavedMessageKey : good SavedMessageKey_codec SavedMessageKey_ok.
Proof.
  eapply good_iso; [exact (good_pair _ _ _ _ good_uint32 (good_pair _ _ _ _ good_opaque good_int64))| | |].
  - now intros [].
  - now intros [x0 [x1 x2]].
  - intros lim m. unfold SavedMessageKey_ok. cbn [fst snd]. tauto.
Qed.

Lemma good_SavedKeys : good SavedKeys_codec SavedKeys_ok.
Proof.
  eapply good_iso; [exact (good_pair _ _ _ _ good_opaque (good_list 40 _ _ good_SavedMessageKey))| | |].
  - now intros [].
  - now intros [x0 x1].
  - intros lim m. unfold SavedKeys_ok. cbn [fst snd]. tauto.
Qed.

Lemma good_RatchetState : good RatchetState_codec RatchetState_ok.
Proof.
  eapply good_iso; [exact (good_pair _ _ _ _ good_opaque (good_pair _ _ _ _ good_opaque (good_pair _ _ _ _ good_opaque (good_pair _ _ _ _ good_opaque (good_pair _ _ _ _ good_opaque (good_pair _ _ _ _ good_opaque (good_pair _ _ _ _ good_opaque (good_pair _ _ _ _ good_opaque (good_pair _ _ _ _ good_opaque (good_pair _ _ _ _ good_uint32 (good_pair _ _ _ _ good_uint32 (good_pair _ _ _ _ good_uint32 (good_pair _ _ _ _ good_bool (good_pair _ _ _ _ good_opaque (good_pair _ _ _ _ good_opaque (good_pair _ _ _ _ good_opaque (good_list 48 _ _ good_SavedKeys)))))))))))))))))| | |].
  - now intros [].
  - now intros [x0 [x1 [x2 [x3 [x4 [x5 [x6 [x7 [x8 [x9 [x10 [x11 [x12 [x13 [x14 [x15 x16]]]]]]]]]]]]]]]].
  - intros lim m. unfold RatchetState_ok. cbn [fst snd]. tauto.
Qed.
