-Q theories Verif
theories/Base.v
theories/TagStackModel.v
theories/TagStackProofs.v
theories/TagStackProps.v
theories/IniModel.v
theories/IniMemProofs.v
theories/IniFileProofs.v
theories/IniDiskProofs.v
theories/IniProps.v
theories/XdrModel.v
theories/XdrProofs.v
theories/RpcModel.v
theories/RpcProofs.v
theories/CrpcModel.v
theories/CrpcProofs.v
theories/RpcProps.v
theories/HexModel.v
theories/BlobModel.v
theories/IdentityModel.v
theories/BlobProps.v
theories/SessionModel.v
theories/SessionProofs.v
theories/SessionProps.v
theories/RatchetModel.v
theories/RatchetProofs.v
theories/RatchetConvModel.v
theories/RatchetConvProofs.v
theories/RatchetSaveProofs.v
theories/RatchetProps.v
theories/RatchetCases.v
theories/AddrModel.v
theories/AddrProps.v
theories/Utf8Model.v
theories/UiModel.v
theories/UiProps.v
theories/StrconvModel.v
theories/ServerDbModel.v
theories/ServerDbProofs.v
theories/ServerDbProps.v
theories/AcctModel.v
theories/AcctProofs.v
theories/AcctProps.v
theories/MailModel.v
theories/MailProofs.v
theories/MailOnce.v
theories/MailKept.v
theories/MailProps.v
theories/SrvModel.v
theories/SrvProofs.v
theories/SrvProps.v
theories/ConnModel.v
theories/ConnProps.v
theories/GroupModel.v
theories/GroupProofs.v
theories/GroupProps.v
theories/GroupStoreProps.v
theories/GroupNetProps.v
theories/ChunkModel.v
theories/ChunkProofs.v
theories/ChunkProps.v
theories/SchedModel.v
theories/SchedProofs.v
theories/SchedProps.v
theories/CrashModel.v
theories/CrashProofs.v
theories/CrashDead.v
theories/CrashProps.v
theories/CrashCases.v
theories/SizeProofs.v
theories/WelcomeModel.v
theories/WelcomeProps.v
theories/SizeModel.v
theories/SizeProps.v
theories/MailSize.v
theories/MailSizeProps.v
theories/OnceProps.v
theories/ReqModel.v
theories/ReqProofs.v
theories/ReqProps.v
theories/AckModel.v
theories/AckProps.v
theories/KxModel.v
theories/KxProofs.v
theories/KxProps.v
theories/IdkxModel.v
theories/IdkxProofs.v
theories/IdkxProps.v
theories/IdkxRun.v
theories/IdkxRunProps.v
theories/IdkxCases.v
theories/E2eModel.v
theories/E2eProofs.v
theories/E2eProps.v
theories/PinModel.v
theories/PinProofs.v
theories/PinProps.v
theories/ImportModel.v
theories/ImportProofs.v
theories/ImportProps.v
theories/WinModel.v
theories/WinProofs.v
theories/WinProps.v
theories/LogModel.v
theories/LogProps.v
theories/WholeModel.v
theories/WholeMail.v
theories/WholeRatchet.v
theories/WholeProofs.v
theories/WholeProps.v
theories/ReconModel.v
theories/ReconProofs.v
theories/ReconProps.v
theories/LockModel.v
theories/LockProofs.v
theories/LockProps.v
theories/SrvLockModel.v
theories/SrvLockProofs.v
theories/SrvLockProps.v
theories/LookupModel.v
theories/LookupProofs.v
theories/LookupProps.v
theories/SecrecyModel.v
theories/SecrecyProofs.v
theories/SecrecyProps.v
theories/GapProofs.v
theories/GapProps.v
theories/NoticeModel.v
theories/NoticeProofs.v
theories/NoticeProps.v
theories/TalkModel.v
theories/TalkProofs.v
theories/TalkProps.v
theories/ConfModel.v
theories/ConfProofs.v
theories/ConfProps.v
theories/QuitModel.v
theories/QuitProps.v
theories/JamModel.v
theories/JamProps.v
theories/WhoModel.v
theories/WhoProps.v
theories/AnnModel.v
theories/AnnProps.v
theories/FmtModel.v
theories/FmtProps.v
theories/KeepModel.v
theories/KeepProps.v
theories/SpaceModel.v
theories/SpaceProps.v
theories/SeenModel.v
theories/SeenProps.v
theories/TornProps.v
theories/HoleModel.v
theories/HoleProps.v
theories/TabModel.v
theories/TabProps.v
theories/SendModel.v
theories/SendProps.v
