{
 "claims": [
  {
   "property": "C01",
   "status": "proved",
   "theorems": [
    "C01_lifo",
    "C01_in_range",
    "C01_fifo"
   ],
   "note": ""
  },
  {
   "property": "C02",
   "status": "proved",
   "theorems": [
    "C02_unique",
    "C02_unique_blocking"
   ],
   "note": ""
  },
  {
   "property": "C03",
   "status": "proved",
   "theorems": [
    "C03_faithful_map",
    "C03_opened_files",
    "C03_failed_unchanged",
    "C03_changed_dirty"
   ],
   "note": "For every history on a database opened with any contents."
  },
  {
   "property": "C04",
   "status": "proved",
   "theorems": [
    "C04_save_reopen_iff",
    "C04_history_save_reopen",
    "C04_mixed_loses",
    "C04_newline_name_unopenable",
    "C04_value_injection_refuted"
   ],
   "note": "Exact boundary: round trip for every iteration order iff the unnamed table is not mixed; findings as separate theorems."
  },
  {
   "property": "C05",
   "status": "proved",
   "theorems": [
    "C05_crash",
    "C05_reopen_after_crash_refuted"
   ],
   "note": "Every crash point; the window between the renames is exhibited as a finding."
  },
  {
   "property": "C06",
   "status": "proved",
   "theorems": [
    "C06_prune",
    "C06_stamps_sort_by_time",
    "C06_history"
   ],
   "note": "One save and every history of saves at increasing times."
  },
  {
   "property": "C07",
   "status": "proved",
   "theorems": [
    "C07_unpack_pack",
    "C07_pack_unpack",
    "C07_share_accept"
   ],
   "note": "scrypt and secretbox are parameters; secretbox opens what it sealed is a premise."
  },
  {
   "property": "C08",
   "status": "proved",
   "theorems": [
    "C08_new",
    "C08_rename",
    "C08_marshal"
   ],
   "note": "hash and signature scheme are parameters; correctness of signatures is a premise."
  },
  {
   "property": "C09",
   "status": "proved",
   "theorems": [
    "C09_binds",
    "C09_boundary_refuted",
    "C09_identity_unbound_refuted"
   ],
   "note": "No collision between the two hashed texts is a premise; the statement names both gaps."
  },
  {
   "property": "C10",
   "status": "proved",
   "theorems": [
    "C10_key_exchange",
    "C10_initiator_checks",
    "C10_responder_checks"
   ],
   "note": "Box, KEM and MAC laws are premises of C10_key_exchange; the two checks theorems hold for all functions and all received bytes."
  },
  {
   "property": "C11",
   "status": "proved",
   "theorems": [
    "C11_delivery",
    "C11_prefix",
    "C11_no_reflection"
   ],
   "note": "Attacker controls the byte stream; premise: no box opens under the key unless sent under it; fewer than 2^64 messages."
  },
  {
   "property": "C12",
   "status": "proved",
   "theorems": [
    "C12_nonces"
   ],
   "note": ""
  },
  {
   "property": "C13",
   "status": "proved",
   "theorems": [
    "C13_reuse_refuted",
    "C13_only_three"
   ],
   "note": "The property is false of the code: three reused pairs in every run (refutation), and no others when step keys differ."
  },
  {
   "property": "C14",
   "status": "proved",
   "theorems": [
    "C14_boundary",
    "C14_overflow_refuted"
   ],
   "note": "Exact size boundary proved; the usable-afterwards part is refuted (wrong-nonce law as premise)."
  },
  {
   "property": "C15",
   "status": "proved",
   "theorems": [
    "C15_simulation",
    "C15_first_delivery"
   ],
   "note": "Real ratchets answer exactly as a specification without cryptography, for every sequence of sends and deliveries of arbitrary unforged bytes. Premises: functional laws of the box, Diffie-Hellman agreement, distinct header keys up to the bound E, and that bytes opening under a key of the conversation were sealed by it."
  },
  {
   "property": "C16",
   "status": "proved",
   "theorems": [
    "C16_failure"
   ],
   "note": "All inputs, no cryptographic premises."
  },
  {
   "property": "C17",
   "status": "proved",
   "theorems": [
    "C17_no_replay"
   ],
   "note": "Same premises as C15."
  },
  {
   "property": "C18",
   "status": "proved",
   "theorems": [
    "C18_bound",
    "C18_gap",
    "C18_past",
    "C18_forever"
   ],
   "note": "C18_bound assumes opened boxes hold bytes and the two header keys of a party differ."
  },
  {
   "property": "C19",
   "status": "proved",
   "theorems": [
    "C19_restore"
   ],
   "note": "For ratchets whose fields have their Go sizes."
  },
  {
   "property": "C20",
   "status": "proved",
   "theorems": [
    "C20_key_exchange",
    "C20_failure"
   ],
   "note": "Premises: box and key encapsulation laws."
  },
  {
   "property": "C21",
   "status": "proved",
   "theorems": [
    "C21_points"
   ],
   "note": "All 32 byte values."
  },
  {
   "property": "C22",
   "status": "proved",
   "theorems": [
    "C22_reads",
    "C22_reads_old",
    "C22_deliver",
    "C22_delete",
    "C22_kept",
    "C22_kept_acked",
    "C22_genuine",
    "C22_drained",
    "C22_damaged_refuted",
    "C22_overlap_refuted"
   ],
   "note": "MailModel: one account, its mailbox and the goroutines of the session that is online, as program counters over all interleavings. The two boundaries named in the property are the _refuted theorems."
  },
  {
   "property": "C23",
   "status": "proved",
   "theorems": [
    "C23_once",
    "C23_order",
    "C23_awake",
    "C23_stuck_refuted",
    "C23_spurious_refuted"
   ],
   "note": "Same model as C22; names are the file names made from the time of arrival. The two boundaries named in the property are the _refuted theorems."
  },
  {
   "property": "C24",
   "status": "proved",
   "theorems": [
    "C24_total",
    "C24_one",
    "C24_stored",
    "C24_attributed",
    "C24_cache",
    "C24_proxy",
    "C24_ack",
    "C24_ping",
    "C24_find"
   ],
   "note": "one round per message (SrvModel.round); which file is held under a tag is a parameter here and is tracked in the mailbox model (C22/C23)"
  },
  {
   "property": "C25",
   "status": "proved",
   "theorems": [
    "C25_bitmap",
    "C25_crash",
    "C25_refuted"
   ],
   "note": "the boundary is exact; the user expectation (no crash) is refuted"
  },
  {
   "property": "C26",
   "status": "proved",
   "theorems": [
    "C26_refines",
    "C26_once",
    "C26_unknown",
    "C26_printed",
    "C26_overlap_refuted"
   ],
   "note": "Requests handled one after another at file level, every map iteration order; the race is shown for two interleaved handlers."
  },
  {
   "property": "C27",
   "status": "proved",
   "theorems": [
    "C27_refines",
    "C27_fetch",
    "C27_refused",
    "C27_never_reassigned",
    "C27_overlap_refuted"
   ],
   "note": "File level, every map iteration order; the race is shown for two interleaved handlers."
  },
  {
   "property": "C28",
   "status": "proved",
   "theorems": [
    "C28_one",
    "C28_login",
    "C28_second",
    "C28_recovers",
    "C28_never",
    "C28_entry",
    "C28_lost_refuted",
    "C28_flood_refuted",
    "C28_unregistered_refuted"
   ],
   "note": "recovery: the steps of the connections themselves (plus new mail for a handler waiting for a tag) free the account; fairness of the scheduler is not modelled"
  },
  {
   "property": "C29",
   "status": "proved",
   "theorems": [
    "C29_disable",
    "C29_enable",
    "C29_stopped",
    "C29_round",
    "C29_socket",
    "C29_session_closed",
    "C29_taken_refuted"
   ],
   "note": "for all stores; the round trip for all histories of the modelled operations from an empty store"
  },
  {
   "property": "C30",
   "status": "proved",
   "theorems": [
    "C30_readable",
    "C30_find",
    "C30_create",
    "C30_list",
    "C30_unique",
    "C30_unique_refuted"
   ],
   "note": "each operation is taken as one step; Find releases the lock between entries in the code"
  },
  {
   "property": "C31",
   "status": "proved",
   "theorems": [
    "C31_add",
    "C31_lookup",
    "C31_del",
    "C31_twice_refuted"
   ],
   "note": "No premises; iteration order of the Go map arbitrary."
  },
  {
   "property": "C32",
   "status": "proved",
   "theorems": [
    "C32_cycle",
    "C32_all",
    "C32_none",
    "C32_safe",
    "C32_empty_refuted"
   ],
   "note": "No premises."
  },
  {
   "property": "C33",
   "status": "proved",
   "theorems": [
    "C33_effect",
    "C33_issued",
    "C33_works",
    "C33_lost_refuted"
   ],
   "note": "Expiry is not modelled as checked because the code never reads it. C33_lost_refuted: the invitation is consumed though the join fails."
  },
  {
   "property": "C34",
   "status": "proved",
   "theorems": [
    "C34_who",
    "C34_stranger",
    "C34_commands",
    "C34_part",
    "C34_obeyed",
    "C34_list_unchecked_refuted"
   ],
   "note": "The refuted theorem is the boundary given in the statement."
  },
  {
   "property": "C35",
   "status": "proved",
   "theorems": [
    "C35_members_only",
    "C35_sent"
   ],
   "note": ""
  },
  {
   "property": "C36",
   "status": "proved",
   "theorems": [
    "C36_command",
    "C36_kick",
    "C36_sequential",
    "C36_overlap_refuted",
    "C36_join_lost_refuted",
    "C36_restart_refuted"
   ],
   "note": "The refuted theorems are the boundary given in the statement."
  },
  {
   "property": "C37",
   "status": "proved",
   "theorems": [
    "C37_names"
   ],
   "note": "path.Join is modelled on path components."
  },
  {
   "property": "C38",
   "status": "proved",
   "theorems": [
    "C38_arrives",
    "C38_chunks",
    "C38_splits",
    "C38_refused",
    "C38_handled",
    "C38_blocked_refuted",
    "C38_overlap_refuted"
   ],
   "note": "ChunkModel.v models send.go and chunk.go with a file system of paths, files and directories and disk faults; the file does not change while it is sent; SHA256 is a parameter."
  },
  {
   "property": "C39",
   "status": "proved",
   "theorems": [
    "C39_complete",
    "C39_preserved",
    "C39_only_complete",
    "C39_confined",
    "C39_announced",
    "C39_anywhere_refuted",
    "C39_hang_refuted"
   ],
   "note": "No symbolic links; os.Stat fails only for what is not there; nothing else changes the disk while a message is handled."
  },
  {
   "property": "C40",
   "status": "proved",
   "theorems": [
    "C40_order",
    "C40_oldest",
    "C40_overtake",
    "C40_idle",
    "C40_settles",
    "C40_accepts",
    "C40_retried_refuted"
   ],
   "note": "SchedModel.v models the scheduler of msg.go as a transition system with the channels and both goroutines; whether an attempt succeeds is arbitrary."
  },
  {
   "property": "C41",
   "status": "proved",
   "theorems": [
    "C41_compose_round",
    "C41_never_longer",
    "C41_size",
    "C41_chunk_fits",
    "C41_settings",
    "C41_margin_refuted"
   ],
   "note": "Round trip in RpcProps, sizes in SizeProps."
  },
  {
   "property": "C42",
   "status": "proved",
   "theorems": [
    "C42_normalize",
    "C42_version"
   ],
   "note": "Strings are arbitrary bytes, invalid UTF-8 included."
  },
  {
   "property": "C43",
   "status": "proved",
   "theorems": [
    "C43_only_colours",
    "C43_safe",
    "C43_ascii",
    "C43_crash_refuted",
    "C43_crashes",
    "C43_kill_refuted"
   ],
   "note": "unicode.ToUpper beyond ASCII is a parameter; the crash theorem assumes only that it keeps U+FFFD."
  },
  {
   "property": "C44",
   "status": "proved",
   "theorems": [
    "C44_online",
    "C44_panic",
    "C44_offline",
    "C44_server",
    "C44_login",
    "C44_settings",
    "C44_chunk_size_refuted",
    "C44_motd_refuted",
    "C44_switches",
    "C44_bad_switch",
    "C44_unwelcome"
   ],
   "note": "Exact characterisation of what makes the client go online, crash or stay offline, the welcome of a server with given settings read by a client, and the two settings under which no client can log in."
  },
  {
   "property": "C45",
   "status": "proved",
   "theorems": [
    "C45_atomic",
    "C45_crashes",
    "C45_readable",
    "C45_one_lost",
    "C45_dead"
   ],
   "note": "Positive part: C45_atomic, C45_crashes, C45_readable. The one bad moment: C45_one_lost (mid chain), C45_dead (new chain; assumes a box opens only under the key that sealed it and that chains begun with fresh keys have other message keys). CrashCases.v holds an instance of every hypothesis."
  },
  {
   "property": "C46",
   "status": "proved",
   "theorems": [
    "C46_prpc",
    "C46_crpc",
    "C46_file",
    "C46_framed"
   ],
   "note": "All 42 structures; go-xdr is modelled from its documentation."
  },
  {
   "property": "C47",
   "status": "proved",
   "theorems": [
    "C47_printed",
    "C47_accepted"
   ],
   "note": "The tool is run between 1970 and 10^12 seconds later, life time up to 2562047 hours."
  },
  {
   "property": "C48",
   "status": "proved",
   "theorems": [
    "C48_cursor",
    "C48_file"
   ],
   "note": "The history file is written completely or the line is lost with its end."
  },
  {
   "property": "C49",
   "status": "proved",
   "theorems": [
    "C49_bad_zlib_crash",
    "C49_decode_panics_only_zlib"
   ],
   "note": "The statement names the crashing case; zlib is a parameter."
  },
  {
   "property": "C50",
   "status": "proved",
   "theorems": [
    "C50_id_strings",
    "C50_case_refuted"
   ],
   "note": ""
  },
  {
   "property": "C51",
   "status": "proved",
   "theorems": [
    "C51_short_payload",
    "C51_right_key"
   ],
   "note": "The statement names the crashing lengths."
  },
  {
   "property": "C52",
   "status": "proved",
   "theorems": [
    "C52_restart",
    "C52_swap_refuted"
   ],
   "note": "loadIdentities reads the directories in some order; the second theorem uses the order of names."
  },
  {
   "property": "C53",
   "status": "proved",
   "theorems": [
    "C53_made",
    "C53_no",
    "C53_issued",
    "C53_once",
    "C53_reply",
    "C53_total",
    "C53_token_lost_refuted",
    "C53_squat_refuted"
   ],
   "note": "token theorems start from an empty token file"
  },
  {
   "property": "C54",
   "status": "proved",
   "theorems": [
    "C54_survive",
    "C54_unsaved_refuted",
    "C54_returns_refuted"
   ],
   "note": ""
  },
  {
   "property": "C55",
   "status": "proved",
   "theorems": [
    "C55_to_inviter",
    "C55_works",
    "C55_again_refuted",
    "C55_name_refuted",
    "C55_forged_refuted"
   ],
   "note": "The refuted theorems are the boundary given in the statement."
  },
  {
   "property": "C56",
   "status": "proved",
   "theorems": [
    "C56_converge"
   ],
   "note": "C36_overlap_refuted and C36_join_lost_refuted show that the condition on kicks is needed."
  },
  {
   "property": "C57",
   "status": "proved",
   "theorems": [
    "C57_sizes",
    "C57_delivered",
    "C57_taken_refuted",
    "C57_window",
    "C57_limit",
    "C57_lockout_refuted",
    "C57_small"
   ],
   "note": "The lock-out assumes delivery times that increase in the order of writing and an honest recipient; box_law is the functional law of secretbox."
  },
  {
   "property": "C58",
   "status": "proved",
   "theorems": [
    "C58_once",
    "C58_lost_refuted"
   ],
   "note": "Premises of C15, C17 and C45 (the record setting). The refuted theorem is the boundary given in the statement."
  },
  {
   "property": "C59",
   "status": "proved",
   "theorems": [
    "C59_own",
    "C59_all",
    "C59_reply_lost_refuted",
    "C59_no_ratchet_refuted",
    "C59_stale_refuted",
    "C59_heartbeat_refuted",
    "C59_panic",
    "C59_forged_refuted"
   ],
   "note": "C59_own: invariant that held and free tags are a permutation of the tags of the connection, with the callback each tag owes; C59_all: conservation of messages; the refutations are the boundaries the property states"
  },
  {
   "property": "C60",
   "status": "proved",
   "theorems": [
    "C60_honest",
    "C60_kept",
    "C60_lost_refuted",
    "C60_stall_refuted"
   ],
   "note": "C60_honest: simulation of the queue of the client by the honest client of MailModel.v, which carries over C22; the two refutations are the boundary the property states"
  },
  {
   "property": "C61",
   "status": "proved",
   "theorems": [
    "C61_agreement",
    "C61_forward_secrecy",
    "C61_authentic"
   ],
   "note": "Symbolic (Dolev-Yao) model with unboundedly many runs; boxes whose key and nonce are used twice (C13) get no protection. C10_initiator_checks ties the byte level code to the steps of this model."
  },
  {
   "property": "C62",
   "status": "proved",
   "theorems": [
    "C62_secrecy",
    "C62_authentic",
    "C62_forward_secrecy",
    "C62_login_refuted",
    "C62_later_leak_refuted"
   ],
   "note": "Symbolic (Dolev-Yao) model. The two refuted theorems are the boundary stated in the property: Respond completes without proof of possession of the client key."
  },
  {
   "property": "C63",
   "status": "proved",
   "theorems": [
    "C63_change",
    "C63_frozen",
    "C63_named",
    "C63_isolation",
    "C63_ended",
    "C63_begun",
    "C63_reset_anyone",
    "C63_replaced_refuted",
    "C63_takeover_refuted"
   ],
   "note": "reachable states include crashes between any two file operations; the three last theorems state the boundary that the property names; cases in IdkxCases.v"
  },
  {
   "property": "C64",
   "status": "proved",
   "theorems": [
    "C64_find",
    "C64_password",
    "C64_reset",
    "C64_reset_password_refuted",
    "C64_crossed_refuted",
    "C64_stuck"
   ],
   "note": "laws of the cryptographic functions are premises (laws), met by a toy instance in IdkxCases.v; the two refuted theorems and C64_stuck state the exceptions that the property names; that no stored key opens the crossing message by accident is a premise"
  },
  {
   "property": "C65",
   "status": "proved",
   "theorems": [
    "C65_secret",
    "C65_both",
    "C65_authentic",
    "C65_agreement_refuted"
   ],
   "note": "Symbolic (Dolev-Yao) model of the exchange between clients; the Diffie-Hellman values and later ratchet steps are left out."
  },
  {
   "property": "C66",
   "status": "proved",
   "theorems": [
    "C66_secret",
    "C66_authentic",
    "C66_claimed_refuted",
    "C66_misbound_refuted"
   ],
   "note": "Same model; the misbinding is an unknown key share."
  },
  {
   "property": "C67",
   "status": "proved",
   "theorems": [
    "C67_session",
    "C67_shown",
    "C67_restart",
    "C67_kept",
    "C67_import_refuted",
    "C67_unseen_refuted",
    "C67_stale_refuted",
    "C67_new_user_refuted",
    "C67_orphan_refuted",
    "C67_wedged_refuted"
   ],
   "note": "The positive part over all histories; the limits the statement names are the refutations."
  },
  {
   "property": "C68",
   "status": "proved",
   "theorems": [
    "C68_server",
    "C68_client",
    "C68_start",
    "C68_cut",
    "C68_cut_client",
    "C68_cut_refuted",
    "C68_account",
    "C68_new_refuted",
    "C68_rekey_refuted",
    "C68_injected_refuted"
   ],
   "note": "Proved for all records and cuts; base64 read as a stream is modelled up to the first padding. The four boundaries in the statement are separate theorems."
  },
  {
   "property": "C69",
   "status": "proved",
   "theorems": [
    "C69_recipient",
    "C69_text",
    "C69_group",
    "C69_me",
    "C69_shown",
    "C69_alive",
    "C69_restore",
    "C69_imposter",
    "C69_blank",
    "C69_imposter_refuted",
    "C69_space_refuted",
    "C69_group_name_refuted",
    "C69_close_refuted",
    "C69_dead_refuted",
    "C69_restore_refuted"
   ],
   "note": "The property states the conditions. The file of saved windows is C04/C05; white space outside ASCII is left out."
  },
  {
   "property": "C70",
   "status": "proved",
   "theorems": [
    "C70_own",
    "C70_inside",
    "C70_lines",
    "C70_messages",
    "C70_anywhere_refuted",
    "C70_unlogged_refuted",
    "C70_forged_refuted",
    "C70_group_refuted"
   ],
   "note": "Windows and messages come from the model of C69. The console, whose lines go to the debug log, is left out. ttk.Unescape is an argument with the law that text without ESC stays the same."
  },
  {
   "property": "C71",
   "status": "proved",
   "theorems": [
    "C71_once",
    "C71_order",
    "C71_kept",
    "C71_lost",
    "C71_all",
    "C71_delivered_refuted"
   ],
   "note": "Conditions: acknowledgements are honest and the clock of the server goes forward between deliveries (as in C22; C60 says when), the laws of the cryptography in crypto, no header nonce drawn twice, no error of the disk while the ratchet is saved, no file of a mailbox cut short (C89). The property states the boundary itself."
  },
  {
   "property": "C72",
   "status": "proved",
   "theorems": [
    "C72_one",
    "C72_reconnects",
    "C72_rate",
    "C72_offline",
    "C72_certificate",
    "C72_storm_refuted",
    "C72_offline_refuted",
    "C72_start_refuted",
    "C72_crash_refuted"
   ],
   "note": "The property states the boundary itself. Steps take no time in the model; an attempt that blocks blocks the client."
  },
  {
   "property": "C73",
   "status": "proved",
   "theorems": [
    "C73_alive",
    "C73_full_refuted",
    "C73_silent_refuted",
    "C73_exclusive"
   ],
   "note": "C73_alive: with a terminal queue that never blocks and a network that answers every run ends, and it ends with all locks free and all queues empty. C73_full_refuted and C73_silent_refuted: neither condition can be dropped. C73_exclusive: no reader or second writer beside a writer. Skeletons of all client functions that lock, queue or wait; conditions are free choices."
  },
  {
   "property": "C74",
   "status": "proved",
   "theorems": [
    "C74_independent",
    "C74_session",
    "C74_exclusive",
    "C74_close_refuted"
   ],
   "note": "Skeletons of all goroutines of the server with its locks and channels; files, maps and the log file are taken to be always accessible; panics are left out. C74_close_refuted is the boundary named in the statement."
  },
  {
   "property": "C75",
   "status": "proved",
   "theorems": [
    "C75_once",
    "C75_accepted",
    "C75_answered",
    "C75_lost_refuted",
    "C75_forged_refuted",
    "C75_invited_refuted"
   ],
   "note": "The limits are part of the property: C75_lost_refuted, C75_forged_refuted and C75_invited_refuted."
  },
  {
   "property": "C76",
   "status": "proved",
   "theorems": [
    "C76_state",
    "C76_wire",
    "C76_readable",
    "C76_server",
    "C76_forward",
    "C76_healing",
    "C76_first_refuted",
    "C76_second_refuted",
    "C76_next_refuted"
   ],
   "note": "Symbolic attacker over terms whose values are proved to be the bytes of the model. The first epoch (always) and the second (while its sender has received nothing since) are not forward secret: the halves of the key exchange are kept."
  },
  {
   "property": "C77",
   "status": "proved",
   "theorems": [
    "C77_exact",
    "C77_within",
    "C77_dead"
   ],
   "note": "Premise: no message is empty (an empty message that arrives late is refused, C16). Cryptography as in C15."
  },
  {
   "property": "C78",
   "status": "proved",
   "theorems": [
    "C78_told",
    "C78_once",
    "C78_second_refuted",
    "C78_all",
    "C78_kick",
    "C78_dies",
    "C78_console",
    "C78_other"
   ],
   "note": "Printing is immediate here (that it is queued by window number is in C69). C78_second_refuted: a second disabled member of a group is not announced."
  },
  {
   "property": "C79",
   "status": "proved",
   "theorems": [
    "C79_read",
    "C79_complete",
    "C79_off",
    "C79_kicked_refuted",
    "C79_mixed_refuted"
   ],
   "note": "Messages from one client to another arrive in order or not at all (C71) and their sender is certain (C15). C79_kicked_refuted and C79_mixed_refuted are the boundary that the statement names."
  },
  {
   "property": "C80",
   "status": "proved",
   "theorems": [
    "C80_settings",
    "C80_broken",
    "C80_root_refuted",
    "C80_unknown",
    "C80_first",
    "C80_none_refuted",
    "C80_history"
   ],
   "note": "Colour values are ASCII in C80_settings (strings.ToLower beyond ASCII is a parameter). C80_root_refuted and C80_none_refuted are the boundary that the statement names."
  },
  {
   "property": "C81",
   "status": "proved",
   "theorems": [
    "C81_answered",
    "C81_settled",
    "C81_stays",
    "C81_busy",
    "C81_lost_refuted",
    "C81_race_refuted"
   ],
   "note": "C81_lost_refuted and C81_race_refuted are the boundary that the statement names. Sent means that writing to the connection with the server succeeded."
  },
  {
   "property": "C82",
   "status": "proved",
   "theorems": [
    "C82_exact",
    "C82_never",
    "C82_dropped",
    "C82_stuck",
    "C82_stuck_all",
    "C82_text",
    "C82_lost_refuted",
    "C82_member_refuted"
   ],
   "note": "Boxes are 16 bytes longer than their text; zlib is a parameter. C82_lost_refuted and C82_member_refuted are the boundary that the statement names."
  },
  {
   "property": "C83",
   "status": "proved",
   "theorems": [
    "C83_screen",
    "C83_log",
    "C83_own",
    "C83_private",
    "C83_private_log",
    "C83_self_refuted",
    "C83_blank_refuted",
    "C83_reset_refuted",
    "C83_hex_refuted"
   ],
   "note": "ttk.Color and ttk.Unescape are parameters: RESET begins with an escape character and Unescape takes away exactly the colours. A line is what one call of printf shows; a line feed in a message is C70_forged_refuted. The _refuted theorems are the boundary that the statement names."
  },
  {
   "property": "C84",
   "status": "proved",
   "theorems": [
    "C84_true",
    "C84_missing",
    "C84_honest",
    "C84_forged_refuted",
    "C84_front_refuted",
    "C84_kick_refuted",
    "C84_nameless_refuted"
   ],
   "note": "A handler is one step; the windows are those of C69. The _refuted theorems are the boundary that the statement names."
  },
  {
   "property": "C85",
   "status": "proved",
   "theorems": [
    "C85_when",
    "C85_plain",
    "C85_bomb_refuted",
    "C85_sent_refuted",
    "C85_nothing"
   ],
   "note": "fmt.Sprintf is a library and only modelled for what occurs here; the colours are assumed to have no percent sign. The _refuted theorems are the boundary that the statement names."
  },
  {
   "property": "C86",
   "status": "proved",
   "theorems": [
    "C86_back",
    "C86_windows",
    "C86_crash",
    "C86_gone_refuted",
    "C86_damaged_refuted"
   ],
   "note": "Errors of writing to the temporary file are left out, as in C05. The _refuted theorems are the boundary that the statement names."
  },
  {
   "property": "C87",
   "status": "proved",
   "theorems": [
    "C87_room",
    "C87_less",
    "C87_empty_refuted",
    "C87_gone_refuted"
   ],
   "note": "That the directory itself has no room for a name is left out. The _refuted theorems are the boundary that the statement names."
  },
  {
   "property": "C88",
   "status": "proved",
   "theorems": [
    "C88_status",
    "C88_separator",
    "C88_complete",
    "C88_day",
    "C88_day_once",
    "C88_own_refuted",
    "C88_closing_refuted",
    "C88_mention_refuted"
   ],
   "note": "The calendar is any function from times to days; the widths and texts of the lines are left out. C88_day_once excludes the zero time (year 1). The _refuted theorems are the boundary that the statement names."
  },
  {
   "property": "C89",
   "status": "proved",
   "theorems": [
    "C89_cut",
    "C89_frame",
    "C89_received_refuted",
    "C89_lockout_refuted"
   ],
   "note": "AFull in MailModel. The answers to the sender are those of C24, where a failed Deliver is one outcome. The _refuted theorems are the boundary that the statement names."
  },
  {
   "property": "C90",
   "status": "proved",
   "theorems": [
    "C90_left",
    "C90_search",
    "C90_lasting",
    "C90_disabled",
    "C90_forced",
    "C90_taken_refuted",
    "C90_login_refuted",
    "C90_again_refuted"
   ],
   "note": "States that others can see; backups and temporary files are left out, as nothing opens them. The _refuted theorems are the boundary that the statement names. What a full disk does to the file is in C87."
  },
  {
   "property": "C91",
   "status": "proved",
   "theorems": [
    "C91_frame",
    "C91_nick",
    "C91_reach",
    "C91_file",
    "C91_dead",
    "C91_erased",
    "C91_stale_refuted",
    "C91_space_refuted"
   ],
   "note": "homedir.Expand and filepath.Glob are arbitrary functions, which may differ at each Tab. C91_dead, C91_erased and the _refuted theorems are the boundary that the statement names."
  },
  {
   "property": "C92",
   "status": "proved",
   "theorems": [
    "C92_sent",
    "C92_bare",
    "C92_only",
    "C92_windows",
    "C92_blank_refuted",
    "C92_two_refuted"
   ],
   "note": "The transfer itself is in ChunkModel. The _refuted theorems are the boundary that the statement names."
  }
 ]
}