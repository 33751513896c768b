{"id": "C01", "title": "Tag stacks are bounded containers of the advertised discipline", "statement": "A non-blocking tag stack created with depth d starts holding exactly the tags 0..d-1 and then behaves, for every sequence of Push and Pop calls, like a bounded LIFO stack: Pop returns the most recently stored tag, Pop fails with the underflow error exactly when nothing is stored, Push fails with the overflow error exactly when d tags are stored, and a failed call changes nothing. A blocking tag stack is a bounded FIFO queue starting as 0..d-1: it never fails, a Pop waits exactly when it is empty and a Push waits exactly when it is full.", "quantifier": "every depth and every finite sequence of Push and Pop calls with arbitrary arguments", "why_tests_cant": "the call histories are unbounded; tests try a few fixed sequences at one depth", "anchors": ["tagstack/tagstack.go: New, NewBlocking, Push, Pop, Depth"]}
{"id": "C02", "title": "No tag is ever handed to two holders at once", "statement": "If every caller only pushes back a tag it currently holds, then for every number of callers and every interleaving of their Pops and Pushes: no tag is held by two callers at the same time, no tag that is free is also held, every held tag is below the depth, held plus free tags are exactly the depth, and Push never fails.", "quantifier": "every depth, every number of goroutines, every schedule of pops and pushes obeying the return-what-you-hold discipline", "why_tests_cant": "the set of schedules is unbounded and the bad ones are rare interleavings", "anchors": ["tagstack/tagstack.go: Push, Pop", "zkclient/zkclient.go: tagStack, tagCallback", "zkserver/zkserver.go: sessionNtfn, handleSession"]}
{"id": "C03", "title": "The ini database is a faithful two level map", "statement": "For every history of NewTable, DelTable, Set, Get, Del, Tables and Records on a freshly opened database, Get returns the value of the last successful Set for that table and key not followed by a Del of it or a DelTable of its table, and the not-found error otherwise; Set and Del on a missing table fail and change nothing; operations on one table never affect another.", "quantifier": "every finite history of operations with arbitrary table names, keys and values", "why_tests_cant": "histories are unbounded; tests only exercise a handful of keys", "anchors": ["inidb/inidb.go: New, NewTable, DelTable, Set, Get, Del, Tables, Records"]}
{"id": "C04", "title": "Save followed by reopen gives back the same data", "statement": "Whatever order the in-memory maps happen to be iterated in, saving a database and opening the file again yields the same table/key/value records, provided names, keys and values stay clear of the ini syntax and the unnamed table is not mixed with named ones. When the unnamed table has records and some named table has records too there is an iteration order after which records reappear under the wrong table, and a table name with a newline can make the file impossible to open.", "quantifier": "every database contents and every iteration order of the Go maps", "why_tests_cant": "Go randomises map iteration, so a test passes or fails by luck, and contents are unbounded", "anchors": ["inidb/inidb.go: Save, New"]}
{"id": "C05", "title": "A crash during Save never loses both the old and the new database", "statement": "At every point at which the process can die inside Save, the directory still contains, in the main file, the newest backup or the temporary file, the complete contents of the database before the call or after it; outside the window between the two renames the main file itself is one of the two.", "quantifier": "every previous directory content, every new contents and every crash point", "why_tests_cant": "tests do not kill the process between two system calls", "anchors": ["inidb/inidb.go: Save"]}
{"id": "C06", "title": "Backups are bounded and the newest ones are kept", "statement": "After a successful Save with backup depth n, at most n backup files of that database remain, those that remain are the n with the greatest time stamps, and no file that is not a backup of this database is removed.", "quantifier": "every directory listing, every depth and every history of saves at increasing times", "why_tests_cant": "directory contents and histories are unbounded", "anchors": ["inidb/inidb.go: prune, Save"]}
{"id": "C07", "title": "Shared blobs unpack to what was packed and decrypt to what was encrypted", "statement": "Unpacking a packed (salt, nonce, data) or (nonce, data) gives back exactly those parts, decrypting an encrypted blob with the same key gives back the message, any blob of at least the header length unpacks and repacks to itself, and unpacking crashes the process exactly when the blob is shorter than the header.", "quantifier": "every salt, nonce, key, message and every blob of any length", "why_tests_cant": "inputs are arbitrary byte strings coming from other users; tests use well formed ones", "anchors": ["blobshare/blobshare.go: PackSaltNonce, UnpackSaltNonce, PackNonce, UnpackNonce, Encrypt, Decrypt", "zkclient/push.go: step2IDKX, step3IDKX"]}
{"id": "C08", "title": "A freshly made identity verifies and survives marshalling", "statement": "An identity returned by New verifies; changing name or nick and calling RecalculateDigest yields one that verifies; marshalling and unmarshalling a public identity that verifies returns an equal identity, and unmarshalling never returns an identity whose digest or signature does not check.", "quantifier": "every name, nick, key material and every marshalled byte string", "why_tests_cant": "the inputs are arbitrary strings and keys", "anchors": ["zkidentity/zkidentity.go: New, RecalculateDigest, Verify, Marshal, UnmarshalPublicIdentity"]}
{"id": "C09", "title": "A verified identity binds its keys and the name text", "statement": "If two public identities carry the same digest and both verify (no hash collision), then their signing key, encryption key, identity and the concatenation of name and nick are equal. The split between name and nick is not bound: the same signature verifies for a different name/nick pair with the same concatenation. Verification does not tie the identity to the encryption key either.", "quantifier": "every pair of identities", "why_tests_cant": "it is a statement about all pairs of inputs of a hash", "anchors": ["zkidentity/zkidentity.go: Digest, Verify"]}
{"id": "C10", "title": "Both ends of the session key exchange derive matching keys", "statement": "In every undisturbed run of Initiate against Respond, both succeed, the initiator's write key is the responder's read key and vice versa, the two sequence counters of each direction agree, and the responder learns exactly the initiator's public identity. A run that ends successfully, whatever was received, has read its boxes under the nonces 0 to 4, verified both proofs of the other side over the exact values they bind, and derived its session keys from all four shared keys.", "quantifier": "every pair of identities and every choice of random coins", "why_tests_cant": "the coins and identities range over an unbounded space", "anchors": ["session/kx.go: Initiate, Respond"]}
{"id": "C11", "title": "A session delivers a prefix of what was sent, in order, without duplicates", "statement": "After the key exchange, whatever an attacker on the wire drops, reorders, repeats or injects (assuming it cannot forge boxes), the sequence of messages returned by successful Reads before the first failed one is a prefix of the sequence of messages given to successful Writes of the peer; a message of one direction is never accepted in the other.", "quantifier": "every sequence of writes, every adversarial sequence of frames", "why_tests_cant": "the attacker's choices are unbounded", "anchors": ["session/kx.go: Read, Write, readWithKey, writeWithKey"]}
{"id": "C12", "title": "Session nonces never repeat under one key", "statement": "The counter nonce is a bijective increment, so in the first 2^64 messages written with one key no nonce is used twice, and after exactly 2^64 increments it wraps to the start.", "quantifier": "every starting counter and every number of messages", "why_tests_cant": "2^64 steps cannot be executed", "anchors": ["session/kx.go: incSeq, writeWithKey"]}
{"id": "C13", "title": "No key and nonce pair is used for two different boxes during the key exchange", "statement": "Within one run of the key exchange each (key, nonce) pair seals at most one message. (This is false of the code: the two directions share the step keys and the same counter values, so three pairs are used twice.)", "quantifier": "every run of the key exchange", "why_tests_cant": "tests never look at the nonces used inside the handshake", "anchors": ["session/kx.go: Initiate, Respond, writeWithKey"]}
{"id": "C14", "title": "A rejected oversized Write leaves the session usable", "statement": "When Write refuses a message because it is larger than the maximum, nothing is sent and the next Write can still be read by the peer. (This is false of the code: the sequence number is consumed before the size check, so every later message fails to decrypt.) Messages up to and including the maximum size are accepted by both ends.", "quantifier": "every message size and every history of writes and reads", "why_tests_cant": "needs a relation between two endpoints' counters over arbitrary histories", "anchors": ["session/kx.go: Write, writeWithKey, Read"]}
{"id": "C15", "title": "Ratchet: every delivered message decrypts to what was sent", "statement": "For two parties that completed the key exchange, and for every interleaving of encryptions on both sides with every loss, delay and reordering of messages that keeps gaps within the allowed limit, decrypting a genuine message for the first time returns exactly its plaintext.", "quantifier": "every interleaving of sends and receives of both parties, every message order within the limit, every plaintext", "why_tests_cant": "schedules and message counts are unbounded", "anchors": ["ratchet/ratchet.go: Encrypt, Decrypt, saveKeys, trySavedKeys, mergeSavedKeys, CompleteKeyExchange"]}
{"id": "C16", "title": "Ratchet: a failed decryption changes nothing", "statement": "If Decrypt returns an error the ratchet state is unchanged, so a forged, damaged or foreign message cannot disturb the conversation. The only exception is a genuine skipped message with empty plaintext.", "quantifier": "every ratchet state and every ciphertext", "why_tests_cant": "ranges over all states and byte strings", "anchors": ["ratchet/ratchet.go: Decrypt, trySavedKeys, saveKeys"]}
{"id": "C17", "title": "Ratchet: no message is accepted twice", "statement": "In a conversation as in C15, decrypting a ciphertext that was already decrypted successfully fails, however many other messages were exchanged in between.", "quantifier": "every history of the conversation and every replay point", "why_tests_cant": "histories are unbounded", "anchors": ["ratchet/ratchet.go: Decrypt, trySavedKeys, saveKeys"]}
{"id": "C18", "title": "Ratchet: skipped message keys are limited", "statement": "One call of Decrypt stores at most 80 new skipped keys per chain, a message that would skip more is refused without a state change, and old messages never go backwards: a counter below the current one is only ever decrypted with a stored key. For a header counter of 2^32-1 the loop that stores keys never terminates.", "quantifier": "every state and every message header", "why_tests_cant": "the counter space is 2^32 and the states are unbounded", "anchors": ["ratchet/ratchet.go: saveKeys, Decrypt"]}
{"id": "C19", "title": "Ratchet: saving and loading preserves the conversation", "statement": "Marshalling a ratchet and unmarshalling it gives a ratchet with the same keys, counters and unexpired skipped keys, so it encrypts and decrypts every later message identically; skipped keys older than the lifetime are dropped and nothing else is.", "quantifier": "every ratchet state and every clock value", "why_tests_cant": "states are unbounded", "anchors": ["ratchet/ratchet.go: Marshal, Unmarshal", "ratchet/disk/disk.go"]}
{"id": "C20", "title": "Ratchet: both parties derive the same chains", "statement": "After FillKeyExchange and CompleteKeyExchange on both sides in opposite roles, one party's sending keys are the other's receiving keys and vice versa, all derived from both halves. A completion that fails changes nothing but the stored half of the other side, and completing before sending one's own half never succeeds.", "quantifier": "every key material", "why_tests_cant": "ranges over all keys", "anchors": ["ratchet/ratchet.go: FillKeyExchange, CompleteKeyExchange"]}
{"id": "C21", "title": "Degenerate Diffie-Hellman points are refused", "statement": "A received ratchet public value is accepted exactly when, read as a little endian integer, it lies between 3 and 2^255-20 inclusive.", "quantifier": "every 32 byte string", "why_tests_cant": "2^256 inputs", "anchors": ["ratchet/ratchet.go: validateECDHpoint"]}
{"id": "C22", "title": "A stored message stays until its recipient acknowledges it", "statement": "Once a delivery to an account has succeeded, the message stays in the mailbox of that account, with exactly the delivered sender, time, payload and mark, through any interleaving of deliveries, logins, logouts, scans, failing connections, disables, enables, full disks and server crashes, until it has been received by the client (if the client acknowledges only what it received) or until the client has acknowledged a tag under which this very message was sent (whatever the client does). What a client receives was delivered, or comes from a file cut short by a crash or a full disk. While an honest client stays connected, server and client come to rest after a bounded number of steps, and then the mailbox is empty but for files that a full disk cut short (see C89), unless the account was disabled meanwhile, an error ended the session or the worker was stuck from the start. Two boundaries: deliveries that obtain the same nanosecond name overwrite each other; and a file that cannot be read stays for ever and keeps everything delivered after it from ever arriving.", "quantifier": "every interleaving of deliveries, sessions, goroutine steps, acknowledgements and crashes", "why_tests_cant": "histories and crash points are unbounded", "anchors": ["zkserver/account/account.go: Deliver Delete Online Offline", "zkserver/zkserver.go: handleSession sessionNtfn sessionWriter"]}
{"id": "C23", "title": "Within one session each stored message is offered once and in arrival order", "statement": "For every interleaving of deliveries, mailbox scans, connection failures and acknowledgements (honest or not) during one session, the client receives no stored message twice; if files are written in the order of their names it receives them in that order, which is the order of delivery; and whenever the worker waits without a signal it has offered every stored message (a file that a full disk cut short is no message, see C89), unless it met an error. Two boundaries: a delivery between Online and the first step of the worker leaves the worker stuck for the whole session, and an acknowledgement that overlaps a scan can produce an error that ends the session although nothing is wrong.", "quantifier": "every interleaving of deliveries, scans and acknowledgements", "why_tests_cant": "the bad schedules are rare races", "anchors": ["zkserver/account/account.go: Online Deliver Delete", "zkserver/zkserver.go: sessionNtfn sessionWriter"]}
{"id": "C24", "title": "The server attributes every message to the authenticated sender and answers with the request tag", "statement": "Whatever all clients send, every message file in a mailbox that was not there at the start carries as sender the identity proven in the session that asked for it, the payload asked for and the cleartext mark of the command used. A cache, proxy or search request gets exactly one answer, with the request's tag; the answer reports success exactly when the message was stored (resp. the nick is listed), and a refused request changes nothing (but for what a full disk leaves, see C89). An acknowledgement gets none and removes just the file offered under its tag; every other message ends the session or is answered once with its tag.", "quantifier": "every request and every authenticated identity", "why_tests_cant": "requests are arbitrary bytes from an untrusted client", "anchors": ["zkserver/zkserver.go: handleSession", "zkserver/cache.go: handleCache", "zkserver/cache.go: handleProxy", "zkserver/account.go: handleIdentityFind", "zkserver/account/account.go: Deliver"]}
{"id": "C25", "title": "A client message crashes the server exactly when its tag is 32", "statement": "Whatever all clients have sent before, handling a message crashes the whole server exactly when its header can be read and its tag equals the advertised depth 32 (which passes the range check and indexes past the end of the tag table); every other message is handled or ends that session only. In particular every account holder can stop the server at any time with one ping.", "quantifier": "every history of messages of any number of sessions, every message", "why_tests_cant": "one tag in 2^32 triggers it", "anchors": ["zkserver/zkserver.go: handleSession, tagDepth"]}
{"id": "C26", "title": "Account creation tokens are valid once and only until they expire", "statement": "A token is accepted exactly when it is pending and not expired; after it was presented it is gone, so presenting it again, any number of times and in any order with other tokens, fails. When two requests present the same token at the same time both can be accepted.", "quantifier": "every token database, every sequence of requests and, for the last part, every interleaving", "why_tests_cant": "sequences are unbounded and the race window is tiny", "anchors": ["zkserver/pending.go: validToken, prunePending", "zkserver/account.go: handleAccountCreate"]}
{"id": "C27", "title": "A rendezvous blob can be fetched under its PIN and is never overwritten", "statement": "When a rendezvous succeeds, fetching the returned PIN returns exactly the stored blob, whatever later rendezvous and fetches happen one after another; oversized blobs and expirations above the limit are refused without effect; an existing PIN is never reassigned. Two overlapping rendezvous can lose one of the two blobs although both were confirmed.", "quantifier": "every sequence of requests and random PIN draws", "why_tests_cant": "sequences and random draws are unbounded", "anchors": ["zkserver/rendezvous.go: handleRendezvous, handleRendezvousPull"]}
{"id": "C28", "title": "One session per account at a time, and when an account is locked out for good", "statement": "For every interleaving of connects, logins, requests, writes, disconnects and clean-up steps, at most one connection holds an account, and a login succeeds exactly when none does; a refused login closes the registered connection, which then handles no further message. The account can become free again exactly when no connection is lost (mailbox could not be listed at login) or wedged (handler waiting for room in the queue of a writer whose connection has failed); then it stays locked until the server restarts. A client can get there by not reading the answers to 34 requests; and the late clean-up of an old connection can drop the registration of its successor so that logins are refused and close nothing.", "quantifier": "every interleaving of the steps of any number of connections", "why_tests_cant": "the schedules are unbounded and the bad one needs a precise overlap", "anchors": ["zkserver/zkserver.go: preSession, handleSession, sessions", "zkserver/account/account.go: Online, Offline"]}
{"id": "C29", "title": "Disabling an account stops it and enabling restores it unchanged", "statement": "Disabling moves the whole account aside: deliveries to it fail and it can not log in; whatever happens on the server in between, short of creating or enabling that account, enabling brings the identical directory back. Both refuse to clobber an existing account, fail on unknown ones and leave other accounts untouched. The session of a disabled account is closed exactly if the request spells the identity in lower case, and a request whose string is the hexadecimal form of something that is not 32 bytes long crashes the server. While an account is disabled anybody who may create accounts can take its identity, after which it can not be enabled again.", "quantifier": "every account store and every identity string", "why_tests_cant": "ranges over all stores and strings", "anchors": ["zkserver/account/account.go: Disable, Enable, Disabled, Enabled", "zkserver/zkserver.go: handleIdentityDisable, handleIdentityEnable, listenUnix"]}
{"id": "C30", "title": "Looking up a nick and creating an account agree on the listed accounts", "statement": "Through any history of creating, listing, unlisting, disabling, enabling, delivering and deleting that starts with an empty server, every account record stays readable and names the account in whose directory it is. Looking up a nick returns the listed account with that nick whose directory comes first, and fails exactly if there is none. An account can be created exactly if no listed account, enabled or disabled, has the nick and the account does not exist or creation is forced; nothing else changes. If every account that has the requested nick is listed at each creation, all nicks differ. Otherwise two accounts of the same nick can come to be listed, and the one whose identity comes first takes the nick over.", "quantifier": "every history of creations, listings, disables and enables", "why_tests_cant": "histories are unbounded", "anchors": ["zkserver/account/account.go: Create, Find, Push, Pull"]}
{"id": "C31", "title": "The address book never files two identities under one nick", "statement": "Through every history of Add and Del, each entry is filed under its own nick, adding always ends and files the identity under its nick followed by the fewest underscores that make the nick free or already its own without disturbing any other entry, and what is found by identity is what its nick finds. An identity can however be filed under two nicks, and deleting it then leaves one of the two.", "quantifier": "every history of additions and deletions", "why_tests_cant": "histories are unbounded", "anchors": ["zkclient/addressbook/addressbook.go: Add, Del, FindNick, FindIdentity", "zkclient/addressbook.go"]}
{"id": "C32", "title": "Tab completion cycles through all candidates from the first match on", "statement": "For every list of non-empty candidates and every typed text, repeated completion starts at the first candidate with that prefix and visits every candidate once in order before repeating; without a match the text stays; whatever is typed in between, the index stays in range and every answer is a candidate or the typed text. An empty candidate (a contact with an empty nick) hides all others from an empty text.", "quantifier": "every candidate list and number of key presses", "why_tests_cant": "lists are unbounded", "anchors": ["zkclient/completion.go: completion, Next"]}
{"id": "C33", "title": "Only an invited user can join a group and each invitation works once", "statement": "A join request changes a group only if the receiver is the administrator, the sender holds an invitation with that token to that group, is in the address book and is not already a member, and then the sender becomes the last member, the generation grows by two and every member is told. In every sequence of events each successful join with a token needs an earlier invitation of that sender to that group with that token which no earlier request used up, and an invitation that has not been used works. The invitation is used up even if the group cannot be saved or the sender is unknown; its expiry date is never checked.", "quantifier": "every group state, invitation database and join request, any sequence", "why_tests_cant": "requests come from arbitrary remote users in any order", "anchors": ["zkclient/push.go: handleGroupJoin", "zkclient/groupinvites.go", "zkclient/groupchat.go"]}
{"id": "C34", "title": "Only the administrator can change a group", "statement": "A stored group changes only by an own command, by a valid join or part request at the administrator, or by a message of its first member. A kick, list, update or kill from anyone else leaves the whole client unchanged and is not answered; kick, invite and kill commands of a user who is not the administrator are refused. A part request removes exactly its sender, keeps the others in order and is honoured only at the administrator. What the administrator sends is taken over word by word, so generations may go backwards and the new list may name a different or no administrator.", "quantifier": "every group state and every message from every sender", "why_tests_cant": "senders are untrusted and message contents arbitrary", "anchors": ["zkclient/push.go: handleGroupKick, handleGroupList, handleGroupPart, handleGroupKill, _updateGroupList"]}
{"id": "C35", "title": "Group messages are shown only from members", "statement": "A group message changes nothing, is shown only if its sender is in the stored member list of that group and then always unless the client crashes, and what is shown is independent of any other group; a message that is sent goes to exactly the other members.", "quantifier": "every group store, sender and message", "why_tests_cant": "messages come from arbitrary users", "anchors": ["zkclient/push.go: handleGroupMessage"]}
{"id": "C36", "title": "A kick takes effect with the last acknowledgement, and sequential kicks both take effect", "statement": "The kick command sends the new list to all other members and changes no group; in every interleaving with other events the administrator's group becomes the list of the command exactly with the last acknowledgement, so two kicks of which the second is commanded after the first is complete leave neither in the group. This fails for overlapping changes: of two kicks commanded on the same group the one acknowledged last restores the other member, somebody who joins meanwhile is dropped, and a restart before the last acknowledgement forgets the kick.", "quantifier": "every interleaving of kicks, acknowledgements and other events", "why_tests_cant": "depends on network timing", "anchors": ["zkclient/groupchat.go: gcKick"]}
{"id": "C37", "title": "Group names are safe file names", "statement": "A group name accepted by the client contains only the allowed characters, in particular no path separator, so group files stay in the group directory. (Exceptions: the empty name and the two dot names are accepted; names with the letter x are refused.)", "quantifier": "every string", "why_tests_cant": "all strings", "anchors": ["zkclient/groupchat.go: validName, validLetters", "zkclient/push.go"]}
{"id": "C38", "title": "File transfer reassembles exactly the sent file", "statement": "For every file and every way the reads split it into chunks, the chunk messages have consecutive offsets and sizes within the limit and together are the file; and a receiver that processes the announcement and then the chunks in order, between messages of other senders that announce names without directories, reports the file complete exactly once, at the last chunk, under its name (behind as many 1s as needed to find a free one), where it then is, byte for byte. An empty file and one over the server's limit are not sent. It does not hold for two files of one sender under way at once: the one announced first is lost without an error if the second is larger. A contact who sends a file named like another contact's identity in hexadecimal keeps every file of the other from arriving.", "quantifier": "every file content, chunk size, read splitting, file name, prior disk, and interleaving with messages and disk failures of other transfers", "why_tests_cant": "files and splittings are unbounded", "anchors": ["zkclient/send.go: send, completeSend", "zkclient/chunk.go: handleChunkNew, handleChunk, doHandleChunk"]}
{"id": "C39", "title": "A completed download has the announced size and digest and never overwrites a file", "statement": "Whatever sequence of announcements and chunks remote users send, a file is reported complete only if its size and digest are those of the descriptor (the last announcement of its sender, as long as names have no directories), it appears where nothing was, and nothing that was on the disk outside the senders' own spool directories is changed or removed. The stored name is not confined to the download directory: a contact can have a file written to any place where there is nothing yet, and a name such as a/.. makes the client look for a free name for ever.", "quantifier": "every sequence of announcements and chunks with arbitrary contents and names, from any number of senders, with any disk failures", "why_tests_cant": "sequences and contents are chosen by a remote user", "anchors": ["zkclient/chunk.go: handleChunkNew, doHandleChunk"]}
{"id": "C40", "title": "Queued messages leave in order and none is lost or repeated", "statement": "For every interleaving of producers, queueing and sending, including failed attempts, the messages of each priority are sent in the order in which they were handed over, none left out or repeated; an attempt is always at the oldest one not yet sent; a low priority message is chosen only when every high priority message handed over before it has been sent; a producer never waits for ever; without new messages everything comes to rest, and then everything has been sent or the last attempt failed and nothing was handed over since. A failed message is not tried again by itself: it waits until something else is queued.", "quantifier": "every interleaving of producers, the queueing goroutine and the sending goroutine, and every outcome of attempts", "why_tests_cant": "schedules are unbounded", "anchors": ["zkclient/msg.go: scheduler, queueHi, scheduleCRPC, schedulePRPC"]}
{"id": "C41", "title": "Message bodies survive composition and fit the transport", "statement": "Decomposing a composed command returns the same command whatever compression was chosen, and compressing never makes a message longer. The protocol adds exactly 268 bytes to the data of a chunk (rounded up to a multiple of four) that does not shrink, and at most 272 to any; so a chunk always fits, on its way to the server and on to the recipient, if the message size exceeds the rounded chunk size by 276. Every server configuration with a chunk size of at most 262892, as the built in one, has that margin. A server configured with a chunk size from 262901 to 263168 is accepted by the client although no full chunk that cannot be compressed can then be sent.", "quantifier": "every command, payload and pair of limits", "why_tests_cant": "payloads and settings are unbounded", "anchors": ["zkclient/msg.go: compress", "zkclient/msg.go: crpc", "zkclient/msg.go: cacheCRPC", "zkclient/zkclient.go: welcomePhase", "zkserver/settings/settings.go: Load", "ratchet/ratchet.go: Encrypt"]}
{"id": "C42", "title": "Version strings are normalised", "statement": "The version string contains only allowed characters, normalising is idempotent and leaves strings of allowed characters unchanged.", "quantifier": "every string", "why_tests_cant": "all strings", "anchors": ["zkutil/zkutil.go: normalizeVerString, Version"]}
{"id": "C43", "title": "Which group messages crash the client, and how mentions are shown", "statement": "The only group events that crash a client are a kill of a group without members and a normal message of a member of which the message or the reader's nick is not plain ASCII. In plain ASCII the message is shown with exactly the first occurrence of the nick in any case coloured, and in general with at most the two colours added. A byte that is not valid UTF-8 followed by the reader's nick crashes every reader with a nonempty ASCII nick.", "quantifier": "every event, message and nick", "why_tests_cant": "only special Unicode letters trigger it", "anchors": ["zkclient/push.go: handleGroupMessage"]}
{"id": "C44", "title": "The client goes online exactly on a complete and consistent welcome", "statement": "The client goes online exactly if the message is a welcome of protocol version 9 in which every property is a known one whose every value can be read, and the last values of tag depth, server time, chunk size, message size and attachment size are all present, not the value for absent, the depth not below zero and the chunk size at most the message size; its limits are then exactly those values (the directory property may be missing and then counts as no; the flag required is not looked at). It is put offline exactly by an unwelcome. A welcome that is otherwise right but has a tag depth below minus one crashes it. A client that reads the welcome of a server gets exactly the settings of that server, and is online if the chunk size is not above the message size. The switches of the configuration file are on exactly if configured yes, in any case, off if no or absent, and anything else is refused. Whatever the file says, the message size stays the built in 263168: a configured chunk size above it makes every client refuse the server. A message of the day within 248 bytes of the message size, or longer, keeps everybody out; one that leaves 319 bytes does not.", "quantifier": "every message a server may send, every configuration file, message of the day and time", "why_tests_cant": "the server's message and the configuration are arbitrary", "anchors": ["zkclient/zkclient.go: welcomePhase", "rpc/rpc.go: SupportedServerProperties", "zkserver/zkserver.go: welcome", "zkserver/settings/settings.go: Load"]}
{"id": "C45", "title": "Crashes do not desynchronise a conversation, except at one point", "statement": "The ratchet file is always the one from before an operation or the one after it, and a received message is looked at only once the new one is in place. However often the two clients die at any other moment than between handing a message to the server and having saved the ratchet, what they read from disk afterwards sends and reads exactly as if they had never died, and a message within the limits is readable when it arrives. A death at that one moment in the middle of a chain costs exactly the next message (it reuses the number of the first and is refused by a peer that took it), and later ones are fine; a death there when the message began a new chain, and the peer took it, makes the conversation dead in both directions for ever: nothing either sends afterwards is readable until keys are exchanged again.", "quantifier": "every sequence of operations and crash points of two clients", "why_tests_cant": "tests do not kill the client between two steps, and the loss shows only in later messages", "anchors": ["zkclient/msg.go: cacheCRPC", "zkclient/push.go: handlePush", "zkclient/identity.go: updateRatchet", "zkclient/identity.go: loadRatchet"]}
{"id": "C46", "title": "Every XDR codec round trips, respects its limit and refuses truncated input", "statement": "For every message sent between client, server and clients and for every identity and state file: encoding a value whose fields fit and decoding the bytes, whatever follows them, gives back the same value and leaves exactly what follows; whatever bytes decode successfully, the value's fields are within the decoder's limit and as many bytes are used as the value's own encoding has; an encoding cut short at any point is refused. A message header followed by a payload decodes to the header and then the payload.", "quantifier": "every value of every structure, every decoder limit, every byte string", "why_tests_cant": "message values are unbounded", "anchors": ["rpc/rpc.go", "zkserver/zkserver.go", "zkclient/zkclient.go"]}
{"id": "C47", "title": "Issued tokens are well formed and fresh", "statement": "A token printed by the token tool is a 16 digit number that was not pending before, is pending afterwards with the requested expiry, and the printed form with spaces removed is accepted by the server.", "quantifier": "every random sequence, database and life time", "why_tests_cant": "random draws are unbounded", "anchors": ["tools/zkservertoken/zkservertoken.go", "tools/tools.go: InFours", "zkserver/pending.go: validToken"]}
{"id": "C48", "title": "Command history navigation stays in range", "statement": "For every sequence of commands entered and up/down key presses the history cursor stays within the history followed by an empty line, up shows the previous command and down the next one, and down past the end shows an empty line; commands without line breaks and not ending in a carriage return are read back from the history file in order.", "quantifier": "every sequence of key presses", "why_tests_cant": "sequences are unbounded", "anchors": ["zkclient/mainwindow.go: KeyHandler, appendHistory, readHistory"]}
{"id": "C49", "title": "Decoding a message from a contact does not crash the client", "statement": "Decoding a decrypted message from a contact either yields a payload or an error, except in exactly one case: a message with a known command that announces zlib compression but whose body does not start a zlib stream makes the client dereference a nil reader and crash, because the error of opening the stream is dropped.", "quantifier": "every decrypted byte string and every zlib implementation", "why_tests_cant": "The input is an arbitrary byte string chosen by a remote user; tests only ever decode messages the client itself composed.", "anchors": ["zkclient/push.go:478-692"]}
{"id": "C50", "title": "An identity string names exactly one identity", "statement": "The printed form of an identity is read back as that identity; a string is accepted exactly when it is, up to letter case, the printed form of a 32 byte identity. Different spellings (letter case) of the same identity are all accepted, so a string is not a unique key.", "quantifier": "every identity and every string", "why_tests_cant": "all strings and all 2^256 identities are meant; tests try a handful and never other spellings", "anchors": ["zkidentity/zkidentity.go:196-209 String2ID", "zkidentity/zkidentity.go:106-108 Fingerprint"]}
{"id": "C51", "title": "Payload lengths that crash a client during client to client key exchange", "statement": "A push from an unknown sender crashes the receiving client exactly when its payload has 1 to 23 bytes (step 2), and with a directory server exactly when it has 1047 to 1070 bytes of which the first 1047 decapsulate; a push from a sender whose exchange is half done crashes it exactly when the payload has fewer than 24 bytes (step 3). Otherwise the exchange data sealed under a stored blob key is found whatever the order in which the stored keys are tried.", "quantifier": "every payload, every set and order of stored blob keys", "why_tests_cant": "payloads are arbitrary bytes chosen by any account holder; the crash is a slice bound that no test exercises", "anchors": ["zkclient/push.go:54-120 step3IDKX", "zkclient/push.go:162-200 step2IDKX", "zkclient/push.go:293-320 step2IDKX2", "blobshare/blobshare.go:100-108 UnpackNonce"]}
{"id": "C52", "title": "Contacts keep their nicks across a restart", "statement": "If all contacts have different nicks, restarting the client files every contact under its own nick, whatever the order in which they are read. With equal nicks this fails: the contact that was added first has the plain nick until the restart, afterwards it belongs to the contact with the smaller identity, so the same command reaches another person.", "quantifier": "for all sets of contacts and all load orders", "why_tests_cant": "The order in which contacts were added and the order in which they are loaded differ in general; a test fixes one set and one order.", "anchors": ["zkclient/addressbook.go: loadIdentities", "addressBookAdd", "zkclient/addressbook/addressbook.go: Add"]}
{"id": "C53", "title": "Accounts are created only as the creation policy allows", "statement": "Whatever unauthenticated clients send, no existing account changes and a new one appears only through an allowed creation request for just that identity, with an empty mailbox. With a policy other than yes or token none appears. With policy token each creation presents a token the token tool printed before, and a token presented once is worthless until printed again, even if the creation failed. The reply reports success exactly if the account was made. The identity is not verified: with policy yes anybody can register another's identity under keys of their own, after which its owner cannot.", "quantifier": "every history of connections and token tool runs, every policy string, every message sequence", "why_tests_cant": "clients are unauthenticated and send arbitrary sequences of requests; tests cover single requests", "anchors": ["zkserver/zkserver.go: preSession", "zkserver/account.go: handleAccountCreate", "zkserver/pending.go: validToken", "zkserver/account/account.go: Create"]}
{"id": "C54", "title": "Group chats survive a restart of the client", "statement": "If every write and removal of a group file succeeded during a session, all groups with names of files are the same after a restart, as are the invitations sent and received, and the next session starts in such a state again. A group whose first save failed is reported as an error but exists until the next restart; a group that was killed or left while its file could not be removed comes back.", "quantifier": "every session of commands, messages and acknowledgements", "why_tests_cant": "sessions are unbounded and the invariant links memory and disk after every event", "anchors": ["zkclient/groupchat.go: _gcSaveDisk", "zkclient/groupchat.go: _deleteGroup", "zkclient/zkclient.go: loadGroupchat"]}
{"id": "C55", "title": "A join request goes only to somebody who sent that invitation", "statement": "If all received invitations have group names an ini file can hold, a join command sends a request only to a contact who sent an invitation to a group of that name with that token, and the first invitation of a contact to a group can be answered until the group is joined. A second invitation of the same contact to the same group is dropped. A contact who invites to a group whose name contains a line break makes all further joins and invitations fail for good, and can with a suitable name forge an invitation of somebody else.", "quantifier": "every history of invitations, joins and other events", "why_tests_cant": "group names and histories are chosen by remote users", "anchors": ["zkclient/groupinvites.go: joinDBAdd", "zkclient/groupinvites.go: getJoin", "zkclient/groupinvites.go: delJoin", "zkclient/groupchat.go: gcJoin", "zkclient/push.go: handleGroupInvite"]}
{"id": "C56", "title": "Members end up with the administrator's member list", "statement": "If messages of the administrator arrive in order and the administrator makes no change of a group while a kick of it is waiting for acknowledgements, then once everything has arrived and no kick is waiting, every member that started with the administrator's list has exactly the administrator's list while it is a member, and no such group otherwise.", "quantifier": "every interleaving of the administrator's events, deliveries and other events of the member", "why_tests_cant": "interleavings of two clients are unbounded", "anchors": ["zkclient/groupchat.go: gcKick", "zkclient/push.go: handleGroupJoin", "zkclient/push.go: handleGroupPart", "zkclient/push.go: handleGroupKick", "zkclient/push.go: handleGroupList", "zkclient/zkclient.go: _updateGroupList"]}
{"id": "C57", "title": "A message the server takes can be passed on, or it locks the recipient out", "statement": "A payload of n bytes goes into a Cache or Proxy request of 80 + 4*ceil(n/4) bytes on the wire, while the Push that passes it on takes 84 + 4*ceil(n/4). What fits into a Push arrives as it was stored, and if nothing longer is delivered, the size limit makes no difference to the mailbox (C22 and C23 hold as they are). The up to four longest payload lengths a request can carry are acknowledged and stored but can never be passed on: once such a message is stored it stays, and in no later execution does the recipient receive it or any message stored after it, however often they connect.", "quantifier": "for all payloads, limits, session states, mailbox states and unbounded executions of server and honest client (deliveries, connections, crashes, write failures, acknowledgements)", "why_tests_cant": "the failure needs one of four payload lengths at the very end of the range, and the lock-out is a statement about all later sessions", "anchors": ["session/kx.go:418-429", "zkserver/zkserver.go:101-114", "zkserver/zkserver.go:220-255", "zkserver/zkserver.go:308-319", "zkserver/account/account.go:429-500", "zkclient/msg.go:478-495"]}
{"id": "C58", "title": "A received message is handled at most once, even across crashes", "statement": "However often the server delivers a message again and however often both clients die (except between handing a message over and saving the ratchet, see C45), a client that has taken a message off its ratchet on disk never hands the same message on a second time, and a repeated delivery changes nothing on disk. The price: if the client dies after saving the ratchet and before handling the message, that message is never handled, although the server delivers it again.", "quantifier": "for all sequences of sends, deliveries, repeated deliveries and deaths of both clients of a conversation within 2^20 operations and the life time of saved keys", "why_tests_cant": "the crash points and redelivery orders are unbounded, and the claim depends on the order of saving and handling together with the ratchet never opening a message twice", "anchors": ["zkclient/push.go:453-476", "zkclient/identity.go:131-170", "zkclient/zkclient.go:1394-1430", "ratchet/ratchet.go:408-500"]}
{"id": "C59", "title": "A reply reaches the request it answers", "statement": "While requests waiting in the client carry only tags of the current connection and every heartbeat finds a free tag, no tag is held by two requests, the reply to a message runs the callback of this message once and no other reply runs a callback, the client neither panics nor closes the connection because of a tag, and every message queued waits, awaits its reply or has had its callback run. Outside these conditions it is false: a request queued when a connection is lost keeps its tag, so that its reply runs the callback of a message the server has not answered and then ends the new connection; a heartbeat without a tag goes out under tag 0; a message whose reply is lost with the connection, or for which there is no ratchet, is dropped without its callback. A server can make the client panic with an acknowledgement under the tag after the last, or by returning any other number as a tag.", "quantifier": "for all interleavings of queueing, sending in the three steps of cacheCRPC, failed writes, replies in any order, lost and new connections, and all tag depths below 2^32", "why_tests_cant": "the number of requests, failures and reconnections and their interleavings are unbounded, and the wrong callback needs a particular interleaving of two goroutines with a reconnection", "anchors": ["zkclient/msg.go:437-519", "zkclient/msg.go:45-195", "zkclient/zkclient.go:940-941", "zkclient/zkclient.go:1254-1277", "zkclient/zkclient.go:1320-1530", "tagstack/tagstack.go:50-100"]}
{"id": "C60", "title": "Acknowledgements delete only messages the client received", "statement": "A client that comes online with no acknowledgement left over from an earlier connection behaves as the honest client of C22: whatever is delivered to it is in its file on the server or with the client. A client that loses a connection with an acknowledgement still queued sends it in the next connection under the tag of the old one, and then this is false: a message can be deleted that the client never received, although the client acknowledged each message it received once and nothing else; and losing a single connection between receiving a message and acknowledging it can make the server wait for ever for room for the tag, so that the session does not end and the user cannot come online until another message arrives for them or the server is restarted.", "quantifier": "for all sequences of deliveries, connections, restarts, steps of the goroutines of the server, receptions and acknowledgements", "why_tests_cant": "the loss needs a lost connection between two particular steps and a tag that has moved to another message; the positive claim is about all schedules", "anchors": ["zkclient/zkclient.go:1381-1430", "zkclient/msg.go:45-195", "zkserver/zkserver.go:515-560", "zkserver/zkserver.go:258-330", "tagstack/tagstack.go:65-70"]}
{"id": "C61", "title": "A client that completes the session key exchange talks to the server it meant", "statement": "In every execution with any number of clients, servers and runs and an attacker who controls the network, when a client completes Initiate with a server key whose private part the attacker does not have at that moment, that server has completed exactly one run of Respond with this client and both have the same shared keys (the fourth provided the client's own key is not leaked either). From then on the attacker never learns the session keys or what the client writes, even if both long term keys leak later, and every box that opens under the client's read key was written by that run of the server under that number. This holds although boxes with the nonces 0, 1 and 3 are given no protection.", "quantifier": "for all interleavings of any number of runs of Initiate and Respond by any principals, all attacker messages derivable from everything sent, all later leaks of long term keys", "why_tests_cant": "A test runs one undisturbed exchange or a handful of corrupted ones; authentication quantifies over every message an active attacker can build from any number of parallel runs.", "anchors": ["session/kx.go:245-316 Initiate", "session/kx.go:323-397 Respond", "session/kx.go:204-223 recvProof", "zkclient/zkclient.go:748-774 sessionPhase"]}
{"id": "C62", "title": "What the server may conclude from a completed session key exchange", "statement": "As long as the private key belonging to the public key the server was told is not leaked, nobody but its owner can have the session keys or read what the server writes, and every box that opens under the server's read key was written by that user's client in a completed run with this server and the same keys; once such a box exists the keys stay secret for ever. Completing Respond alone proves nothing: somebody who knows only the public key of a user can complete it in the user's name, so the server marks the user as online, and what the server writes in such a run becomes readable if the user's key leaks later.", "quantifier": "for all interleavings of any number of runs of Initiate and Respond, all attacker messages derivable from everything sent", "why_tests_cant": "Tests exercise Respond against the real Initiate; whether an attacker without the private key can get as far, and what it can then read, is a statement about all attackers.", "anchors": ["session/kx.go:323-397 Respond", "zkserver/zkserver.go:650-707 preSession"]}
{"id": "C63", "title": "Whose keys a contact's conversation uses", "statement": "In every state a client can reach, including by crashes in the middle of a handler, the directory of an identity holds a record of that identity, and what is on file for a contact changes only when the user deletes the contact or, if there is neither a ratchet nor a half ratchet, to the record the event itself supplies (found, accepted with a password or sent in a key exchange). A push of one sender touches nothing of another contact that has a ratchet or half ratchet. A conversation ends only by the user's deletion or reset or by a cleartext reset under the contact's name, and begins only with an answer to the own half ratchet from its addressee or with a record sent when there was nothing. This does not protect a contact against the server: anyone who can send under the contact's name ends the conversation without a key, and while a known contact has no ratchet, with a directory, anyone may replace its record by an unsigned one with another key and share the new ratchet.", "quantifier": "for all reachable client states, all events (pushes of any bytes, find replies, shares, accepts, resets, deletions, messages), all crash points inside a handler, all cryptographic functions", "why_tests_cant": "A test exchanges keys between two well behaved clients; whether some sequence of messages, resets and crashes replaces the keys of an existing contact is a statement about all of them.", "anchors": ["zkclient/push.go:54-160 step3IDKX", "zkclient/push.go:162-291 step2IDKX", "zkclient/push.go:293-397 step2IDKX2", "zkclient/push.go:399-475 handlePush", "zkclient/reset.go:52-71 handleResetRatchet", "zkclient/zkclient.go:1053-1115 step1IDKX", "zkclient/identity.go:31-218", "zkclient/acceptclientfingerprint.go:112-209"]}
{"id": "C64", "title": "A key exchange or a reset ends with two ratchets that belong together, unless there is no directory or both reset", "statement": "An exchange begun by looking a contact up in the directory, or by accepting a record shared under a password, leaves both clients with the other's record and with ratchets that belong together after the two messages it needs, whatever keys and contacts either had before. With a directory a reset by one side does the same with three messages, whatever state the ratchets were in. Without a directory a reset leaves neither with a ratchet, and with or without one, when both reset at the same time the answers cross and both keep a half ratchet only; from then on neither a message nor another reset typed by the user sends anything or makes a ratchet.", "quantifier": "for all pairs of clients with any contacts and keys, all randomness, all passwords, all iteration orders of the key table; for being stuck: all sequences of messages and resets typed", "why_tests_cant": "There are no tests of the exchange between clients; the crossing needs a particular interleaving of two users, and that nothing leads out again is a statement about all continuations.", "anchors": ["zkclient/zkclient.go:1053-1115 step1IDKX", "zkclient/zkclient.go:1768-1840 reset", "zkclient/push.go:54-475", "zkclient/reset.go:52-71 handleResetRatchet", "zkclient/kxwindow.go:102-147", "zkclient/kxacceptwindow.go:108-178", "zkclient/acceptclientfingerprint.go:112-209"]}
{"id": "C65", "title": "What the client who begins a key exchange with a contact may rely on", "statement": "In every execution with any number of users and exchanges and an attacker who owns the server and everything between the clients, as long as the private key of the record the user began the exchange with is not leaked, nobody else learns the secret of the ratchet, a message key or a text sent in it (if that record was answered, both private keys are needed), and whatever opens under the receiving keys was sent by that contact, in exactly one answer with the same secret, under that number; and the contact then has the record of this user, unless the password of the exchange is known to others. That the exchange has ended says nothing: the client takes the answer under any key it ever stored, so that a former contact and the server can end an exchange the new contact never answered.", "quantifier": "for all interleavings of any number of exchanges and answers by any users with and without passwords, all messages derivable from everything sent, all leaks of private keys and passwords", "why_tests_cant": "There are no tests of the exchange between clients; secrecy and authentication quantify over every message an active attacker can build from any number of parallel exchanges.", "anchors": ["zkclient/zkclient.go:1053-1115 step1IDKX", "zkclient/acceptclientfingerprint.go:112-209", "zkclient/push.go:54-160 step3IDKX", "zkclient/blobkeys.go:28-84", "ratchet/ratchet.go:110-133 FillKeyExchange", "ratchet/ratchet.go:180-238 CompleteKeyExchange"]}
{"id": "C66", "title": "What the client who answers a key exchange may rely on", "statement": "As long as the private key belonging to the record a client was sent in a key exchange is not leaked, nobody but the owner of that key learns the secret of the ratchet, a message key or a text sent in it, and whatever opens under the receiving keys was sent under that number by the owner, in exactly one exchange with the same secret; if the owner began that exchange with a key that is not leaked, then with the key of the one who answered, whose record of the owner is right unless the password is known to others. It does not follow that the owner of the record took part, nor that the owner meant the one who answered: anybody can send another user’s record, and a contact can pass on an exchange so that a third user takes for theirs what a user sends to the contact.", "quantifier": "for all interleavings of any number of exchanges and answers by any users with and without passwords, all messages derivable from everything sent, all leaks of private keys and passwords", "why_tests_cant": "A test runs one undisturbed exchange; who else can have the keys, and whom the other side takes itself to be talking to, is a statement about all attackers.", "anchors": ["zkclient/push.go:162-291 step2IDKX", "zkclient/push.go:293-396 step2IDKX2", "ratchet/ratchet.go:110-133 FillKeyExchange", "ratchet/ratchet.go:180-238 CompleteKeyExchange"]}
{"id": "C67", "title": "Which server a client talks to", "statement": "A client has a session only with the key of a server record the user agreed to before (after being shown its address, certificate hash and fingerprint) or forced in with zkimport, and only on the certificate of that record, on one the client had refused and the user then accepted with /acceptnewcert, or on that of a connection on which an account was created; without imports and without account creations that break off after the reply, only the first two. A restart finds the server, the certificate and the identity the client was using, and apart from forced imports and a death inside /acceptnewcert nothing changes them except /acceptnewcert the certificate. It does not hold that the fingerprint determines the key, that every certificate in use was shown or refused since the last good session, or that a death while saving leaves a client that starts with its account: an imported record with another key shows the same fingerprint, an account creation that broke off makes the next one ask nothing, /acceptnewcert takes a certificate refused long ago, and dying can leave a client that greets a new user or never starts.", "quantifier": "for all sequences of starts, account creations, connections, imports, certificate changes and deaths at any point of saving, all certificates and identities the network shows, all hash and signature functions", "why_tests_cant": "A test runs one account creation against one honest server; which certificates and keys can ever be used is a statement about all histories, interruptions and servers.", "anchors": ["zkclient/welcome.go:135-202 KeyHandler", "zkclient/acceptserverfingerprint.go:113-129 KeyHandler", "zkclient/zkclient.go:1983-2050 finalizeAccountCreation", "zkclient/zkclient.go:954-986 goOnline", "zkclient/zkclient.go:679-724 saveServerRecord", "zkclient/zkclient.go:2119-2151 _main", "zkclient/mainwindow.go:390-410 cmdAcceptnewcert", "tools/zkimport/zkimport.go:145-213 importServerRecord"]}
{"id": "C68", "title": "Records carried by hand with zkexport and zkimport", "statement": "What zkexport prints for a server or for a client with an account is read by zkimport as exactly that server record or exactly that public identity, however its lines are broken on the way, and any part of the text that is left reads as nothing, as the same record, or as a client record with the same identity. After the user has said yes to a server record with a clean address, the next start of the client asks for an account at that address with that identity and certificate in place. At a server a client record is taken only by force, only for an account that exists, and only if no listed account has the nick; then only the identity of that account changes, and otherwise nothing. It does not hold that a cut server record is recognised as such, that a client can be brought to a server by importing its record, that a forced import checks the record, or that importing a server record stores no more than a server: the text of every server can be cut to pass for a client record, imports for unknown clients always fail, any keys are taken under the fingerprint of an account, and a line break in the address brings along an account with keys its author chose.", "quantifier": "for all server records, client files, identities and places where the text is broken or cut, all histories of the server accounts, all map iteration orders when the file is saved", "why_tests_cant": "A test exports and imports one record; which texts can be mistaken for another record, and what every record does to the file and the accounts, is a statement about all records, cuts and histories.", "anchors": ["tools/zkexport/zkexport.go:84-113 fetchServerRecord", "tools/zkexport/zkexport.go:182-198 fetchClientRecord", "tools/zkimport/zkimport.go:29-59 readBlob", "tools/zkimport/zkimport.go:61-121 importClientRecord", "tools/zkimport/zkimport.go:145-213 importServerRecord", "zkserver/account/account.go:123-168 Create"]}
{"id": "C69", "title": "What is typed in a window goes to the window's contact, and what arrives is shown in its sender's window", "statement": "If no two contacts are shown under one nick, no nick has white space in it or is 'console' or the name of a group, then every text typed in a conversation window and every /me goes to that window's own contact, or to exactly the members of its group other than oneself, and says what was typed up to white space at the end; /me goes to the window's own contact whatever anybody is called. Every message that arrives is shown exactly once and in the order of arrival, a private one in the window of its sender and a group's in the window with the group's name, as long as windows are closed only while no message is on its way to the screen; and the client does not stop over its windows if they are closed only while nothing waits to be drawn. Saved windows come back the same if their nicks differ and lead to them. Without these conditions none of it holds: of two windows with one nick the later one sends to the earlier one's contact, a nick with a blank sends to another contact, a contact with a group's name is shown what the group says, blanks send the nick itself, a window closed at the wrong moment shows a message in another contact's window or nowhere or stops the client, and a restored window may belong to somebody else.", "quantifier": "for all histories of messages, typed texts, opened, closed, queried and restored windows, changing contacts and groups, and all interleavings of the handler of messages, the commands and the drawing queue", "why_tests_cant": "The windows are found by position in a list that one goroutine shortens while another has looked a position up, and by nicks that other people choose; a test has to hit the schedule and the clash of names.", "anchors": ["zkclient/zkclient.go:151-198 printf", "zkclient/zkclient.go:241-282 focus", "zkclient/zkclient.go:342-401 groupConversation", "zkclient/zkclient.go:403-464 getConversation", "zkclient/zkclient.go:466-497 query", "zkclient/mainwindow.go:354-719 action", "zkclient/mainwindow.go:797-829 restoreConversations", "zkclient/push.go:696-719 handlePm", "zkclient/push.go:1219-1296 handleGroupMessage"]}
{"id": "C70", "title": "A conversation's log has what was shown in its window and nothing else", "statement": "Two conversation windows that write to one log file are of the same contact or of the same group, whatever nicks the contacts have chosen, and a contact without a slash in its nick is logged in the directory of logs. If that directory is there, an empty log read line by line has exactly the lines printed in the windows of its contact or group, in order, provided that no line has a line feed or an escape sequence in it and the nick stays the same; and while windows are closed only as in C69, every private message that is shown is in the log of the contact it came from and in no file of anybody else. Without these conditions: a nick with slashes puts the log in any directory its owner likes, or makes it vanish; a group whose name is not a valid one can share the log of another; and a message with a line feed in it leaves the same log as two messages, so anyone can put lines with any time and author into the logs of those who read them.", "quantifier": "for all contacts and groups, nicks, server names without a slash below 64 bytes, directories, and sequences of printed lines", "why_tests_cant": "The names of the files are built from nicks that others choose; tests use nicks that are words and messages of one line.", "anchors": ["zkclient/zkclient.go:151-198 printf", "zkclient/zkclient.go:200-239 log", "zkidentity/zkidentity.go:140-142 String"]}
{"id": "C71", "title": "A conversation arrives once, unchanged, in order, and complete unless a connection breaks or a client dies", "statement": "Two clients with an established ratchet write to each other through one server. However their connections break, clients die and start again, the server stops, and sessions of the mailbox begin and end: every message a client handles is one the other handed to its connection, with the same text, and none is handled twice. As long as at most 80 messages were lost on the way, they are handled in the order in which they were handed over, and every message is on its way, with the server, in a complete file in the mailbox, handled, lost with a connection or by the server before it was stored, or was taken out by a client that died between saving the ratchet and handling it; the last two kinds are never handled later. If none was lost or missed by a dying client, and the server and the receiver have come to rest, the receiver has handled exactly what was sent. It is false that nothing is lost: a message handed to a connection that breaks is not sent again, although both clients go on running, and a message whose receiver dies after saving the ratchet is refused when it is offered again.", "quantifier": "for all executions of two clients, their connections and the server of fewer than 2^20 ratchet operations, all texts, times, other messages in the mailboxes, and interleavings", "why_tests_cant": "It takes two clients, a server and failures of each at any point; a test runs some of the interleavings, and the tests of the repository run none of them together.", "anchors": ["zkclient/msg.go:437-519 cacheCRPC", "zkclient/push.go:450-476 handlePush", "zkclient/zkclient.go:1381-1430 handleRPC", "zkserver/cache.go:20-59 handleCache", "zkserver/account/account.go:313-361 Deliver"]}
{"id": "C72", "title": "A client that lost its connection reconnects, and one that was told to be offline mostly stays so", "statement": "A client has one connection at a time. A client that was online, whose user did not say /offline, that the server did not call unwelcome, and whose server kept its certificate, is online or will try to connect within 30 seconds, unless it crashes, and is online when that attempt succeeds. In less than 30 seconds it makes no more attempts by itself than it has had connections since it was started. After /offline, or after the server called it unwelcome, each goroutine that was waiting to reconnect makes at most one more attempt until the user says /online, and a client that has lost its only connection and meets another certificate makes none. What is false: attempts are 30 seconds apart (when connections break soon after they are made, as with two clients of one account, their number doubles every 30 seconds); a client stays offline after /offline (it connects again if it had reconnected by itself in the last 30 seconds, and /offline while it tries to reconnect does nothing); a client whose first attempt, or whose attempt after /online, failed tries again; and a connection that breaks does not crash the client (it does when it breaks just after it was made or while a message is written).", "quantifier": "for all interleavings of the goroutines that connect, read, write and reconnect, all outcomes of attempts, all times and all commands of the user", "why_tests_cant": "The goroutines of earlier connections are still there, and what happens depends on the order in which timers, broken connections and commands meet them; nothing of it is visible after one reconnection.", "anchors": ["zkclient/zkclient.go:954-986 goOnline", "zkclient/zkclient.go:989-1006 goOnlineAndPrint", "zkclient/zkclient.go:1008-1036 goOnlineRetry", "zkclient/zkclient.go:1186-1214 handleRPC", "zkclient/zkclient.go:1653-1654 welcomeUser", "zkclient/zkclient.go:1843-1866 writeMessage", "zkclient/mainwindow.go:413-428 action"]}
{"id": "C73", "title": "The goroutines of a client do not wait for each other in a circle", "statement": "Whatever a client is doing, and however many commands, messages and timers are being handled at once: if nothing new happens it comes to rest after finitely many steps, in whichever order its goroutines do them. Then nobody waits for anything but the next message of the server, nobody holds a lock, everything that was to be printed or sent has been handed on and tried, and nobody reads or changes what another goroutine is changing under a lock. This holds if the queue of the terminal library never lets its users wait and if the operations on the network that are awaited come to an end. Without the first the client can stop for good, whatever the size of the queue: the goroutine that draws waits for the client's lock while a goroutine that holds it waits for the queue. Without the second it stops too: it is locked while it connects, and when the server accepts the connection and says nothing nobody gets the lock again, not even for /offline.", "quantifier": "for all interleavings of any number of goroutines of the client, all ways through its functions, all fillings of its channels, and for every size of the queue of the terminal library", "why_tests_cant": "A deadlock needs several goroutines to stop at particular points at the same time; a test meets few of the interleavings, and the race detector does not report lock orders or full channels.", "anchors": ["zkclient/zkclient.go:151-198 printf", "zkclient/zkclient.go:241-282 focus", "zkclient/zkclient.go:342-464 groupConversation", "zkclient/zkclient.go:954-986 goOnline", "zkclient/zkclient.go:1186-1550 handleRPC", "zkclient/zkclient.go:499-570 listConversations", "zkclient/msg.go:60-205 scheduler", "zkclient/msg.go:437-519 cacheCRPC", "zkclient/push.go:399-694 handlePush", "zkclient/groupchat.go:86-540 gcKick", "zkclient/mainwindow.go:354-719 action"]}
{"id": "C74", "title": "One client of the server cannot hold up another", "statement": "Whatever the clients of a server did and however many there are: a goroutine of the server that cannot go on waits for its own client, for a channel of its own session, or for a lock whose holder gets on although no client ever does anything again and lets go after a bounded number of its own steps, in which it waits for no client and no channel; a lock has one holder at a time. If a client takes what is written to it and nothing of its session can go on, then each goroutine of the session waits for a message or an acknowledgement of that client or for new mail, has ended, waits for a writer that has ended after a failed write, or is the mailbox goroutine stopped by mail that came before it began; unless the writer has ended everything handed to it was written. This needs that closing a TLS connection ends by itself (Go 1.16 and later): otherwise one client that takes nothing can keep everybody else from logging in.", "quantifier": "every number of connections, every interleaving of their goroutines and every behaviour of the clients", "why_tests_cant": "deadlocks and mutual blocking appear only in certain interleavings of many sessions with clients that stop reading at certain moments", "anchors": ["zkserver/zkserver.go: preSession handleSession sessionWriter sessionNtfn socketHandler", "zkserver/cache.go", "zkserver/account.go", "zkserver/rendezvous.go", "zkserver/account/account.go: Find Deliver Delete Online Offline send", "session/kx.go: Respond regenerateEphemeral", "debug/debug.go: log", "tagstack/tagstack.go: Push Pop"]}
{"id": "C75", "title": "Lookups of nicks: one answer each, from the directory, and only if somebody asked", "statement": "With a server that answers what it is asked from its directory, the lookups that a client accepted since it was started are, one for one, those that have an outcome, that wait in its queue, that the server has, and that were lost with a connection. Each was asked for by the user or named by an invitation of a contact, no nick is looked up twice at the same time, and a key exchange begun by a lookup is with an identity that was in the directory under that nick. A lookup is accepted exactly when the client is online, the server has a directory, the nick is neither empty, nor its own, nor a contact, a tag is free, and no lookup of it is underway or lost. A lookup still in the queue survives a broken connection; one that the server had not answered is lost and its nick cannot be looked up again until the client is restarted. Replies are not matched with requests: a dishonest server makes the client begin key exchanges nobody asked for, and so does any contact, with anybody in the directory, by an invitation.", "quantifier": "every sequence of lookups, invitations, replies, connections lost and made, restarts and changes of address book and directory", "why_tests_cant": "which lookups are stuck or answered twice depends on the interleaving of requests, replies and connections", "anchors": ["zkclient/zkclient.go: find handleRPC (IdentityFindReply)", "zkclient/push.go: handleGroupInvite", "zkclient/addressbook.go: addressBookConversation", "zkserver/account.go: handleIdentityFind"]}
{"id": "C76", "title": "A stolen ratchet: which messages it opens", "statement": "Messages of one direction between two changes of direction form an epoch. Somebody who records every ciphertext of a conversation and has neither ratchet can read none of its messages. If they also get the ratchet of one party as it is at some moment, they can read exactly: the messages of the first epoch; those of the second if that party is its sender and has read nothing since; those that party has skipped (sent to it, not read, older than one it has read); the rest of the newest epochs of both sides; and the next epoch if it comes from the other side in answer to this party's own newest. So messages that were sent or read before the theft stay secret from epoch three on, and everything from two changes of direction after the theft on (one, if it is the turn of the party robbed) is secret again. The ratchet never forgets the secrets of the key exchange, so messages of the first epoch never become safe.", "quantifier": "every conversation, moment of the theft, party robbed and message, under perfect cryptography with a thief that only listens", "why_tests_cant": "a test can only show that one way to open a message fails, not that none exists, and for one conversation", "anchors": ["ratchet/ratchet.go: CompleteKeyExchange", "ratchet/ratchet.go: Encrypt", "ratchet/ratchet.go: Decrypt", "ratchet/ratchet.go: mergeSavedKeys", "ratchet/ratchet.go: Marshal"]}
{"id": "C77", "title": "How many lost messages a conversation survives", "statement": "Messages of one direction between two changes of direction form an epoch. A message that a party is given, and that it has not read before, is read exactly if no 81 messages with consecutive numbers of one epoch, sent to that party before it, are unread. In particular it is read if at most 80 earlier messages are missing. If 81 consecutive messages of an epoch never arrive, then no later message of that direction is ever read, also after changes of direction, until the contact is reset.", "quantifier": "every conversation, order of delivery, loss, duplication and damage of messages, and every message", "why_tests_cant": "the losses can be anywhere, in any number and over any number of changes of direction", "anchors": ["ratchet/ratchet.go: Decrypt", "ratchet/ratchet.go: saveKeys", "ratchet/ratchet.go: maxMissingMessages", "zkserver/cache.go: handleCache"]}
{"id": "C78", "title": "Being told that a contact is disabled", "statement": "When the server refuses a message because its recipient is disabled, the console shows the recipient's identity each time. If it fails to store one for another reason the console says so and no window announces anything. A conversation window shows it exactly if it is the contact's window (by the nick of the address book) or that of a group with the contact which the user does not administer, no disabled account was ever announced in that window, and no earlier window is the contact's own and announces it for the first time just now. So a window announces one disabled account in its life, a second one is not announced in it; and two refused messages in a row reach all windows concerned. In windows of groups the user administers the user is asked to kick the contact, a member or not. The program dies exactly if the loop comes to the window of a group without members.", "quantifier": "every sequence of refused messages, windows opened and closed, and changes of the address book and the groups", "why_tests_cant": "what is shown depends on the order of the windows and on everything shown before", "anchors": ["zkclient/zkclient.go: handleDisabledUser", "zkclient/zkclient.go: handleRPC", "zkserver/cache.go: handleCache"]}
{"id": "C79", "title": "Who reads what is said in a group", "statement": "With any number of clients, of which some may run another program, and with messages that may be lost: what is shown to somebody as said by an honest member in a group was said by that member in a group of that name with the reader on the member's list, in the order in which it was said and, but for the colour of the reader's nick, as it was said; and no more often than that list names the reader, so at most once with lists that name nobody twice. If none of it is lost, and the reader has the speaker on its list of the group whenever some of it arrives (and does not crash in colouring its nick), all that has arrived was shown and the rest is on its way. As long as somebody is not on the speaker's list, nothing the speaker says in the group is sent to them. It is the speaker's list that counts and not the administrator's: somebody whom the administrator kicked, with all acknowledgements, still reads what members say who have not read of it; and groups are told apart only by name, so what is said in a group of one administrator may be shown in a group of another.", "quantifier": "every number of clients; every sequence of commands and arrivals and losses; every behaviour of other programs", "why_tests_cant": "it is about all interleavings of any number of clients that change their groups while they speak", "anchors": ["zkclient/groupchat.go: gcMessage", "zkclient/push.go: handleGroupMessage", "zkclient/push.go: handlePush", "zkclient/msg.go: scheduleCRPC"]}
{"id": "C80", "title": "The client does what its configuration file says", "statement": "The client starts with exactly the settings that its configuration file says: for each of the thirteen keys the last value in its section before the first broken line, and the built-in value if there is none; yes and no in any case, paths with ~ for the home directory, and colours as attributes:foreground:background from fixed words. It refuses to start if one of these values is none of the allowed, and if a file given with -cfg is missing or has a broken line. In the file of the default name a broken line is not reported and whatever follows it might as well not be there, also a root directory, and a file that cannot be read counts as empty; keys that mean nothing are ignored. The attribute none is refused although the file that the client writes lists it; and with savehistory every line typed goes to the history file, messages too.", "quantifier": "every configuration file; every home directory", "why_tests_cant": "files are unbounded and what counts depends on the lines before", "anchors": ["zkclient/settings.go: ObtainSettings", "zkclient/settings.go: colorToAnsi", "zkclient/settings.go: textToColor", "zkclient/settings.go: iniBool", "zkclient/zkclient.conf.go: defaultConfigFileContent", "zkclient/mainwindow.go: appendHistory"]}
{"id": "C81", "title": "What quitting loses", "statement": "If /quit without force ends the program after the sender has answered with its depth then all messages handed to the scheduler have been sent, in order, but for the last 17 urgent and the last 5 other ones at most, those that the queueing goroutine has not put in the queues; none is lost if there are none of these. If the sender answers that something is queued then the program stays and the queue goes on as before. While the sender is sending it does not answer, and then the program ends whatever is queued: any number of messages may be lost without force. Even with the answer that nothing is queued a message just typed may be lost.", "quantifier": "every interleaving of the goroutines; every number of messages; every moment of quitting", "why_tests_cant": "the loss depends on where the goroutines are when the command is typed", "anchors": ["zkclient/mainwindow.go: action", "zkclient/msg.go: queueDepth", "zkclient/msg.go: scheduler"]}
{"id": "C82", "title": "A message that is too long stops all others", "statement": "If everything else works then an attempt to send a queued message works exactly if its length on the wire, which follows from the lengths of its payload before and after compression, is within the limit of the session. A private message of at most 262932 bytes is within the limit of every server of this project; one of 262937 bytes or more that does not compress is not. A message over the limit is never sent as long as there is a ratchet for its recipient; and from the moment when it is handed to the queue no message of its priority handed over later is ever sent, whoever it is for, and if it is urgent then no other message either. A message for whose recipient there is no ratchet any more counts as sent, whatever the connection does, and is lost. The attempt puts the session out of step: the next message within the limit counts as sent although the server cannot read it. A member of a group can bring the administrator's client to this by leaving with a reason of about 262900 bytes that does not compress: the server passes it on, and what the administrator's client queues then is over the limit.", "quantifier": "every message; every interleaving of the goroutines; every session state; every group and member list", "why_tests_cant": "that nothing is ever sent again is a statement about all continuations", "anchors": ["zkclient/msg.go: cacheCRPC", "zkclient/msg.go: scheduler", "zkclient/zkclient.go: writeMessage", "session/kx.go: writeWithKey", "zkclient/push.go: handleGroupPart"]}
{"id": "C83", "title": "A line shows who wrote it", "statement": "Let the address book be the result of any history of Add and Del, no contact's nick be 64 hexadecimal digits, and the times in front have the same length. If no nick has an escape character in it and one's own colour is different from that of the others, or else no contact has one's own nick, then two equal lines in a group's window are by the same person and both or neither made with /me; in a contact's window the text is the same too. If also no nick has a blank in it and nobody has one's own nick, the same is true of the logs. In different colours nobody's line is the same as one of one's own, whatever anybody is called. Without these conditions it fails: a contact with one's own nick is added without a warning and logged as oneself, a nick with '> ' in it makes the same log line as another contact with another text, with RESET in it the same line on the screen, and a contact called by the identity of a member who is not a contact makes the same lines as that member.", "quantifier": "every address book history; every map order; all texts; nicks; colours and times; every state of the groups", "why_tests_cant": "that no two messages of different people give one line is a statement about all pairs of nicks and texts", "anchors": ["zkclient/push.go: handleGroupMessage", "zkclient/push.go: handlePm", "zkclient/groupchat.go: gcMessage", "zkclient/mainwindow.go: action", "zkclient/addressbook/addressbook.go: FindIdentity"]}
{"id": "C84", "title": "What is said about the members of a group is so", "statement": "When a list of members or an update arrives from the administrator of the group, exactly the members who are in the stored list and not in the new one are announced as having left, and exactly those of the new one who are not in the stored one as having joined, each by the right name, on the console, and all but strangers also in the active window; the members of the list who are neither contacts nor oneself are listed, and no others. A kick or leave made by this client, received by a member with the same list, names exactly the one who is no longer in it. But a list from anybody else is announced in the same way and changes nothing: whoever knows the name of a group can have it announced that any member, the reader included, has left and that anybody has joined; and the group's window comes to the front, so that a text which would have gone to a contact goes to all members of the group. An administrator can have one member announced as kicked and remove another. The line about a member who leaves in the window of the administrator has no name in it.", "quantifier": "every state of the groups; every list; every sender; every history of windows in which nothing waits; every text", "why_tests_cant": "tests send lists from the administrator; who else may send one and what the user is typing at the time are universal", "anchors": ["zkclient/push.go: handleGroupList", "zkclient/push.go: handleGroupUpdate", "zkclient/push.go: diffGroupList", "zkclient/push.go: diffGroupListPrint", "zkclient/push.go: warnGroupListMissingKeys", "zkclient/push.go: handleGroupKick", "zkclient/push.go: handleGroupPart", "zkclient/zkclient.go: query"]}
{"id": "C85", "title": "A refused list of members costs one line", "statement": "The console gets a line about a list of members or an update that could not be used exactly if the group is unknown, has no members, or the sender is not its administrator, or if the administrator's list could not be written to the disk; otherwise nothing is done about it when the list is refused: the groups stay as they are, and no window opens for an unknown group. If the name in the list has no percent sign, the line is the fixed text, the error, \"%!v(MISSING)\" and the name. But the name is used as a format: with a name of 12 times n bytes, whoever is not the administrator of a group of that name makes the client build a line of at least n million bytes, for every n; and up to n = 21909 such a list is within the message size of the session, so a single message of any contact asks for more than 21 GB.", "quantifier": "every state of the groups; every sender; every list; every n; every behaviour of fmt for the directives that are not modelled; every compressor", "why_tests_cant": "tests use ordinary names; what a name does as a format, and how long a line it makes, is a statement about all names", "anchors": ["zkclient/push.go: handleGroupList", "zkclient/push.go: handleGroupUpdate", "zkclient/zkclient.go: _updateGroupList", "zkclient/zkclient.go: printf"]}
{"id": "C86", "title": "Saved windows are all restored or none", "statement": "After /save, /restore (and the start of the next session) queries exactly the nicks of the windows that were open, in their order and without the console, whatever order the database writes its records in; so under the conditions of C69 the same windows come back. If the client dies or gives up at any point of /save then, unless nothing has been done yet, nothing can be restored and no window is closed in vain, or all the new windows can: never a part of them. But the windows that were saved before are gone with the first step, and no file has a copy. With a file that has been changed by hand /restore may close all windows and open none.", "quantifier": "every list of windows below 2^31; every order of iteration over the maps; every directory; every point at which the program stops", "why_tests_cant": "the points at which the program may die and the orders of a map are many; windows are unbounded", "anchors": ["zkclient/mainwindow.go: saveConversations", "zkclient/mainwindow.go: restoreConversations", "zkclient/mainwindow.go: unmarshalConversation", "inidb/inidb.go: Save", "inidb/inidb.go: New"]}
{"id": "C87", "title": "What a full disk leaves of a database", "statement": "If the disk has room for the whole file then a saved database is read back as it was. If it has not, Save returns nil all the same and the file then either cannot be opened, or holds the first tables and records in the order they were written, all those whose lines were written whole among them, and perhaps the next record with its value cut short: no record that was not stored, and no other value. With no room at all any database is replaced by an empty one, and after more such saves than there are backups nothing that was stored is left.", "quantifier": "every database with clean texts and every order of iteration over its maps; every number of bytes left on the disk; every history of saves", "why_tests_cant": "the disk may become full at every byte of every file; databases are unbounded", "anchors": ["inidb/inidb.go: Save", "inidb/inidb.go: New", "inidb/inidb.go: prune"]}
{"id": "C88", "title": "What has come since the user last looked, and on which day", "statement": "As long as no other goroutine gets in between, the status bar lists exactly the windows in which something was printed that the user has not seen since, and colours exactly those where a message that names the user is among it; all that came in a window is in its console in order; and with separators on, what is unseen is what stands below the last separator (of a window never seen the first line stands above it). Whatever the goroutines do, each line that came from others stands under a line with its day and no such line repeats the day. The boundary: the user's own lines are not dated; a line that comes while a window is being closed may go into another window without it being listed; a mention is not coloured if the user turns away between its reading and its showing.", "quantifier": "every sequence of lines, looks, openings and closings of windows; every calendar; both settings of separators; for the days every interleaving", "why_tests_cant": "histories and windows are unbounded and what is listed depends on the whole history; the races need particular interleavings", "anchors": ["zkclient/zkclient.go: printf", "zkclient/zkclient.go: updateTS", "zkclient/zkclient.go: differentDay", "zkclient/zkclient.go: calculateStatus", "zkclient/zkclient.go: focus", "zkclient/push.go: handleGroupMessage", "zkclient/mainwindow.go: action"]}
{"id": "C89", "title": "What a full disk makes of a delivery", "statement": "When the disk is full while a message is stored, no other message, delivery, session or acknowledgement is touched; at most a file with the first bytes of the message is left. What that file is read as is determined by where it was cut: up to the whole message it is read as a message only at the ends of its fields, with the missing fields empty (zeros, no text, no mark), and as an error everywhere else. The boundary: the sender is told that the delivery failed, but the recipient receives what was left of the message wherever that can be read; and where it cannot, no message that is delivered later ever arrives, whatever happens.", "quantifier": "every message, every number of bytes written, every state of mailbox and session and every continuation", "why_tests_cant": "messages, cuts and what happens afterwards are unbounded", "anchors": ["zkserver/account/account.go: Deliver", "zkserver/account/account.go: Online", "zkserver/zkserver.go: sessionNtfn", "zkserver/cache.go: handleCache", "zkserver/cache.go: handleProxy"]}
{"id": "C90", "title": "What a server that dies while it creates or lists an account leaves behind", "statement": "Whenever the server dies while it creates an account or lists or unlists one (it lists each account that logs in if it has a directory), the other accounts are untouched, the account keeps its messages, and it is as before or as afterwards, or lacks the file that says whose it is, or is new and cannot take messages; other goroutines see the same meanwhile. With the file missing exactly the accounts whose directory comes before are still found by their nicks, and this stays so whatever is done later, until the account is created by force, which mends it and keeps its messages; if the account is disabled, no enabled account is found. The boundary: nicks that are listed can then be registered again by others, the owner cannot log in to a server with a directory (but can to one without), and an account whose creation was cut short can neither be created again nor be sent a message unless it is disabled or created by force.", "quantifier": "every history of the server before and after; every account and nick; every point at which the server may die", "why_tests_cant": "the moments are short and histories are unbounded", "anchors": ["zkserver/account/account.go: Create", "zkserver/account/account.go: Push", "zkserver/account/account.go: Pull", "zkserver/account/account.go: Find", "inidb/inidb.go: Save", "inidb/inidb.go: New", "zkserver/zkserver.go: handleSession"]}
{"id": "C91", "title": "Tab completes the last word of a command with a contact or a file and changes nothing else", "statement": "Whatever is typed, entered and completed before, Tab never panics and changes at most the last word of the line: the word after a command that takes a contact becomes a contact, and the path after /send and a contact becomes a file of a directory, or what the path stands for. If no nick is empty or holds a blank, the first Tab gives the first contact that starts with the typed word and further ones all contacts in order, and round; likewise the files of a directory whose names hold no blank, at the first path or after a slash or ~. The boundary: a nick with a blank stops Tab, and the message typed next goes to whoever the first word names; contacts that are new since the first Tab are not offered before Enter; a path that names no directory with files is not completed and no later one is before Enter, a slash or ~, or the completion of a contact; and a path whose home directory cannot be found is wiped.", "quantifier": "every sequence of lines, Tabs and Enters; every address book and every content of the disk at each Tab", "why_tests_cant": "sequences of keys, address books and directories are unbounded", "anchors": ["zkclient/mainwindow.go: KeyHandler", "zkclient/completion.go: completeNick", "zkclient/completion.go: completeNickCommandLine", "zkclient/completion.go: completeDir", "zkclient/completion.go: completeDirCommandLine"]}
{"id": "C92", "title": "/send sends the named file to the named contact with the description that was typed", "statement": "For every nick and file name without white space: /send with a nick of the address book and a file name hands exactly that file to the transfer, for exactly the contact who has that nick in the address book, whichever windows are open; the description is what follows, but for white space at its end, and it is empty if nothing follows or just the name of the file. Conversely, whatever is typed, a file goes only to the contact whose nick is the second word, and it is the file that the third word names. No window is lost or moved, and at most the one of the contact is opened. The boundary: a file whose name holds a blank, as Tab offers it, is taken for another with the rest as its description; and as /m looks at the open windows first, of two contacts who call themselves the same one may get the messages and the other the files.", "quantifier": "every command line; every address book; every list of open windows", "why_tests_cant": "names, descriptions and windows are unbounded and collide in many ways", "anchors": ["zkclient/mainwindow.go: action", "zkclient/addressbook.go: addressBookConversation", "zkclient/zkclient.go: getConversation"]}
