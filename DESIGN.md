# Machine-checked model of zkc

Target: companyzero/zkc, sources in `/repo` (read as text, never built).
Prover: Coq 8.16.1, theories in `rocq/theories`, logical name `Verif`.

## Layout

For each component `X` there is

* `XModel.v`: the executable model.  Every definition cites the file and lines
  it models and states its simplifications.  No proofs.
* `XProofs.v`: specification predicates (small, independent of the model's
  helpers) and lemmas.
* `XProps.v`: the property theorems only, each closed by `exact`, followed by
  `Print Assumptions`, and accompanied by concrete `Example`s that meet the
  hypotheses.

Names ending in `_partial` prove less than the property text says; names ending
in `_refuted` exhibit a concrete execution of the model in which the expected
statement fails (a finding about the code).

## Conventions

* Bytes are `N` (below 256 where it matters); byte strings and Go strings are
  `list N`.
* Go errors are values of a result type; panics are an explicit outcome
  (`Panic`), never confused with an error return.
* Goroutines and channels are labelled transition systems: a state, explicit
  steps, and theorems quantify over all finite step sequences.
* Go maps are association lists or functions; whenever the iteration order is
  observable (inidb) the order is an explicit, universally quantified input.
* The file system is a map from names to contents; a crash is a prefix of the
  list of file-system effects of an operation.
* Cryptographic primitives (secretbox, sha256/512, HMAC, X25519, sntrup, ed25519,
  scrypt, zlib) and the random source are Section variables; the laws assumed of
  them are Section hypotheses that become visible premises of the theorems.  A
  concrete instance satisfying the laws is given next to the theorems so the
  premises are not contradictory.

## Plan per property

| id | modelled | method |
|----|----------|--------|
| C01 | `tagstack` arrays and channel | refinement to list stack/queue, induction on call sequence |
| C02 | tag stack + holders as LTS | invariant: free ++ held is a permutation of 0..d-1 |
| C03 | inidb maps | refinement to a function (table,key) -> option value, induction on history |
| C04 | inidb Save writer + go-ini parser, iteration order as input | parser/printer round trip; witness for the unnamed-table mix and newline |
| C05 | Save as a list of file system steps | all prefixes of the step list |
| C06 | prune over a sorted listing | list reasoning on sorted names |
| C07 | blobshare pack/unpack on byte lists, panic explicit | list reasoning, secretbox law |
| C08 | zkidentity New/Verify/Marshal over abstract ed25519/sha256 | unfolding + xdr round trip |
| C09 | Digest as hash of concatenation | injectivity of fixed-length suffixes; witness |
| C10 | Initiate/Respond as two programs exchanging frames | symbolic execution of the 10 steps |
| C11 | Read/Write counters, ideal box | invariant over adversarial frame sequence |
| C12 | incSeq on 24-byte lists | LE value arithmetic mod 2^64 |
| C13 | same as C10 with a log of (key, nonce) | witness, `_refuted` |
| C14 | writeWithKey with size limit | witness `_refuted` + positive limit lemma |
| C15 | two ratchets + set of messages in flight | global invariant relating both chains |
| C16 | Decrypt | case analysis over the whole function |
| C17 | as C15 | invariant: consumed keys are gone |
| C18 | saveKeys loop | induction on the gap; non-termination as absence of a fuel bound |
| C19 | Marshal/Unmarshal to the disk record | round trip |
| C20 | CompleteKeyExchange | DH commutativity |
| C21 | validateECDHpoint byte comparison | LE integer arithmetic |
| C22 | account store LTS with crash and full disk | invariant on history |
| C23 | worker / Deliver / Delete LTS | invariant; race witness |
| C24 | handleCache/handleProxy/dispatch | case analysis |
| C25 | tag check of handleSession | witness + characterisation |
| C26 | validToken over inidb | induction on requests; interleaved witness |
| C27 | rendezvous over inidb | induction on requests; interleaved witness |
| C28 | session registry LTS | invariant + witness |
| C29 | Disable/Enable renames | map reasoning + witness |
| C30 | Create/Find | invariant |
| C31 | address book map | invariant, induction on history |
| C32 | completion cursor | modular arithmetic |
| C33-C36 | group chat handlers of one client | invariant over events, case analysis + witnesses |
| C37 | group names as path components | list reasoning |
| C38, C39 | chunk sender and receiver over a file system map | induction on chunks |
| C40 | scheduler LTS | invariant |
| C41 | size arithmetic + xdr model | arithmetic, codec lemma |
| C42 | normalizeVerString | list reasoning |
| C43 | highlight slicing | arithmetic + witness |
| C44 | welcomePhase | case analysis + witness |
| C45 | send/crash/restart on top of the ratchet model | C15 invariant + witness |
| C46 | xdr encoders/decoders | generic round trip combinators |
| C47 | token tool loop | induction over random draws |
| C48 | history cursor | invariant |
| C49, C51 | decoding of received payloads, panic explicit | case analysis |
| C50 | String2ID and hex | list reasoning + witness |
| C52 | loadIdentities order | induction on the directory listing + witness |
| C53 | account creation on a connection | case analysis, token induction + witnesses |
| C54, C55 | group files and the two invitation databases | invariant over events, ini round trip + witnesses |
| C56 | one administrator, many members, messages in flight | invariant over a network of clients |
| C57 | size of requests and pushes, mailbox with a size limit | arithmetic, invariant over runs |
| C58 | receive, save ratchet, handle, with crashes | C17 + crash points + witness |
| C59 | client tags, callbacks, replies | permutation invariant over tags + witnesses |
| C60 | acknowledgements left over from an earlier session, against the mailbox model | invariant + witnesses |
| C61, C62 | the key exchange over symbolic terms, any number of runs, active attacker | inductive bound of the attacker's knowledge, invariant over runs + witnesses |
| C63 | client to client key exchange: files, blob keys, handlers as lists of file operations | classification of what a handler does, invariant over runs with crash points + witnesses |
| C64 | the same, two clients | symbolic execution of the handlers with the laws of the functions + witnesses |
| C65, C66 | the exchange between clients over symbolic terms, any number of exchanges, everything between the clients hostile | inductive bound of the attacker's knowledge, invariant over exchanges + witnesses |
| C67 | myserver.ini, account creation, certificate check, /acceptnewcert, import | invariant over histories with crash points, ini round trip + witnesses |
| C68 | zkexport, zkimport: records as text, import of clients and servers | codec and base64 round trips of prefixes, ini round trip, C30 + witnesses |
| C69 | conversation windows: two goroutines, the drawing queue, typed text, /q, /wc, /restore | invariant over interleavings, string lemmas + witnesses |
| C70 | log files of conversations: their names and their lines | lemmas about paths, induction over what is printed, composed with C69 + witnesses |
| C71 | a conversation from one client through connection, server, mailbox to the other, with both ratchets on disk; clients and server die, connections break | one invariant joining those of C15-C18, C22, C23, C45 and C58, kept by every step + witnesses |
| C72 | goroutines of a client that connect, read, write and reconnect, with timers | invariants over interleavings, counting + witnesses, one of them for every n |
| C73 | skeletons of all client functions that lock, queue or wait; goroutines, RWMutexes with waiting writers, bounded channels | ranks for everything that can be waited for, checked by computation on the skeletons; measure; invariants of dead states |
| C74 | skeletons of all goroutines of the server; locks, channels of sessions, clients that stop at any time | a lock discipline for programs (inductive), kept by every step; locks ranked; liveness of a session from what each goroutine may wait for + witnesses |
| C75 | lookups of nicks: find, its callers, replies, connections lost, restarts; directory of the server | accounting invariant (permutation), causes from the trace + witnesses |
| C76 | every key of a ratchet and every ciphertext of a conversation as terms; a thief with one ratchet and all ciphertexts | the bytes of C15's conversations are the values of the terms (invariant); a set closed under derivation, exact characterisation + witnesses |
| C77 | C15's conversations: which message a ratchet still opens when others are lost | invariant: what is unread above the highest read message is all of it; exact limit, both sides |
| C78 | handleDisabledUser over all windows, with windows opened and closed and groups changing in between | exact conditions for one reply; invariant that a counter is not 0 exactly if the window was told |
| C79 | any number of clients of GroupModel.v with a channel for every pair, in order, with losses and with clients that run another program | effect of each step on what one member said, what is on its way and what the other was shown; invariants over executions |
| C80 | settings.go and the configuration file the client writes; go-ini's LoadFile returns what it read before an error | specification: last assignment of every key before the first broken line; words of colours; equivalence |
| C81 | /quit in mainwindow.go and queueDepth in msg.go, on the outgoing queue of C40 | invariant of all interleavings; runs that lose messages |
| C82 | cacheCRPC and writeMessage as the attempts of the outgoing queue of C40; sizes of C41; session of C14; handleGroupPart | lengths; invariant of all interleavings |
| C83 | the lines of handlePm, handleGroupMessage, gcMessage, /me and /msg with their colours; address book of C31 | reading a line back; counterexamples |
| C84 | diffGroupList, diffGroupListPrint, warnGroupListMissingKeys and the notices of handleGroupList, handleGroupUpdate, handleGroupKick and handleGroupPart; query in a handler; groups of C33-C35, windows of C69 | what is said against what is stored; runs of the queue |
| C85 | the error line of handleGroupList and handleGroupUpdate, _updateGroupList's errors; fmt.Sprintf for text, %%, and %v with width and index (the rest of it is a parameter) | running a format; lengths |
| C86 | saveConversations, restoreConversations, unmarshalConversation; database and its files of C04-C06, windows of C69 | records of a history; prefixes of the effects |
| C87 | Save with the writes that a disk with little room takes; files of C04-C06 | room left on the disk; cut at any byte |
| C88 | printf with separators and updateTS, focus, calculateStatus, /wc, mention in handleGroupMessage | invariant against a history of what came and what was looked at; interleaved witnesses |
| C89 | Deliver on a full disk and the reading of what it leaves, in the mailbox model of C22 | decoding of every prefix of an encoding; frame; runs for every message and cut |
| C90 | the states of the account store that Create, Push and Pull pass through, with Find and the beginning of a session | case analysis of the states; invariant through every later history; sortedness of the search |
| C91 | the Tab key on the command line: which word is completed, with what, and for how long the candidates are kept | invariant over all keys; induction over the Tabs, on top of C32 |
| C92 | the command /send: contact, file, description and windows | string lemmas for the cutting out of the description; case analysis |

## Trusted base

### Prover

* The kernel of Coq 8.16.1 (`coqc`; `coqchk -o` is run now and then on the whole
  development).
* `Print Assumptions` stands below every theorem that the manifest lists.  For
  **every one of them** the answer is "Closed under the global context": no axiom,
  neither of ours nor of the library, is used by any theorem.  (Seven constants of
  `Coq.ssr.ssrunder` are axioms of modules that `Require Import Lia` and the like
  load; no theorem depends on them.)
* No plugin, functor, module type, `Declare Module`, admitted proof or switched off
  check is used.

### Premises of theorems

Cryptography, compression and similar library functions are variables, universally
quantified in each theorem.  Laws about them are premises, visible in the statement.
They come in two kinds.

* Functional laws, true of the real functions: a box opens to what was sealed
  (`box_law`), sealing adds 16 bytes, key encapsulation agrees, Diffie-Hellman
  agrees, a signature made verifies, inflate undoes deflate, sizes of keys.
* Idealisations, false of real functions for some inputs but only with negligible
  probability: no two different texts with equal hash *among those compared* (C09);
  bytes that open under a key were sealed under it (C11, C15, C17); a wrong nonce
  does not open (C14); header keys of different epochs differ (C15, C17, C45, C71); a box
  opens only under the key that sealed it (`key_law`, C45_one_lost, C45_dead and C71; in
  `laws`, C64); message keys of different chains and places differ (`keys_differ`, C71).
  Each is stated for the values that occur only where that was possible.
* C61, C62, C65 and C66 are about symbolic terms (Dolev-Yao): different terms are different
  bytes, and the attacker has only the listed ways to build and take apart terms.
  No such law is assumed of boxes with the nonces 0, 1 and 3, whose key and nonce
  are used twice.  `C10_initiator_checks` and `C10_responder_checks` say over bytes
  which checks and outputs the terms stand for; the correspondence itself is by
  reading.  In C65 and C66 the message keys are derived from the first secret of the
  ratchet alone; the Diffie-Hellman values and the later steps are left out, so that
  nothing is claimed there about leaks of ratchet states.  Without files more
  exchanges can take place than in the code (C63 has the checks), which makes the
  claims stronger; the witnesses of the `_refuted` theorems need no exchange that
  the files would forbid.
* C76 takes cryptography as perfect in the same sense: a thief computes with the
  functions, and a key that is not the value of a derivable term is unknown.  That every
  key stored and every ciphertext sent is the value of the term used for it is proved
  over the bytes (C76_state, C76_wire).  The thief listens only; with a stolen ratchet
  he could also write, which is not covered.  The long-term keys of the identity are not
  among what is stolen: with the private key of the key exchange and the recorded
  exchange both halves are had at once, so that the first epoch is lost then too.

For each kind a toy instance that satisfies all premises at once is given as an
`Example`, so that no theorem is empty.

### Behaviour of libraries recalled, not read

The sources are not in the sandbox; these are part of the trusted reading.

* `vaughan0/go-ini`: trimmed lines, `[section]`, `key = value` split at the first
  `=`, comments with `;` and `#`, an error for other lines. What LoadFile read before an error is returned along with it
  (C80); `mitchellh/go-homedir` expands `~` alone and before a slash, and refuses `~name`.
* `davecgh/go-xdr` xdr2: four byte alignment; a limit per opaque and slice in
  `UnmarshalLimited`; an end of input exactly before a field is `io.EOF`, inside one
  `ErrUnexpectedEOF`; allocation by announced length (exhausting memory is left out).
* `nacl/secretbox`: overhead 16; opening an empty text gives nil and true.
* `zlib.NewReader` gives a nil reader when the header is bad.
* `sntrup4591761`: sizes 1047, 1218, 1600, 32.  `ed25519`: sizes 32, 64, 64.
  `curve25519.X25519` fails on an all zero result.
* `sync.RWMutex`: a writer that waits keeps new readers away.
* `crypto/tls`: whether `Close` of a connection returns although the other side takes
  nothing is a parameter of C74 (it does since Go 1.16; go.mod asks for 1.13).
* Go: map iteration in any order; channels first in first out; `select` takes
  `default` only if nothing is ready; `encoding/hex`, `strconv`, base64 (the decoder
  skips CR and LF; the streaming one gives all groups before a bad one; text after
  padding is not modelled), `utf8.DecodeRune`, `strings.ToUpper`/`ToLower`, `path.Join`
  (lexical), `time.Unix` (wraps), `fmt %x`; `strings.TrimSpace` for white space outside
  ASCII is left out.
* `companyzero/ttk`: `Queue` runs the functions given to it one at a time, first in
  first out, in a goroutine of its own; `ForwardKey` runs handlers in another one.
  Whether `Queue` can block is a parameter of C73 and left out elsewhere.  `Unescape` leaves text without
  the byte ESC as it is and takes away the strings that `Color` makes, of which RESET
  begins with ESC.
* Files: `os.Rename` is atomic; `ReadDir` sorts; `ioutil.WriteFile` and a dying
  process may leave a prefix; `ioutil.TempFile` makes a new name; `os.Remove` also
  removes an empty directory; no symbolic links.

## What is modelled

| package | modelled | left out |
|---------|----------|----------|
| tagstack | all of it, blocking and not | |
| inidb | all of it, with backups, pruning and crash points | errors of reading; of the errors of writing only a full disk (C87) |
| rpc | every structure and its encoding, constants used | |
| blobshare | all of it | failing random source |
| zkidentity | all of it | failing random source |
| session | Initiate, Respond, Read, Write, counters; the key exchange a second time over symbolic terms | deadlines, TLS below it, diagnostics, leaking of ephemeral keys |
| ratchet, ratchet/disk | all of it, two party conversations, persistence | failing random source, overflow of durations |
| zkserver/account | Create, Deliver, Delete, Online, Offline, Disable, Enable, Find, Push | backups of user.ini |
| zkserver | preSession, handleSession with its goroutines, writer, ntfn, cache.go, account.go, rendezvous.go, pending.go, welcome, unwelcome, socket api; locks and channels of all goroutines (SrvLockModel) | listening, TLS certificate (cert.go), logging, profiler, command line |
| zkserver/settings | Load: every value with a meaning for the protocol | paths, addresses, time format |
| zkclient | msg.go (scheduler, compress, crpc, cacheCRPC), push.go (decoding, ratchet, group and file handlers), identity.go, reset.go, key exchange between clients (step1IDKX to step3IDKX, kxwindow, kxacceptwindow, acceptclientfingerprint), addressbook, groupchat.go, groupinvites.go, chunk.go, send.go, completion.go and the Tab key, history of mainwindow.go, welcomePhase, versions, tags and callbacks of requests (zkclient.go handleRPC), account creation, server record and certificate check (welcome.go, acceptserverfingerprint.go, goOnline, /acceptnewcert), reconnecting (goOnlineAndPrint, goOnlineRetry, /online, /offline), conversation windows (printf, focus, getConversation, groupConversation, query, typed text, /m, /me, /gc m, /send, /wc, /save and /restore with the file, separators, days, status bar), logs of conversations (log), the lines that show messages, what is said about lists of members, the line about a refused list, notices about disabled accounts (handleDisabledUser), configuration (settings.go), group conversations among any number of clients (TalkModel), /quit, locks, channels and queues of all functions (LockModel) | drawing, key bindings, help.go, the remaining commands, sound |
| tools | zkservertoken, tools.InFours, zkexport (the record), zkimport | zkserverctl, zkserverdump, b64cert (they print or copy records), fingerprint options |
| debug, zkutil | version strings | logging |

Every definition in a `*Model.v` cites its lines and says what it simplifies.  In
particular: memory is unlimited, integers have Go's width where the width can be
seen, code under one mutex is one step, and each model says which interleavings it
has.  Components are proved separately: no theorem runs client, network and server
together, except C10-C15 and C56 (both ends), C41 and C57 (client, transport and
server), C44 (server and client), C38 (sender and receiver), C79 (any number of clients in a
group, over reliable mailboxes), and C71 (both clients with
their ratchets, the connections, and the server with its mailboxes).

## Findings

Every item is a theorem (named) unless it says *not proved*.

Database and encoding
* A value with a newline can forge sections and keys in a database
  (C04_value_injection_refuted); a newline in a name makes it unreadable
  (C04_newline_name_unopenable); the unnamed section mixed with tables is lost
  (C04_mixed_loses).
* Between the two renames of Save there is no database (C05_reopen_after_crash_refuted).

Identities
* The hash of an identity joins name and nick without a separator
  (C09_boundary_refuted), and whoever has a signing key can make a valid identity
  with any identity value (C09_identity_unbound_refuted).
* Upper case hexadecimal names the same identity (C50_case_refuted).
* step2IDKX2 does not verify the received identity nor compare it with the sender or
  with the record on file.  While a known contact has no ratchet, anyone replaces its
  record by one with another key (C63_replaced_refuted).
* A cleartext reset under the contact's name, which the server can forge, ends a
  conversation (C63_reset_anyone).  If the user then types a reset too, the server can
  take the conversation over (C63_takeover_refuted).
* Without a directory a reset never comes to an end: the answer is of the kind only
  directories know (C64_reset_password_refuted).  When both sides reset at the same
  time both are left with a half ratchet (C64_crossed_refuted), and no message or
  reset they type leads out (C64_stuck).
* The answer to a key exchange is taken under any key the client ever stored
  (`pruneKey` in blobkeys.go is commented out), so a former contact together with
  the server can end an exchange the new contact has not answered
  (C65_agreement_refuted); nothing can be read or sent that way.
* The record sent in a key exchange is bound to nothing: anybody can make a client
  answer in another user's name (C66_claimed_refuted), and a contact can make a third
  user take for theirs what a user sends to the contact (C66_misbound_refuted; an
  unknown key share, since the shared key of sntrup4591761 depends on the coins only
  and the secret of the ratchet on the two shared keys only).
* The fingerprint a user compares does not determine the server's key: a record with
  the same address, certificate and fingerprint but another key can be imported, and
  the account is then made on any certificate (C67_import_refuted).  After an account
  creation that broke off the next one asks nothing, wherever it goes
  (C67_unseen_refuted).  /acceptnewcert takes a certificate refused before the last
  good session (C67_stale_refuted).
* Dying while myserver.ini is saved can leave a client that takes the user for a new
  one (C67_new_user_refuted) or never starts again (C67_wedged_refuted); an account
  whose creation broke off after the reply is lost with the program
  (C67_orphan_refuted).
* Every server's exported record can be cut so that zkimport takes it for a client's
  (C68_cut_refuted).  importClientRecord returns the error of `os.Stat` for an account
  that is not there, so no new client can be imported (C68_new_refuted); by force it
  stores any keys under an account's fingerprint (C68_rekey_refuted).
* A line break in the address of an imported server record adds records to
  myserver.ini: the next start has an account whose private keys the author of the
  record knows (C68_injected_refuted).
* `step1IDKX` writes the key of the first message to the debug log
  (zkclient.go:1089), not modelled.

Session
* Three pairs of key and nonce are used twice in each key exchange
  (C13_reuse_refuted).
* A message that is too long is refused but uses up a nonce, so that the session is
  dead afterwards (C14_overflow_refuted).
* The server takes a user for logged in who only has the public key of the account
  (C62_login_refuted); nothing can be read or sent that way, but the user is locked
  out meanwhile (C28), and what was written can be read if the user's key leaks later
  (C62_later_leak_refuted).

Ratchet
* A header with the counter 2^32-1 keeps the receiver busy for ever
  (C18_forever); death between sending and saving loses the conversation at a new
  chain (C45_dead).

Server
* A client tag of exactly 32 crashes the server (C25_refuted).
* Two requests at the same time redeem one token twice or overwrite a rendezvous
  (C26_overlap_refuted, C27_overlap_refuted).
* Two deliveries in the same nanosecond lose a message (C22_overlap_refuted); a
  damaged file blocks everything after it (C22_damaged_refuted); the worker can
  stick before its first round (C23_stuck_refuted); an acknowledgement in the middle
  of a scan ends the session with an error (C23_spurious_refuted).
* An account becomes unusable when its directory could not be read at login
  (C28_lost_refuted) or when a client floods the server and reads nothing
  (C28_flood_refuted); a late clean-up removes the entry of the next login
  (C28_unregistered_refuted).
* The identity of a disabled account can be taken by somebody else, who then gets
  its messages (C29_taken_refuted); two accounts get one nick if the first has not
  logged in yet (C30_unique_refuted).
* A token is used up although the creation fails, and an account can be created
  under somebody else's identity (C53_token_lost_refuted, C53_squat_refuted).
* The four longest payloads the server takes lock the recipient out for good
  (C57_taken_refuted, C57_lockout_refuted).
* `maxchunksize` above 263168 or a long message of the day keep every client out
  (C44_chunk_size_refuted, C44_motd_refuted); from 262901 on a full chunk does not
  fit (C41_margin_refuted).

Client
* A payload with a bad zlib header or a short key exchange payload crashes the
  recipient (C49_bad_zlib_crash, C51_short_payload); so does a group message with an
  invalid byte and the nick (C43_crash_refuted), and a kill of a group with an empty
  member list (C43_kill_refuted).
* A tag depth below -1 in a welcome crashes the client (C44_panic).
* One identity can be filed twice, so that deleting it does not remove it
  (C31_twice_refuted), and nicks may swap at a restart (C52_swap_refuted).
* The day above a line is that of what last came from others: the user's own lines on a later
  day stand under the old day (C88_own_refuted). A line that was on its way to a window
  being closed turns up in the next one and the status bar does not list it
  (C88_closing_refuted). A mention is not coloured if the user turns away between its
  reading and its showing (C88_mention_refuted).
* Deliver does not remove the file that a failed WriteFile leaves: the sender is told that the
  delivery failed, and yet the recipient gets what is left of the message if the cut lies
  between two fields - without its mark, without its text or even without its sender
  (C89_received_refuted) - and otherwise nothing that is delivered afterwards ever arrives,
  though the disk has room again and the senders are told of success
  (C89_lockout_refuted).
* Push rewrites user.ini at every login and Save renames the old file away first. A server
  that dies between the two renames leaves an account without user.ini, and a search that
  runs meanwhile sees it so. Find gives up at such an account: all those whose directory
  comes later are no longer found, their nicks can be registered by others
  (C90_taken_refuted), and the owner cannot log in any more (C90_login_refuted). If the
  account is disabled no enabled account is found at all (C90_disabled). An account whose
  creation was cut short takes no messages and cannot be created again
  (C90_again_refuted). Only a creation by force, which zkimport offers, mends this.
* Save does not look at the errors of its writes: on a full disk it replaces any database by
  an empty or a cut one and returns nil (C87_empty_refuted), and after eleven such saves
  the backups are gone too (C87_gone_refuted).
* /save removes what was saved before it writes anything, and there is no backup of it: if
  it fails or the program dies then neither the old nor the new windows are saved
  (C86_gone_refuted). /restore closes all windows before it knows that it can read the
  file (C86_damaged_refuted).
* handleGroupList and handleGroupUpdate put the received name of a group into a format
  string when they refuse the list, which anybody can bring about: 12 bytes of the name
  make a million bytes of the line, and a name of 262908 bytes can be sent, so one
  message makes the client ask for 21 GB (C85_bomb_refuted, C85_sent_refuted). For every
  other name the line has "%!v(MISSING)" in it (C85_plain).
* handleGroupList and handleGroupUpdate announce the differences of a list before they
  look at who sent it: anybody who knows the name of a group can have it said that
  members, the reader included, have left (C84_forged_refuted), and bring the group's
  window to the front, so that what is being typed to a contact goes to the group
  (C84_front_refuted). A kick is announced with the name in it, whatever the list in it
  does (C84_kick_refuted), and the line in the administrator's window about a member who
  leaves has no name (C84_nameless_refuted).
* A line names its author by nick only, and nicks are chosen by their owners. A contact
  with one's own nick is filed without a warning and is logged as oneself
  (C83_self_refuted); a nick with "> " in it makes log lines that another contact could
  have made, with RESET in it also lines on the screen (C83_blank_refuted,
  C83_reset_refuted); and a nick of 64 hexadecimal digits is a member who is not a
  contact (C83_hex_refuted).
* A message that is too long for the session (a text of 262937 bytes that does not
  compress, C82_text) is tried again and again and never sent; nothing behind it is sent
  either, to whomever, acknowledgements and pings included (C82_stuck, C82_stuck_all).
  Each attempt makes the session unreadable for the server, so that a message sent
  next counts as sent and is lost (C82_lost_refuted). A group member can do this to the
  administrator by leaving with a long reason, which is passed on in a longer message
  (C82_member_refuted).
* `/quit` without `force` is meant to refuse while messages wait to be sent. It asks the
  sender for the length of its queues and leaves at once if there is no answer; there is none
  while the sender is sending, so any number of messages may be lost
  (C81_busy, C81_lost_refuted). Even with the answer that nothing waits, up to 22
  messages may be on the way to the queues (C81_answered, C81_race_refuted).
* A broken line in the client's own configuration file is not reported, and everything
  after it is ignored (C80_broken): a `root` after it, for instance, so that another
  account is used (C80_root_refuted); a file that cannot be read counts as empty. Misspelt
  keys are ignored silently (C80_unknown). The documented attribute `none` keeps the
  client from starting (C80_none_refuted), and `savehistory`, said to save "commands but not
  text", saves all that is typed, messages as well (C80_history).
* What is said in a group goes to whom the speaker's own list names at that time. Somebody
  whose kick has been acknowledged for all still reads what members say who have not
  read of the kick (C79_kicked_refuted). Groups are told apart by nothing but the name, so
  what is said in the group of one administrator may be shown in that of another
  (C79_mixed_refuted; leaving with `/gc part <group> force` tells nobody, so lists keep those who left).
* When an account is disabled only the first member is announced in a group's window,
  for as long as the window is open (C78_second_refuted; the counter belongs to the window
  and is never reset); the administrator is asked to kick somebody from groups they are not
  in (C78_kick); and the program dies if a window is that of a group without members
  (C78_dies), which a list from the administrator can make.
* /send takes a file whose name holds a blank, as Tab offers it, for another file
  (C92_blank_refuted), and drops a description that is the name of the file. /m looks at
  the open windows first and /send at the address book only, so that of two contacts who
  call themselves the same one gets the messages and the other the files
  (C92_two_refuted).
* An empty candidate blocks tab completion (C32_empty_refuted).
* Tab offers a contact whose nick holds a blank, stays there, and the message typed next
  goes to the contact that the first word names (C91_space_refuted). A path typed in part
  is never completed, and Tab then completes no other path before Enter, a slash or "~"
  (C91_dead). A path such as "~ann/x" is wiped (C91_erased). Contacts made after the first
  Tab are not offered before Enter (C91_stale_refuted).
* Invitations: consumed though the join fails (C33_lost_refuted); expiry never read;
  a second one to the same group is dropped (C55_again_refuted); a newline in a group
  name breaks the file for good or forges a record (C55_name_refuted,
  C55_forged_refuted).
* Group lists: generations may go back and the administrator may change
  (C34_list_unchecked_refuted); overlapping kicks, a kick with a join and a restart
  lose changes (C36_overlap_refuted, C36_join_lost_refuted, C36_restart_refuted); an
  unsaved group and a file that cannot be removed (C54_unsaved_refuted,
  C54_returns_refuted).
* File transfer: a file may be written anywhere it is free (C39_anywhere_refuted), a
  name ending in `..` hangs the client (C39_hang_refuted), a contact can block another
  (C38_blocked_refuted), of two overlapping transfers one is lost
  (C38_overlap_refuted).
* Two contacts with one nick: what is typed in the window opened second goes to the
  contact of the first (C69_imposter, C69_imposter_refuted), so a new contact who takes
  a friend's nick and writes first reads what is typed to the friend; a nick with a
  blank sends to another contact (C69_space_refuted); a contact with a group's name is
  shown the group's messages or cut off (C69_group_name_refuted); blanks send the nick
  itself (C69_blank).  Saved windows come back as another contact's
  (C69_restore_refuted).
* Closing a window while a message waits to be drawn shows and logs it in another
  contact's window or nowhere (C69_close_refuted); closing the last one while anything
  waits to be drawn stops the client (C69_dead_refuted).
* Logs: a contact is logged in whatever directory its nick leads to
  (C70_anywhere_refuted), or not at all (C70_unlogged_refuted); a message with a line
  feed forges lines of anybody (C70_forged_refuted).
* A failed message is tried again only when another one is queued
  (C40_retried_refuted).
* A client that dies after saving the ratchet and before handling a message loses the
  message (C58: handled at most once, not exactly once; C71_delivered_refuted).
* Reconnecting: every connection leaves a goroutine behind; when connections break
  soon, as with two clients of one account, attempts double every 30 seconds
  (C72_storm_refuted).  /offline is undone or ignored (C72_offline_refuted).  A failed
  first attempt or /online is not repeated (C72_start_refuted).  A connection that
  breaks just after the welcome or during a write crashes the client
  (C72_crash_refuted).
* Printing puts work into the terminal library's queue, often under the client's lock,
  and that work takes the lock.  If the queue can be full (the library is not in the
  repository) a long /list or many lines at once stop the client for good
  (C73_full_refuted).  goOnline holds the client's lock while it talks to the server,
  without deadlines: a server that accepts and says nothing stops the client
  (C73_silent_refuted).
* The server closes the connection of an earlier login, and that of a disabled user,
  with its lock held.  Before Go 1.16 that could wait for a client that takes nothing,
  and with it every login and every end of a session (C74_close_refuted).
* A lookup whose reply is lost with the connection stays pending: the nick cannot be
  looked up again until the client is restarted (C75_lost_refuted).  Replies to lookups
  are not matched with requests, so the server can begin key exchanges
  (C75_forged_refuted); an invitation to a group begins them with every unknown member
  it names, without asking the user (C75_invited_refuted).
* The ratchet keeps both halves of the key exchange for good, in its file too
  (ratchet.go:128, 185, 547-548; nothing reads them after the exchange).  Whoever gets the
  file of either party, however much later, reads all recorded messages of the first
  epoch (C76_first_refuted), and those of the second while their sender has received
  nothing since (C76_second_refuted).  Clearing them after the exchange would cost nothing.
* A ratchet opens no message before which more than 80 in a row were lost, and neither a
  later message nor a change of direction helps (C77_dead): the header of the next epoch
  names the number sent in the previous one, which leaves the same gap.  Only a reset does.
  The sender is not told, and the other direction goes on working.  Messages are lost in
  such numbers when an account is disabled for a while: the server stores nothing for it
  (zkserver/cache.go:40), the client has advanced its ratchet, shows the error, and drops
  the message (zkclient.go:1460-1472).  After 81 group messages or file chunks the
  conversation with that contact is over.
* A message written to a connection that then breaks, or that the server fails to
  store, is gone: the client drops it from its queue and neither sends it again nor
  tells its user (C71_delivered_refuted).
* Tags of an earlier connection are given back to the next: a reply may then run the
  callback of another request (C59_stale_refuted); heartbeats run the callback of tag
  0 (C59_heartbeat_refuted); a reply with a tag equal to the number of tags crashes
  the client (C59_panic), a forged pong does at the next message
  (C59_forged_refuted); without a reply or a ratchet the callback never runs
  (C59_reply_lost_refuted, C59_no_ratchet_refuted).
* An acknowledgement left over from an earlier session deletes a message that the
  client never received (C60_lost_refuted), or stalls the session
  (C60_stall_refuted).  The premise of C22 and C23 that acknowledgements are honest
  holds for this client only when it connects with an empty queue (C60_honest).

## Mutation tests

`seeded/LOG.jsonl` has a line per attempt.  "failed" lists the theorems whose
committed proof no longer goes through on the changed model; the script is compiled
as it stands, so a failed proof is taken for a caught mutation, except where the
theorem was looked at and tightened ("tightened").
