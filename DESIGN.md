# A formal model of waves-fork-detector in Coq 8.16.1

The detector keeps one connection per Waves node, records every block header it is told of in a tree, keeps for every peer a
"leash" (the block the peer stands on), and answers over HTTP which peers are on which fork. This directory has a model of that
program in Gallina, written function by function from `/repo`, and machine-checked theorems about it for all inputs, histories,
interleavings and storage faults.

* `properties.jsonl`: the claims in English. `MANIFEST.json`: which theorems prove which claim, and what is missing.
* `rocq/theories/*Props.v`: the theorems, with `Print Assumptions` and a concrete example under each claim.
* `seeded/LOG.jsonl`: wrong programs the theorems were tried against.

Build: `cd rocq && coq_makefile -f _CoqProject -o Makefile && make -j4` (about six minutes).

## 1. Reading guide

`*Model.v` files have only definitions; each cites the Go file and lines it models. `*Spec.v` files have the vocabulary of the
statements, written without the helpers of the model. `*Props.v` files have the theorems `Cnn_...`. Everything else is proofs.
Theorem names end in `_partial` when the English claim needs a premise it does not mention, and in `_refuted` when they give a
counterexample to the claim on the model (witness checked by `vm_compute`).

| part | model | statements in | claims |
|---|---|---|---|
| outcomes, bytes, big-endian, key-value store | `Base.v`, `Kv.v` (`BytesFacts.v`, `KvFacts.v`) | | |
| `chains/*.go` | `ChainModel.v` | `ChainSpec.v` | C01-C13, C23, C24, C26 in `ChainProps.v`; C14-C22, C25 in `ForkProps.v`; C74 in `ForeignProps.v`; C75 in `OrderProps.v` |
| `peers/*.go` | `PeersModel.v` | `PeersSpec.v` | C29-C40 in `PeersProps.v`; C82 in `NameProps.v`; more of C34, C38, C69 in `RecordProps.v` |
| locks of `chains/linkage.go` | `LockModel.v` | `LockSpec.v` | C27, C28, C66 in `LockProps.v` |
| locks of `peers/registry.go` | `RegModel.v` | `LockSpec.v` | C76 in `RegProps.v` |
| `loading/*.go` | `LoadModel.v` | `LoadSpec.v`, `SyncSpec.v` | C41-C50, C64, C65 in `LoadProps.v`; C73 in `SyncProps.v`; C81 in `SessionProps.v` |
| `distributor.go`, `connection_manager.go`, `respawn.go`, `listener.go`, the end of `forkdetector.go` | `NetModel.v` | `NetSpec.v` | C51-C54, C67-C72 in `NetProps.v`; C83 in `StopProps.v`; C84 in `FeedProps.v` |
| `api/*.go`, `parameters.go` | `ApiModel.v` | `ApiSpec.v` | C55-C63 in `ApiProps.v` |
| bytes of the stored records, both storages over bytes | `CborModel.v` | `CborProofs.v`, `CborStore.v` | C91, C92 in `CborProps.v`, `RangeProps.v` |
| answers of the peer endpoints | `ApiModel.v` | | C93 in `EndProps.v` |
| generated String methods, `queue.rangeString`, `API.routes` | `TextModel.v` | in `TextProps.v` | C96, C97 in `TextProps.v` |
| reads of `chains/storage.go` and `chains/linkage.go` that fail | `ReadModel.v` | `ReadProofs.v` | C98 in `ReadProps.v` |
| reads of `peers/storage.go`, `peers/registry.go` and `peers/version_provider.go` that fail | `PeersReadModel.v` | in `PeersReadProps.v` | C99 in `PeersReadProps.v` |
| `chains/linkage.go` (Fork, Forks, Stats: when forks are reported) | (as above) | `AlarmProofs.v` | C101 in `AlarmProps.v` |
| the whole detector: honest peers on chains that part | (as for C90 and C101) | (in the props file) | C103 in `DetectProps.v` |
| all outcomes of the queries and of the status page | (as for C14-C19, C36, C61) | (in the props file) | C104 in `AnswerProps.v`, `AnswerProofs.v` |
| the whole detector: the beginning of a synchronisation | (as for C81 and C90) | (in the props file) | C105 in `BeginProps.v`, `BeginProofs.v` |
| all outcomes of the pages about blocks and forks | (as for C54-C63) | (in the props file) | C106 in `PagesProps.v` |
| a synchronisation after ten failures | (as for C105) | `RestartProofs.v` | C107 in `RestartProps.v` |
| from the command line to the services | (as for C57, C62, C88, C100) | (in the props file) | C108 in `StartProps.v` |
| detection in every life | (as for C79, C105, C107) | (in the props file) | C109 in `LivesProps.v` |
| `peers/peer.go` `Peer.String`, `chains/entities.go` `Head.String` | `PeerTextModel.v` (parameters: the function that formats dates, which must not write quotation marks or semicolons, and `BlockID.String`, which must be injective) | (in the props file) | C110 in `PeerTextProps.v` |
| the ways of addresses between `parameters.go`, `distributor.go`, `respawn.go`, `connection_manager.go` and `peers/registry.go` | `BridgeModel.v` | (in the props file) | C102 in `BridgeProps.v` |
| the text functions of the Go library called by `parameters.go`, `api/api.go`, `distributor.go`, `connection_manager.go`, `peers/registry.go` | `NetipModel.v` | `NetipProofs.v`, `NetipProofs2.v`, `NetipProofs3.v` | C100, and C56, C57, C58, C62 with the library functions, in `NetipProps.v`, `CanonProps.v` |
| the registry over the bytes of its database | `RawModel.v` | `RawProofs.v` | C94, C95 in `RawProps.v` |
| loader, distributor and the other goroutines with an honest peer | `WholeModel.v` | `HonestSpec.v` | C90 in `HonestProps.v` |
| the handlers of `api/api.go` between the steps of other goroutines | `ServeModel.v` | in `ServeProps.v` | C89 in `ServeProps.v` |
| the running process (all goroutines over the same stores) | `WholeModel.v` | `WholeSpec.v` | C77, C78 in `WholeProps.v`; C85 in `DialProps.v`; C86 in `DeliverProps.v`, `TimerProps.v`; C87 in `StallProps.v` |
| start and end of the process (`main`, `run`, deferred functions) | `MainModel.v` | in `MainProps.v` | C88 in `MainProps.v` |
| any number of runs over the same stores | `LifeModel.v` | `LifeSpec.v` | C79, C80 in `LifeProps.v`, `LastProps.v` |

How the proofs go. `ChainRep.v` relates the bytes in the database to an abstract history of blocks (`ChainSpec.v`), `ChainStep.v`
shows that every call, with every possible write fault, keeps the relation, and `ChainQueries.v`, `ChainLca.v`, `ForkProofs.v`
compute the queries from the history; so every theorem about `reachable g ops l` is about all histories of calls, restarts and
faults. The registry is treated in the same way (`RInv`, `rreach`). The loader is proved in an arbitrary *world* (a function
answering its calls, `LoadRule.v`, `LoadFire.v`) and then in the world of the real linkage and registry, where other goroutines
act between any two of its calls (`LoadReal.v`, `LoadLeash.v`). `LockProofs.v` proves, for arbitrary methods that hold an RWMutex
properly, that every interleaving has the same effect as one sequential order of complete calls; `LockLink.v` and `RegProps.v`
apply this to the methods of the linkage and the registry, which justifies treating a call as one step in the models of the
process. `WholeProofs.v` is an invariant of the whole process.

## 2. Trusted base

**Coq.** The kernel of Coq 8.16.1 (with its `vm_compute` machine, used for the witnesses and examples). `Print Assumptions` is
called under every theorem of the manifest; every one of the 383 answers "Closed under the global context": no axiom at all,
not even of the standard library, no section variable left, no `Admitted`, no kernel check switched off. (Some files of the standard library that are
loaded on the way declare axioms of their own, those of `Coq.ssr.ssrunder`; no theorem depends on them.)

**The reading of the Go code.** The definitions of the `*Model.v` files are a hand translation, and are believed to be faithful.
What keeps it honest: the citations of lines, the examples, the refuted claims (each of which is a defect one can follow in the
source), and the wrong programs of `seeded/LOG.jsonl`. General conventions:

* A call is a function from state to new state and `outcome`: `Ok`, `Err` (a Go error; which errors are told apart is what the
  callers test with `errors.Is`), `Panic` (index out of range, nil dereference, explicit `panic`, negative `make`), `Diverge` (fuel
  used up; loops whose termination is not structural run on fuel and the theorems show that it suffices).
* Integers: `uint32`/`uint64` wrap explicitly (`wrap32`, `wrap64`); `int` is unbounded where the values are lengths; `big.Int` is `Z`.
  Theorems on histories assume fewer than 2^32-10 linkage calls (`short`), since block numbers are `uint32`.
* Logging is not modelled, except for the six lines of the loader that tell the fate of a synchronisation. Arguments of log calls
  that can panic (`AppName[len-1]`, `ids[0]`) are modelled.
* Nil pointers are `option`; maps are association lists without repeated keys.
* Iteration order of maps and the result of `sort.Sort` among equal elements are parameters (`ord`, `cord`, `srt`) about which only
  "is a permutation" (and "sorted") is assumed; the theorems hold for all of them.

**Libraries modelled from their documentation or source, and what is assumed of them.**

* goleveldb: a sorted list of bindings; `Get`, `Put`, iteration over a prefix in byte order; `Write(batch)` is atomic, and fails
  without effect or succeeds; a snapshot is the state at one moment. Write failures are represented everywhere (a fault says
  how many batches of a call are written before one fails); read failures in C98 and C99, and in the respawn (C54, C85); their histories
  lead to the same states as histories without them. Corrupted records are represented only in C92 and C95. A failed iteration ends early, with the error left in the iterator (C98).
* CBOR (`fxamacker/cbor`): the library writes and reads the records in the format of `CborModel.v` (RFC 8949, shortest forms, default
  options). That writing and reading are inverse is proved (C91), not assumed. `proto.Version.String` and `NewVersionFromString` are the
  functions modelled there.
* gowaves `proto`: a block ID is its 32 or 64 bytes; `Version.CmpMinor` is a parameter `g_cmp` for the test of compatibility; what
  a payload decodes to is an input of the model. `peer`/`outgoing`/`incoming`: `EstablishConnection` returns nil or an error at any
  time; a connection delivers messages and at most reports an error.
* `qmuntal/stateless` (v1.6.9): queued firing: an event fired by an action runs after the current one; entry and exit actions,
  `PermitReentry`, `InternalTransition` and `Ignore` as documented; unhandled events are an error (C49 shows there are none).
* `sync.RWMutex`: no reader enters while a writer waits (which is what makes C28 false); `sync.Mutex`; unbuffered channels;
  `select` chooses among the ready cases arbitrarily; `kairos.Timer` fires once after `Reset`.
* `math.Log2`/`math.Ceil` on heights: exact for heights below 2^32 (`ceil(log2 h)` is the integer function `N.log2_up`).
* `netip.ParseAddr(Port)`, `strconv.Atoi`, `strings.TrimSpace`, `strings.ToUpper`, `path.Clean`, `os.Stat`, JSON encoding of times: parameters
  of the models (`env`, `g_upper`), without assumptions except those named in the theorems. The first three are also modelled, together
  with `Addr.String`, `AddrPort.String` and `net.TCPAddr.String` (`NetipModel.v`, from the published source of Go 1.22): C100 proves the
  assumptions, and C56, C57, C58 and C62 are restated with these functions in `NetipProps.v`.
* `net/http` and `chi`: a handler is called with the request; a panic in it is answered with 500 (`middleware.Recoverer`). A pattern
  fits a path segment by segment, a parameter takes one segment (not empty at the end); 404 without a route, 405 for another method.

**Assumptions on the inputs** (named in the theorems): peers' addresses have no IPv6 zone (`wf_addr`; TCP remote addresses of the
program are global), IDs have 32 or 64 bytes, byte arrays of fixed size have that size.

## 3. What is modelled

Every function of `chains/`, `peers/`, `loading/`, `api/`, `parameters.go`, `distributor.go`, `connection_manager.go`, `listener.go`, `respawn.go`
and `forkdetector.go` has a definition citing it, except those of the next list.

Not modelled:

* `Logger`, the middleware of `NewAPI` (but for Recoverer), `API.Run`: the wiring of the HTTP server. `API.Shutdown`
  is one step (the context it gives to `http.Server.Shutdown` is done already, so that it does not wait for requests).
* Printing: `parameters.log`, `logging`, `version`.
* `flag.Parse` and the contents of the errors of the databases: the results of opening them are parameters of `MainModel.v`.
* `PingConnections` sends one message to every connection and its effect on the nodes is outside.
* Inside gowaves: TCP, handshakes, the encoding of messages.

Simplifications of the process models, beyond those in the comments:

* `WholeModel.v`: a call on the linkage or the registry is one step (C27 and C76 justify it); the distributor's handler of one
  message is one step of the distributor, since it makes at most one call on the stores that others can see. After a panic
  of another goroutine the loader finishes the event it is handling (a superset of what can happen: the process is dead and its
  remaining effects would be those of a slightly later death). The HTTP server only reads, and is left out; what it answers next to the other goroutines is C89.
* `NetModel.v` (shutdown): a handler is one step; the listener leaves its loop only after its socket has been closed; goroutines that dial
  or have accepted a connection are not waited for by the code and are not represented.
* `LifeModel.v`: the parameters of the process are the same in all lives; a kill inside a call is the call with a fault.

## 4. Defects found

Claims that fail on the model, each with a checked witness. All of them can be followed in the source.

* A block with base target above 2^63-1 panics in `calculateScore` (chains/utils.go:10-25): any peer can stop the detector with one
  message (C01, C25, C65, C67, C77).
* A block dated 2^63-1 or later is stored, and from then on every query that reads it panics (`safeTimestamp`,
  chains/linkage.go:486-491), the statistics at start-up included: the detector never starts again over that store (C25, C80). A date after
  the year 9999 turns `/leashes` and `/forks` into 500 (C63).
* The search for the last common block indexes past the end of `Parents` for chains that fork at genesis
  (chains/storage.go:324-392): panic for two chains of ten blocks (C09, C18, C56), and so the tenth failed synchronisation kills the
  process (C65, C77).
* `forks` and `Stats` index an empty list when no selected peer has a leash, e.g. on a fresh store (C18). An empty intersection of connected
  and requested peers is read as "no filter" by `/active-forks` (C55).
* The leash of ff..ff (IPv6) is never listed: the upper bound of the scan is exclusive (C12).
* The order of forks with the same score and number of peers, hence the split into short and long forks, depends on the
  iteration order of a Go map (C75).
* `LogInitialStats` holds the read lock and takes it again in `Block`: deadlock if a writer arrives (C28; not reached by `forkdetector.go`).
* A store created with another genesis is opened without complaint and then useless for ever (C74).
* `RegisterPeer` checks the hostile state only for unknown peers, so a hostile peer becomes connected by a good handshake (C33); on first
  contact an incompatible peer is not recorded (C34); an empty application name panics (C40, C67, C77); a name that is not UTF-8 is
  connected without a record, which breaks `Connections`, and with it the loader and the API, for ever (C36, C70).
* The key of an IPv6 address is its first four bytes (C39). Versions that differ only in the patch number make the later ones
  unreachable (C37).
* A list of IDs with a repetition can never be completed (C42); a batch that does not link up is never reported, and leaves the
  loader with a current peer for ever: no synchronisation happens anymore (C44, C45, C46, C87).
* A timeout while waiting for IDs puts the blocks of the previous batch again and moves the leash back (C47). `Fail` keeps `prevDiff`
  (loading/loader.go:152-158), so that the session with the next peer can end after the first batch (C73, C81, C90).
* The loader can stop while the distributor is sending to it; then shutdown never ends. `Listener.Shutdown` dereferences nil when
  listening failed or has not begun (C52).
* After one failed read the respawn timer is not set again (C54, C85). If `EstablishConnection` returns nil before the connection is
  registered, the address stays pending for ever (C85).
* `GetPeers` is answered with port 0 for peers without a declared address (C69). The error of an old connection of a peer, or a
  failed dial, drops its newer connection (C70). Refused connections are not closed in three cases (C71).
* IPv6 addresses given to `-net` or `-declared-address` panic, and an unparsable declared address is silently dropped (C57). A negative
  number of blocks panics in `/fork/{address}/generators/{blocks}` (C56).
* Without effect on any claim: distributor.go:210 wraps `err`, which is nil there, instead of `putErr`; an empty list of signatures is passed to
  the loader, an empty list of IDs is not (C84).
* A failed initialisation leaves the database of blocks open (linkage.go:54-56). A failure of `ListenAndServe` ends the process by
  `Fatalf`, which closes nothing (api.go:102). A panic in `Listener.Shutdown` closes the databases under the running services. forkdetector.go:43
  tests `err` instead of `syncErr`. If writing to stderr fails, the exit code of a failed start is 0 (forkdetector.go:27-29) (C88).
* `/status` and `/active-forks` put together answers of different moments: more friendly peers than peers, or a peer that is reported as
  connected and on a block although this was never so at the same time (C89).
* A record of a peer that cannot be decoded is read as the zero peer, without an error: peers/storage.go:81 returns `err`, which is nil,
  instead of `umErr` (C92).
* One record of a peer that cannot be decoded makes `Peers`, `FriendlyPeers`, `Addresses` and `TakeAvailableAddresses` fail: nobody is
  dialled any more, restarts included, until that very peer is marked as hostile or registers (C95).
* No iterator error is checked (chains/storage.go:427, 673; peers/storage.go:133): a failing read in the middle of the leashes or heads cuts the
  list, and the answer is given as if it were complete. A forked peer is then reported to be on the longest chain; `Forks` and
  `Stats` panic when no leash could be read. `LeashScore` ignores the error of reading the leash and looks for the zero ID (C98).
* If the record of a disconnected peer cannot be read, `UnregisterPeer` leaves its connection in the list, and the peer is not dialled any
  more (registry.go:164-171). `AppendAddresses` stops at the first failed read and drops the rest of the list, seeds included (C99).
* `MarkAsHostile` applies `netip.ParseAddr` to the text of a socket, which has a port: it returns an error for every socket (registry.go:185,
  C100). Nothing calls it so far.
* A peer that is one micro-block behind the others is reported on a fork of length 1, because a micro-block is stored as a sibling of the block
  it extends. Blocks with base target 0 are accepted and weigh nothing: a peer that is merely ahead by more than five of them is counted
  as a long fork (C101).
* `-peers` accepts IPv6 addresses, but no peer is added for them and nothing but a debug line says so (parameters.go:153, registry.go:237, C102).
* The text of a peer in the log is ambiguous for addresses with a dash in the IPv6 zone, since the zone is written as it is (peers/peer.go:39, C110).

## 5. The claims

| claim | status | theorems |
|---|---|---|
| C01 PutBlock stores a new block correctly | partial | `C01_put_block_new_partial`, `C01_put_block_other_cases`, `C01_put_block_new_refuted` |
| C02 A block with an unknown parent is rejected without effect | proved | `C02_unknown_parent_rejected` |
| C03 Stored blocks are immutable | proved | `C03_blocks_immutable` |
| C04 Re-putting a known block only moves the sender's leash | proved | `C04_known_block_moves_leash` |
| C05 PutMicroBlock makes a sibling of the referenced block | proved | `C05_micro_block_sibling`, `C05_micro_block_refused` |
| C06 Heads are exactly the blocks nobody extended | proved | `C06_heads_exact`, `C06_head_number_kept` |
| C07 LastIDs walks the parent chain | proved | `C07_last_ids`, `C07_chain_is_parent_walk` |
| C08 Last common block is the deepest common ancestor | proved | `C08_lca_deepest_common_ancestor` |
| C09 The last-common-block computation always returns | partial | `C09_lca_returns_partial`, `C09_lca_returns_short_partial`, `C09_lca_returns_refuted` |
| C10 Scores are the sum along the chain | proved | `C10_score_is_chain_sum`, `C10_score_grows` |
| C11 A peer's leash is the last block it was moved to | proved | `C11_leash_is_last_success` |
| C12 Leashes lists every leashed peer once | partial | `C12_leashes_partial`, `C12_leashes_refuted` |
| C13 Leashes always point at stored blocks | proved | `C13_leash_points_at_stored` |
| C14 Forks partitions the selected peers by block | proved | `C14_forks_partition_peers` |
| C15 Exactly one fork is the longest and it has maximal score | proved | `C15_one_longest_fork` |
| C16 Fork length counts the blocks since the last common block | proved | `C16_fork_length`, `C16_fork_length_of_peer` |
| C17 Stats classifies the forks by length | proved | `C17_stats` |
| C18 Forks and Stats never crash | partial | `C18_forks_return_partial`, `C18_forks_return_history_partial`, `C18_forks_return_none_refuted`, `C18_forks_return_refuted` |
| C19 Fork describes the block the peer stands on | proved | `C19_fork_of_peer`, `C19_fork_agrees_with_forks` |
| C20 LCB is the last common block with the longest chain | proved | `C20_last_common_block`, `C20_last_common_block_unleashed` |
| C21 ForkGenerators counts the generators of the last blocks | proved | `C21_generators_counted` |
| C22 ActiveHeads are the heads some peer stands on | proved | `C22_active_heads` |
| C23 Crash safety of block insertion | proved | `C23_crash_then_retry` |
| C24 Reopening the store changes nothing | proved | `C24_reopen_changes_nothing` |
| C25 Peers cannot crash the detector with a block | partial | `C25_put_block_returns_partial`, `C25_other_calls_return`, `C25_queries_return_partial`, `C25_fork_and_lcb_return_partial`, `C25_peers_cannot_crash_refuted` |
| C26 Store records of different kinds never overwrite each other | proved | `C26_keys_distinct`, `C26_keys_ordered`, `C26_writes_independent`, `C26_scan_heads`, `C26_scan_leashes` |
| C27 Queries never modify the store and calls are atomic | proved | `C27_atomic`, `C27_queries_never_write`, `C27_queries_see_complete_calls`, `C27_writers_alone`, `C27_queries_see_reachable` |
| C28 Startup statistics cannot deadlock | partial | `C28_returns_among_queries_partial`, `C28_log_stats_deadlock_refuted` |
| C29 Available addresses are exactly the dialable ones | proved | `C29_available` |
| C30 No address is dialled twice at the same time | proved | `C30_not_dialled_twice` |
| C31 AppendAddresses adds exactly the new acceptable addresses | proved | `C31_append`, `C31_append_fault` |
| C32 A successfully registered peer is connected and friendly | proved | `C32_accepted_record`, `C32_accepted_listed` |
| C33 Hostile peers stay out | partial | `C33_hostile_not_dialled`, `C33_hostile_no_version`, `C33_stays_hostile_partial`, `C33_stays_hostile_refuted` |
| C34 Incompatible peers are recorded as hostile | partial | `C34_incompatible_partial`, `C34_first_contact_refuted`, `C34_still_listed_refuted`, `C34_bad_name_refuted`, `C34_record`, `C34_marked` |
| C35 UnregisterPeer disconnects and delays the next attempt | proved | `C35_unregister`, `C35_delay` |
| C36 Connections can always be listed | partial | `C36_connections_partial`, `C36_connections_refuted` |
| C37 SuggestVersion tries every configured version in turn | partial | `C37_cycle`, `C37_versions`, `C37_connected`, `C37_cycle_refuted` |
| C38 Peer records survive storage unchanged and do not collide | proved | `C38_roundtrip`, `C38_can_be_stored`, `C38_kept`, `C38_peers`, `C38_names` |
| C39 Unknown addresses have no record | partial | `C39_only_stored_partial`, `C39_only_stored_refuted` |
| C40 RegisterPeer survives every handshake | partial | `C40_returns_partial`, `C40_returns_refuted` |
| C41 The block queue is ready exactly when every requested block has arrived | proved | `C41_queue_ready`, `C41_queue_unrequested`, `C41_queue_last` |
| C42 A batch with repeated IDs can be completed | partial | `C42_queue_completes_partial`, `C42_repeated_never_ready_refuted`, `C42_queue_completes_refuted` |
| C43 Only unknown history is requested | proved | `C43_ids_message`, `C43_ids_leash` |
| C44 A complete batch is applied in order | partial | `C44_queue_is_batch`, `C44_batch_applied_partial`, `C44_batch_leash_partial`, `C44_bad_batch_refuted` |
| C45 A timeout applies the received prefix and reports failure | partial | `C45_timeout_partial`, `C45_no_report_refuted` |
| C46 A timeout always frees the loader | partial | `C46_timeout_frees_partial`, `C46_stuck_forever`, `C46_timeout_frees_refuted` |
| C47 A timeout while waiting for IDs does not touch the leash | partial | `C47_silent_leash_partial`, `C47_silent_leash_refuted` |
| C48 Messages of other peers do not disturb a synchronisation | proved | `C48_other_messages` |
| C49 The loader's state machine never meets an unexpected event | proved | `C49_no_unexpected_event`, `C49_state_changes` |
| C50 After ten failures synchronisation restarts from the last common block | proved | `C50_restart` |
| C51 Blocks of lagging peers reach the loader | proved | `C51_forwarded`, `C51_offered`, `C51_forwarded_faults` |
| C52 Shutdown always completes | partial | `C52_shutdown_partial`, `C52_calm_shutdown_partial`, `C52_jam_refuted`, `C52_listener_refuted` |
| C53 Needed messages are never discarded, others are | proved | `C53_filter`, `C53_notice` |
| C54 Respawn keeps trying | partial | `C54_keeps_trying_partial`, `C54_stops_refuted` |
| C55 Active forks concern connected peers only | partial | `C55_active_forks_partial`, `C55_active_forks_everyone_refuted`, `C55_active_forks_refuted` |
| C56 Fork endpoints answer 400, 404 or 200 correctly | partial | `C56_fork_codes`, `C56_fork_of_peer`, `C56_fork_answers_partial`, `C56_fork_answers_refuted`, `C56_generators_codes`, `C56_generators_counted`, `C56_generators_negative`, `C56_text` |
| C57 Address arguments never crash the start-up | partial | `C57_start_up_returns_partial`, `C57_start_up_refuted`, `C57_exactly`, `C57_text_refuted` |
| C58 The peers query selects exactly the listed addresses | proved | `C58_selection`, `C58_bad_selection`, `C58_items`, `C58_text` |
| C59 The leashes endpoint lists every leashed block once | proved | `C59_leashes` |
| C60 The heads endpoint describes the active heads | proved | `C60_heads`, `C60_heads_answer` |
| C61 The status counts are right | proved | `C61_status` |
| C62 Parameters are checked as documented | proved | `C62_accepted`, `C62_builtin`, `C62_valid_accepted`, `C62_literals`, `C62_addresses` |
| C63 A peer's block cannot disable the API | partial | `C63_leashes_answer_partial`, `C63_forks_answer_partial`, `C63_api_disabled_refuted` |
| C64 The loader is never left idle with a peer | proved | `C64_never_idle` |
| C65 Synchronisation never crashes the detector | partial | `C65_loader_returns_partial`, `C65_restart_crash_refuted`, `C65_base_target_crash_refuted` |
| C66 Concurrent calls of the linkage always return | proved | `C66_calls_return`, `C66_no_deadlock` |
| C67 Messages never crash the distributor | partial | `C67_panics_partial`, `C67_run_partial`, `C67_tame_run_partial`, `C67_block_refuted`, `C67_handshake_refuted` |
| C68 A score message sets that peer's score | proved | `C68_score`, `C68_score_ignored` |
| C69 GetPeers is answered with the connected peers | partial | `C69_answer`, `C69_port_refuted`, `C69_ping` |
| C70 A failed connection leaves the connected peers | partial | `C70_error_partial`, `C70_newer_refuted`, `C70_dial_refuted`, `C70_listed_refuted` |
| C71 Refused connections are closed | partial | `C71_refused_partial`, `C71_self_refuted`, `C71_declared_refuted`, `C71_accept_refuted` |
| C72 Hostile peers are left alone and failed dials wait | proved | `C72_hostile`, `C72_dial`, `C72_delay` |
| C73 A session with an honest peer brings its whole chain | partial | `C73_honest_sync_partial`, `C73_honest_sync_refuted` |
| C74 A store belongs to one blockchain | partial | `C74_own_genesis_refuted`, `C74_foreign_store_is_stuck`, `C74_own_store_goes_on` |
| C75 The same store gives the same answer | partial | `C75_orders`, `C75_forks_determined_partial`, `C75_stats_determined_partial`, `C75_lcb_determined_partial`, `C75_fork_determined_partial`, `C75_ties_refuted` |
| C76 Registry calls are atomic and return, and no address is dialled twice | proved | `C76_registry_atomic`, `C76_registry_returns`, `C76_no_double_dial` |
| C77 The whole process: consistent stores, and what can crash it | partial | `C77_stores_reachable`, `C77_crash_causes_partial`, `C77_never_crashes_refuted`, `C77_empty_name_refuted` |
| C78 The detector believes about a peer only what the peer has said | proved | `C78_calls_justified`, `C78_leash_said`, `C78_block_vouched`, `C78_loader_source` |
| C79 Any number of lives over the same stores | proved | `C79_last_turn`, `C79_moments`, `C79_stores_reachable`, `C79_leashes_stored`, `C79_leash_said`, `C79_block_vouched`, `C79_start` |
| C80 The process starts again over its own stores | partial | `C80_stats_exact`, `C80_starts_again_partial`, `C80_starts_again_refuted`, `C80_never_again` |
| C81 Whom the loader loads from, and for how long | partial | `C81_decisions`, `C81_choice`, `C81_first_batch_partial`, `C81_first_batch_refuted` |
| C82 The lists of peers | proved | `C82_sorted`, `C82_friends`, `C82_addresses` |
| C83 The order of the end | proved | `C83_all_stopped`, `C83_serves`, `C83_forward` |
| C84 What reaches the loader | proved | `C84_served`, `C84_announced`, `C84_empty` |
| C85 Dialling in the running process | partial | `C85_pending_partial`, `C85_leak_refuted`, `C85_armed`, `C85_disarmed`, `C85_dialled`, `C85_failed`, `C85_returned`, `C85_refused` |
| C86 What peers announce reaches the loader | proved | `C86_select`, `C86_delivered`, `C86_timers`, `C86_waits`, `C86_ticker` |
| C87 The loader in the running process | partial | `C87_session`, `C87_freed_partial`, `C87_stuck`, `C87_stall_refuted` |
| C88 Start and end of the process | partial | `C88_order`, `C88_left_open`, `C88_exit`, `C88_services`, `C88_panic`, `C88_report`, `C88_starts`, `C88_no_server`, `C88_server`, `C88_closed_refuted`, `C88_closed_last_refuted`, `C88_reported_refuted` |
| C89 The API while the detector works | partial | `C89_heads`, `C89_leashes`, `C89_fork`, `C89_generators`, `C89_active`, `C89_status`, `C89_calm`, `C89_active_refuted`, `C89_status_refuted` |
| C90 Synchronisation with an honest peer in the running process | partial | `C90_honest_process_partial`, `C90_honest_process_refuted` |
| C91 Records are read back as written | proved | `C91_records`, `C91_shortest`, `C91_injective`, `C91_chains`, `C91_writes`, `C91_blocks`, `C91_peers`, `C91_versions`, `C91_short_versions`, `C91_typed`, `C91_all_values` |
| C92 Unreadable records are reported | partial | `C92_cut`, `C92_added`, `C92_reported_partial`, `C92_peer_silent`, `C92_reported_refuted` |
| C93 The peer endpoints tell the lists apart | proved | `C93_peers`, `C93_friendly`, `C93_connections`, `C93_connections_fails` |
| C94 The registry works on bytes as on records | proved | `C94_states`, `C94_answers` |
| C95 A damaged peer record concerns its own peer only | partial | `C95_lists_refuted`, `C95_lasts`, `C95_own_calls`, `C95_marked`, `C95_registered`, `C95_elsewhere_partial`, `C95_dialled_refuted` |
| C96 Texts for the log never fail and tell values apart | proved | `C96_names`, `C96_apart`, `C96_constants`, `C96_queue` |
| C97 Each path has its handler | proved | `C97_routes`, `C97_one`, `C97_any_order`, `C97_requests` |
| C98 A failed read of the blocks database is an error of the call | partial | `C98_writes`, `C98_lookups`, `C98_lists_partial`, `C98_leash_score_partial`, `C98_first_leashes`, `C98_first_heads`, `C98_ended`, `C98_ended_stats`, `C98_lists_refuted`, `C98_fork_refuted`, `C98_forks_refuted`, `C98_leash_score_refuted`, `C98_history` |
| C99 A failed read of the peers database is an error of the call | partial | `C99_register`, `C99_calls`, `C99_queries`, `C99_lists_partial`, `C99_ended`, `C99_append`, `C99_take`, `C99_history`, `C99_unregister_refuted`, `C99_lists_refuted`, `C99_append_refuted` |
| C100 Addresses survive their text | proved | `C100_canonical`, `C100_white`, `C100_addresses`, `C100_ports`, `C100_one_text`, `C100_sockets`, `C100_hostile_never`, `C100_trim`, `C100_numbers`, `C100_library` |
| C101 A fork is reported exactly if chains diverge | partial | `C101_zero`, `C101_blocks`, `C101_one_line_partial`, `C101_no_alarm`, `C101_one_line_of_peer`, `C101_micro_refuted`, `C101_weightless_refuted`, `C101_detects`, `C101_alarm`, `C101_process` |
| C102 Addresses keep their identity between the parts | proved | `C102_sockets`, `C102_seeds`, `C102_ipv6_seed_ignored`, `C102_entries`, `C102_exchange`, `C102_dial` |
| C103 A fork between honest peers is found | proved | `C103_found`, `C103_returns`, `C103_detected` |
| C104 The exact outcome of the fork queries and of the status page | proved | `C104_forks`, `C104_forks_exact`, `C104_fork`, `C104_process`, `C104_connections`, `C104_status`, `C104_no_hang` |
| C105 From the timer of the loader to the detected fork | proved | `C105_chosen`, `C105_sole` |
| C106 The exact outcome of the pages about leashes, heads and forks | proved | `C106_leashes`, `C106_heads`, `C106_forks`, `C106_active_forks`, `C106_fork`, `C106_generators`, `C106_process` |
| C107 A synchronisation after ten failures in a row | proved | `C107_restarted`, `C107_sole` |
| C108 From the command line to the services | proved | `C108_command_line`, `C108_interrupted`, `C108_again` |
| C109 In every life the lagging peer leads to the detected fork | proved | `C109_life` |
| C110 The texts of a peer and of a head in the log are unambiguous | partial | `C110_text`, `C110_one_peer_partial`, `C110_one_peer_refuted`, `C110_head` |
