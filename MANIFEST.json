{
 "claims": [
  {
   "property": "C01",
   "status": "partial",
   "theorems": [
    "C01_put_block_new_partial",
    "C01_put_block_other_cases",
    "C01_put_block_new_refuted"
   ],
   "note": "Full for new blocks with stored parent, base target at most 2^63-1, timestamp below 2^63-1 and an address-bearing generator; C01_put_block_other_cases says what happens in each of the other cases; refuted for base target 2^63 (panic)."
  },
  {
   "property": "C02",
   "status": "proved",
   "theorems": [
    "C02_unknown_parent_rejected"
   ],
   "note": "For every reachable store, every fault and every block."
  },
  {
   "property": "C03",
   "status": "proved",
   "theorems": [
    "C03_blocks_immutable"
   ],
   "note": "No later history changes a stored block, its height, score, generator, timestamp or parent."
  },
  {
   "property": "C04",
   "status": "proved",
   "theorems": [
    "C04_known_block_moves_leash"
   ],
   "note": ""
  },
  {
   "property": "C05",
   "status": "proved",
   "theorems": [
    "C05_micro_block_sibling",
    "C05_micro_block_refused"
   ],
   "note": "Micro-blocks become siblings of the referenced block; all refused cases are covered by the second theorem."
  },
  {
   "property": "C06",
   "status": "proved",
   "theorems": [
    "C06_heads_exact",
    "C06_head_number_kept"
   ],
   "note": ""
  },
  {
   "property": "C07",
   "status": "proved",
   "theorems": [
    "C07_last_ids",
    "C07_chain_is_parent_walk"
   ],
   "note": ""
  },
  {
   "property": "C08",
   "status": "proved",
   "theorems": [
    "C08_lca_deepest_common_ancestor"
   ],
   "note": ""
  },
  {
   "property": "C09",
   "status": "partial",
   "theorems": [
    "C09_lca_returns_partial",
    "C09_lca_returns_short_partial",
    "C09_lca_returns_refuted"
   ],
   "note": "Exact characterisation of when the search returns; the claim is false: two chains forking at genesis of height 10 make it panic."
  },
  {
   "property": "C10",
   "status": "proved",
   "theorems": [
    "C10_score_is_chain_sum",
    "C10_score_grows"
   ],
   "note": ""
  },
  {
   "property": "C11",
   "status": "proved",
   "theorems": [
    "C11_leash_is_last_success"
   ],
   "note": ""
  },
  {
   "property": "C12",
   "status": "partial",
   "theorems": [
    "C12_leashes_partial",
    "C12_leashes_refuted"
   ],
   "note": "Listing is exact for every address except ff..ff (IPv6), for which the claim is false: it is never listed."
  },
  {
   "property": "C13",
   "status": "proved",
   "theorems": [
    "C13_leash_points_at_stored"
   ],
   "note": "Under the condition that MoveLeash is only called with stored blocks, which both callers in the repository respect."
  },
  {
   "property": "C14",
   "status": "proved",
   "theorems": [
    "C14_forks_partition_peers"
   ],
   "note": "'Leashed' here excludes the IPv6 address ff..ff, which the listing never shows (C12)."
  },
  {
   "property": "C15",
   "status": "proved",
   "theorems": [
    "C15_one_longest_fork"
   ],
   "note": "'Leashed' here excludes the IPv6 address ff..ff, which the listing never shows (C12)."
  },
  {
   "property": "C16",
   "status": "proved",
   "theorems": [
    "C16_fork_length",
    "C16_fork_length_of_peer"
   ],
   "note": "For Forks and for Fork of a leashed peer."
  },
  {
   "property": "C17",
   "status": "proved",
   "theorems": [
    "C17_stats"
   ],
   "note": ""
  },
  {
   "property": "C18",
   "status": "partial",
   "theorems": [
    "C18_forks_return_partial",
    "C18_forks_return_history_partial",
    "C18_forks_return_none_refuted",
    "C18_forks_return_refuted"
   ],
   "note": "Returns under stated conditions; the claim is false: with no selected leashed peer (for example on a fresh store) Forks and Stats panic, also when C09 fails. All outcomes: C104_forks."
  },
  {
   "property": "C19",
   "status": "proved",
   "theorems": [
    "C19_fork_of_peer",
    "C19_fork_agrees_with_forks"
   ],
   "note": ""
  },
  {
   "property": "C20",
   "status": "proved",
   "theorems": [
    "C20_last_common_block",
    "C20_last_common_block_unleashed"
   ],
   "note": ""
  },
  {
   "property": "C21",
   "status": "proved",
   "theorems": [
    "C21_generators_counted"
   ],
   "note": ""
  },
  {
   "property": "C22",
   "status": "proved",
   "theorems": [
    "C22_active_heads"
   ],
   "note": "'Leashed' here excludes the IPv6 address ff..ff, which the listing never shows (C12)."
  },
  {
   "property": "C23",
   "status": "proved",
   "theorems": [
    "C23_crash_then_retry"
   ],
   "note": ""
  },
  {
   "property": "C24",
   "status": "proved",
   "theorems": [
    "C24_reopen_changes_nothing"
   ],
   "note": ""
  },
  {
   "property": "C25",
   "status": "partial",
   "theorems": [
    "C25_put_block_returns_partial",
    "C25_other_calls_return",
    "C25_queries_return_partial",
    "C25_fork_and_lcb_return_partial",
    "C25_peers_cannot_crash_refuted"
   ],
   "note": "PutBlock returns for every base target at most 2^63-1, queries return for timestamps below 2^63-1; false beyond: PutBlock panics, respectively Block, Forks and Stats panic. The fork of one peer and its last common block are returned when all leashed blocks are readable and the common-ancestor search is safe."
  },
  {
   "property": "C26",
   "status": "proved",
   "theorems": [
    "C26_keys_distinct",
    "C26_keys_ordered",
    "C26_writes_independent",
    "C26_scan_heads",
    "C26_scan_leashes"
   ],
   "note": ""
  },
  {
   "property": "C27",
   "status": "proved",
   "theorems": [
    "C27_atomic",
    "C27_queries_never_write",
    "C27_queries_see_complete_calls",
    "C27_writers_alone",
    "C27_queries_see_reachable"
   ],
   "note": "Goroutines interleave at every lock operation, snapshot and batch write of the methods of linkage.go. C27_atomic: every trace of calls and returns is explained by one sequential order in which each call acts between its start and its end. C27_queries_see_reachable: each snapshot of a query is a store reached by a history of complete calls, so that the theorems about reachable linkages apply to it. sync.RWMutex (a waiting writer blocks new readers), goleveldb snapshots and batches are modelled as atomic by their documentation."
  },
  {
   "property": "C28",
   "status": "partial",
   "theorems": [
    "C28_returns_among_queries_partial",
    "C28_log_stats_deadlock_refuted"
   ],
   "note": "Refuted: LogInitialStats takes the read lock and, holding it, calls Block, which takes it again; when a writer arrives in between, sync.RWMutex blocks both forever (C28_log_stats_deadlock_refuted: no call ever returns again). It returns when no writing call runs next to it (C28_returns_among_queries_partial), which is how forkdetector.go calls it: before the listener and the distributor start."
  },
  {
   "property": "C29",
   "status": "proved",
   "theorems": [
    "C29_available"
   ],
   "note": "For every registry reachable from an empty database by any calls (restarts and failing writes included) and every clock: the call succeeds, the result is exactly the dialable addresses, each once, and they become pending."
  },
  {
   "property": "C30",
   "status": "proved",
   "theorems": [
    "C30_not_dialled_twice"
   ],
   "note": "For every later sequence of calls without RegisterPeer/UnregisterPeer/MarkAsHostile of the address and without a restart of the process."
  },
  {
   "property": "C31",
   "status": "proved",
   "theorems": [
    "C31_append",
    "C31_append_fault"
   ],
   "note": "Exactly the first occurrence of each acceptable unknown address is added, with the fresh record; C31_append_fault: if a write fails the call equals the call on a prefix of the list."
  },
  {
   "property": "C32",
   "status": "proved",
   "theorems": [
    "C32_accepted_record",
    "C32_accepted_listed"
   ],
   "note": "Record, port rule, score, connection and pending sets after an accepted RegisterPeer; Connections needs that the other connected peers have records (C36)."
  },
  {
   "property": "C33",
   "status": "partial",
   "theorems": [
    "C33_hostile_not_dialled",
    "C33_hostile_no_version",
    "C33_stays_hostile_partial",
    "C33_stays_hostile_refuted"
   ],
   "note": "Not handed out and refused by SuggestVersion: proved. 'Stays hostile' is false: RegisterPeer checks the hostile state only in the branch where no record was found, so a stored hostile peer that presents a good handshake becomes connected (refuted with a witness); proved: nothing but an accepted RegisterPeer of that address ends it."
  },
  {
   "property": "C34",
   "status": "partial",
   "theorems": [
    "C34_incompatible_partial",
    "C34_first_contact_refuted",
    "C34_still_listed_refuted",
    "C34_bad_name_refuted",
    "C34_record",
    "C34_marked"
   ],
   "note": "False in general, three witnesses: on first contact putPeer is called with the zero address and fails, nothing is recorded; a peer connected before stays in Connections; a name that is not UTF-8 prevents the record. Proved for known peers with valid UTF-8 names (recorded hostile, closed, not added to Connections, nothing else changes). C34_record: the exact record written; C34_marked: the exact effect of MarkAsHostile (which nothing in the repository calls)."
  },
  {
   "property": "C35",
   "status": "proved",
   "theorems": [
    "C35_unregister",
    "C35_delay"
   ],
   "note": "Any later calls without RegisterPeer of the address, with a clock that does not run backwards; the bound is 10 minutes less the half second of rounding."
  },
  {
   "property": "C36",
   "status": "partial",
   "theorems": [
    "C36_connections_partial",
    "C36_connections_refuted"
   ],
   "note": "False in general: an unknown peer whose handshake name is not valid UTF-8 is put into the connections map before putPeer fails, and every later Connections call fails (refuted with a witness). Proved for histories in which each registered peer had a record or has a UTF-8 name and the write succeeds. C104_connections: it fails exactly if a connected peer has no record."
  },
  {
   "property": "C37",
   "status": "partial",
   "theorems": [
    "C37_cycle",
    "C37_versions",
    "C37_connected",
    "C37_cycle_refuted"
   ],
   "note": "Proved for versions distinct in (major, minor), with any calls about other addresses in between; false for a configuration with two versions differing only in the patch number: later versions are never suggested (refuted for every number of calls)."
  },
  {
   "property": "C38",
   "status": "proved",
   "theorems": [
    "C38_roundtrip",
    "C38_can_be_stored",
    "C38_kept",
    "C38_peers",
    "C38_names"
   ],
   "note": "Round trip through the storage, independence of IPv4 addresses, Peers lists each once. CBOR and version-string encodings are assumed inverse (trusted base). C38_names: a record of an IPv4 peer is stored exactly if its name is a sequence of encoded Unicode characters."
  },
  {
   "property": "C39",
   "status": "partial",
   "theorems": [
    "C39_only_stored_partial",
    "C39_only_stored_refuted"
   ],
   "note": "Proved for IPv4 addresses; false for IPv6: the key is the first four bytes of the address (refuted with a witness)."
  },
  {
   "property": "C40",
   "status": "partial",
   "theorems": [
    "C40_returns_partial",
    "C40_returns_refuted"
   ],
   "note": "Proved for every handshake with a nonempty application name; an empty application name panics at AppName[len-1] (refuted with a witness)."
  },
  {
   "property": "C41",
   "status": "proved",
   "theorems": [
    "C41_queue_ready",
    "C41_queue_unrequested",
    "C41_queue_last"
   ],
   "note": "Proved for every list without repetitions and every sequence of blocks, against a specification that never mentions the queue (got, newest, longest_received)."
  },
  {
   "property": "C42",
   "status": "partial",
   "theorems": [
    "C42_queue_completes_partial",
    "C42_repeated_never_ready_refuted",
    "C42_queue_completes_refuted"
   ],
   "note": "True for lists without repetitions; false otherwise: with a repeated ID the second slot can never be filled, so the queue is never ready whatever arrives (refuted for every repeated list, and with a witness)."
  },
  {
   "property": "C43",
   "status": "proved",
   "theorems": [
    "C43_ids_message",
    "C43_ids_leash"
   ],
   "note": "Proved at the level of calls for every behaviour of the store, including store errors (then it stops there), and for the leash in the real linkage."
  },
  {
   "property": "C44",
   "status": "partial",
   "theorems": [
    "C44_queue_is_batch",
    "C44_batch_applied_partial",
    "C44_batch_leash_partial",
    "C44_bad_batch_refuted"
   ],
   "note": "Proved: the puts are exactly the batch in order up to a refused one; with the real linkage and a batch that links up the leash becomes the last requested block. Refuted: if the batch does not link up, nothing is reported and the session waits for the timeout, then is stuck (C46)."
  },
  {
   "property": "C45",
   "status": "partial",
   "theorems": [
    "C45_timeout_partial",
    "C45_no_report_refuted"
   ],
   "note": "Proved for lists without repetitions when all puts succeed, or up to the refused put; refuted in full: if the store refuses a block of the prefix, the failure is never reported."
  },
  {
   "property": "C46",
   "status": "partial",
   "theorems": [
    "C46_timeout_frees_partial",
    "C46_stuck_forever",
    "C46_timeout_frees_refuted"
   ],
   "note": "Proved when the store accepts the received prefix. Refuted otherwise: one batch that does not link up leaves the loader in Done with the peer still current, and from then on no sequence of inputs has any effect (proved for every further input sequence)."
  },
  {
   "property": "C47",
   "status": "partial",
   "theorems": [
    "C47_silent_leash_partial",
    "C47_silent_leash_refuted"
   ],
   "note": "Proved for a session whose leash is at the last block of the last batch; refuted in full: if the leash moved on along blocks another peer brought, a timeout puts the old batch again and the leash moves back."
  },
  {
   "property": "C48",
   "status": "proved",
   "theorems": [
    "C48_other_messages"
   ],
   "note": "Proved for every session state, every message and every world."
  },
  {
   "property": "C49",
   "status": "proved",
   "theorems": [
    "C49_no_unexpected_event",
    "C49_state_changes"
   ],
   "note": "Proved for every world whose calls return (what happens when they panic is C65); the state changes are proved without that assumption. The semantics of the stateless library (queued firing) is part of the trusted base."
  },
  {
   "property": "C50",
   "status": "proved",
   "theorems": [
    "C50_restart"
   ],
   "note": "Proved for every session: the counter equals the number of failures since the last success or restart in the log."
  },
  {
   "property": "C51",
   "status": "proved",
   "theorems": [
    "C51_forwarded",
    "C51_offered",
    "C51_forwarded_faults"
   ],
   "note": "Both block messages. C51_forwarded: without storage faults, forwarded iff afterwards stored or block and parent unknown; C51_offered: a new block on a stored parent is stored; C51_forwarded_faults: with failing writes only the direction 'forwarded implies stored or unknown parent' remains."
  },
  {
   "property": "C52",
   "status": "partial",
   "theorems": [
    "C52_shutdown_partial",
    "C52_calm_shutdown_partial",
    "C52_jam_refuted",
    "C52_listener_refuted"
   ],
   "note": "Refuted twice: if the loader stops while the distributor is sending it a package, Distributor.Shutdown never returns (C52_jam_refuted: on every continuation); if the signal comes before the listener listens, or listening failed, Listener.Shutdown dereferences nil. Proved: every schedule ends in a return of main, a crash or that jam; with no package on the way and a listening server, main returns."
  },
  {
   "property": "C53",
   "status": "proved",
   "theorems": [
    "C53_filter",
    "C53_notice"
   ],
   "note": "skip k holds exactly for the kinds that change nothing, whatever the state, and that the filter's switch knows about. 'Handled' is stated by its effect (inert), not by the dispatch table; kinds unknown to the filter pass and are ignored by the distributor."
  },
  {
   "property": "C54",
   "status": "partial",
   "theorems": [
    "C54_keeps_trying_partial",
    "C54_stops_refuted"
   ],
   "note": "Refuted: when TakeAvailableAddresses fails, handleEvents returns before re-arming its timer and respawn never asks again. Proved for every sequence of registry calls without such a failure: one attempt per ten seconds."
  },
  {
   "property": "C55",
   "status": "partial",
   "theorems": [
    "C55_active_forks_partial",
    "C55_active_forks_everyone_refuted",
    "C55_active_forks_refuted"
   ],
   "note": "True when some peer is both connected and requested; false otherwise: an empty intersection is read as no filter, so all peers are reported (witness with no connections and with a requested peer that is not connected)."
  },
  {
   "property": "C56",
   "status": "partial",
   "theorems": [
    "C56_fork_codes",
    "C56_fork_of_peer",
    "C56_fork_answers_partial",
    "C56_fork_answers_refuted",
    "C56_generators_codes",
    "C56_generators_counted",
    "C56_generators_negative",
    "C56_text"
   ],
   "note": "Codes 400 and 404 exactly characterised; a 200 answer is the peer's fork / the counted generators; a negative number never gives an answer (it is a recovered panic, 500). The fork is answered when blocks are readable and the common-ancestor search is safe; false otherwise (C09): 500 for two chains of ten blocks. Addresses with an IPv6 zone are outside the 404 claim."
  },
  {
   "property": "C57",
   "status": "partial",
   "theorems": [
    "C57_start_up_returns_partial",
    "C57_start_up_refuted",
    "C57_exactly",
    "C57_text_refuted"
   ],
   "note": "C57_exactly gives the outcome for every command line, with the parsers of the Go library: a crash exactly if everything is valid but the -net or the -declared-address option is an IPv6 address (As4 panics), an error exactly if something checked is invalid. Hence false in general (C57_start_up_refuted, C57_text_refuted); an unparsable -declared-address is silently taken as none."
  },
  {
   "property": "C58",
   "status": "proved",
   "theorems": [
    "C58_selection",
    "C58_bad_selection",
    "C58_items",
    "C58_text"
   ],
   "note": "Items are specified as maximal comma-free parts; the address parser and TrimSpace are parameters."
  },
  {
   "property": "C59",
   "status": "proved",
   "theorems": [
    "C59_leashes"
   ],
   "note": "For every reachable store, every map order and every sorting function."
  },
  {
   "property": "C60",
   "status": "proved",
   "theorems": [
    "C60_heads",
    "C60_heads_answer"
   ],
   "note": "The order is that of the heads (C04-C06 describe them)."
  },
  {
   "property": "C61",
   "status": "proved",
   "theorems": [
    "C61_status"
   ],
   "note": "Peers with IPv4 addresses, which are the only ones the registry stores. C104_status says exactly when the page answers."
  },
  {
   "property": "C62",
   "status": "proved",
   "theorems": [
    "C62_accepted",
    "C62_builtin",
    "C62_valid_accepted",
    "C62_literals",
    "C62_addresses"
   ],
   "note": "Soundness and completeness of the parameter check; the parsers of the standard library and of gowaves are parameters."
  },
  {
   "property": "C63",
   "status": "partial",
   "theorems": [
    "C63_leashes_answer_partial",
    "C63_forks_answer_partial",
    "C63_api_disabled_refuted"
   ],
   "note": "True when every leashed block is readable and its timestamp encodable; false otherwise: one block dated in the year 10000 is accepted by PutBlock and turns the leashes and forks endpoints into 500."
  },
  {
   "property": "C64",
   "status": "proved",
   "theorems": [
    "C64_never_idle"
   ],
   "note": "Proved in the real world: linkage and registry models, other goroutines and storage faults between any two calls."
  },
  {
   "property": "C65",
   "status": "partial",
   "theorems": [
    "C65_loader_returns_partial",
    "C65_restart_crash_refuted",
    "C65_base_target_crash_refuted"
   ],
   "note": "Proved except for LCB: a crash can only come from LCB. Refuted in full: after ten failures LCB panics if the peer's chain and the best chain fork at genesis; a block with base target 2^63 also crashes the process."
  },
  {
   "property": "C66",
   "status": "proved",
   "theorems": [
    "C66_calls_return",
    "C66_no_deadlock"
   ],
   "note": "inevitably: on every schedule, finitely many steps (other than new calls) until all calls have returned. LogInitialStats is excluded (C28)."
  },
  {
   "property": "C67",
   "status": "partial",
   "theorems": [
    "C67_panics_partial",
    "C67_run_partial",
    "C67_tame_run_partial",
    "C67_block_refuted",
    "C67_handshake_refuted"
   ],
   "note": "crashing describes exactly the inputs that crash: a new block on a stored parent with base target above 2^63-1, and a handshake of a new connection with an empty application name. All other inputs, in any sequence, return (C67_run_partial, C67_tame_run_partial)."
  },
  {
   "property": "C68",
   "status": "proved",
   "theorems": [
    "C68_score",
    "C68_score_ignored"
   ],
   "note": ""
  },
  {
   "property": "C69",
   "status": "partial",
   "theorems": [
    "C69_answer",
    "C69_port_refuted",
    "C69_ping"
   ],
   "note": "The set of peers is proved exactly; refuted for the port: a peer that declared no address is passed on with port 0. C69_ping: the distributor's own request for peers goes once to every connected peer."
  },
  {
   "property": "C70",
   "status": "partial",
   "theorems": [
    "C70_error_partial",
    "C70_newer_refuted",
    "C70_dial_refuted",
    "C70_listed_refuted"
   ],
   "note": "Proved for a peer with a record and one connection. Refuted three times: the error of an older connection drops the newer one; a failed dial drops a live inbound connection; a connected peer whose record could not be stored stays listed for ever."
  },
  {
   "property": "C71",
   "status": "partial",
   "theorems": [
    "C71_refused_partial",
    "C71_self_refuted",
    "C71_declared_refuted",
    "C71_accept_refuted"
   ],
   "note": "Proved for incompatible, hostile and duplicate peers after the handshake. Refuted: our own declared address, malformed declared addresses, and hostile peers at Accept are refused without closing the connection."
  },
  {
   "property": "C72",
   "status": "proved",
   "theorems": [
    "C72_hostile",
    "C72_dial",
    "C72_delay"
   ],
   "note": "EstablishConnection (TCP dial and handshake) is a parameter up; leaves a excludes later calls that touch a's record themselves."
  },
  {
   "property": "C73",
   "status": "partial",
   "theorems": [
    "C73_honest_sync_partial",
    "C73_honest_sync_refuted"
   ],
   "note": "Proved when the difference of scores kept from an earlier session is absent or at least the difference at the common block, for an announced score not below the weight of the chain, for a store without write errors and fewer than 2^32-10 operations. Refuted without the first premise: Fail keeps prevDiff (loader.go:152-158), so a later session with another peer ends early, with blocks missing."
  },
  {
   "property": "C74",
   "status": "partial",
   "theorems": [
    "C74_own_genesis_refuted",
    "C74_foreign_store_is_stuck",
    "C74_own_store_goes_on"
   ],
   "note": "The full claim is refuted by C74_own_genesis_refuted. C74_foreign_store_is_stuck says what happens for every store of another chain, whatever blocks of the new chain arrive; a failed LeashScore makes the loader skip the peer (loader.go:207-223). C74_own_store_goes_on is the positive half."
  },
  {
   "property": "C75",
   "status": "partial",
   "theorems": [
    "C75_orders",
    "C75_forks_determined_partial",
    "C75_stats_determined_partial",
    "C75_lcb_determined_partial",
    "C75_fork_determined_partial",
    "C75_ties_refuted"
   ],
   "note": "Refuted when two leashes tie (C75_ties_refuted: the same store answers (1,1) or (2,0)). Proved for every store in which no two counted heads have the same score and number of peers."
  },
  {
   "property": "C76",
   "status": "proved",
   "theorems": [
    "C76_registry_atomic",
    "C76_registry_returns",
    "C76_no_double_dial"
   ],
   "note": "Every access to the maps and every database read or write of a method is a separate step (RegModel.v); the methods are shown to do, alone, what PeersModel.v says. sync.Mutex is the lock of LockModel.v without readers."
  },
  {
   "property": "C77",
   "status": "partial",
   "theorems": [
    "C77_stores_reachable",
    "C77_crash_causes_partial",
    "C77_never_crashes_refuted",
    "C77_empty_name_refuted"
   ],
   "note": "Reachability is proved for every run, crashing or not. 'Never crashes' is refuted from empty stores (C77_never_crashes_refuted, C77_empty_name_refuted); C77_crash_causes_partial lists all causes. The HTTP server (read-only, panics recovered by net/http) and the shutdown (C52) are not part of this process model; calls on the stores are single steps (C27, C76)."
  },
  {
   "property": "C78",
   "status": "proved",
   "theorems": [
    "C78_calls_justified",
    "C78_leash_said",
    "C78_block_vouched",
    "C78_loader_source"
   ],
   "note": "For histories of less than 2^32-10 linkage calls (the width of the block numbers). Ordering: apply the theorem to every prefix of the schedule."
  },
  {
   "property": "C79",
   "status": "proved",
   "theorems": [
    "C79_last_turn",
    "C79_moments",
    "C79_stores_reachable",
    "C79_leashes_stored",
    "C79_leash_said",
    "C79_block_vouched",
    "C79_start"
   ],
   "note": "The parameters of the process (scheme, versions, genesis, declared address) are the same in every life. A kill is possible before each call of the loader and after each step of another goroutine; in the middle of a call it is the call with a fault (a prefix of its batches written; LevelDB batches are atomic). The states in which a life can end are given exactly (C79_last_turn, C79_moments). Histories of less than 2^32-10 linkage calls in total."
  },
  {
   "property": "C80",
   "status": "partial",
   "theorems": [
    "C80_stats_exact",
    "C80_starts_again_partial",
    "C80_starts_again_refuted",
    "C80_never_again"
   ],
   "note": "Refuted from empty stores by a single block of one peer (C80_starts_again_refuted); C80_stats_exact says exactly when the start panics and what it writes otherwise; C80_never_again: the failure is permanent. Not represented: failing to open or to read LevelDB."
  },
  {
   "property": "C81",
   "status": "partial",
   "theorems": [
    "C81_decisions",
    "C81_choice",
    "C81_first_batch_partial",
    "C81_first_batch_refuted"
   ],
   "note": "C81_decisions and C81_choice hold for every world; C81_first_batch_partial needs that the synchronisation before did not end by a timeout (refuted without, in the real world and without faults). A difference of scores left over from one peer is a defect of loader.go:152-158 (Fail does not call resetLoadingPeer)."
  },
  {
   "property": "C82",
   "status": "proved",
   "theorems": [
    "C82_sorted",
    "C82_friends",
    "C82_addresses"
   ],
   "note": "strings.ToUpper is a parameter (g_upper). Ties: see C75."
  },
  {
   "property": "C83",
   "status": "proved",
   "theorems": [
    "C83_all_stopped",
    "C83_serves",
    "C83_forward"
   ],
   "note": "The goroutines that dial and accept connections are not waited for by the code and not part of this model; a handler is one step of its goroutine; the API is modelled by the order of its shutdown only."
  },
  {
   "property": "C84",
   "status": "proved",
   "theorems": [
    "C84_served",
    "C84_announced",
    "C84_empty"
   ],
   "note": "Spec: served, announces, brings. The check for an empty list is made for block IDs only (C84_empty); blocks that are stored or whose parent is missing are passed on, the others not (C51)."
  },
  {
   "property": "C85",
   "status": "partial",
   "theorems": [
    "C85_pending_partial",
    "C85_leak_refuted",
    "C85_armed",
    "C85_disarmed",
    "C85_dialled",
    "C85_failed",
    "C85_returned",
    "C85_refused"
   ],
   "note": "The mark of pending addresses is proved for runs in which EstablishConnection does not return nil (C85_pending_partial); C85_leak_refuted: if it does before the registry has heard of the connection, the address is never dialled again. C85_disarmed: a failed read stops the respawn for ever."
  },
  {
   "property": "C86",
   "status": "proved",
   "theorems": [
    "C86_select",
    "C86_delivered",
    "C86_timers",
    "C86_waits",
    "C86_ticker"
   ],
   "note": "Spec: offered, inputs, served (C84). C86_delivered is for runs that have not crashed; blocks that need no loading are kept by the distributor (C51)."
  },
  {
   "property": "C87",
   "status": "partial",
   "theorems": [
    "C87_session",
    "C87_freed_partial",
    "C87_stuck",
    "C87_stall_refuted"
   ],
   "note": "Missing from C87_freed_partial: refusals of the store; C87_stall_refuted shows that the full claim fails there, C87_stuck that a refusal is the only cause and that it is final."
  },
  {
   "property": "C88",
   "status": "partial",
   "theorems": [
    "C88_order",
    "C88_left_open",
    "C88_exit",
    "C88_services",
    "C88_panic",
    "C88_report",
    "C88_starts",
    "C88_no_server",
    "C88_server",
    "C88_closed_refuted",
    "C88_closed_last_refuted",
    "C88_reported_refuted"
   ],
   "note": "Closed off exactly by C88_left_open (which databases stay open) and C88_panic (causes of exit code 2). flag.Parse and the logger are parameters."
  },
  {
   "property": "C89",
   "status": "partial",
   "theorems": [
    "C89_heads",
    "C89_leashes",
    "C89_fork",
    "C89_generators",
    "C89_active",
    "C89_status",
    "C89_calm",
    "C89_active_refuted",
    "C89_status_refuted"
   ],
   "note": "Heads, leashes, fork and generators proved for every interleaving (blocks and leashes are never removed, blocks never change). Refuted for active forks and status (C89_active_refuted, C89_status_refuted); C89_active and C89_status say what these answers are instead. Addresses with an IPv6 zone are outside the claims for fork and generators, ff..ff outside that for generators."
  },
  {
   "property": "C90",
   "status": "partial",
   "theorems": [
    "C90_honest_process_partial",
    "C90_honest_process_refuted"
   ],
   "note": "Proved when the difference of scores kept from an earlier session is absent or at least the difference at the common block, for a store without write errors and fewer than 2^32-10 operations, for answers that reach the distributor while the loader waits at its select or in the middle of a turn of the loader (the other goroutines may act between any two calls of the loader). Refuted without the first premise from empty stores (C90_honest_process_refuted)."
  },
  {
   "property": "C91",
   "status": "proved",
   "theorems": [
    "C91_records",
    "C91_shortest",
    "C91_injective",
    "C91_chains",
    "C91_writes",
    "C91_blocks",
    "C91_peers",
    "C91_versions",
    "C91_short_versions",
    "C91_typed",
    "C91_all_values"
   ],
   "note": "The encoder and decoder are models of the part of fxamacker/cbor that the records use (RFC 8949, default options). Premises are the ranges of the Go types; times within 2^62 seconds of 1970."
  },
  {
   "property": "C92",
   "status": "partial",
   "theorems": [
    "C92_cut",
    "C92_added",
    "C92_reported_partial",
    "C92_peer_silent",
    "C92_reported_refuted"
   ],
   "note": "Refuted for storage.peer (C92_reported_refuted, C92_peer_silent: always, for every cut record); proved for blocks, links and the list of all peers. The decoder of the model refuses encodings that the library would read but the program never writes; cut and extended records are refused by both."
  },
  {
   "property": "C93",
   "status": "proved",
   "theorems": [
    "C93_peers",
    "C93_friendly",
    "C93_connections",
    "C93_connections_fails"
   ],
   "note": "The lists are described through Peer(addr) of the registry and the table of connections; that such a table can hold a peer without a record is C36."
  },
  {
   "property": "C94",
   "status": "proved",
   "theorems": [
    "C94_states",
    "C94_answers"
   ],
   "note": "Refinement: RawModel.v is the registry of PeersModel.v with the byte-level storage of CborModel.v in the place of the records."
  },
  {
   "property": "C95",
   "status": "partial",
   "theorems": [
    "C95_lists_refuted",
    "C95_lasts",
    "C95_own_calls",
    "C95_marked",
    "C95_registered",
    "C95_elsewhere_partial",
    "C95_dialled_refuted"
   ],
   "note": "Refuted (C95_lists_refuted for every damaged database, C95_dialled_refuted with a witness): one undecodable record stops every list and all dialling; C95_lasts shows that it stays so, C95_marked and C95_registered what repairs it, C95_elsewhere_partial that calls about other addresses are not affected."
  },
  {
   "property": "C96",
   "status": "proved",
   "theorems": [
    "C96_names",
    "C96_apart",
    "C96_constants",
    "C96_queue"
   ],
   "note": "The tables of the three generated String methods and the text of a block queue; ShortString of an ID is a parameter."
  },
  {
   "property": "C97",
   "status": "proved",
   "theorems": [
    "C97_routes",
    "C97_one",
    "C97_any_order",
    "C97_requests"
   ],
   "note": "The router of chi is described by its rules for patterns (DESIGN.md, section 2); the theorem describes the table of routes independently of its order."
  },
  {
   "property": "C98",
   "status": "partial",
   "theorems": [
    "C98_writes",
    "C98_lookups",
    "C98_lists_partial",
    "C98_leash_score_partial",
    "C98_first_leashes",
    "C98_first_heads",
    "C98_ended",
    "C98_ended_stats",
    "C98_lists_refuted",
    "C98_fork_refuted",
    "C98_forks_refuted",
    "C98_leash_score_refuted",
    "C98_history"
   ],
   "note": "Proved for every read of a record and every snapshot, except LeashScore: C98_leash_score_refuted (a failed read of the leash is answered with the score of the block with the zero ID, if there is one; otherwise an error, C98_leash_score_partial). Lists: no iterator error is ever checked, so a list cut short by a failure is taken for complete: C98_lists_refuted, C98_fork_refuted (a forked peer reported on the longest chain), C98_forks_refuted (panic). C98_first_leashes, C98_first_heads, C98_ended and C98_ended_stats say exactly what is answered then. C98_history carries all claims about reachable stores over to histories with failing reads."
  },
  {
   "property": "C99",
   "status": "partial",
   "theorems": [
    "C99_register",
    "C99_calls",
    "C99_queries",
    "C99_lists_partial",
    "C99_ended",
    "C99_append",
    "C99_take",
    "C99_history",
    "C99_unregister_refuted",
    "C99_lists_refuted",
    "C99_append_refuted"
   ],
   "note": "Proved for every read of a record and every snapshot (C99_register, C99_calls, C99_queries), with exact descriptions of lists cut short (C99_ended, C99_take) and of AppendAddresses (C99_append), and C99_history. Refuted: C99_unregister_refuted (the dead connection stays listed and the peer is never dialled), C99_lists_refuted (iterator errors are not checked), C99_append_refuted (the rest of the list is dropped silently)."
  },
  {
   "property": "C100",
   "status": "proved",
   "theorems": [
    "C100_canonical",
    "C100_white",
    "C100_addresses",
    "C100_ports",
    "C100_one_text",
    "C100_sockets",
    "C100_hostile_never",
    "C100_trim",
    "C100_numbers",
    "C100_library"
   ],
   "note": "Go's netip.ParseAddr, ParseAddrPort, Addr.String, AddrPort.String, net.TCPAddr.String, strconv.Atoi and strings.TrimSpace are modelled from their published source (Go 1.22), not from /repo. Finding: MarkAsHostile reads a socket's text, which has a port, as an address, and so fails for every socket (C100_hostile_never); nothing in /repo calls it."
  },
  {
   "property": "C101",
   "status": "partial",
   "theorems": [
    "C101_zero",
    "C101_blocks",
    "C101_one_line_partial",
    "C101_no_alarm",
    "C101_one_line_of_peer",
    "C101_micro_refuted",
    "C101_weightless_refuted",
    "C101_detects",
    "C101_alarm",
    "C101_process"
   ],
   "note": "Proved: C101_zero, C101_blocks, C101_no_alarm, C101_one_line_of_peer, C101_detects, C101_alarm, C101_process. Partial because a fork of length 1 is reported for peers on one line (C101_micro_refuted: a micro-block is stored as a sibling of the block it extends), and because the positive part needs base targets other than 0 (C101_weightless_refuted: six blocks with base target 0 ahead on the same chain are counted as a long fork)."
  },
  {
   "property": "C102",
   "status": "proved",
   "theorems": [
    "C102_sockets",
    "C102_seeds",
    "C102_ipv6_seed_ignored",
    "C102_entries",
    "C102_exchange",
    "C102_dial"
   ],
   "note": "Proved: C102_sockets, C102_seeds, C102_entries, C102_exchange, C102_dial, with the library's text functions of NetipModel.v. Finding: an IPv6 seed is accepted on the command line and silently ignored afterwards (C102_ipv6_seed_ignored shows that not every accepted seed becomes a peer)."
  },
  {
   "property": "C103",
   "status": "proved",
   "theorems": [
    "C103_found",
    "C103_returns",
    "C103_detected"
   ],
   "note": "Proved: C103_found, C103_returns, C103_detected (the premises are those of C90, among them the one about a score difference kept from an earlier session; fewer than 2^32-10 operations). The premise of C103_returns about the common piece is needed: C09, C18."
  },
  {
   "property": "C104",
   "status": "proved",
   "theorems": [
    "C104_forks",
    "C104_forks_exact",
    "C104_fork",
    "C104_process",
    "C104_connections",
    "C104_status",
    "C104_no_hang"
   ],
   "note": "Proved: C104_forks, C104_forks_exact, C104_fork, C104_process, C104_connections, C104_status, C104_no_hang. 'Can be computed' is the arithmetic condition of C09."
  },
  {
   "property": "C105",
   "status": "proved",
   "theorems": [
    "C105_chosen",
    "C105_sole"
   ],
   "note": "Proved: C105_chosen, C105_sole (with the premise of C73/C90 about a score difference kept from an earlier session, fewer than ten failures of the peer in a row, and fewer than 2^32-10 operations)."
  },
  {
   "property": "C106",
   "status": "proved",
   "theorems": [
    "C106_leashes",
    "C106_heads",
    "C106_forks",
    "C106_active_forks",
    "C106_fork",
    "C106_generators",
    "C106_process"
   ],
   "note": "Proved: C106_leashes, C106_heads, C106_forks, C106_active_forks, C106_fork, C106_generators, C106_process. The premise that no two blocks are equally good is needed only for the direction from the answer to the conditions: with two best blocks the outcome can depend on the map order (C104_forks names the outcomes without this premise). For the pages of one peer the remaining codes, 400 and 404, are in C56."
  },
  {
   "property": "C107",
   "status": "proved",
   "theorems": [
    "C107_restarted",
    "C107_sole"
   ],
   "note": "Proved: C107_restarted, C107_sole (with the premise of C73/C90 about a score difference kept from an earlier session, and fewer than 2^32-10 operations). C107_restarted speaks about turns that end; C107_sole shows that LCB is the only thing that can crash the turn, if nothing else happens meanwhile (C65_restart_crash_refuted, C107_crash_example: it can)."
  },
  {
   "property": "C108",
   "status": "proved",
   "theorems": [
    "C108_command_line",
    "C108_interrupted",
    "C108_again"
   ],
   "note": "Proved: C108_command_line, C108_interrupted, C108_again (with go_env, the model of the Go text functions, C100; the outcomes of opening the stores and of the services are arbitrary inputs of MainModel; in C108_again the outcome of initialize and LogInitialStats is the one of the store model)."
  },
  {
   "property": "C109",
   "status": "proved",
   "theorems": [
    "C109_life"
   ],
   "note": "Proved: C109_life (with the premise of C73/C90 about a score difference kept from an earlier session of the same life, true blocks in the store, no further write errors, and fewer than 2^32-10 operations)."
  },
  {
   "property": "C110",
   "status": "partial",
   "theorems": [
    "C110_text",
    "C110_one_peer_partial",
    "C110_one_peer_refuted",
    "C110_head"
   ],
   "note": "Proved: C110_text (the text and that there always is one) and C110_one_peer_partial (addresses without a zone or with a zone without a dash, dates written without quotation marks and semicolons, as time.RFC3339 does), and C110_head (given that different block IDs have different texts). Missing: zones with a dash, for which the claim is false: C110_one_peer_refuted."
  }
 ]
}