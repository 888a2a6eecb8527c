{"id": "C01", "title": "PutBlock stores a new block correctly", "statement": "When PutBlock(b, peer) is given a block whose ID is not stored and whose parent is stored, it succeeds; afterwards Block(b.ID) reports b's parent, timestamp and generator, height = parent height + 1 and score = parent score + floor(2^64 / base target) (0 for base target 0); every other stored block, and every other peer's leash, is exactly as before.", "quantifier": "every history of PutBlock / PutMicroBlock / MoveLeash calls, restarts and crashes or write failures at any point inside those calls; every block and every peer address", "why_tests_cant": "Tests store a dozen blocks in a fixed tree; the claim is about every tree, every block content and every reachable store.", "anchors": ["chains/linkage.go:PutBlock", "chains/storage.go:putProtoBlock", "chains/storage_entities.go:newBlock", "chains/utils.go:calculateCumulativeScore"]}
{"id": "C02", "title": "A block with an unknown parent is rejected without effect", "statement": "PutBlock of a block that is not stored and whose parent is not stored returns ErrParentNotFound and changes nothing: no block, head, leash or counter differs afterwards.", "quantifier": "every history of PutBlock / PutMicroBlock / MoveLeash calls, restarts and crashes or write failures at any point inside those calls; every block and peer", "why_tests_cant": "A test can compare a few getters after one rejected block; 'changes nothing' ranges over the whole store and all histories.", "anchors": ["chains/linkage.go:PutBlock", "chains/linkage.go:ErrParentNotFound"]}
{"id": "C03", "title": "Stored blocks are immutable", "statement": "Once a block is stored, Block(id) returns the same contents for ever: no later call, restart, crash or write failure changes or removes it.", "quantifier": "every history of PutBlock / PutMicroBlock / MoveLeash calls, restarts and crashes or write failures at any point inside those calls, extended by any further history", "why_tests_cant": "Needs every continuation of every history.", "anchors": ["chains/linkage.go:Block", "chains/linkage.go:PutBlock", "chains/linkage.go:PutMicroBlock", "chains/storage.go:putBlock"]}
{"id": "C04", "title": "Re-putting a known block only moves the sender's leash", "statement": "PutBlock / PutMicroBlock of an already stored ID succeeds, whatever the other fields of the message say, and its only effect is that Leash(peer) becomes that ID; blocks, heads and other leashes are unchanged.", "quantifier": "every history of PutBlock / PutMicroBlock / MoveLeash calls, restarts and crashes or write failures at any point inside those calls; every message with a stored ID and every peer", "why_tests_cant": "All contents and all stores.", "anchors": ["chains/linkage.go:PutBlock", "chains/linkage.go:PutMicroBlock", "chains/storage.go:updateLeash"]}
{"id": "C05", "title": "PutMicroBlock makes a sibling of the referenced block", "statement": "PutMicroBlock(inv, peer) with a new TotalBlockID and a stored Reference that is not the genesis block stores a block with the reference's height, score, timestamp, generator and parent, and moves peer's leash to it; with an unknown Reference it returns ErrRefNotFound, and with Reference = genesis it returns an error, in both cases without any effect.", "quantifier": "every history of PutBlock / PutMicroBlock / MoveLeash calls, restarts and crashes or write failures at any point inside those calls; every micro-block announcement and peer", "why_tests_cant": "All stores and all announcements.", "anchors": ["chains/linkage.go:PutMicroBlock", "chains/storage.go:putMicroBlock"]}
{"id": "C06", "title": "Heads are exactly the blocks nobody extended", "statement": "Heads() lists, with the numbers 1..k in ascending order and each block once, exactly the stored blocks on top of which no block (as parent) and no micro-block (as reference) has been put. A head keeps its number while it is being extended.", "quantifier": "every history of PutBlock / PutMicroBlock / MoveLeash calls, restarts and crashes or write failures at any point inside those calls", "why_tests_cant": "Requires an invariant over every insertion order of every tree.", "anchors": ["chains/linkage.go:Heads", "chains/storage.go:putHead", "chains/storage.go:putNewHead", "chains/storage.go:getHeads"]}
{"id": "C07", "title": "LastIDs walks the parent chain", "statement": "LastIDs(id, n) for a stored id and n >= 0 returns id, its parent, the parent's parent and so on: exactly min(n, height of id) IDs, the last one being genesis when n >= height. For an unknown id it returns a not-found error.", "quantifier": "every history of PutBlock / PutMicroBlock / MoveLeash calls, restarts and crashes or write failures at any point inside those calls; every id and every n", "why_tests_cant": "All trees, all depths, all n.", "anchors": ["chains/linkage.go:LastIDs", "chains/storage.go:getAncestors"]}
{"id": "C08", "title": "Last common block is the deepest common ancestor", "statement": "Whenever the last-common-block computation used by LCB, Fork, Forks and Stats returns a block for two stored blocks, that block is an ancestor-or-self of both and every common ancestor of the two is an ancestor-or-self of it.", "quantifier": "every history of PutBlock / PutMicroBlock / MoveLeash calls, restarts and crashes or write failures at any point inside those calls; every pair of stored blocks", "why_tests_cant": "Binary lifting over every tree shape and height; tests cover a handful of trees of height at most 8 and one straight chain.", "anchors": ["chains/storage.go:lca", "chains/storage.go:fastBackwardFarthest", "chains/storage.go:putNewLinkForBlock"]}
{"id": "C09", "title": "The last-common-block computation always returns", "statement": "For any two stored blocks the last-common-block computation terminates with a block: it never panics and never fails.", "quantifier": "every history of PutBlock / PutMicroBlock / MoveLeash calls, restarts and crashes or write failures at any point inside those calls; every pair of stored blocks", "why_tests_cant": "The failing shapes are specific relations between the fork length and the common height; no sample-based test in the repository hits one.", "anchors": ["chains/storage.go:lca"]}
{"id": "C10", "title": "Scores are the sum along the chain", "statement": "Block(id).Score equals the sum of floor(2^64/base target) (0 for base target 0) over all key blocks on the chain from genesis to id, and so never decreases from parent to child and strictly grows when the child's base target is between 1 and 2^63-1.", "quantifier": "every history of PutBlock / PutMicroBlock / MoveLeash calls, restarts and crashes or write failures at any point inside those calls; every stored block", "why_tests_cant": "All chains.", "anchors": ["chains/utils.go:calculateScore", "chains/utils.go:calculateCumulativeScore", "chains/storage.go:putProtoBlock"]}
{"id": "C11", "title": "A peer's leash is the last block it was moved to", "statement": "Leash(peer) returns the block of the last successful PutBlock, PutMicroBlock or MoveLeash made for that peer, unaffected by calls for other peers, and the genesis ID if there was none; HasLeash says whether there was one.", "quantifier": "every history of PutBlock / PutMicroBlock / MoveLeash calls, restarts and crashes or write failures at any point inside those calls; every (zone-less, valid) peer address", "why_tests_cant": "All interleavings of calls for all peers.", "anchors": ["chains/linkage.go:Leash", "chains/linkage.go:HasLeash", "chains/linkage.go:MoveLeash", "chains/storage.go:updateLeash"]}
{"id": "C12", "title": "Leashes lists every leashed peer once", "statement": "Leashes() returns exactly one entry per leashed peer, each with the block Leash(peer) reports.", "quantifier": "every history of PutBlock / PutMicroBlock / MoveLeash calls, restarts and crashes or write failures at any point inside those calls; every valid zone-less IPv4 or IPv6 address", "why_tests_cant": "Boundary addresses of a byte-ordered range scan.", "anchors": ["chains/linkage.go:Leashes", "chains/storage.go:leashes", "chains/storage_entities.go:addrKeyBytes"]}
{"id": "C13", "title": "Leashes always point at stored blocks", "statement": "If MoveLeash is only ever called with stored blocks, every leash points at a stored block, so LeashScore(peer) succeeds and equals the score of the block Leash(peer) reports (genesis for unleashed peers).", "quantifier": "every history of PutBlock / PutMicroBlock / MoveLeash calls, restarts and crashes or write failures at any point inside those calls in which MoveLeash is called with stored blocks; every peer", "why_tests_cant": "Invariant over all histories.", "anchors": ["chains/linkage.go:LeashScore", "chains/linkage.go:MoveLeash", "loading/peer_loader.go:requestBlocks"]}
{"id": "C14", "title": "Forks partitions the selected peers by block", "statement": "Forks(peers), when it returns, has one fork per distinct block some selected leashed peer stands on (all leashed peers when peers is empty), Peers is exactly the selected peers leashed to HeadBlock, PeersCount is their number, and the head's height, score, generator and timestamp are those of Block(HeadBlock).", "quantifier": "every history of PutBlock / PutMicroBlock / MoveLeash calls, restarts and crashes or write failures at any point inside those calls; every peer selection; every map iteration order and every outcome of the unstable sort", "why_tests_cant": "Go map order and sort ties are nondeterministic.", "anchors": ["chains/linkage.go:Forks", "chains/linkage.go:forks"]}
{"id": "C15", "title": "Exactly one fork is the longest and it has maximal score", "statement": "Forks(peers), when it returns, marks exactly one fork Longest; it comes first, no other selected fork has a higher score, and among equal scores none has more peers. The list is ordered by score, then number of peers, descending.", "quantifier": "every history of PutBlock / PutMicroBlock / MoveLeash calls, restarts and crashes or write failures at any point inside those calls; every peer selection, map order and sort outcome", "why_tests_cant": "All stores and tie patterns.", "anchors": ["chains/linkage.go:forks", "chains/entities.go:byScoreAndPeersDesc"]}
{"id": "C16", "title": "Fork length counts the blocks since the last common block", "statement": "In every fork returned by Forks or Fork, LastCommonBlock is the deepest common ancestor of HeadBlock and the longest fork's head, and Length = HeadHeight - height(LastCommonBlock) >= 0; the longest fork has Length 0.", "quantifier": "every history of PutBlock / PutMicroBlock / MoveLeash calls, restarts and crashes or write failures at any point inside those calls; every peer selection and peer", "why_tests_cant": "All trees.", "anchors": ["chains/linkage.go:forks", "chains/linkage.go:Fork"]}
{"id": "C17", "title": "Stats classifies the forks by length", "statement": "Stats() returns Short + Long = number of forks of Forks(nil), Long being the number of those with Length > 5.", "quantifier": "every history of PutBlock / PutMicroBlock / MoveLeash calls, restarts and crashes or write failures at any point inside those calls", "why_tests_cant": "All stores.", "anchors": ["chains/linkage.go:Stats", "chains/linkage.go:longForkThreshold"]}
{"id": "C18", "title": "Forks and Stats never crash", "statement": "Forks(peers) and Stats() return a value for every store and every peer selection, in particular on a fresh store and when no selected peer is leashed.", "quantifier": "every history of PutBlock / PutMicroBlock / MoveLeash calls, restarts and crashes or write failures at any point inside those calls; every peer selection", "why_tests_cant": "Needs the empty cases and every tree.", "anchors": ["chains/linkage.go:forks", "chains/linkage.go:Stats", "api/api.go:status"]}
{"id": "C19", "title": "Fork describes the block the peer stands on", "statement": "Fork(peer) for a leashed peer, when it returns, has HeadBlock = Leash(peer), Peers = all peers leashed to that block, Longest only if no leashed block has a higher score (nor equal score and more peers), and agrees with the fork of that block in Forks(nil) whenever the best block is unique.", "quantifier": "every history of PutBlock / PutMicroBlock / MoveLeash calls, restarts and crashes or write failures at any point inside those calls; every leashed peer; every map iteration order", "why_tests_cant": "Map order is nondeterministic; all stores.", "anchors": ["chains/linkage.go:Fork", "api/api.go:fork"]}
{"id": "C20", "title": "LCB is the last common block with the longest chain", "statement": "LCB(peer), when it returns, is the deepest common ancestor of the peer's leash and of a leashed block of maximal score (maximal peers among those); for a peer without leash it is genesis.", "quantifier": "every history of PutBlock / PutMicroBlock / MoveLeash calls, restarts and crashes or write failures at any point inside those calls; every peer; every map iteration order", "why_tests_cant": "All stores and orders.", "anchors": ["chains/linkage.go:LCB"]}
{"id": "C21", "title": "ForkGenerators counts the generators of the last blocks", "statement": "ForkGenerators(id, n), n >= 0, lists each generator of the last min(n, height) blocks of the chain ending in id exactly once with the number of those blocks it generated, in descending order of that number.", "quantifier": "every history of PutBlock / PutMicroBlock / MoveLeash calls, restarts and crashes or write failures at any point inside those calls; every id and n; every map order and sort outcome", "why_tests_cant": "All chains, all n.", "anchors": ["chains/linkage.go:ForkGenerators", "chains/storage.go:getBlocks", "chains/entities.go:byBlocksCountDesc"]}
{"id": "C22", "title": "ActiveHeads are the heads some peer stands on", "statement": "ActiveHeads() is the sublist of Heads() consisting of the heads some peer is leashed to.", "quantifier": "every history of PutBlock / PutMicroBlock / MoveLeash calls, restarts and crashes or write failures at any point inside those calls", "why_tests_cant": "All stores.", "anchors": ["chains/linkage.go:ActiveHeads", "chains/linkage.go:activeHeads", "chains/linkage.go:Heads"]}
{"id": "C23", "title": "Crash safety of block insertion", "statement": "If the process dies at any point during PutBlock or PutMicroBlock, the store reopened afterwards is either as before, or has the block completely inserted (block, ID, link, head, counter) with only the leash possibly not yet moved; calling the same method again then gives exactly the store an uninterrupted call would have given.", "quantifier": "every history of PutBlock / PutMicroBlock / MoveLeash calls, restarts and crashes or write failures at any point inside those calls; every crash point between two atomic store writes", "why_tests_cant": "Every crash point of every call in every state.", "anchors": ["chains/linkage.go:PutBlock", "chains/storage.go:putProtoBlock", "chains/storage.go:updateLeash"]}
{"id": "C24", "title": "Reopening the store changes nothing", "statement": "Opening a store that already has blocks leaves its contents untouched; with the same genesis every query answers as before.", "quantifier": "every history of PutBlock / PutMicroBlock / MoveLeash calls, restarts and crashes or write failures at any point inside those calls", "why_tests_cant": "All stores.", "anchors": ["chains/linkage.go:NewLinkage", "chains/storage.go:initialize"]}
{"id": "C25", "title": "Peers cannot crash the detector with a block", "statement": "PutBlock returns (possibly an error) for every block a peer can send, and no stored block makes a later query panic.", "quantifier": "every history of PutBlock / PutMicroBlock / MoveLeash calls, restarts and crashes or write failures at any point inside those calls; every block, including absurd base targets and timestamps", "why_tests_cant": "The failing inputs are at the edge of 64-bit ranges.", "anchors": ["chains/utils.go:calculateScore", "chains/linkage.go:safeTimestamp", "distributor.go:handleBlock"]}
{"id": "C26", "title": "Store records of different kinds never overwrite each other", "statement": "The byte keys of counters, ID index, block records, links, leashes, head and head-index records are pairwise distinct, for all IDs, numbers and addresses, and order-preserving in the number, so a write to one record never changes another and range scans see exactly their own kind.", "quantifier": "every pair of records: all 32/64-byte IDs, all 64-bit numbers, all IPv4/IPv6 addresses", "why_tests_cant": "Infinite/huge key space.", "anchors": ["chains/storage_entities.go:idKeyBytes", "chains/storage_entities.go:numKeyBytes", "chains/storage_entities.go:addrKeyBytes", "chains/storage.go:putCounter", "chains/storage.go:getHeads", "chains/storage.go:leashes"]}
{"id": "C27", "title": "Queries never modify the store and calls are atomic", "statement": "Under any interleaving of any number of goroutines calling the linkage's methods, the results and the final store are those of some sequential order of the calls consistent with real time (each call takes effect between its start and its end), and readers never see a block without what its PutBlock wrote with it.", "quantifier": "every number of goroutines, every program of calls and every schedule of their individual steps", "why_tests_cant": "Schedules cannot be enumerated by tests.", "anchors": ["chains/linkage.go:Linkage.mu", "chains/linkage.go:PutBlock", "chains/linkage.go:Forks"]}
{"id": "C28", "title": "Startup statistics cannot deadlock", "statement": "LogInitialStats returns under every schedule of concurrent callers.", "quantifier": "every schedule", "why_tests_cant": "Needs the adversarial schedule: a writer arriving between two read locks of the same goroutine.", "anchors": ["chains/linkage.go:LogInitialStats", "chains/linkage.go:Block"]}
{"id": "C29", "title": "Available addresses are exactly the dialable ones", "statement": "TakeAvailableAddresses returns exactly the known peers that are not hostile, have a port, are not our own declared address, whose next attempt is due, and that are neither connected nor pending; each once; and marks them pending.", "quantifier": "every registry state reachable by any sequence of registry calls; every clock", "why_tests_cant": "All registries and histories.", "anchors": ["peers/registry.go:TakeAvailableAddresses"]}
{"id": "C30", "title": "No address is dialled twice at the same time", "statement": "An address handed out by TakeAvailableAddresses is not handed out again until a RegisterPeer, UnregisterPeer or MarkAsHostile call for that address.", "quantifier": "every sequence of registry calls", "why_tests_cant": "All histories.", "anchors": ["peers/registry.go:TakeAvailableAddresses", "peers/registry.go:RegisterPeer", "peers/registry.go:UnregisterPeer"]}
{"id": "C31", "title": "AppendAddresses adds exactly the new acceptable addresses", "statement": "AppendAddresses stores a fresh, never-connected record for every given address that is IPv4, not loopback, not our declared address and not known yet, returns how many it added, and changes no existing record.", "quantifier": "every registry state; every list of addresses, with duplicates", "why_tests_cant": "All lists and states.", "anchors": ["peers/registry.go:AppendAddresses"]}
{"id": "C32", "title": "A successfully registered peer is connected and friendly", "statement": "If RegisterPeer(addr, ...) accepts a peer, then Connections() and FriendlyPeers() list it exactly once with the name, nonce and version of its handshake, its port is the declared one iff the declared IP equals addr and otherwise 0, it is no longer pending, its previously reported score is kept, and no other peer's record changes.", "quantifier": "every registry state; every handshake", "why_tests_cant": "All states and handshakes.", "anchors": ["peers/registry.go:RegisterPeer", "peers/registry.go:checkPort", "peers/registry.go:Connections", "peers/registry.go:FriendlyPeers"]}
{"id": "C33", "title": "Hostile peers stay out", "statement": "A peer recorded as hostile is never handed out for dialling, SuggestVersion refuses it, and it stays hostile under every later registry call.", "quantifier": "every registry state and every later sequence of registry calls", "why_tests_cant": "All histories.", "anchors": ["peers/registry.go:RegisterPeer", "peers/registry.go:MarkAsHostile", "peers/version_provider.go:SuggestVersion"]}
{"id": "C34", "title": "Incompatible peers are recorded as hostile", "statement": "A peer whose handshake has an unacceptable version or a foreign network is recorded as hostile, its connection is closed and it is not listed by Connections.", "quantifier": "every registry state; every handshake", "why_tests_cant": "All states, including first contact.", "anchors": ["peers/registry.go:RegisterPeer"]}
{"id": "C35", "title": "UnregisterPeer disconnects and delays the next attempt", "statement": "After UnregisterPeer(addr) of a known IPv4 peer, addr is in neither Connections nor pending, its record is otherwise unchanged, and TakeAvailableAddresses does not return it during the next 10 minutes (up to rounding to a second).", "quantifier": "every registry state; every clock reading", "why_tests_cant": "All states and times.", "anchors": ["peers/registry.go:UnregisterPeer", "peers/registry.go:delay"]}
{"id": "C36", "title": "Connections can always be listed", "statement": "Connections() never fails: every connected peer has a stored record.", "quantifier": "every sequence of registry calls", "why_tests_cant": "All histories and handshakes.", "anchors": ["peers/registry.go:Connections", "peers/registry.go:RegisterPeer", "peers/storage.go:putPeer"]}
{"id": "C37", "title": "SuggestVersion tries every configured version in turn", "statement": "For a peer that has never been connected, successive SuggestVersion calls return the best configured version first and then cycle through all configured versions in descending order; for a connected peer it keeps returning the version of its handshake.", "quantifier": "every list of configured versions; every number of calls", "why_tests_cant": "All lists.", "anchors": ["peers/version_provider.go:SuggestVersion", "peers/registry.go:newVersions", "peers/registry.go:nextVersion"]}
{"id": "C38", "title": "Peer records survive storage unchanged and do not collide", "statement": "After a peer record is stored, Peer(addr) returns it (apart from the live connection) until it is overwritten for the same address; records of different IPv4 addresses are independent, and Peers() lists each once.", "quantifier": "every sequence of stored peers", "why_tests_cant": "All addresses.", "anchors": ["peers/storage.go:putPeer", "peers/storage.go:peer", "peers/storage.go:peers", "peers/storage.go:key"]}
{"id": "C39", "title": "Unknown addresses have no record", "statement": "Peer(addr) returns a record only for addresses that were stored.", "quantifier": "every address, IPv4 and IPv6", "why_tests_cant": "All addresses.", "anchors": ["peers/storage.go:peer", "peers/storage.go:key.bytes"]}
{"id": "C40", "title": "RegisterPeer survives every handshake", "statement": "RegisterPeer returns for every handshake a remote peer can send.", "quantifier": "every handshake, including an empty application name", "why_tests_cant": "All handshakes.", "anchors": ["peers/registry.go:RegisterPeer"]}
{"id": "C41", "title": "The block queue is ready exactly when every requested block has arrived", "statement": "For a request list without duplicates and any sequence of received blocks, the queue reports ready iff for each requested ID some block with that ID has been received; unrequested blocks have no effect; the last received block is the end of the longest received prefix.", "quantifier": "every request list and every sequence of received blocks (any order, with repetitions and strangers)", "why_tests_cant": "All orders.", "anchors": ["loading/queue.go:put", "loading/queue.go:ready", "loading/queue.go:lastReceived"]}
{"id": "C42", "title": "A batch with repeated IDs can be completed", "statement": "For any list of requested IDs, once every requested block has been received the queue reports ready.", "quantifier": "every request list, with repetitions", "why_tests_cant": "All lists.", "anchors": ["loading/queue.go:put", "loading/queue.go:ready"]}
{"id": "C43", "title": "Only unknown history is requested", "statement": "On an IDs message the loader moves the peer's leash along the known IDs in order and requests, in order and once per listed ID, exactly the IDs from the first unknown one on; if all are known it requests nothing and reports success.", "quantifier": "every list of IDs; every behaviour of the store", "why_tests_cant": "All lists and stores.", "anchors": ["loading/peer_loader.go:requestBlocks"]}
{"id": "C44", "title": "A complete batch is applied in order", "statement": "When the last missing block of a batch arrives, the loader puts all blocks of the batch, in the requested order, each exactly once and each with the requested ID, and then reports success; with the real linkage and a batch that links up, the peer's leash then is the last requested block.", "quantifier": "every batch, every arrival order, every store", "why_tests_cant": "All orders and stores.", "anchors": ["loading/peer_loader.go:appendBlock", "loading/queue.go:ready"]}
{"id": "C45", "title": "A timeout applies the received prefix and reports failure", "statement": "When a batch times out (more than 30 s since the last request, not earlier), the loader puts exactly the received prefix of the batch, in order, and reports failure exactly once.", "quantifier": "every batch, arrival pattern and clock", "why_tests_cant": "All patterns.", "anchors": ["loading/peer_loader.go:onTick", "loading/peer_loader.go:handleFailure"]}
{"id": "C46", "title": "A timeout always frees the loader", "statement": "After a timeout of the current peer the loader is free to synchronise with another peer.", "quantifier": "every behaviour of the peer and the store", "why_tests_cant": "Needs the adversarial peer: a batch whose blocks do not link up.", "anchors": ["loading/peer_loader.go:handleFailure", "loading/loader.go:Fail", "loading/loader.go:sync"]}
{"id": "C47", "title": "A timeout while waiting for IDs does not touch the leash", "statement": "If a peer does not answer the IDs request in time, its leash is left where it was.", "quantifier": "every history of the same synchronisation session", "why_tests_cant": "Only visible in the second and later rounds of a session, after the leash moved on.", "anchors": ["loading/peer_loader.go:handleFailure", "loading/peer_loader.go:queue"]}
{"id": "C48", "title": "Messages of other peers do not disturb a synchronisation", "statement": "IDs and blocks from any peer other than the one being synchronised, empty ID lists, and any message while idle or done, leave the loader and the store unchanged.", "quantifier": "every loader state and message", "why_tests_cant": "All states.", "anchors": ["loading/loader.go:handleIDs", "loading/loader.go:handleBlock", "loading/peer_loader.go:configureDoneState"]}
{"id": "C49", "title": "The loader's state machine never meets an unexpected event", "statement": "Whatever sequence of IDs, blocks, ticks and sync timers arrives, no event is rejected as unhandled, processing each event terminates, and the state changes only along Idle -> WaitingForIDs -> WaitingForBlocks -> Idle, with a timeout leading from either waiting state to Done.", "quantifier": "every sequence of events and every behaviour of store and registry", "why_tests_cant": "All sequences.", "anchors": ["loading/peer_loader.go:newPeerLoader", "loading/peer_loader.go:configureIdleState", "loading/peer_loader.go:configureDoneState"]}
{"id": "C50", "title": "After ten failures synchronisation restarts from the last common block", "statement": "A synchronisation with a peer starts from LCB(peer) iff the last ten or more synchronisations with it in a row failed since its last success or restart; otherwise it starts from Leash(peer).", "quantifier": "every sequence of successes and failures over all peers", "why_tests_cant": "All histories.", "anchors": ["loading/loader.go:failureCounter", "loading/loader.go:sync", "loading/loader.go:restartThreshold"]}
{"id": "C51", "title": "Blocks of lagging peers reach the loader", "statement": "For every block message, the distributor offers the block to the linkage and forwards it to the loader exactly when the linkage stored it, already had it, or did not know its parent.", "quantifier": "every block and every store", "why_tests_cant": "All stores.", "anchors": ["distributor.go:handleBlock"]}
{"id": "C52", "title": "Shutdown always completes", "statement": "After the termination signal every service's Shutdown returns.", "quantifier": "every schedule of the distributor and loader goroutines", "why_tests_cant": "Needs the schedule in which the loader stops while the distributor is sending.", "anchors": ["distributor.go:handleBlock", "distributor.go:Shutdown", "loading/loader.go:loop", "forkdetector.go:run"]}
{"id": "C53", "title": "Needed messages are never discarded, others are", "statement": "The connection filter lets through every message kind the distributor handles and drops every other kind it knows about.", "quantifier": "every message kind", "why_tests_cant": "A finite table, but it must agree with the distributor's dispatch for every kind.", "anchors": ["connection_manager.go:skipFunc", "distributor.go:handleMessage"]}
{"id": "C54", "title": "Respawn keeps trying", "statement": "As long as the service runs, Respawn periodically asks for available addresses again, whatever errors occurred before.", "quantifier": "every sequence of registry results", "why_tests_cant": "Needs a failing storage read.", "anchors": ["respawn.go:handleEvents"]}
{"id": "C55", "title": "Active forks concern connected peers only", "statement": "The active-forks endpoint only reports peers that are currently connected (and requested, when a selection is given).", "quantifier": "every registry and linkage state and every request", "why_tests_cant": "Needs the empty intersection.", "anchors": ["api/api.go:activeForks", "chains/linkage.go:forks"]}
{"id": "C56", "title": "Fork endpoints answer 400, 404 or 200 correctly", "statement": "GET /fork/{address} answers 400 for an unparsable address, 404 for a peer without leash and otherwise the fork of that peer; generators with blocks = 0 counts the fork's blocks (1000 for the longest fork), and with another number that many blocks; a negative number is refused.", "quantifier": "every request and every store", "why_tests_cant": "All stores and numbers.", "anchors": ["api/api.go:fork", "api/api.go:forkGenerators"]}
{"id": "C57", "title": "Address arguments never crash the start-up", "statement": "Every value of the -net and -declared-address options is either accepted or reported as an invalid parameter.", "quantifier": "every option value", "why_tests_cant": "All values.", "anchors": ["parameters.go:checkBind", "parameters.go:parseAddress"]}
{"id": "C58", "title": "The peers query selects exactly the listed addresses", "statement": "The selection of the forks endpoints consists of exactly the addresses that are items of the comma-separated peers parameter (blank items ignored); a parameter with an item that is no address is answered with 400, any other with the forks of the selected peers.", "quantifier": "every query string, every store", "why_tests_cant": "All strings and stores.", "anchors": ["api/api.go:getPeers", "api/api.go:forks"]}
{"id": "C59", "title": "The leashes endpoint lists every leashed block once", "statement": "The leashes endpoint answers one entry per block some peer stands on, with exactly the peers on it and their number, the block's height, score, timestamp and generator, sorted by score and number of peers, both descending.", "quantifier": "every store", "why_tests_cant": "All stores.", "anchors": ["api/api.go:leashes", "api/entities.go:byScoreAndPeersDesc"]}
{"id": "C60", "title": "The heads endpoint describes the active heads", "statement": "The heads endpoint answers the active heads in order of their numbers, each with the height, score and timestamp of its block.", "quantifier": "every store", "why_tests_cant": "All stores.", "anchors": ["api/api.go:heads", "chains/linkage.go:ActiveHeads"]}
{"id": "C61", "title": "The status counts are right", "statement": "The status endpoint reports the numbers of short and long forks, of known peers, of friendly peers and of connections, and they are at most the number of known peers.", "quantifier": "every store and registry", "why_tests_cant": "All states.", "anchors": ["api/api.go:status"]}
{"id": "C62", "title": "Parameters are checked as documented", "statement": "Start-up parameters are accepted only with an existing folder, a supported network, a name of 1 to 255 bytes, and parsable versions, bind addresses and seed peers; the seed peers are the built-in ones of the network, which are the published addresses, followed by the listed ones in order; otherwise an error is reported.", "quantifier": "every command line", "why_tests_cant": "All option values.", "anchors": ["parameters.go:newParameters", "parameters.go:parseSeedPeers", "parameters.go:checkName"]}
{"id": "C63", "title": "A peer's block cannot disable the API", "statement": "Whatever blocks peers have sent, the leashes and forks endpoints answer the data of the peers that are leashed (no block makes the answer an error).", "quantifier": "every store reachable by peers' blocks", "why_tests_cant": "Needs extreme timestamps.", "anchors": ["api/api.go:leashes", "api/api.go:forks", "chains/storage.go:convertBlock"]}
{"id": "C64", "title": "The loader is never left idle with a peer", "statement": "Between two inputs, a loader that has a current peer is waiting for its IDs, waiting for its blocks, or done with it; it never sits idle, where no timeout would free it.", "quantifier": "every sequence of inputs, every start state reachable by the detector, everything the other goroutines do meanwhile, every storage fault", "why_tests_cant": "Needs all interleavings and faults between the calls of one transition.", "anchors": ["loading/peer_loader.go:configureIdleState", "loading/loader.go:handleIDs", "loading/loader.go:handleBlock"]}
{"id": "C65", "title": "Synchronisation never crashes the detector", "statement": "Whatever peers send and whatever the storage answers, the loader's processing of each input returns without a panic.", "quantifier": "every sequence of inputs, every reachable store and registry", "why_tests_cant": "All stores; needs extreme base targets and particular fork shapes.", "anchors": ["loading/loader.go:sync", "loading/loader.go:restartSync", "loading/peer_loader.go:requestIDsFromLCA", "chains/linkage.go:LCB", "chains/linkage.go:PutBlock"]}
{"id": "C66", "title": "Concurrent calls of the linkage always return", "statement": "However calls of the linkage's methods other than LogInitialStats are interleaved, they never deadlock: while one is under way some call can make a step, and once no new calls arrive all of them return after finitely many steps, whatever the schedule.", "quantifier": "every number of goroutines, every program of calls and every schedule of their individual steps", "why_tests_cant": "Deadlocks depend on the schedule; tests see only a few of them.", "anchors": ["chains/linkage.go:Linkage.mu", "chains/linkage.go:PutBlock", "chains/linkage.go:Forks"]}
{"id": "C67", "title": "Messages never crash the distributor", "statement": "Whatever messages and connection events peers cause, in any order and with any storage errors, the distributor's handling of each of them returns without a panic.", "quantifier": "every sequence of decoded messages and events, every reachable store and registry", "why_tests_cant": "All sequences and stores; needs extreme base targets or odd handshakes.", "anchors": ["distributor.go:handleMessage", "distributor.go:handleInfoMessage", "distributor.go:handleBlock", "peers/registry.go:RegisterPeer", "chains/linkage.go:PutBlock"]}
{"id": "C68", "title": "A score message sets that peer's score", "statement": "A score message from a peer sets the stored score of exactly that peer to the number its bytes encode (big-endian) and changes nothing else; if the peer is unknown or the write fails nothing changes.", "quantifier": "every byte string, every registry and peer", "why_tests_cant": "All byte strings and registries.", "anchors": ["distributor.go:handleScore", "peers/registry.go:UpdatePeerScore"]}
{"id": "C69", "title": "GetPeers is answered with the connected peers", "statement": "A GetPeers message is answered once, on the connection it came from, with exactly the peers recorded as connected, each once, with its IP and a port it can be dialled at.", "quantifier": "every registry and connection", "why_tests_cant": "All registries.", "anchors": ["distributor.go:handleGetPeers", "peers/registry.go:Connections", "peers/registry.go:Peers"]}
{"id": "C70", "title": "A failed connection leaves the connected peers", "statement": "After an error on a connection that connection is closed, and its peer is listed as connected afterwards exactly if another live connection of it is registered.", "quantifier": "every registry, every connection that fails and every order of connecting", "why_tests_cant": "Needs two connections of one peer, or a failing write.", "anchors": ["distributor.go:handleInfoMessage", "peers/registry.go:UnregisterPeer", "connection_manager.go:connect"]}
{"id": "C71", "title": "Refused connections are closed", "statement": "Each connection that is not registered as connected is closed by the detector.", "quantifier": "every handshake, registry and address", "why_tests_cant": "All handshakes and registries.", "anchors": ["distributor.go:handleInfoMessage", "peers/registry.go:RegisterPeer", "connection_manager.go:Accept"]}
{"id": "C72", "title": "Hostile peers are left alone and failed dials wait", "statement": "A hostile peer is neither offered for dialling, nor dialled, nor accepted. A failed dial frees the address for other attempts and puts off the next one by ten minutes.", "quantifier": "every registry and every sequence of calls after the dial", "why_tests_cant": "All registries and histories.", "anchors": ["connection_manager.go:connect", "connection_manager.go:Connect", "connection_manager.go:Accept", "peers/registry.go:SuggestVersion", "peers/registry.go:UnregisterPeer"]}
{"id": "C73", "title": "A session with an honest peer brings its whole chain", "statement": "When the loader asks a peer for IDs, and the peer answers every request before the timeout with a piece of one fixed valid chain that goes on after the common block, respectively with the requested block, the session ends and the leash of the peer is at the head of that chain, whatever other peers send and other goroutines do in between.", "quantifier": "every chain, every store and registry history, every order and size of the answers, every interleaving with messages of other peers, timers and other goroutines", "why_tests_cant": "The number of batches, the order of blocks and the interleavings are unbounded; only an induction over the remaining chain covers them.", "anchors": ["loading/loader.go:Loader.OK", "loading/loader.go:isLagging", "loading/loader.go:Loader.Fail", "loading/peer_loader.go", "loading/queue.go"]}
{"id": "C74", "title": "A store belongs to one blockchain", "statement": "Opening an existing store with the genesis block of another network is noticed: the genesis block the linkage uses is the one in its store. (Refuted: NewLinkage opens any non-empty store. Then no block of the new network can be stored, and a peer without a leash is at a block that is not in the store, so its score cannot be computed.) Opening the store again with its own genesis block changes nothing.", "quantifier": "every history of the store, every genesis block, every later history", "why_tests_cant": "The stuck state has to be shown for all later histories; a test shows only that a given block is refused.", "anchors": ["chains/linkage.go:NewLinkage", "chains/linkage.go:Leash", "chains/linkage.go:LeashScore", "loading/loader.go:isLagging"]}
{"id": "C75", "title": "The same store gives the same answer", "statement": "Forks, Fork, Stats and the last common block are determined by the contents of the store: they do not depend on the iteration order of Go maps or on how sort.Sort treats equal elements. All Less functions are strict weak orders, as sort.Sort requires.", "quantifier": "every reachable store, every map iteration order, every sorting result", "why_tests_cant": "Go randomises map orders; a test sees a few of them.", "anchors": ["chains/linkage.go:Forks", "chains/linkage.go:Fork", "chains/linkage.go:Stats", "chains/entities.go", "peers/by_name.go"]}
{"id": "C76", "title": "Registry calls are atomic and return, and no address is dialled twice", "statement": "Every interleaving of goroutines calling the peer registry gives the results of some order of complete calls, each acting between its start and its end; every call returns; two calls of TakeAvailableAddresses, of any goroutines, both return the same address only if some goroutine registers or unregisters that peer or marks it as hostile in between, that is by a call that is under way at a moment at which one of the two has begun and the other has not returned.", "quantifier": "every registry, every number of goroutines and calls, every interleaving of map and database accesses", "why_tests_cant": "Races show up in some interleavings only; the race detector sees memory accesses, not lost or doubled addresses.", "anchors": ["peers/registry.go:RegisterPeer", "peers/registry.go:UnregisterPeer", "peers/registry.go:TakeAvailableAddresses", "peers/registry.go:AppendAddresses", "peers/registry.go:Connections", "peers/version_provider.go:SuggestVersion"]}
{"id": "C77", "title": "The whole process: consistent stores, and what can crash it", "statement": "However the loader, the distributor, the respawn, the dialling and the accepting goroutines interleave, the linkage and the registry are at every moment what some sequence of well-formed calls makes them, so that all the other properties hold in the running process; and no peer can make the process crash. (The last part is refuted: one connection with an empty application name crashes it, and so do two peers that send chains forking at genesis, one of which then stays silent. Proved: an empty application name, a base target above 2^63-1, and the computation of the last common block are the only causes of a crash.)", "quantifier": "every initial store with a history, every schedule of the goroutines, every sequence of messages, connections, timeouts and storage faults", "why_tests_cant": "The crash needs ten timeouts of one peer and a certain pair of chains; that nothing else crashes the process is a statement about all schedules.", "anchors": ["forkdetector.go:run", "distributor.go:runLoop", "loading/loader.go:loop", "loading/peer_loader.go", "respawn.go", "chains/linkage.go:LCB"]}
{"id": "C78", "title": "The detector believes about a peer only what the peer has said", "statement": "In the running process, every block that is stored was sent by some peer (or is a known block extended by an announced micro-block), every write to the linkage on behalf of a peer does what a message of this very peer says, and the leash of a peer is at a block that this peer itself has named. The loader stores for a peer only blocks received from this peer, and moves its leash only to IDs received from it, whatever the linkage and the registry answer.", "quantifier": "every initial store with a history, every schedule of the goroutines, every sequence of messages; for the loader alone, every behaviour of linkage and registry", "why_tests_cant": "Mixing up peers needs particular interleavings of messages of several peers with timeouts.", "anchors": ["loading/loader.go", "loading/peer_loader.go", "loading/queue.go", "distributor.go", "chains/linkage.go:PutBlock", "chains/linkage.go:MoveLeash", "chains/linkage.go:Leash"]}
{"id": "C79", "title": "Any number of lives over the same stores", "statement": "The process may be stopped, may crash, or may be killed between any two accesses to its stores, and be started again over them, any number of times. Then the linkage and the registry are still what some sequence of well-formed calls makes them; every leash is at a stored block, which is genesis or a block that the peer itself has named in one of the lives; every stored block but genesis was sent by some peer in one of the lives (or is a known block extended by an announced micro-block); and a new life begins with the same linkage and the same records of the known peers, without connections and pending dials.", "quantifier": "every number of lives; in each every schedule, every sequence of messages, timeouts, storage faults and seed addresses, and every moment of the end", "why_tests_cant": "Killing the process at every point of every run, and combining several such runs, is not feasible.", "anchors": ["forkdetector.go:run", "chains/linkage.go:NewLinkage", "peers/registry.go:NewRegistry", "peers/registry.go:AppendAddresses", "loading/loader.go:loop"]}
{"id": "C80", "title": "The process starts again over its own stores", "statement": "The process starts over the stores that its earlier lives have left, and writes at the start every active head with its height and every leash. (The first part is refuted: one block with a timestamp of 2^63-1 or more, sent by one peer, makes LogInitialStats panic at every later start. Proved: with all timestamps below 2^63-1 it starts; it panics exactly when an active head has such a timestamp; and then it never starts again over these stores.)", "quantifier": "all stores left by any lives; for the statistics, every reachable linkage", "why_tests_cant": "Tests restart over a few stores with ordinary timestamps; the harm shows only at a later start.", "anchors": ["forkdetector.go:run", "chains/linkage.go:LogInitialStats", "chains/linkage.go:Block", "chains/linkage.go:safeTimestamp"]}
{"id": "C81", "title": "Whom the loader loads from, and for how long", "statement": "When the sync timer fires and no synchronisation is going on, one begins exactly if some connected peer has announced a score above the score of its leash, and with one of these peers. After a batch it goes on exactly if the announced score is still above the score of the leash and their difference is not the one remembered from the batch before; otherwise it ends and the difference is forgotten. A synchronisation ends after its first batch only if the peer has nothing more to offer. (The last sentence is refuted: the difference is not forgotten at a timeout, so that the first batch of the next peer may be taken for a lack of progress. Proved if the synchronisation before did not end by a timeout.)", "quantifier": "every behaviour of the linkage, the registry, the clock and the random numbers; every sequence of inputs of the loader", "why_tests_cant": "The wrong end needs a timeout of one peer and an equal difference with another one; tests follow one peer.", "anchors": ["loading/loader.go:sync", "loading/loader.go:OK", "loading/loader.go:Fail", "loading/loader.go:isLagging", "loading/loader.go:resetLoadingPeer"]}
{"id": "C82", "title": "The lists of peers", "statement": "Peers, FriendlyPeers and Connections are sorted by name regardless of case: of any two entries the upper-cased name of the first comes first in the order of Go strings. FriendlyPeers has exactly the records in state Connected, each once, and Addresses has their addresses and ports in the same order, without a panic.", "quantifier": "every reachable registry, every iteration order and every result of sort.Sort, every upper-case function", "why_tests_cant": "Tests sort a few names; the claim is about every registry and every permitted result of an unstable sort.", "anchors": ["peers/by_name.go:Less", "peers/registry.go:Peers", "peers/registry.go:FriendlyPeers", "peers/registry.go:Connections", "peers/registry.go:Addresses"]}
{"id": "C83", "title": "The order of the end", "statement": "run returns only after the signal, and only when the respawner, the loader and the distributor have returned, and the listener too unless its Close failed; before the signal every service runs unless the process has crashed; what has returned does not run again, and the stages of the end follow each other in one direction.", "quantifier": "every interleaving of the goroutines, every inbox, with and without a server", "why_tests_cant": "Tests see one interleaving of the end.", "anchors": ["forkdetector.go:run", "loading/loader.go:Shutdown", "distributor.go:Shutdown", "listener.go:Shutdown", "respawn.go:Shutdown"]}
{"id": "C84", "title": "What reaches the loader", "statement": "The loader is handed exactly one package for every list of signatures and every non-empty list of block IDs from a connection whose address parses, at most one for every decoded block, nothing for anything else, in the order of arrival and with the sender's address; lists of IDs change neither store.", "quantifier": "every sequence of arrivals and every state of the stores", "why_tests_cant": "All sequences of messages; the distributor has no tests.", "anchors": ["distributor.go:handleMessage", "distributor.go:handleSignaturesMessage", "distributor.go:handleBlockIDsMessage", "distributor.go:handleBlock"]}
{"id": "C85", "title": "Dialling in the running process", "statement": "The respawn timer is set again after each round, so every address that may be dialled is dialled at the next round; a failed call takes the pending mark away and sets the next attempt ten minutes later; and every address marked as pending has a goroutine dialling it. After one failed read of the records nothing is ever dialled again.", "quantifier": "all interleavings of the loader, distributor, respawn, diallers and listener, all messages, clocks and storage faults", "why_tests_cant": "The marks are set and removed by different goroutines; a leaked mark shows only in some interleavings and only as a peer that is never dialled again.", "anchors": ["respawn.go:handleEvents", "respawn.go:establishConnections", "connection_manager.go:Connect", "peers/registry.go:TakeAvailableAddresses", "peers/registry.go:UnregisterPeer"]}
{"id": "C86", "title": "What peers announce reaches the loader", "statement": "In the running process every list of IDs or signatures that peers announce reaches the loader exactly once and in the order of the arrivals, with its contents, and blocks at most once; while the distributor waits for the loader it receives nothing; and the loader's timers are always set: that of the synchronisations always, that of the timeouts exactly from the first choice of a peer on.", "quantifier": "all interleavings of the loader, distributor, respawn, diallers and listener, all messages, clocks and storage faults", "why_tests_cant": "Loss, repetition or reordering depends on the interleaving of the distributor with the loader's handling; tests see a few schedules.", "anchors": ["distributor.go:runLoop", "distributor.go:handleBlock", "loading/loader.go:loop"]}
{"id": "C87", "title": "The loader in the running process", "statement": "In the running process a synchronisation that waits for its peer ends at the first tick more than 30 seconds after the last request, so that the next synchronisation can choose any peer. (False in one case, proved as such: if the store refuses one of the blocks received, the loader stays in its final state for ever, with the timers running and doing nothing; a single peer that sends one block of unknown parent brings this about. There is no other cause.)", "quantifier": "all interleavings of the loader, distributor, respawn, diallers and listener, all messages, clocks and storage faults; for the stuck loader, all continuations of the run", "why_tests_cant": "That nothing ever happens again is a statement about all continuations; that a refusal is the only cause is a statement about all runs.", "anchors": ["loading/loader.go:loop", "loading/loader.go:tick", "loading/peer_loader.go:handleFailure"]}
{"id": "C88", "title": "Start and end of the process", "statement": "In main and run: no database is opened twice, the seeds are added and the services run and are stopped only while the databases they use are open, and the blocks are closed before the peers; a process that starts and is interrupted runs the five services in order, stops every one of them and then closes both databases, with exit code 0; a failed start runs no service, and is reported with a capital letter and exit code 1; the report itself never panics; there is a network server exactly when an address is declared and the address to bind has a host or a port. (False in these cases, proved as such: a failed initialisation leaves the blocks open, a failure of the API or a crash leaves both open; a listener without socket makes the databases close under the running services; a start whose error cannot be written has exit code 0; an error of the log is never seen, or turns a failed start into a panic.)", "quantifier": "all results of the calls of main, all endings of the services, all parameters", "why_tests_cant": "The order of deferred functions matters on every error path; there are no tests of main.", "anchors": ["forkdetector.go:main", "forkdetector.go:run", "forkdetector.go:capitalize", "chains/linkage.go:NewLinkage", "peers/registry.go:NewRegistry", "api/api.go:NewAPI", "api/api.go:runServer", "listener.go:NewListener"]}
{"id": "C89", "title": "The API while the detector works", "statement": "While the other goroutines go on working between its calls, the answers about heads, leashes, the fork of a peer and its generators are those of one moment during the request, the same for all their parts. (False for two answers, proved as such: active forks combine the connections of one moment with the leashes of a later one, so that a peer can be reported as connected and on a block although this was so at no moment; the numbers of the status come from four moments, so that there can be more friendly peers than peers. Each of the parts is right at its own moment, in order.)", "quantifier": "all handlers, all requests, all calls of other goroutines between any two calls of the handler, with all storage faults", "why_tests_cant": "A handler sees a mixture of states only when another goroutine acts between two of its calls; there are no tests of the API, and a test sees few interleavings.", "anchors": ["api/api.go:status", "api/api.go:heads", "api/api.go:leashes", "api/api.go:activeForks", "api/api.go:fork", "api/api.go:forkGenerators"]}
{"id": "C90", "title": "Synchronisation with an honest peer in the running process", "statement": "The process has run from its start and the loader has asked a connected peer for block IDs. If from now on this peer answers every open request with what its chain contains, then, however the distributor, the respawn loop, the dialling goroutines, the listener and the timers interleave with it and with the calls of the loader, as long as they act truthfully, not on this peer, and before the timeout, the process does not crash, the session comes to its end, and the leash of the peer is at the head of its chain. (False in general, proved as such: the difference of scores kept from an earlier timed out session can end the session early.)", "quantifier": "all runs of the process from its start, all chains of the peer, all interleavings and messages of other peers, all orders of answers", "why_tests_cant": "It is a liveness property over unbounded executions of several goroutines that share the linkage and the registry; no test runs the loader together with the distributor.", "anchors": ["loading/loader.go:Run", "loading/loader.go:handleIDs", "loading/loader.go:handleBlock", "distributor.go:Run", "distributor.go:handleMessage", "loading/peer_loader.go:processBlock"]}
{"id": "C91", "title": "Records are read back as written", "statement": "Blocks, links and peers are stored as CBOR bytes. Whatever calls were made, with failed writes and crashes, every read of either database through its bytes gives exactly the record that was written: the same identifier, parent, generator, timestamp, height, score of any size, parents of a link, and for a peer the same port, nonce, name, version, state, time to the second and score. Different records have different bytes, and no shorter bytes are read as the same value (beyond 64 bits; below, no shorter ones without the tag of big integers).", "quantifier": "all histories of calls on the chains and peers databases, all records within the ranges of the Go types, scores of any size", "why_tests_cant": "The encodings change form at 24, 2^8, 2^16, 2^32 and 2^64, with empty slices, nil scores and zero times; tests store a few small records and never look at the bytes.", "anchors": ["chains/storage_entities.go:block", "chains/storage_entities.go:link", "chains/storage.go:putBlock", "chains/storage.go:getBlock", "chains/storage.go:putLink", "chains/storage.go:getLink", "peers/storage.go:value", "peers/storage.go:peer", "peers/storage.go:putPeer", "peers/storage.go:peers"]}
{"id": "C92", "title": "Unreadable records are reported", "statement": "A record that has been cut short, or that is followed by anything else, is never taken for a record, and a read that meets it returns an error. (False for a single peer, proved as such: storage.peer returns the nil error of the earlier database call, so that any cut record of a peer is read, without an error, as a peer without address, name and version. It holds for blocks, links and the list of all peers.)", "quantifier": "all records, all lengths of what is left, all additions, all databases", "why_tests_cant": "Tests read only records that the same program has just written completely; there are very many ways to damage one.", "anchors": ["peers/storage.go:peer", "peers/storage.go:peers", "chains/storage.go:getBlock", "chains/storage.go:getLink"]}
{"id": "C93", "title": "The peer endpoints tell the lists apart", "statement": "/peers answers all recorded peers, /peers/friendly exactly those in state Connected, /connections exactly the peers with a live connection, each one once, sorted by name, with the recorded data; /connections answers 500 exactly when a connected peer has no record.", "quantifier": "every reachable registry, every map iteration order", "why_tests_cant": "There is no test of the handlers; on small registries the three lists coincide.", "anchors": ["api/api.go:peers", "api/api.go:friendly", "api/api.go:connections", "peers/registry.go:Connections", "peers/registry.go:FriendlyPeers"]}
{"id": "C94", "title": "The registry works on bytes as on records", "statement": "Over a database of bytes, with every record encoded when it is written and decoded when it is read, the registry returns from every call what it returns over a database of records, and the bytes on the disk are at all times the encodings of those records, whichever writes fail and across restarts.", "quantifier": "all histories of calls with values of the Go types, all configurations", "why_tests_cant": "A test compares a few records; that no call ever meets a record it cannot read back needs an invariant over all histories.", "anchors": ["peers/registry.go:RegisterPeer", "peers/registry.go:TakeAvailableAddresses", "peers/storage.go:putPeer", "peers/storage.go:peer", "peers/storage.go:peers", "peers/version_provider.go:SuggestVersion"]}
{"id": "C95", "title": "A damaged peer record concerns its own peer only", "statement": "If the record of one peer cannot be decoded, calls about other addresses return and store what they would otherwise, and the other peers are still listed and dialled. (False, proved as such: with one such record Peers, FriendlyPeers, Addresses and TakeAvailableAddresses fail, so nobody is dialled any more; this lasts across restarts until that very peer is marked as hostile or registers. The part about calls for other addresses holds.)", "quantifier": "all databases with such a record, all calls, all later histories that do not write it", "why_tests_cant": "No test has a damaged record, and no test can follow all later histories to see that it is never repaired.", "anchors": ["peers/storage.go:peers", "peers/storage.go:peer", "peers/registry.go:TakeAvailableAddresses", "peers/registry.go:MarkAsHostile", "peers/registry.go:RegisterPeer"]}
{"id": "C96", "title": "Texts for the log never fail and tell values apart", "statement": "The String methods of events, loader states and peer states return a text for every value of their types, numbers without a name included; the text is the name of the constant or the type with the number, and different values have different texts. The text of a block queue never panics; it names the first and the last requested block and says READY exactly when the queue is ready, else how many blocks are there.", "quantifier": "all values of the types, all queues", "why_tests_cant": "A wrong entry of an index table shows only for one value, a slice out of range only where nobody looks; the queue has unboundedly many fillings.", "anchors": ["loading/event_string.go:String", "loading/state_string.go:String", "peers/state_string.go:String", "loading/queue.go:rangeString"]}
{"id": "C97", "title": "Each path has its handler", "statement": "A request is served exactly for the ten documented paths below /api; each of them reaches its own handler, with the segments of the path as arguments unchanged; no path fits two patterns, so that the order of registration does not matter; every other path is answered with 404 and every other method with 405.", "quantifier": "all paths, all arguments, all orders of registration", "why_tests_cant": "There is no test of the router; overlapping patterns show only for particular paths.", "anchors": ["api/api.go:routes", "api/api.go:NewAPI"]}
{"id": "C98", "title": "A failed read of the blocks database is an error of the call", "statement": "If reading a record or taking a snapshot fails during a call of the blocks store (putting blocks and micro-blocks, opening, lookups, ancestors, leashes, scores, heads, last common block, forks, statistics, generators), the call returns an error: no block is taken for missing or new, no leash for missing, nothing is written, and no answer is given that differs from the right one. If nothing fails, the answer is the right one. A list read from the database is complete or an error is returned. Whatever fails to be read, the store is in a state that the same calls lead to when the failing ones are interrupted before their first write.", "quantifier": "all stores, all calls with all arguments, every choice of failing reads", "why_tests_cant": "Failures of single reads cannot be provoked through the goleveldb files in tests; there is one case for every read of every call.", "anchors": ["chains/storage.go:hasBlock", "chains/storage.go:leashes", "chains/storage.go:getHeads", "chains/linkage.go:PutBlock", "chains/linkage.go:LeashScore", "chains/linkage.go:Forks"]}
{"id": "C99", "title": "A failed read of the peers database is an error of the call", "statement": "If reading a record or taking a snapshot fails during a call of the peers registry, the call returns an error and writes nothing: a registration is refused and its connection closed, no unreadable peer is taken for an unknown one. A disconnected peer leaves the list of connections all the same. Lists of peers and addresses are complete or an error is returned; addresses given to AppendAddresses are recorded or the caller can tell that they were not. Whatever fails to be read, the registry is in a state that calls without failures lead to.", "quantifier": "all registries, all calls with all arguments, every choice of failing reads, all histories", "why_tests_cant": "Failures of single reads cannot be provoked through the goleveldb files in tests, and every call has its own reads.", "anchors": ["peers/storage.go:peer", "peers/storage.go:peers", "peers/registry.go:RegisterPeer", "peers/registry.go:UnregisterPeer", "peers/registry.go:AppendAddresses", "peers/registry.go:TakeAvailableAddresses", "peers/version_provider.go:SuggestVersion"]}
{"id": "C100", "title": "Addresses survive their text", "statement": "The text of every IP address, with or without a port, is read back as that address, so that different addresses have different texts; whatever is read is a valid address and a port below 65536, and an IPv4 address has one text only. An IPv6 address is printed as its eight groups in hexadecimal, the first of the longest runs of zero groups shortened. The address of the other end of a TCP connection is recovered from its text, as an IPv4 address even if the socket holds it in IPv6 form. White space around a list item is removed completely, and numbers are read back. So every peer that has a leash can be asked for by the text of its address, and a list of such texts selects exactly these peers.", "quantifier": "all addresses with all zones, all ports, all strings", "why_tests_cant": "There are 2^128 addresses with a compressed notation that depends on the runs of zeros, and strings are unbounded.", "anchors": ["distributor.go:ParseAddrPort", "connection_manager.go:ParseAddrPort", "parameters.go:parseSeedPeers", "parameters.go:parseAddress", "api/api.go:getPeers", "peers/registry.go:MarkAsHostile"]}
{"id": "C101", "title": "A fork is reported exactly if chains diverge", "statement": "The length reported for a fork is the number of blocks of its chain that are not on the chain of the longest fork, and is 0 exactly for the peers that are on that chain. If all peers stand on one line of blocks and micro-blocks, no fork longer than 1 is reported and Stats counts no long fork, in the store as in a run of the process where peers only name blocks of one line. Conversely, if two peers are both more than n blocks away from their last common block and Forks returns, one of the two is reported on a fork longer than n, and Stats counts a long fork if n is 5.", "quantifier": "all block stores reachable by any calls with crashes, all selections of peers, all map orders and sort results; all runs of the process", "why_tests_cant": "False alarms and missed forks depend on every combination of tree, scores, micro-blocks and peers' positions; the tree is unbounded.", "anchors": ["chains/linkage.go:Forks", "chains/linkage.go:Fork", "chains/linkage.go:Stats", "chains/linkage.go:PutMicroBlock", "chains/linkage.go:LCB"]}
{"id": "C102", "title": "Addresses keep their identity between the parts", "statement": "An address goes through text several times on its way between the command line, the registry, sockets and messages. A connection from an IPv4 peer has the IPv4 address as its key, in whichever form the socket holds it; a seed given on the command line, unless it is a loopback address, the detector itself or not an IPv4 address, is known to the registry after the start, in whichever form it was given, and nothing else is added. The peers one detector names in its answer to GetPeers are read by another one as the same addresses and ports, and it knows all of them afterwards. The version suggested when a peer is dialled is that of the record that is dialled.", "quantifier": "all addresses, ports and zones, all command lines, all registries and messages", "why_tests_cant": "Every place uses another pair of printing and parsing functions, and the IPv4-in-IPv6 form of an address depends on the operating system's socket.", "anchors": ["parameters.go:parseSeedPeers", "distributor.go:handlePeersMessage", "distributor.go:handleGetPeersMessage", "peers/registry.go:AppendAddresses", "peers/peer.go:TCPAddr", "respawn.go:establishConnections", "connection_manager.go:Connect"]}
{"id": "C103", "title": "A fork between honest peers is found", "statement": "Two peers follow chains of true blocks that part after a common piece. When the process has asked one of them for blocks and this peer answers honestly, the process inevitably reaches a state in which this peer is synchronised, and from which, if the other one is at the head of its chain and both chains go on for more than five blocks after the common piece, every answer of Stats counts a long fork; Forks reports one of the two on a fork longer than n if both go on for more than n blocks. Forks and Stats do return if all peers are at the heads of such chains and no two of them part for longer than twice their common piece.", "quantifier": "all runs of the process from its start, all honest behaviours of the asked peer with everything true that others do meanwhile, all chains, all map orders and sort results", "why_tests_cant": "It is a liveness claim about the whole detector over unbounded chains and all interleavings of its goroutines.", "anchors": ["forkdetector.go:run", "loading/loader.go:Run", "chains/linkage.go:Forks", "chains/linkage.go:Stats", "api/api.go:status"]}
{"id": "C104", "title": "The exact outcome of the fork queries and of the status page", "statement": "Forks, and with it Stats, returns a list only if some selected peer stands on a block, all these blocks are stored with a timestamp below 2^63-1, and the last common block of the best block and each of them can be computed; it crashes only if one of the latter fails, and reports 'not found' only if a leash is at a block that is not stored; if no two blocks are equally good the outcome is determined by these conditions. The fork and the last common block of one peer are found or not found together, under the same conditions. In the running process the third case never occurs. Connections returns the peers exactly if each has a record and otherwise fails with 'not found'; the status page answers exactly if both calls return, otherwise with 500; no page about forks and peers waits for ever.", "quantifier": "every reachable store and registry, every history of lives of the process, every map order and sort result", "why_tests_cant": "It names all outcomes for all reachable states.", "anchors": ["chains/linkage.go:Forks", "chains/linkage.go:Fork", "chains/linkage.go:LCB", "peers/registry.go:Connections", "api/api.go:status"]}
{"id": "C105", "title": "From the timer of the loader to the detected fork", "statement": "The loader is idle, and a connected peer has announced a score, has a chain of true blocks, and the last block known of it is on this chain. When the timer fires and the loader chooses this peer, whatever true the other goroutines do meanwhile, it sends exactly one message to it, which asks for IDs starting with that last known block; if the peer answers honestly from then on, the process inevitably reaches a state in which the peer is synchronised and Stats counts a long fork with every peer on a branch that parted more than five blocks ago. If no other connected peer lags behind, every connected peer has a record, and nothing happens during the turn, the loader does choose this peer: from the idle process the next timer turn and the honest answers of the peer suffice.", "quantifier": "all runs of the process from its start, all chains, all steps of the other goroutines during the turn, all honest behaviours afterwards, all map orders and sort results", "why_tests_cant": "It is a liveness claim about all continuations of all runs.", "anchors": ["loading/loader.go:sync", "loading/loader.go:continueSync", "loading/peer_loader.go:requestIDs", "chains/linkage.go:Leash", "chains/linkage.go:Stats"]}
{"id": "C106", "title": "The exact outcome of the pages about leashes, heads and forks", "statement": "A block can be shown if it was accepted with a timestamp that can be read back and written as JSON. The leashes page is answered exactly if every block some peer stands on can be shown, the heads page exactly if every head some peer stands on can, otherwise the answer is 500. If no two blocks are equally good: /forks is answered exactly if the query is well formed, some selected peer stands on a block, all these blocks can be shown and their last common block with the best one can be computed; /active-forks exactly if in addition every connected peer has a record; both answer 400 to a malformed query and 500 otherwise. The fork of a peer that stands on a block is answered exactly if this block can be shown, the blocks of all peers can be read and its last common block with the best one can be computed; its generators exactly if the number asked for is not negative, the same holds for the last common block and the blocks counted can be read; otherwise with 500. In the running process the leashes page fails exactly if a peer stands on a block dated from the year 10000 on.", "quantifier": "every reachable store and registry, every history of lives of the process, every query, every map order and sort result", "why_tests_cant": "It names all outcomes of the pages for all reachable states.", "anchors": ["api/api.go:leashes", "api/api.go:heads", "api/api.go:forks", "api/api.go:activeForks", "api/api.go:fork", "api/api.go:forkGenerators"]}
{"id": "C107", "title": "A synchronisation after ten failures in a row", "statement": "If the peer the idle loader chooses has failed ten times in a row or more, it is connected, has announced its score and has a proper chain, and the process survives the turn, then exactly one request goes to it. The request starts with the last common block that was computed during the turn. This is a block of the peer's chain, not after the last block known of it. If the peer answers honestly from then on, it is inevitably synchronised, and Stats counts a long fork with every peer on another branch, whatever the other goroutines do meanwhile that is true and not about this peer. If only this peer lags behind and nothing happens meanwhile, the turn has exactly two outcomes: the process crashes and LCB crashes in this state, or the request starts with what LCB returns in this state.", "quantifier": "every configuration, chain, history of the process, interleaving of the other goroutines and order of the honest peer's answers", "why_tests_cant": "It is about all executions from the failures to the detected fork.", "anchors": ["loading/loader.go:sync", "loading/loader.go:restartSync", "loading/peer_loader.go:requestIDsFromLCA", "chains/linkage.go:LCB"]}
{"id": "C108", "title": "From the command line to the services", "statement": "With the text functions of the Go library: the services are started exactly if every option is right and the registry and the linkage come up. If an option is wrong, nothing is done but to report it, and the exit code is 1. If only the form of the network or of the declared address is wrong, the process crashes before it does anything. If standard error can be written, the exit code is 0 exactly if the services were started and the process was interrupted. An interrupted process has opened both stores, added the built-in seed peers and then those of the command line, and closed both stores. Over the stores that any number of lives of the process have left behind, if the files can be opened, the services are started exactly if every option is right and no last block of a chain that a peer stands on is dated 2^63-1 or later.", "quantifier": "every command line, every folder, every outcome of opening the stores and of the run", "why_tests_cant": "It is about all command lines and all outcomes of the start.", "anchors": ["forkdetector.go:main", "forkdetector.go:run", "parameters.go:newParameters"]}
{"id": "C109", "title": "In every life the lagging peer leads to the detected fork", "statement": "Whatever happened in the earlier lives of the process, in the current life: if the loader is idle and only one connected peer lags behind, and this peer has a proper chain and the last block known of it, from this life or an earlier one, is on this chain, then the next firing of the timer has exactly two outcomes. Either the peer has failed ten times or more in this life, LCB crashes in this state, and so does the process. Or exactly one request is sent, to this peer, that starts with a block of its chain, not after the last block known, and with this one if there were fewer than ten failures. If the peer then answers honestly, it is inevitably synchronised and Stats counts a long fork with every peer on another branch, also one that was connected only in an earlier life.", "quantifier": "every number of lives, however they ended, every configuration, chain, interleaving and order of answers", "why_tests_cant": "It is about all sequences of lives and all continuations of the last one.", "anchors": ["forkdetector.go:run", "loading/loader.go:sync", "loading/loader.go:restartSync", "chains/linkage.go:Stats"]}
{"id": "C110", "title": "The texts of a peer and of a head in the log are unambiguous", "statement": "Peer.String never panics and writes address and port, nonce, name, version, name of the state, date of the next attempt and score (0 if unknown) in the fixed pattern. If two peers have addresses without a zone, or with a zone without a dash, and the same text, then they agree on everything shown, so no name that a peer may choose, not even one with quotation marks or one that imitates the rest of the line, makes it look like another peer or like itself in another state. With a dash in an IPv6 zone this is false: two different peers can have the same text. Different heads have different texts.", "quantifier": "all peers, with all names, nonces, versions, scores and dates", "why_tests_cant": "It compares all pairs of peers, with names of any bytes and length.", "anchors": ["peers/peer.go:String", "peers/state_string.go:String", "chains/entities.go:String"]}
