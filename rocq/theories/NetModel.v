(** Model of package main: distributor.go, connection_manager.go, respawn.go, listener.go, and the shutdown of forkdetector.go. *)
From Verif Require Import Base Kv ChainModel PeersModel.
Set Implicit Arguments.
Unset Strict Implicit.

(** * Message kinds (connection_manager.go) *)

(** proto.PeerMessageID: the kinds of connection_manager.go:37-57, and any other number. *)
Inductive kind :=
| KGetPeers | KPeers | KGetSignatures | KSignatures | KGetBlock | KBlock | KScore | KTransaction | KInvMicroblock | KCheckpoint
| KMicroblockRequest | KMicroblock | KPBBlock | KPBMicroBlock | KPBTransaction | KGetBlockIDs | KBlockIDs | KGetBlockSnapshot
| KMicroBlockSnapshot | KBlockSnapshot | KMicroBlockSnapshotRequest | KOther (n : N).
(** connection_manager.go:36-58 *)
Definition discarded (k : kind) : option bool :=
  match k with
  | KGetPeers => Some false
  | KPeers => Some false
  | KGetSignatures => Some true
  | KSignatures => Some false
  | KGetBlock => Some true
  | KBlock => Some false
  | KScore => Some false
  | KTransaction => Some true
  | KInvMicroblock => Some false
  | KCheckpoint => Some true
  | KMicroblockRequest => Some true
  | KMicroblock => Some true
  | KPBBlock => Some false
  | KPBMicroBlock => Some true
  | KPBTransaction => Some true
  | KGetBlockIDs => Some true
  | KBlockIDs => Some false
  | KGetBlockSnapshot => Some true
  | KMicroBlockSnapshot => Some true
  | KBlockSnapshot => Some true
  | KMicroBlockSnapshotRequest => Some true
  | KOther _ => None
  end.
(** connection_manager.go:117-122 *)
Definition skip (k : kind) : bool := match discarded k with Some r => r | None => false end.

(** A decoded message. What the payload decodes to is the business of gowaves: the addresses of a Peers message are the
    results of netip.ParseAddrPort (distributor.go:220-227), blocks those of UnmarshalBinary and UnmarshalFromProtobuf
    (lines 180, 192), a micro-block announcement that of MicroBlockInv.UnmarshalBinary (line 289); [None]: an error. *)
Inductive message :=
| MGetPeers
| MPeers (l : list (option (addr * N)))
| MSignatures (ids : list id)
| MBlock (b : option pblock)
| MScore (s : bytes)
| MMicroBlockInv (m : option minv)
| MPBBlock (b : option pblock)
| MBlockIds (ids : list id)
| MGetSignatures | MGetBlock | MTransaction | MCheckpoint | MMicroblockRequest | MMicroblock | MPBMicroBlock | MPBTransaction
| MGetBlockIDs | MGetBlockSnapshot | MMicroBlockSnapshot | MBlockSnapshot | MMicroBlockSnapshotRequest
| MOther (n : N).
(** proto.UnmarshalMessage: the Go type of a message is determined by its content ID. *)
Definition kind_of (m : message) : kind :=
  match m with
  | MGetPeers => KGetPeers | MPeers _ => KPeers | MSignatures _ => KSignatures | MBlock _ => KBlock | MScore _ => KScore
  | MMicroBlockInv _ => KInvMicroblock | MPBBlock _ => KPBBlock | MBlockIds _ => KBlockIDs
  | MGetSignatures => KGetSignatures | MGetBlock => KGetBlock | MTransaction => KTransaction | MCheckpoint => KCheckpoint
  | MMicroblockRequest => KMicroblockRequest | MMicroblock => KMicroblock | MPBMicroBlock => KPBMicroBlock
  | MPBTransaction => KPBTransaction | MGetBlockIDs => KGetBlockIDs | MGetBlockSnapshot => KGetBlockSnapshot
  | MMicroBlockSnapshot => KMicroBlockSnapshot | MBlockSnapshot => KBlockSnapshot
  | MMicroBlockSnapshotRequest => KMicroBlockSnapshotRequest | MOther n => KOther n
  end.

(** * The distributor (distributor.go) *)

(** A connection as the distributor sees it: netip.ParseAddrPort(RemoteAddr().String()), [None] if that fails. *)
Record link := { ln_addr : option addr; ln_conn : conn }.
(** loading/loader.go:33-41: what is sent to the loader on idsCh and blockCh. *)
Inductive package := PIDs (a : addr) (ids : list id) | PBlock (a : addr) (b : pblock).
(** What is done to connections: SendMessage of a Peers message (IP and port of each peer), SendMessage of GetPeers, Close. *)
Inductive signal := SPeers (c : conn) (l : list (bytes * N)) | SGetPeers (c : conn) | SClose (c : conn).
Record dist := { d_lk : linkage; d_reg : registry }.
(** The clock and the fates of the writes during one message: of the record of a peer, of the records of new addresses, of
    the batches of the linkage. *)
Record fate := { ft_now : time; ft_write : bool; ft_append : option nat; ft_fault : option nat }.
(** The state, the signals, and the package that remains to be sent to the loader, if any. *)
Definition handled : Type := dist * list signal * outcome (option package).
Definition quiet (d : dist) (o : outcome (option package)) : handled := (d, [], o).
Definition nothing (d : dist) : handled := quiet d (Ok None).
Definition with_reg (d : dist) (r : registry) : dist := {| d_lk := d_lk d; d_reg := r |}.
Definition with_lk (d : dist) (l : linkage) : dist := {| d_lk := l; d_reg := d_reg d |}.
(** The result of a call whose error is only logged. *)
Definition logged {A} (r : outcome A) : outcome (option package) :=
  match r with Ok _ | Err _ => Ok None | Panic => Panic | Diverge => Diverge end.

Section Distributor.
Variable cfg : config.
Variable g : pblock.                       (* genesis *)
Variable srt : list Peer -> list Peer.     (* sort.Sort(ByName(..)) *)
Variable ord : list (addr * conn) -> list (addr * conn).  (* map iteration *)

(** distributor.go:164-177: big.Int.SetBytes reads a big-endian number. *)
Definition handle_score (x : fate) (d : dist) (from : link) (s : bytes) : handled :=
  match ln_addr from with
  | None => nothing d
  | Some a => let (r, e) := update_peer_score (d_reg d) (ft_write x) a (Z.of_N (unbe s)) in quiet (with_reg d r) (logged e)
  end.
(** distributor.go:204-215 *)
Definition handle_block (x : fate) (d : dist) (from : link) (b : pblock) : handled :=
  match ln_addr from with
  | None => nothing d
  | Some a =>
      let (l, e) := exec g (d_lk d) (Put b a) (ft_fault x) in
      quiet (with_lk d l) (match e with
                           | Ok _ | Err EParentNotFound => Ok (Some (PBlock a b))
                           | Err _ => Ok None | Panic => Panic | Diverge => Diverge
                           end)
  end.
(** distributor.go:179-202 *)
Definition handle_block_message (x : fate) (d : dist) (from : link) (b : option pblock) : handled :=
  match b with Some b => handle_block x d from b | None => nothing d end.
(** distributor.go:217-232: the addresses that do not parse are left out. *)
Definition handle_peers (x : fate) (d : dist) (l : list (option (addr * N))) : handled :=
  let (r, n) := append_addresses cfg (d_reg d) (filter (fun p => match p with Some _ => true | None => false end) l) (ft_append x) in
  nothing (with_reg d r).
(** distributor.go:234-253; p.TCPAddr() panics for other than IPv4 addresses. *)
Definition handle_get_peers (d : dist) (from : link) : handled :=
  match friendly_peers srt (d_reg d) with
  | Ok ps => match mapM tcp_addr ps with
             | Ok infos => (d, [SPeers (ln_conn from) infos], Ok None)
             | r => quiet d (logged r)
             end
  | r => quiet d (logged r)
  end.
(** distributor.go:255-267 *)
Definition handle_signatures (d : dist) (from : link) (ids : list id) : handled :=
  match ln_addr from with Some a => quiet d (Ok (Some (PIDs a ids))) | None => nothing d end.
(** distributor.go:269-282 *)
Definition handle_block_ids (d : dist) (from : link) (ids : list id) : handled :=
  match ln_addr from, ids with
  | Some a, _ :: _ => quiet d (Ok (Some (PIDs a ids)))
  | _, _ => nothing d
  end.
(** distributor.go:284-301 *)
Definition handle_micro (x : fate) (d : dist) (from : link) (m : option minv) : handled :=
  match ln_addr from, m with
  | Some a, Some m => let (l, e) := exec g (d_lk d) (Micro m a) (ft_fault x) in quiet (with_lk d l) (logged e)
  | _, _ => nothing d
  end.
(** distributor.go:143-162 *)
Definition handle_message (x : fate) (d : dist) (from : link) (m : message) : handled :=
  match m with
  | MGetPeers => handle_get_peers d from
  | MPeers l => handle_peers x d l
  | MSignatures ids => handle_signatures d from ids
  | MBlock b => handle_block_message x d from b
  | MScore s => handle_score x d from s
  | MMicroBlockInv m => handle_micro x d from m
  | MPBBlock b => handle_block_message x d from b
  | MBlockIds ids => handle_block_ids d from ids
  | _ => nothing d
  end.

(** gowaves peer.InfoMessage: a connection was established, or it failed; other values are ignored. *)
Inductive info := IConnected (from : link) (h : handshake) | IError (from : link) | IOther.
(** distributor.go:115-125 *)
Definition handle_connected (x : fate) (d : dist) (from : link) (h : handshake) : handled :=
  match ln_addr from with
  | None => nothing d
  | Some a =>
      match register_peer cfg (d_reg d) (ft_now x) (ft_write x) a (ln_conn from) h with
      | (r, e, closed) => (with_reg d r, if closed then [SClose (ln_conn from)] else [], logged e)
      end
  end.
(** distributor.go:127-141 *)
Definition handle_error (x : fate) (d : dist) (from : link) : handled :=
  match ln_addr from with
  | None => nothing d
  | Some a => let (r, e) := unregister_peer (d_reg d) (ft_now x) (ft_write x) a in (with_reg d r, [SClose (ln_conn from)], logged e)
  end.
(** distributor.go:106-113 *)
Definition handle_info (x : fate) (d : dist) (i : info) : handled :=
  match i with
  | IConnected from h => handle_connected x d from h
  | IError from => handle_error x d from
  | IOther => nothing d
  end.
(** distributor.go:102-104 *)
Definition ping (d : dist) : handled := (d, map SGetPeers (broadcast ord (d_reg d)), Ok None).

(** distributor.go:84-100: what the loop receives. *)
Inductive arrival := AMessage (from : link) (m : message) | AInfo (i : info) | APing.
Definition handle (x : fate) (d : dist) (a : arrival) : handled :=
  match a with
  | AMessage from m => handle_message x d from m
  | AInfo i => handle_info x d i
  | APing => ping d
  end.
(** The loop over a list of arrivals, as long as nothing panics; each package is sent before the next arrival. *)
Fixpoint handle_all (d : dist) (l : list (fate * arrival)) : dist * list signal * list package * outcome unit :=
  match l with
  | [] => (d, [], [], Ok tt)
  | (x, a) :: l' =>
      match handle x d a with
      | (d1, ss, Ok p) =>
          match handle_all d1 l' with
          | (d2, ss2, ps, r) => (d2, ss ++ ss2, match p with Some p => p :: ps | None => ps end, r)
          end
      | (d1, ss, Err e) => (d1, ss, [], Err e)
      | (d1, ss, Panic) => (d1, ss, [], Panic)
      | (d1, ss, Diverge) => (d1, ss, [], Diverge)
      end
  end.
End Distributor.

(** * The connection manager *)

(** Accept (connection_manager.go:70-93) and Connect (lines 94-115) up to the call of gowaves: the version to offer, or the
    error with which no connection is made. [a]: netip.ParseAddrPort of the address. *)
Definition offer (cfg : config) (r : registry) (now : time) (w : bool) (a : option addr) : registry * outcome version :=
  match a with None => (r, Err EOther) | Some a => suggest_version cfg r now w a end.

(** Accept for an incoming connection (connection_manager.go:70-93, called at listener.go:81-87). [Err]: the version to offer
    could not be found and Accept returns the error, which the listener only logs; the flag tells whether the accepted
    net.Conn was closed on that way: no statement does. [Ok]: the connection is in the hands of incoming.RunIncomingPeer. *)
Definition accept (cfg : config) (r : registry) (now : time) (w : bool) (a : option addr) : registry * outcome version * bool :=
  (offer cfg r now w a, false).

(** * Respawn (respawn.go) *)

(** respawn.go:76-89 for one address: [up]: outgoing.EstablishConnection returned nil. Whether a connection was attempted,
    and the registry afterwards. *)
Definition dial (cfg : config) (r : registry) (x : fate) (a : addr) (up : bool) : registry * outcome bool :=
  match offer cfg r (ft_now x) (ft_write x) (Some a) with
  | (r1, Ok _) => if up then (r1, Ok true) else
      let (r2, e) := unregister_peer r1 (ft_now x) (ft_write x) a in
      (r2, match e with Ok _ | Err _ => Ok true | Panic => Panic | Diverge => Diverge end)
  | (r1, Err _) =>
      let (r2, e) := unregister_peer r1 (ft_now x) (ft_write x) a in
      (r2, match e with Ok _ | Err _ => Ok false | Panic => Panic | Diverge => Diverge end)
  | (r1, Panic) => (r1, Panic)
  | (r1, Diverge) => (r1, Diverge)
  end.
(** respawn.go:53-74. [rs_armed]: the timer is running; it fires once and is reset on line 67 only. *)
Record respawn := { rs_armed : bool; rs_reg : registry }.
(** The timer fires; [None]: storage.peers returns an error (GetSnapshot or a record that does not decode, storage.go:125-139). The result: the addresses that are dialled. *)
Definition respawn_fire (cfg : config) (s : respawn) (clock : option (addr -> time)) : respawn * outcome (list (addr * N)) :=
  match clock with
  | None => ({| rs_armed := false; rs_reg := rs_reg s |}, Err EOther)
  | Some clock =>
      match take_available cfg (rs_reg s) clock with
      | (r, Ok l) => ({| rs_armed := true; rs_reg := r |}, Ok l)
      | (r, Err e) => ({| rs_armed := false; rs_reg := r |}, Err e)
      | (r, Panic) => ({| rs_armed := false; rs_reg := r |}, Panic)
      | (r, Diverge) => ({| rs_armed := false; rs_reg := r |}, Diverge)
      end
  end.
(** What happens to it: ten seconds pass (the timer fires if it is running), or another goroutine calls the registry. *)
Inductive happening := HTenSeconds (clock : option (addr -> time)) | HCall (o : rop).
Definition respawn_step (cfg : config) (s : respawn) (h : happening) : respawn * option (outcome (list (addr * N))) :=
  match h with
  | HTenSeconds clock => if rs_armed s then let (s', r) := respawn_fire cfg s clock in (s', Some r) else (s, None)
  | HCall o => ({| rs_armed := rs_armed s; rs_reg := rstep cfg (rs_reg s) o |}, None)
  end.
(** The attempts of a run: what was asked and answered. *)
Fixpoint respawn_run (cfg : config) (s : respawn) (hs : list happening) : respawn * list (outcome (list (addr * N))) :=
  match hs with
  | [] => (s, [])
  | h :: hs' => let (s1, r) := respawn_step cfg s h in let (s2, rs) := respawn_run cfg s1 hs' in (s2, match r with Some r => r :: rs | None => rs end)
  end.
(** respawn.go:37-44 *)
Definition respawn_start (r : registry) : respawn := {| rs_armed := true; rs_reg := r |}.

(** * Shutdown (forkdetector.go:101-110) *)

(** The goroutines of the services. A handler is one step of its goroutine (its calls return, see C66); sending on an
    unbuffered channel waits for the receiver. Of the API only the order is modelled: a.Shutdown() returns (the context given
    to http.Server.Shutdown is already done), and the HTTP server is not connected to the others. *)
Inductive stage := Serving | AtAPI | AtListener | AtRespawn | AtLoader | AtDistributor | Ended | Crashed.
(** listener.go: no server is started (lines 27-35); net.Listen has not returned yet; it serves; net.Listen failed; nl.Close()
    has been called; the goroutine has returned. The field nl is nil in [Starting] and [Refused]. *)
Inductive listener := NoServer | Starting | Accepting | Refused | Closed | Returned.
(** loader.go:160-183: at the select, in a handler, returned. *)
Inductive lproc := LSelect | LHandling | LStopped.
(** distributor.go:84-100: at the select (or in a handler), sending a package to the loader, returned. *)
Inductive dproc := DSelect | DSending (p : package) | DStopped.
(** [y_inbox]: what the distributor will still receive; [y_left]: how often the timers of the loader and of the respawn will
    still be chosen by their select statements (select chooses at random among the ready cases, so that ctx.Done() is chosen
    after finitely many others). *)
Record sys := { y_term : bool; y_main : stage; y_listener : listener; y_respawn : bool; y_loader : lproc; y_dist : dproc;
                y_inbox : list (fate * arrival); y_left : nat; y_state : dist }.
Definition set_main (s : sys) (m : stage) : sys :=
  {| y_term := y_term s; y_main := m; y_listener := y_listener s; y_respawn := y_respawn s; y_loader := y_loader s; y_dist := y_dist s;
     y_inbox := y_inbox s; y_left := y_left s; y_state := y_state s |}.
Definition set_listener (s : sys) (x : listener) : sys :=
  {| y_term := y_term s; y_main := y_main s; y_listener := x; y_respawn := y_respawn s; y_loader := y_loader s; y_dist := y_dist s;
     y_inbox := y_inbox s; y_left := y_left s; y_state := y_state s |}.
Definition set_procs (s : sys) (r : bool) (l : lproc) (d : dproc) : sys :=
  {| y_term := y_term s; y_main := y_main s; y_listener := y_listener s; y_respawn := r; y_loader := l; y_dist := d;
     y_inbox := y_inbox s; y_left := y_left s; y_state := y_state s |}.
Definition set_state (s : sys) (d : dist) : sys :=
  {| y_term := y_term s; y_main := y_main s; y_listener := y_listener s; y_respawn := y_respawn s; y_loader := y_loader s; y_dist := y_dist s;
     y_inbox := y_inbox s; y_left := y_left s; y_state := d |}.
Definition set_left (s : sys) (n : nat) : sys :=
  {| y_term := y_term s; y_main := y_main s; y_listener := y_listener s; y_respawn := y_respawn s; y_loader := y_loader s; y_dist := y_dist s;
     y_inbox := y_inbox s; y_left := n; y_state := y_state s |}.
Definition set_inbox (s : sys) (l : list (fate * arrival)) : sys :=
  {| y_term := y_term s; y_main := y_main s; y_listener := y_listener s; y_respawn := y_respawn s; y_loader := y_loader s; y_dist := y_dist s;
     y_inbox := l; y_left := y_left s; y_state := y_state s |}.
Definition set_term (s : sys) : sys :=
  {| y_term := true; y_main := y_main s; y_listener := y_listener s; y_respawn := y_respawn s; y_loader := y_loader s; y_dist := y_dist s;
     y_inbox := y_inbox s; y_left := y_left s; y_state := y_state s |}.
Definition after_send (p : option package) : dproc := match p with Some p => DSending p | None => DSelect end.

Section Shutdown.
Variable cfg : config.
Variable g : pblock.
Variable srt : list Peer -> list Peer.
Variable ord : list (addr * conn) -> list (addr * conn).
(** One step of one of the goroutines, or the signal. *)
Inductive moves (s : sys) : sys -> Prop :=
| m_signal : y_term s = false -> moves s (set_term s)
(* distributor.go:84-100 *)
| m_receive x a rest d ss p : y_dist s = DSelect -> y_inbox s = (x, a) :: rest -> handle cfg g srt ord x (y_state s) a = (d, ss, Ok p) ->
    moves s (set_procs (set_state (set_inbox s rest) d) (y_respawn s) (y_loader s) (after_send p))
| m_panic x a rest d ss : y_dist s = DSelect -> y_inbox s = (x, a) :: rest -> handle cfg g srt ord x (y_state s) a = (d, ss, Panic) ->
    moves s (set_main s Crashed)
| m_dist_exit : y_dist s = DSelect -> y_term s = true -> moves s (set_procs s (y_respawn s) (y_loader s) DStopped)
(* the channels: distributor.go:213, 266, 281 and loader.go:165-172 *)
| m_send p : y_dist s = DSending p -> y_loader s = LSelect -> moves s (set_procs s (y_respawn s) LHandling DSelect)
(* loader.go:160-183; the handler may change the stores in any way *)
| m_load_done d : y_loader s = LHandling -> moves s (set_state (set_procs s (y_respawn s) LSelect (y_dist s)) d)
| m_load_timer n : y_loader s = LSelect -> y_left s = S n -> moves s (set_left (set_procs s (y_respawn s) LHandling (y_dist s)) n)
| m_load_exit : y_loader s = LSelect -> y_term s = true -> moves s (set_procs s (y_respawn s) LStopped (y_dist s))
(* respawn.go:53-74 *)
| m_respawn n d : y_respawn s = true -> y_left s = S n -> moves s (set_state (set_left s n) d)
| m_respawn_exit : y_respawn s = true -> y_term s = true -> moves s (set_procs s false (y_loader s) (y_dist s))
(* listener.go:62-90 *)
| m_listen : y_listener s = Starting -> moves s (set_listener s Accepting)
| m_refused : y_listener s = Starting -> moves s (set_listener s Refused)
| m_listen_exit : y_listener s = Closed -> y_term s = true -> moves s (set_listener s Returned)
(* forkdetector.go:101-110; api.go:89-97, respawn.go:46-51, loader.go:119-125, distributor.go:67-74 *)
| m_done : y_main s = Serving -> y_term s = true -> moves s (set_main s AtAPI)
| m_api : y_main s = AtAPI -> moves s (set_main s AtListener)
| m_no_listener : y_main s = AtListener -> y_listener s = NoServer -> moves s (set_main s AtRespawn)
| m_nil : y_main s = AtListener -> (y_listener s = Starting \/ y_listener s = Refused) -> moves s (set_main s Crashed)
| m_close : y_main s = AtListener -> y_listener s = Accepting -> moves s (set_listener s Closed)
| m_close_error : y_main s = AtListener -> y_listener s = Accepting -> moves s (set_main s AtRespawn)
| m_listener : y_main s = AtListener -> y_listener s = Returned -> moves s (set_main s AtRespawn)
| m_respawned : y_main s = AtRespawn -> y_respawn s = false -> moves s (set_main s AtLoader)
| m_loaded : y_main s = AtLoader -> y_loader s = LStopped -> moves s (set_main s AtDistributor)
| m_distributed : y_main s = AtDistributor -> y_dist s = DStopped -> moves s (set_main s Ended).
(** The process is gone when main has returned or something has panicked. *)
Definition alive (s : sys) : Prop := y_main s <> Ended /\ y_main s <> Crashed.
Definition next (s s' : sys) : Prop := alive s /\ moves s s'.
Inductive runs (s : sys) : sys -> Prop :=
| runs_refl : runs s s
| runs_next s1 s2 : runs s s1 -> next s1 s2 -> runs s s2.
End Shutdown.
(** forkdetector.go:77-100: all services have been started. *)
Definition started (server : bool) (inbox : list (fate * arrival)) (left : nat) (d : dist) : sys :=
  {| y_term := false; y_main := Serving; y_listener := if server then Starting else NoServer; y_respawn := true; y_loader := LSelect;
     y_dist := DSelect; y_inbox := inbox; y_left := left; y_state := d |}.
