(** Model of loading/*.go: the block queue, the state machine of the peer loader, and the loader. *)
From Verif Require Import Base Kv ChainModel PeersModel.
Set Implicit Arguments.
Unset Strict Implicit.

(** * The block queue (queue.go) *)

(** queue.go:9-12; [None] is the nil pointer. *)
Record item := { it_req : id; it_rcv : option pblock }.
Definition queue := list item.
(** queue.go:18-24 *)
Definition new_queue (ids : list id) : queue := map (fun i => {| it_req := i; it_rcv := None |}) ids.
(** queue.go:26-36: the first item with that ID. *)
Fixpoint queue_put (q : queue) (b : pblock) : queue :=
  match q with
  | [] => []
  | it :: q' => if id_eqb (it_req it) (pb_id b) then {| it_req := it_req it; it_rcv := Some b |} :: q' else it :: queue_put q' b
  end.
Definition queue_put_ptr (q : queue) (b : option pblock) : queue := match b with Some b => queue_put q b | None => q end.
(** The condition of queue.go:40, 73 and peer_loader.go:242. *)
Definition arrived (it : item) : bool := match it_rcv it with Some b => id_eqb (pb_id b) (it_req it) | None => false end.
(** queue.go:38-45 *)
Definition queue_ready (q : queue) : bool := forallb arrived q.
(** queue.go:67-79 *)
Fixpoint last_received_loop (q : queue) (last : option pblock) : option pblock :=
  match q with
  | [] => last
  | it :: q' => if arrived it then last_received_loop q' (it_rcv it) else last
  end.
Definition last_received (q : queue) : option pblock := last_received_loop q None.

(** * The world: everything the loader calls *)

(** state.go:4-11 *)
Inductive lstate := Idle | WaitIDs | WaitBlocks | Done.
(** event.go:4-14, with their arguments *)
Inductive trigger := EStart | ERestart | EIDs (ids : list id) | EBlock (b : option pblock) | ETick (t : time) | ETimeout | EQueueReady.
(** The log lines of loader.go that tell what happened to a synchronisation (lines 133, 138, 142, 146, 154, 241). *)
Inductive line := LNoPeer (a : addr) | LNoScore (a : addr) | LStill (a : addr) | LNoMore (a : addr) | LFailed (a : addr) | LRestart (a : addr).

(** The calls made by the peer loader: chains.HistoryProvider (linkage.go:28-39: Leash, LCB, LastIDs, HasBlock, MoveLeash,
    PutBlock), peers.HistoryRequester (peer.go:17-21: RequestBlockIDs, RequestBlock), time.Now, Reporter (loader.go:43-46);
    and by the loader: Linkage.LeashScore, Registry.Peer, Registry.Connections, rand.IntN, zap.
    The arguments of [COk] and [CFail] are pl.peer.ID() and pl.sm.MustState(), which Loader.OK and Loader.Fail read. *)
Inductive call :=
| CLeash (a : addr) | CLcb (a : addr) | CLast (i : id) (n : Z) | CHas (i : id) | CMove (i : id) (a : addr)
| CPut (b : pblock) (a : addr) | CAskIDs (a : addr) (ids : list id) | CAskBlock (a : addr) (i : id) | CNow
| COk (a : addr) (s : lstate) | CFail (a : addr) (s : lstate)
| CScore (a : addr) | CPeer (a : addr) | CConns | CPick (n : nat) | CLog (x : line).
(** Their results. [COk]: whether the reporter fired eventStart; the machine is firing, so the event is queued and Fire
    returns nil. [CPeer], [CConns]: the addresses and scores (nil is [None]). *)
Definition reply (c : call) : Type :=
  match c with
  | CLeash _ | CLcb _ => outcome id
  | CLast _ _ => outcome (list id)
  | CHas _ => outcome bool
  | CMove _ _ | CPut _ _ => outcome unit
  | CAskIDs _ _ | CAskBlock _ _ | CLog _ => unit
  | CNow => time
  | COk _ _ => outcome bool
  | CFail _ _ => outcome unit
  | CScore _ => outcome Z
  | CPeer _ => outcome (option Z)
  | CConns => outcome (list (addr * option Z))
  | CPick _ => nat
  end.
(** A world with states [V]. Whatever other goroutines do between two calls is part of the world. *)
Definition world (V : Type) := forall c : call, V -> V * reply c.

(** * The peer loader (peer_loader.go) *)

(** peer_loader.go:22-31; [pl_triggers]: the queue of the state machine (stateless, FiringQueued). *)
Record ploader := { pl_peer : addr; pl_state : lstate; pl_ts : time; pl_queue : queue; pl_triggers : list trigger }.
(** peer_loader.go:33-50 *)
Definition new_ploader (a : addr) : ploader :=
  {| pl_peer := a; pl_state := Idle; pl_ts := zero_time; pl_queue := []; pl_triggers := [] |}.
Definition set_state (p : ploader) (s : lstate) : ploader :=
  {| pl_peer := pl_peer p; pl_state := s; pl_ts := pl_ts p; pl_queue := pl_queue p; pl_triggers := pl_triggers p |}.
Definition set_ts (p : ploader) (t : time) : ploader :=
  {| pl_peer := pl_peer p; pl_state := pl_state p; pl_ts := t; pl_queue := pl_queue p; pl_triggers := pl_triggers p |}.
Definition set_queue (p : ploader) (q : queue) : ploader :=
  {| pl_peer := pl_peer p; pl_state := pl_state p; pl_ts := pl_ts p; pl_queue := q; pl_triggers := pl_triggers p |}.
Definition set_triggers (p : ploader) (ts : list trigger) : ploader :=
  {| pl_peer := pl_peer p; pl_state := pl_state p; pl_ts := pl_ts p; pl_queue := pl_queue p; pl_triggers := ts |}.

(** peer_loader.go:17-20 *)
Definition idsBatchSize : Z := 100.
Definition timeoutDuration : Z := (30 * second)%Z.

Section Loading.
Variable V : Type.
Variable w : world V.

(** The result of an action: the world, the loader and the triggers fired by it, or its error. *)
Definition result : Type := V * (ploader * outcome (list trigger)).
Definition fails A (p : ploader) (v : V) (r : outcome A) : result :=
  (v, (p, match r with Ok _ => Ok [] | Err e => Err e | Panic => Panic | Diverge => Diverge end)).

(** peer_loader.go:140-150; tm.Sub saturates, which does not change the comparison. *)
Definition on_tick (t : time) (p : ploader) (v : V) : result :=
  (v, (p, Ok (if (timeoutDuration <? t - pl_ts p)%Z then [ETimeout] else []))).

(** peer_loader.go:157-163 = 171-177; RequestBlockIDs indexes the list (peer.go:70, 74), so an empty one panics. *)
Definition ask_from (i : id) (p : ploader) (v : V) : result :=
  match w (CLast i idsBatchSize) v with
  | (v1, Ok []) => (v1, (p, Panic))
  | (v1, Ok ids) =>
      let (v2, _) := w (CAskIDs (pl_peer p) ids) v1 in
      let (v3, t) := w CNow v2 in
      (v3, (set_ts p t, Ok []))
  | (v1, r) => fails p v1 r
  end.
(** peer_loader.go:152-164 *)
Definition request_ids (p : ploader) (v : V) : result :=
  match w (CLeash (pl_peer p)) v with
  | (v1, Ok i) => ask_from i p v1
  | (v1, r) => fails p v1 r
  end.
(** peer_loader.go:166-178 *)
Definition request_ids_from_lca (p : ploader) (v : V) : result :=
  match w (CLcb (pl_peer p)) v with
  | (v1, Ok i) => ask_from i p v1
  | (v1, r) => fails p v1 r
  end.

(** peer_loader.go:186-206: the remaining IDs from the first unknown one on. *)
Fixpoint skip_known (a : addr) (ids : list id) (v : V) : V * outcome (list id) :=
  match ids with
  | [] => (v, Ok [])
  | i :: ids' =>
      match w (CHas i) v with
      | (v1, Ok true) =>
          match w (CLeash a) v1 with
          | (v2, Ok j) =>
              if id_eqb i j then skip_known a ids' v2
              else match w (CMove i a) v2 with
                   | (v3, Ok _) => skip_known a ids' v3
                   | (v3, Err e) => (v3, Err e) | (v3, Panic) => (v3, Panic) | (v3, Diverge) => (v3, Diverge)
                   end
          | (v2, Err e) => (v2, Err e) | (v2, Panic) => (v2, Panic) | (v2, Diverge) => (v2, Diverge)
          end
      | (v1, Ok false) => (v1, Ok ids)
      | (v1, Err e) => (v1, Err e) | (v1, Panic) => (v1, Panic) | (v1, Diverge) => (v1, Diverge)
      end
  end.
(** peer_loader.go:213-215 *)
Fixpoint ask_blocks (a : addr) (ids : list id) (v : V) : V :=
  match ids with [] => v | i :: ids' => ask_blocks a ids' (fst (w (CAskBlock a i) v)) end.
(** peer_loader.go:180-218 *)
Definition request_blocks (ids : list id) (p : ploader) (v : V) : result :=
  match skip_known (pl_peer p) ids v with
  | (v1, Ok []) => (v1, (p, Ok [EQueueReady]))
  | (v1, Ok req) =>
      let v2 := ask_blocks (pl_peer p) req v1 in
      let (v3, t) := w CNow v2 in
      (v3, (set_ts (set_queue p (new_queue req)) t, Ok []))
  | (v1, r) => fails p v1 r
  end.

(** peer_loader.go:227-232, 241-249: PutBlock one by one, until the first error. *)
Fixpoint put_all (a : addr) (bs : list pblock) (v : V) : V * outcome unit :=
  match bs with
  | [] => (v, Ok tt)
  | b :: bs' => match w (CPut b a) v with
                | (v1, Ok _) => put_all a bs' v1
                | (v1, r) => (v1, r)
                end
  end.
(** The blocks of a queue that is ready (every [it.received] is set). *)
Definition received (q : queue) : list pblock := flat_map (fun it => match it_rcv it with Some b => [b] | None => [] end) q.
(** peer_loader.go:220-237 *)
Definition append_block (b : option pblock) (p : ploader) (v : V) : result :=
  let p1 := set_queue p (queue_put_ptr (pl_queue p) b) in
  if queue_ready (pl_queue p1)
  then match put_all (pl_peer p) (received (pl_queue p1)) v with
       | (v1, Ok _) => (v1, (p1, Ok [EQueueReady]))
       | (v1, r) => fails p1 v1 r
       end
  else (v, (p1, Ok [])).

(** The blocks before the first one that has not arrived. *)
Fixpoint arrived_prefix (q : queue) : list pblock :=
  match q with
  | [] => []
  | it :: q' => match it_rcv it with
                | Some b => if id_eqb (pb_id b) (it_req it) then b :: arrived_prefix q' else []
                | None => []
                end
  end.
(** peer_loader.go:239-252 *)
Definition handle_failure (p : ploader) (v : V) : result :=
  match put_all (pl_peer p) (arrived_prefix (pl_queue p)) v with
  | (v1, Ok _) => let (v2, r) := w (CFail (pl_peer p) (pl_state p)) v1 in fails p v2 r
  | (v1, r) => fails p v1 r
  end.
(** peer_loader.go:254-257 *)
Definition report_ok (p : ploader) (v : V) : result :=
  match w (COk (pl_peer p) (pl_state p)) v with
  | (v1, Ok started) => (v1, (p, Ok (if started then [EStart] else [])))
  | (v1, r) => fails p v1 r
  end.

(** * The state machine *)

(** What the machine does on a trigger: a transition, an internal action, nothing, or an error. *)
Inductive behaviour := Permit (s : lstate) | Internal (f : ploader -> V -> result) | Ignore | Unhandled.
(** peer_loader.go:52-98 *)
Definition behave (s : lstate) (t : trigger) : behaviour :=
  match s, t with
  | Idle, (EStart | ERestart) => Permit WaitIDs
  | Idle, (EIDs _ | EBlock _ | ETick _ | ETimeout | EQueueReady) => Ignore
  | WaitIDs, EIDs _ => Permit WaitBlocks
  | WaitIDs, ETick tm => Internal (on_tick tm)
  | WaitIDs, ETimeout => Permit Done
  | WaitIDs, (EStart | ERestart | EBlock _ | EQueueReady) => Ignore
  | WaitBlocks, EBlock b => Internal (append_block b)
  | WaitBlocks, ETick tm => Internal (on_tick tm)
  | WaitBlocks, ETimeout => Permit Done
  | WaitBlocks, EQueueReady => Permit Idle
  | WaitBlocks, (EStart | ERestart | EIDs _) => Ignore
  | Done, (EStart | ERestart | EIDs _ | EBlock _ | ETick _ | ETimeout) => Ignore
  | Done, EQueueReady => Unhandled
  end.
(** The entry actions: OnEntryFrom and OnEntry of peer_loader.go:52-98. *)
Definition on_entry (s : lstate) (t : trigger) (p : ploader) (v : V) : result :=
  match s, t with
  | Idle, EQueueReady => report_ok p v
  | WaitIDs, EStart => request_ids p v
  | WaitIDs, ERestart => request_ids_from_lca p v
  | WaitBlocks, EIDs ids => request_blocks ids p v
  | Done, _ => handle_failure p v
  | _, _ => (v, (p, Ok []))
  end.
(** One trigger: stateless sets the state before it runs the entry actions, and an error of these does not undo it. *)
Definition fire_one (t : trigger) (p : ploader) (v : V) : result :=
  match behave (pl_state p) t with
  | Permit s => on_entry s t (set_state p s) v
  | Internal f => f p v
  | Ignore => (v, (p, Ok []))
  | Unhandled => (v, (p, Err EUnhandled))
  end.
(** stateless in the mode FiringQueued: triggers fired by actions are queued behind the current one; an error ends the
    outer Fire and leaves the queue as it is. *)
Fixpoint fire_loop (fuel : nat) (p : ploader) (v : V) : V * (ploader * outcome unit) :=
  match pl_triggers p with
  | [] => (v, (p, Ok tt))
  | t :: ts =>
      match fuel with
      | O => (v, (p, Diverge))
      | S fuel' =>
          match fire_one t (set_triggers p ts) v with
          | (v1, (p1, Ok more)) => fire_loop fuel' (set_triggers p1 (pl_triggers p1 ++ more)) v1
          | (v1, (p1, Err e)) => (v1, (p1, Err e))
          | (v1, (p1, Panic)) => (v1, (p1, Panic))
          | (v1, (p1, Diverge)) => (v1, (p1, Diverge))
          end
      end
  end.
(** Fire (peer_loader.go:100-138); the theorems show that the fuel suffices. *)
Definition fire (t : trigger) (p : ploader) (v : V) : V * (ploader * outcome unit) :=
  fire_loop 8 (set_triggers p (pl_triggers p ++ [t])) v.
End Loading.

(** * The loader (loader.go) *)

(** loader.go:27-31 *)
Definition restartThreshold : nat := 10.
(** loader.go:48-77 *)
Definition counter := list (addr * nat).
Definition fc_count (m : counter) (a : addr) : nat := match find (fun x => addr_eqb a (fst x)) m with Some x => snd x | None => 0 end.
Definition fc_set (m : counter) (a : addr) (n : nat) : counter := (a, n) :: filter (fun x => negb (addr_eqb a (fst x))) m.
Definition fc_inc (m : counter) (a : addr) : counter := fc_set m a (S (fc_count m a)).
Definition fc_reset (m : counter) (a : addr) : counter := fc_set m a 0.

(** loader.go:79-95 without channels and contexts. [l_ticker], [l_timer]: the timers are running. *)
Record loader := { l_pl : option ploader; l_prev : option Z; l_fc : counter; l_ticker : bool; l_timer : bool }.
(** loader.go:97-117: NewLoader and Run. *)
Definition new_loader : loader := {| l_pl := None; l_prev := None; l_fc := []; l_ticker := false; l_timer := true |}.
(** The loader as its own callbacks see it while the peer loader is firing; [h_pl]: l.pl != nil. *)
Record held := { h_pl : bool; h_prev : option Z; h_fc : counter; h_ticker : bool }.

Section Loader.
Variable V : Type.
Variable w : world V.

(** loader.go:285-292 *)
Definition is_lagging (prev : option Z) (peer leash : Z) : Z * bool :=
  let diff := (peer - leash)%Z in
  (diff, match prev with None => (leash <? peer)%Z | Some d => (leash <? peer)%Z && negb (d =? diff)%Z end).

(** loader.go:127-150 (and 233-238, 294-297); a nil score is dereferenced by big.Int.Sub. *)
Definition loader_ok (a : addr) (s : lstate) (h : held) (v : V) : (held * V) * outcome bool :=
  match h_pl h, s with
  | true, Idle =>
      let h1 := {| h_pl := true; h_prev := h_prev h; h_fc := fc_reset (h_fc h) a; h_ticker := h_ticker h |} in
      match w (CPeer a) v with
      | (v1, Ok sc) =>
          match w (CScore a) v1 with
          | (v2, Ok leash) =>
              match sc with
              | None => ((h1, v2), Panic)
              | Some peer =>
                  let (diff, lagging) := is_lagging (h_prev h1) peer leash in
                  if lagging
                  then (({| h_pl := true; h_prev := Some diff; h_fc := h_fc h1; h_ticker := true |}, fst (w (CLog (LStill a)) v2)), Ok true)
                  else (({| h_pl := false; h_prev := None; h_fc := h_fc h1; h_ticker := h_ticker h1 |}, fst (w (CLog (LNoMore a)) v2)), Ok false)
              end
          | (v2, Err _) => ((h1, fst (w (CLog (LNoScore a)) v2)), Ok false)
          | (v2, Panic) => ((h1, v2), Panic)
          | (v2, Diverge) => ((h1, v2), Diverge)
          end
      | (v1, Err _) => ((h1, fst (w (CLog (LNoPeer a)) v1)), Ok false)
      | (v1, Panic) => ((h1, v1), Panic)
      | (v1, Diverge) => ((h1, v1), Diverge)
      end
  | _, _ => ((h, v), Ok false)
  end.
(** loader.go:152-158 *)
Definition loader_fail (a : addr) (s : lstate) (h : held) (v : V) : (held * V) * outcome unit :=
  match h_pl h, s with
  | true, Done =>
      (({| h_pl := false; h_prev := h_prev h; h_fc := fc_inc (h_fc h) a; h_ticker := h_ticker h |}, fst (w (CLog (LFailed a)) v)), Ok tt)
  | _, _ => ((h, v), Ok tt)
  end.
(** The world of the peer loader, when the loader is its reporter. *)
Definition inner : world (held * V) := fun c =>
  match c with
  | COk a s => fun hv => loader_ok a s (fst hv) (snd hv)
  | CFail a s => fun hv => loader_fail a s (fst hv) (snd hv)
  | c => fun hv => let (v', r) := w c (snd hv) in ((fst hv, v'), r)
  end.

(** Fire a trigger of the current peer loader. Errors are logged only (loader.go:236, 245, 254, 269, 281). *)
Definition drive (t : trigger) (p : ploader) (l : loader) (v : V) : (loader * V) * outcome unit :=
  let h := {| h_pl := true; h_prev := l_prev l; h_fc := l_fc l; h_ticker := l_ticker l |} in
  match fire inner t p (h, v) with
  | ((h1, v1), (p1, r)) =>
      (({| l_pl := if h_pl h1 then Some p1 else None; l_prev := h_prev h1; l_fc := h_fc h1; l_ticker := h_ticker h1;
           l_timer := l_timer l |}, v1), r)
  end.

(** loader.go:249-256 *)
Definition loader_tick (l : loader) (v : V) : (loader * V) * outcome unit :=
  match l_pl l with
  | None => ((l, v), Ok tt)
  | Some p => let (v1, t) := w CNow v in drive (ETick t) p l v1
  end.
(** loader.go:258-271 *)
Definition handle_ids (a : addr) (ids : list id) (l : loader) (v : V) : (loader * V) * outcome unit :=
  match l_pl l with
  | None => ((l, v), Ok tt)
  | Some p =>
      match ids with
      | [] => ((l, v), Ok tt)
      | _ => if addr_eqb a (pl_peer p) then drive (EIDs ids) p l v else ((l, v), Ok tt)
      end
  end.
(** loader.go:273-283 *)
Definition handle_block (a : addr) (b : option pblock) (l : loader) (v : V) : (loader * V) * outcome unit :=
  match l_pl l with
  | None => ((l, v), Ok tt)
  | Some p => if addr_eqb a (pl_peer p) then drive (EBlock b) p l v else ((l, v), Ok tt)
  end.

(** loader.go:201-217: the connected peers whose announced score exceeds the score of their leash. *)
Fixpoint find_lagging (cs : list (addr * option Z)) (v : V) : V * outcome (list addr) :=
  match cs with
  | [] => (v, Ok [])
  | (a, None) :: cs' => find_lagging cs' v
  | (a, Some s) :: cs' =>
      match w (CScore a) v with
      | (v1, Ok x) =>
          match find_lagging cs' v1 with
          | (v2, Ok r) => (v2, Ok (if (x <? s)%Z then a :: r else r))
          | (v2, r) => (v2, r)
          end
      | (v1, Err _) => find_lagging cs' v1
      | (v1, Panic) => (v1, Panic)
      | (v1, Diverge) => (v1, Diverge)
      end
  end.
Definition with_pl (l : loader) (p : ploader) (fc : counter) : loader :=
  {| l_pl := Some p; l_prev := l_prev l; l_fc := fc; l_ticker := true; l_timer := l_timer l |}.
(** loader.go:225-247: newPeerLoader, restartSync if the threshold is reached, continueSync. *)
Definition begin_sync (a : addr) (l : loader) (v : V) : (loader * V) * outcome unit :=
  if Nat.leb restartThreshold (fc_count (l_fc l) a)
  then
    let v0 := fst (w (CLog (LRestart a)) v) in
    match drive ERestart (new_ploader a) (with_pl l (new_ploader a) (fc_reset (l_fc l) a)) v0 with
    | ((l1, v1), (Ok _ | Err _)) =>
        match l_pl l1 with
        | Some p => drive EStart p {| l_pl := Some p; l_prev := l_prev l1; l_fc := l_fc l1; l_ticker := true; l_timer := l_timer l1 |} v1
        | None => ((l1, v1), Panic)
        end
    | r => r
    end
  else drive EStart (new_ploader a) (with_pl l (new_ploader a) (l_fc l)) v.
(** loader.go:185-231 *)
Definition loader_sync (l : loader) (v : V) : (loader * V) * outcome unit :=
  match l_pl l with
  | Some _ => ((l, v), Ok tt)
  | None =>
      match w CConns v with
      | (v1, Ok []) => ((l, v1), Ok tt)
      | (v1, Ok cs) =>
          match find_lagging cs v1 with
          | (v2, Ok []) => ((l, v2), Ok tt)
          | (v2, Ok lagging) =>
              let (v3, k) := w (CPick (length lagging)) v2 in
              match nth_error lagging k with
              | Some a => begin_sync a l v3
              | None => ((l, v3), Panic)
              end
          | (v2, Err e) => ((l, v2), Err e)
          | (v2, Panic) => ((l, v2), Panic)
          | (v2, Diverge) => ((l, v2), Diverge)
          end
      | (v1, Err _) => ((l, v1), Ok tt)
      | (v1, Panic) => ((l, v1), Panic)
      | (v1, Diverge) => ((l, v1), Diverge)
      end
  end.

(** loader.go:160-183: what arrives at the loop. A timer only fires while it is running. *)
Inductive input := InIDs (a : addr) (ids : list id) | InBlock (a : addr) (b : option pblock) | InTick | InSync.
Definition stop_ticker (l : loader) : loader :=
  {| l_pl := l_pl l; l_prev := l_prev l; l_fc := l_fc l; l_ticker := false; l_timer := l_timer l |}.
Definition reset_ticker (l : loader) : loader :=
  {| l_pl := l_pl l; l_prev := l_prev l; l_fc := l_fc l; l_ticker := true; l_timer := l_timer l |}.
Definition stop_timer (l : loader) : loader :=
  {| l_pl := l_pl l; l_prev := l_prev l; l_fc := l_fc l; l_ticker := l_ticker l; l_timer := false |}.
Definition reset_timer (l : loader) : loader :=
  {| l_pl := l_pl l; l_prev := l_prev l; l_fc := l_fc l; l_ticker := l_ticker l; l_timer := true |}.
Definition loader_step (i : input) (l : loader) (v : V) : (loader * V) * outcome unit :=
  match i with
  | InIDs a ids => handle_ids a ids l v
  | InBlock a b => handle_block a b l v
  | InTick =>
      match loader_tick (stop_ticker l) v with
      | ((l1, v1), (Ok _ | Err _) as r) => ((reset_ticker l1, v1), r)
      | r => r
      end
  | InSync =>
      match loader_sync (stop_timer l) v with
      | ((l1, v1), (Ok _ | Err _) as r) => ((reset_timer l1, v1), r)
      | r => r
      end
  end.
End Loader.

(** * The real world: linkage, registry, clock *)

(** What other goroutines do between two calls of the loader: a call of the distributor on the linkage, a call on the
    registry, the clock moving on. *)
Inductive happening := HOp (o : op) (fault : option nat) | HReg (o : rop) | HTime (t : time).
(** A message to a peer: GetSignatures or GetBlockIds (peer.go:62-77), GetBlock (peer.go:79-81). *)
Inductive message := MsgIDs (ids : list id) | MsgBlock (i : id).
(** [re_env]: the happenings before each call; [re_faults]: the fates of the writes of the loader's calls; [re_rand]: the
    results of rand.IntN (loader.go:224), reduced modulo the bound; [re_ops], [re_rops]: the calls on the linkage and on the
    registry so far (a record for the proofs, never read). *)
Record real := { re_lk : linkage; re_reg : registry; re_now : time; re_env : list (list happening); re_faults : list (option nat);
                 re_rand : nat; re_sent : list (addr * message); re_lines : list line;
                 re_ops : list (op * option nat); re_rops : list rop }.
Definition happens (cfg : config) (g : pblock) (x : real) (e : happening) : real :=
  {| re_lk := match e with HOp o f => fst (exec g (re_lk x) o f) | _ => re_lk x end;
     re_reg := match e with HReg o => rstep cfg (re_reg x) o | _ => re_reg x end;
     re_now := match e with HTime t => t | _ => re_now x end;
     re_env := re_env x; re_faults := re_faults x; re_rand := re_rand x; re_sent := re_sent x; re_lines := re_lines x;
     re_ops := re_ops x ++ (match e with HOp o f => [(o, f)] | _ => [] end);
     re_rops := re_rops x ++ (match e with HReg o => [o] | _ => [] end) |}.
Definition meanwhile (cfg : config) (g : pblock) (x : real) : real :=
  let y := fold_left (happens cfg g) (hd [] (re_env x)) x in
  {| re_lk := re_lk y; re_reg := re_reg y; re_now := re_now y; re_env := tl (re_env x); re_faults := re_faults y;
     re_rand := re_rand y; re_sent := re_sent y; re_lines := re_lines y; re_ops := re_ops y; re_rops := re_rops y |}.
Definition writes (g : pblock) (x : real) (o : op) : real * outcome unit :=
  let (l, r) := exec g (re_lk x) o (hd None (re_faults x)) in
  ({| re_lk := l; re_reg := re_reg x; re_now := re_now x; re_env := re_env x; re_faults := tl (re_faults x); re_rand := re_rand x;
      re_sent := re_sent x; re_lines := re_lines x; re_ops := re_ops x ++ [(o, hd None (re_faults x))]; re_rops := re_rops x |}, r).
(** peer.go:55-60: a message to a peer. *)
Definition sends (x : real) (a : addr) (m : message) : real :=
  {| re_lk := re_lk x; re_reg := re_reg x; re_now := re_now x; re_env := re_env x; re_faults := re_faults x; re_rand := re_rand x;
     re_sent := re_sent x ++ [(a, m)]; re_lines := re_lines x; re_ops := re_ops x; re_rops := re_rops x |}.
Definition says (x : real) (y : line) : real :=
  {| re_lk := re_lk x; re_reg := re_reg x; re_now := re_now x; re_env := re_env x; re_faults := re_faults x; re_rand := re_rand x;
     re_sent := re_sent x; re_lines := re_lines x ++ [y]; re_ops := re_ops x; re_rops := re_rops x |}.
(** [ord], [cord], [srt]: the iteration orders of the maps in LCB and Connections, and sort.Sort(ByName(..)). *)
Definition real_world (cfg : config) (g : pblock) (ord : list group -> list group) (cord : list (addr * conn) -> list (addr * conn))
  (srt : list Peer -> list Peer) : world real := fun c v =>
  let x := meanwhile cfg g v in
  match c with
  | CLeash a => (x, leash (re_lk x) a)
  | CLcb a => (x, lcb ord (re_lk x) a)
  | CLast i n => (x, last_ids (re_lk x) i n)
  | CHas i => (x, lk_has_block (re_lk x) i)
  | CMove i a => writes g x (Move i a)
  | CPut b a => writes g x (Put b a)
  | CAskIDs a ids => (sends x a (MsgIDs ids), tt)
  | CAskBlock a i => (sends x a (MsgBlock i), tt)
  | CNow => (x, re_now x)
  | COk _ _ => (x, Ok false)
  | CFail _ _ => (x, Ok tt)
  | CScore a => (x, leash_score (re_lk x) a)
  | CPeer a => (x, do p <- reg_peer (re_reg x) a; Ok (p_score p))
  | CConns => (x, do ps <- connections cord srt (re_reg x); Ok (map (fun p => (p_addr p, p_score p)) ps))
  | CPick n => (x, Nat.modulo (re_rand x) n)
  | CLog y => (says x y, tt)
  end.
