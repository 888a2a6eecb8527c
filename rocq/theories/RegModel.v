(** Model of goroutines calling the registry, peers/registry.go and peers/version_provider.go: the same functions as in
    PeersModel.v, but every access to the maps or to the database is a separate step (LockModel.v). The registry's sync.Mutex
    is LockModel's lock, used by writers only. *)
From Verif Require Import Base Kv ChainModel PeersModel LockModel.
Set Implicit Arguments.

Section Registry.
  Variable cfg : config.
  Notation rcode := (code registry).

  Definition set_pending (r : registry) (l : list addr) : registry := {| r_db := r_db r; r_conns := r_conns r; r_pending := l |}.
  Definition set_conns (r : registry) (l : list (addr * conn)) : registry := {| r_db := r_db r; r_conns := l; r_pending := r_pending r |}.
  (** delete(r.pending, a), delete(r.connections, a), r.connections[a] = c, r.pending[a] = struct{}{} *)
  Definition drop_pending A (a : addr) (k : rcode A) : rcode A := Write (fun r => set_pending r (del_addr a (r_pending r))) k.
  Definition drop_conn A (a : addr) (k : rcode A) : rcode A := Write (fun r => set_conns r (del_conn a (r_conns r))) k.
  Definition put_conn A (a : addr) (c : conn) (k : rcode A) : rcode A := Write (fun r => set_conns r (set_conn a c (r_conns r))) k.
  Definition put_pending A (a : addr) (k : rcode A) : rcode A := Write (fun r => set_pending r (add_addr a (r_pending r))) k.
  (** storage.go:68-96: one snapshot *)
  Definition c_peer (a : addr) : rcode (outcome Peer) := view (fun r => get_peer (r_db r) a).
  (** storage.go:98-122: one write; [w]: it succeeds. *)
  Definition c_save (p : Peer) (w : bool) : rcode (outcome unit) :=
    if negb (is4 (p_addr p)) then Ret (Err EOther)
    else if negb (utf8_valid (p_name p)) then Ret (Err EOther)
    else match pkey (p_addr p) with
         | Ok k => if w then Write (fun r => with_pdb r (kv_put k (to_value p) (r_db r))) (Ret (Ok tt)) else Ret (Err EOther)
         | Err e => Ret (Err e) | Panic => Ret Panic | Diverge => Ret Diverge
         end.
  Definition closing (closed : bool) (c : rcode (outcome unit)) : rcode (outcome unit * bool) := cbind c (fun e => Ret (e, closed)).

  (** registry.go:63-122 *)
  Definition c_register (now : time) (w : bool) (a : addr) (np : conn) (h : handshake) : rcode (outcome unit * bool) :=
    drop_pending a (
    if negb (is4 a) then Ret (Err EOther, true)
    else if addr_eqb a (g_declared cfg) then Ret (Err EOther, false)
    else cbind (c_peer a) (fun known =>
      match (match known with
             | Err ENotFound => match p_state zero_peer with PeerHostile => Err EOther | _ => Ok zero_peer end
             | x => x
             end) with
      | Err e => Ret (Err e, true)
      | Panic => Ret (Panic, false)
      | Diverge => Ret (Diverge, false)
      | Ok p =>
          if (2 <=? g_cmp cfg (hs_version (co_hs np)) (p_version p))%Z then closing true (c_save (hostile_peer p (co_hs np)) w)
          else match rev (hs_app (co_hs np)) with
          | [] => Ret (Panic, false)
          | x :: _ =>
              if negb (N.eqb (Byte.to_N x) (Byte.to_N (g_scheme cfg))) then closing true (c_save (hostile_peer p (co_hs np)) w)
              else match check_port a h with
              | (Ok port, c) => put_conn a np (closing c (c_save (connected_peer p a port h now np) w))
              | (Err e, c) => Ret (Err e, c)
              | (Panic, c) => Ret (Panic, c)
              | (Diverge, c) => Ret (Diverge, c)
              end
          end
      end)).
  (** registry.go:124-134 *)
  Definition c_score (w : bool) (a : addr) (s : Z) : rcode (outcome unit) := try p <- c_peer a; c_save (set_score p (Some s)) w.
  (** registry.go:160-179 *)
  Definition c_unregister (now : time) (w : bool) (a : addr) : rcode (outcome unit) :=
    try p <- c_peer a; drop_pending a (drop_conn a (c_save (set_next p (round_second (now + delay)%Z)) w)).
  (** registry.go:181-202 *)
  Definition c_hostile (w : bool) (a : option addr) : rcode (outcome unit) :=
    match a with
    | None => Ret (Err EOther)
    | Some a => drop_pending a (cbind (c_peer a) (fun known =>
        match known with
        | Ok p => c_save (mark_peer p a) w
        | Err ENotFound => c_save (mark_peer zero_peer a) w
        | Err e => Ret (Err e) | Panic => Ret Panic | Diverge => Ret Diverge
        end))
    end.
  (** registry.go:205-222: the map, then a snapshot per connection. *)
  Definition c_connections (ord : list (addr * conn) -> list (addr * conn)) (srt : list Peer -> list Peer) : rcode (outcome (list Peer)) :=
    cbind (view (fun r => ord (r_conns r))) (fun cs =>
      try ps <- cmap (fun x => try p <- c_peer (fst x); Ret (Ok (set_live p (snd x)))) cs;
      Ret (Ok (srt ps))).
  (** registry.go:226-267 *)
  Fixpoint c_append (l : list (option (addr * N))) (fault : option nat) (count : nat) : rcode nat :=
    match l with
    | [] => Ret count
    | None :: l' => c_append l' fault count
    | Some (a, port) :: l' =>
        if negb (is4 a) then c_append l' fault count
        else if is_loopback a then c_append l' fault count
        else if addr_eqb a (g_declared cfg) then c_append l' fault count
        else cbind (view (fun r => has_peer (r_db r) a)) (fun yes =>
          match yes with
          | Ok true => c_append l' fault count
          | Ok false =>
              cbind (c_save (fresh_peer a port) (match fault with Some 0 => false | _ => true end)) (fun e =>
                match e with Ok _ => c_append l' (option_map pred fault) (S count) | _ => Ret count end)
          | _ => Ret count
          end)
    end.
  (** registry.go:320-355: a snapshot of all records, then both maps for every record. *)
  Fixpoint c_take_loop (clock : addr -> time) (ps : list Peer) (out : list (addr * N)) : rcode (list (addr * N)) :=
    match ps with
    | [] => Ret out
    | p :: ps' =>
        cbind (view (fun r => available cfg clock (r_conns r) (r_pending r) p)) (fun yes : bool =>
          if yes then put_pending (p_addr p) (c_take_loop clock ps' (out ++ [(p_addr p, p_port p)])) else c_take_loop clock ps' out)
    end.
  Definition c_take (clock : addr -> time) : rcode (outcome (list (addr * N))) :=
    try ps <- view (fun r => all_peers (r_db r)); cbind (c_take_loop clock ps []) (fun out => Ret (Ok out)).
  (** version_provider.go:19-56 *)
  Definition c_suggest (now : time) (w : bool) (a : addr) : rcode (outcome version) :=
    let save p v := try _ <- c_save p w; Ret (Ok v) in
    cbind (c_peer a) (fun known =>
      match known with
      | Err ENotFound =>
          match best_version (g_versions cfg) with
          | Ok v => save (set_version (fresh_peer a 0) v (round_second (now + delay)%Z)) v
          | Err e => Ret (Err e) | Panic => Ret Panic | Diverge => Ret Diverge
          end
      | Err e => Ret (Err e) | Panic => Ret Panic | Diverge => Ret Diverge
      | Ok p =>
          match p_state p with
          | PeerUnknown =>
              match next_version (g_versions cfg) (p_version p) with
              | Ok v => save (set_version p v (round_second (now + delay)%Z)) v
              | Err e => Ret (Err e) | Panic => Ret Panic | Diverge => Ret Diverge
              end
          | PeerConnected => Ret (Ok (p_version p))
          | PeerHostile => Ret (Err EOther)
          end
      end).

  (** The exported methods with the clock readings, write failures and orders they meet. Addresses (registry.go:306-316) only
      calls FriendlyPeers. Broadcast: the result is the list of connections the message is given to. *)
  Inductive rcall :=
  | GRegister (a : addr) (np : conn) (h : handshake) (now : time) (w : bool)
  | GScore (a : addr) (s : Z) (w : bool)
  | GUnregister (a : addr) (now : time) (w : bool)
  | GHostile (a : option addr) (w : bool)
  | GAppend (l : list (option (addr * N))) (fault : option nat)
  | GTake (clock : addr -> time)
  | GSuggest (a : addr) (now : time) (w : bool)
  | GConnections (ord : list (addr * conn) -> list (addr * conn)) (srt : list Peer -> list Peer)
  | GPeer (a : addr)
  | GPeers (srt : list Peer -> list Peer)
  | GFriendly (srt : list Peer -> list Peer)
  | GBroadcast (ord : list (addr * conn) -> list (addr * conn)).
  Inductive ranswer :=
  | AUnit (r : outcome unit) | ARegistered (r : outcome unit * bool) | ACount (n : nat) | AAddrs (r : outcome (list (addr * N)))
  | AVersion (r : outcome version) | APeers (r : outcome (list Peer)) | APeer (r : outcome Peer) | ASent (l : list conn).
  Definition gives A (f : A -> ranswer) (c : rcode A) : rcode ranswer := cbind c (fun r => Ret (f r)).
  Definition rbody (c : rcall) : rcode ranswer :=
    match c with
    | GRegister a np h now w => gives ARegistered (c_register now w a np h)
    | GScore a s w => gives AUnit (c_score w a s)
    | GUnregister a now w => gives AUnit (c_unregister now w a)
    | GHostile a w => gives AUnit (c_hostile w a)
    | GAppend l fault => gives ACount (c_append l fault 0)
    | GTake clock => gives AAddrs (c_take clock)
    | GSuggest a now w => gives AVersion (c_suggest now w a)
    | GConnections ord srt => gives APeers (c_connections ord srt)
    | GPeer a => gives APeer (c_peer a)
    | GPeers srt => gives APeers (view (fun r => reg_peers srt r))
    | GFriendly srt => gives APeers (view (fun r => friendly_peers srt r))
    | GBroadcast ord => gives ASent (view (fun r => broadcast ord r))
    end.
  (** registry.go, version_provider.go: r.mu.Lock(); defer r.mu.Unlock() in every method *)
  Definition rmethod (c : rcall) : rcode ranswer := locked (rbody c).
End Registry.
