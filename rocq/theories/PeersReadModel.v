(** Reads of the peers database that fail: the functions of peers/storage.go, peers/registry.go and peers/version_provider.go that read, as
    programs of ReadModel.v. A call of the registry returns the registry after the call with what PeersModel.v says it returns. *)
From Coq Require Import Strings.Byte.
From Verif Require Import Base Kv ChainModel PeersModel ReadModel.
Set Implicit Arguments.
Unset Strict Implicit.

Definition rprg := prog value.
(** storage.go:68-96 *)
Definition get_peer_r (a : addr) : rprg Peer := snapped (reading k <- pure (pkey a); reading v <- Get k Ret; Ret (Ok (of_value a v))).
(** storage.go:124-156 *)
Definition all_peers_r : rprg (list Peer) :=
  snapped (Iter [] None (fun bs => Ret (mapM (fun b => do a <- pkey_addr (fst b); Ok (of_value a (snd b))) bs))).
(** storage.go:158-167; Has is a read whose value is dropped. *)
Definition has_peer_r (a : addr) : rprg bool :=
  snapped (reading k <- pure (pkey a); Get k (fun o => Ret (match o with
    | Ok _ => Ok true | Err ENotFound => Ok false | Err e => Err e | Panic => Panic | Diverge => Diverge end))).

(** registry.go:63-122 *)
Definition register_peer_r (cfg : config) (r0 : registry) (now : time) (w : bool) (a : addr) (np : conn) (h : handshake)
  : rprg (registry * outcome unit * bool) :=
  let r := {| r_db := r_db r0; r_conns := r_conns r0; r_pending := del_addr a (r_pending r0) |} in
  if negb (is4 a) then Ret (Ok (r, Err EOther, true))
  else if addr_eqb a (g_declared cfg) then Ret (Ok (r, Err EOther, false))
  else attempt (get_peer_r a) (fun o =>
    let known := match o with
                 | Ok p => Ok p
                 | Err ENotFound => match p_state zero_peer with PeerHostile => Err EOther | _ => Ok zero_peer end
                 | Err e => Err e | Panic => Panic | Diverge => Diverge
                 end in
    Ret (Ok (match known with
    | Err e => (r, Err e, true)
    | Panic => (r, Panic, false)
    | Diverge => (r, Diverge, false)
    | Ok p =>
        if (2 <=? g_cmp cfg (hs_version (co_hs np)) (p_version p))%Z
        then (finish r (hostile_peer p (co_hs np)) w, true)
        else match rev (hs_app (co_hs np)) with
        | [] => (r, Panic, false)
        | x :: _ =>
            if negb (N.eqb (Byte.to_N x) (Byte.to_N (g_scheme cfg)))
            then (finish r (hostile_peer p (co_hs np)) w, true)
            else match check_port a h with
            | (Ok port, c) =>
                let r' := {| r_db := r_db r; r_conns := set_conn a np (r_conns r); r_pending := r_pending r |} in
                (finish r' (connected_peer p a port h now np) w, c)
            | (Err e, c) => (r, Err e, c)
            | (Panic, c) => (r, Panic, c)
            | (Diverge, c) => (r, Diverge, c)
            end
        end
    end))).
(** registry.go:124-134 *)
Definition update_peer_score_r (r : registry) (w : bool) (a : addr) (s : Z) : rprg (registry * outcome unit) :=
  attempt (get_peer_r a) (fun o => Ret (Ok (match o with
    | Ok p => finish r (set_score p (Some s)) w
    | Err e => (r, Err e) | Panic => (r, Panic) | Diverge => (r, Diverge)
    end))).
(** registry.go:160-179: the maps are not touched before the record has been read. *)
Definition unregister_peer_r (r : registry) (now : time) (w : bool) (a : addr) : rprg (registry * outcome unit) :=
  attempt (get_peer_r a) (fun o => Ret (Ok (match o with
    | Ok p =>
        let r' := {| r_db := r_db r; r_conns := del_conn a (r_conns r); r_pending := del_addr a (r_pending r) |} in
        finish r' (set_next p (round_second (now + delay)%Z)) w
    | Err e => (r, Err e) | Panic => (r, Panic) | Diverge => (r, Diverge)
    end))).
(** registry.go:181-202 *)
Definition mark_as_hostile_r (r0 : registry) (w : bool) (a : option addr) : rprg (registry * outcome unit) :=
  match a with
  | None => Ret (Ok (r0, Err EOther))
  | Some a =>
      let r := {| r_db := r_db r0; r_conns := r_conns r0; r_pending := del_addr a (r_pending r0) |} in
      attempt (get_peer_r a) (fun o => Ret (Ok (match o with
        | Ok p => finish r (mark_peer p a) w
        | Err ENotFound => finish r (mark_peer zero_peer a) w
        | Err e => (r, Err e) | Panic => (r, Panic) | Diverge => (r, Diverge)
        end)))
  end.
(** registry.go:205-222 *)
Definition connections_r (ord : list (addr * conn) -> list (addr * conn)) (srt : list Peer -> list Peer) (r : registry) : rprg (list Peer) :=
  reading ps <- each (fun x => reading p <- get_peer_r (fst x); Ret (Ok (set_live p (snd x)))) (ord (r_conns r)); Ret (Ok (srt ps)).
(** registry.go:226-267. The database changes between the reads, so the faults are threaded through the loop. *)
Fixpoint append_loop_r (cfg : config) (d : pdb) (l : list (option (addr * N))) (fault : option nat) (count : nat) (fs : list (option nat))
  : pdb * nat * list trouble :=
  match l with
  | [] => (d, count, [])
  | None :: l' => append_loop_r cfg d l' fault count fs
  | Some (a, port) :: l' =>
      if negb (is4 a) then append_loop_r cfg d l' fault count fs
      else if is_loopback a then append_loop_r cfg d l' fault count fs
      else if addr_eqb a (g_declared cfg) then append_loop_r cfg d l' fault count fs
      else let '(o, ts, fs') := faulty d (has_peer_r a) fs in
      match o with
      | Ok true => let '(d', n, ts') := append_loop_r cfg d l' fault count fs' in (d', n, ts ++ ts')
      | Ok false =>
          match put_peer d (fresh_peer a port) (match fault with Some 0 => false | _ => true end) with
          | Ok d' => let '(d'', n, ts') := append_loop_r cfg d' l' (option_map pred fault) (S count) fs' in (d'', n, ts ++ ts')
          | _ => (d, count, ts)
          end
      | _ => (d, count, ts)
      end
  end.
Definition append_addresses_r (cfg : config) (r : registry) (l : list (option (addr * N))) (fault : option nat) (fs : list (option nat))
  : registry * nat * list trouble :=
  let '(d, n, ts) := append_loop_r cfg (r_db r) l fault 0 fs in (with_pdb r d, n, ts).
(** registry.go:276-286 *)
Definition reg_peers_r (srt : list Peer -> list Peer) : rprg (list Peer) := reading ps <- all_peers_r; Ret (Ok (srt ps)).
(** registry.go:288-304 *)
Definition friendly_peers_r (srt : list Peer -> list Peer) : rprg (list Peer) := reading ps <- all_peers_r; Ret (Ok (srt (filter is_friend ps))).
(** registry.go:306-316 *)
Definition addresses_r (srt : list Peer -> list Peer) : rprg (list (bytes * N)) := reading ps <- friendly_peers_r srt; Ret (mapM tcp_addr ps).
(** registry.go:320-355 *)
Definition take_available_r (cfg : config) (r : registry) (clock : addr -> time) : rprg (registry * outcome (list (addr * N))) :=
  attempt all_peers_r (fun o => Ret (Ok (match o with
    | Ok ps =>
        let '(pending, out) := take_loop cfg clock (r_conns r) ps (r_pending r) [] in
        ({| r_db := r_db r; r_conns := r_conns r; r_pending := pending |}, Ok out)
    | Err e => (r, Err e) | Panic => (r, Panic) | Diverge => (r, Diverge)
    end))).
(** version_provider.go:19-56 *)
Definition suggest_version_r (cfg : config) (r : registry) (now : time) (w : bool) (a : addr) : rprg (registry * outcome version) :=
  let save p v := match finish r p w with (r', Ok _) => (r', Ok v) | (r', Err e) => (r', Err e)
                                         | (r', Panic) => (r', Panic) | (r', Diverge) => (r', Diverge) end in
  attempt (get_peer_r a) (fun o => Ret (Ok (match o with
    | Err ENotFound =>
        match best_version (g_versions cfg) with
        | Ok v => save (set_version (fresh_peer a 0) v (round_second (now + delay)%Z)) v
        | Err e => (r, Err e) | Panic => (r, Panic) | Diverge => (r, Diverge)
        end
    | Err e => (r, Err e) | Panic => (r, Panic) | Diverge => (r, Diverge)
    | Ok p =>
        match p_state p with
        | PeerUnknown =>
            match next_version (g_versions cfg) (p_version p) with
            | Ok v => save (set_version p v (round_second (now + delay)%Z)) v
            | Err e => (r, Err e) | Panic => (r, Panic) | Diverge => (r, Diverge)
            end
        | PeerConnected => (r, Ok (p_version p))
        | PeerHostile => (r, Err EOther)
        end
    end))).

(** * Histories: every call with the faults of its reads. *)
Definition after {X} (r : registry) (f : X -> registry) (o : outcome X) : registry := match o with Ok x => f x | _ => r end.
Definition rstep_r (cfg : config) (r : registry) (of : rop * list (option nat)) : registry :=
  let fs := snd of in
  match fst of with
  | RRegister a np h now w => after r (fun x => fst (fst x)) (answer (r_db r) (register_peer_r cfg r now w a np h) fs)
  | RScore a s w => after r fst (answer (r_db r) (update_peer_score_r r w a s) fs)
  | RUnregister a now w => after r fst (answer (r_db r) (unregister_peer_r r now w a) fs)
  | RHostile a w => after r fst (answer (r_db r) (mark_as_hostile_r r w a) fs)
  | RAppend l fault => fst (fst (append_addresses_r cfg r l fault fs))
  | RTake clock => after r fst (answer (r_db r) (take_available_r cfg r clock) fs)
  | RSuggest a now w => after r fst (answer (r_db r) (suggest_version_r cfg r now w a) fs)
  | RRestart => new_registry (r_db r)
  end.
Definition rrun_r (cfg : config) (ops : list (rop * list (option nat))) : registry := fold_left (rstep_r cfg) ops (new_registry []).
