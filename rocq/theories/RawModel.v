(** The peers registry over the bytes of its database: peers/registry.go and peers/version_provider.go on top of the functions of
    CborModel.v (peers/storage.go). Unlike in PeersModel.v, a record may be any sequence of bytes. *)
From Coq Require Import Strings.Byte.
From Verif Require Import Base Kv ChainModel PeersModel CborModel.
Set Implicit Arguments.
Unset Strict Implicit.

(** registry.go:24-33 *)
Record bregistry := { br_db : raw; br_conns : list (addr * conn); br_pending : list addr }.
(** registry.go:35-57 *)
Definition braw_new (d : raw) : bregistry := {| br_db := d; br_conns := []; br_pending := [] |}.
Definition br_with (r : bregistry) (d : raw) : bregistry := {| br_db := d; br_conns := br_conns r; br_pending := br_pending r |}.
(** [return r.storage.putPeer(p)] *)
Definition br_finish (r : bregistry) (p : Peer) (w : bool) : bregistry * outcome unit :=
  match raw_put_peer (br_db r) p w with
  | Ok d => (br_with r d, Ok tt)
  | Err e => (r, Err e) | Panic => (r, Panic) | Diverge => (r, Diverge)
  end.

(** registry.go:63-122 *)
Definition br_register (cfg : config) (r0 : bregistry) (now : time) (w : bool) (a : addr) (np : conn) (h : handshake)
  : bregistry * outcome unit * bool :=
  let r := {| br_db := br_db r0; br_conns := br_conns r0; br_pending := del_addr a (br_pending r0) |} in
  if negb (is4 a) then (r, Err EOther, true)
  else if addr_eqb a (g_declared cfg) then (r, Err EOther, false)
  else
    let known := match raw_peer (br_db r) a with
                 | Ok p => Ok p
                 | Err ENotFound => match p_state zero_peer with PeerHostile => Err EOther | _ => Ok zero_peer end
                 | Err e => Err e | Panic => Panic | Diverge => Diverge
                 end in
    match known with
    | Err e => (r, Err e, true)
    | Panic => (r, Panic, false)
    | Diverge => (r, Diverge, false)
    | Ok p =>
        if (2 <=? g_cmp cfg (hs_version (co_hs np)) (p_version p))%Z
        then (br_finish r (hostile_peer p (co_hs np)) w, true)
        else match rev (hs_app (co_hs np)) with
        | [] => (r, Panic, false)
        | x :: _ =>
            if negb (N.eqb (Byte.to_N x) (Byte.to_N (g_scheme cfg)))
            then (br_finish r (hostile_peer p (co_hs np)) w, true)
            else match check_port a h with
            | (Ok port, c) =>
                let r' := {| br_db := br_db r; br_conns := set_conn a np (br_conns r); br_pending := br_pending r |} in
                (br_finish r' (connected_peer p a port h now np) w, c)
            | (Err e, c) => (r, Err e, c)
            | (Panic, c) => (r, Panic, c)
            | (Diverge, c) => (r, Diverge, c)
            end
        end
    end.
(** registry.go:124-134 *)
Definition br_score (r : bregistry) (w : bool) (a : addr) (s : Z) : bregistry * outcome unit :=
  match raw_peer (br_db r) a with
  | Ok p => br_finish r (set_score p (Some s)) w
  | Err e => (r, Err e) | Panic => (r, Panic) | Diverge => (r, Diverge)
  end.
(** registry.go:160-179 *)
Definition br_unregister (r : bregistry) (now : time) (w : bool) (a : addr) : bregistry * outcome unit :=
  match raw_peer (br_db r) a with
  | Ok p =>
      let r' := {| br_db := br_db r; br_conns := del_conn a (br_conns r); br_pending := del_addr a (br_pending r) |} in
      br_finish r' (set_next p (round_second (now + delay)%Z)) w
  | Err e => (r, Err e) | Panic => (r, Panic) | Diverge => (r, Diverge)
  end.
(** registry.go:181-202 *)
Definition br_hostile (r0 : bregistry) (w : bool) (a : option addr) : bregistry * outcome unit :=
  match a with
  | None => (r0, Err EOther)
  | Some a =>
      let r := {| br_db := br_db r0; br_conns := br_conns r0; br_pending := del_addr a (br_pending r0) |} in
      match raw_peer (br_db r) a with
      | Ok p => br_finish r (mark_peer p a) w
      | Err ENotFound => br_finish r (mark_peer zero_peer a) w
      | Err e => (r, Err e) | Panic => (r, Panic) | Diverge => (r, Diverge)
      end
  end.
(** registry.go:205-222 *)
Definition br_connections (ord : list (addr * conn) -> list (addr * conn)) (srt : list Peer -> list Peer) (r : bregistry)
  : outcome (list Peer) :=
  do ps <- mapM (fun x => do p <- raw_peer (br_db r) (fst x); Ok (set_live p (snd x))) (ord (br_conns r));
  Ok (srt ps).
(** registry.go:226-267 *)
Fixpoint br_append_loop (cfg : config) (d : raw) (l : list (option (addr * N))) (fault : option nat) (count : nat) : raw * nat :=
  match l with
  | [] => (d, count)
  | None :: l' => br_append_loop cfg d l' fault count
  | Some (a, port) :: l' =>
      if negb (is4 a) then br_append_loop cfg d l' fault count
      else if is_loopback a then br_append_loop cfg d l' fault count
      else if addr_eqb a (g_declared cfg) then br_append_loop cfg d l' fault count
      else match raw_has_peer d a with
      | Ok true => br_append_loop cfg d l' fault count
      | Ok false =>
          match raw_put_peer d (fresh_peer a port) (match fault with Some O => false | _ => true end) with
          | Ok d' => br_append_loop cfg d' l' (option_map pred fault) (S count)
          | _ => (d, count)
          end
      | _ => (d, count)
      end
  end.
Definition br_append (cfg : config) (r : bregistry) (l : list (option (addr * N))) (fault : option nat) : bregistry * nat :=
  let '(d, n) := br_append_loop cfg (br_db r) l fault 0 in (br_with r d, n).
(** registry.go:269-274 *)
Definition br_peer (r : bregistry) (a : addr) : outcome Peer := raw_peer (br_db r) a.
(** registry.go:276-286 *)
Definition br_peers (srt : list Peer -> list Peer) (r : bregistry) : outcome (list Peer) := do ps <- raw_peers (br_db r); Ok (srt ps).
(** registry.go:288-304 *)
Definition br_friendly (srt : list Peer -> list Peer) (r : bregistry) : outcome (list Peer) :=
  do ps <- raw_peers (br_db r); Ok (srt (filter is_friend ps)).
(** registry.go:306-316 *)
Definition br_addresses (srt : list Peer -> list Peer) (r : bregistry) : outcome (list (bytes * N)) :=
  do ps <- br_friendly srt r; mapM tcp_addr ps.
(** registry.go:320-355 *)
Definition br_take (cfg : config) (r : bregistry) (clock : addr -> time) : bregistry * outcome (list (addr * N)) :=
  match raw_peers (br_db r) with
  | Ok ps =>
      let '(pending, out) := take_loop cfg clock (br_conns r) ps (br_pending r) [] in
      ({| br_db := br_db r; br_conns := br_conns r; br_pending := pending |}, Ok out)
  | Err e => (r, Err e) | Panic => (r, Panic) | Diverge => (r, Diverge)
  end.
(** version_provider.go:19-56 *)
Definition br_suggest (cfg : config) (r : bregistry) (now : time) (w : bool) (a : addr) : bregistry * outcome version :=
  let save p v := match br_finish r p w with (r', Ok _) => (r', Ok v) | (r', Err e) => (r', Err e)
                                            | (r', Panic) => (r', Panic) | (r', Diverge) => (r', Diverge) end in
  match raw_peer (br_db r) a with
  | Err ENotFound =>
      match best_version (g_versions cfg) with
      | Ok v => save (set_version (fresh_peer a 0) v (round_second (now + delay)%Z)) v
      | Err e => (r, Err e) | Panic => (r, Panic) | Diverge => (r, Diverge)
      end
  | Err e => (r, Err e) | Panic => (r, Panic) | Diverge => (r, Diverge)
  | Ok p =>
      match p_state p with
      | PeerUnknown =>
          match next_version (g_versions cfg) (p_version p) with
          | Ok v => save (set_version p v (round_second (now + delay)%Z)) v
          | Err e => (r, Err e) | Panic => (r, Panic) | Diverge => (r, Diverge)
          end
      | PeerConnected => (r, Ok (p_version p))
      | PeerHostile => (r, Err EOther)
      end
  end.
(** The calls that change the registry, as in PeersModel.v. *)
Definition br_step (cfg : config) (r : bregistry) (o : rop) : bregistry :=
  match o with
  | RRegister a np h now w => fst (fst (br_register cfg r now w a np h))
  | RScore a s w => fst (br_score r w a s)
  | RUnregister a now w => fst (br_unregister r now w a)
  | RHostile a w => fst (br_hostile r w a)
  | RAppend l fault => fst (br_append cfg r l fault)
  | RTake clock => fst (br_take cfg r clock)
  | RSuggest a now w => fst (br_suggest cfg r now w a)
  | RRestart => braw_new (br_db r)
  end.
Definition br_run (cfg : config) (r : bregistry) (ops : list rop) : bregistry := fold_left (br_step cfg) ops r.
