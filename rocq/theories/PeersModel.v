(** Model of the peers package: peers/peer.go, peers/storage.go, peers/registry.go, peers/version_provider.go, peers/state.go.
    Logging is not modelled. The registry's mutex is held from the first to the last statement of every method
    (registry.go:64-65, 125-126, 161-162, ...; version_provider.go:20-21), so a method is one atomic step. *)
From Coq Require Import Strings.Byte.
From Verif Require Import Base Kv ChainModel.
Set Implicit Arguments.
Unset Strict Implicit.

(** * Data *)

(** time.Time as nanoseconds since 1970-01-01 UTC (wall clock; the stored times have no monotonic reading). *)
Definition time := Z.
Definition second : Z := 1000000000.
(** The zero time.Time, January 1 of year 1. *)
Definition zero_time : time := (-62135596800 * second)%Z.
(** registry.go:20-22 *)
Definition delay : Z := (600 * second)%Z.
(** time.Time.Round(time.Second): to the nearest multiple, half way up. *)
Definition round_second (t : time) : time := ((t + second / 2) / second * second)%Z.

(** proto.Version: major, minor, patch. *)
Record version := { ve_major : N; ve_minor : N; ve_patch : N }.
Definition zero_version : version := {| ve_major := 0; ve_minor := 0; ve_patch := 0 |}.
(** state.go:4-10 *)
Inductive pstate := PeerUnknown | PeerConnected | PeerHostile.

(** proto.Handshake: application name, version, node name, nonce, and the declared address: none (Empty), one that
    netip.ParseAddrPort refuses, or a parsed one (registry.go:138-142). *)
Inductive decl := DeclEmpty | DeclBad | Decl (a : addr) (port : N).
Record handshake := { hs_app : bytes; hs_version : version; hs_name : bytes; hs_nonce : N; hs_decl : decl }.
(** A live connection, gowaves peer.Peer: an identity and the handshake it reports. *)
Record conn := { co_id : N; co_hs : handshake }.

(** peer.go:23-32; a nil Score is [None]. *)
Record Peer := { p_addr : addr; p_port : N; p_nonce : N; p_name : bytes; p_version : version; p_state : pstate;
                 p_next : time; p_score : option Z; p_conn : option conn }.
(** The zero value Peer{}. *)
Definition zero_peer : Peer :=
  {| p_addr := AZero; p_port := 0; p_nonce := 0; p_name := []; p_version := zero_version; p_state := PeerUnknown;
     p_next := zero_time; p_score := None; p_conn := None |}.

(** netip.Addr.Is4 *)
Definition is4 (a : addr) : bool := match a with A4 _ => true | _ => false end.
(** netip.Addr.IsLoopback: 127.0.0.0/8 and ::1 (for IPv4-mapped addresses the Go versions differ; the callers refuse those
    anyway, in the same way as loopback addresses). *)
Definition is_loopback (a : addr) : bool :=
  match a with
  | A4 (x :: _) => N.eqb (Byte.to_N x) 127
  | A6 b z => beqb b (repeat x00 15 ++ [x01])
  | _ => false
  end.

(** unicode/utf8.ValidString (storage.go:102): the byte sequences of RFC 3629. [in_range lo hi b]: lo <= b <= hi. *)
Definition in_range (lo hi : N) (b : byte) : bool := (lo <=? Byte.to_N b)%N && (Byte.to_N b <=? hi)%N.
Fixpoint utf8_valid (s : bytes) : bool :=
  match s with
  | [] => true
  | a :: s1 =>
      if in_range 0 127 a then utf8_valid s1
      else match s1 with
      | [] => false
      | b :: s2 =>
          if in_range 194 223 a then in_range 128 191 b && utf8_valid s2
          else match s2 with
          | [] => false
          | c :: s3 =>
              if in_range 224 224 a then in_range 160 191 b && in_range 128 191 c && utf8_valid s3
              else if in_range 225 236 a || in_range 238 239 a then in_range 128 191 b && in_range 128 191 c && utf8_valid s3
              else if in_range 237 237 a then in_range 128 159 b && in_range 128 191 c && utf8_valid s3
              else match s3 with
              | [] => false
              | d :: s4 =>
                  if in_range 240 240 a then in_range 144 191 b && in_range 128 191 c && in_range 128 191 d && utf8_valid s4
                  else if in_range 241 243 a then in_range 128 191 b && in_range 128 191 c && in_range 128 191 d && utf8_valid s4
                  else if in_range 244 244 a then in_range 128 143 b && in_range 128 191 c && in_range 128 191 d && utf8_valid s4
                  else false
              end
          end
      end
  end.

(** * storage.go *)

(** storage.go:42-50. The record as CBOR keeps it: a time is kept as whole seconds (fxamacker/cbor TimeUnix; the zero time
    is kept as null), a version as its decimal string. The bytes are in CborModel.v; C91 shows
    that reading them gives the same results. *)
Record value := { v_port : N; v_nonce : N; v_name : bytes; v_version : version; v_state : pstate; v_next : Z; v_score : option Z }.
Definition pdb := kv value.

(** storage.go:26-31: the first four bytes of MarshalBinary; the slice expression panics for the zero address. *)
Definition pkey (a : addr) : outcome bytes := match a with AZero => Panic | A4 b => Ok b | A6 b z => Ok (firstn 4 (b ++ z)) end.
(** storage.go:33-40 *)
Definition pkey_addr (k : bytes) : outcome addr := if Nat.eqb (length k) 4 then Ok (A4 k) else Panic.

(** storage.go:106-115 *)
Definition to_value (p : Peer) : value :=
  {| v_port := p_port p; v_nonce := p_nonce p; v_name := p_name p; v_version := p_version p; v_state := p_state p;
     v_next := (p_next p / second)%Z; v_score := p_score p |}.
(** storage.go:87-95, 141-149 *)
Definition of_value (a : addr) (v : value) : Peer :=
  {| p_addr := a; p_port := v_port v; p_nonce := v_nonce v; p_name := v_name v; p_version := v_version v; p_state := v_state v;
     p_next := (v_next v * second)%Z; p_score := v_score v; p_conn := None |}.

(** storage.go:68-96 *)
Definition get_peer (d : pdb) (a : addr) : outcome Peer :=
  do k <- pkey a;
  match kv_get k d with None => Err ENotFound | Some v => Ok (of_value a v) end.
(** storage.go:98-122; [w]: the write succeeds. *)
Definition put_peer (d : pdb) (p : Peer) (w : bool) : outcome pdb :=
  if negb (is4 (p_addr p)) then Err EOther
  else if negb (utf8_valid (p_name p)) then Err EOther
  else do k <- pkey (p_addr p);
       if w then Ok (kv_put k (to_value p) d) else Err EOther.
(** storage.go:124-156: all records in key order. *)
Definition all_peers (d : pdb) : outcome (list Peer) :=
  mapM (fun b => do a <- pkey_addr (fst b); Ok (of_value a (snd b))) d.
(** storage.go:158-167 *)
Definition has_peer (d : pdb) (a : addr) : outcome bool :=
  do k <- pkey a; Ok (match kv_get k d with Some _ => true | None => false end).

(** * registry.go *)

(** registry.go:24-33, the immutable part: scheme, versions (already passed through newVersions), declared address.
    [g_cmp] is proto.Version.CmpMinor, an external function; [g_upper] is strings.ToUpper. *)
Record config := { g_scheme : byte; g_versions : list version; g_declared : addr;
                   g_cmp : version -> version -> Z; g_upper : bytes -> bytes }.
(** The mutable part. The maps are lists without repeated keys. *)
Record registry := { r_db : pdb; r_conns : list (addr * conn); r_pending : list addr }.
(** registry.go:35-57: the maps start empty. *)
Definition new_registry (d : pdb) : registry := {| r_db := d; r_conns := []; r_pending := [] |}.

(** delete(m, k) and m[k] = v *)
Definition del_addr (a : addr) (l : list addr) : list addr := filter (fun x => negb (addr_eqb a x)) l.
Definition has_addr (a : addr) (l : list addr) : bool := existsb (addr_eqb a) l.
Definition add_addr (a : addr) (l : list addr) : list addr := if has_addr a l then l else l ++ [a].
Definition del_conn (a : addr) (l : list (addr * conn)) : list (addr * conn) := filter (fun x => negb (addr_eqb a (fst x))) l.
Definition set_conn (a : addr) (c : conn) (l : list (addr * conn)) : list (addr * conn) := del_conn a l ++ [(a, c)].
Definition has_conn (a : addr) (l : list (addr * conn)) : bool := existsb (fun x => addr_eqb a (fst x)) l.

Definition with_pdb (r : registry) (d : pdb) : registry := {| r_db := d; r_conns := r_conns r; r_pending := r_pending r |}.
(** The result of a call that ends with [return r.storage.putPeer(p)]. *)
Definition finish (r : registry) (p : Peer) (w : bool) : registry * outcome unit :=
  match put_peer (r_db r) p w with
  | Ok d => (with_pdb r d, Ok tt)
  | Err e => (r, Err e) | Panic => (r, Panic) | Diverge => (r, Diverge)
  end.

(** registry.go:136-158; the flag tells whether np.Close() was called. *)
Definition check_port (a : addr) (h : handshake) : outcome N * bool :=
  match hs_decl h with
  | DeclEmpty => (Ok 0%N, false)
  | DeclBad => (Err EOther, false)
  | Decl ha port =>
      if is_loopback ha then (Err EOther, true)
      else if negb (is4 ha) then (Err EOther, true)
      else if addr_eqb ha a then (Ok port, false) else (Ok 0%N, false)
  end.

(** registry.go:95-99, 102-106: the record of an incompatible peer; the name is Sprintf("%s(%s)"). *)
Definition hostile_peer (p : Peer) (h : handshake) : Peer :=
  {| p_addr := p_addr p; p_port := p_port p; p_nonce := p_nonce p; p_name := hs_name h ++ [x28] ++ hs_app h ++ [x29];
     p_version := hs_version h; p_state := PeerHostile; p_next := p_next p; p_score := p_score p; p_conn := p_conn p |}.
(** registry.go:112-118 *)
Definition connected_peer (p : Peer) (a : addr) (port : N) (h : handshake) (now : time) (c : conn) : Peer :=
  {| p_addr := a; p_port := port; p_nonce := hs_nonce h; p_name := hs_name h; p_version := hs_version h;
     p_state := PeerConnected; p_next := round_second now; p_score := p_score p; p_conn := Some c |}.

(** registry.go:63-122. The result: the registry, the returned error, and whether np.Close() was called. *)
Definition register_peer (cfg : config) (r0 : registry) (now : time) (w : bool) (a : addr) (np : conn) (h : handshake)
  : registry * outcome unit * bool :=
  let r := {| r_db := r_db r0; r_conns := r_conns r0; r_pending := del_addr a (r_pending r0) |} in
  if negb (is4 a) then (r, Err EOther, true)
  else if addr_eqb a (g_declared cfg) then (r, Err EOther, false)
  else
    let known := match get_peer (r_db r) a with
                 | Ok p => Ok p
                 | Err ENotFound =>
                     (* lines 85-89: storage.peer returned Peer{}, whose state is not PeerHostile *)
                     match p_state zero_peer with PeerHostile => Err EOther | _ => Ok zero_peer end
                 | Err e => Err e | Panic => Panic | Diverge => Diverge
                 end in
    match known with
    | Err e => (r, Err e, true)
    | Panic => (r, Panic, false)
    | Diverge => (r, Diverge, false)
    | Ok p =>
        if (2 <=? g_cmp cfg (hs_version (co_hs np)) (p_version p))%Z
        then (finish r (hostile_peer p (co_hs np)) w, true)
        else match rev (hs_app (co_hs np)) with
        | [] => (r, Panic, false)            (* AppName[len(AppName)-1] *)
        | x :: _ =>
            if negb (N.eqb (Byte.to_N x) (Byte.to_N (g_scheme cfg)))
            then (finish r (hostile_peer p (co_hs np)) w, true)
            else match check_port a h with
            | (Ok port, c) =>
                let r' := {| r_db := r_db r; r_conns := set_conn a np (r_conns r); r_pending := r_pending r |} in
                (finish r' (connected_peer p a port h now np) w, c)
            | (Err e, c) => (r, Err e, c)
            | (Panic, c) => (r, Panic, c)
            | (Diverge, c) => (r, Diverge, c)
            end
        end
    end.

(** registry.go:124-134 *)
Definition set_score (p : Peer) (s : option Z) : Peer :=
  {| p_addr := p_addr p; p_port := p_port p; p_nonce := p_nonce p; p_name := p_name p; p_version := p_version p;
     p_state := p_state p; p_next := p_next p; p_score := s; p_conn := p_conn p |}.
Definition update_peer_score (r : registry) (w : bool) (a : addr) (s : Z) : registry * outcome unit :=
  match get_peer (r_db r) a with
  | Ok p => finish r (set_score p (Some s)) w
  | Err e => (r, Err e) | Panic => (r, Panic) | Diverge => (r, Diverge)
  end.

(** registry.go:160-179 *)
Definition set_next (p : Peer) (t : time) : Peer :=
  {| p_addr := p_addr p; p_port := p_port p; p_nonce := p_nonce p; p_name := p_name p; p_version := p_version p;
     p_state := p_state p; p_next := t; p_score := p_score p; p_conn := None |}.
Definition unregister_peer (r : registry) (now : time) (w : bool) (a : addr) : registry * outcome unit :=
  match get_peer (r_db r) a with
  | Ok p =>
      let r' := {| r_db := r_db r; r_conns := del_conn a (r_conns r); r_pending := del_addr a (r_pending r) |} in
      finish r' (set_next p (round_second (now + delay)%Z)) w
  | Err e => (r, Err e) | Panic => (r, Panic) | Diverge => (r, Diverge)
  end.

(** registry.go:181-202; [a] is the result of netip.ParseAddr(addr.String()), which fails for host:port strings. *)
Definition mark_peer (p : Peer) (a : addr) : Peer :=
  {| p_addr := a; p_port := 0; p_nonce := p_nonce p; p_name := p_name p; p_version := p_version p;
     p_state := PeerHostile; p_next := p_next p; p_score := p_score p; p_conn := p_conn p |}.
Definition mark_as_hostile (r0 : registry) (w : bool) (a : option addr) : registry * outcome unit :=
  match a with
  | None => (r0, Err EOther)
  | Some a =>
      let r := {| r_db := r_db r0; r_conns := r_conns r0; r_pending := del_addr a (r_pending r0) |} in
      match get_peer (r_db r) a with
      | Ok p => finish r (mark_peer p a) w
      | Err ENotFound => finish r (mark_peer zero_peer a) w
      | Err e => (r, Err e) | Panic => (r, Panic) | Diverge => (r, Diverge)
      end
  end.

(** by_name.go:15-19 *)
Definition name_less (cfg : config) (p q : Peer) : bool := bltb (g_upper cfg (p_name p)) (g_upper cfg (p_name q)).

(** registry.go:205-222; [ord]: map iteration order, [srt]: result of sort.Sort(ByName(..)). *)
Definition set_live (p : Peer) (c : conn) : Peer :=
  {| p_addr := p_addr p; p_port := p_port p; p_nonce := p_nonce p; p_name := p_name p; p_version := p_version p;
     p_state := p_state p; p_next := p_next p; p_score := p_score p; p_conn := Some c |}.
Definition connections (ord : list (addr * conn) -> list (addr * conn)) (srt : list Peer -> list Peer) (r : registry)
  : outcome (list Peer) :=
  do ps <- mapM (fun x => do p <- get_peer (r_db r) (fst x); Ok (set_live p (snd x))) (ord (r_conns r));
  Ok (srt ps).

(** registry.go:226-267; an address is the result of netip.ParseAddrPort(addresses[i].String()); [fault]: the number of
    writes that succeed before one fails. *)
Definition fresh_peer (a : addr) (port : N) : Peer :=
  {| p_addr := a; p_port := port; p_nonce := 0; p_name := []; p_version := zero_version; p_state := PeerUnknown;
     p_next := zero_time; p_score := None; p_conn := None |}.
Fixpoint append_loop (cfg : config) (d : pdb) (l : list (option (addr * N))) (fault : option nat) (count : nat) : pdb * nat :=
  match l with
  | [] => (d, count)
  | None :: l' => append_loop cfg d l' fault count
  | Some (a, port) :: l' =>
      if negb (is4 a) then append_loop cfg d l' fault count
      else if is_loopback a then append_loop cfg d l' fault count
      else if addr_eqb a (g_declared cfg) then append_loop cfg d l' fault count
      else match has_peer d a with
      | Ok true => append_loop cfg d l' fault count
      | Ok false =>
          match put_peer d (fresh_peer a port) (match fault with Some 0 => false | _ => true end) with
          | Ok d' => append_loop cfg d' l' (option_map pred fault) (S count)
          | _ => (d, count)
          end
      | _ => (d, count)
      end
  end.
Definition append_addresses (cfg : config) (r : registry) (l : list (option (addr * N))) (fault : option nat) : registry * nat :=
  let '(d, n) := append_loop cfg (r_db r) l fault 0 in (with_pdb r d, n).

(** registry.go:269-274 *)
Definition reg_peer (r : registry) (a : addr) : outcome Peer := get_peer (r_db r) a.
(** registry.go:276-286 *)
Definition reg_peers (srt : list Peer -> list Peer) (r : registry) : outcome (list Peer) :=
  do ps <- all_peers (r_db r); Ok (srt ps).
(** registry.go:288-304 *)
Definition is_friend (p : Peer) : bool := match p_state p with PeerConnected => true | _ => false end.
Definition friendly_peers (srt : list Peer -> list Peer) (r : registry) : outcome (list Peer) :=
  do ps <- all_peers (r_db r); Ok (srt (filter is_friend ps)).
(** registry.go:306-316 and peer.go:47-53: As4 panics for other than IPv4 addresses; the result is (IP, port). *)
Definition tcp_addr (p : Peer) : outcome (bytes * N) := match p_addr p with A4 b => Ok (b, p_port p) | _ => Panic end.
Definition addresses (srt : list Peer -> list Peer) (r : registry) : outcome (list (bytes * N)) :=
  do ps <- friendly_peers srt r; mapM tcp_addr ps.

(** registry.go:320-355; [clock a]: the reading of time.Now() when the record of [a] is looked at. *)
Definition available (cfg : config) (clock : addr -> time) (conns : list (addr * conn)) (pending : list addr) (p : Peer) : bool :=
  negb (match p_state p with PeerHostile => true | _ => false end) &&
  negb (N.eqb (p_port p) 0) &&
  negb (addr_eqb (p_addr p) (g_declared cfg)) &&
  negb (clock (p_addr p) <? p_next p)%Z &&
  negb (has_conn (p_addr p) conns) &&
  negb (has_addr (p_addr p) pending).
Fixpoint take_loop (cfg : config) (clock : addr -> time) (conns : list (addr * conn)) (ps : list Peer) (pending : list addr)
  (out : list (addr * N)) : list addr * list (addr * N) :=
  match ps with
  | [] => (pending, out)
  | p :: ps' =>
      if available cfg clock conns pending p
      then take_loop cfg clock conns ps' (add_addr (p_addr p) pending) (out ++ [(p_addr p, p_port p)])
      else take_loop cfg clock conns ps' pending out
  end.
Definition take_available (cfg : config) (r : registry) (clock : addr -> time) : registry * outcome (list (addr * N)) :=
  match all_peers (r_db r) with
  | Ok ps =>
      let '(pending, out) := take_loop cfg clock (r_conns r) ps (r_pending r) [] in
      ({| r_db := r_db r; r_conns := r_conns r; r_pending := pending |}, Ok out)
  | Err e => (r, Err e) | Panic => (r, Panic) | Diverge => (r, Diverge)
  end.

(** registry.go:357-363: the connections a message is sent to. *)
Definition broadcast (ord : list (addr * conn) -> list (addr * conn)) (r : registry) : list conn := map snd (ord (r_conns r)).

(** ** Versions *)
(** registry.go:367-374; [srt]: the result of sort.Sort(sort.Reverse(ByVersion(vs))). *)
Definition drop_patch (v : version) : version := {| ve_major := ve_major v; ve_minor := ve_minor v; ve_patch := 0 |}.
Definition new_versions (srt : list version -> list version) (vs : list version) : list version := map drop_patch (srt vs).
(** proto.Version comparison, greater first (sort.Reverse of ByVersion.Less). *)
Definition version_less (v w : version) : bool :=
  (ve_major w <? ve_major v)%N ||
  ((ve_major w =? ve_major v)%N && ((ve_minor w <? ve_minor v)%N ||
     ((ve_minor w =? ve_minor v)%N && (ve_patch w <? ve_patch v)%N))).
(** registry.go:376-378 *)
Definition best_version (vs : list version) : outcome version := match vs with v :: _ => Ok v | [] => Panic end.
(** registry.go:380-392 *)
Definition same_minor (v w : version) : bool := (ve_major v =? ve_major w)%N && (ve_minor v =? ve_minor w)%N.
Fixpoint index_of (v : version) (vs : list version) : nat :=
  match vs with [] => 0 | x :: vs' => if same_minor v x then 0 else S (index_of v vs') end.
Definition next_version (vs : list version) (v : version) : outcome version :=
  let i := index_of v vs in
  match nth_error vs (if (Z.of_nat (length vs) - 1 <=? Z.of_nat i)%Z then 0 else S i) with Some x => Ok x | None => Panic end.

(** version_provider.go:19-56 *)
Definition set_version (p : Peer) (v : version) (t : time) : Peer :=
  {| p_addr := p_addr p; p_port := p_port p; p_nonce := p_nonce p; p_name := p_name p; p_version := v;
     p_state := p_state p; p_next := t; p_score := p_score p; p_conn := p_conn p |}.
Definition suggest_version (cfg : config) (r : registry) (now : time) (w : bool) (a : addr) : registry * outcome version :=
  let save p v := match finish r p w with (r', Ok _) => (r', Ok v) | (r', Err e) => (r', Err e)
                                         | (r', Panic) => (r', Panic) | (r', Diverge) => (r', Diverge) end in
  match get_peer (r_db r) a with
  | Err ENotFound =>
      match best_version (g_versions cfg) with
      | Ok v => save (set_version (fresh_peer a 0) v (round_second (now + delay)%Z)) v
      | Err e => (r, Err e) | Panic => (r, Panic) | Diverge => (r, Diverge)
      end
  | Err e => (r, Err e) | Panic => (r, Panic) | Diverge => (r, Diverge)
  | Ok p =>
      match p_state p with
      | PeerUnknown =>
          match next_version (g_versions cfg) (p_version p) with
          | Ok v => save (set_version p v (round_second (now + delay)%Z)) v
          | Err e => (r, Err e) | Panic => (r, Panic) | Diverge => (r, Diverge)
          end
      | PeerConnected => (r, Ok (p_version p))
      | PeerHostile => (r, Err EOther)
      end
  end.

(** * Histories *)

(** The calls that change the registry, with the clock reading and the fate of the write. [RRestart]: the process ends and
    NewRegistry opens the same database. *)
Inductive rop :=
| RRegister (a : addr) (np : conn) (h : handshake) (now : time) (w : bool)
| RScore (a : addr) (s : Z) (w : bool)
| RUnregister (a : addr) (now : time) (w : bool)
| RHostile (a : option addr) (w : bool)
| RAppend (l : list (option (addr * N))) (fault : option nat)
| RTake (clock : addr -> time)
| RSuggest (a : addr) (now : time) (w : bool)
| RRestart.
Definition rstep (cfg : config) (r : registry) (o : rop) : registry :=
  match o with
  | RRegister a np h now w => fst (fst (register_peer cfg r now w a np h))
  | RScore a s w => fst (update_peer_score r w a s)
  | RUnregister a now w => fst (unregister_peer r now w a)
  | RHostile a w => fst (mark_as_hostile r w a)
  | RAppend l fault => fst (append_addresses cfg r l fault)
  | RTake clock => fst (take_available cfg r clock)
  | RSuggest a now w => fst (suggest_version cfg r now w a)
  | RRestart => new_registry (r_db r)
  end.
Definition rrun (cfg : config) (ops : list rop) : registry := fold_left (rstep cfg) ops (new_registry []).
