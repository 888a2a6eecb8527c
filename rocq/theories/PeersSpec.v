(** Specification vocabulary for the peers registry (C29-C40). *)
From Coq Require Import Strings.Byte.
From Verif Require Import Base Kv ChainModel ChainSpec PeersModel.
Set Implicit Arguments.
Unset Strict Implicit.

(** An IPv4 address. *)
Definition ip4 (a : addr) : Prop := exists b, a = A4 b /\ length b = 4.

(** The arguments are Go addresses. *)
Definition wf_rop (o : rop) : Prop :=
  match o with
  | RRegister a _ _ _ _ | RScore a _ _ | RUnregister a _ _ | RSuggest a _ _ => go_addr a
  | RHostile (Some a) _ => go_addr a
  | RAppend l _ => forall a port, In (Some (a, port)) l -> go_addr a
  | _ => True
  end.
(** [r] is the registry after the calls [ops], starting with an empty database. *)
Definition rreach (cfg : config) (ops : list rop) (r : registry) : Prop := Forall wf_rop ops /\ r = rrun cfg ops.

Definition known (r : registry) (a : addr) : Prop := exists p, reg_peer r a = Ok p.
Definition connected (r : registry) (a : addr) : Prop := In a (map fst (r_conns r)).
Definition pending (r : registry) (a : addr) : Prop := In a (r_pending r).
Definition hostile (r : registry) (a : addr) : Prop := exists p, reg_peer r a = Ok p /\ p_state p = PeerHostile.

(** The address and port may be dialled. *)
Definition dialable (cfg : config) (r : registry) (clock : addr -> time) (a : addr) (port : N) : Prop :=
  ip4 a /\ a <> g_declared cfg /\ port <> 0%N /\ ~ connected r a /\ ~ pending r a /\
  exists p, reg_peer r a = Ok p /\ p_state p <> PeerHostile /\ p_port p = port /\ (p_next p <= clock a)%Z.

(** The call concerns address [a] (AppendAddresses and TakeAvailableAddresses concern no particular address). *)
Definition about (a : addr) (o : rop) : Prop :=
  match o with
  | RRegister b _ _ _ _ | RScore b _ _ | RUnregister b _ _ | RSuggest b _ _ => b = a
  | RHostile b _ => b = Some a
  | _ => False
  end.
(** The calls after which an address may be dialled again. *)
Definition releases (a : addr) (o : rop) : Prop :=
  match o with
  | RRegister b _ _ _ _ | RUnregister b _ _ => b = a
  | RHostile b _ => b = Some a
  | RRestart => True
  | _ => False
  end.

(** The record of a peer that was only heard of. *)
Definition new_record (a : addr) (port : N) : Peer :=
  {| p_addr := a; p_port := port; p_nonce := 0; p_name := []; p_version := {| ve_major := 0; ve_minor := 0; ve_patch := 0 |};
     p_state := PeerUnknown; p_next := (-62135596800000000000)%Z; p_score := None; p_conn := None |}.
Definition acceptable (cfg : config) (a : addr) : Prop := ip4 a /\ a <> g_declared cfg /\ forall b, a <> A4 (x7f :: b).
(** [l] offers the acceptable address [a], the first time with [port]. *)
Definition offers (cfg : config) (l : list (option (addr * N))) (a : addr) (port : N) : Prop :=
  acceptable cfg a /\ exists pre post, l = pre ++ Some (a, port) :: post /\ forall port', ~ In (Some (a, port')) pre.

(** RegisterPeer accepts: no error, and the connection is not closed. *)
Definition accepts (cfg : config) (r : registry) (a : addr) (np : conn) (h : handshake) (now : time) (w : bool) (r' : registry) : Prop :=
  register_peer cfg r now w a np h = (r', Ok tt, false).
(** The port under which the peer can be dialled. *)
Definition dial_port (a : addr) (h : handshake) : N := match hs_decl h with Decl b port => if addr_eqb b a then port else 0%N | _ => 0%N end.
(** The handshake is incompatible with the stored version [v]: wrong version or wrong network. *)
Definition incompatible (cfg : config) (v : version) (h : handshake) : Prop :=
  (2 <= g_cmp cfg (hs_version h) v)%Z \/ exists app x, hs_app h = app ++ [x] /\ x <> g_scheme cfg.

(** The results of the SuggestVersion calls for [a] along a history. *)
Fixpoint suggestions (cfg : config) (r : registry) (a : addr) (ops : list rop) : list (outcome version) :=
  match ops with
  | [] => []
  | o :: ops' =>
      match o with
      | RSuggest b now w => if addr_eqb b a then [snd (suggest_version cfg r now w b)] else []
      | _ => []
      end ++ suggestions cfg (rstep cfg r o) a ops'
  end.
(** Of the calls concerning [a], only SuggestVersion is made, and its writes succeed. *)
Definition only_suggests (a : addr) (o : rop) : Prop :=
  match o with RSuggest b _ w => b = a -> w = true | _ => ~ about a o end.
(** Greater versions (by major and minor) strictly first. *)
Definition above (v w : version) : Prop :=
  (ve_major w < ve_major v)%N \/ (ve_major w = ve_major v /\ (ve_minor w < ve_minor v)%N).
Definition descending (vs : list version) : Prop := StronglySorted above vs.
(** What sort.Sort promises about sorting with the greater versions first. *)
Definition sorts_versions (srt : list version -> list version) : Prop :=
  forall l, Permutation (srt l) l /\ StronglySorted (fun v w => version_less w v = false) (srt l).
(** A reordering (map iteration order, or a sort by name). *)
Definition permutes A (f : list A -> list A) : Prop := forall l, Permutation (f l) l.

(** Every accepted peer has a record: it was known before, or the record can be written (its name is valid UTF-8 and the
    write succeeds). *)
Fixpoint good_registers (cfg : config) (r : registry) (ops : list rop) : Prop :=
  match ops with
  | [] => True
  | o :: ops' =>
      match o with RRegister a _ h _ w => known r a \/ (utf8_valid (hs_name h) = true /\ w = true) | _ => True end /\
      good_registers cfg (rstep cfg r o) ops'
  end.

(** The calls that can create a record of [a]. *)
Definition stores (a : addr) (o : rop) : Prop :=
  match o with
  | RRegister b _ _ _ _ | RSuggest b _ _ => b = a
  | RHostile b _ => b = Some a
  | RAppend l _ => exists port, In (Some (a, port)) l
  | _ => False
  end.
(** Later calls that leave a disconnected peer alone: no registration, and the clock does not run backwards. *)
Definition leaves (a : addr) (now : time) (o : rop) : Prop :=
  match o with RRegister b _ _ _ _ => b <> a | RSuggest b t _ | RUnregister b t _ => b = a -> (now <= t)%Z | _ => True end.
Definition no_register (a : addr) (o : rop) : Prop := match o with RRegister b _ _ _ _ => b <> a | _ => True end.
Definition has_address (a : addr) (p : Peer) : bool := addr_eqb (p_addr p) a.
