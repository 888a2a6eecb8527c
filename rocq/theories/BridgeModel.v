(** Model of the places where an address goes from one part to another as text: seeds, Peers messages, sockets, dialling. *)
From Coq Require Import Strings.Byte.
From Verif Require Import Base Kv ChainModel PeersModel CborModel NetModel ApiModel TextModel NetipModel.
Set Implicit Arguments.
Unset Strict Implicit.
Local Open Scope N_scope.

(** netip.Addr.AsSlice and Zone, as net.TCPAddrFromAddrPort uses them. *)
Definition slice (a : addr) : bytes := match a with AZero => [] | A4 b => b | A6 b _ => b end.
Definition zone_of (a : addr) : bytes := match a with A6 _ z => z | _ => [] end.
(** An address on its way to the registry: net.TCPAddrFromAddrPort (parameters.go:156, distributor.go:226), and
    netip.ParseAddrPort of its text (peers/registry.go:232). *)
Definition appended (ap : addr * N) : option (addr * N) := parse_addrport (tcp_string (slice (fst ap)) (zone_of (fst ap)) (snd ap)).
(** forkdetector.go:64: what AppendAddresses is given at the start. *)
Definition seed_list (p : parameters) : list (option (addr * N)) := map appended (pr_seeds p).
(** gowaves proto.PeerInfo.String: the text of the IP, a colon, the port. *)
Definition info_string (i : bytes * N) : bytes := ip_string (fst i) ++ [colon] ++ decimal (snd i).
(** distributor.go:219-228 and peers/registry.go:232: the addresses of a Peers message; those that do not parse are left out. *)
Definition peers_message (infos : list (bytes * N)) : list (option (addr * N)) :=
  map (fun i => match parse_addrport (info_string i) with Some ap => appended ap | None => None end) infos.
(** distributor.go:116, 128, 165, 205, 256, 270, 285, connection_manager.go:73: the key of a connection, from the socket of the peer. *)
Definition link_of (ip zone : bytes) (port : N) (c : conn) : link :=
  {| ln_addr := option_map fst (parse_addrport (tcp_string ip zone port)); ln_conn := c |}.
(** net.ParseIP: sixteen bytes, no zone; nil if the text is not an address. *)
Definition parse_ip (s : bytes) : bytes :=
  match parse_addr s with Some (A4 b) => repeat x00 10 ++ [xff; xff] ++ b | Some (A6 b []) => b | _ => [] end.
(** respawn.go:79 (proto.NewTCPAddrFromString; net.SplitHostPort gives Addr.String and the port back) and
    connection_manager.go:105: the address for which a version is suggested when the record [ap] is dialled. *)
Definition dial_key (ap : addr * N) : option addr := option_map fst (parse_addrport (tcp_string (parse_ip (print_addr (fst ap))) [] (snd ap))).
