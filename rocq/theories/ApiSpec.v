(** Specification vocabulary for the HTTP handlers and the parameters (C55-C63). *)
From Coq Require Import Strings.Byte.
From Verif Require Import Base Kv ChainModel ChainSpec PeersModel PeersSpec ApiModel.
Set Implicit Arguments.
Unset Strict Implicit.

Definition comma : byte := x2c.
(** [w] is one of the comma-separated items of [q]. *)
Definition item (q w : bytes) : Prop :=
  exists pre post, q = pre ++ w ++ post /\ ~ In comma w /\
    (pre = [] \/ exists pre', pre = pre' ++ [comma]) /\ (post = [] \/ exists post', post = comma :: post').
(** The items of [q] in order, as their concatenation with commas. *)
Fixpoint with_commas (ws : list bytes) : bytes :=
  match ws with [] => [] | [w] => w | w :: ws' => w ++ comma :: with_commas ws' end.
Definition items_of (q : bytes) (ws : list bytes) : Prop := ws <> [] /\ with_commas ws = q /\ Forall (fun w => ~ In comma w) ws.

(** The query names the address. *)
Definition asks (ev : env) (q : bytes) (a : addr) : Prop :=
  exists w, item q w /\ ev_trim ev w <> [] /\ ev_addr ev (ev_trim ev w) = Some a.
(** Every item of the query is blank or an address. *)
Definition well_formed (ev : env) (q : bytes) : Prop :=
  forall w, item q w -> ev_trim ev w <> [] -> exists a, ev_addr ev (ev_trim ev w) = Some a.
(** The query names no address at all. *)
Definition asks_all (ev : env) (q : bytes) : Prop := forall a, ~ asks ev q a.

(** The assumptions about map iteration and sort.Sort. *)
Definition fair (o : orders) : Prop :=
  map_order (or_groups o) /\ sorts fork_less (or_forks o) /\ map_order (or_gens o) /\ sorts gen_less (or_gensort o) /\
  permutes (or_conns o) /\ permutes (or_peers o).

(** [fs] are the forks of the peers satisfying [P]: one entry for each block one of them stands on, with exactly those on it. *)
Definition forks_of (l : linkage) (P : addr -> Prop) (fs : list Fork) : Prop :=
  NoDup (map f_head fs) /\ (forall i, In i (map f_head fs) <-> exists a, leashed l a i /\ P a) /\
  forall f, In f fs -> NoDup (f_peers f) /\ (forall a, In a (f_peers f) <-> leashed l a (f_head f) /\ P a) /\
    f_peers_count f = length (f_peers f) /\ describes l f.

(** An IPv4 address or an IPv4 address written as an IPv6 one. *)
Definition v4 (a : addr) : Prop := match a with A4 _ => True | A6 b _ => exists t, b = repeat x00 10 ++ [xff; xff] ++ t | AZero => False end.

(** Exactly [n] addresses satisfy [P]. *)
Definition counts (P : addr -> Prop) (n : nat) : Prop := exists xs, NoDup xs /\ (forall a, In a xs <-> P a) /\ length xs = n.
(** Descending order by score, then by number of peers. *)
Definition leash_ge (a b : leash_info) : Prop :=
  (li_score b < li_score a)%Z \/ (li_score a = li_score b /\ li_count b <= li_count a).
(** Properties of the Go library: an address and port that was parsed is parsed to itself after AddrPort.String; trimming
    twice is trimming once. *)
Definition renders (ev : env) : Prop := forall s ap, ev_addrport ev s = Some ap -> ev_addrport ev (ev_render ev ap) = Some ap.
Definition trims (ev : env) : Prop := forall w, ev_trim ev (ev_trim ev w) = ev_trim ev w.
Definition blank (ev : env) (w : bytes) : bool := match ev_trim ev w with [] => true | _ => false end.
(** json encodes the times up to the end of the year 9999 (UTC). *)
Definition dates (ev : env) : Prop := forall t, ev_date ev t = (t <? 253402300800000)%Z.
(** The option is an address and port. *)
Definition bindable (ev : env) (s : bytes) : Prop := s <> [] /\ exists ap, ev_addrport ev s = Some ap.
(** The address of the option, if it is one, is an IPv4 one. *)
Definition only_v4 (ev : env) (s : bytes) : Prop := forall a port, ev_addrport ev s = Some (a, port) -> v4 a.
(** The networks that are supported and their built-in peers. *)
Definition supported (n : network) : Prop := n = MainNet \/ n = TestNet \/ n = StageNet.
(** The entry of the head number [fst h], block [snd h]. *)
Definition head_of (l : linkage) (h : N * id) (e : head_info) : Prop :=
  hi_number e = fst h /\ hi_id e = snd h /\
  exists b, block l (snd h) = Ok b /\ hi_height e = b_height b /\ hi_score e = b_score b /\ hi_ts e = b_ts b.
