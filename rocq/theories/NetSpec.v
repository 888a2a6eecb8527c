(** Specification vocabulary for the distributor, the connection manager, respawn and shutdown (C51-C54, C67-C72). *)
From Verif Require Import Base Kv ChainModel ChainSpec PeersModel PeersSpec NetModel.
Set Implicit Arguments.
Unset Strict Implicit.

(** What the Go types guarantee of the parts of a message; peers' addresses have no zone. *)
Definition wf_link (from : link) : Prop := match ln_addr from with Some a => wf_addr a | None => True end.
Definition wf_message (m : message) : Prop :=
  match m with
  | MPeers l => forall a port, In (Some (a, port)) l -> go_addr a
  | MBlock (Some b) | MPBBlock (Some b) => wf_pblock b
  | MMicroBlockInv (Some m) => wf_id (mi_total m) /\ wf_id (mi_ref m)
  | _ => True
  end.
Definition wf_arrival (a : arrival) : Prop :=
  match a with
  | AMessage from m => wf_link from /\ wf_message m
  | AInfo (IConnected from _) | AInfo (IError from) => wf_link from
  | _ => True
  end.
(** The block a message carries. *)
Definition carries (m : message) (b : pblock) : Prop := m = MBlock (Some b) \/ m = MPBBlock (Some b).

(** The number written with these digits to base 256. *)
Fixpoint number (s : bytes) : N := match s with [] => 0%N | x :: s' => (Byte.to_N x * 256 ^ N.of_nat (length s') + number s')%N end.

(** A message of this kind never has any effect, whatever the state. *)
Definition inert (k : kind) : Prop :=
  forall cfg g srt x d from m, kind_of m = k -> handle_message cfg g srt x d from m = (d, [], Ok None).

(** [d] is the state of the distributor after a history of calls on the linkage and on the registry. *)
Definition dreach (cfg : config) (g : pblock) (ops : list (op * option nat)) (rops : list rop) (d : dist) : Prop :=
  reachable g ops (d_lk d) /\ rreach cfg rops (d_reg d).

(** The arrival makes the distributor panic: a new block on top of a stored one whose base target exceeds 2^63-1, or a
    connection of a peer that announces an empty application name and a version that is compatible with its record. *)
Definition crashing (cfg : config) (d : dist) (a : arrival) : Prop :=
  match a with
  | AMessage from m => exists ad b, ln_addr from = Some ad /\ carries m b /\ lk_has_block (d_lk d) (pb_id b) = Ok false /\
      lk_has_block (d_lk d) (pb_parent b) = Ok true /\ pb_gen b <> None /\ (max_int64 < pb_bt b)%N
  | AInfo (IConnected from _) => exists ad, ln_addr from = Some ad /\ ip4 ad /\ ad <> g_declared cfg /\ hs_app (co_hs (ln_conn from)) = [] /\
      (g_cmp cfg (hs_version (co_hs (ln_conn from)))
             (match reg_peer (d_reg d) ad with Ok p => p_version p | _ => zero_version end) < 2)%Z
  | _ => False
  end.

(** ** Shutdown *)
(** The distributor waits for the loader, which has gone. *)
Definition jammed (s : sys) : Prop :=
  y_main s = AtDistributor /\ y_respawn s = false /\ y_loader s = LStopped /\ exists p, y_dist s = DSending p.
(** Whatever the state, the arrival is handled and sends nothing to the loader. *)
Definition harmless (cfg : config) (g : pblock) srt ord (xa : fate * arrival) : Prop :=
  forall d, exists d' ss, handle cfg g srt ord (fst xa) d (snd xa) = (d', ss, Ok None).
(** No empty application name, and no base target above 2^63-1. *)
Definition tame (a : arrival) : Prop :=
  match a with
  | AMessage from m => forall b, carries m b -> (pb_bt b <= max_int64)%N
  | AInfo (IConnected from _) => hs_app (co_hs (ln_conn from)) <> []
  | _ => True
  end.
(** What is left to hope for: main has returned, the process has crashed, or it hangs forever. *)
Definition over (s : sys) : Prop := y_main s = Ended \/ y_main s = Crashed \/ jammed s.
(** The listener listens (or there is none), the distributor is not sending, and will not have to. *)
Definition calm (cfg : config) (g : pblock) srt ord (s : sys) : Prop :=
  (y_listener s <> Starting /\ y_listener s <> Refused) /\ (forall p, y_dist s <> DSending p) /\
  Forall (harmless cfg g srt ord) (y_inbox s) /\ y_main s <> Crashed.

(** ** Respawn *)
(** Ten seconds pass. *)
Definition ten (h : happening) : bool := match h with HTenSeconds _ => true | HCall _ => false end.
(** The storage can be read. *)
Definition healthy (h : happening) : Prop := match h with HTenSeconds c => c <> None | HCall o => wf_rop o end.
