(** Specification vocabulary for the running process (C77, C78). *)
From Verif Require Import Base Kv ChainModel ChainSpec PeersModel PeersSpec LoadModel LoadSpec NetModel NetSpec WholeModel.
Set Implicit Arguments.
Unset Strict Implicit.

(** What Go's types and netip guarantee: [wf_arrival], and the lengths of the IDs of a message. *)
Definition wf_ids (a : arrival) : Prop :=
  match a with AMessage _ (MSignatures ids) | AMessage _ (MBlockIds ids) => Forall wf_id ids | _ => True end.
Definition wf_move (m : move) : Prop :=
  match m with
  | VArrive _ a => wf_arrival a /\ wf_ids a
  | VAccept _ (Some a) => wf_addr a
  | _ => True
  end.
(** The steps of the other goroutines in a turn. *)
Definition moves_in (t : turn) : list move := match t with TMove m => [m] | TSync e | TTick e | TTake e => concat e end.
Definition wf_turn (t : turn) : Prop := Forall wf_move (moves_in t).
(** The arrivals of a schedule. *)
Definition arrives (ts : list turn) (a : arrival) : Prop := exists t x, In t ts /\ In (VArrive x a) (moves_in t).

(** The process is started over stores with a history; no other goroutine has done anything. *)
Definition initial (cfg : config) (g : pblock) (x : real) : Prop := sound cfg g x /\ moved_well g x /\ re_env x = [].

(** ** What peers say *)
(** A message from peer [a] that contains the ID [i]: a block with this ID, a micro-block announcement for it, or a list of IDs. *)
Definition names (i : id) (m : message) : Prop :=
  match m with
  | MBlock (Some b) | MPBBlock (Some b) => pb_id b = i
  | MMicroBlockInv (Some mi) => mi_total mi = i
  | MSignatures ids | MBlockIds ids => In i ids
  | _ => False
  end.
(** The distributor has received such a message from peer [a]. *)
Definition told_by (v : whole) (a : addr) (P : message -> Prop) : Prop := exists from m, In (AMessage from m) (o_seen v) /\ ln_addr from = Some a /\ P m.
Definition said (v : whole) (a : addr) (i : id) : Prop := told_by v a (names i).
(** The call on the linkage does what a message from its peer says. *)
Definition justified (v : whole) (o : op) : Prop :=
  match o with
  | Put b a => told_by v a (fun m => carries m b)
  | Micro mi a => told_by v a (fun m => m = MMicroBlockInv (Some mi))
  | Move i a => told_by v a (fun m => exists ids, (m = MSignatures ids \/ m = MBlockIds ids) /\ In i ids)
  | Reopen => False
  end.
(** Some peer has sent this block; or has announced a micro-block after which a known block has this ID, and then the block
    has the parent, the generator and the timestamp of that known block. *)
Definition vouched (v : whole) (x : Block) : Prop :=
  (exists a b, told_by v a (fun m => carries m b) /\ pb_id b = b_id x /\ pb_parent b = b_parent x /\ pb_gen b = Some (b_gen x) /\ Z.of_N (pb_ts b) = b_ts x) \/
  (exists a mi y, told_by v a (fun m => m = MMicroBlockInv (Some mi)) /\ mi_total mi = b_id x /\ block (re_lk (o_real v)) (mi_ref mi) = Ok y /\
     b_parent x = b_parent y /\ b_gen x = b_gen y /\ b_ts x = b_ts y).
