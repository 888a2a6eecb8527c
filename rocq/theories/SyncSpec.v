(** Specification vocabulary for the synchronisation with an honest peer (C73). *)
From Verif Require Import Base Kv ChainModel ChainSpec PeersModel PeersSpec LoadModel LoadSpec.
Set Implicit Arguments.
Unset Strict Implicit.

(** What an ID stands for: the parent and the base target of the block (an ID is a hash or a signature of the block). *)
Definition meaning := id -> id * N.
Definition true_op (m : meaning) (o : op) : Prop :=
  match o with
  | Put b _ => m (pb_id b) = (pb_parent b, pb_bt b)
  | Micro x _ => m (mi_total x) = m (mi_ref x)
  | _ => True
  end.
(** What the other goroutines may do: anything true about blocks that is not for peer [a]. *)
Definition true_happening (m : meaning) (a : addr) (h : happening) : Prop :=
  match h with HOp o _ => true_op m o /\ (forall i, target o <> Some (a, i)) | HReg o => ~ about a o | HTime _ => True end.
(** The world of an honest peer [a] that has announced the score [sc]. *)
Definition fair (m : meaning) (a : addr) (sc : Z) (x : real) : Prop :=
  no_faults x /\ Forall (fun of => true_op m (fst of)) (re_ops x) /\ Forall (Forall (true_happening m a)) (re_env x) /\
  exists p, reg_peer (re_reg x) a = Ok p /\ p_score p = Some sc.

(** The blocks of the peer on top of genesis, the oldest first. *)
Fixpoint links (i : id) (bs : list pblock) : Prop := match bs with [] => True | b :: bs' => pb_parent b = i /\ links (pb_id b) bs' end.
Definition cids (g : pblock) (bs : list pblock) : list id := pb_id g :: map pb_id bs.
Definition tip (g : pblock) (bs : list pblock) : id := last (map pb_id bs) (pb_id g).
Definition weight (g : pblock) (bs : list pblock) : Z := fold_right Z.add 0%Z (map (fun b => block_score (pb_bt b)) (g :: bs)).
Definition proper_chain (m : meaning) (g : pblock) (bs : list pblock) : Prop :=
  links (pb_id g) bs /\ NoDup (cids g bs) /\
  Forall (fun b => wf_pblock b /\ pb_gen b <> None /\ (0 < pb_bt b <= max_int64)%N /\ m (pb_id b) = (pb_parent b, pb_bt b)) bs.

(** [k] is the position in [c] of the first ID of [ids] that occurs there. *)
Definition common (c ids : list id) (k : nat) : Prop :=
  exists before i after, ids = before ++ i :: after /\ nth_error c k = Some i /\ Forall (fun j => ~ In j c) before.
(** An answer to the request: a piece of the chain that starts not later than after the common block and ends after it, or
    with the head of the chain. *)
Definition answers (c ids reply : list id) : Prop :=
  exists k low high, common c ids k /\ c = low ++ reply ++ high /\ reply <> [] /\ length low <= S k /\
    (S k < length low + length reply \/ high = []).
Inductive answer (g : pblock) (bs : list pblock) (a : addr) : message -> input -> Prop :=
| answer_ids : forall ids reply, answers (cids g bs) ids reply -> answer g bs a (MsgIDs ids) (InIDs a reply)
| answer_block : forall b, In b bs -> answer g bs a (MsgBlock (pb_id b)) (InBlock a (Some b)).

(** The loader, its world, and the requests that [a] has not answered yet. *)
Record scene := { sc_l : loader; sc_x : real; sc_open : list message }.
Definition sent_to (a : addr) (ms : list (addr * message)) : list message := map snd (filter (fun m => addr_eqb a (fst m)) ms).
(** Inputs other than messages of [a]; a tick is in time if the request is not older than 30 seconds. *)
Definition bystander (cfg : config) (g : pblock) (a : addr) (l : loader) (x : real) (i : input) : Prop :=
  match i with
  | InIDs b _ | InBlock b _ => b <> a
  | InTick => forall p, busy l p -> (re_now (meanwhile cfg g x) - pl_ts p <= 30 * second)%Z
  | InSync => True
  end.
Section Honest.
Variable cfg : config.
Variable g : pblock.
Variable ord : list group -> list group.
Variable cord : list (addr * conn) -> list (addr * conn).
Variable srt : list Peer -> list Peer.
Variable a : addr.
Variable bs : list pblock.
Notation rw := (real_world cfg g ord cord srt).
Inductive bystanders (l : loader) (x : real) : loader -> real -> Prop :=
| by_none : bystanders l x l x
| by_one : forall l1 x1 i l2 x2 r, bystanders l x l1 x1 -> bystander cfg g a l1 x1 i ->
    loader_step rw i l1 x1 = ((l2, x2), r) -> returned r -> bystanders l x l2 x2.
(** After some inputs of bystanders, peer [a] answers one of the open requests. *)
Definition honest_step (s s' : scene) : Prop :=
  exists l1 x1 q1 m q2 i r new, bystanders (sc_l s) (sc_x s) l1 x1 /\ sc_open s = q1 ++ m :: q2 /\ answer g bs a m i /\
    loader_step rw i l1 x1 = ((sc_l s', sc_x s'), r) /\ re_sent (sc_x s') = re_sent (sc_x s) ++ new /\
    sc_open s' = q1 ++ q2 ++ sent_to a new.
(** The loader has asked [a] for IDs and nothing else; its IDs and the chain of [a] have the block at position [k] in common. *)
Definition asking (k : nat) (s : scene) : Prop :=
  exists p ids i, busy (sc_l s) p /\ waiting p WaitIDs /\ pl_peer p = a /\ sc_open s = [MsgIDs ids] /\ common (cids g bs) ids k /\
    nth_error (cids g bs) k = Some i /\ lk_has_block (re_lk (sc_x s)) i = Ok true.
End Honest.
