(** Specification vocabulary for the lives of the process (C79, C80). *)
From Verif Require Import Base Kv ChainModel ChainSpec PeersModel PeersSpec LoadModel LoadSpec NetModel NetSpec WholeModel WholeSpec LifeModel.
Set Implicit Arguments.
Unset Strict Implicit.

Definition wf_life (li : life) : Prop :=
  (forall a port, In (Some (a, port)) (li_seeds li) -> go_addr a) /\ Forall wf_turn (li_turns li) /\
  match li_killed li with Some (t, _) => wf_turn t | None => True end.
(** [x] are the stores after any number of lives that began with empty stores, and [seen] is everything that the process has
    received in these lives. The orders of the maps differ from life to life. *)
Inductive lived (cfg : config) (g : pblock) : real -> list arrival -> Prop :=
| lived_new : forall x, initial cfg g x -> re_ops x = [] -> re_rops x = [] -> lived cfg g x []
| lived_on : forall x seen li ord cord srt, lived cfg g x seen -> wf_life li ->
    lived cfg g (o_real (live cfg g ord cord srt x li)) (seen ++ o_seen (live cfg g ord cord srt x li)).

(** A message from peer [a] in any of the lives. *)
Definition ever (seen : list arrival) (a : addr) (P : message -> Prop) : Prop := exists from m, In (AMessage from m) seen /\ ln_addr from = Some a /\ P m.
(** Some peer has sent this block; or has announced a micro-block after which a known block has this ID, and then the block
    has the parent, the generator and the timestamp of that known block. *)
Definition ever_vouched (seen : list arrival) (l : linkage) (x : Block) : Prop :=
  (exists a b, ever seen a (fun m => carries m b) /\ pb_id b = b_id x /\ pb_parent b = b_parent x /\ pb_gen b = Some (b_gen x) /\ Z.of_N (pb_ts b) = b_ts x) \/
  (exists a mi y, ever seen a (fun m => m = MMicroBlockInv (Some mi)) /\ mi_total mi = b_id x /\ block l (mi_ref mi) = Ok y /\
     b_parent x = b_parent y /\ b_gen x = b_gen y /\ b_ts x = b_ts y).

(** The block is a head (nothing is stored on top of it), and some peer's leash is at it. *)
Definition active (es : list entry) (l : linkage) (i : id) : Prop := stored es i /\ ~ extended es i /\ exists a, leashed l a i.
(** The timestamp of the block is 2^63-1 or more. *)
Definition late (es : list entry) (i : id) : Prop := exists e, In e es /\ e_id e = i /\ (max_int64 <= e_ts e)%N.
